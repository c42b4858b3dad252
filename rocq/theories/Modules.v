(** Package paths, Rust module paths and the mod.rs file
    (pb-rs/src/types.rs:1244-1253, 3097-3113, 3156-3233). *)
From Coq Require Import String Ascii Arith Lia.
From Verif Require Import Base Schema Keywords.
Import StringSyntax.
Local Open Scope string_scope.
Local Open Scope list_scope.

(** [str::rfind(c)] for a single character *)
Fixpoint rfind_char (c : ascii) (s : text) : option nat :=
  match s with
  | EmptyString => None
  | String a s' =>
    match rfind_char c s' with
    | Some i => Some (S i)
    | None => if Ascii.eqb a c then Some O else None
    end
  end.

(** [&s[i..j]] *)
Definition slice (i j : nat) (s : text) : text := String.substring i (j - i) s.

(** types.rs:3156-3165 [split_package] *)
Definition split_package (package : text) : text * text :=
  if String.eqb package "" then ("", "")
  else match rfind_char "." package with
       | Some i => (slice 0 i package, slice (i + 1) (String.length package) package)
       | None => ("", package)
       end.

(** types.rs:1244-1253 [get_modules]; only [package] of the descriptor is used *)
Definition get_modules (module : text) (imported : bool) (package : text) : text :=
  let skip := if String.eqb package "" && negb imported then 1%nat else O in
  String.concat ""
    (map (fun p => (p ++ "::")%string)
         (skipn skip
            (filter (fun p => negb (String.eqb p "")) (split_on "." module)))).

(** types.rs:3097-3113 [write_imports]: the number of [super::]; the test for
    [depth == 0] is never true because [split] yields at least one piece *)
Definition imports_depth (package : text) : nat :=
  match List.length (split_on "." package) with O => 1%nat | n => n end.

(** types.rs:3226-3231, the part of [get_file_stem] after the file system path
    has been taken apart: every character that is not alphanumeric becomes an
    underscore, then keywords are escaped.  Only ASCII text is modelled: here
    [char::is_alphanumeric] is true of no character above 127. *)
Definition is_alphanumeric (a : ascii) : bool :=
  let n := nat_of_ascii a in
  ((48 <=? n) && (n <=? 57) || (65 <=? n) && (n <=? 90) || (97 <=? n) && (n <=? 122))%nat.
Fixpoint map_chars (g : ascii -> ascii) (s : text) : text :=
  match s with EmptyString => "" | String a s' => String (g a) (map_chars g s') end.
Definition sanitize_stem (stem : text) : text :=
  sanitize_keyword (map_chars (fun a => if is_alphanumeric a then a else "_"%char) stem).

(* ---- update_mod_file ---- *)

(** [str::find(pat)] and [str::contains(pat)] *)
Fixpoint find_str (pat s : text) : option nat :=
  if String.prefix pat s then Some O
  else match s with
       | EmptyString => None
       | String _ s' => option_map S (find_str pat s')
       end.
Definition contains_str (pat s : text) : bool :=
  match find_str pat s with Some _ => true | None => false end.

Definition newline : ascii := ascii_of_nat 10.
Definition carriage_return : ascii := ascii_of_nat 13.

(** a trailing carriage return goes with the line feed *)
Definition strip_cr (s : text) : text :=
  match rfind_char carriage_return s with
  | Some i => if (S i =? String.length s)%nat then slice 0 i s else s
  | None => s
  end.

(** [BufRead::lines] on valid UTF-8: the pieces between line feeds, without
    the empty piece after the last one; carriage returns are only removed in
    front of a line feed *)
Fixpoint lines_of_pieces (ps : list text) : list text :=
  match ps with
  | [] => []
  | [p] => if String.eqb p "" then [] else [p]
  | p :: ps' => strip_cr p :: lines_of_pieces ps'
  end.
Definition lines (content : text) : list text :=
  lines_of_pieces (split_on newline content).

(** types.rs:3167 *)
Definition magic_header : text := "// Automatically generated mod.rs".
Definition pub_mod : text := "pub mod ".

(** a UTF-8 continuation byte: slicing in front of it panics *)
Definition is_continuation (a : ascii) : bool :=
  let n := nat_of_ascii a in (128 <=? n)%nat && (n <=? 191)%nat.

(** [&line[i + matches.len()..line.len() - 1]]; [None] is the panic of slicing
    backwards or inside a character *)
Definition mod_name_slice (line : text) (i : nat) : option text :=
  let a := (i + String.length pub_mod)%nat in
  let b := (String.length line - 1)%nat in
  if (a <=? b)%nat
  then match String.get b line with
       | Some c => if is_continuation c then None else Some (slice a b line)
       | None => None
       end
  else None.

(** types.rs:3185-3203: the loop over the lines; [None] is a panic, otherwise
    the final value of [present] *)
Fixpoint scan_mod_lines (name : text) (first : bool) (ls : list text) : option bool :=
  match ls with
  | [] => Some false
  | line :: ls' =>
    if first && negb (contains_str magic_header line) then Some true
    else match find_str pub_mod line with
         | Some i =>
           match mod_name_slice line i with
           | None => None
           | Some rest => if String.eqb rest name then Some true
                          else scan_mod_lines name false ls'
           end
         | None => scan_mod_lines name false ls'
         end
  end.

Definition mod_line (name : text) : text :=
  ("pub mod " ++ name ++ String ";" (String newline ""))%string.

(** types.rs:3169-3217 [update_mod_file] on the content of the mod.rs file
    ([None]: there is no such file); [name] is the file stem of the path.  The
    outer [None] is a panic.  File system errors are not modelled. *)
Definition update_mod_file (name : text) (file : option text) : option (option text) :=
  match file with
  | None => Some (Some (magic_header ++ String newline (mod_line name))%string)
  | Some content =>
    match scan_mod_lines name true (lines content) with
    | None => None
    | Some true => Some (Some content)
    | Some false => Some (Some (content ++ mod_line name)%string)
    end
  end.

(** a sequence of generator runs into one directory *)
Fixpoint update_mod_files (names : list text) (file : option text) : option (option text) :=
  match names with
  | [] => Some file
  | n :: ns => match update_mod_file n file with
               | Some file' => update_mod_files ns file'
               | None => None
               end
  end.
