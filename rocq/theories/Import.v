(** Reading a proto file and everything it imports
    (pb-rs/src/types.rs:2663-2772, [read_proto] and [fetch_imports]).

    The file system is a function from paths to the content of readable files;
    it does not change while files are read.  Only ASCII white space is trimmed
    from what the parser leaves unread.  [path] and [import] of messages and
    enums (types.rs:2671-2680, 2743-2748, 2757-2762) are left out: they are only
    used for includes in the generated text. *)
From Coq Require Import String Ascii Arith.
From Verif Require Import Base Schema Keywords Modules Passes Parser.
Import StringSyntax.
Local Open Scope string_scope.
Local Open Scope list_scope.

(* ---- paths: std::path on Unix ---- *)

(** a path as its components; empty ones and "." are dropped, ".." is kept *)
Record fpath := mkPath { fp_absolute : bool; fp_parts : list text }.

(** [PathBuf::from] *)
Definition path_of (s : text) : fpath :=
  mkPath (String.prefix "/" s)
         (filter (fun p => negb (String.eqb p "") && negb (String.eqb p ".")) (split_on "/" s)).
(** [Path::join] *)
Definition join (p q : fpath) : fpath :=
  if fp_absolute q then q else mkPath (fp_absolute p) (fp_parts p ++ fp_parts q).
(** [Path::parent] *)
Definition parent (p : fpath) : option fpath :=
  match fp_parts p with
  | [] => None
  | ps => Some (mkPath (fp_absolute p) (removelast ps))
  end.
(** [Path::file_stem] *)
Definition file_stem (p : fpath) : option text :=
  match fp_parts p with
  | [] => None
  | ps => let name := last ps "" in
    if String.eqb name ".." then None
    else match rfind_char "." name with
         | Some O | None => Some name
         | Some i => Some (slice 0 i name)
         end
  end.

(* ---- reading ---- *)

(** the errors of [read_proto] (errors.rs), panics, and the fuel of the model *)
Inductive read_error :=
| ErrIo               (* read_to_string fails *)
| ErrNom              (* the parser fails *)
| ErrTrailingGarbage  (* the parser stops early *)
| ErrOutputFile       (* the file has no stem *)
| ErrInvalidImport    (* an import is not found *).
Inductive rres :=
| ROk (d : file_descriptor)
| RErr (e : read_error)
| RPanic
| RFuel.

Definition file_system := fpath -> option text.
Definition file_exists (fs : file_system) (p : fpath) : bool :=
  match fs p with Some _ => true | None => false end.

(** types.rs:3219-3232 [get_file_stem] *)
Definition get_file_stem (p : fpath) : option text := option_map sanitize_stem (file_stem p).

(** types.rs:2717-2722: where an import may be *)
Definition candidate (in_file path : fpath) (import : text) : fpath :=
  if fp_absolute path then join path (path_of import)
  else match parent in_file with
       | None => join path (path_of import)
       | Some p => join (join p path) (path_of import)
       end.
(** types.rs:2715-2728: the first candidate that exists *)
Fixpoint find_import (fs : file_system) (search : list fpath) (in_file : fpath) (import : text)
  : option fpath :=
  match search with
  | [] => None
  | path :: rest =>
    let c := candidate in_file path import in
    if file_exists fs c then Some c else find_import fs rest in_file import
  end.

(** types.rs:2712-2771: the loop over the imports; [read] is [read_proto] *)
Fixpoint fetch (fs : file_system) (search : list fpath) (in_file : fpath)
  (read : fpath -> rres) (d : file_descriptor) (imports : list text) : rres :=
  match imports with
  | [] => ROk d
  | i :: rest =>
    match find_import fs search in_file i with
    | None => RErr ErrInvalidImport
    | Some f =>
      match read f with
      | ROk x => fetch fs search in_file read (add_import d x) rest
      | e => e
      end
    end
  end.

(** types.rs:2682-2688: the module of a file *)
Definition file_module (package : text) (in_file : fpath) : option text :=
  if String.eqb package "" then get_file_stem in_file else Some package.

(** types.rs:2663-2691 [read_proto]; [fuel] bounds the depth of the recursion *)
Fixpoint read_proto (check : bool) (fs : file_system) (search : list fpath)
  (fuel : nat) (in_file : fpath) : rres :=
  match fuel with
  | O => RFuel
  | S n =>
    match fs in_file with
    | None => RErr ErrIo
    | Some s =>
      match p_file check s with
      | PErr => RErr ErrNom
      | PPanic => RPanic
      | PFuel => RFuel
      | POk rest p =>
        if String.eqb (trim rest) ""
        then match file_module (d_package (p_desc p)) in_file with
             | None => RErr ErrOutputFile
             | Some m =>
               let d := p_desc p in
               fetch fs search in_file (read_proto check fs search n)
                 (set_own_package (mkDesc (d_package d) (d_syntax d) (d_messages d) (d_enums d) m))
                 (p_imports p)
             end
        else RErr ErrTrailingGarbage
      end
    end
  end.
