(** The items of a generated file, and the Rust paths by which the generated
    code refers to them (pb-rs/src/types.rs).

    A module is the list of the names it declares in the type namespace, each
    with what it stands for.  Left out: the names brought in by the fixed [use]
    lines (types.rs:1401-1455, 3068-3095), values and functions. *)
From Coq Require Import String Ascii Arith.
From Verif Require Import Base Schema Gen Keywords Modules Passes.
Import StringSyntax.
Local Open Scope string_scope.
Local Open Scope list_scope.

Inductive ritem :=
| IMessage (i : midx)               (* pub struct *)
| IEnum (q : eidx)                  (* pub enum *)
| IOneof (i : midx) (k : nat)       (* pub enum of the k-th oneof of a message *)
| IMod (globs_super : bool) (items : list (text * ritem)).  (* pub mod; with "use super::*" *)
Definition ritems := list (text * ritem).

(** types.rs:1495-1575 [Message::write]: the struct and, if the message has
    nested messages, enums or oneofs, a module for them *)
Fixpoint emit_message (i : midx) (m : message) : ritems :=
  match m with
  | mkMessage name _ oneofs _ _ _ _ messages enums _ _ =>
    (name, IMessage i) ::
    match messages, enums, oneofs with
    | [], [], [] => []
    | _, _, _ =>
      [(("mod_" ++ name)%string,
        IMod (match messages, oneofs with [], [] => false | _, _ => true end)
          ((fix go (k : nat) (l : list message) : ritems :=
              match l with [] => [] | x :: l' => emit_message (i ++ [k]) x ++ go (S k) l' end) O messages
           ++ map (fun '(k, e) => (en_name e, IEnum (mkEidx i k))) (number_from 0 enums)
           ++ map (fun '(k, o) => (("OneOf" ++ o_name o)%string, IOneof i k)) (number_from 0 oneofs)))]
    end
  end.
(** types.rs:3115-3128 [write_enums] and 3139-3144 [write_messages]: what is
    imported is not written *)
Definition emit_file (d : file_descriptor) : ritems :=
  flat_map (fun '(k, e) => if en_imported e then [] else [(en_name e, IEnum (mkEidx [] k))]) (number_from 0 (d_enums d))
  ++ flat_map (fun '(k, m) => if m_imported m then [] else emit_message [k] m) (number_from 0 (d_messages d)).

(** ** Where the file is *)

(** types.rs:2603-2640: the modules that lead to the generated file; [stem] is
    [get_file_stem(out_file)].  Only the last one is escaped. *)
Definition own_path (package stem : text) : list text :=
  let (prefix, file_package) := split_package package in
  let file := if String.eqb file_package "" then stem else sanitize_keyword file_package in
  if String.eqb prefix "" then [file] else split_on "." prefix ++ [file].

(** ** Paths *)

(** types.rs:1244-1253 [get_modules], as the segments of the path *)
Definition module_path (module : text) (imported : bool) (package : text) : list text :=
  skipn (if String.eqb package "" && negb imported then 1 else 0)
        (filter (fun p => negb (String.eqb p "")) (split_on "." module)).

(** types.rs:394-405 [rust_type], 339-341, 418-426: how a message or an enum is
    named wherever it is used; types.rs:2373-2397 and the other places where a
    oneof is named *)
Definition message_path (d : file_descriptor) (m : message) : list text :=
  module_path (m_module m) (m_imported m) (d_package d) ++ [m_name m].
Definition enum_path (d : file_descriptor) (e : enumerator) : list text :=
  module_path (en_module e) (en_imported e) (d_package d) ++ [en_name e].
Definition oneof_path (d : file_descriptor) (o : oneof) : list text :=
  module_path (o_module o) (o_imported o) (d_package d) ++ [("OneOf" ++ o_name o)%string].

(** types.rs:2132-2152: the first of the [fully_qualified_fields], the path of
    a variant of the enum.  They are computed before the names are escaped, and
    never skip a segment. *)
Definition qualified_value (e : enumerator) : option (list text) :=
  match en_fields e with
  | [] => None
  | (v, _) :: _ => Some ((if String.eqb (en_module e) "" then [] else split_on "." (en_module e)) ++ [en_name e; v])
  end.

(** ** How Rust finds an item *)

Fixpoint assoc {A} (n : text) (l : list (text * A)) : option A :=
  match l with [] => None | (n', a) :: l' => if String.eqb n n' then Some a else assoc n l' end.

(** the segments after the first one *)
Fixpoint walk (it : ritem) (path : list text) : option ritem :=
  match path with
  | [] => Some it
  | s :: rest => match it with
                 | IMod _ items => match assoc s items with Some it' => walk it' rest | None => None end
                 | _ => None
                 end
  end.

(** the first segment: the module itself, then the modules whose items it
    imports with a glob, in turn; an item of the module has precedence *)
Fixpoint resolve (scopes : list ritems) (path : list text) : option ritem :=
  match path, scopes with
  | [], _ | _, [] => None
  | s :: rest, items :: outer =>
    match assoc s items with
    | Some it => walk it rest
    | None => resolve outer path
    end
  end.

(** the scopes, innermost first, of the module that [path] leads to, starting
    from a module whose scopes are [items :: outer] *)
Fixpoint inner_scopes (items : ritems) (outer : list ritems) (path : list text) : option (list ritems) :=
  match path with
  | [] => Some (items :: outer)
  | s :: rest =>
    match assoc s items with
    | Some (IMod globs sub) => inner_scopes sub (if globs then items :: outer else []) rest
    | _ => None
    end
  end.

(** the module in which a message is declared: the modules of the messages
    around it *)
Fixpoint mods_in (l : list message) (i : midx) : list text :=
  match i with
  | [] | [_] => []
  | k :: rest => match nth_error l k with
                 | Some m => ("mod_" ++ m_name m)%string :: mods_in (m_messages m) rest
                 | None => []
                 end
  end.
Definition mods (d : file_descriptor) (i : midx) : list text := mods_in (d_messages d) i.

(** types.rs:3097-3113 [write_imports]: the file imports everything from the
    module so many levels above it; [root] are the items of the mod.rs file of
    the output directory *)
Definition glob_target (root : ritems) (d : file_descriptor) (stem : text) : option ritems :=
  let path := own_path (d_package d) stem in
  let depth := imports_depth (d_package d) in
  if (length path <? depth)%nat then None
  else match walk (IMod false root) (firstn (length path - depth) path) with
       | Some (IMod _ items) => Some items
       | _ => None
       end.

(** the scopes in which the code for a message or one of its oneofs is written
    ([path]: the modules inside the file) *)
Definition scopes_at (root : ritems) (d : file_descriptor) (stem : text) (path : list text) : option (list ritems) :=
  match glob_target root d stem with
  | Some outer => inner_scopes (emit_file d) [outer] path
  | None => None
  end.
