(** The passes of [write_proto] in order (pb-rs/src/types.rs:2580-2603). *)
From Coq Require Import String.
From Verif Require Import Base Schema Passes Cycles.
Import StringSyntax.
Local Open Scope string_scope.

(** types.rs:2600-2602 *)
Definition single_module (c : config) (d : file_descriptor) : file_descriptor :=
  if c_single_module c then mkDesc "" (d_syntax d) (d_messages d) (d_enums d) (d_module d) else d.

(** types.rs:2584-2602: everything between reading the file and writing the
    generated module, on the descriptor [read_proto] returned *)
Definition process (c : config) (d : file_descriptor) : gres file_descriptor :=
  match d_messages d, d_enums d with
  | nil, nil => GErr ErrEmptyRead
  | _, _ =>
    gbind (resolve_types d) (fun d1 =>
    gbind (break_cycles (c_error_cycle c) d1) (fun d2 =>
    gbind (sanity_checks d2) (fun _ =>
    gbind (set_defaults (drop_cows c d2)) (fun d4 =>
    GOk (single_module c (sanitize_names d4))))))
  end.
