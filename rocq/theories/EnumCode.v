(** The Rust item that is generated for an enum, and its meaning. *)
From Coq Require Import String Ascii Arith ZArith Lia.
From Verif Require Import Base Schema Keywords Passes.
Import Schema StringSyntax.
Local Open Scope string_scope.
Local Open Scope list_scope.
Local Open Scope Z_scope.

(** ** The generated text, as data *)

(** types.rs:2190-2239: the paths in the bodies of [Default], [From<i32>] and
    [From<&str>]; in both conversions the last arm is [_ => Self::default()] *)
Record enum_impls := mkImpls {
  ii_default : text;
  ii_i32 : list (Z * text);
  ii_str : list (text * text) }.

(** types.rs:2180-2188 [write_definition] *)
Record enum_item := mkItem {
  ei_name : text;
  ei_variants : list (text * Z);
  ei_impls : option enum_impls }.

Definition path2 (a b : text) : text := (a ++ "::" ++ b)%string.

(** types.rs:2133-2139 [set_package]: the partially qualified fields.  They are
    computed when the file has been read, before names are changed. *)
Definition partially_qualified_fields (e : enumerator) : list (text * Z) :=
  map (fun f => (path2 (en_name e) (fst f), snd f)) (en_fields e).

(** types.rs:2163-2178 [Enumerator::write], for the enum [e] of the schema; the
    names are those after [sanitize_names], the partially qualified fields those
    before.  [{:?}] of a name is a literal of the name: names are letters, digits
    and underscores. *)
Definition write_enum (e : enumerator) : enum_item :=
  let e' := enum_sanitize_names e in
  mkItem (en_name e') (en_fields e')
    match en_fields e' with
    | [] => None
    | _ => Some (mkImpls
        match partially_qualified_fields e with (p, _) :: _ => p | [] => "" end
        (map (fun f => (snd f, path2 (en_name e') (fst f))) (en_fields e'))
        (map (fun f => (fst f, path2 (en_name e') (fst f))) (en_fields e')))
    end.

(** ** Specification: what Rust makes of it *)

(** the variant that a path of two segments leads to *)
Definition path_variant (it : enum_item) (p : text) : option text :=
  option_map fst (find (fun v => String.eqb p (path2 (ei_name it) (fst v))) (ei_variants it)).

(** a value of the type is the name of a variant; [x as i32] is its number *)
Definition cast (it : enum_item) (v : text) : option Z :=
  option_map snd (find (fun x => String.eqb v (fst x)) (ei_variants it)).

(** [Default::default()] *)
Definition eval_default (it : enum_item) : option text :=
  match ei_impls it with Some i => path_variant it (ii_default i) | None => None end.
(** [Self::default()]: a variant of this name comes before the function of the
    trait, and cannot be called (E0618) *)
Definition eval_self_default (it : enum_item) : option text :=
  if existsb (fun v => String.eqb (fst v) "default") (ei_variants it) then None else eval_default it.
(** the first arm that matches *)
Definition eval_i32 (it : enum_item) (z : Z) : option text :=
  match ei_impls it with
  | None => None
  | Some i => match find (fun a => z =? fst a) (ii_i32 i) with
              | Some (_, p) => path_variant it p
              | None => eval_self_default it
              end
  end.
Definition eval_str (it : enum_item) (s : text) : option text :=
  match ei_impls it with
  | None => None
  | Some i => match find (fun a => String.eqb s (fst a)) (ii_str i) with
              | Some (_, p) => path_variant it p
              | None => eval_self_default it
              end
  end.

(** The item compiles: names of variants differ (E0428), so do their numbers
    (E0081); every path leads to a variant; no name is a keyword of the language
    ([keywords]). *)
Record item_compiles (keywords : list text) (it : enum_item) : Prop := mkCompiles {
  ic_names : NoDup (map fst (ei_variants it));
  ic_numbers : NoDup (map snd (ei_variants it));
  ic_keywords : forall n, In n (ei_name it :: map fst (ei_variants it)) -> ~ In n keywords;
  ic_default : ei_impls it <> None -> eval_default it <> None /\ eval_self_default it <> None;
  ic_i32 : forall i a, ei_impls it = Some i -> In a (ii_i32 i) -> path_variant it (snd a) <> None;
  ic_str : forall i a, ei_impls it = Some i -> In a (ii_str i) -> path_variant it (snd a) <> None }.
