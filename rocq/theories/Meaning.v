(** The meaning of the generated trees (GenAst.v, RustSem.v) is that of Gen.v and
    GenSem.v. *)
From Coq Require Import String Ascii Arith ZArith Lia Bool.
From Verif Require Import Base Reader PackedFixed Writer Sizeofs Spec Schema Keywords Modules Passes Gen GenSem GenSpec GenCheck.
From Verif Require Import RustTypes Emit Literals Output Paths GenText RustLex RustAst RustParse GenAst RustSem.
Import Schema StringSyntax.
Local Open Scope string_scope.
Local Open Scope list_scope.
Local Open Scope Z_scope.

(** ** The Rust value of a value of GenSem.v *)
Section Embed.
Variable d : file_descriptor.
Variable c : config.
(** the names and the types of the fields of a struct *)
Definition named_slots (m : message) : list (text * slot_type) :=
  map (fun f => (f_name f, get_type c f)) (visible_fields c m)
  ++ map (fun o => (o_name o, TyOneof (oneof_variants c o))) (m_oneofs m).
Fixpoint rust_value (t : field_type) (v : value) {struct v} : rv :=
  match v with
  | VZ z => match t with TFloat => XFloat false z | TDouble => XFloat true z | TEnum q => XEnum q z | _ => XInt z end
  | VBool b => XBool b
  | VB b => XBytes b
  | VMsg ss =>
    match t with
    | TMessage i =>
      match get_message d i with
      | Some m => XStruct i ((fix all (l : list (text * slot_type)) (ss : list slot) {struct ss} : list (text * rv) :=
                                match ss, l with
                                | s :: ss', (n, ty) :: l' => (n, rust_slot ty s) :: all l' ss'
                                | _, _ => []
                                end) (named_slots m) ss)
      | None => XUnit
      end
    | _ => XUnit
    end
  end
with rust_slot (ty : slot_type) (s : slot) {struct s} : rv :=
  match s with
  | SlOne v => match ty with TyPlain t => rust_value t v | _ => XUnit end
  | SlNone => XOpt None
  | SlSome v => match ty with TyOption t | TyOptionBox t => XOpt (Some (rust_value t v)) | _ => XUnit end
  | SlVec l => match ty with TyVec t => XList (map (rust_value t) l) | _ => XUnit end
  | SlPF q => match ty with TyPackedFixed k => XPacked k q | _ => XUnit end
  | SlMap l => match ty with TyMap tk tv => XMap (map (fun '(k, v) => (rust_value tk k, rust_value tv v)) l) | _ => XUnit end
  | SlOneofNone => XVariant "None" None
  | SlOneof i v =>
    match ty with
    | TyOneof vs => match nth_error vs i with Some f => XVariant (f_name f) (Some (rust_value (f_typ f) v)) | None => XUnit end
    | _ => XUnit
    end
  end.
Fixpoint rust_slots (l : list (text * slot_type)) (ss : list slot) {struct ss} : list (text * rv) :=
  match ss, l with
  | s :: ss', (n, ty) :: l' => (n, rust_slot ty s) :: rust_slots l' ss'
  | _, _ => []
  end.
Definition rust_struct (i : midx) (m : message) (ss : list slot) : rv := XStruct i (rust_slots (named_slots m) ss).
End Embed.

(** ** The program *)
Definition generated_program (g : gen_config) (d d0 : file_descriptor) : program :=
  mkProgram
    (fun i => match get_message d i with Some m => message_items g d d0 m | None => [] end)
    (fun q => match get_enum d q, get_enum d0 q with Some e, Some e0 => enum_items e e0 | _, _ => [] end)
    (fun i n => match get_message d i with
                | Some m => match find (fun o => String.eqb n (o_name o)) (m_oneofs m) with Some o => oneof_items g d o | None => [] end
                | None => []
                end).

(** ** What is assumed *)
Section Assumed.
Variable g : gen_config.
Variables d d0 : file_descriptor.
Variable t : target.
Variable names : scope -> list text -> option rtype.
Variable lit : field_type -> text -> option value.
Let c : config := g_passes g.

(** The names in scope are those that the paths of the generated code stand for
    (C66); a path of one segment is not the name of a type of the language. *)
Definition own_name (q : list text) : Prop :=
  match q with [n] => primitive n = None /\ constructor_of n = None /\ n <> "Self" | _ => True end.
Record names_ok : Prop := mkNamesOk {
  no_message : forall i m j x, get_message d i = Some m -> get_message d j = Some x ->
    own_name (message_path d x) /\
    names (InMsg i) (message_path d x) = Some (YMsg j) /\
    forall o, In o (m_oneofs m) -> names (InOneof i (o_name o)) (message_path d x) = Some (YMsg j);
  no_enum : forall i m q e, get_message d i = Some m -> get_enum d q = Some e ->
    own_name (enum_path d e) /\
    names (InMsg i) (enum_path d e) = Some (YEnum q) /\
    forall o, In o (m_oneofs m) -> names (InOneof i (o_name o)) (enum_path d e) = Some (YEnum q);
  no_oneof : forall i m o, get_message d i = Some m -> In o (m_oneofs m) ->
    own_name (oneof_path d o) /\
    names (InMsg i) (oneof_path d o) = Some (YOneof (o_name o)) /\
    names (InOneof i (o_name o)) [oneof_name o] = Some (YOneof (o_name o));
  no_own_enum : forall q e, get_enum d q = Some e -> own_name [en_name e] /\ names (InEnum q) [en_name e] = Some (YEnum q);
  (* the path of the first value of an enum was made before the names were
     changed *)
  no_value : forall q e, get_enum d q = Some e -> exists e0 v z l r p,
    en_fields e = (v, z) :: l /\
    get_enum d0 q = Some e0 /\ en_name e0 = en_name e /\ en_fields e0 = (v, z) :: r /\
    qualified_value e0 = Some (p ++ [v]) /\ own_name p /\ forall i m, get_message d i = Some m -> names (InMsg i) p = Some (YEnum q) }.

(** Names that the compiler asks to be distinct; only
    messages are boxed. *)
Record plain_names : Prop := mkPlainNames {
  pn_fields : forall i m, get_message d i = Some m -> NoDup (map fst (named_slots c m));
  pn_variants : forall i m o, get_message d i = Some m -> In o (m_oneofs m) -> NoDup ("None" :: map f_name (oneof_variants c o));
  pn_values : forall q e, get_enum d q = Some e -> NoDup (map fst (en_fields e));
  pn_boxed : forall i m f, get_message d i = Some m -> In f (all_fields m) -> f_boxed f = true -> exists j, f_typ f = TMessage j }.

(** the constants of [default] options have the values that [lit] says *)
Definition with_suffix (ty : field_type) (e : rexp) : rexp :=
  match ty with
  | TString => post e [method "to_string" []]
  | TBytes => post e [method "to_vec" []]
  | _ => e
  end.
Definition constants_ok : Prop :=
  forall i m f s v, get_message d i = Some m -> In f (visible_fields c m) -> f_default f = Some s -> lit (f_typ f) s = Some v ->
  forall w fuel h st, w_numbers w = numbers_of (generated_program g d d0) -> w_variants w = variants_of names (generated_program g d d0) ->
    eval t names w (InMsg i) fuel h (with_suffix (f_typ f) (exp_of s)) st = Go (rust_value d c (f_typ f) v) st /\
    eval t names w (InMsg i) fuel h (exp_of s) st = Go (rust_value d c (f_typ f) v) st.
End Assumed.

(** paths by search *)
Definition found_message (d : file_descriptor) (q : list text) : option rtype :=
  option_map (fun p => YMsg (fst p)) (find (fun p => path_eqb (message_path d (snd p)) q) (all_messages d)).
Definition enums_of_messages (d : file_descriptor) : list (eidx * enumerator) :=
  map (fun p => (mkEidx [] (fst p), snd p)) (number_from 0 (d_enums d))
  ++ flat_map (fun im => map (fun p => (mkEidx (fst im) (fst p), snd p)) (number_from 0 (m_enums (snd im)))) (all_messages d).
Definition found_enum (d : file_descriptor) (q : list text) : option rtype :=
  option_map (fun p => YEnum (fst p)) (find (fun p => path_eqb (enum_path d (snd p)) q) (enums_of_messages d)).
Definition search_names (d : file_descriptor) (here : scope) (q : list text) : option rtype :=
  match here with
  | InEnum e => match get_enum d e with Some x => if path_eqb [en_name x] q then Some (YEnum e) else None | None => None end
  | InOneof i o => if path_eqb [("OneOf" ++ o)%string] q then Some (YOneof o) else
                   match found_message d q with Some y => Some y | None => found_enum d q end
  | InMsg i =>
    match found_message d q with
    | Some y => Some y
    | None =>
      match found_enum d q with
      | Some y => Some y
      | None => match get_message d i with
                | Some m => option_map (fun o => YOneof (o_name o)) (find (fun o => path_eqb (oneof_path d o) q) (m_oneofs m))
                | None => None
                end
      end
    end
  end.
