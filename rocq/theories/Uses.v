(** The names that generated code takes from elsewhere: the fixed [use] lines
    that pb-rs writes, the names that the generated code mentions, and how Rust
    finds them (pb-rs/src/types.rs).

    Only the type namespace (types, traits, modules) and the traits needed by
    method calls are modelled.  Left out: --custom_includes, the functions of
    sizeofs.rs, RPC services, and the feature generateImplFromForEnums. *)
From Coq Require Import String Ascii Arith.
From Verif Require Import Base Schema Passes Gen GenCheck Lifetime RustTypes Emit.
Import StringSyntax.
Local Open Scope string_scope.
Local Open Scope list_scope.

(** what a name can stand for *)
Inductive source :=
| SPrimitive (n : text)                       (* i32, str, ... *)
| SVec | SString | SBox | SOption | SStdResult
| SDefault | SFrom | SToOwned | SToString      (* traits of the prelude of std *)
| SCow | SHashMap | SBTreeMap | SKVMap
| STryFrom | STryInto
| SMessageInfo | SMessageRead | SMessageWrite | SBytesReader | SWriter | SWriterBackend | SResult
| SPackedFixed | SPackedFixedIntoIter | SPackedFixedRefIter
| SGenerated.                                 (* an item of the generated code *)
Definition scope := list (text * source).

(** types.rs:2538-2557 [Config]: the options that only matter here; [u_owned]
    is copied into the descriptor (2569) *)
Record uoptions := mkUses { u_nostd : bool; u_hashbrown : bool; u_owned : bool; u_info : bool; u_getters : bool }.

(** ** The use lines *)

(** types.rs:231-237 [has_cow], 239-241 [has_bytes_and_string], 243-245
    [is_map] *)
Fixpoint has_cow (t : field_type) : bool :=
  match t with
  | TStringCow | TBytesCow => true
  | TMap k v => has_cow k || has_cow v
  | _ => false
  end.
Definition has_bytes_and_string (t : field_type) : bool :=
  match t with TBytes | TString => true | _ => false end.
Definition type_is_map (t : field_type) : bool := match t with TMap _ _ => true | _ => false end.

(** types.rs:1360-1376 [Message::has_lifetime] as called without messages to
    ignore *)
Definition lifetime (c : config) (d : file_descriptor) (m : message) : bool :=
  match message_has_lifetime c d (lifetime_fuel d) [] m with GOk b => b | GErr _ => false end.

(** types.rs:1401-1455 [write_common_uses].  [type KVMap<K, V> = ..] counts as
    a line of its own. *)
Definition common_uses (u : uoptions) (c : config) (d : file_descriptor) (ms : list message) : scope :=
  (if u_nostd u then [("Vec", SVec)] else [])
  ++ (if negb (c_dont_use_cow c)
      then if existsb (fun m => existsb (fun f => has_cow (f_typ f) || (f_is_packed f && is_fixed_size (f_typ f))) (all_fields m)) ms
           then [("Cow", SCow)] else []
      else if u_nostd u && existsb (fun m => existsb (fun f => has_bytes_and_string (f_typ f)) (all_fields m)) ms
           then [("ToOwned", SToOwned)] else [])
  ++ (if u_nostd u && existsb (fun m => u_owned u && lifetime c d m || existsb f_boxed (all_fields m)) ms
      then [("Box", SBox)] else [])
  ++ (if existsb (fun m => existsb (fun f => type_is_map (f_typ f)) (all_fields m)) (filter (fun m => negb (m_imported m)) ms)
      then if u_hashbrown u then [("HashMap", SHashMap); ("KVMap", SKVMap)]
           else if u_nostd u then [("BTreeMap", SBTreeMap); ("KVMap", SKVMap)]
           else [("HashMap", SHashMap); ("KVMap", SKVMap)]
      else []).

(** types.rs:3068-3095 [write_uses] *)
Definition file_uses (u : uoptions) (c : config) (d : file_descriptor) : scope :=
  let convert := if u_owned u then [("TryFrom", STryFrom); ("TryInto", STryInto)] else [] in
  if forallb is_unit (d_messages d)
  then [("BytesReader", SBytesReader); ("Result", SResult); ("MessageInfo", SMessageInfo); ("MessageRead", SMessageRead);
        ("MessageWrite", SMessageWrite)] ++ convert
  else common_uses u c d (d_messages d)
       ++ [("MessageInfo", SMessageInfo); ("MessageRead", SMessageRead); ("MessageWrite", SMessageWrite);
           ("BytesReader", SBytesReader); ("Writer", SWriter); ("WriterBackend", SWriterBackend); ("Result", SResult);
           ("PackedFixed", SPackedFixed); ("PackedFixedIntoIter", SPackedFixedIntoIter); ("PackedFixedRefIter", SPackedFixedRefIter)]
       ++ convert.

(** ** The items of the generated modules *)

Definition has_module (m : message) : bool :=
  match m_messages m, m_enums m, m_oneofs m with [], [], [] => false | _, _, _ => true end.
(** types.rs:1501-1575 [Message::write] and 1780-1888 [write_impl_owned]: the
    items declared for a message next to its struct *)
Definition message_items (u : uoptions) (c : config) (d : file_descriptor) (m : message) : list text :=
  [m_name m]
  ++ (if u_owned u && lifetime c d m then [(m_name m ++ "OwnedInner")%string; (m_name m ++ "Owned")%string] else [])
  ++ (if has_module m then [("mod_" ++ m_name m)%string] else []).
(** types.rs:1549-1567: the items of the module of a message *)
Definition module_items (u : uoptions) (c : config) (d : file_descriptor) (m : message) : list text :=
  flat_map (message_items u c d) (m_messages m) ++ map en_name (m_enums m)
  ++ map (fun o => ("OneOf" ++ o_name o)%string) (m_oneofs m).
(** types.rs:3115-3144 [write_enums], [write_messages] *)
Definition file_items (u : uoptions) (c : config) (d : file_descriptor) : list text :=
  map en_name (filter (fun e => negb (en_imported e)) (d_enums d))
  ++ flat_map (message_items u c d) (filter (fun m => negb (m_imported m)) (d_messages d)).

Definition items_scope (l : list text) : scope := map (fun n => (n, SGenerated)) l.
Definition module_scope (u : uoptions) (c : config) (d : file_descriptor) (m : message) : scope :=
  common_uses u c d (m_messages m) ++ items_scope (module_items u c d m).
Definition file_scope (u : uoptions) (c : config) (d : file_descriptor) : scope :=
  file_uses u c d ++ items_scope (file_items u c d).
(** types.rs:1551-1553: "use super::*" *)
Definition globs_super (m : message) : bool :=
  match m_messages m, m_oneofs m with [], [] => false | _, _ => true end.

(** The scopes, innermost first, of the module of a message; [outer] are the
    scopes of the module that the message is declared in. *)
Definition inside (u : uoptions) (c : config) (d : file_descriptor) (m : message) (outer : list scope) : list scope :=
  module_scope u c d m :: (if globs_super m then outer else []).
(** The scopes of the module that the message at [i] is declared in, [acc] are
    those of the module that declares [ms]. *)
Fixpoint scopes_in (u : uoptions) (c : config) (d : file_descriptor) (acc : list scope) (ms : list message) (i : midx)
    : option (list scope) :=
  match i with
  | [] => None
  | k :: rest =>
    match nth_error ms k with
    | None => None
    | Some m => match rest with
                | [] => Some acc
                | _ => scopes_in u c d (inside u c d m acc) (m_messages m) rest
                end
    end
  end.
(** types.rs:3097-3108 [write_imports]: [super] is what the glob import at the
    head of the file brings in *)
Definition file_scopes (u : uoptions) (c : config) (d : file_descriptor) (super : list text) : list scope :=
  [file_scope u c d; items_scope super].
Definition scopes_of (u : uoptions) (c : config) (d : file_descriptor) (super : list text) (i : midx) : option (list scope) :=
  scopes_in u c d (file_scopes u c d super) (d_messages d) i.

(** ** The names mentioned *)

Inductive mention :=
| MName (n : text) (s : source)   (* the name, and what it is meant to be *)
| MTrait (s : source).            (* a method call that needs the trait *)
Definition prim (n : text) : mention := MName n (SPrimitive n).

(** the text of a type: types.rs:380-413, 812-837 *)
Fixpoint type_mentions (t : rtype) : list mention :=
  match t with
  | YI32 => [prim "i32"] | YI64 => [prim "i64"] | YU32 => [prim "u32"] | YU64 => [prim "u64"]
  | YF32 => [prim "f32"] | YF64 => [prim "f64"] | YBool => [prim "bool"] | YU8 => [prim "u8"] | YUsize => [prim "usize"]
  | YUnit => []
  | YStr => [prim "str"]
  | YString => [MName "String" SString]
  | YSlice t | YRef t => type_mentions t
  | YVec t => MName "Vec" SVec :: type_mentions t
  | YCow t => MName "Cow" SCow :: type_mentions t
  | YOption t => MName "Option" SOption :: type_mentions t
  | YBox t => MName "Box" SBox :: type_mentions t
  | YMap k v => MName "KVMap" SKVMap :: type_mentions k ++ type_mentions v
  | YPacked t => MName "PackedFixed" SPackedFixed :: type_mentions t
  | YMsg _ | YEnum _ | YOneof _ => []            (* paths of generated items: Props_Paths.v *)
  | YResult t => MName "Result" SResult :: type_mentions t
  | YPair a b => type_mentions a ++ type_mentions b
  end.

Fixpoint expr_mentions (e : expr) : list mention :=
  match e with
  | EVar _ | ESelf _ | ELit _ | EStr | EBytes | EPath _ | EUnit => []
  | ECowBorrowed e => MName "Cow" SCow :: expr_mentions e
  | EToString e => MTrait SToString :: expr_mentions e
  | EVecU8 => [MName "Vec" SVec; prim "u8"]
  | EDefaultOf _ => [MTrait SDefault]
  | ECast e t => type_mentions t ++ expr_mentions e
  | EGetSize e => MTrait SMessageWrite :: expr_mentions e
  | EOk e | EToVec e | ERef e | EDeref e | ELen e | EIsEmpty e | ECall _ e | EAsRef e | EAsStr e | EAsSlice e | ETry e | EIter e
  | EWrite _ e | EWriteMessage e | EWithTag e | EWritePackedFixed e => expr_mentions e
  | ECmp a b | EAdd a b | EMul a b | EUnwrapOr a b | EMap a _ b | EFor _ a b => expr_mentions a ++ expr_mentions b
  | ESumMap a _ b => prim "usize" :: expr_mentions a ++ expr_mentions b
  | EIf a b c | EMapOr a b _ c | EWriteMap a b c | EWritePacked a _ b _ c => expr_mentions a ++ expr_mentions b ++ expr_mentions c
  end.
Definition read_expr_mentions (e : read_expr) : list mention :=
  match e with
  | RdCow _ => [MName "Cow" SCow]
  | RdOwned _ => [MTrait SToOwned]
  | _ => []
  end.
Definition read_mentions (s : read_stmt) : list mention :=
  match s with
  | RsSomeBox _ e => MName "Box" SBox :: read_expr_mentions e
  | RsVariant _ _ _ boxed e => (if boxed then [MName "Box" SBox] else []) ++ read_expr_mentions e
  | RsSome _ e | RsSet _ e | RsPacked _ e | RsPush _ e => read_expr_mentions e
  | RsInsert _ k v => read_expr_mentions k ++ read_expr_mentions v
  | RsPackedFixed _ | RsBad => []
  end.
Definition init_mentions (x : init_expr) : list mention :=
  match x with
  | XNone => []
  | XVec => [MName "Vec" SVec]
  | XPacked => [MName "PackedFixed" SPackedFixed; MTrait SFrom; MName "Vec" SVec]
  | XHashMap => [MName "HashMap" SHashMap]
  | XExpr e => expr_mentions e
  end.

(** types.rs:1669-1691 [write_impl_message_info], 1693-1755
    [write_impl_message_read], 1757-1778 [write_impl_message_write], 1901-1956:
    the headers of the impls and the fixed lines *)
Definition fixed_mentions (u : uoptions) (m : message) : list mention :=
  [MName "MessageRead" SMessageRead; MName "BytesReader" SBytesReader; prim "u8"; MName "Result" SResult; MTrait SDefault;
   MName "MessageWrite" SMessageWrite]
  ++ (if is_unit m then [] else [prim "usize"; MName "WriterBackend" SWriterBackend; MName "Writer" SWriter])
  ++ (if u_info u then [MName "MessageInfo" SMessageInfo; prim "str"] else []).
(** types.rs:1780-1899 [write_impl_owned] and 1919-1935 [write_impl_try_from] *)
Definition owned_mentions (u : uoptions) (c : config) (d : file_descriptor) (m : message) : list mention :=
  if u_owned u then
    if lifetime c d m
    then [MName "Vec" SVec; prim "u8"; MName "Option" SOption; MName "Result" SResult; MName "Box" SBox;
          MName "BytesReader" SBytesReader; MTrait SMessageRead; MName "TryFrom" STryFrom; MName "TryInto" STryInto;
          MName "Writer" SWriter; MTrait SMessageWrite; MName "From" SFrom]
         ++ (if u_info u then [MName "MessageInfo" SMessageInfo; prim "str"] else [])
    else [MName "TryFrom" STryFrom; prim "u8"; MName "Result" SResult; MName "BytesReader" SBytesReader; MTrait SMessageRead]
  else [].
(** types.rs:1501-1547, 1577-1629: everything written for a message outside of
    its module *)
Definition message_mentions (u : uoptions) (c : config) (d : file_descriptor) (m : message) : list mention :=
  let syn := d_syntax d in
  fixed_mentions u m
  ++ flat_map (fun f => type_mentions (field_rtype c f)) (visible_fields c m)
  ++ flat_map (fun '(_, e, t) => expr_mentions e ++ type_mentions t) (const_code syn c m)
  ++ (if u_getters u then flat_map (fun '(_, e, t) => expr_mentions e ++ type_mentions t) (getter_code syn c m) else [])
  ++ (if message_must_generate_impl_default syn c m
      then MName "Default" SDefault :: flat_map (fun '(x, _) => init_mentions x) (init_code c m) else [])
  ++ flat_map read_mentions (read_code c m)
  ++ flat_map (fun '(_, e, _) => expr_mentions e) (size_code c m)
  ++ flat_map (fun '(_, e, _) => expr_mentions e) (write_code c m)
  ++ owned_mentions u c d m.
(** types.rs:2274-2320, 2350-2371 [OneOf::write]: in the module of the message *)
Definition oneof_mentions (c : config) (o : oneof) : list mention :=
  MName "Default" SDefault :: flat_map (fun f => type_mentions (variant_rtype f)) (oneof_variants c o).
(** types.rs:2166-2233: in the module that declares the enum *)
Definition enum_mentions : list mention :=
  [MName "Default" SDefault; MTrait SDefault; MName "From" SFrom; prim "i32"; prim "str"].

(** ** How Rust finds them *)

(** the prelude of std, or of core for a crate without std, as far as the
    generated code needs it; and the primitive types *)
Definition primitives : scope :=
  map (fun n => (n, SPrimitive n)) ["i32"; "i64"; "u32"; "u64"; "f32"; "f64"; "bool"; "u8"; "usize"; "str"].
Definition prelude (nostd : bool) : scope :=
  [("Option", SOption); ("Result", SStdResult); ("Default", SDefault); ("From", SFrom)]
  ++ (if nostd then [] else [("Vec", SVec); ("String", SString); ("Box", SBox); ("ToOwned", SToOwned); ("ToString", SToString)])
  ++ primitives.

(** The name is looked up in the scopes in turn; in the first one that has it,
    it has to stand for one thing only. *)
Definition resolves (scopes : list scope) (n : text) (s : source) : Prop :=
  exists pre sc post, scopes = pre ++ sc :: post /\
    Forall (fun x => ~ In n (map fst x)) pre /\ In (n, s) sc /\ (forall s', In (n, s') sc -> s' = s).
(** A trait is in scope under any name; the prelude's traits are whatever the
    module declares. *)
Definition trait_in_scope (scopes : list scope) (s : source) : Prop :=
  exists sc n, In sc scopes /\ In (n, s) sc.
Definition available (scopes : list scope) (x : mention) : Prop :=
  match x with
  | MName n s => resolves scopes n s
  | MTrait s => trait_in_scope scopes s
  end.
