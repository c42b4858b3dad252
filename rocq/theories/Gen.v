(** Model of the code generator's output (pb-rs/src/types.rs).

    The functions of types.rs that write the bodies of [from_reader],
    [get_size], [write_message] and [default] are modelled as functions
    producing a small abstract syntax of the emitted Rust, in the same case
    analysis as the original; [GenSem.v] interprets that syntax.  What the text
    adds for the borrow checker ([&], [*], [ref], [Box::new], [Cow::Borrowed],
    [to_owned]) does not change values and is dropped, except that boxing is
    kept visible.

    A struct field is referred to by its position in the struct. *)
From Verif Require Import Base Reader PackedFixed Schema.

(** the scalar types with a [read_xxx]/[write_xxx] pair of the same name
    (types.rs:285-309 [proto_type]) *)
Inductive scalar :=
| SInt32 | SInt64 | SUint32 | SUint64 | SSint32 | SSint64 | SBool
| SFixed64 | SSfixed64 | SDouble | SFixed32 | SSfixed32 | SFloat.

(** the call reading one value: [r.read_xxx(bytes)?] *)
Inductive rexpr :=
| RScalar (s : scalar)
| REnum (e : eidx)            (* r.read_enum(bytes)?, From<i32> of the inferred type *)
| RString | RBytes
| RMessage (m : midx)         (* r.read_message::<M>(bytes)? *)
| RBad.                       (* generation fails: Error::ReadFnMap or unreachable! *)

(** types.rs:416-449 [read_fn] *)
Definition read_fn (t : field_type) : rexpr :=
  match t with
  | TMessage m => RMessage m
  | TMap _ _ => RBad
  | TStringCow | TString => RString
  | TBytesCow | TBytes => RBytes
  | TMessageOrEnum _ => RBad
  | TEnum e => REnum e
  | TInt32 => RScalar SInt32 | TInt64 => RScalar SInt64
  | TUint32 => RScalar SUint32 | TUint64 => RScalar SUint64
  | TSint32 => RScalar SSint32 | TSint64 => RScalar SSint64
  | TBool => RScalar SBool
  | TFixed64 => RScalar SFixed64 | TSfixed64 => RScalar SSfixed64 | TDouble => RScalar SDouble
  | TFixed32 => RScalar SFixed32 | TSfixed32 => RScalar SSfixed32 | TFloat => RScalar SFloat
  end.

(** the expression for the size of one value *)
Inductive sexpr :=
| ZVarint                     (* sizeof_varint of the value cast to u64 *)
| ZSint32 | ZSint64
| ZConst (n : Z)
| ZLen                        (* sizeof_len(s.len()) *)
| ZMessage (m : midx)         (* sizeof_len(s.get_size()) *)
| ZBad.

(** types.rs:451-476 [get_size], except the [Map] case (see [map_entry_size]) *)
Definition size_fn (t : field_type) : sexpr :=
  match t with
  | TInt32 | TInt64 | TUint32 | TUint64 | TBool | TEnum _ => ZVarint
  | TSint32 => ZSint32
  | TSint64 => ZSint64
  | TFixed64 | TSfixed64 | TDouble => ZConst 8
  | TFixed32 | TSfixed32 | TFloat => ZConst 4
  | TStringCow | TBytesCow | TString | TBytes => ZLen
  | TMessage m => ZMessage m
  | TMap _ _ | TMessageOrEnum _ => ZBad
  end.

(** the call writing one value: [w.write_xxx(s)] *)
Inductive wexpr :=
| WScalar (s : scalar)
| WEnum
| WString | WBytes
| WMessage (m : midx)
| WBad.

(** types.rs:478-515 [get_write], except the [Map] case *)
Definition write_fn (t : field_type) : wexpr :=
  match t with
  | TEnum _ => WEnum
  | TInt32 => WScalar SInt32 | TInt64 => WScalar SInt64
  | TUint32 => WScalar SUint32 | TUint64 => WScalar SUint64
  | TSint32 => WScalar SSint32 | TSint64 => WScalar SSint64
  | TBool => WScalar SBool
  | TFixed64 => WScalar SFixed64 | TSfixed64 => WScalar SSfixed64 | TDouble => WScalar SDouble
  | TFixed32 => WScalar SFixed32 | TSfixed32 => WScalar SSfixed32 | TFloat => WScalar SFloat
  | TStringCow | TString => WString
  | TBytesCow | TBytes => WBytes
  | TMessage m => WMessage m
  | TMap _ _ | TMessageOrEnum _ => WBad
  end.

(** the [Map] case of [get_size] (types.rs:471-473) is [2 + k + v]; of
    [get_write] (types.rs:505-512) [write_map(size, tag1, k, tag2, v)] *)
Record map_entry := mkEntry {
  me_size_k : sexpr; me_size_v : sexpr;
  me_tag_k : Z; me_write_k : wexpr;
  me_tag_v : Z; me_write_v : wexpr }.
Definition map_entry_of (k v : field_type) : map_entry :=
  mkEntry (size_fn k) (size_fn v)
          (gen_tag 1 k false) (write_fn k) (gen_tag 2 v false) (write_fn v).

(** the element type of PackedFixed<'a, T>: rust_type, types.rs:380-391 *)
Definition fixed_kind_of (t : field_type) : fixed_kind :=
  match t with
  | TFixed32 => KU32 | TSfixed32 => KI32 | TFloat => KF32
  | TFixed64 => KU64 | TSfixed64 => KI64 | _ => KF64
  end.

(** default expressions *)
Inductive dexpr :=
| DNone                        (* None *)
| DCustom (t : field_type) (s : text)  (* the text of the [default] option *)
| DZero (t : field_type)       (* types.rs:315-344 [singular_field_defaults] *)
| DVec                         (* Vec::new() *)
| DPacked                      (* PackedFixed::from(Vec::new()) *)
| DMap                         (* HashMap::new() *)
| DBad.

(** types.rs:718-771 [get_field_default] ([.to_string()], [.to_vec()] only
    change ownership) *)
Definition get_field_default (c : config) (f : field) : dexpr :=
  match generated_type_of (f_freq f) with
  | SingularType =>
    if f_boxed f then DNone
    else if freq_is_optional (f_freq f) then DNone
    else match f_default f with
         | Some s => DCustom (f_typ f) s
         | None => match f_typ f with
                   | TMap _ _ | TMessageOrEnum _ => DBad
                   | t => DZero t end
         end
  | ArrayLikeType =>
    if f_is_packed f && is_fixed_size (f_typ f) && negb (c_dont_use_cow c)
    then DPacked else DVec
  | MapType => DMap
  end.

(** types.rs:530-551 [has_valid_visible_custom_default] *)
Definition has_valid_visible_custom_default (syn : syntax) (c : config) (f : field) : bool :=
  (c_add_deprecated_fields c || negb (f_deprecated f)) &&
  (match syn with Proto2 => true | Proto3 => false end) &&
  (match f_freq f with P2Optional | P2Required => true | _ => false end) &&
  (match f_typ f with TMessage _ => false | _ => true end) &&
  (match f_default f with Some _ => true | None => false end).

(** types.rs:553-562 [Field::must_generate_impl_default] *)
Definition must_generate_impl_default (syn : syntax) (c : config) (f : field) : bool :=
  has_valid_visible_custom_default syn c f &&
  match f_freq f with P2Required => true | _ => false end.

(** the type of a struct field *)
Inductive slot_type :=
| TyOptionBox (t : field_type)
| TyOption (t : field_type)
| TyPlain (t : field_type)
| TyPackedFixed (k : fixed_kind)
| TyVec (t : field_type)
| TyMap (k v : field_type)
| TyOneof (variants : list field)
| TyBad.

(** types.rs:812-837 [get_type] *)
Definition get_type (c : config) (f : field) : slot_type :=
  if f_boxed f then TyOptionBox (f_typ f) else
  match generated_type_of (f_freq f) with
  | SingularType => if freq_is_optional (f_freq f) then TyOption (f_typ f) else TyPlain (f_typ f)
  | ArrayLikeType =>
    if f_is_packed f && is_fixed_size (f_typ f) && negb (c_dont_use_cow c)
    then TyPackedFixed (fixed_kind_of (f_typ f)) else TyVec (f_typ f)
  | MapType => match f_typ f with TMap k v => TyMap k v | _ => TyBad end
  end.

(** right-hand side of a match arm of [from_reader] *)
Inductive action :=
| ASetSomeBox (r : rexpr)              (* msg.f = Some(Box::new(..)) *)
| ASetSome (r : rexpr)                 (* msg.f = Some(..) *)
| ASet (r : rexpr)                     (* msg.f = .. *)
| ASetPackedFixed (k : fixed_kind)     (* msg.f = r.read_packed_fixed(bytes)? *)
| ASetPacked (r : rexpr)               (* msg.f = r.read_packed(bytes, ..)? *)
| APush (r : rexpr)                    (* msg.f.push(..) *)
| AInsert (tk tv : field_type) (rk rv : rexpr)  (* read_map, msg.f.insert(key, value) *)
| AOneof (variant : nat) (r : rexpr)   (* msg.o = OneOf::V(..) *)
| ABad.

(** types.rs:857-935 [Field::write_match_tag] *)
Definition field_arm (f : field) : action :=
  let val := read_fn (f_typ f) in
  if f_boxed f then ASetSomeBox val else
  match generated_type_of (f_freq f) with
  | SingularType =>
    match f_freq f with
    | P2Optional => ASetSome val
    | P2Required => ASet val
    | P3Optional => ASetSome val
    | P3Default => ASet val
    | _ => ABad
    end
  | ArrayLikeType =>
    if f_is_packed f
    then if is_fixed_size (f_typ f) then ASetPackedFixed (fixed_kind_of (f_typ f))
         else ASetPacked val
    else APush val
  | MapType =>
    match f_typ f with
    | TMap k v => AInsert k v (read_fn k) (read_fn v)
    | _ => ABad
    end
  end.

(** types.rs:1051-1078 [has_presence] *)
Definition has_presence (f : field) : bool :=
  match f_freq f with
  | P2Repeated | P3Repeated => false
  | P2Optional | P2Required | P2Map =>
    match f_typ f with TMap _ _ => false | _ => true end
  | P3Optional => match f_typ f with TMap _ _ => false | _ => true end
  | P3Default | P3Map =>
    match f_typ f with TMap _ _ => false | TMessage _ => true | _ => false end
  end.

(** a summand of [get_size] *)
Inductive size_stmt :=
| ZsAlways (tag_size : Z) (e : sexpr)
| ZsOption (tag_size : Z) (e : sexpr)           (* as_ref().map_or(0, |m| ..) *)
| ZsUnlessDefault (d : dexpr) (t : field_type) (tag_size : Z) (e : sexpr)
                                                (* if self.f == d { 0 } else { .. } *)
| ZsPackedFixed (tag_size : Z) (k : fixed_kind) (w : Z)
                         (* if is_empty() { 0 } else { tag + sizeof_len(len() * w) } *)
| ZsPacked (tag_size : Z) (e : sexpr)
| ZsRepeatedFixed (tag_size : Z) (w : Z)        (* (tag + w) * len() *)
| ZsRepeated (tag_size : Z) (e : sexpr)
| ZsMap (tag_size : Z) (me : map_entry)
| ZsOneof (variants : list (Z * sexpr))
| ZsBad.

(** types.rs:937-1049 [Field::write_get_size] *)
Definition field_size (c : config) (f : field) : size_stmt :=
  let tag_size := gen_sizeof_varint (field_tag f) in
  let e := size_fn (f_typ f) in
  match generated_type_of (f_freq f) with
  | SingularType =>
    match has_presence f, freq_is_optional (f_freq f) with
    | false, true => ZsBad (* the emitted text lacks a parenthesis *)
    | false, false => ZsUnlessDefault (get_field_default c f) (f_typ f) tag_size e
    | true, true => ZsOption tag_size e
    | true, false => ZsAlways tag_size e
    end
  | ArrayLikeType =>
    if f_is_packed f then
      match wire_type_num_non_packed (f_typ f) with
      | 1 => ZsPackedFixed tag_size (fixed_kind_of (f_typ f)) 8
      | 5 => ZsPackedFixed tag_size (fixed_kind_of (f_typ f)) 4
      | _ => ZsPacked tag_size e
      end
    else
      match wire_type_num_non_packed (f_typ f) with
      | 1 => ZsRepeatedFixed tag_size 8
      | 5 => ZsRepeatedFixed tag_size 4
      | _ => ZsRepeated tag_size e
      end
  | MapType =>
    match f_typ f with
    | TMap k v => ZsMap tag_size (map_entry_of k v)
    | _ => ZsBad
    end
  end.

(** a statement of [write_message] *)
Inductive write_stmt :=
| WsAlways (tag : Z) (e : wexpr)
| WsOption (tag : Z) (e : wexpr)
| WsUnlessDefault (d : dexpr) (t : field_type) (tag : Z) (e : wexpr)
| WsPackedFixed (tag : Z) (k : fixed_kind)      (* write_packed_fixed_with_tag *)
| WsPacked (tag : Z) (e : wexpr) (z : sexpr)    (* write_packed_with_tag *)
| WsRepeated (tag : Z) (e : wexpr)
| WsMap (tag : Z) (me : map_entry)
| WsOneof (variants : list (Z * wexpr))
| WsBad.

(** types.rs:1080-1241 [Field::write_write] *)
Definition field_write (c : config) (f : field) : write_stmt :=
  let tag := field_tag f in
  let e := write_fn (f_typ f) in
  match generated_type_of (f_freq f) with
  | SingularType =>
    match has_presence f, freq_is_optional (f_freq f) with
    | false, true => WsBad
    | false, false => WsUnlessDefault (get_field_default c f) (f_typ f) tag e
    | true, true => WsOption tag e
    | true, false => WsAlways tag e
    end
  | ArrayLikeType =>
    if f_is_packed f then
      if is_fixed_size (f_typ f) then WsPackedFixed tag (fixed_kind_of (f_typ f))
      else WsPacked tag e (size_fn (f_typ f))
    else WsRepeated tag e
  | MapType =>
    match f_typ f with
    | TMap k v => WsMap tag (map_entry_of k v)
    | _ => WsBad
    end
  end.

(** ** Oneofs *)

(** the variants that are generated *)
Definition oneof_variants (c : config) (o : oneof) : list field :=
  filter (visible c) (o_fields o).

(** types.rs:2438-2491 [OneOf::write_get_size] *)
Definition oneof_size (c : config) (o : oneof) : size_stmt :=
  ZsOneof (map (fun f => (gen_sizeof_varint (field_tag f), size_fn (f_typ f))) (oneof_variants c o)).

(** types.rs:2493-2535 [OneOf::write_write] *)
Definition oneof_write (c : config) (o : oneof) : write_stmt :=
  WsOneof (map (fun f => (field_tag f, write_fn (f_typ f))) (oneof_variants c o)).

(** ** Messages *)

(** [enumerate] *)
Fixpoint number_from {A} (i : nat) (l : list A) : list (nat * A) :=
  match l with [] => [] | x :: l' => (i, x) :: number_from (S i) l' end.

(** the fields of the generated struct: types.rs:1621-1626 *)
Definition visible_fields (c : config) (m : message) : list field :=
  filter (visible c) (m_fields m).

Definition struct_def (c : config) (m : message) : list slot_type :=
  map (get_type c) (visible_fields c m)
  ++ map (fun o => TyOneof (oneof_variants c o)) (m_oneofs m).

(** the match arms [Ok(tag) => action on the i-th struct field]:
    types.rs:1727-1732, and 2399-2436 [OneOf::write_match_tag] *)
Definition match_arms (c : config) (m : message) : list (Z * (nat * action)) :=
  map (fun '(i, f) => (field_tag f, (i, field_arm f))) (number_from 0 (visible_fields c m))
  ++ flat_map (fun '(i, o) =>
       map (fun '(j, f) => (field_tag f, (i, AOneof j (read_fn (f_typ f)))))
           (number_from 0 (oneof_variants c o)))
     (number_from (length (visible_fields c m)) (m_oneofs m)).

(** types.rs:1901-1917 [Message::write_get_size] *)
Definition size_stmts (c : config) (m : message) : list size_stmt :=
  map (field_size c) (visible_fields c m) ++ map (oneof_size c) (m_oneofs m).

(** types.rs:1937-1956 [Message::write_write_message] *)
Definition write_stmts (c : config) (m : message) : list write_stmt :=
  map (field_write c) (visible_fields c m) ++ map (oneof_write c) (m_oneofs m).

(** How [Default] comes about: derived (types.rs:1590-1592), every field by its
    type, or written out (types.rs:1631-1667 [write_impl_default]) *)
Inductive default_init :=
| IDerived (t : slot_type)
| IExpr (d : dexpr)
| IOneofNone.

Definition message_must_generate_impl_default (syn : syntax) (c : config) (m : message) : bool :=
  existsb (must_generate_impl_default syn c) (m_fields m).

Definition default_inits (syn : syntax) (c : config) (m : message) : list default_init :=
  if message_must_generate_impl_default syn c m
  then map (fun f => IExpr (get_field_default c f)) (visible_fields c m)
       ++ map (fun _ => IOneofNone) (m_oneofs m)
  else map IDerived (struct_def c m).
