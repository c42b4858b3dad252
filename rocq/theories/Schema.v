(** The descriptor data structures of pb-rs (pb-rs/src/types.rs).

    Not modelled: source paths ([path], [import]), extensions and extends, rpc
    services, and the fields of [Config] that only select text of the generated
    file (headers, derives, includes, no_std and hashbrown variants, getters,
    MessageInfo). *)
From Coq Require Import String.
From Verif Require Import Base.
Import StringSyntax.

Definition text := String.string.

(** types.rs:23-28 [Syntax] *)
Inductive syntax := Proto2 | Proto3.

(** types.rs:30-50 [Frequency], [Proto2Frequency], [Proto3Frequency] *)
Inductive frequency :=
| P2Optional | P2Repeated | P2Required | P2Map
| P3Optional | P3Repeated | P3Default | P3Map.

(** types.rs:60-66 *)
Definition freq_is_map (f : frequency) : bool :=
  match f with P2Map | P3Map => true | _ => false end.
(** types.rs:68-74 *)
Definition freq_is_optional (f : frequency) : bool :=
  match f with P2Optional | P3Optional => true | _ => false end.
(** types.rs:76-82 *)
Definition freq_is_repeated (f : frequency) : bool :=
  match f with P2Repeated | P3Repeated => true | _ => false end.

(** types.rs:52-57 [GeneratedType] and 85-95 [From<Frequency>] *)
Inductive generated_type := SingularType | ArrayLikeType | MapType.
Definition generated_type_of (f : frequency) : generated_type :=
  if freq_is_map f then MapType
  else if freq_is_repeated f then ArrayLikeType else SingularType.

(** types.rs:97-100 [MessageIndex] *)
Definition midx := list nat.
(** types.rs:143-147 [EnumIndex] *)
Record eidx := mkEidx { e_msg : midx; e_pos : nat }.

(** types.rs:160-183 [FieldType] *)
Inductive field_type :=
| TInt32 | TInt64 | TUint32 | TUint64 | TSint32 | TSint64 | TBool
| TEnum (e : eidx)
| TFixed64 | TSfixed64 | TDouble
| TStringCow | TBytesCow | TString | TBytes
| TMessage (m : midx)
| TMessageOrEnum (name : text)
| TFixed32 | TSfixed32 | TFloat
| TMap (k v : field_type).

(** types.rs:517-527 [Field] *)
Record field := mkField {
  f_name : text;
  f_freq : frequency;
  f_typ : field_type;
  f_number : Z;
  f_default : option text;
  f_packed : option bool;
  f_boxed : bool;
  f_deprecated : bool }.

(** types.rs:2231-2238 [OneOf] *)
Record oneof := mkOneof {
  o_name : text;
  o_fields : list field;
  o_package : text;
  o_module : text;
  o_imported : bool }.

(** types.rs:2117-2129 [Enumerator]; the qualified names and the index are
    functions of the other data and left out *)
Record enumerator := mkEnum {
  en_name : text;
  en_fields : list (text * Z);
  en_imported : bool;
  en_package : text;
  en_module : text }.

(** types.rs:1263-1282 [Message] *)
Inductive message := mkMessage {
  m_name : text;
  m_fields : list field;
  m_oneofs : list oneof;
  m_reserved_nums : option (list Z);
  m_reserved_names : option (list text);
  m_imported : bool;
  m_package : text;
  m_messages : list message;
  m_enums : list enumerator;
  m_module : text;
  m_index : midx }.

(** types.rs:2559-2570 [FileDescriptor] *)
Record file_descriptor := mkDesc {
  d_package : text;
  d_syntax : syntax;
  d_messages : list message;
  d_enums : list enumerator;
  d_module : text }.

(** types.rs:2538-2557 [Config]: the switches that influence semantics *)
Record config := mkConfig {
  c_dont_use_cow : bool;
  c_add_deprecated_fields : bool;
  c_error_cycle : bool;
  c_single_module : bool }.

(** induction over the tree of nested messages *)
Fixpoint message_tree_ind (P : message -> Prop)
  (H : forall m, Forall P (m_messages m) -> P m) (m : message) : P m :=
  H m ((fix go (l : list message) : Forall P l :=
          match l with
          | nil => Forall_nil P
          | cons x l' => Forall_cons x (message_tree_ind P H x) (go l')
          end) (m_messages m)).

(** types.rs:109-118 [get_message]; [None] is the panic "Message index not
    found" *)
Definition get_message (d : file_descriptor) (i : midx) : option message :=
  match i with
  | [] => None
  | i0 :: rest =>
    fold_left (fun cur next => match cur with
                               | Some m => nth_error (m_messages m) next
                               | None => None end)
              rest (nth_error (d_messages d) i0)
  end.

(** types.rs:150-157 [get_enum]; [None] is the panic "Enum index not found" *)
Definition get_enum (d : file_descriptor) (e : eidx) : option enumerator :=
  match e_msg e with
  | [] => nth_error (d_enums d) (e_pos e)
  | _ => match get_message d (e_msg e) with
         | Some m => nth_error (m_enums m) (e_pos e)
         | None => None
         end
  end.

(** types.rs:2065-2071 [all_fields] *)
Definition all_fields (m : message) : list field :=
  m_fields m ++ flat_map o_fields (m_oneofs m).

(** types.rs:346-352 [message] *)
Definition ft_message (t : field_type) : option midx :=
  match t with TMessage m => Some m | _ => None end.

(** types.rs:219-229 [is_primitive] *)
Definition is_primitive (t : field_type) : bool :=
  match t with
  | TMessage _ | TMap _ _ | TStringCow | TBytesCow | TString | TBytes => false
  | _ => true
  end.

(** types.rs:186-188 [is_cow] and 190-192 [is_non_cow_string_or_byte] *)
Definition is_cow (t : field_type) : bool :=
  match t with TStringCow | TBytesCow => true | _ => false end.
Definition is_non_cow_string_or_byte (t : field_type) : bool :=
  match t with TString | TBytes => true | _ => false end.

(** types.rs:255-283 [wire_type_num_non_packed].  The [MessageOrEnum] case is
    [unreachable!]; the model returns 7. *)
Definition wire_type_num_non_packed (t : field_type) : Z :=
  match t with
  | TInt32 | TSint32 | TInt64 | TSint64 | TUint32 | TUint64 | TBool | TEnum _ => 0
  | TFixed64 | TSfixed64 | TDouble => 1
  | TStringCow | TBytesCow | TString | TBytes | TMessage _ | TMap _ _ => 2
  | TFixed32 | TSfixed32 | TFloat => 5
  | TMessageOrEnum _ => 7
  end.

(** types.rs:247-253 [wire_type_num] *)
Definition wire_type_num (t : field_type) (packed : bool) : Z :=
  if packed then 2 else wire_type_num_non_packed t.

(** types.rs:311-313 [is_fixed_size] *)
Definition is_fixed_size (t : field_type) : bool :=
  (wire_type_num_non_packed t =? 1) || (wire_type_num_non_packed t =? 5).

(** types.rs:3152-3154 [tag] on u32 *)
Definition gen_tag (number : Z) (t : field_type) (packed : bool) : Z :=
  Z.lor (wrapU 32 (Z.shiftl number 3)) (wire_type_num t packed).

(** types.rs:773-775 [packed] *)
Definition f_is_packed (f : field) : bool :=
  match f_packed f with Some b => b | None => false end.

(** types.rs:808-810 [Field::tag]; [number as u32] *)
Definition field_tag (f : field) : Z :=
  gen_tag (wrapU 32 (f_number f)) (f_typ f) (f_is_packed f).

(** types.rs:13-21 [sizeof_varint] (on u32) *)
Definition gen_sizeof_varint (v : Z) : Z :=
  if v <=? 0x7F then 1
  else if v <=? 0x3FFF then 2
  else if v <=? 0x1FFFFF then 3
  else if v <=? 0xFFFFFFF then 4
  else 5.

(** types.rs:1395-1399 [is_unit] *)
Fixpoint is_unit (m : message) : bool :=
  match m_fields m, m_oneofs m with
  | [], [] => forallb is_unit (m_messages m)
  | _, _ => false
  end.

(** [f.deprecated && !config.add_deprecated_fields] is the test that makes
    every emitting function skip the field (types.rs:842, 863, 943, 1086, 2286,
    2408, 2447, 2502) *)
Definition visible (c : config) (f : field) : bool :=
  negb (f_deprecated f && negb (c_add_deprecated_fields c)).
