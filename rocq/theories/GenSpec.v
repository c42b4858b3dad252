(** Vocabulary for the properties of generated code: well-typed values,
    well-formed schemas, the bytes a value stands for, and the value that comes
    back.  Stated on the schema, independently of the emitted statements of
    [Gen.v]. *)
From Verif Require Import Base Reader PackedFixed Writer Sizeofs Spec WriterFacts DelimFacts
  PackedFixedFacts Schema Gen GenSem.

(** ** Induction over values *)
Section Ind.
Variables (P : value -> Prop) (Q : slot -> Prop).
Hypothesis HZ : forall z, P (VZ z).
Hypothesis HBool : forall b, P (VBool b).
Hypothesis HB : forall b, P (VB b).
Hypothesis HMsg : forall ss, Forall Q ss -> P (VMsg ss).
Hypothesis HOne : forall v, P v -> Q (SlOne v).
Hypothesis HNone : Q SlNone.
Hypothesis HSome : forall v, P v -> Q (SlSome v).
Hypothesis HVec : forall l, Forall P l -> Q (SlVec l).
Hypothesis HPF : forall p, Q (SlPF p).
Hypothesis HMap : forall l, Forall (fun kv => P (fst kv) /\ P (snd kv)) l -> Q (SlMap l).
Hypothesis HONone : Q SlOneofNone.
Hypothesis HOneof : forall i v, P v -> Q (SlOneof i v).

Fixpoint value_ind2 (v : value) : P v :=
  match v with
  | VZ z => HZ z
  | VBool b => HBool b
  | VB b => HB b
  | VMsg ss => HMsg ss ((fix go (l : list slot) : Forall Q l :=
                           match l with
                           | [] => Forall_nil Q
                           | s :: l' => Forall_cons s (slot_ind2 s) (go l')
                           end) ss)
  end
with slot_ind2 (s : slot) : Q s :=
  match s with
  | SlOne v => HOne v (value_ind2 v)
  | SlNone => HNone
  | SlSome v => HSome v (value_ind2 v)
  | SlVec l => HVec l ((fix go (l : list value) : Forall P l :=
                          match l with
                          | [] => Forall_nil P
                          | v :: l' => Forall_cons v (value_ind2 v) (go l')
                          end) l)
  | SlPF p => HPF p
  | SlMap l => HMap l ((fix go (l : list (value * value))
                          : Forall (fun kv => P (fst kv) /\ P (snd kv)) l :=
                          match l with
                          | [] => Forall_nil _
                          | kv :: l' =>
                            Forall_cons kv
                              (match kv as p return P (fst p) /\ P (snd p) with
                               | (a, b) => conj (value_ind2 a) (value_ind2 b) end) (go l')
                          end) l)
  | SlOneofNone => HONone
  | SlOneof i v => HOneof i v (value_ind2 v)
  end.

Lemma value_slot_ind : (forall v, P v) /\ (forall s, Q s).
Proof. split; [exact value_ind2|exact slot_ind2]. Qed.
End Ind.

(** ** Struct fields *)

(** what a struct field comes from: a field or a oneof *)
Inductive sdesc := SdField (f : field) | SdOneof (vs : list field).

Definition descs (c : config) (m : message) : list sdesc :=
  map SdField (visible_fields c m) ++ map (fun o => SdOneof (oneof_variants c o)) (m_oneofs m).

Definition sd_type (c : config) (d : sdesc) : slot_type :=
  match d with SdField f => get_type c f | SdOneof vs => TyOneof vs end.

(** all the fields, including those of the oneofs *)
Definition desc_fields (d : sdesc) : list field :=
  match d with SdField f => [f] | SdOneof vs => vs end.

Section GenSpec.
Variable D : file_descriptor.
Variable c : config.
Variable lit : field_type -> text -> option value.

(** ** Typing: the values of the Rust types *)

Fixpoint val_ok (t : field_type) (v : value) {struct v} : Prop :=
  match v with
  | VZ z =>
    match t with
    | TInt32 | TSint32 | TSfixed32 => is_s 32 z
    | TUint32 | TFixed32 | TFloat => is_u 32 z
    | TInt64 | TSint64 | TSfixed64 => is_s 64 z
    | TUint64 | TFixed64 | TDouble => is_u 64 z
    | TEnum e => is_s 32 z /\ match get_enum D e with
                              | Some en => In z (map snd (en_fields en))
                              | None => False
                              end
    | _ => False
    end
  | VBool _ => t = TBool
  | VB b => match t with
            | TStringCow | TString => is_utf8 b
            | TBytesCow | TBytes => True
            | _ => False
            end
  | VMsg ss =>
    match t with
    | TMessage m =>
      match get_message D m with
      | Some msg =>
        (fix go (ts : list slot_type) (ss : list slot) {struct ss} : Prop :=
           match ss, ts with
           | s :: ss', ty :: ts' => slot_ok ty s /\ go ts' ss'
           | [], [] => True
           | _, _ => False
           end) (struct_def c msg) ss
      | None => False
      end
    | _ => False
    end
  end
with slot_ok (ty : slot_type) (s : slot) {struct s} : Prop :=
  match s with
  | SlOne v => match ty with TyPlain t => val_ok t v | _ => False end
  | SlNone => match ty with TyOption _ | TyOptionBox _ => True | _ => False end
  | SlSome v => match ty with TyOption t | TyOptionBox t => val_ok t v | _ => False end
  | SlVec l => match ty with
               | TyVec t => fold_right (fun v acc => val_ok t v /\ acc) True l
               | _ => False
               end
  | SlPF p => match ty with TyPackedFixed k => exists l, represents k p l | _ => False end
  | SlMap l => match ty with
               | TyMap tk tv =>
                 fold_right (fun '(k, v) acc => (val_ok tk k /\ val_ok tv v) /\ acc) True l
                 /\ NoDup (map fst l)
               | _ => False
               end
  | SlOneofNone => match ty with TyOneof _ => True | _ => False end
  | SlOneof i v => match ty with
                   | TyOneof vs => match nth_error vs i with
                                   | Some f => val_ok (f_typ f) v
                                   | None => False
                                   end
                   | _ => False
                   end
  end.

Fixpoint slots_ok (ts : list slot_type) (ss : list slot) {struct ss} : Prop :=
  match ss, ts with
  | s :: ss', ty :: ts' => slot_ok ty s /\ slots_ok ts' ss'
  | [], [] => True
  | _, _ => False
  end.

(** a value of the generated struct of [m] *)
Definition message_ok (m : midx) (ss : list slot) : Prop :=
  match get_message D m with Some msg => slots_ok (struct_def c msg) ss | None => False end.

(** ** Well-formed schemas *)

(** a resolved type other than a map *)
Definition typ_ok (t : field_type) : Prop :=
  match t with
  | TMap _ _ | TMessageOrEnum _ => False
  | TMessage m => get_message D m <> None
  | TEnum e => get_enum D e <> None
  | _ => True
  end.
(** the types Rust can hash (and protobuf allows), and bytes *)
Definition key_ok (t : field_type) : Prop :=
  match t with
  | TMap _ _ | TMessageOrEnum _ | TMessage _ | TEnum _ | TFloat | TDouble => False
  | _ => True
  end.

Definition field_ok (f : field) : Prop :=
  (* only optional fields are boxed *)
  (f_boxed f = true -> freq_is_optional (f_freq f) = true) /\
  (* maps are maps of resolved types; other fields have a resolved type *)
  (if freq_is_map (f_freq f)
   then match f_typ f with TMap k v => key_ok k /\ typ_ok v | _ => False end
   else typ_ok (f_typ f)) /\
  (* from_reader assigns a PackedFixed to the field *)
  (freq_is_repeated (f_freq f) && f_is_packed f && is_fixed_size (f_typ f) = true ->
   c_dont_use_cow c = false) /\
  (* a default that is used has a value *)
  (forall s, f_default f = Some s -> exists w, lit (f_typ f) s = Some w).

Definition desc_ok (d : sdesc) : Prop :=
  match d with
  | SdField f => field_ok f
  | SdOneof vs => Forall (fun f => typ_ok (f_typ f)) vs
  end.

Record message_wf (m : midx) (msg : message) : Prop := {
  mw_descs : Forall desc_ok (descs c msg);
  mw_tags : NoDup (map field_tag (flat_map desc_fields (descs c msg)));
  mw_default : message_default D c lit m <> None }.

Definition schema_wf : Prop :=
  forall m msg, get_message D m = Some msg -> message_wf m msg.

(** ** Encoding *)

(** the raw bytes of a PackedFixed *)
Definition pf_raw (k : fixed_kind) (p : packed_fixed) : bytes :=
  match p with
  | NoDataYet => []
  | Borrowed bs => bs
  | Owned v => flat_map (fk_encode k) v
  end.

(** The default that a proto3 field without presence is compared with. *)
Definition implicit_default (f : field) : option value :=
  match f_default f with
  | Some s => lit (f_typ f) s
  | None => type_default D (message_default D c lit) (f_typ f)
  end.

(** fields written only if they differ from the default *)
Definition implicit_presence (f : field) : bool :=
  match f_freq f, f_typ f with
  | P3Default, TMessage _ => false
  | P3Default, _ => true
  | _, _ => false
  end.

Definition elided (f : field) (v : value) : bool :=
  implicit_presence f &&
  match implicit_default f with Some w => rust_eq (f_typ f) v w | None => false end.

Definition enc_key (f : field) : bytes := enc_varint (field_tag f).

Fixpoint enc_value (t : field_type) (v : value) {struct v} : bytes :=
  match v with
  | VZ z =>
    match t with
    | TInt32 | TInt64 | TUint32 | TUint64 | TEnum _ => enc_varint (wrapU 64 z)
    | TSint32 => enc_varint (wrapU 64 (wrapS 32 (zigzag z)))
    | TSint64 => enc_varint (zigzag z)
    | TFixed32 | TSfixed32 | TFloat => le_bytes 4 z
    | TFixed64 | TSfixed64 | TDouble => le_bytes 8 z
    | _ => []
    end
  | VBool b => [zb (if b then 1 else 0)]
  | VB b => enc_len b
  | VMsg ss =>
    match t with
    | TMessage m =>
      match get_message D m with
      | Some msg =>
        enc_len
          ((fix go (ds : list sdesc) (ss : list slot) {struct ss} : bytes :=
              match ss, ds with
              | s :: ss', d :: ds' => enc_slot d s ++ go ds' ss'
              | _, _ => []
              end) (descs c msg) ss)
      | None => []
      end
    | _ => []
    end
  end
with enc_slot (d : sdesc) (s : slot) {struct s} : bytes :=
  match s with
  | SlOne v => match d with
               | SdField f => if elided f v then [] else enc_key f ++ enc_value (f_typ f) v
               | _ => []
               end
  | SlNone => []
  | SlSome v => match d with
                | SdField f => enc_key f ++ enc_value (f_typ f) v
                | _ => []
                end
  | SlVec l =>
    match d with
    | SdField f =>
      if f_is_packed f
      then match l with
           | [] => []
           | _ => enc_key f ++ enc_len (flat_map (enc_value (f_typ f)) l)
           end
      else flat_map (fun v => enc_key f ++ enc_value (f_typ f) v) l
    | _ => []
    end
  | SlPF p =>
    match d with
    | SdField f =>
      if pf_is_empty p then []
      else enc_key f ++ enc_len (pf_raw (fixed_kind_of (f_typ f)) p)
    | _ => []
    end
  | SlMap l =>
    match d with
    | SdField f =>
      match f_typ f with
      | TMap tk tv =>
        flat_map (fun '(k, v) =>
          enc_key f ++
          enc_len ((enc_varint (8 + wire_type_num_non_packed tk) ++ enc_value tk k)
                   ++ (enc_varint (16 + wire_type_num_non_packed tv) ++ enc_value tv v))) l
      | _ => []
      end
    | _ => []
    end
  | SlOneofNone => []
  | SlOneof i v =>
    match d with
    | SdOneof vs => match nth_error vs i with
                    | Some f => enc_key f ++ enc_value (f_typ f) v
                    | None => []
                    end
    | _ => []
    end
  end.

Fixpoint enc_slots (ds : list sdesc) (ss : list slot) {struct ss} : bytes :=
  match ss, ds with
  | s :: ss', d :: ds' => enc_slot d s ++ enc_slots ds' ss'
  | _, _ => []
  end.

(** the encoding of a message (without length prefix) *)
Definition enc_message (m : midx) (ss : list slot) : bytes :=
  match get_message D m with Some msg => enc_slots (descs c msg) ss | None => [] end.

(** ** What comes back *)

(** A decoded value: empty packed fixed fields and elided fields hold the
    default, non-empty packed fixed fields borrow the input. *)
Fixpoint canon_value (t : field_type) (v : value) {struct v} : value :=
  match v with
  | VMsg ss =>
    match t with
    | TMessage m =>
      match get_message D m, message_default D c lit m with
      | Some msg, Some d =>
        VMsg ((fix go (ds : list sdesc) (df : list slot) (ss : list slot) {struct ss} : list slot :=
                 match ss, ds, df with
                 | s :: ss', d :: ds', x :: df' => canon_slot d x s :: go ds' df' ss'
                 | _, _, _ => []
                 end) (descs c msg) d ss)
      | _, _ => v
      end
    | _ => v
    end
  | _ => v
  end
with canon_slot (d : sdesc) (df : slot) (s : slot) {struct s} : slot :=
  match d with
  | SdField f =>
    match s with
    | SlOne v => if elided f v then df else SlOne (canon_value (f_typ f) v)
    | SlSome v => SlSome (canon_value (f_typ f) v)
    | SlVec l => SlVec (map (canon_value (f_typ f)) l)
    | SlPF p => if pf_is_empty p then df else SlPF (Borrowed (pf_raw (fixed_kind_of (f_typ f)) p))
    | SlMap l => match f_typ f with
                 | TMap tk tv => SlMap (map (fun '(k, v) => (k, canon_value tv v)) l)
                 | _ => s
                 end
    | _ => s
    end
  | SdOneof vs =>
    match s with
    | SlOneof i v => match nth_error vs i with
                     | Some f => SlOneof i (canon_value (f_typ f) v)
                     | None => s
                     end
    | _ => s
    end
  end.

Fixpoint canon_slots (ds : list sdesc) (df : list slot) (ss : list slot) {struct ss} : list slot :=
  match ss, ds, df with
  | s :: ss', d :: ds', x :: df' => canon_slot d x s :: canon_slots ds' df' ss'
  | _, _, _ => []
  end.

Definition canon_message (m : midx) (ss : list slot) : list slot :=
  match get_message D m, message_default D c lit m with
  | Some msg, Some d => canon_slots (descs c msg) d ss
  | _, _ => ss
  end.

End GenSpec.

(** ** Equations *)
Section Equations.
Variable D : file_descriptor.
Variable c : config.
Variable lit : field_type -> text -> option value.
Notation val_ok := (val_ok D c).
Notation slot_ok := (slot_ok D c).
Notation enc_value := (enc_value D c lit).
Notation enc_slot := (enc_slot D c lit).
Notation value_size := (value_size D c lit).
Notation slot_size := (slot_size D c lit).
Notation value_write := (value_write D c lit).
Notation slot_write := (slot_write D c lit).
Notation canon_value := (canon_value D c lit).
Notation canon_slot := (canon_slot D c lit).

Lemma val_ok_msg m ss : val_ok (TMessage m) (VMsg ss) = message_ok D c m ss.
Proof. reflexivity. Qed.
Lemma slot_ok_eq ty s : slot_ok ty s =
  match s with
  | SlOne v => match ty with TyPlain t => val_ok t v | _ => False end
  | SlNone => match ty with TyOption _ | TyOptionBox _ => True | _ => False end
  | SlSome v => match ty with TyOption t | TyOptionBox t => val_ok t v | _ => False end
  | SlVec l => match ty with
               | TyVec t => fold_right (fun v acc => val_ok t v /\ acc) True l
               | _ => False
               end
  | SlPF p => match ty with TyPackedFixed k => exists l, represents k p l | _ => False end
  | SlMap l => match ty with
               | TyMap tk tv =>
                 fold_right (fun '(k, v) acc => (val_ok tk k /\ val_ok tv v) /\ acc) True l
                 /\ NoDup (map fst l)
               | _ => False
               end
  | SlOneofNone => match ty with TyOneof _ => True | _ => False end
  | SlOneof i v => match ty with
                   | TyOneof vs => match nth_error vs i with
                                   | Some f => val_ok (f_typ f) v
                                   | None => False
                                   end
                   | _ => False
                   end
  end.
Proof. destruct s; reflexivity. Qed.
Lemma enc_value_msg m ss msg : get_message D m = Some msg ->
  enc_value (TMessage m) (VMsg ss) = enc_len (enc_message D c lit m ss).
Proof. intros H. unfold enc_message. cbn [GenSpec.enc_value]. rewrite H. reflexivity. Qed.
Lemma enc_slot_field_eq f s : enc_slot (SdField f) s =
  match s with
  | SlOne v => if elided D c lit f v then [] else enc_key f ++ enc_value (f_typ f) v
  | SlSome v => enc_key f ++ enc_value (f_typ f) v
  | SlVec l => if f_is_packed f
               then match l with
                    | [] => []
                    | _ => enc_key f ++ enc_len (flat_map (enc_value (f_typ f)) l)
                    end
               else flat_map (fun v => enc_key f ++ enc_value (f_typ f) v) l
  | SlPF p => if pf_is_empty p then []
              else enc_key f ++ enc_len (pf_raw (fixed_kind_of (f_typ f)) p)
  | SlMap l =>
      match f_typ f with
      | TMap tk tv =>
        flat_map (fun '(k, v) =>
          enc_key f ++
          enc_len ((enc_varint (8 + wire_type_num_non_packed tk) ++ enc_value tk k)
                   ++ (enc_varint (16 + wire_type_num_non_packed tv) ++ enc_value tv v))) l
      | _ => []
      end
  | _ => []
  end.
Proof. destruct s; reflexivity. Qed.
Lemma enc_slot_oneof_eq vs s : enc_slot (SdOneof vs) s =
  match s with
  | SlOneof i v => match nth_error vs i with
                   | Some f => enc_key f ++ enc_value (f_typ f) v
                   | None => []
                   end
  | _ => []
  end.
Proof. destruct s; reflexivity. Qed.
Lemma value_size_msg m ss : value_size (ZMessage m) (VMsg ss) = sizeof_len (message_size D c lit m ss).
Proof. reflexivity. Qed.
Lemma value_write_msg m ss : value_write (WMessage m) (VMsg ss)
  = write_message (message_size D c lit m ss) (message_write D c lit m ss).
Proof. reflexivity. Qed.
Lemma canon_value_msg m ss : canon_value (TMessage m) (VMsg ss) = VMsg (canon_message D c lit m ss).
Proof.
  unfold canon_message. cbn [GenSpec.canon_value].
  destruct (get_message D m); [|reflexivity]. destruct (message_default D c lit m); reflexivity.
Qed.
Lemma canon_slot_field_eq f df s : canon_slot (SdField f) df s =
  match s with
  | SlOne v => if elided D c lit f v then df else SlOne (canon_value (f_typ f) v)
  | SlSome v => SlSome (canon_value (f_typ f) v)
  | SlVec l => SlVec (map (canon_value (f_typ f)) l)
  | SlPF p => if pf_is_empty p then df else SlPF (Borrowed (pf_raw (fixed_kind_of (f_typ f)) p))
  | SlMap l => match f_typ f with
               | TMap tk tv => SlMap (map (fun '(k, v) => (k, canon_value tv v)) l)
               | _ => s
               end
  | _ => s
  end.
Proof. destruct s; reflexivity. Qed.
Lemma canon_slot_oneof_eq vs df s : canon_slot (SdOneof vs) df s =
  match s with
  | SlOneof i v => match nth_error vs i with
                   | Some f => SlOneof i (canon_value (f_typ f) v)
                   | None => s
                   end
  | _ => s
  end.
Proof. destruct s; reflexivity. Qed.

Lemma slot_size_eq st s : slot_size st s =
  match s with
  | SlOne v =>
    match st with
    | ZsAlways ts e => ts + value_size e v
    | ZsUnlessDefault d t ts e =>
      match dexpr_value D c lit d with
      | Some w => if rust_eq t v w then 0 else ts + value_size e v
      | None => 0
      end
    | _ => 0
    end
  | SlNone => 0
  | SlSome v => match st with ZsOption ts e => ts + value_size e v | _ => 0 end
  | SlVec l =>
    match st with
    | ZsPacked ts e => match l with [] => 0 | _ => ts + sizeof_len (sum_sizes (value_size e) l) end
    | ZsRepeatedFixed ts w => (ts + w) * zlen l
    | ZsRepeated ts e => sum_sizes (fun v => ts + value_size e v) l
    | _ => 0
    end
  | SlPF p =>
    match st with
    | ZsPackedFixed ts k w => if pf_is_empty p then 0 else ts + sizeof_len (pf_len k p * w)
    | _ => 0
    end
  | SlMap l =>
    match st with
    | ZsMap ts me =>
      fold_right (fun '(k, v) acc =>
        (ts + sizeof_len (2 + value_size (me_size_k me) k + value_size (me_size_v me) v)) + acc) 0 l
    | _ => 0
    end
  | SlOneofNone => 0
  | SlOneof i v =>
    match st with
    | ZsOneof vs => match nth_error vs i with
                    | Some (ts, e) => ts + value_size e v
                    | None => 0
                    end
    | _ => 0
    end
  end.
Proof. destruct s; reflexivity. Qed.

Lemma slot_write_eq st s : slot_write st s =
  match s with
  | SlOne v =>
    match st with
    | WsAlways tag e => write_with_tag tag (value_write e v)
    | WsUnlessDefault d t tag e =>
      match dexpr_value D c lit d with
      | Some w => if rust_eq t v w then [] else write_with_tag tag (value_write e v)
      | None => [OpPanic]
      end
    | _ => [OpPanic]
    end
  | SlNone => match st with WsOption _ _ => [] | _ => [OpPanic] end
  | SlSome v => match st with WsOption tag e => write_with_tag tag (value_write e v) | _ => [OpPanic] end
  | SlVec l =>
    match st with
    | WsPacked tag e z => write_packed_with_tag tag l (value_write e) (value_size z)
    | WsRepeated tag e => flat_map (fun v => write_with_tag tag (value_write e v)) l
    | _ => [OpPanic]
    end
  | SlPF p => match st with WsPackedFixed tag k => write_packed_fixed_with_tag k tag p | _ => [OpPanic] end
  | SlMap l =>
    match st with
    | WsMap tag me =>
      flat_map (fun '(k, v) =>
        write_with_tag tag
          (write_map (2 + value_size (me_size_k me) k + value_size (me_size_v me) v)
             (me_tag_k me) (value_write (me_write_k me) k)
             (me_tag_v me) (value_write (me_write_v me) v))) l
    | _ => [OpPanic]
    end
  | SlOneofNone => match st with WsOneof _ => [] | _ => [OpPanic] end
  | SlOneof i v =>
    match st with
    | WsOneof vs => match nth_error vs i with
                    | Some (tag, e) => write_with_tag tag (value_write e v)
                    | None => [OpPanic]
                    end
    | _ => [OpPanic]
    end
  end.
Proof. destruct s; reflexivity. Qed.
End Equations.
