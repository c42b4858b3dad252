(** Property theorems C27-C35 about generated code: what decoding does with
    unknown, repeated, reordered and concatenated fields. *)
From Coq Require Import String ZifyBool ZifyNat ZifyN.
From Verif Require Import Base BaseFacts Utf8 Reader PackedFixed Writer Sizeofs Spec VarintFacts
  WriterFacts ScalarFacts DelimFacts Utf8Facts PackedFixedFacts ExactFacts SimFacts Schema Gen GenSem GenSpec GenEmit
  GenRead GenSame GenSim GenExact GenRecords GenLaws GenEnc GenCheck Examples Props_Generated.
Import StringSyntax.
Local Open Scope string_scope.
Local Open Scope list_scope.
Local Open Scope Z_scope.

(** decoding a whole buffer, with enough fuel (see C16) *)
Definition decodes D c lit t m (bs : bytes) (ss : list slot) : Prop :=
  forall n, (length bs < n)%nat -> decode D c lit t n m bs = Ok ss.

Lemma decodes_checked D c lit t m bs ss : overflow_checks t = true -> buf_ok t bs ->
  decodes D c lit t m bs ss <-> decode D c lit t (S (length bs)) m bs = Ok ss.
Proof.
  intros CH Hb. split; intros H; [apply H; lia|]. intros n Hn. rewrite (decode_fuel D c lit t CH m bs n Hb Hn). exact H.
Qed.
Lemma decodes_unchecked D c lit w m bs ss : decodes D c lit (checked w) m bs ss -> decodes D c lit (unchecked w) m bs ss.
Proof. intros H n Hn. rewrite C19_generated_overflow_checks; rewrite (H n Hn); [reflexivity|discriminate]. Qed.
(** what holds with overflow checks holds without *)
Lemma decodes_any D c lit t m bs ss : decodes D c lit (checked (usize_width t)) m bs ss -> decodes D c lit t m bs ss.
Proof. destruct t as [w []]; [auto|]. apply decodes_unchecked. Qed.
Lemma buf_ok_any t bs : buf_ok t bs <-> buf_ok (checked (usize_width t)) bs.
Proof. destruct t as [w k]. reflexivity. Qed.

Definition known_tags c msg : list Z := map field_tag (flat_map desc_fields (descs c msg)).

Lemma unknown_belongs c msg u d : ~ In (rtag u) (known_tags c msg) -> In d (descs c msg) -> belongs d u = false.
Proof.
  intros H Hd. destruct (belongs d u) eqn:B; [|reflexivity]. exfalso. apply H. unfold belongs in B. apply existsb_exists in B.
  destruct B as (x & Hx & E). apply Z.eqb_eq in E. subst x. unfold known_tags. apply in_map_iff in Hx. destruct Hx as (f & <- & Hf).
  apply in_map. apply in_flat_map. eauto.
Qed.

(** ** C27 *)
Theorem C27_unknown_fields : forall D c lit t, schema_wf D c lit -> schema_packed_ok D c -> overflow_checks t = true ->
  forall m msg a u b ss, get_message D m = Some msg ->
  Forall wrec_ok a -> wrec_ok u -> Forall wrec_ok b -> ~ In (rtag u) (known_tags c msg) ->
  buf_ok t (recs_bytes (a ++ u :: b)) ->
  decodes D c lit t m (recs_bytes (a ++ u :: b)) ss <-> decodes D c lit t m (recs_bytes (a ++ b)) ss.
Proof.
  intros D c lit t WF PK CH m msg a u b ss G Ha Hu Hb U B.
  assert (B' : buf_ok t (recs_bytes (a ++ b))).
  { unfold buf_ok in *. rewrite recs_bytes_app in *. unfold recs_bytes at 2 in B. cbn [map concat] in B. fold (recs_bytes b) in B.
    rewrite !zlen_app in *. pose proof (zlen_nonneg (rec_bytes u)). lia. }
  rewrite !decodes_checked by assumption. destruct (WF m msg G) as [_ _ W3]. destruct (message_default D c lit m) as [df|] eqn:DF; [|congruence].
  apply (decode_same_fields D c lit WF PK t CH m msg G df DF); try assumption.
  - apply Forall_app. auto.
  - apply Forall_app. auto.
  - intros d Hd. rewrite !filter_app. cbn [filter]. rewrite (unknown_belongs _ _ _ _ U Hd). reflexivity.
Qed.
Print Assumptions C27_unknown_fields.

(** for the encoding of any value, on every target *)
Theorem C27_forward_compatible : forall D c lit t, schema_wf D c lit -> schema_packed_ok D c ->
  forall m msg ss, get_message D m = Some msg -> message_ok D c m ss -> zlen (enc_message D c lit m ss) < 2 ^ 32 ->
  (* the encoding is a sequence of fields *)
  (exists rs, recs_bytes rs = enc_message D c lit m ss /\ Forall wrec_ok rs) /\
  (* and a field inserted between them does not matter *)
  forall a u b, recs_bytes (a ++ b) = enc_message D c lit m ss -> Forall wrec_ok (a ++ b) -> wrec_ok u ->
  ~ In (rtag u) (known_tags c msg) -> buf_ok t (recs_bytes (a ++ u :: b)) ->
  exists ss', decodes D c lit t m (enc_message D c lit m ss) ss' /\ decodes D c lit t m (recs_bytes (a ++ u :: b)) ss'.
Proof.
  intros D c lit t WF PK m msg ss G Ho Hl. split; [apply message_recs; assumption|].
  intros a u b E Hab Hu U B. exists (canon_message D c lit m ss). apply Forall_app in Hab. destruct Hab as [Ha Hb].
  assert (B1 : buf_ok t (enc_message D c lit m ss)).
  { rewrite <- E. unfold buf_ok in *. rewrite recs_bytes_app in *. unfold recs_bytes at 2 in B. cbn [map concat] in B. fold (recs_bytes b) in B.
    rewrite !zlen_app in *. pose proof (zlen_nonneg (rec_bytes u)). lia. }
  assert (R : forall t, buf_ok t (enc_message D c lit m ss) -> decodes D c lit t m (enc_message D c lit m ss) (canon_message D c lit m ss)).
  { intros t' B' n Hn. eapply roundtrip_from_reader; eassumption. }
  split; [apply R, B1|]. apply decodes_any. rewrite buf_ok_any in B, B1.
  apply (C27_unknown_fields D c lit (checked (usize_width t)) WF PK eq_refl m msg a u b _ G Ha Hu Hb U B). rewrite E. apply R, B1.
Qed.
Print Assumptions C27_forward_compatible.

(** A field number below 2^29 can be read off the tag; so a field whose number
    the message does not know has an unknown tag. *)
Lemma unknown_number c msg u : Forall (fun f => 0 <= f_number f < 2 ^ 29) (flat_map desc_fields (descs c msg)) ->
  (forall f, In f (flat_map desc_fields (descs c msg)) -> f_number f <> rtag u / 8) -> ~ In (rtag u) (known_tags c msg).
Proof.
  intros R H Hin. unfold known_tags in Hin. apply in_map_iff in Hin. destruct Hin as (f & E & Hf). apply (H f Hf).
  rewrite Forall_forall in R. specialize (R f Hf). rewrite <- E. unfold field_tag. rewrite wrapU_small by lia. rewrite gen_tag_eq by exact R.
  pose proof (wire_type_range (f_typ f) (f_is_packed f)). rewrite Z.mul_comm, Z.div_add_l by lia. rewrite Z.div_small by lia. lia.
Qed.

(** the example value with unknown fields of every wire type before, between
    and after its fields *)
Definition exA : list wrec := [mkRec [x0a] [x03; x68; xc3; xa9]].
Definition exB : list wrec := [mkRec [x80; x01] [x01]].
Example C27_case : Forall wrec_ok (exA ++ exB) /\
  Forall (fun u => wrec_ok u /\ ~ In (rtag u) (known_tags cfg0 exOuter))
    [mkRec [x78] [xff; x01]; mkRec [x79] [x01; x02; x03; x04; x05; x06; x07; x08]; mkRec [x7a] [x02; x01; x01]; mkRec [x7d] [x00; x00; x00; x00]] /\
  decode exD cfg0 nolit (checked W64) 30 [0%nat] (recs_bytes (exA ++ mkRec [x7a] [x02; x01; x01] :: exB))
  = decode exD cfg0 nolit (checked W64) 30 [0%nat] (recs_bytes (exA ++ exB)).
Proof.
  assert (V : forall b, bz b < 128 -> is_varint [b]) by (intros; constructor; assumption).
  assert (V1 : is_varint [xff; x01]) by (constructor; [vm_compute; discriminate|apply V; reflexivity]).
  assert (V2 : is_varint [x80; x01]) by (constructor; [vm_compute; discriminate|apply V; reflexivity]).
  assert (K : forall k p w, is_varint k -> (length k <= 10)%nat -> varint_value k mod 2 ^ 32 mod 8 = w -> field_payload w p -> zlen p < 2 ^ 32 -> wrec_ok (mkRec k p)).
  { intros k p w A B <- P L. repeat split; assumption. }
  split; [|split].
  - unfold exA, exB; cbn [app]; repeat apply Forall_cons; try apply Forall_nil.
    + apply (K _ _ 2); [apply V; reflexivity|cbn; lia|reflexivity|apply (fp_len [x03] [x68; xc3; xa9]); [apply V; reflexivity|cbn; lia|reflexivity]|reflexivity].
    + apply (K _ _ 0); [exact V2|cbn; lia|reflexivity|constructor; [apply V; reflexivity|cbn; lia]|reflexivity].
  - assert (U : forall u, existsb (Z.eqb (rtag u)) (known_tags cfg0 exOuter) = false -> ~ In (rtag u) (known_tags cfg0 exOuter)).
    { intros u E Hin. assert (existsb (Z.eqb (rtag u)) (known_tags cfg0 exOuter) = true); [|congruence]. apply existsb_exists.
      exists (rtag u). split; [exact Hin|apply Z.eqb_refl]. }
    repeat apply Forall_cons; try apply Forall_nil; (split; [|apply U; vm_compute; reflexivity]).
    + apply (K _ _ 0); [apply V; reflexivity|cbn; lia|reflexivity|constructor; [exact V1|cbn; lia]|reflexivity].
    + apply (K _ _ 1); [apply V; reflexivity|cbn; lia|reflexivity|constructor; reflexivity|reflexivity].
    + apply (K _ _ 2); [apply V; reflexivity|cbn; lia|reflexivity|apply (fp_len [x02] [x01; x01]); [apply V; reflexivity|cbn; lia|reflexivity]|reflexivity].
    + apply (K _ _ 5); [apply V; reflexivity|cbn; lia|reflexivity|constructor; reflexivity|reflexivity].
  - vm_compute. reflexivity.
Qed.

(** ** C31: order independence *)

(** [belongs d r]: the record [r] is an occurrence of the field (or of a member
    of the oneof) behind the struct field [d] *)
Theorem C31_field_order : forall D c lit t, schema_wf D c lit -> schema_packed_ok D c -> overflow_checks t = true ->
  forall m msg rs rs' ss, get_message D m = Some msg -> Forall wrec_ok rs -> Forall wrec_ok rs' ->
  buf_ok t (recs_bytes rs) -> buf_ok t (recs_bytes rs') ->
  (forall d, In d (descs c msg) -> filter (belongs d) rs = filter (belongs d) rs') ->
  decodes D c lit t m (recs_bytes rs) ss <-> decodes D c lit t m (recs_bytes rs') ss.
Proof.
  intros D c lit t WF PK CH m msg rs rs' ss G H1 H2 B1 B2 E. rewrite !decodes_checked by assumption.
  destruct (WF m msg G) as [_ _ W3]. destruct (message_default D c lit m) as [df|] eqn:DF; [|congruence].
  apply (decode_same_fields D c lit WF PK t CH m msg G df DF); assumption.
Qed.
Print Assumptions C31_field_order.
Theorem C31_encoding_order : forall D c lit t, schema_wf D c lit -> schema_packed_ok D c ->
  forall m msg ss, get_message D m = Some msg -> message_ok D c m ss -> zlen (enc_message D c lit m ss) < 2 ^ 32 ->
  forall rs rs', recs_bytes rs = enc_message D c lit m ss -> Forall wrec_ok rs -> Forall wrec_ok rs' ->
  buf_ok t (recs_bytes rs) -> buf_ok t (recs_bytes rs') ->
  (forall d, In d (descs c msg) -> filter (belongs d) rs = filter (belongs d) rs') ->
  exists ss', decodes D c lit t m (recs_bytes rs) ss' /\ decodes D c lit t m (recs_bytes rs') ss'.
Proof.
  intros D c lit t WF PK m msg ss G Ho Hl rs rs' E H1 H2 B1 B2 F. exists (canon_message D c lit m ss).
  assert (R : forall t, buf_ok t (recs_bytes rs) -> decodes D c lit t m (recs_bytes rs) (canon_message D c lit m ss)).
  { rewrite E. intros t' B' n Hn. eapply roundtrip_from_reader; eassumption. }
  split; [apply R, B1|]. apply decodes_any. rewrite buf_ok_any in B1, B2.
  apply (C31_field_order D c lit (checked (usize_width t)) WF PK eq_refl m msg rs rs' _ G H1 H2 B1 B2 F). apply R, B1.
Qed.
Print Assumptions C31_encoding_order.
Example C31_case : (forall d, In d (descs cfg0 exOuter) -> filter (belongs d) (exA ++ exB) = filter (belongs d) (exB ++ exA)) /\
  decode exD cfg0 nolit (checked W64) 30 [0%nat] (recs_bytes (exA ++ exB))
  = decode exD cfg0 nolit (checked W64) 30 [0%nat] (recs_bytes (exB ++ exA)).
Proof.
  split; [|vm_compute; reflexivity]. intros d Hd. cbn in Hd. repeat (destruct Hd as [<-|Hd]; [vm_compute; reflexivity|]). contradiction.
Qed.

(** ** C28: concatenation *)
Theorem C28_concatenation : forall D c lit t, schema_wf D c lit -> schema_packed_ok D c -> overflow_checks t = true ->
  forall m msg ra rb x y, get_message D m = Some msg -> Forall wrec_ok ra -> Forall wrec_ok rb ->
  buf_ok t (recs_bytes ra ++ recs_bytes rb) ->
  decodes D c lit t m (recs_bytes ra) x -> decodes D c lit t m (recs_bytes rb) y ->
  exists z, decodes D c lit t m (recs_bytes ra ++ recs_bytes rb) z /\ length z = length (descs c msg) /\
    forall i d xi yi zi, nth_error (descs c msg) i = Some d -> nth_error x i = Some xi -> nth_error y i = Some yi ->
      nth_error z i = Some zi -> merged d (existsb (belongs d) rb) xi yi zi.
Proof.
  intros D c lit t WF PK CH m msg ra rb x y G Ha Hb B X Y.
  destruct (buf_ok_app _ _ _ B) as [B1 B2]. rewrite decodes_checked in X by assumption. rewrite decodes_checked in Y by assumption.
  destruct (WF m msg G) as [_ _ W3]. destruct (message_default D c lit m) as [df|] eqn:DF; [|congruence].
  destruct (decode_concat D c lit WF PK t CH m msg G df DF ra rb x y Ha Hb B X Y) as (z & Z1 & Z2 & Z3).
  exists z. split; [apply decodes_checked; assumption|]. auto.
Qed.
Print Assumptions C28_concatenation.
(** two encodings, on every target *)
Theorem C28_encodings : forall D c lit t, schema_wf D c lit -> schema_packed_ok D c ->
  forall m msg sa sb, get_message D m = Some msg -> message_ok D c m sa -> message_ok D c m sb ->
  let ea := enc_message D c lit m sa in let eb := enc_message D c lit m sb in
  zlen ea < 2 ^ 32 -> zlen eb < 2 ^ 32 -> buf_ok t (ea ++ eb) ->
  exists rb x y z, recs_bytes rb = eb /\ Forall wrec_ok rb /\
    decodes D c lit t m ea x /\ decodes D c lit t m eb y /\ decodes D c lit t m (ea ++ eb) z /\
    length z = length (descs c msg) /\
    forall i d xi yi zi, nth_error (descs c msg) i = Some d -> nth_error x i = Some xi -> nth_error y i = Some yi ->
      nth_error z i = Some zi -> merged d (existsb (belongs d) rb) xi yi zi.
Proof.
  intros D c lit t WF PK m msg sa sb G Ka Kb ea eb La Lb B.
  destruct (message_recs D c lit m sa WF PK Ka La) as (ra & Ea & Ha). destruct (message_recs D c lit m sb WF PK Kb Lb) as (rb & Eb & Hb).
  assert (R : forall t s, message_ok D c m s -> zlen (enc_message D c lit m s) < 2 ^ 32 -> buf_ok t (enc_message D c lit m s) ->
            decodes D c lit t m (enc_message D c lit m s) (canon_message D c lit m s)).
  { intros t' s K L B' n Hn. eapply roundtrip_from_reader; eassumption. }
  destruct (buf_ok_app _ _ _ B) as [B1 B2]. set (t1 := checked (usize_width t)).
  assert (B' : buf_ok t1 (ea ++ eb)) by (apply buf_ok_any; exact B). destruct (buf_ok_app _ _ _ B') as [B1' B2'].
  destruct (C28_concatenation D c lit t1 WF PK eq_refl m msg ra rb (canon_message D c lit m sa) (canon_message D c lit m sb) G Ha Hb) as (z & Z1 & Z2 & Z3).
  - rewrite Ea, Eb. exact B'.
  - rewrite Ea. apply R; assumption.
  - rewrite Eb. apply R; assumption.
  - exists rb, (canon_message D c lit m sa), (canon_message D c lit m sb), z. split; [exact Eb|]. split; [exact Hb|].
    split; [apply R; assumption|]. split; [apply R; assumption|]. split; [|auto].
    apply decodes_any. rewrite Ea, Eb in Z1. exact Z1.
Qed.
Print Assumptions C28_encodings.
(** Outer { inners: [{id:7}], tags: ["a"] , mp: {"k" -> {1}}, name: "x" } ++ Outer { inners: [{}], mp: {"k" -> {2}}, name: "y" } *)
Definition exCatA := [x0a; x01; x78; x1a; x02; x08; x07; x32; x07; x0a; x01; x6b; x12; x02; x08; x01; x82; x7d; x01; x61].
Definition exCatB := [x0a; x01; x79; x1a; x00; x32; x07; x0a; x01; x6b; x12; x02; x08; x02].
Example C28_case : exists d, decode exD cfg0 nolit (checked W64) 40 [0%nat] (exCatA ++ exCatB) = Ok d /\
  nth_error d 0 = Some (SlOne (VB [x79])) /\
  nth_error d 2 = Some (SlVec [VMsg [SlOne (VZ 7); SlOne (VZ 0)]; VMsg [SlOne (VZ 0); SlOne (VZ 0)]]) /\
  nth_error d 5 = Some (SlMap [(VB [x6b], VMsg [SlOne (VZ 2); SlOne (VZ 0)])]) /\
  nth_error d 8 = Some (SlVec [VB [x61]]).
Proof. eexists. split; [vm_compute; reflexivity|]. repeat split. Qed.

(** ** C34: oneof *)
Theorem C34_oneof_last : forall D c lit t, schema_wf D c lit -> schema_packed_ok D c -> overflow_checks t = true ->
  forall m msg rs ss i vs s, get_message D m = Some msg -> Forall wrec_ok rs -> buf_ok t (recs_bytes rs) ->
  decodes D c lit t m (recs_bytes rs) ss -> nth_error (descs c msg) i = Some (SdOneof vs) -> nth_error ss i = Some s ->
  (filter (belongs (SdOneof vs)) rs = [] /\ s = SlOneofNone) \/
  (exists a r b sr, rs = a ++ r :: b /\ belongs (SdOneof vs) r = true /\ existsb (belongs (SdOneof vs)) b = false /\
     decodes D c lit t m (rec_bytes r) sr /\ nth_error sr i = Some s /\
     exists j f v, s = SlOneof j v /\ nth_error vs j = Some f /\ field_tag f = rtag r).
Proof.
  intros D c lit t WF PK CH m msg rs ss i vs s G Hr B E Nd Ns. rewrite decodes_checked in E by assumption.
  destruct (WF m msg G) as [_ _ W3]. destruct (message_default D c lit m) as [df|] eqn:DF; [|congruence].
  destruct (decode_oneof D c lit WF PK t CH m msg G df DF rs ss i vs s Hr B E Nd Ns) as [H|(a & r & b & sr & -> & H2 & H3 & H4 & H5)]; [left; exact H|].
  right. exists a, r, b, sr. split; [reflexivity|]. split; [exact H2|]. split; [exact H3|]. split; [|exact H5].
  apply decodes_checked; [assumption| |exact H4]. rewrite recs_bytes_app in B. apply buf_ok_app in B. destruct B as [_ B].
  unfold recs_bytes in B. cbn [map concat] in B. apply buf_ok_app in B. apply B.
Qed.
Print Assumptions C34_oneof_last.
(** a = 5; o = {}; a = 6 *)
Example C34_case : exists d, decode exD cfg0 nolit (checked W64) 40 [0%nat] [x38; x05; x42; x00; x38; x06] = Ok d /\
  nth_error d 9 = Some (SlOneof 0 (VZ 6)).
Proof. eexists. split; [vm_compute; reflexivity|reflexivity]. Qed.

(** ** C32: enums *)
Theorem C32_enum_decoding : forall D t from e en, get_enum D e = Some en ->
  forall l, is_varint l -> (length l <= 10)%nat ->
  let i := wrapS 32 (varint_value l mod 2 ^ 32) in
  exists z, reads t (read_value D t from (read_fn (TEnum e))) l (VZ z) /\
    (In i (map snd (en_fields en)) -> z = i) /\
    (~ In i (map snd (en_fields en)) -> forall name z0 rest, en_fields en = (name, z0) :: rest -> z = z0).
Proof.
  intros D t from e en G l V L i. exists (enum_from_i32 D e i). split; [|split].
  - apply reads_intro. intros bs s r Hh Hb He. cbn [read_fn read_value]. unfold read_enum, read_int32, rmap.
    erewrite bind_ok; [|erewrite bind_ok; [|erewrite bind_ok; [|apply read_varint32_ok; eassumption]; reflexivity]; reflexivity]. reflexivity.
  - intros Hin. unfold enum_from_i32. rewrite G. destruct (find (fun '(_, z) => i =? z) (en_fields en)) as [[n z]|] eqn:F.
    + apply find_some in F. lia.
    + exfalso. apply in_map_iff in Hin. destruct Hin as ([n z] & E & Hin). pose proof (find_none _ _ F _ Hin) as X. cbn in *. lia.
  - intros Hn name z0 rest E. unfold enum_from_i32, enum_default. rewrite G.
    destruct (find (fun '(_, z) => i =? z) (en_fields en)) as [[n z]|] eqn:F.
    + exfalso. apply Hn. apply find_some in F. destruct F as [Hin X]. apply in_map_iff. exists (n, z). cbn. split; [lia|exact Hin].
    + rewrite E. reflexivity.
Qed.
Print Assumptions C32_enum_decoding.
Example C32_case : exists d1 d2, decode exD cfg0 nolit (checked W64) 40 [0%nat] [x80; x01; xfb; xff; xff; xff; x0f] = Ok d1 /\
  nth_error d1 7 = Some (SlOne (VZ (-5))) /\
  decode exD cfg0 nolit (checked W64) 40 [0%nat] [x80; x01; x63] = Ok d2 /\ nth_error d2 7 = Some (SlOne (VZ 0)).
Proof. do 2 eexists. repeat split; vm_compute; reflexivity. Qed.

(** ** C33: default elision *)

Lemma write_with_tag_nonempty tag w : write_with_tag tag w <> [].
Proof. unfold write_with_tag, write_tag, write_varint. cbn [write_varint_loop]. destruct (_ <? _); discriminate. Qed.

Lemma Forall2_nth_l {A B} (P : A -> B -> Prop) l l' i x : Forall2 P l l' -> nth_error l i = Some x ->
  exists y, nth_error l' i = Some y /\ P x y.
Proof.
  intros H. revert i. induction H as [|a b l l' Hab Hll IH]; intros [|i] E; try discriminate E; cbn in *.
  - injection E as ->. eauto.
  - apply IH, E.
Qed.

(** An elided value is what the decoder fills in.  Missing: proto3 fields with
    a [default] option and -0.0, for which it is false (below). *)
Theorem C33_elision_partial : forall D c lit, schema_wf D c lit -> no_proto3_default D ->
  forall m msg df i f v, get_message D m = Some msg -> message_default D c lit m = Some df ->
  nth_error (descs c msg) i = Some (SdField f) -> f_freq f = P3Default -> (forall k, f_typ f <> TMessage k) ->
  val_ok D c (f_typ f) v -> ~ negative_zero (f_typ f) v ->
  (* the generated code does not write the field *)
  slot_write D c lit (field_write c f) (SlOne v) = [] ->
  nth_error df i = Some (SlOne v).
Proof.
  intros D c lit WF ND m msg df i f v G DF N F NM V NZ W.
  pose proof (message_default_agrees D c lit ND m msg df G DF) as A.
  destruct (Forall2_nth_l _ _ _ _ _ A N) as (s & Ns & As). rewrite Ns. f_equal.
  assert (IP : implicit_presence f = true).
  { unfold implicit_presence. rewrite F. destruct (f_typ f); try reflexivity. exfalso. eapply NM; reflexivity. }
  assert (Bx : f_boxed f = false).
  { pose proof (mw_descs _ _ _ _ _ (WF m msg G)) as Hd. rewrite Forall_forall in Hd. specialize (Hd _ (nth_error_In _ _ N)).
    destruct (f_boxed f) eqn:Bx; [|reflexivity]. destruct Hd as [Hd _]. rewrite F in Hd. discriminate (Hd Bx). }
  assert (Nd : f_default f = None) by (apply (ND m msg f G); [apply (desc_in_fields c), (nth_error_In _ _ N)|exact F]).
  destruct As as (w & Iw & ->); [exact IP|rewrite F; reflexivity|exact Bx|]. f_equal. symmetry.
  unfold implicit_default in Iw. rewrite Nd in Iw.
  eapply rust_eq_default; [eassumption..|].
  unfold field_write in W. rewrite F in W. cbn [generated_type_of freq_is_map freq_is_repeated freq_is_optional] in W.
  assert (HP : has_presence f = false).
  { unfold has_presence. rewrite F. destruct (f_typ f); try reflexivity. exfalso. eapply NM; reflexivity. }
  rewrite HP in W. cbn [slot_write] in W.
  unfold get_field_default in W. rewrite F, Bx, Nd in W. cbn [generated_type_of freq_is_map freq_is_repeated freq_is_optional] in W.
  destruct (f_typ f) eqn:T; try discriminate Iw; cbn [dexpr_value dexpr_slot] in W; unfold dexpr_value in W; cbn [dexpr_slot] in W; try rewrite Iw in W;
    cbn [option_map] in W; destruct (rust_eq _ v w) eqn:R; try reflexivity; try discriminate W;
    exfalso; revert W; apply write_with_tag_nonempty.
Qed.
Print Assumptions C33_elision_partial.
Example C33_case : slot_write exD cfg0 nolit (field_write cfg0 (fld "f" P3Default TFloat 2 None false)) (SlOne (VZ 0)) = [].
Proof. vm_compute. reflexivity. Qed.

(** {v syntax = "proto3"; message M { int32 n = 1 [default = 42]; float x = 2; } v}
    after [sanitize_default] (types.rs:777-806) *)
Definition ddM : message := msg_of "M"
  [ mkField "n" P3Default TInt32 1 (Some "42i32"%string) None false false; fld "x" P3Default TFloat 2 None false ] [] [0%nat].
Definition ddD : file_descriptor := mkDesc ""%string Proto3 [ddM] [] ""%string.
Definition ddlit (t : field_type) (s : text) : option value := match t with TInt32 => Some (VZ 42) | _ => None end.
Lemma ddD_wf : schema_wf ddD cfg0 ddlit.
Proof. apply schema_wfb_sound. vm_compute. reflexivity. Qed.

(** Elided custom default: 42 is written as nothing and comes back as 0. *)
Theorem C33_custom_default_refuted : exists D c lit m ss ss', schema_wf D c lit /\ message_ok D c m ss /\
  emits (message_write D c lit m ss) [] /\ (forall t, decodes D c lit t m [] ss') /\
  ss = [SlOne (VZ 42); SlOne (VZ 0)] /\ ss' = [SlOne (VZ 0); SlOne (VZ 0)].
Proof.
  exists ddD, cfg0, ddlit, [0%nat], [SlOne (VZ 42); SlOne (VZ 0)], [SlOne (VZ 0); SlOne (VZ 0)].
  split; [exact ddD_wf|]. split; [cbn; repeat split; discriminate|]. split; [|split; [|split; reflexivity]].
  - intros b. rewrite app_nil_r. reflexivity.
  - intros t [|n] Hn; [cbn in Hn; lia|]. reflexivity.
Qed.
Print Assumptions C33_custom_default_refuted.
(** -0.0 is equal to the default +0.0, is not written, and comes back as +0.0. *)
Theorem C33_negative_zero_refuted : exists D c lit m ss ss', schema_wf D c lit /\ no_proto3_default D /\ message_ok D c m ss /\
  emits (message_write D c lit m ss) [] /\ (forall t, decodes D c lit t m [] ss') /\
  ss = [SlOne (VZ 0); SlOne (VZ (2 ^ 31))] /\ ss' = [SlOne (VZ 0); SlOne (VZ 0)].
Proof.
  exists exD, cfg0, nolit, [1%nat], [SlOne (VZ 0); SlOne (VZ (2 ^ 31))], [SlOne (VZ 0); SlOne (VZ 0)].
  split; [exact exD_wf|]. split; [exact exD_no_default|].
  split; [cbn; repeat split; discriminate|]. split; [|split; [|split; reflexivity]].
  - intros b. rewrite app_nil_r. reflexivity.
  - intros t [|n] Hn; [cbn in Hn; lia|]. reflexivity.
Qed.
Print Assumptions C33_negative_zero_refuted.

(** ** C29: merging as the protobuf specification prescribes *)

(** the fixed-width elements of a struct field *)
Definition pf_elements (k : fixed_kind) (s : slot) (l : list Z) : Prop :=
  match s with SlPF p => represents k p l | _ => False end.

(** The specification: "embedded message fields are merged"; a field of the
    embedded message that the later occurrence does not carry keeps its value.
    Outer { inner { id: 7 } } followed by Outer { inner { f: 1.0 } } must give
    inner { id: 7, f: 1.0 }; generated code gives inner { id: 0, f: 1.0 }. *)
Theorem C29_embedded_message_refuted : exists D c lit m ea eb za zb z, schema_wf D c lit /\
  forall t, decodes D c lit t m ea za /\ decodes D c lit t m eb zb /\ decodes D c lit t m (ea ++ eb) z /\
  nth_error za 1 = Some (SlOne (VMsg [SlOne (VZ 7); SlOne (VZ 0)])) /\
  nth_error zb 1 = Some (SlOne (VMsg [SlOne (VZ 0); SlOne (VZ 0x3f800000)])) /\
  nth_error z 1 = Some (SlOne (VMsg [SlOne (VZ 0); SlOne (VZ 0x3f800000)])).
Proof.
  exists exD, cfg0, nolit, [0%nat], [x12; x02; x08; x07], [x12; x05; x15; x00; x00; x80; x3f].
  do 3 eexists. split; [exact exD_wf|]. intros t.
  assert (R : forall bs z, buf_ok (checked W32) bs -> decode exD cfg0 nolit (checked W32) (S (length bs)) [0%nat] bs = Ok z ->
                      decode exD cfg0 nolit (checked W64) (S (length bs)) [0%nat] bs = Ok z -> decodes exD cfg0 nolit t [0%nat] bs z).
  { intros bs z B E1 E2. apply decodes_any. destruct t as [[] k]; apply decodes_checked; try reflexivity; try assumption.
    unfold buf_ok in *. cbn in *. lia. }
  split; [apply R; vm_compute; reflexivity|]. split; [apply R; vm_compute; reflexivity|]. split; [apply R; vm_compute; reflexivity|].
  repeat split; reflexivity.
Qed.
Print Assumptions C29_embedded_message_refuted.

(** "Packed fields ... chunks are concatenated": two chunks [1] and [2] of the
    packed field pf must give [1; 2]; generated code keeps only the last. *)
Theorem C29_packed_chunks_refuted : exists D c lit m ea eb za zb z, schema_wf D c lit /\
  (forall t, decodes D c lit t m ea za /\ decodes D c lit t m eb zb /\ decodes D c lit t m (ea ++ eb) z) /\
  (exists s, nth_error za 3 = Some s /\ pf_elements KU32 s [1]) /\
  (exists s, nth_error zb 3 = Some s /\ pf_elements KU32 s [2]) /\
  (exists s, nth_error z 3 = Some s /\ pf_elements KU32 s [2]) /\
  nth_error za 4 = Some (SlVec [VZ (-1)]) /\ nth_error zb 4 = Some (SlVec [VZ 1]) /\ nth_error z 4 = Some (SlVec [VZ 1]).
Proof.
  exists exD, cfg0, nolit, [0%nat], [x22; x04; x01; x00; x00; x00; x2a; x01; x01], [x22; x04; x02; x00; x00; x00; x2a; x01; x02].
  do 3 eexists. split; [exact exD_wf|]. split.
  { intros t.
    assert (R : forall bs z, buf_ok (checked W32) bs -> decode exD cfg0 nolit (checked W32) (S (length bs)) [0%nat] bs = Ok z ->
                        decode exD cfg0 nolit (checked W64) (S (length bs)) [0%nat] bs = Ok z -> decodes exD cfg0 nolit t [0%nat] bs z).
    { intros bs z B E1 E2. apply decodes_any. destruct t as [[] k]; apply decodes_checked; try reflexivity; try assumption.
      unfold buf_ok in *. cbn in *. lia. }
    split; [apply R; vm_compute; reflexivity|]. split; [apply R; vm_compute; reflexivity|]. apply R; vm_compute; reflexivity. }
  assert (W : forall z, 0 <= z < 2 ^ 32 -> Forall (fk_range KU32) [z]) by (intros; constructor; [assumption|constructor]).
  split; [eexists; split; [reflexivity|]; split; [vm_compute; reflexivity|apply W; lia]|].
  split; [eexists; split; [reflexivity|]; split; [vm_compute; reflexivity|apply W; lia]|].
  split; [eexists; split; [reflexivity|]; split; [vm_compute; reflexivity|apply W; lia]|].
  repeat split; reflexivity.
Qed.
Print Assumptions C29_packed_chunks_refuted.

(** ** C30: packed and unpacked *)

(** An occurrence of a known field number with another wire type, such as an
    unpacked element of a packed field or a packed chunk of an unpacked one, is
    skipped like an unknown field. *)
Theorem C30_other_wire_type_dropped : forall D c lit t, schema_wf D c lit -> schema_packed_ok D c -> overflow_checks t = true ->
  forall m msg f, get_message D m = Some msg -> In (SdField f) (descs c msg) ->
  let fs := flat_map desc_fields (descs c msg) in
  Forall (fun g => 0 <= f_number g < 2 ^ 29) fs -> NoDup (map f_number fs) ->
  forall a r b ss, Forall wrec_ok a -> wrec_ok r -> Forall wrec_ok b -> buf_ok t (recs_bytes (a ++ r :: b)) ->
  rtag r / 8 = f_number f -> rtag r mod 8 <> wire_type_num (f_typ f) (f_is_packed f) ->
  decodes D c lit t m (recs_bytes (a ++ r :: b)) ss <-> decodes D c lit t m (recs_bytes (a ++ b)) ss.
Proof.
  intros D c lit t WF PK CH m msg f G Hf fs R ND a r b ss Ha Hr Hb B Nr Wr.
  eapply C27_unknown_fields; try eassumption. intros Hin. unfold known_tags in Hin. apply in_map_iff in Hin.
  destruct Hin as (g & E & Hg). fold fs in Hg. pose proof (proj1 (Forall_forall _ _) R g Hg) as Rg.
  assert (E' : field_tag g = 8 * f_number g + wire_type_num (f_typ g) (f_is_packed g)).
  { unfold field_tag. cbn beta in Rg. rewrite wrapU_small by lia. apply gen_tag_eq, Rg. }
  pose proof (wire_type_range (f_typ g) (f_is_packed g)) as Wg. rewrite E' in E. rewrite <- E in Nr, Wr.
  rewrite Z.mul_comm, Z.div_add_l in Nr by lia. rewrite Z.div_small in Nr by lia.
  rewrite Z.mul_comm, Z.add_comm, Z.mod_add in Wr by lia. rewrite Z.mod_small in Wr by lia.
  assert (Hf' : In f fs) by (apply in_flat_map; exists (SdField f); split; [exact Hf|left; reflexivity]).
  assert (g = f); [|subst; contradiction]. assert (En : f_number g = f_number f) by lia. clear - ND Hg Hf' En.
  induction fs as [|h fs IH]; [destruct Hg|]. cbn in ND. inversion_clear ND. destruct Hg as [->|Hg], Hf' as [->|Hf']; [reflexivity| | |auto].
  - exfalso. apply H. rewrite En. apply in_map, Hf'.
  - exfalso. apply H. rewrite <- En. apply in_map, Hg.
Qed.
Print Assumptions C30_other_wire_type_dropped.
Theorem C30_interchangeable_refuted : exists D c lit m packed unpacked zp zu, schema_wf D c lit /\
  packed = [x22; x08; x01; x00; x00; x00; x02; x00; x00; x00] /\
  unpacked = [x25; x01; x00; x00; x00; x25; x02; x00; x00; x00] /\
  (forall t, decodes D c lit t m packed zp /\ decodes D c lit t m unpacked zu) /\
  (exists s, nth_error zp 3 = Some s /\ pf_elements KU32 s [1; 2]) /\
  (exists s, nth_error zu 3 = Some s /\ pf_elements KU32 s []).
Proof.
  exists exD, cfg0, nolit, [0%nat]. do 4 eexists. split; [exact exD_wf|]. split; [reflexivity|]. split; [reflexivity|]. split.
  { intros t.
    assert (R : forall bs z, buf_ok (checked W32) bs -> decode exD cfg0 nolit (checked W32) (S (length bs)) [0%nat] bs = Ok z ->
                        decode exD cfg0 nolit (checked W64) (S (length bs)) [0%nat] bs = Ok z -> decodes exD cfg0 nolit t [0%nat] bs z).
    { intros bs z B E1 E2. apply decodes_any. destruct t as [[] k]; apply decodes_checked; try reflexivity; try assumption.
      unfold buf_ok in *. cbn in *. lia. }
    split; apply R; vm_compute; reflexivity. }
  split; (eexists; split; [reflexivity|]; split; [vm_compute; reflexivity|repeat constructor; vm_compute; congruence]).
Qed.
Print Assumptions C30_interchangeable_refuted.

(** ** C35: tags *)

(** Field numbers in the range that protobuf allows, distinct: the tags are
    distinct, and number and wire type can be read off a tag.  Missing: pb-rs
    checks neither (see C35_refuted in Props_Passes). *)
Theorem C35_tags_partial : forall c msg, let fs := flat_map desc_fields (descs c msg) in
  Forall (fun f => 1 <= f_number f < 2 ^ 29) fs ->
  Forall (fun f => field_tag f / 8 = f_number f /\ field_tag f mod 8 = wire_type_num (f_typ f) (f_is_packed f)) fs /\
  (NoDup (map f_number fs) -> NoDup (map field_tag fs)).
Proof.
  intros c msg fs R.
  assert (E : forall f, In f fs -> field_tag f / 8 = f_number f /\ field_tag f mod 8 = wire_type_num (f_typ f) (f_is_packed f)).
  { intros f Hf. pose proof (proj1 (Forall_forall _ _) R f Hf) as Rf. cbn beta in Rf. unfold field_tag. rewrite wrapU_small by lia.
    rewrite gen_tag_eq by lia. pose proof (wire_type_range (f_typ f) (f_is_packed f)) as W. split.
    - rewrite Z.mul_comm, Z.div_add_l by lia. rewrite Z.div_small by lia. lia.
    - rewrite Z.mul_comm, Z.add_comm, Z.mod_add by lia. apply Z.mod_small. lia. }
  split; [apply Forall_forall; exact E|]. clear R. induction fs as [|f fs IH]; intros ND; [constructor|]. cbn in *. inversion_clear ND. constructor.
  - intros Hin. apply in_map_iff in Hin. destruct Hin as (g & Eg & Hg). apply H. apply in_map_iff. exists g. split; [|exact Hg].
    rewrite <- (proj1 (E f (or_introl eq_refl))), <- (proj1 (E g (or_intror Hg))), Eg. reflexivity.
  - apply IH; auto.
Qed.
Print Assumptions C35_tags_partial.
Example C35_case : map field_tag (flat_map desc_fields (descs cfg0 exOuter)) = [10; 18; 26; 34; 42; 50; 74; 128; 16002; 56; 66].
Proof. vm_compute. reflexivity. Qed.
