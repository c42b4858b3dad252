(** Property theorems C01-C08, C47, C50: varints, scalars, bytes, strings.

    Vocabulary (Spec.v): [emits p enc] - running the writer calls [p] on a Vec
    appends exactly [enc]; [reads t m enc v] - the read function [m], started
    where [enc] stands in a buffer, returns [v] and stops right after [enc],
    whatever surrounds [enc] and whatever the reader's window. *)
From Coq Require Import ZifyBool ZifyNat ZifyN.
From Verif Require Import Base BaseFacts Utf8 Reader PackedFixed Writer Sizeofs Spec
  VarintFacts WriterFacts ScalarFacts DelimFacts Utf8Facts BackendFacts ExactFacts SimFacts.

(** ** C01 *)
Theorem C01_varint_roundtrip : forall v, 0 <= v < 2 ^ 64 ->
  exists enc, emits (write_varint v) enc /\ reads_any read_varint64 enc v.
Proof.
  intros v H. exists (enc_varint v). split; [apply write_varint_emits, H|apply reads_varint64, H].
Qed.
Print Assumptions C01_varint_roundtrip.
Example C01_case : 0 <= 2 ^ 64 - 1 < 2 ^ 64 /\
  run vec_step (write_varint (2 ^ 64 - 1)) [] = (Ok tt, repeat xff 9 ++ [x01]).
Proof. split; [lia|reflexivity]. Qed.

(** ** C02 *)
Theorem C02_varint_size_minimal : forall v, 0 <= v < 2 ^ 64 ->
  exists enc, emits (write_varint v) enc /\ is_varint enc /\ varint_value enc = v /\
    zlen enc = sizeof_varint v /\ 1 <= sizeof_varint v <= 10 /\
    forall l, is_varint l -> varint_value l = v -> zlen enc <= zlen l.
Proof.
  intros v H. exists (enc_varint v). destruct (enc_varint_ok v H) as [A B].
  split; [apply write_varint_emits, H|]. split; [exact A|]. split; [exact B|].
  split; [apply enc_varint_len, H|]. split; [apply sizeof_varint_range|].
  intros l Hl Hv. rewrite enc_varint_len by exact H. apply sizeof_minimal; assumption.
Qed.
Print Assumptions C02_varint_size_minimal.
Example C02_case : is_varint [x80; x80; x00] /\ varint_value [x80; x80; x00] = 0 /\ sizeof_varint 0 = 1.
Proof. repeat split; repeat constructor; vm_compute; congruence. Qed.

(** ** C03 / C04: every scalar type *)

Theorem C03_scalar_roundtrip : forall t,
  (forall v, is_s 32 v -> exists enc, emits (write_int32 v) enc /\ reads t read_int32 enc v) /\
  (forall v, is_s 64 v -> exists enc, emits (write_int64 v) enc /\ reads t read_int64 enc v) /\
  (forall v, is_u 32 v -> exists enc, emits (write_uint32 v) enc /\ reads t read_uint32 enc v) /\
  (forall v, is_u 64 v -> exists enc, emits (write_uint64 v) enc /\ reads t read_uint64 enc v) /\
  (forall v, is_s 32 v -> exists enc, emits (write_sint32 v) enc /\ reads t read_sint32 enc v) /\
  (forall v, is_s 64 v -> exists enc, emits (write_sint64 v) enc /\ reads t read_sint64 enc v) /\
  (forall v, exists enc, emits (write_bool v) enc /\ reads t read_bool enc v) /\
  (forall v, is_u 32 v -> exists enc, emits (write_fixed32 v) enc /\ reads t (read_fixed32 t) enc v) /\
  (forall v, is_u 64 v -> exists enc, emits (write_fixed64 v) enc /\ reads t (read_fixed64 t) enc v) /\
  (forall v, is_s 32 v -> exists enc, emits (write_sfixed32 v) enc /\ reads t (read_sfixed32 t) enc v) /\
  (forall v, is_s 64 v -> exists enc, emits (write_sfixed64 v) enc /\ reads t (read_sfixed64 t) enc v) /\
  (forall v, is_u 32 v -> exists enc, emits (write_float v) enc /\ reads t (read_float t) enc v) /\
  (forall v, is_u 64 v -> exists enc, emits (write_double v) enc /\ reads t (read_double t) enc v) /\
  (forall E (from_i32 : Z -> E) v, is_s 32 v ->
     exists enc, emits (write_enum v) enc /\ reads t (read_enum from_i32) enc (from_i32 v)).
Proof.
  assert (G : forall A t w (r : rd A) size v, codec t w r size v -> exists enc, emits w enc /\ reads t r enc v)
    by (intros A t w r size v (enc & a & b & _); eauto).
  intros t. repeat split; intros; eapply G.
  - apply codec_int32; assumption.
  - apply codec_int64; assumption.
  - apply codec_uint32; assumption.
  - apply codec_uint64; assumption.
  - apply codec_sint32; assumption.
  - apply codec_sint64; assumption.
  - apply codec_bool.
  - apply codec_fixed32; assumption.
  - apply codec_fixed64; assumption.
  - apply codec_sfixed32; assumption.
  - apply codec_sfixed64; assumption.
  - apply codec_float; assumption.
  - apply codec_double; assumption.
  - apply codec_enum; assumption.
Qed.
Print Assumptions C03_scalar_roundtrip.
Example C03_case : is_s 32 (- 2 ^ 31) /\
  fst (read_sint32 [xff; xff; xff; xff; xff; xff; xff; xff; xff; x01] (mkR 0 10)) = Ok (- 2 ^ 31) /\
  run vec_step (write_sint32 (- 2 ^ 31)) [] = (Ok tt, [xff; xff; xff; xff; xff; xff; xff; xff; xff; x01]).
Proof. split; [unfold is_s; lia|]. split; reflexivity. Qed.

Theorem C04_sizeof_agrees :
  (forall v, is_s 32 v -> exists enc, emits (write_int32 v) enc /\ zlen enc = sizeof_int32 v) /\
  (forall v, is_s 64 v -> exists enc, emits (write_int64 v) enc /\ zlen enc = sizeof_int64 v) /\
  (forall v, is_u 32 v -> exists enc, emits (write_uint32 v) enc /\ zlen enc = sizeof_uint32 v) /\
  (forall v, is_u 64 v -> exists enc, emits (write_uint64 v) enc /\ zlen enc = sizeof_uint64 v) /\
  (forall v, is_s 32 v -> exists enc, emits (write_sint32 v) enc /\ zlen enc = sizeof_sint32 v) /\
  (forall v, is_s 64 v -> exists enc, emits (write_sint64 v) enc /\ zlen enc = sizeof_sint64 v) /\
  (forall v, exists enc, emits (write_bool v) enc /\ zlen enc = sizeof_bool v) /\
  (forall v, is_s 32 v -> exists enc, emits (write_enum v) enc /\ zlen enc = sizeof_enum v) /\
  (forall v, is_u 32 v -> exists enc, emits (write_fixed32 v) enc /\ zlen enc = 4) /\
  (forall v, is_u 64 v -> exists enc, emits (write_fixed64 v) enc /\ zlen enc = 8) /\
  (forall v, is_s 32 v -> exists enc, emits (write_sfixed32 v) enc /\ zlen enc = 4) /\
  (forall v, is_s 64 v -> exists enc, emits (write_sfixed64 v) enc /\ zlen enc = 8) /\
  (forall v, is_u 32 v -> exists enc, emits (write_float v) enc /\ zlen enc = 4) /\
  (forall v, is_u 64 v -> exists enc, emits (write_double v) enc /\ zlen enc = 8) /\
  (forall b, zlen b < 2 ^ 64 -> exists enc, emits (write_bytes b) enc /\ zlen enc = sizeof_len (zlen b)) /\
  (forall n, 0 <= n < 2 ^ 64 -> exists enc, emits (write_varint n) enc /\ sizeof_len n = zlen enc + n).
Proof.
  set (t := checked W64).
  assert (G : forall A w (r : rd A) size v, codec t w r size v -> exists enc, emits w enc /\ zlen enc = size)
    by (intros A w r size v (enc & a & _ & c & _); eauto).
  repeat split; intros.
  - eapply G, codec_int32; assumption.
  - eapply G, codec_int64; assumption.
  - eapply G, codec_uint32; assumption.
  - eapply G, codec_uint64; assumption.
  - eapply G, codec_sint32; assumption.
  - eapply G, codec_sint64; assumption.
  - eapply G, codec_bool.
  - eapply G, (codec_enum t (fun x => x)); assumption.
  - eapply G, codec_fixed32; assumption.
  - eapply G, codec_fixed64; assumption.
  - eapply G, codec_sfixed32; assumption.
  - eapply G, codec_sfixed64; assumption.
  - eapply G, codec_float; assumption.
  - eapply G, codec_double; assumption.
  - exists (enc_len b). split; [apply write_bytes_emits|apply enc_len_size]; assumption.
  - exists (enc_varint n). split; [apply write_varint_emits; assumption|].
    unfold sizeof_len. rewrite wrapU_small by assumption. rewrite enc_varint_len by assumption. reflexivity.
Qed.
Print Assumptions C04_sizeof_agrees.
Example C04_case : is_s 32 (-1) /\ sizeof_int32 (-1) = 10 /\ sizeof_sint32 (-1) = 1.
Proof. split; [unfold is_s; lia|]. split; reflexivity. Qed.

(** ** C05 *)
(** for every buffer and every start position inside or at its end *)
Theorem C05_varint_total : forall bs s e, 0 <= s <= zlen bs ->
  (exists l, here bs s l /\ is_varint l /\ (length l <= 10)%nat /\
     read_varint64 bs (mkR s e) = (Ok (varint_value l mod 2 ^ 64), mkR (s + zlen l) e) /\
     read_varint32 bs (mkR s e) = (Ok (varint_value l mod 2 ^ 32), mkR (s + zlen l) e)) \/
  (exists l, here bs s l /\ all_cont l /\ length l = 10%nat /\
     read_varint64 bs (mkR s e) = (Err EVarint, mkR (s + 10) e) /\
     read_varint32 bs (mkR s e) = (Err EVarint, mkR (s + 10) e)) \/
  (exists l, here bs s l /\ all_cont l /\ (length l < 10)%nat /\ s + zlen l = zlen bs /\
     read_varint64 bs (mkR s e) = (Err EUnexpectedEndOfBuffer, mkR (zlen bs) e) /\
     read_varint32 bs (mkR s e) = (Err EUnexpectedEndOfBuffer, mkR (zlen bs) e)).
Proof.
  intros bs s e Hs. destruct (here_split bs s Hs) as (l & Hl & Hend).
  destruct (varint_cases l 10) as [(l1 & l2 & -> & Hv & Hn)|[(l1 & l2 & -> & Hc & Hn)|(Hc & Hn)]].
  - left. apply here_app in Hl. destruct Hl as [Hl _]. exists l1. repeat split; auto.
    + apply read_varint64_ok; assumption.
    + apply read_varint32_ok; assumption.
  - right; left. apply here_app in Hl. destruct Hl as [Hl _]. exists l1. repeat split; auto.
    + eapply read_varint64_long; eassumption.
    + eapply read_varint32_long; eassumption.
  - right; right. exists l. repeat split; auto.
    + eapply read_varint64_eob; eassumption.
    + eapply read_varint32_eob; eassumption.
Qed.
Print Assumptions C05_varint_total.
(** the three cases are inhabited *)
Example C05_case :
  fst (read_varint32 [xff; xff; xff; xff; xff; x01] (mkR 0 6)) = Ok (2 ^ 32 - 1) /\
  fst (read_varint64 (repeat x80 11) (mkR 0 11)) = Err EVarint /\
  fst (read_varint64 [x00; x80; x80] (mkR 1 3)) = Err EUnexpectedEndOfBuffer.
Proof. repeat split; reflexivity. Qed.

(** ** C06 *)
Theorem C06_bytes_string_roundtrip : forall t b, zlen b < 2 ^ 32 ->
  (exists enc, emits (write_bytes b) enc /\ reads t (read_bytes t) enc b) /\
  (is_utf8 b -> exists enc, emits (write_string b) enc /\ reads t (read_string t) enc b).
Proof.
  intros t b H. pose proof (zlen_nonneg b). split.
  - exists (enc_len b). split; [apply write_bytes_emits; lia|apply reads_bytes, H].
  - intros U. exists (enc_len b). split; [apply write_bytes_emits; lia|].
    apply reads_string; [exact H|apply utf8_valid_iff, U].
Qed.
Print Assumptions C06_bytes_string_roundtrip.
Example C06_case : zlen [xe2; x82; xac] < 2 ^ 32 /\ is_utf8 [xe2; x82; xac].
Proof. split; [reflexivity|]. apply utf8_valid_iff. reflexivity. Qed.

(** ** C07 is false of the code: the length prefix is written with 64 bits and
    read with 32. *)
Lemma long_bytes t b : usize_width t = W64 -> zlen b = 2 ^ 32 ->
  fst (read_bytes t (enc_len b) (from_bytes (enc_len b))) = Ok [].
Proof.
  intros Hw Hb. unfold enc_len, from_bytes.
  assert (H1 : here (enc_varint (zlen b) ++ b) 0 (enc_varint (zlen b)))
    by (exists [], b; auto).
  set (bs := enc_varint (zlen b) ++ b) in *.
  assert (L : zlen (enc_varint (zlen b)) = 5).
  { rewrite Hb. reflexivity. }
  unfold read_bytes, read_len_varint.
  erewrite bind_ok by (eapply here_reads_any; [apply (reads_varint32 (zlen b)); lia|exact H1]).
  rewrite Hb at 1. change (2 ^ 32 mod 2 ^ 32) with 0. rewrite L.
  unfold read_len, bind, get_end, get_start, lift. cbn [r_start r_end].
  rewrite uadd_ok by (unfold usize_mod; rewrite Hw; lia).
  unfold set_end. cbn [r_start r_end]. unfold get_or_eob.
  assert (S : slice bs 5 5 = Some []).
  { apply (slice_here bs 5 []). apply here_nil. unfold bs. rewrite zlen_app, L. lia. }
  change (0 + 5 + 0) with 5. change (0 + 5) with 5. rewrite S. reflexivity.
Qed.

Theorem C07_long_bytes_refuted : exists t b enc,
  usize_width t = W64 /\ emits (write_bytes b) enc /\ buf_ok t enc /\
  fst (read_bytes t enc (from_bytes enc)) <> Ok b.
Proof.
  set (n := Z.to_nat (2 ^ 32)).
  assert (Hn : Z.of_nat n = 2 ^ 32) by (apply Z2Nat.id; lia). clearbody n.
  exists (unchecked W64), (repeat x00 n), (enc_len (repeat x00 n)).
  assert (L : zlen (repeat x00 n) = 2 ^ 32) by (unfold zlen; rewrite repeat_length; exact Hn).
  split; [reflexivity|]. split; [apply write_bytes_emits; rewrite L; lia|]. split.
  - unfold buf_ok. rewrite enc_len_size by (rewrite L; lia). rewrite L. reflexivity.
  - rewrite long_bytes by (reflexivity || exact L). intros E. injection E as E.
    rewrite <- E in L. rewrite zlen_nil in L. discriminate.
Qed.
Print Assumptions C07_long_bytes_refuted.

(** ** C08 *)
(** [p] is any varint announcing the length of [body] *)
Theorem C08_read_string_utf8 : forall t pre p body post e,
  buf_ok t (pre ++ p ++ body ++ post) ->
  is_varint p -> (length p <= 10)%nat -> varint_value p mod 2 ^ 32 = zlen body ->
  let result := fst (read_string t (pre ++ p ++ body ++ post) (mkR (zlen pre) e)) in
  (is_utf8 body -> result = Ok body) /\ (~ is_utf8 body -> result = Err EUtf8).
Proof.
  intros t pre p body post e Hb Hv Hn Hl. cbv zeta.
  assert (H1 : here (pre ++ p ++ body ++ post) (zlen pre) (p ++ body)).
  { exists pre, post. rewrite <- app_assoc. auto. }
  set (bs := pre ++ p ++ body ++ post) in *. clearbody bs. apply here_app in H1. destruct H1 as [H1 H2].
  unfold read_string, read_len_varint.
  erewrite bind_ok by (eapply read_varint32_ok; eassumption).
  rewrite Hl. destruct (buf_bound _ _ _ _ Hb H2). pose proof (half_le t).
  unfold read_len, bind, get_end, get_start, lift. cbn [r_start r_end].
  rewrite uadd_ok by lia. unfold set_end. cbn [r_start r_end]. unfold get_or_eob.
  rewrite (slice_here _ _ _ H2). rewrite <- utf8_valid_iff.
  destruct (utf8_valid body); unfold ret, fail; cbn [fst]; split; intros H9; try reflexivity; [exfalso; apply H9; reflexivity|discriminate].
Qed.
Print Assumptions C08_read_string_utf8.
(** a surrogate is not UTF-8 *)
Example C08_case : varint_value [x03] mod 2 ^ 32 = zlen [xed; xa0; x80] /\
  is_varint [x03] /\ ~ is_utf8 [xed; xa0; x80] /\ is_utf8 [xed; x9f; xbf].
Proof.
  split; [reflexivity|]. split; [constructor; reflexivity|].
  split; [rewrite <- utf8_valid_iff; discriminate|apply utf8_valid_iff; reflexivity].
Qed.

(** ** C47 is false of the code: a bool is read as 32 bits. *)
Theorem C47_bool_value_partial : forall bs s e l,
  here bs s l -> is_varint l -> (length l <= 10)%nat ->
  read_bool bs (mkR s e) = (Ok (negb (varint_value l mod 2 ^ 32 =? 0)), mkR (s + zlen l) e).
Proof.
  intros bs s e l H Hv Hn. unfold read_bool, rmap.
  erewrite bind_ok by (eapply read_varint32_ok; eassumption). reflexivity.
Qed.
Print Assumptions C47_bool_value_partial.
Theorem C47_bool_value_refuted : exists l, is_varint l /\ (length l <= 10)%nat /\
  0 < varint_value l < 2 ^ 64 /\ read_bool l (from_bytes l) = (Ok false, mkR 5 5).
Proof.
  exists [x80; x80; x80; x80; x10]. split; [repeat constructor; vm_compute; congruence|].
  split; [simpl; lia|]. split; [vm_compute; split; congruence|reflexivity].
Qed.
Print Assumptions C47_bool_value_refuted.

(** ** C50: the bytes on the wire are those of the protobuf encoding *)
Theorem C50_wire_format_partial :
  (forall v, is_s 32 v -> exists enc, emits (write_int32 v) enc /\ is_varint enc /\ varint_value enc = v mod 2 ^ 64) /\
  (forall v, is_s 64 v -> exists enc, emits (write_int64 v) enc /\ is_varint enc /\ varint_value enc = v mod 2 ^ 64) /\
  (forall v, is_u 32 v -> exists enc, emits (write_uint32 v) enc /\ is_varint enc /\ varint_value enc = v) /\
  (forall v, is_u 64 v -> exists enc, emits (write_uint64 v) enc /\ is_varint enc /\ varint_value enc = v) /\
  (forall v, is_s 64 v -> exists enc, emits (write_sint64 v) enc /\ is_varint enc /\ varint_value enc = zigzag v) /\
  (forall v, - 2 ^ 30 <= v < 2 ^ 30 -> exists enc, emits (write_sint32 v) enc /\ is_varint enc /\ varint_value enc = zigzag v) /\
  (forall v, is_s 32 v -> exists enc, emits (write_sint32 v) enc /\ is_varint enc /\ varint_value enc mod 2 ^ 32 = zigzag v) /\
  (forall v : bool, exists enc, emits (write_bool v) enc /\ is_varint enc /\ varint_value enc = if v then 1 else 0) /\
  (forall v, is_s 32 v -> exists enc, emits (write_enum v) enc /\ is_varint enc /\ varint_value enc = v mod 2 ^ 64) /\
  (forall v, exists enc, emits (write_fixed32 v) enc /\ is_le 4 v enc) /\
  (forall v, exists enc, emits (write_fixed64 v) enc /\ is_le 8 v enc) /\
  (forall v, exists enc, emits (write_sfixed32 v) enc /\ is_le 4 v enc) /\
  (forall v, exists enc, emits (write_sfixed64 v) enc /\ is_le 8 v enc) /\
  (forall v, exists enc, emits (write_float v) enc /\ is_le 4 v enc) /\
  (forall v, exists enc, emits (write_double v) enc /\ is_le 8 v enc) /\
  (forall b, zlen b < 2 ^ 64 -> exists p, emits (write_bytes b) (p ++ b) /\ is_varint p /\ varint_value p = zlen b).
Proof.
  assert (G : forall v, 0 <= v < 2 ^ 64 -> exists enc, emits (write_varint v) enc /\ is_varint enc /\ varint_value enc = v).
  { intros v H. exists (enc_varint v). split; [apply write_varint_emits, H|apply enc_varint_ok, H]. }
  assert (F : forall o n v, op_bytes o = le_bytes n v -> o <> OpPanic -> o <> OpUB ->
             exists enc, emits [o] enc /\ is_le n v enc).
  { intros o n v E H1 H2. exists (le_bytes n v). rewrite <- E at 1. split; [apply emits_op; assumption|apply le_bytes_is_le]. }
  unfold is_s, is_u. repeat split; intros.
  - apply G, w64.
  - apply G, w64.
  - unfold write_uint32. rewrite wrapU_small by lia. apply G. lia.
  - apply G; assumption.
  - exists (enc_varint (zigzag v)). split; [apply sint64_wire; assumption|].
    apply enc_varint_ok. apply (zigzag_range 64); [lia|assumption].
  - pose proof (zigzag_range 31 v ltac:(lia) ltac:(lia)).
    exists (enc_varint (zigzag v)).
    assert (wrapU 64 (wrapS 32 (zigzag v)) = zigzag v) as E
      by (rewrite wrapS_small by lia; apply wrapU_small; lia).
    rewrite <- E at 1. split; [apply sint32_wire; unfold is_s; lia|apply enc_varint_ok; lia].
  - pose proof (zigzag_range 32 v ltac:(lia) ltac:(lia)).
    eexists. split; [apply sint32_wire; unfold is_s; lia|].
    destruct (enc_varint_ok (wrapU 64 (wrapS 32 (zigzag v))) (w64 _)) as [A ->]. split; [exact A|].
    unfold wrapU. rewrite mod_mod_pow by lia. rewrite wrapS_mod by lia. apply Z.mod_small. lia.
  - exists [zb (if v then 1 else 0)]. split; [apply (emits_op (OpU8 _)); discriminate|].
    split; [constructor; rewrite bz_zb; destruct v; reflexivity|].
    cbn [varint_value]. rewrite bz_zb. destruct v; reflexivity.
  - apply G, w64.
  - apply (F (OpU32 v)); [reflexivity|discriminate|discriminate].
  - apply (F (OpU64 v)); [reflexivity|discriminate|discriminate].
  - apply (F (OpI32 v)); [reflexivity|discriminate|discriminate].
  - apply (F (OpI64 v)); [reflexivity|discriminate|discriminate].
  - apply (F (OpF32 v)); [reflexivity|discriminate|discriminate].
  - apply (F (OpF64 v)); [reflexivity|discriminate|discriminate].
  - exists (enc_varint (zlen b)). pose proof (zlen_nonneg b).
    split; [apply write_bytes_emits; assumption|apply enc_varint_ok; lia].
Qed.
Print Assumptions C50_wire_format_partial.
Example C50_case : zigzag (- 2 ^ 30) = 2 ^ 31 - 1 /\
  run vec_step (write_sint32 (- 2 ^ 30)) [] = (Ok tt, [xff; xff; xff; xff; x07]).
Proof. split; reflexivity. Qed.

(** sint32 values outside [-2^30, 2^30) are sign-extended to ten bytes *)
Theorem C50_wire_format_refuted : exists v, is_s 32 v /\
  forall enc, emits (write_sint32 v) enc -> varint_value enc <> zigzag v /\ zlen enc = 10.
Proof.
  exists (2 ^ 30). split; [unfold is_s; lia|]. intros enc H. apply emits_clean in H.
  destruct H as [_ ->]. vm_compute. split; congruence.
Qed.
Print Assumptions C50_wire_format_refuted.
