(** Property theorems C16, C19, C22, C25-C35 about generated code.

    [D] is the file after all passes of the generator, [c] the options, [lit]
    the value of the Rust constant expressions in [default] options.  A struct
    value is a list of slots, one per struct field. *)
From Coq Require Import ZifyBool ZifyNat ZifyN.
From Verif Require Import Base BaseFacts Utf8 Reader PackedFixed Writer Sizeofs Spec VarintFacts
  WriterFacts ScalarFacts DelimFacts Utf8Facts PackedFixedFacts ExactFacts SimFacts Schema Gen GenSem GenSpec GenEmit
  GenRead GenSame GenSim GenExact GenRecords GenLaws GenEnc GenCheck Examples Props_Backends.

(** ** The concrete case: every feature at once (see Examples.v) *)
Lemma exVal_ok : message_ok exD cfg0 [0%nat] exVal.
Proof.
  assert (U : forall b, utf8_valid b = true -> is_utf8 b) by (intros b; apply utf8_valid_iff).
  unfold message_ok. cbn. unfold is_s, is_u.
  repeat match goal with |- _ /\ _ => split end;
    first [lia | exact I | apply U; reflexivity | eexists; split; [reflexivity|repeat constructor; cbn; lia]
          | repeat constructor; cbn; intuition discriminate].
Qed.
Definition exEnc : bytes := enc_message exD cfg0 nolit [0%nat] exVal.

(** ** C25: get_size is the number of bytes written *)
Theorem C25_get_size_exact : forall D c lit, schema_wf D c lit -> forall m ss, message_ok D c m ss ->
  zlen (enc_message D c lit m ss) < 2 ^ 64 ->
  exists enc, emits (message_write D c lit m ss) enc /\ message_size D c lit m ss = zlen enc.
Proof.
  intros D c lit WF m ss Ho Hl. destruct (get_message D m) as [msg|] eqn:G; [|unfold message_ok in Ho; rewrite G in Ho; contradiction].
  exists (enc_message D c lit m ss). eapply message_emit; eassumption.
Qed.
Print Assumptions C25_get_size_exact.
Example C25_case : schema_wf exD cfg0 nolit /\ message_ok exD cfg0 [0%nat] exVal /\ zlen exEnc = 110 /\
  message_size exD cfg0 nolit [0%nat] exVal = 110 /\
  run vec_step (message_write exD cfg0 nolit [0%nat] exVal) [] = (Ok tt, exEnc).
Proof. split; [exact exD_wf|]. split; [exact exVal_ok|]. repeat split; vm_compute; reflexivity. Qed.

(** The bytes written are those of the encoding [enc_message] of GenSpec.v. *)
Theorem C25_encoding : forall D c lit, schema_wf D c lit -> forall m ss, message_ok D c m ss ->
  zlen (enc_message D c lit m ss) < 2 ^ 64 ->
  emits (message_write D c lit m ss) (enc_message D c lit m ss).
Proof.
  intros D c lit WF m ss Ho Hl. destruct (get_message D m) as [msg|] eqn:G; [|unfold message_ok in Ho; rewrite G in Ho; contradiction].
  eapply message_emit; eassumption.
Qed.
Print Assumptions C25_encoding.

(** ** C22 for generated messages *)
Theorem C22_generated_into_slice : forall D c lit, schema_wf D c lit -> forall m ss out, message_ok D c m ss ->
  zlen (enc_message D c lit m ss) < 2 ^ 64 ->
  let size := message_size D c lit m ss in let write := message_write D c lit m ss in
  exists full, serialize_into_vec size write = Ok full /\ zlen full = sizeof_len size /\
  (zlen out < sizeof_len size -> serialize_into_slice size write out = (Err EOutputBufferTooSmall, out)) /\
  (sizeof_len size <= zlen out -> serialize_into_slice size write out = (Ok tt, full ++ skipn (length full) out)).
Proof.
  intros D c lit WF m ss out Ho Hl size write.
  destruct (get_message D m) as [msg|] eqn:G; [|unfold message_ok in Ho; rewrite G in Ho; contradiction].
  destruct (message_emit D c lit WF m msg ss G Ho Hl) as [E S].
  apply (C22_serialize_into_slice size write (enc_message D c lit m ss) out E); unfold size; lia.
Qed.
Print Assumptions C22_generated_into_slice.
Example C22_generated_case :
  serialize_into_slice 110 (message_write exD cfg0 nolit [0%nat] exVal) (repeat x00 111) = (Ok tt, x6e :: exEnc) /\
  fst (serialize_into_slice 110 (message_write exD cfg0 nolit [0%nat] exVal) (repeat x00 110)) = Err EOutputBufferTooSmall.
Proof. split; vm_compute; reflexivity. Qed.

(** ** C26: round trip *)

(** what decoding the writer's output gives, exactly: see [canon_message] *)
Lemma roundtrip_from_reader D c lit t m msg ss n : schema_wf D c lit -> get_message D m = Some msg -> message_ok D c m ss ->
  let enc := enc_message D c lit m ss in
  zlen enc < 2 ^ 32 -> buf_ok t enc -> (length enc < n)%nat ->
  decode D c lit t n m enc = Ok (canon_message D c lit m ss).
Proof.
  intros WF G Ho enc Hl Hb Hn. unfold decode, from_bytes.
  pose proof (from_reader_ok D c lit t WF n m msg ss G Ho Hn Hl) as R.
  destruct (R [] []) as (s' & E); [cbn [app]; rewrite app_nil_r; exact Hb|]. cbn [app] in E. rewrite app_nil_r, zlen_nil in E.
  fold enc in E. rewrite Z.add_0_l in E. rewrite E. reflexivity.
Qed.

(** Missing: proto3 fields with a [default] option and fields without presence
    holding -0.0 (C33, refuted below), encodings of 2^32 bytes and more (C07). *)
Theorem C26_roundtrip_partial : forall D c lit t, schema_wf D c lit -> no_proto3_default D ->
  forall m ss, message_ok D c m ss -> no_negative_zero D c m ss ->
  zlen (enc_message D c lit m ss) < 2 ^ 32 ->
  let size := message_size D c lit m ss in let write := message_write D c lit m ss in
  (forall enc, emits write enc -> buf_ok t enc -> exists ss', Forall2 same_slot ss ss' /\
     forall n, (length enc < n)%nat -> decode D c lit t n m enc = Ok ss') /\
  (exists full, serialize_into_vec size write = Ok full /\
   (buf_ok t full -> exists ss', Forall2 same_slot ss ss' /\
     forall n, (length full <= n)%nat -> deserialize_from_slice t (from_reader D c lit t n m) full = Ok ss')).
Proof.
  intros D c lit t WF P3 m ss Ho Hz Hl size write.
  destruct (get_message D m) as [msg|] eqn:G; [|unfold message_ok in Ho; rewrite G in Ho; contradiction].
  pose proof (zlen_nonneg (enc_message D c lit m ss)) as N0.
  destruct (message_emit D c lit WF m msg ss G Ho ltac:(lia)) as [E S].
  pose proof (same_message D c lit WF P3 m ss Ho Hz) as Hs. split.
  - intros enc E' Hb. rewrite (emits_det _ _ _ E' E) in *. exists (canon_message D c lit m ss). split; [exact Hs|].
    intros n Hn. eapply roundtrip_from_reader; eassumption.
  - exists (enc_len (enc_message D c lit m ss)). split.
    + unfold serialize_into_vec, write_message, size. rewrite S, wrapU_small by lia.
      assert (M : emits (write_varint (zlen (enc_message D c lit m ss)) ++ write) (enc_len (enc_message D c lit m ss))).
      { apply emits_app; [apply write_varint_emits; lia|exact E]. }
      rewrite M. reflexivity.
    + intros Hb. exists (canon_message D c lit m ss). split; [exact Hs|]. intros n Hn.
      assert (length (enc_message D c lit m ss) < n)%nat as Hn'.
      { unfold enc_len in Hn. rewrite app_length in Hn. pose proof (enc_varint_len (zlen (enc_message D c lit m ss)) ltac:(lia)) as L.
        pose proof (sizeof_varint_range (zlen (enc_message D c lit m ss))) as L2. unfold zlen at 1 in L. lia. }
      pose proof (from_reader_ok D c lit t WF n m msg ss G Ho Hn' Hl) as R.
      pose proof (run_alone _ _ _ _ (reads_len_varint t _ _ _ Hl R) Hb) as A.
      unfold deserialize_from_slice, read_message, from_bytes. rewrite A. reflexivity.
Qed.
Print Assumptions C26_roundtrip_partial.
Lemma exD_no_default : no_proto3_default exD.
Proof.
  intros m msg f G Hin _. apply get_message_in in G. cbn in G.
  destruct G as [G|[G|[]]]; injection G as <- <-; cbn in Hin; repeat (destruct Hin as [<-|Hin]; [reflexivity|]); contradiction.
Qed.
Example C26_case : no_proto3_default exD /\ no_negative_zero exD cfg0 [0%nat] exVal /\
  decode exD cfg0 nolit (unchecked W32) 111 [0%nat] exEnc = Ok exBack /\
  deserialize_from_slice (checked W64) (from_reader exD cfg0 nolit (checked W64) 111 [0%nat]) (x6e :: exEnc) = Ok exBack.
Proof.
  split; [exact exD_no_default|]. split.
  { unfold no_negative_zero. cbn. repeat match goal with |- _ /\ _ => split end; try exact I; intros; try discriminate; tauto. }
  split; vm_compute; reflexivity.
Qed.

(** ** C19 for generated code *)
Theorem C19_generated_overflow_checks : forall D c lit w n m bs,
  decode D c lit (checked w) n m bs <> Panic ->
  decode D c lit (unchecked w) n m bs = decode D c lit (checked w) n m bs.
Proof.
  intros D c lit w n m bs H. unfold decode in *. rewrite (agrees_from_reader D c lit w n m bs (from_bytes bs) H). reflexivity.
Qed.
Print Assumptions C19_generated_overflow_checks.
Theorem C19_generated_deserialize : forall D c lit w n m bs,
  deserialize_from_slice (checked w) (from_reader D c lit (checked w) n m) bs <> Panic ->
  deserialize_from_slice (unchecked w) (from_reader D c lit (unchecked w) n m) bs
  = deserialize_from_slice (checked w) (from_reader D c lit (checked w) n m) bs.
Proof.
  intros D c lit w n m bs H. unfold deserialize_from_slice in *.
  rewrite (agrees_message w _ _ (agrees_from_reader D c lit w n m) bs (from_bytes bs) H). reflexivity.
Qed.
Print Assumptions C19_generated_deserialize.
Example C19_generated_case : decode exD cfg0 nolit (checked W64) 111 [0%nat] (firstn 109 exEnc) = Err EUnexpectedEndOfBuffer.
Proof. vm_compute. reflexivity. Qed.

(** ** C16: termination *)

(** With overflow checks every loop stops: fuel larger than the input length is
    never exhausted, and more fuel changes nothing.  Missing: builds without
    overflow checks, where it is false (below). *)
Theorem C16_terminates_checked_partial : forall D c lit t m bs, overflow_checks t = true -> buf_ok t bs ->
  forall n, (length bs < n)%nat ->
  decode D c lit t n m bs <> NoFuel /\
  decode D c lit t n m bs = decode D c lit t (S (length bs)) m bs /\
  deserialize_from_slice t (from_reader D c lit t n m) bs <> NoFuel.
Proof.
  intros D c lit t m bs CH Hb n Hn. split; [apply decode_total; assumption|]. split; [apply decode_fuel; assumption|].
  unfold deserialize_from_slice, read_message, from_bytes.
  apply (tot_len t CH n _ (tot_from_reader t CH D c lit n m)); [exact Hb|lia|unfold zlen; lia|lia].
Qed.
Print Assumptions C16_terminates_checked_partial.

(** Without overflow checks a ten-byte length wraps the read position around:
    after the field of number 15 the reader stands at the same field again. *)
Definition loopBytes : bytes := [x01; x7a; xf5; xff; xff; xff; xff; xff; xff; xff; xff; x01].
Theorem C16_terminates_refuted : exists D c lit m bs, schema_wf D c lit /\ buf_ok (unchecked W64) bs /\
  forall n, deserialize_from_slice (unchecked W64) (from_reader D c lit (unchecked W64) n m) bs = NoFuel.
Proof.
  exists exD, cfg0, nolit, [1%nat], loopBytes. split; [exact exD_wf|]. split; [vm_compute; reflexivity|].
  intros n. unfold deserialize_from_slice, read_message, read_len_varint.
  assert (E : read_varint32 loopBytes (from_bytes loopBytes) = (Ok 1, mkR 1 12)) by (vm_compute; reflexivity).
  rewrite (bind_ok _ _ _ _ _ _ E). unfold read_len, bind, get_end, get_start, lift, set_end. cbn [r_start r_end fst].
  replace (uadd (unchecked W64) 1 1) with (Ok (A:=Z) 2) by reflexivity. cbn beta iota.
  assert (X : from_reader exD cfg0 nolit (unchecked W64) n [1%nat] loopBytes (mkR 1 2) = (NoFuel, mkR 1 2)); [|rewrite X; reflexivity].
  destruct n as [|n]; [reflexivity|]. cbn [from_reader].
  replace (get_message exD [1%nat]) with (Some exInner) by reflexivity.
  replace (message_default exD cfg0 nolit [1%nat]) with (Some [SlOne (VZ 0); SlOne (VZ 0)]) by (vm_compute; reflexivity).
  replace (is_unit exInner) with false by reflexivity.
  generalize (S n) as k. induction k as [|k IH]; [reflexivity|]. cbn [msg_loop].
  unfold bind at 1, is_eof. cbn [r_start r_end].
  replace (1 =? 2) with false by reflexivity. cbn beta iota.
  assert (T : next_tag loopBytes (mkR 1 2) = (Ok 122, mkR 2 2)) by (vm_compute; reflexivity).
  rewrite (bind_ok _ _ _ _ _ _ T). unfold run_field at 1.
  replace (find (fun '(n, _) => n =? 122) (match_arms cfg0 exInner)) with (@None (Z * (nat * action))) by (vm_compute; reflexivity).
  assert (U : read_unknown (unchecked W64) 122 loopBytes (mkR 2 2) = (Ok tt, mkR 1 2)) by (vm_compute; reflexivity).
  assert (V : (read_unknown (unchecked W64) 122 >> ret [SlOne (VZ 0); SlOne (VZ 0)]) loopBytes (mkR 2 2)
              = (Ok [SlOne (VZ 0); SlOne (VZ 0)], mkR 1 2)).
  { rewrite (bind_ok _ _ _ _ _ _ U). reflexivity. }
  rewrite (bind_ok _ _ _ _ _ _ V). exact IH.
Qed.
Print Assumptions C16_terminates_refuted.
