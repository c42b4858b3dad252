(** Property theorems C18-C24, C48, C49: error recovery, overflow checks of the
    runtime, writer backends, files. *)
From Coq Require Import ZifyBool ZifyNat ZifyN.
From Verif Require Import Base BaseFacts Utf8 Reader PackedFixed Writer Sizeofs Spec
  VarintFacts WriterFacts ScalarFacts DelimFacts FileIo BackendFacts PackedFixedFacts ExactFacts SimFacts.

(** ** C18 is false of the code: a failing length-delimited read leaves the end
    of the inner window behind. *)
Theorem C18_reader_after_error_refuted : exists t bs r,
  let '(o, r') := read_bytes t bs r in
  r = from_bytes bs /\ o = Err EUnexpectedEndOfBuffer /\ r_end r' <> r_end r.
Proof. exists (checked W64), [x05; x01], (from_bytes [x05; x01]). vm_compute. repeat split; congruence. Qed.
Print Assumptions C18_reader_after_error_refuted.

(** What does hold: every read that is not length-delimited, whatever its
    outcome, and every length-delimited read that succeeds, leaves the end of
    the window as it was.  Missing: failing length-delimited reads (refuted
    above). *)
Definition keeps_end {A} (m : rd A) : Prop := forall bs r, r_end (snd (m bs r)) = r_end r.
Definition keeps_end_ok {A} (m : rd A) : Prop := forall bs r v r', m bs r = (Ok v, r') -> r_end r' = r_end r.

Lemma ke_bind {A B} (m : rd A) (f : A -> rd B) : keeps_end m -> (forall a, keeps_end (f a)) -> keeps_end (bind m f).
Proof.
  intros H1 H2 bs r. specialize (H1 bs r). unfold bind. destruct (m bs r) as [[a| | | |] r1]; simpl in *; auto.
  rewrite H2. exact H1.
Qed.
Lemma ke_ret {A} (a : A) : keeps_end (ret a). Proof. intros bs r. reflexivity. Qed.
Lemma ke_fail {A} e : keeps_end (fail (A:=A) e). Proof. intros bs r. reflexivity. Qed.
Lemma ke_lift {A} (o : outcome A) : keeps_end (lift o). Proof. intros bs r. reflexivity. Qed.
Lemma ke_get_start : keeps_end get_start. Proof. intros bs r. reflexivity. Qed.
Lemma ke_get_end : keeps_end get_end. Proof. intros bs r. reflexivity. Qed.
Lemma ke_set_start s : keeps_end (set_start s). Proof. intros bs r. reflexivity. Qed.
Lemma ke_get_or_eob {A} (f : bytes -> option A) : keeps_end (get_or_eob f).
Proof. intros bs r. unfold get_or_eob. destruct (f bs); reflexivity. Qed.
Ltac ke := repeat first
  [ apply ke_ret | apply ke_fail | apply ke_lift | apply ke_get_start | apply ke_get_end | apply ke_set_start
  | apply ke_get_or_eob | apply ke_bind; [|intros ?] | match goal with |- keeps_end (if ?b then _ else _) => destruct b end
  | assumption ].
Lemma ke_u8 : keeps_end read_u8. Proof. unfold read_u8. ke. Qed.
Lemma ke_discard n r : keeps_end (discard_extra n r).
Proof. induction n; cbn [discard_extra]; [ke|]. apply ke_bind; [apply ke_u8|]. intros b. destruct (msb_clear b); [ke|assumption]. Qed.
Ltac keu := repeat first
  [ apply ke_u8 | apply ke_discard | apply ke_ret | apply ke_fail | apply ke_bind; [|intros ?]
  | match goal with |- keeps_end (if ?b then _ else _) => destruct b end ].
Lemma ke_varint32 : keeps_end read_varint32.
Proof. unfold read_varint32. cbv zeta. keu. Qed.
Lemma ke_varint64 : keeps_end read_varint64.
Proof. unfold read_varint64. cbv zeta. keu. Qed.
Ltac kev := repeat first
  [ apply ke_varint64 | apply ke_varint32 | apply ke_ret | apply ke_fail | apply ke_lift | apply ke_get_start
  | apply ke_get_end | apply ke_set_start | apply ke_get_or_eob
  | match goal with |- keeps_end (if ?b then _ else _) => destruct b | |- keeps_end (bind _ _) => apply ke_bind; [|intros ?] end ].
Lemma ke_rmap {A B} (f : A -> B) m : keeps_end m -> keeps_end (rmap f m).
Proof. intros. unfold rmap. ke. Qed.
Lemma ke_fixed {M} t n (f : bytes -> M) : keeps_end (read_fixed t n f).
Proof. unfold read_fixed. ke. Qed.
Lemma ke_unknown t tag : keeps_end (read_unknown t tag).
Proof. unfold read_unknown, skip. cbv zeta. kev. Qed.
Lemma ke_packed_fixed t n : keeps_end (read_packed_fixed t n).
Proof.
  unfold read_packed_fixed, rlen. cbv zeta. kev.
  intros bs r. match goal with |- context [slice bs ?a ?b] => destruct (slice bs a b) end; reflexivity.
Qed.

Theorem C18_reader_after_error_partial :
  (forall t, keeps_end read_int32 /\ keeps_end read_int64 /\ keeps_end read_uint32 /\ keeps_end read_uint64 /\
     keeps_end read_sint32 /\ keeps_end read_sint64 /\ keeps_end read_bool /\
     (forall E (f : Z -> E), keeps_end (read_enum f)) /\ keeps_end (read_fixed32 t) /\ keeps_end (read_fixed64 t) /\
     keeps_end (read_sfixed32 t) /\ keeps_end (read_sfixed64 t) /\ keeps_end (read_float t) /\ keeps_end (read_double t) /\
     keeps_end next_tag /\ (forall tag, keeps_end (read_unknown t tag)) /\
     (forall size, keeps_end (read_packed_fixed t size))) /\
  (forall M t (m : rd M), keeps_end_ok (read_len_varint t m)).
Proof.
  split.
  - intros t. repeat match goal with |- _ /\ _ => split end; intros;
      first [apply ke_varint32|apply ke_varint64|apply ke_rmap; apply ke_varint32|apply ke_rmap; apply ke_varint64
            |apply ke_rmap; apply ke_rmap; apply ke_varint32|apply ke_fixed|apply ke_unknown|apply ke_packed_fixed
            |idtac].
  - intros M t m bs r v r' H. unfold read_len_varint in H. apply bind_inv in H. destruct H as (len & r1 & H1 & H).
    pose proof (ke_varint32 bs r) as K. rewrite H1 in K. cbn [snd] in K.
    unfold read_len in H. apply bind_inv in H. destruct H as (ce & r2 & H2 & H). injection H2 as <- <-.
    repeat (apply bind_inv in H; destruct H as (? & ? & ? & H)).
    unfold ret, set_end in *. cbn in *. injection H as _ <-. injection H7 as _ <-. exact K.
Qed.
Print Assumptions C18_reader_after_error_partial.
Example C18_case : read_varint32 [x80] (mkR 0 1) = (Err EUnexpectedEndOfBuffer, mkR 1 1).
Proof. reflexivity. Qed.

(** ** C19, runtime part: any read function given readers that agree *)
Theorem C19_runtime_overflow_checks : forall w,
  (forall n (f : bytes -> Z), agrees (read_fixed (checked w) n f) (read_fixed (unchecked w) n f)) /\
  agrees (read_bytes (checked w)) (read_bytes (unchecked w)) /\
  agrees (read_string (checked w)) (read_string (unchecked w)) /\
  (forall tag, agrees (read_unknown (checked w) tag) (read_unknown (unchecked w) tag)) /\
  (forall k, agrees (read_packed_fixed_k (checked w) k) (read_packed_fixed_k (unchecked w) k)) /\
  (forall M (m1 m2 : rd M) fuel, agrees m1 m2 -> agrees (read_packed (checked w) fuel m1) (read_packed (unchecked w) fuel m2)) /\
  (forall M (m1 m2 : rd M), agrees m1 m2 -> agrees (read_message (checked w) m1) (read_message (unchecked w) m2)) /\
  (forall M (m1 m2 : rd M) n, agrees m1 m2 -> agrees (read_message_by_len (checked w) m1 n) (read_message_by_len (unchecked w) m2 n)) /\
  (forall K V (k1 k2 : rd K) (v1 v2 : rd V) kd vd fuel, agrees k1 k2 -> agrees v1 v2 ->
     agrees (read_map (checked w) fuel kd vd k1 v1) (read_map (unchecked w) fuel kd vd k2 v2)).
Proof.
  intros w. split; [intros; apply agrees_fixed|]. split; [apply agrees_bytes|]. split; [apply agrees_string|].
  split; [intros; apply agrees_unknown|]. split; [intros; apply agrees_packed_fixed_k|].
  split; [intros; apply agrees_packed; assumption|]. split; [intros; apply agrees_message; assumption|].
  split; [intros; apply agrees_len; assumption|]. intros; apply agrees_map; assumption.
Qed.
Print Assumptions C19_runtime_overflow_checks.
(** where the checked build panics, the unchecked one may differ: *)
Example C19_case : fst (read_unknown (checked W64) 1 [x00] (mkR 3 1)) = Panic /\
  fst (read_unknown (unchecked W64) 1 [x00] (mkR 3 1)) = Ok tt /\
  fst (read_unknown (checked W64) 1 (repeat x00 9) (mkR 0 9)) <> Panic.
Proof. repeat split; try reflexivity. discriminate. Qed.

(** ** C20 *)
(** one call of the backend *)
Theorem C20_slice_writer_step : forall o buf c, o <> OpPanic -> o <> OpUB -> 0 <= c <= zlen buf ->
  (exists a old d, buf = a ++ old ++ d /\ zlen a = c /\ zlen old = zlen (op_bytes o) /\
     bw_step o (mkBW buf c) = (Ok tt, mkBW (a ++ op_bytes o ++ d) (c + zlen (op_bytes o)))) \/
  (zlen buf < c + zlen (op_bytes o) /\ bw_step o (mkBW buf c) = (Err EUnexpectedEndOfBuffer, mkBW buf c)).
Proof.
  intros o buf c _ _ Hc. destruct (Z.ltb_spec (zlen buf - c) (zlen (op_bytes o))).
  - right. split; [lia|]. apply bw_step_full. lia.
  - left. destruct (split_at buf c Hc) as (a & b & -> & Ha). rewrite zlen_app in *.
    pose proof (zlen_nonneg (op_bytes o)).
    destruct (split_at b (zlen (op_bytes o))) as (old & d & -> & Ho); [lia|].
    exists a, old, d. repeat split; auto. rewrite <- Ha. apply bw_step_fits. exact Ho.
Qed.
Print Assumptions C20_slice_writer_step.
(** any sequence of calls, whatever its outcome, keeps the length of the buffer,
    what stands before the initial cursor and what stands after the final one *)
Theorem C20_slice_writer_bounds : forall p buf c o s', 0 <= c <= zlen buf ->
  run bw_step p (mkBW buf c) = (o, s') ->
  zlen (bw_buf s') = zlen buf /\ c <= bw_cursor s' <= zlen buf /\
  firstn (Z.to_nat c) (bw_buf s') = firstn (Z.to_nat c) buf /\
  skipn (Z.to_nat (bw_cursor s')) (bw_buf s') = skipn (Z.to_nat (bw_cursor s')) buf.
Proof. intros p buf c o s' H E. pose proof (run_bw_bounds p buf c H) as B. rewrite E in B. exact B. Qed.
Print Assumptions C20_slice_writer_bounds.
Example C20_case :
  run bw_step (write_varint 300 ++ write_fixed32 7) (mkBW [x00; x01; x02; x03; x04] 1)
  = (Err EUnexpectedEndOfBuffer, mkBW [x00; xac; x02; x03; x04] 3).
Proof. reflexivity. Qed.

(** ** C21 *)
(** [enc] is what the calls [p] produce in a Vec *)
Theorem C21_backends_agree : forall p enc buf, run vec_step p [] = (Ok tt, enc) ->
  (zlen enc <= zlen buf ->
     run bw_step p (bw_new buf) = (Ok tt, mkBW (enc ++ skipn (length enc) buf) (zlen enc))) /\
  (zlen buf < zlen enc ->
     exists p1 o p2 enc1, p = p1 ++ o :: p2 /\ run vec_step p1 [] = (Ok tt, enc1) /\
       (exists enc2, enc = enc1 ++ enc2) /\
       run bw_step p (bw_new buf) =
         (Err EUnexpectedEndOfBuffer, mkBW (enc1 ++ skipn (length enc1) buf) (zlen enc1))).
Proof.
  intros p enc buf H.
  assert (C : forallb clean_op p = true).
  { assert (G : fst (run vec_step p []) = Ok tt) by (rewrite H; reflexivity). clear H. revert G. generalize (@nil byte).
    induction p as [|o p IH]; intros out G; [reflexivity|]. destruct o; simpl in *; try discriminate; eapply IH; exact G. }
  rewrite (run_vec_clean p C) in H. simpl in H. injection H as <-.
  assert (SK : forall (a b d : bytes), zlen a = zlen b -> skipn (length a) (b ++ d) = d).
  { intros a b d E. assert (length a = length b) as -> by (unfold zlen in E; lia).
    rewrite skipn_app, skipn_all, Nat.sub_diag. reflexivity. }
  destruct (run_bw p C [] buf) as [(b & d & -> & Hb & R)|(Hs & p1 & o & p2 & b & d & -> & -> & Hb & Hd & R)];
    simpl in R; change (zlen (@nil byte)) with 0 in R; rewrite ?Z.add_0_l in R.
  - split; [|rewrite zlen_app; pose proof (zlen_nonneg d); lia].
    intros _. unfold bw_new. rewrite R, SK by (symmetry; exact Hb). reflexivity.
  - split; [lia|]. intros _. exists p1, o, p2, (prog_bytes p1). split; [reflexivity|].
    rewrite forallb_app in C. apply andb_prop in C. destruct C as [C1 _].
    split; [rewrite (run_vec_clean p1 C1); reflexivity|].
    split; [exists (prog_bytes (o :: p2)); unfold prog_bytes; apply flat_map_app|].
    unfold bw_new. rewrite R, SK by (symmetry; exact Hb). reflexivity.
Qed.
Print Assumptions C21_backends_agree.
Example C21_case : run vec_step (write_bytes [x61; x62]) [] = (Ok tt, [x02; x61; x62]) /\
  run bw_step (write_bytes [x61; x62]) (bw_new [x00; x00]) = (Err EUnexpectedEndOfBuffer, mkBW [x02; x00] 1).
Proof. split; reflexivity. Qed.

(** ** C22, for any message whose get_size is exact (C25 shows that for the
    generated ones) *)
Theorem C22_serialize_into_slice : forall get_size write enc out,
  emits write enc -> zlen enc = get_size -> get_size < 2 ^ 64 ->
  exists full, serialize_into_vec get_size write = Ok full /\ zlen full = sizeof_len get_size /\
  (zlen out < sizeof_len get_size ->
     serialize_into_slice get_size write out = (Err EOutputBufferTooSmall, out)) /\
  (sizeof_len get_size <= zlen out ->
     serialize_into_slice get_size write out = (Ok tt, full ++ skipn (length full) out)).
Proof.
  intros gs write enc out E <- H. pose proof (zlen_nonneg enc).
  exists (enc_len enc).
  assert (M : emits (write_message (zlen enc) write) (enc_len enc)).
  { unfold write_message, enc_len. rewrite wrapU_small by lia. apply emits_app; [apply write_varint_emits; lia|exact E]. }
  split; [unfold serialize_into_vec; rewrite M; reflexivity|].
  split; [apply enc_len_size; assumption|].
  unfold serialize_into_slice. rewrite <- (enc_len_size enc) by assumption.
  split; intros L.
  - destruct (Z.ltb_spec (zlen out) (zlen (enc_len enc))); [reflexivity|lia].
  - destruct (Z.ltb_spec (zlen out) (zlen (enc_len enc))); [lia|].
    destruct (C21_backends_agree _ (enc_len enc) out (M [])) as [R _]. rewrite (R L). reflexivity.
Qed.
Print Assumptions C22_serialize_into_slice.
Example C22_case : serialize_into_slice 2 (write_fixed32 7) [x00] = (Err EOutputBufferTooSmall, [x00]) /\
  serialize_into_slice 4 (write_fixed32 7) (repeat xff 6) = (Ok tt, [x04; x07; x00; x00; x00; xff]).
Proof. split; reflexivity. Qed.

(** ** C23 *)
(** [plan]: for each write_all whether it fails, and after how many bytes *)
Theorem C23_failing_sink_prefix : forall p enc plan o s,
  emits p enc -> run sink_step p (mkSink [] plan) = (o, s) ->
  (exists rest, enc = sk_data s ++ rest) /\
  (o = Ok tt /\ sk_data s = enc \/ o = Err EIo) /\
  (Forall (fun x => x = None) plan -> o = Ok tt) /\
  (Exists (fun x => x <> None) (firstn (length p) plan) -> o = Err EIo).
Proof.
  intros p enc plan o s E R. apply emits_clean in E. destruct E as [C ->].
  assert (X : forall p, forallb clean_op p = true -> forall data plan,
            Exists (fun x => x <> None) (firstn (length p) plan) -> fst (run sink_step p (mkSink data plan)) = Err EIo).
  { clear. induction p as [|o p IH]; intros C data plan X; [inversion X|].
    simpl in C. apply andb_prop in C. destruct C as [C1 C2]. rewrite run_cons_clean by assumption.
    destruct plan as [|[k|] plan]; [inversion X|reflexivity|].
    cbn [sink_step sk_plan sk_data]. apply IH; [assumption|]. inversion X; [congruence|assumption]. }
  pose proof (run_sink p C [] plan) as S. rewrite R in S. destruct S as (sent & rest & P & D & O & N & _).
  simpl in D. subst sent. split; [exists rest; exact P|]. split.
  - destruct O as [(-> & ->)| ->]; [left|right; reflexivity]. rewrite app_nil_r in P. auto.
  - split; [exact N|]. intros Y. specialize (X p C [] plan Y). rewrite R in X. exact X.
Qed.
Print Assumptions C23_failing_sink_prefix.
Example C23_case : run sink_step (write_varint 300 ++ write_fixed32 7) (mkSink [] [None; None; Some 2%nat])
  = (Err EIo, mkSink [xac; x02; x07; x00] []).
Proof. reflexivity. Qed.

(** ** C24 is false of the code: the BufWriter is dropped without a checked
    flush, so a failing disk is not reported. *)
Theorem C24_write_file_complete_refuted : exists write enc plan f,
  emits write enc /\ write_file (Some plan) write = (Ok tt, Some f) /\ sk_data f <> enc.
Proof.
  exists (write_fixed32 7), (le_bytes 4 7), [Some 1%nat], (mkSink [x07] []).
  split; [intros out; reflexivity|]. split; [reflexivity|discriminate].
Qed.
Print Assumptions C24_write_file_complete_refuted.
(** What holds: if no operating system call fails the file is complete; the file
    always holds a prefix of the encoding; failing to create the file is
    reported.  Missing: reporting of failures of the final flush. *)
Theorem C24_write_file_complete_partial : forall write enc, emits write enc ->
  (forall plan, Forall (fun x => x = None) plan ->
     exists f, write_file (Some plan) write = (Ok tt, Some f) /\ sk_data f = enc) /\
  (forall plan, exists o f rest, write_file (Some plan) write = (o, Some f) /\ enc = sk_data f ++ rest /\
     (o = Ok tt \/ o = Err EIo)) /\
  write_file None write = (Err EIo, None).
Proof.
  intros write enc E. split; [intros plan H; apply write_file_no_fail; assumption|]. split; [|reflexivity].
  intros plan. destruct (write_file_prefix write enc plan E) as (o & f & A & (rest & B) & C). eauto 8.
Qed.
Print Assumptions C24_write_file_complete_partial.
Example C24_case : emits (write_bytes [x61]) [x01; x61].
Proof. intros out. cbn. rewrite <- app_assoc. reflexivity. Qed.

(** ** C48 *)
(** a history of reads through the owning Reader, and through a BytesReader *)
Fixpoint reads_through_Reader {M} (R : Reader) (ms : list (rd M)) : list (outcome M) :=
  match ms with [] => [] | m :: ms' => let (o, R') := Reader_read R m in o :: reads_through_Reader R' ms' end.
Fixpoint reads_through_BytesReader {M} (bs : bytes) (r : reader) (ms : list (rd M)) : list (outcome M) :=
  match ms with [] => [] | m :: ms' => let (o, r') := m bs r in o :: reads_through_BytesReader bs r' ms' end.
Theorem C48_reader_api : forall M bs (ms : list (rd M)),
  reads_through_Reader (Reader_from_bytes bs) ms = reads_through_BytesReader bs (from_bytes bs) ms.
Proof.
  intros M bs ms. unfold Reader_from_bytes, from_bytes. generalize (mkR 0 (zlen bs)) as r.
  induction ms as [|m ms IH]; intros r; [reflexivity|]. simpl. unfold Reader_read. cbn [rdr_buffer rdr_inner].
  destruct (m bs r) as [o r']. f_equal. apply IH.
Qed.
Print Assumptions C48_reader_api.
Theorem C48_deserialize : forall M t (m : rd M) bs,
  deserialize_from_slice t m bs = fst (Reader_read (Reader_from_bytes bs) (read_message t m)) /\
  (forall content capacity, content = Some bs -> zlen bs = capacity ->
     Reader_from_reader content capacity = Ok (Reader_from_bytes bs)).
Proof.
  intros M t m bs. split.
  - unfold deserialize_from_slice, Reader_read, Reader_from_bytes, from_bytes. cbn [rdr_buffer rdr_inner].
    destruct (read_message t m bs (mkR 0 (zlen bs))); reflexivity.
  - intros content capacity -> <-. unfold Reader_from_reader. rewrite Z.ltb_irrefl.
    unfold zlen. rewrite Nat2Z.id, firstn_all. reflexivity.
Qed.
Print Assumptions C48_deserialize.
Example C48_case : reads_through_Reader (Reader_from_bytes [x05; x80]) [read_int32; read_int32]
  = [Ok 5; Err EUnexpectedEndOfBuffer].
Proof. reflexivity. Qed.

(** ** C49 is false of the code: [metadata().unwrap()] panics. *)
Theorem C49_from_file_errors_refuted : exists meta opened, Reader_from_file meta opened = Panic.
Proof. exists None, None. reflexivity. Qed.
Print Assumptions C49_from_file_errors_refuted.
(** What holds: once the metadata can be read, a missing or shortened file is an
    Err and an intact one gives a Reader over its content (or the first [len]
    bytes if it has grown in between). *)
Theorem C49_from_file_errors_partial : forall len opened, 0 <= len ->
  match opened with
  | None => Reader_from_file (Some len) opened = Err EIo
  | Some c => (zlen c < len -> Reader_from_file (Some len) opened = Err EIo) /\
              (len <= zlen c -> exists c1 c2, c = c1 ++ c2 /\ zlen c1 = len /\
                 Reader_from_file (Some len) opened = Ok (Reader_from_bytes c1))
  end.
Proof.
  intros len [c|] H; [|reflexivity]. simpl. unfold Reader_from_reader. destruct (Z.ltb_spec (zlen c) len).
  - split; [reflexivity|lia].
  - split; [lia|]. intros _. exists (firstn (Z.to_nat len) c), (skipn (Z.to_nat len) c).
    rewrite firstn_skipn. split; [reflexivity|]. split; [|reflexivity].
    unfold zlen in *. rewrite firstn_length. lia.
Qed.
Print Assumptions C49_from_file_errors_partial.
Example C49_case : Reader_from_file (Some 2) (Some [x01; x02; x03]) = Ok (Reader_from_bytes [x01; x02]).
Proof. reflexivity. Qed.
