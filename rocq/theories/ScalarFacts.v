(** Scalar codecs. *)
From Coq Require Import ZifyBool ZifyNat ZifyN.
From Verif Require Import Base BaseFacts Reader PackedFixed Writer Sizeofs Spec VarintFacts WriterFacts.
Ltac Zify.zify_post_hook ::= Z.div_mod_to_equations.

(** what a scalar codec does: the writer emits some bytes, the reader reads
    them back, and [size] is their number *)
Definition codec {A} (t : target) (w : wprog) (r : rd A) (size : Z) (v : A) : Prop :=
  exists enc, emits w enc /\ reads t r enc v /\ zlen enc = size /\ enc <> [].

Lemma nonempty_zlen {A} (l : list A) : 1 <= zlen l -> l <> [].
Proof. intros H ->. rewrite zlen_nil in H. lia. Qed.

Lemma zlen_nonempty {A} (l : list A) : l <> [] -> 1 <= zlen l.
Proof. destruct l; [congruence|]. intros _. rewrite zlen_cons. pose proof (zlen_nonneg l). lia. Qed.

Lemma w64 v : 0 <= wrapU 64 v < 2 ^ 64.
Proof. apply wrapU_bound. lia. Qed.

Lemma codec_varint32 {A} t v (f : Z -> A) a :
  f (v mod 2 ^ 32) = a ->
  codec t (write_varint (wrapU 64 v)) (rmap f read_varint32) (sizeof_varint (wrapU 64 v)) a.
Proof.
  intros <-. exists (enc_varint (wrapU 64 v)). repeat split.
  - apply write_varint_emits, w64.
  - apply reads_any_reads. apply (reads_any_map f).
    rewrite <- (mod_mod_pow v 32 64) by lia. apply reads_varint32, w64.
  - apply enc_varint_len, w64.
  - apply nonempty_zlen, enc_varint_nonempty, w64.
Qed.

Lemma codec_varint64 {A} t v (f : Z -> A) a :
  f (v mod 2 ^ 64) = a ->
  codec t (write_varint (wrapU 64 v)) (rmap f read_varint64) (sizeof_varint (wrapU 64 v)) a.
Proof.
  intros <-. exists (enc_varint (wrapU 64 v)). repeat split.
  - apply write_varint_emits, w64.
  - apply reads_any_reads. apply (reads_any_map f). apply reads_varint64, w64.
  - apply enc_varint_len, w64.
  - apply nonempty_zlen, enc_varint_nonempty, w64.
Qed.

Lemma reads_ext {A} t (m m' : rd A) enc v :
  (forall bs r, m bs r = m' bs r) -> reads t m enc v -> reads t m' enc v.
Proof. intros H R pre post e H1 H2. rewrite <- H. apply R; assumption. Qed.

Lemma codec_ext {A} t w (m m' : rd A) sz v :
  (forall bs r, m bs r = m' bs r) -> codec t w m sz v -> codec t w m' sz v.
Proof. intros H (enc & a & b & c & d). exists enc. repeat split; auto. eapply reads_ext; eauto. Qed.

Lemma rmap_id {A} (m : rd A) bs r : rmap (fun x => x) m bs r = m bs r.
Proof. unfold rmap, bind, ret. destruct (m bs r) as [[] ?]; reflexivity. Qed.

Lemma codec_int32 t v : is_s 32 v -> codec t (write_int32 v) read_int32 (sizeof_int32 v) v.
Proof.
  intros H. apply codec_varint32. change (v mod 2 ^ 32) with (wrapU 32 v).
  rewrite wrapS_wrapU by lia. apply wrapS_small; [lia|assumption].
Qed.

Lemma codec_int64 t v : is_s 64 v -> codec t (write_int64 v) read_int64 (sizeof_int64 v) v.
Proof.
  intros H. apply codec_varint64. change (v mod 2 ^ 64) with (wrapU 64 v).
  rewrite wrapS_wrapU by lia. apply wrapS_small; [lia|assumption].
Qed.

Lemma codec_uint32 t v : is_u 32 v -> codec t (write_uint32 v) read_uint32 (sizeof_uint32 v) v.
Proof.
  intros H. eapply codec_ext; [apply rmap_id|]. apply codec_varint32.
  apply Z.mod_small. assumption.
Qed.

Lemma codec_uint64 t v : is_u 64 v -> codec t (write_uint64 v) read_uint64 (sizeof_uint64 v) v.
Proof.
  intros H. eapply codec_ext; [apply rmap_id|]. unfold write_uint64, sizeof_uint64.
  rewrite <- (wrapU_small 64 v) at 1 2 by assumption. apply codec_varint64.
  apply Z.mod_small. assumption.
Qed.

(** a tag *)
Lemma codec_tag t v : is_u 32 v -> codec t (write_tag v) next_tag (sizeof_varint v) v.
Proof.
  intros H. unfold is_u in H. rewrite <- (wrapU_small 64 v) at 2 by lia. apply codec_uint32. assumption.
Qed.

(** zigzag *)
Lemma zigzag_code n v : 1 < n -> - 2 ^ (n - 1) <= v < 2 ^ (n - 1) ->
  Z.lxor (wrapS n (Z.shiftl v 1)) (Z.shiftr v (n - 1)) = wrapS n (zigzag v).
Proof.
  intros Hn Hv. unfold zigzag.
  rewrite Z.shiftl_mul_pow2, Z.shiftr_div_pow2 by lia. change (2 ^ 1) with 2.
  assert (E : 2 ^ n = 2 * 2 ^ (n - 1)).
  { rewrite <- Z.pow_succ_r by lia. f_equal. lia. }
  destruct (Z.leb_spec 0 v).
  - rewrite (Z.div_small v) by lia. rewrite Z.lxor_0_r. f_equal. lia.
  - replace (v / 2 ^ (n - 1)) with (-1).
    2:{ apply (Z.div_unique _ _ _ (v + 2 ^ (n - 1))); lia. }
    change (-1) with (Z.lnot 0). rewrite <- Z.lnot_lxor_r, Z.lxor_0_r. unfold Z.lnot.
    unfold wrapS. rewrite E. set (p := 2 ^ (n - 1)) in *.
    assert (0 < p) by (apply Z.pow_pos_nonneg; lia). clearbody p. clear E Hn n.
    replace ((v * 2) mod (2 * p)) with (2 * v + 2 * p).
    2:{ apply (Z.mod_unique _ _ (-1)); lia. }
    rewrite (Z.mod_small (-2 * v - 1)) by lia.
    destruct (Z.ltb_spec (2 * v + 2 * p) p); destruct (Z.ltb_spec (-2 * v - 1) p); lia.
Qed.

Lemma zigzag_range n v : 1 < n -> - 2 ^ (n - 1) <= v < 2 ^ (n - 1) -> 0 <= zigzag v < 2 ^ n.
Proof.
  intros Hn Hv. unfold zigzag.
  assert (E : 2 ^ n = 2 * 2 ^ (n - 1)).
  { rewrite <- Z.pow_succ_r by lia. f_equal. lia. }
  destruct (Z.leb_spec 0 v); lia.
Qed.

Lemma unzigzag n v : 1 < n -> - 2 ^ (n - 1) <= v < 2 ^ (n - 1) ->
  Z.lxor (wrapS n (Z.shiftr (zigzag v) 1)) (- (wrapS n (Z.land (zigzag v) 1))) = v.
Proof.
  intros Hn Hv.
  assert (E : 2 ^ n = 2 * 2 ^ (n - 1)).
  { rewrite <- Z.pow_succ_r by lia. f_equal. lia. }
  assert (P : 2 <= 2 ^ (n - 1)).
  { change 2 with (2 ^ 1) at 1. apply Z.pow_le_mono_r; lia. }
  rewrite land_1, Z.shiftr_div_pow2 by lia. change (2 ^ 1) with 2.
  unfold zigzag. destruct (Z.leb_spec 0 v).
  - replace (2 * v / 2) with v by lia. replace (2 * v mod 2) with 0 by lia.
    rewrite !wrapS_small by lia. apply Z.lxor_0_r.
  - replace ((-2 * v - 1) / 2) with (- v - 1) by lia. replace ((-2 * v - 1) mod 2) with 1 by lia.
    rewrite !wrapS_small by lia.
    change (-(1)) with (Z.lnot 0). rewrite <- Z.lnot_lxor_r, Z.lxor_0_r. unfold Z.lnot. lia.
Qed.

Lemma wrapS_mod n v : 0 < n -> wrapS n v mod 2 ^ n = v mod 2 ^ n.
Proof.
  intros Hn. unfold wrapS. destruct (v mod 2 ^ n <? 2 ^ (n - 1)).
  - apply Z.mod_mod. lia.
  - rewrite <- (Z_mod_plus_full (v mod 2 ^ n - 2 ^ n) 1), Z.mul_1_l, Z.sub_add. apply Z.mod_mod. lia.
Qed.

Lemma codec_sint32 t v : is_s 32 v -> codec t (write_sint32 v) read_sint32 (sizeof_sint32 v) v.
Proof.
  intros H. unfold write_sint32, sizeof_sint32, read_sint32.
  change 31 with (32 - 1). rewrite zigzag_code by (lia || exact H).
  apply (codec_varint32 t (wrapS 32 (zigzag v))
          (fun n => Z.lxor (wrapS 32 (Z.shiftr n 1)) (- wrapS 32 (Z.land n 1)))).
  rewrite wrapS_mod by lia. rewrite Z.mod_small by (apply (zigzag_range 32); [lia|exact H]).
  apply (unzigzag 32); [lia|exact H].
Qed.

Lemma codec_sint64 t v : is_s 64 v -> codec t (write_sint64 v) read_sint64 (sizeof_sint64 v) v.
Proof.
  intros H. unfold write_sint64, sizeof_sint64, read_sint64.
  change 63 with (64 - 1). rewrite zigzag_code by (lia || exact H).
  apply (codec_varint64 t (wrapS 64 (zigzag v))
          (fun n => Z.lxor (wrapS 64 (Z.shiftr n 1)) (- wrapS 64 (Z.land n 1)))).
  rewrite wrapS_mod by lia. rewrite Z.mod_small by (apply (zigzag_range 64); [lia|exact H]).
  apply (unzigzag 64); [lia|exact H].
Qed.

(** what is on the wire for sint32 / sint64 *)
Lemma sint32_wire v : is_s 32 v -> emits (write_sint32 v) (enc_varint (wrapU 64 (wrapS 32 (zigzag v)))).
Proof.
  intros H. unfold write_sint32. change 31 with (32 - 1). rewrite zigzag_code by (lia || exact H).
  apply write_varint_emits, w64.
Qed.
Lemma sint64_wire v : is_s 64 v -> emits (write_sint64 v) (enc_varint (zigzag v)).
Proof.
  intros H. unfold write_sint64. change 63 with (64 - 1). rewrite zigzag_code by (lia || exact H).
  unfold wrapU. rewrite wrapS_mod by lia.
  rewrite Z.mod_small by (apply (zigzag_range 64); [lia|exact H]).
  apply write_varint_emits. apply (zigzag_range 64); [lia|exact H].
Qed.

(** booleans *)
Lemma codec_bool t v : codec t (write_bool v) read_bool (sizeof_bool v) v.
Proof.
  unfold write_bool. exists [zb (if v then 1 else 0)]. split; [|split; [|split]].
  - apply (emits_op (OpU8 _)); discriminate.
  - apply reads_any_reads. intros pre post e.
    unfold read_bool, rmap. erewrite bind_ok.
    2:{ eapply read_varint32_ok; [apply here_intro| |simpl; lia].
        constructor. rewrite bz_zb. destruct v; reflexivity. }
    unfold ret. apply res_eq; [|reflexivity].
    cbn [varint_value]. rewrite bz_zb. destruct v; reflexivity.
  - reflexivity.
  - discriminate.
Qed.

(** enums *)
Lemma codec_enum {E} t (from_i32 : Z -> E) v : is_s 32 v ->
  codec t (write_enum v) (read_enum from_i32) (sizeof_enum v) (from_i32 v).
Proof.
  intros H. destruct (codec_int32 t v H) as (enc & A & B & C & D).
  exists enc. split; [|split; [|split]]; auto. intros pre post e H1 H2. unfold read_enum, rmap.
  erewrite bind_ok by (apply B; assumption). reflexivity.
Qed.

(** ** Fixed width *)
Lemma le_bytes_length n z : length (le_bytes n z) = n.
Proof. revert z; induction n; intros z; simpl; auto. Qed.
Lemma le_bytes_zlen n z : zlen (le_bytes n z) = Z.of_nat n.
Proof. unfold zlen. rewrite le_bytes_length. reflexivity. Qed.

Lemma le_value_bytes n z : le_value (le_bytes n z) = z mod 256 ^ Z.of_nat n.
Proof.
  revert z; induction n as [|n IH]; intros z; cbn [le_bytes le_value].
  - change (256 ^ Z.of_nat 0) with 1. lia.
  - rewrite IH, bz_zb, Nat2Z.inj_succ, Z.pow_succ_r by lia.
    rewrite Z.rem_mul_r; [|lia|]; [lia|]. 
    assert (0 < 256 ^ Z.of_nat n) by (apply Z.pow_pos_nonneg; lia). lia.
Qed.

Lemma le_value_range l : 0 <= le_value l < 256 ^ zlen l.
Proof.
  induction l as [|b l IH]; [cbn; lia|]. cbn [le_value]. rewrite zlen_cons.
  pose proof (zlen_nonneg l). rewrite Z.pow_add_r by lia. change (256 ^ 1) with 256.
  pose proof (bz_range b). lia.
Qed.

Lemma le_bytes_value l : le_bytes (length l) (le_value l) = l.
Proof.
  induction l as [|b l IH]; [reflexivity|]. cbn [length le_bytes le_value].
  pose proof (bz_range b). f_equal.
  - apply bz_inj. rewrite bz_zb. lia.
  - replace ((bz b + 256 * le_value l) / 256) with (le_value l) by lia. exact IH.
Qed.

Lemma le_bytes_is_le n z : is_le n z (le_bytes n z).
Proof.
  split; [apply le_bytes_length|]. rewrite <- le_value_bytes.
  induction (le_bytes n z) as [|b l IH]; [reflexivity|]. cbn [le_value fold_right]. rewrite IH. reflexivity.
Qed.

Lemma le_bytes_mod n z m : m = 256 ^ Z.of_nat n -> le_bytes n (z mod m) = le_bytes n z.
Proof.
  intros ->. rewrite <- (le_value_bytes n z).
  rewrite <- (le_bytes_length n z) at 1. apply le_bytes_value.
Qed.

Lemma read_fixed_here {M} t bs s e l (f : bytes -> M) :
  here bs s l -> buf_ok t bs ->
  read_fixed t (zlen l) f bs (mkR s e) = (Ok (f l), mkR (s + zlen l) e).
Proof.
  intros H Hb. pose proof (here_bound _ _ _ H). pose proof (here_nonneg _ _ _ H).
  unfold read_fixed, bind, get_start, lift, get_or_eob, set_start, ret. simpl.
  unfold buf_ok in Hb. pose proof (usize_mod_ge t).
  rewrite uadd_ok by lia.
  rewrite (slice_here _ _ _ H). reflexivity.
Qed.

Lemma codec_fixed {A} t o n z (f : bytes -> A) v :
  op_bytes o = le_bytes n z -> o <> OpPanic -> o <> OpUB -> (0 < n)%nat ->
  f (le_bytes n z) = v ->
  codec t [o] (read_fixed t (Z.of_nat n) f) (Z.of_nat n) v.
Proof.
  intros E H1 H2 Hn <-. exists (le_bytes n z). split; [|split; [|split]].
  - rewrite <- E. apply emits_op; assumption.
  - intros pre post e Hb _. rewrite <- (le_bytes_zlen n z).
    apply read_fixed_here; [apply here_intro|assumption].
  - apply le_bytes_zlen.
  - apply nonempty_zlen. rewrite le_bytes_zlen. lia.
Qed.

Lemma codec_fixed64 t v : is_u 64 v -> codec t (write_fixed64 v) (read_fixed64 t) 8 v.
Proof.
  intros H. apply (codec_fixed t (OpU64 v) 8 v); try discriminate; [reflexivity|lia|].
  rewrite le_value_bytes. apply Z.mod_small. exact H.
Qed.
Lemma codec_fixed32 t v : is_u 32 v -> codec t (write_fixed32 v) (read_fixed32 t) 4 v.
Proof.
  intros H. apply (codec_fixed t (OpU32 v) 4 v); try discriminate; [reflexivity|lia|].
  rewrite le_value_bytes. apply Z.mod_small. exact H.
Qed.
Lemma codec_double t v : is_u 64 v -> codec t (write_double v) (read_double t) 8 v.
Proof.
  intros H. apply (codec_fixed t (OpF64 v) 8 v); try discriminate; [reflexivity|lia|].
  rewrite le_value_bytes. apply Z.mod_small. exact H.
Qed.
Lemma codec_float t v : is_u 32 v -> codec t (write_float v) (read_float t) 4 v.
Proof.
  intros H. apply (codec_fixed t (OpF32 v) 4 v); try discriminate; [reflexivity|lia|].
  rewrite le_value_bytes. apply Z.mod_small. exact H.
Qed.
Lemma le_i64_bytes v : is_s 64 v -> le_i64 (le_bytes 8 v) = v.
Proof.
  intros H. unfold le_i64. rewrite le_value_bytes. change (256 ^ Z.of_nat 8) with (2 ^ 64).
  change (v mod 2 ^ 64) with (wrapU 64 v). rewrite wrapS_wrapU by lia.
  apply wrapS_small; [lia|exact H].
Qed.
Lemma le_i32_bytes v : is_s 32 v -> le_i32 (le_bytes 4 v) = v.
Proof.
  intros H. unfold le_i32. rewrite le_value_bytes. change (256 ^ Z.of_nat 4) with (2 ^ 32).
  change (v mod 2 ^ 32) with (wrapU 32 v). rewrite wrapS_wrapU by lia.
  apply wrapS_small; [lia|exact H].
Qed.
Lemma codec_sfixed64 t v : is_s 64 v -> codec t (write_sfixed64 v) (read_sfixed64 t) 8 v.
Proof.
  intros H. apply (codec_fixed t (OpI64 v) 8 v); try discriminate; [reflexivity|lia|].
  apply le_i64_bytes, H.
Qed.
Lemma codec_sfixed32 t v : is_s 32 v -> codec t (write_sfixed32 v) (read_sfixed32 t) 4 v.
Proof.
  intros H. apply (codec_fixed t (OpI32 v) 4 v); try discriminate; [reflexivity|lia|].
  apply le_i32_bytes, H.
Qed.
