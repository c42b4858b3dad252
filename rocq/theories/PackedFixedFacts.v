(** Facts about PackedFixed. *)
From Coq Require Import ZifyBool ZifyNat ZifyN.
From Verif Require Import Base BaseFacts Reader PackedFixed Writer Sizeofs Spec
  VarintFacts WriterFacts ScalarFacts DelimFacts.

(** [p] holds the elements [l]: independent of the accessors of the model *)
Definition represents (k : fixed_kind) (p : packed_fixed) (l : list Z) : Prop :=
  match p with
  | NoDataYet => l = []
  | Borrowed bs => bs = flat_map (fk_encode k) l
  | Owned v => v = l
  end /\ Forall (fk_range k) l.

Lemma fk_size_pos k : 4 <= fk_size k <= 8.
Proof. destruct k; simpl; lia. Qed.

Lemma fk_encode_len k x : zlen (fk_encode k x) = fk_size k.
Proof. unfold fk_encode. rewrite le_bytes_zlen. pose proof (fk_size_pos k). lia. Qed.

Lemma fk_decode_encode k x : fk_range k x -> fk_decode k (fk_encode k x) = x.
Proof.
  intros H. unfold fk_encode.
  destruct k; cbn [fk_size fk_decode]; cbn [fk_range] in H;
    try (change (Z.to_nat 4) with 4%nat); try (change (Z.to_nat 8) with 8%nat).
  - rewrite le_value_bytes. apply Z.mod_small. exact H.
  - apply le_i32_bytes, H.
  - rewrite le_value_bytes. apply Z.mod_small. exact H.
  - rewrite le_value_bytes. apply Z.mod_small. exact H.
  - apply le_i64_bytes, H.
  - rewrite le_value_bytes. apply Z.mod_small. exact H.
Qed.

Lemma fk_flat_len k l : zlen (flat_map (fk_encode k) l) = zlen l * fk_size k.
Proof.
  induction l as [|x l IH]; [reflexivity|]. cbn [flat_map]. rewrite zlen_app, IH, fk_encode_len, zlen_cons. lia.
Qed.

Lemma fk_encode_length k x : length (fk_encode k x) = Z.to_nat (fk_size k).
Proof. unfold fk_encode. apply le_bytes_length. Qed.

Lemma chunks_flat k l : Forall (fk_range k) l -> chunks k (length l) (flat_map (fk_encode k) l) = l.
Proof.
  induction 1 as [|x l Hx Hl IH]; [reflexivity|]. cbn [length chunks flat_map].
  rewrite <- (fk_encode_length k x).
  rewrite firstn_app, Nat.sub_diag, firstn_all, firstn_O, app_nil_r.
  rewrite skipn_app, skipn_all, Nat.sub_diag. simpl skipn. simpl app.
  rewrite fk_decode_encode by assumption. rewrite IH. reflexivity.
Qed.

Lemma here_elem k l i x : nth_error l i = Some x ->
  here (flat_map (fk_encode k) l) (Z.of_nat i * fk_size k) (fk_encode k x).
Proof.
  intros H. apply nth_error_split in H. destruct H as (a & b & -> & <-).
  exists (flat_map (fk_encode k) a), (flat_map (fk_encode k) b).
  rewrite flat_map_app. simpl. split; [reflexivity|]. rewrite fk_flat_len. unfold zlen. lia.
Qed.


Lemma rep_len k p l (R : represents k p l) : pf_len k p = zlen l.
Proof.
  destruct R as [R1 R2]. destruct p as [|bs|v]; simpl in *; subst; try reflexivity.
  rewrite fk_flat_len. pose proof (fk_size_pos k). apply Z.div_mul. lia.
Qed.

Lemma rep_empty k p l (R : represents k p l) : pf_is_empty p = match l with [] => true | _ => false end.
Proof.
  destruct R as [R1 R2]. destruct p as [|bs|v]; simpl in *; subst; try reflexivity.
  - rewrite fk_flat_len. pose proof (fk_size_pos k). destruct l as [|x l']; [reflexivity|].
    rewrite zlen_cons. pose proof (zlen_nonneg l'). lia.
  - destruct l as [|x l']; [reflexivity|]. rewrite zlen_cons. pose proof (zlen_nonneg l'). lia.
Qed.


Lemma rep_at t k p l (R : represents k p l) i : 0 <= i -> i * fk_size k < usize_mod t ->
  pf_at t k p i = match nth_error l (Z.to_nat i) with Some x => Ok x | None => Panic end.
Proof.
  intros Hi Hu. destruct R as [R1 R2]. pose proof (fk_size_pos k).
  destruct p as [|bs|v]; simpl in *; subst.
  - destruct (Z.to_nat i); reflexivity.
  - unfold umul. destruct (Z.ltb_spec (i * fk_size k) (usize_mod t)); [|lia].
    rewrite fk_flat_len.
    destruct (nth_error l (Z.to_nat i)) as [x|] eqn:E.
    + assert (i < zlen l). { assert (Z.to_nat i < length l)%nat by (apply nth_error_Some; congruence). unfold zlen; lia. }
      destruct (Z.leb_spec (zlen l * fk_size k) (i * fk_size k)); [nia|].
      pose proof (here_elem k _ _ _ E) as E2. rewrite Z2Nat.id in E2 by lia.
      apply slice_here in E2. rewrite fk_encode_len in E2. rewrite E2.
      rewrite fk_decode_encode; [reflexivity|].
      rewrite Forall_forall in R2. apply R2. eapply nth_error_In; exact E.
    + apply nth_error_None in E. unfold zlen.
      destruct (Z.leb_spec (Z.of_nat (length l) * fk_size k) (i * fk_size k)); [reflexivity|nia].
  - unfold get. destruct (nth_error l (Z.to_nat i)) as [x|] eqn:E.
    + assert (Z.to_nat i < length l)%nat by (apply nth_error_Some; congruence).
      replace ((0 <=? i) && (i <? zlen l)) with true by (unfold zlen; lia). reflexivity.
    + apply nth_error_None in E.
      replace ((0 <=? i) && (i <? zlen l)) with false by (unfold zlen; lia). reflexivity.
Qed.

Lemma rep_next t k p l (R : represents k p l) i : 0 <= i -> zlen l * fk_size k < usize_mod t ->
  pf_next t k p i = Ok (nth_error l (Z.to_nat i)).
Proof.
  intros Hi Hu. unfold pf_next. rewrite (rep_len k p l R). pose proof (fk_size_pos k).
  destruct (Z.leb_spec (zlen l) i).
  - replace (nth_error l (Z.to_nat i)) with (@None Z); [reflexivity|].
    symmetry. apply nth_error_None. unfold zlen in *. lia.
  - rewrite (rep_at t k p l R) by nia. destruct (nth_error l (Z.to_nat i)) as [x|] eqn:E; [reflexivity|].
    apply nth_error_None in E. unfold zlen in *. lia.
Qed.

Lemma rep_collect_from t k p l (R : represents k p l) n i : 0 <= i -> zlen l * fk_size k < usize_mod t ->
  n = (length l - Z.to_nat i)%nat -> (Z.to_nat i <= length l)%nat ->
  pf_collect_from t k n p i = Ok (skipn (Z.to_nat i) l).
Proof.
  revert i; induction n as [|n IH]; intros i Hi Hu Hn Hle; simpl; rewrite (rep_next t k p l R) by assumption.
  - replace (nth_error l (Z.to_nat i)) with (@None Z)
      by (symmetry; apply nth_error_None; lia).
    rewrite skipn_all2 by lia. reflexivity.
  - destruct (nth_error l (Z.to_nat i)) as [x|] eqn:E.
    2:{ apply nth_error_None in E. lia. }
    rewrite (IH (i+1)) by lia. rewrite Z2Nat.inj_add by lia. change (Z.to_nat 1) with 1%nat.
    f_equal. apply nth_error_split in E. destruct E as (a & b & E & Hl). rewrite <- Hl, E.
    rewrite !skipn_app, skipn_all, Nat.sub_diag, skipn_all2 by lia.
    replace (length a + 1 - length a)%nat with 1%nat by lia. reflexivity.
Qed.

Lemma rep_collect t k p l (R : represents k p l) : zlen l * fk_size k < usize_mod t -> pf_collect t k p = Ok l.
Proof.
  intros H. unfold pf_collect. rewrite (rep_len k p l R). rewrite (rep_collect_from t k p l R); [reflexivity|lia|assumption| |simpl; lia].
  unfold zlen. change (Z.to_nat 0) with 0%nat. lia.
Qed.

Lemma rep_into_vec k p l (R : represents k p l) : pf_into_vec k p = Ok l.
Proof.
  pose proof (rep_len k p l R) as L. destruct R as [R1 R2]. destruct p as [|bs|v]; simpl in *; subst; try reflexivity.
  rewrite L, fk_flat_len. destruct (Z.ltb_spec (zlen l * fk_size k) (zlen l * fk_size k)); [lia|].
  unfold zlen. rewrite Nat2Z.id, chunks_flat by assumption. reflexivity.
Qed.

Lemma rep_own k p l (R : represents k p l) : pf_own k p = Ok (Owned l).
Proof.
  pose proof (rep_into_vec k p l R) as V. destruct R as [R1 R2]. destruct p as [|bs|v]; simpl in *; subst; try reflexivity.
  rewrite V. reflexivity.
Qed.

Lemma rep_to_slice k p l (R : represents k p l) : pf_to_slice k p = Ok l.
Proof. unfold pf_to_slice. rewrite (rep_own k p l R). reflexivity. Qed.

(** writing *)
Lemma rep_write k p l (R : represents k p l) : p <> NoDataYet -> zlen l * fk_size k < 2 ^ 64 ->
  emits (write_packed_fixed k p) (enc_len (flat_map (fk_encode k) l)).
Proof.
  intros Hn H. destruct R as [R1 R2].
  destruct p as [|bs|v]; simpl in *; subst; [congruence| |]; apply write_bytes_emits; rewrite fk_flat_len; assumption.
Qed.

Lemma rep_write_with_tag k p l (R : represents k p l) tag : is_u 32 tag -> zlen l * fk_size k < 2 ^ 64 ->
  emits (write_packed_fixed_with_tag k tag p)
    (match l with [] => [] | _ => enc_varint tag ++ enc_len (flat_map (fk_encode k) l) end).
Proof.
  intros Ht H. unfold write_packed_fixed_with_tag. rewrite (rep_empty k p l R).
  destruct l as [|x l'] eqn:El; [apply emits_nil|]. rewrite <- El in *.
  apply emits_app.
  - unfold write_tag. unfold is_u in Ht. rewrite wrapU_small by lia. apply write_varint_emits. lia.
  - apply (rep_write k p l R); [|assumption]. destruct R as [R1 R2]. intros ->. simpl in R1. subst. discriminate.
Qed.

Lemma rep_eq t k p q l m eqT : represents k p l -> represents k q m ->
  zlen l * fk_size k < usize_mod t -> zlen m * fk_size k < usize_mod t ->
  pf_eq t k eqT p q = Ok (iter_eq eqT l m).
Proof. intros P Q H1 H2. unfold pf_eq. rewrite (rep_collect t k p l), (rep_collect t k q m) by assumption. reflexivity. Qed.

(** reading *)
Lemma reads_packed_fixed_bytes t size body : 0 < size <= 8 -> zlen body mod size = 0 -> zlen body < 2 ^ 32 ->
  reads t (read_packed_fixed t size) (enc_len body) body.
Proof.
  intros Hs Hm H. apply reads_intro. intros bs s e Hh Hb He.
  pose proof (zlen_nonneg body). unfold enc_len in He. rewrite zlen_app in He.
  pose proof (enc_varint_nonempty (zlen body) ltac:(lia)).
  apply here_app in Hh. destruct Hh as [Ha Hc].
  destruct (buf_bound _ _ _ _ Hb Hc). pose proof (usize_mod_ge t). pose proof (here_nonneg _ _ _ Ha).
  assert (U2 : usize_mod t / 2 <= usize_mod t) by (apply Z.div_le_upper_bound; lia).
  unfold read_packed_fixed.
  erewrite bind_ok by (eapply here_reads_any; [apply (reads_varint32 (zlen body)); lia|exact Ha]).
  rewrite Z.mod_small by lia.
  unfold bind at 1, rlen, bind at 1, get_start at 1, bind at 1, get_end at 1, lift at 1. cbn [r_start r_end].
  rewrite usub_ok by lia.
  destruct (Z.ltb_spec (e - (s + zlen (enc_varint (zlen body)))) (zlen body)); [lia|].
  unfold bind at 1, get_start at 1. cbn [r_start].
  assert (E : zlen body / size * size = zlen body)
    by (rewrite (Z.div_mod (zlen body) size) at 2 by lia; lia).
  rewrite E. unfold bind at 1, lift at 1. rewrite uadd_ok by lia.
  unfold bind at 1. rewrite (slice_here _ _ _ Hc).
  cbv beta iota. unfold bind at 1, lift at 1.
  unfold bind, set_start, ret. cbn [r_end]. apply res_eq; [reflexivity|].
  unfold enc_len. rewrite zlen_app. lia.
Qed.

Lemma reads_packed_fixed t k l : Forall (fk_range k) l -> zlen l * fk_size k < 2 ^ 32 ->
  reads t (read_packed_fixed_k t k) (enc_len (flat_map (fk_encode k) l))
        (Borrowed (flat_map (fk_encode k) l)).
Proof.
  intros Hl H. apply reads_intro. intros bs s e Hh Hb He. unfold read_packed_fixed_k, rmap.
  pose proof (fk_size_pos k).
  erewrite bind_ok.
  2:{ eapply here_reads; [|exact Hh|exact Hb|exact He].
      apply reads_packed_fixed_bytes; [lia| |rewrite fk_flat_len; lia].
      rewrite fk_flat_len. apply Z.mod_mul. lia. }
  reflexivity.
Qed.
