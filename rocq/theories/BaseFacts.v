(** Facts about bytes, slices and machine integers. *)
From Coq Require Import NArith Strings.Byte ZifyBool ZifyNat ZifyN.
From Verif Require Import Base.
Ltac Zify.zify_post_hook ::= Z.div_mod_to_equations.

Lemma bz_range b : 0 <= bz b < 256.
Proof. unfold bz. pose proof (Byte.to_N_bounded b). lia. Qed.

Lemma bz_zb z : bz (zb z) = z mod 256.
Proof.
  unfold bz, zb.
  destruct (Byte.of_N (Z.to_N (z mod 256))) as [b|] eqn:E.
  - apply Byte.to_of_N in E. rewrite E. rewrite Z2N.id; [reflexivity|].
    apply Z.mod_pos_bound; lia.
  - apply Byte.of_N_None_iff in E.
    pose proof (Z.mod_pos_bound z 256 ltac:(lia)). lia.
Qed.

Lemma zb_bz b : zb (bz b) = b.
Proof.
  unfold zb. pose proof (bz_range b).
  rewrite Z.mod_small by lia. unfold bz. rewrite N2Z.id.
  rewrite Byte.of_to_N. reflexivity.
Qed.

Lemma bz_inj a b : bz a = bz b -> a = b.
Proof. intros H. rewrite <- (zb_bz a), <- (zb_bz b), H. reflexivity. Qed.

Lemma zlen_nonneg {A} (l : list A) : 0 <= zlen l.
Proof. unfold zlen; lia. Qed.
Lemma zlen_nil {A} : zlen (@nil A) = 0.
Proof. reflexivity. Qed.
Lemma zlen_cons {A} (x : A) l : zlen (x :: l) = 1 + zlen l.
Proof. unfold zlen; simpl length; lia. Qed.
Lemma zlen_app {A} (a b : list A) : zlen (a ++ b) = zlen a + zlen b.
Proof. unfold zlen; rewrite app_length; lia. Qed.
Lemma zlen_map {A B} (f : A -> B) l : zlen (map f l) = zlen l.
Proof. unfold zlen; rewrite map_length; reflexivity. Qed.
Lemma zlen_0_nil {A} (l : list A) : zlen l = 0 -> l = [].
Proof. destruct l; [reflexivity|]. rewrite zlen_cons. pose proof (zlen_nonneg l). lia. Qed.

(** [here bs s l]: the bytes [l] stand at position [s] of [bs]. *)
Definition here (bs : bytes) (s : Z) (l : bytes) : Prop :=
  exists pre post, bs = pre ++ l ++ post /\ s = zlen pre.

Lemma here_intro pre l post : here (pre ++ l ++ post) (zlen pre) l.
Proof. exists pre, post; auto. Qed.

Lemma here_nonneg bs s l : here bs s l -> 0 <= s.
Proof. intros (pre & post & _ & ->). apply zlen_nonneg. Qed.

Lemma here_bound bs s l : here bs s l -> s + zlen l <= zlen bs.
Proof.
  intros (pre & post & -> & ->). rewrite !zlen_app.
  pose proof (zlen_nonneg post); lia.
Qed.

Lemma here_app bs s l1 l2 :
  here bs s (l1 ++ l2) -> here bs s l1 /\ here bs (s + zlen l1) l2.
Proof.
  intros (pre & post & -> & ->). split.
  - exists pre, (l2 ++ post). rewrite !app_assoc. auto.
  - exists (pre ++ l1), post. rewrite zlen_app, !app_assoc. auto.
Qed.

Lemma here_app_inv bs s l1 l2 :
  here bs s l1 -> here bs (s + zlen l1) l2 -> here bs s (l1 ++ l2).
Proof.
  intros (p1 & q1 & E1 & ->) (p2 & q2 & E2 & H).
  exists p1, q2. split; [|reflexivity].
  rewrite E1 in E2. rewrite app_assoc in E2.
  rewrite <- zlen_app in H. unfold zlen in H. apply Nat2Z.inj in H.
  assert (p1 ++ l1 = p2 /\ q1 = l2 ++ q2) as [<- ->].
  { revert E2 H. generalize (p1 ++ l1) as u, (l2 ++ q2) as w. clear.
    intros u; revert p2; induction u as [|x u IH]; destruct p2 as [|y p2]; simpl;
      intros w E H; try discriminate.
    - auto.
    - injection E as -> E. injection H as H. destruct (IH _ _ E H); subst; auto. }
  rewrite E1. rewrite <- !app_assoc. reflexivity.
Qed.

Lemma get_app_len {A} (pre : list A) x post : get (pre ++ x :: post) (zlen pre) = Some x.
Proof.
  unfold get. rewrite zlen_app, zlen_cons.
  pose proof (zlen_nonneg pre); pose proof (zlen_nonneg post).
  replace ((0 <=? zlen pre) && (zlen pre <? zlen pre + (1 + zlen post))) with true by lia.
  unfold zlen. rewrite Nat2Z.id. rewrite nth_error_app2 by lia.
  rewrite Nat.sub_diag. reflexivity.
Qed.

Lemma here_cons bs s b l :
  here bs s (b :: l) -> get bs s = Some b /\ here bs (s + 1) l.
Proof.
  intros H. split.
  - destruct H as (pre & post & -> & ->). apply get_app_len.
  - change (b :: l) with ([b] ++ l) in H. apply here_app in H. apply H.
Qed.

Lemma get_here bs s b : get bs s = Some b -> here bs s [b].
Proof.
  unfold get. destruct ((0 <=? s) && (s <? zlen bs)) eqn:E; [|discriminate].
  intros H. apply nth_error_split in H. destruct H as (p & q & -> & H).
  exists p, q. split; [reflexivity|]. unfold zlen. lia.
Qed.

Lemma get_none bs s : 0 <= s -> get (A:=byte) bs s = None <-> zlen bs <= s.
Proof.
  intros Hs. unfold get.
  destruct ((0 <=? s) && (s <? zlen bs)) eqn:E.
  - split; [|lia]. intros H. apply nth_error_None in H. unfold zlen in *. lia.
  - split; [lia|reflexivity].
Qed.

Lemma get_some_lt {A} (bs : list A) s b : get bs s = Some b -> 0 <= s < zlen bs.
Proof. unfold get. destruct ((0 <=? s) && (s <? zlen bs)) eqn:E; [lia|discriminate]. Qed.

Lemma slice_here bs s l : here bs s l -> slice bs s (s + zlen l) = Some l.
Proof.
  intros (pre & post & -> & ->). unfold slice. rewrite !zlen_app.
  pose proof (zlen_nonneg pre); pose proof (zlen_nonneg post); pose proof (zlen_nonneg l).
  replace ((0 <=? zlen pre) && (zlen pre <=? zlen pre + zlen l)
           && (zlen pre + zlen l <=? zlen pre + (zlen l + zlen post))) with true by lia.
  f_equal. replace (zlen pre + zlen l - zlen pre) with (zlen l) by lia.
  unfold zlen. rewrite !Nat2Z.id.
  rewrite skipn_app, skipn_all, Nat.sub_diag. simpl.
  rewrite firstn_app, Nat.sub_diag, firstn_all. simpl. apply app_nil_r.
Qed.

Lemma here_slice bs s e l :
  slice bs s e = Some l -> here bs s l /\ e = s + zlen l /\ 0 <= s.
Proof.
  unfold slice. destruct ((0 <=? s) && (s <=? e) && (e <=? zlen bs)) eqn:E; [|discriminate].
  intros H. injection H as <-.
  assert (L : zlen (firstn (Z.to_nat (e - s)) (skipn (Z.to_nat s) bs)) = e - s).
  { unfold zlen in *. rewrite firstn_length, skipn_length. lia. }
  split; [|lia].
  exists (firstn (Z.to_nat s) bs), (skipn (Z.to_nat (e - s)) (skipn (Z.to_nat s) bs)).
  rewrite firstn_skipn, firstn_skipn. split; [reflexivity|].
  unfold zlen in *. rewrite firstn_length. lia.
Qed.

Lemma slice_none bs s e : 0 <= s -> slice (A:=byte) bs s e = None -> e < s \/ zlen bs < e.
Proof.
  unfold slice. destruct ((0 <=? s) && (s <=? e) && (e <=? zlen bs)) eqn:E; [discriminate|].
  lia.
Qed.

(** a position inside the buffer has something at it *)
Lemma here_split bs s : 0 <= s <= zlen bs -> exists l, here bs s l /\ s + zlen l = zlen bs.
Proof.
  intros H. exists (skipn (Z.to_nat s) bs). split.
  - exists (firstn (Z.to_nat s) bs), []. rewrite app_nil_r, firstn_skipn.
    split; [reflexivity|]. unfold zlen in *. rewrite firstn_length. lia.
  - unfold zlen in *. rewrite skipn_length. lia.
Qed.

(** ** Bit operations as arithmetic *)

Lemma testbit_small a n i : 0 <= a < 2 ^ n -> 0 <= n <= i -> Z.testbit a i = false.
Proof.
  intros Ha Hi. rewrite Z.testbit_eqb by lia.
  rewrite Z.div_small; [reflexivity|]. split; [lia|].
  eapply Z.lt_le_trans; [apply Ha|]. apply Z.pow_le_mono_r; lia.
Qed.

Lemma land_disjoint a b n : 0 <= n -> 0 <= a < 2 ^ n -> Z.land a (b * 2 ^ n) = 0.
Proof.
  intros Hn Ha. apply Z.bits_inj'. intros i Hi. rewrite Z.land_spec, Z.bits_0.
  destruct (Z.ltb_spec i n).
  - rewrite Z.mul_pow2_bits_low by lia. apply andb_false_r.
  - rewrite (testbit_small a n i) by lia. reflexivity.
Qed.

Lemma lor_add a b n : 0 <= n -> 0 <= a < 2 ^ n ->
  Z.lor a (Z.shiftl b n) = a + b * 2 ^ n.
Proof.
  intros Hn Ha. rewrite Z.shiftl_mul_pow2 by lia.
  rewrite Z.add_nocarry_lxor by (apply land_disjoint; lia).
  apply Z.bits_inj'. intros i Hi. rewrite Z.lxor_spec, Z.lor_spec.
  destruct (Z.ltb_spec i n).
  - rewrite Z.mul_pow2_bits_low by lia. destruct (Z.testbit a i); reflexivity.
  - rewrite (testbit_small a n i) by lia. destruct (Z.testbit (b * 2^n) i); reflexivity.
Qed.

Lemma land_7f b : Z.land b 0x7f = b mod 128.
Proof. change 0x7f with (Z.ones 7). rewrite Z.land_ones by lia. reflexivity. Qed.
Lemma land_f b : Z.land b 0xf = b mod 16.
Proof. change 0xf with (Z.ones 4). rewrite Z.land_ones by lia. reflexivity. Qed.
Lemma land_7 b : Z.land b 0x7 = b mod 8.
Proof. change 0x7 with (Z.ones 3). rewrite Z.land_ones by lia. reflexivity. Qed.
Lemma land_1 b : Z.land b 1 = b mod 2.
Proof. change 1 with (Z.ones 1) at 1. rewrite Z.land_ones by lia. reflexivity. Qed.

Lemma land_80 b : 0 <= b < 256 -> (Z.land b 0x80 =? 0) = (b <? 128).
Proof.
  intros H.
  assert (E : forallb (fun n => Bool.eqb (Z.land (Z.of_nat n) 0x80 =? 0) (Z.of_nat n <? 128))
                      (seq 0 256) = true) by (vm_compute; reflexivity).
  rewrite forallb_forall in E. specialize (E (Z.to_nat b)).
  rewrite Z2Nat.id in E by lia. apply eqb_prop. apply E. apply in_seq. lia.
Qed.

Lemma wrapU_small n z : 0 <= z < 2 ^ n -> wrapU n z = z.
Proof. apply Z.mod_small. Qed.

Lemma wrapU_bound n z : 0 <= n -> 0 <= wrapU n z < 2 ^ n.
Proof. intros H. apply Z.mod_pos_bound. lia. Qed.

Lemma wrapS_small n z : 0 < n -> - 2 ^ (n - 1) <= z < 2 ^ (n - 1) -> wrapS n z = z.
Proof.
  intros Hn H. unfold wrapS.
  assert (E : 2 ^ n = 2 * 2 ^ (n - 1)).
  { rewrite <- Z.pow_succ_r by lia. f_equal. lia. }
  set (p := 2 ^ (n - 1)) in *. rewrite E. clearbody p.
  destruct (Z.ltb_spec z 0).
  - assert (z mod (2 * p) = z + 2 * p) as ->.
    { rewrite <- (Z_mod_plus_full z 1), Z.mul_1_l. apply Z.mod_small. lia. }
    destruct (Z.ltb_spec (z + 2 * p) p); lia.
  - rewrite Z.mod_small by lia. destruct (Z.ltb_spec z p); lia.
Qed.

Lemma wrapS_bound n z : 0 < n -> - 2 ^ (n - 1) <= wrapS n z < 2 ^ (n - 1).
Proof.
  intros Hn. unfold wrapS.
  assert (E : 2 ^ n = 2 * 2 ^ (n - 1)).
  { rewrite <- Z.pow_succ_r by lia. f_equal. lia. }
  assert (0 < 2 ^ (n - 1)) by (apply Z.pow_pos_nonneg; lia).
  pose proof (Z.mod_pos_bound z (2 ^ n) ltac:(lia)).
  destruct (Z.ltb_spec (z mod 2 ^ n) (2 ^ (n - 1))); lia.
Qed.

Lemma wrapS_wrapU n z : 0 < n -> wrapS n (wrapU n z) = wrapS n z.
Proof. intros. unfold wrapS, wrapU. rewrite Z.mod_mod by lia. reflexivity. Qed.

(** wrapping to 64 bits and then to fewer bits *)
Lemma mod_mod_pow z n m : 0 <= n <= m -> (z mod 2 ^ m) mod 2 ^ n = z mod 2 ^ n.
Proof.
  intros H. assert (E : 2 ^ m = 2 ^ n * 2 ^ (m - n)).
  { rewrite <- Z.pow_add_r by lia. f_equal. lia. }
  rewrite E. rewrite Z.rem_mul_r by (try lia; apply Z.pow_nonzero; lia).
  rewrite Z.mul_comm, Z_mod_plus_full. apply Z.mod_mod. lia.
Qed.

Lemma usize_mod_pow t : usize_mod t = 2 ^ usize_bits t.
Proof. unfold usize_mod, usize_bits. destruct (usize_width t); reflexivity. Qed.
Lemma usize_mod_ge t : 2 ^ 32 <= usize_mod t.
Proof. unfold usize_mod. destruct (usize_width t); lia. Qed.
Lemma usize_mod_le t : usize_mod t <= 2 ^ 64.
Proof. unfold usize_mod. destruct (usize_width t); lia. Qed.

Lemma uadd_ok t a b : a + b < usize_mod t -> uadd t a b = Ok (a + b).
Proof. intros H. unfold uadd. destruct (Z.ltb_spec (a + b) (usize_mod t)); [reflexivity|lia]. Qed.
Lemma usub_ok t a b : b <= a -> usub t a b = Ok (a - b).
Proof. intros H. unfold usub. destruct (Z.leb_spec b a); [reflexivity|lia]. Qed.
