(** What decoding can yield: no panic, no undefined behaviour, only well-typed
    values. *)
From Coq Require Import ZifyBool ZifyNat ZifyN.
From Verif Require Import Base BaseFacts Utf8 Reader PackedFixed Writer Sizeofs Spec VarintFacts
  WriterFacts ScalarFacts DelimFacts Utf8Facts PackedFixedFacts ExactFacts SimFacts Schema Gen GenSem GenSpec GenEmit GenRead.

(** [m] yields a value in [P], an error, or (if [pa]) panics; from every state *)
Definition post {A} (pa : Prop) (P : A -> Prop) (m : rd A) : Prop :=
  forall bs r, match fst (m bs r) with
               | Ok a => P a
               | Err _ | NoFuel => True
               | Panic => pa
               | UB => False
               end.

Section Post.
Variable pa : Prop.
Lemma post_ret {A} (P : A -> Prop) a : P a -> post pa P (ret a).
Proof. intros H bs r. exact H. Qed.
Lemma post_fail {A} (P : A -> Prop) e : post pa P (fail e).
Proof. intros bs r. exact I. Qed.
Lemma post_nofuel {A} (P : A -> Prop) : post pa P (lift NoFuel).
Proof. intros bs r. exact I. Qed.
Lemma post_bind {A B} (P : A -> Prop) (Q : B -> Prop) m f : post pa P m -> (forall a, P a -> post pa Q (f a)) -> post pa Q (bind m f).
Proof.
  intros Hm Hf bs r. specialize (Hm bs r). unfold bind. destruct (m bs r) as [o r']. cbn [fst] in *.
  destruct o; cbn [fst]; try exact Hm. apply (Hf a Hm bs r').
Qed.
Lemma post_weaken {A} (P Q : A -> Prop) m : (forall a, P a -> Q a) -> post pa P m -> post pa Q m.
Proof. intros H Hm bs r. specialize (Hm bs r). destruct (fst (m bs r)); auto. Qed.
Lemma post_rmap {A B} (P : A -> Prop) (Q : B -> Prop) (f : A -> B) m : post pa P m -> (forall a, P a -> Q (f a)) -> post pa Q (rmap f m).
Proof. intros Hm Hf. eapply post_bind; [exact Hm|]. intros a Ha. apply post_ret. auto. Qed.
Lemma post_ok {A} (P : A -> Prop) m : post pa (fun _ => True) m ->
  (forall bs r v r', m bs r = (Ok v, r') -> P v) -> post pa P m.
Proof. intros H1 H2 bs r. specialize (H1 bs r). destruct (m bs r) as [o r'] eqn:E. cbn [fst] in *. destruct o; auto. eapply H2; exact E. Qed.
Lemma post_get {A} (P : A -> Prop) f : (forall bs a, f bs = Some a -> P a) -> post pa P (get_or_eob f).
Proof. intros H bs r. unfold get_or_eob. destruct (f bs) eqn:E; cbn; eauto. Qed.
Lemma post_any_start : post pa (fun _ => True) get_start. Proof. intros bs r. exact I. Qed.
Lemma post_any_end : post pa (fun _ => True) get_end. Proof. intros bs r. exact I. Qed.
Lemma post_set_start s : post pa (fun _ => True) (set_start s). Proof. intros bs r. exact I. Qed.
Lemma post_set_end s : post pa (fun _ => True) (set_end s). Proof. intros bs r. exact I. Qed.
Lemma post_is_eof : post pa (fun _ => True) is_eof. Proof. intros bs r. exact I. Qed.

Lemma post_u8 : post pa (fun b => 0 <= b < 256) read_u8.
Proof.
  unfold read_u8. eapply post_bind; [apply post_any_start|]. intros s _.
  eapply post_bind; [apply (post_get (fun _ => True)); auto|]. intros b _.
  eapply post_bind; [apply post_set_start|]. intros _ _. apply post_ret. apply bz_range.
Qed.

Ltac step_u8 := eapply post_bind; [exact post_u8|intros ? _; cbn zeta].
Lemma varint64_safe : post pa (fun _ => True) read_varint64.
Proof.
  unfold read_varint64. repeat (step_u8; destruct (msb_clear _); [apply post_ret; exact I|]). apply post_fail.
Qed.
Lemma varint32_safe : post pa (fun _ => True) read_varint32.
Proof.
  unfold read_varint32. repeat (step_u8; destruct (msb_clear _); [apply post_ret; exact I|]).
  unfold discard_extra. repeat (step_u8; destruct (msb_clear _); [apply post_ret; exact I|]). apply post_fail.
Qed.
Lemma read_u8_neg bs s e : s < 0 -> read_u8 bs (mkR s e) = (Err EUnexpectedEndOfBuffer, mkR s e).
Proof.
  intros H. unfold read_u8, bind, get_start, get_or_eob. cbn [r_start]. unfold get.
  replace (0 <=? s) with false by (symmetry; apply Z.leb_gt; lia). reflexivity.
Qed.
Lemma post_varint64 : post pa (is_u 64) read_varint64.
Proof.
  apply post_ok; [exact varint64_safe|]. intros bs [s e] v r' H. destruct (Z.lt_ge_cases s 0) as [L|L].
  - unfold read_varint64 in H. unfold bind at 1 in H. rewrite read_u8_neg in H by exact L. discriminate H.
  - destruct (read_varint64_inv _ _ _ _ _ L H) as (l & _ & _ & _ & -> & _). unfold is_u. apply Z.mod_pos_bound. lia.
Qed.
Lemma post_varint32 : post pa (is_u 32) read_varint32.
Proof.
  apply post_ok; [exact varint32_safe|]. intros bs [s e] v r' H. destruct (Z.lt_ge_cases s 0) as [L|L].
  - unfold read_varint32 in H. unfold bind at 1 in H. rewrite read_u8_neg in H by exact L. discriminate H.
  - destruct (read_varint32_inv _ _ _ _ _ L H) as (l & _ & _ & _ & -> & _). unfold is_u. apply Z.mod_pos_bound. lia.
Qed.
Lemma post_int32 : post pa (is_s 32) read_int32.
Proof. eapply post_rmap; [exact post_varint32|]. intros a _. apply wrapS_bound. lia. Qed.
Lemma post_int64 : post pa (is_s 64) read_int64.
Proof. eapply post_rmap; [exact post_varint64|]. intros a _. apply wrapS_bound. lia. Qed.

Lemma unzigzag_range k n : 1 <= k -> is_u (k + 1) n -> is_s (k + 1) (Z.lxor (wrapS (k + 1) (Z.shiftr n 1)) (- wrapS (k + 1) (Z.land n 1))).
Proof.
  intros Hk [H0 H1]. replace (2 ^ (k + 1)) with (2 * 2 ^ k) in H1 by (rewrite Z.pow_add_r by lia; lia).
  assert (P : 2 <= 2 ^ k). { change 2 with (2 ^ 1) at 1. apply Z.pow_le_mono_r; lia. }
  assert (Q : 0 <= Z.shiftr n 1 < 2 ^ k).
  { rewrite Z.shiftr_div_pow2 by lia. change (2 ^ 1) with 2. split; [apply Z.div_pos; lia|apply Z.div_lt_upper_bound; lia]. }
  assert (W : forall z, 0 <= z < 2 ^ k -> wrapS (k + 1) z = z).
  { intros z Hz. apply wrapS_small; [lia|]. replace (k + 1 - 1) with k by lia. lia. }
  rewrite (W _ Q), land_1. unfold is_s. replace (k + 1 - 1) with k by lia.
  pose proof (Z.mod_pos_bound n 2 ltac:(lia)) as M.
  assert (E : n mod 2 = 0 \/ n mod 2 = 1) by lia. destruct E as [-> | ->].
  - rewrite (W 0) by lia. change (- 0) with 0. rewrite Z.lxor_0_r. lia.
  - rewrite (W 1) by lia. change (- (1)) with (-1). rewrite Z.lxor_m1_r. unfold Z.lnot. lia.
Qed.
Lemma post_sint32 : post pa (is_s 32) read_sint32.
Proof. eapply post_bind; [exact post_varint32|]. intros a Ha. apply post_ret. exact (unzigzag_range 31 a ltac:(lia) Ha). Qed.
Lemma post_sint64 : post pa (is_s 64) read_sint64.
Proof. eapply post_bind; [exact post_varint64|]. intros a Ha. apply post_ret. exact (unzigzag_range 63 a ltac:(lia) Ha). Qed.

Section Target.
Variable t : target.
(** a panic of the unsigned arithmetic is allowed, or does not happen *)
Hypothesis PA : overflow_checks t = true -> pa.

Lemma post_uadd a b : post pa (fun e => e = a + b \/ (usize_mod t <= a + b /\ e = (a + b) mod usize_mod t)) (lift (uadd t a b)).
Proof.
  intros bs r. unfold lift, uadd. destruct (Z.ltb_spec (a + b) (usize_mod t)); cbn [fst]; [auto|].
  destruct (overflow_checks t) eqn:O; cbn [fst]; auto.
Qed.
Lemma post_usub a b : post pa (fun _ => True) (lift (usub t a b)).
Proof.
  intros bs r. unfold lift, usub. destruct (b <=? a); cbn [fst]; [auto|].
  destruct (overflow_checks t) eqn:O; cbn [fst]; auto.
Qed.

(** a slice that ends [n] bytes later has length [n] *)
Lemma slice_exact (bs : bytes) s n e x : 0 <= n < 2 ^ 32 ->
  e = s + n \/ (usize_mod t <= s + n /\ e = (s + n) mod usize_mod t) -> slice bs s e = Some x -> zlen x = n.
Proof.
  intros Hn He S. apply here_slice in S. destruct S as (_ & E & S0). pose proof (usize_mod_ge t). pose proof (zlen_nonneg x).
  destruct He as [He|[L He]]; [lia|].
  assert (M : 0 <= e < usize_mod t) by (rewrite He; apply Z.mod_pos_bound; lia).
  assert (K : zlen x = n + usize_mod t * (- ((s + n) / usize_mod t))).
  { pose proof (Z.div_mod (s + n) (usize_mod t) ltac:(lia)). lia. }
  assert (Hq : zlen x mod usize_mod t = n mod usize_mod t) by (rewrite K, Z.mul_comm; apply Z.mod_add; lia).
  rewrite !Z.mod_small in Hq by lia. exact Hq.
Qed.

Lemma post_fixed {M} n (f : bytes -> M) (P : M -> Prop) : 0 <= n < 2 ^ 32 ->
  (forall x, zlen x = n -> P (f x)) -> post pa P (read_fixed t n f).
Proof.
  intros Hn H. unfold read_fixed. eapply post_bind; [apply post_any_start|]. intros s _.
  eapply post_bind; [apply post_uadd|]. intros e He.
  eapply (post_bind (fun x => zlen x = n)); [apply post_get; intros bs a S; exact (slice_exact bs s n e a Hn He S)|]. intros x Hx.
  eapply post_bind; [apply post_set_start|]. intros _ _. apply post_ret. auto.
Qed.
Lemma le4 x : zlen x = 4 -> is_u 32 (le_value x).
Proof. intros H. pose proof (le_value_range x) as R. rewrite H in R. exact R. Qed.
Lemma le8 x : zlen x = 8 -> is_u 64 (le_value x).
Proof. intros H. pose proof (le_value_range x) as R. rewrite H in R. exact R. Qed.
Lemma post_fixed32 : post pa (is_u 32) (read_fixed32 t). Proof. apply post_fixed; [lia|apply le4]. Qed.
Lemma post_fixed64 : post pa (is_u 64) (read_fixed64 t). Proof. apply post_fixed; [lia|apply le8]. Qed.
Lemma post_float : post pa (is_u 32) (read_float t). Proof. apply post_fixed; [lia|apply le4]. Qed.
Lemma post_double : post pa (is_u 64) (read_double t). Proof. apply post_fixed; [lia|apply le8]. Qed.
Lemma post_sfixed32 : post pa (is_s 32) (read_sfixed32 t).
Proof. apply post_fixed; [lia|]. intros x _. apply wrapS_bound. lia. Qed.
Lemma post_sfixed64 : post pa (is_s 64) (read_sfixed64 t).
Proof. apply post_fixed; [lia|]. intros x _. apply wrapS_bound. lia. Qed.

Lemma post_len {M} (P : M -> Prop) m n : post pa P m -> post pa P (read_len t m n).
Proof.
  intros H. unfold read_len. eapply post_bind; [apply post_any_end|]. intros ce _.
  eapply post_bind; [apply post_any_start|]. intros s _. eapply post_bind; [apply post_uadd|]. intros e _.
  eapply post_bind; [apply post_set_end|]. intros _ _. eapply post_bind; [exact H|]. intros v Hv.
  eapply post_bind; [apply post_any_end|]. intros e' _. eapply post_bind; [apply post_set_start|]. intros _ _.
  eapply post_bind; [apply post_set_end|]. intros _ _. apply post_ret, Hv.
Qed.
Lemma post_len_varint {M} (P : M -> Prop) m : post pa P m -> post pa P (read_len_varint t m).
Proof. intros H. eapply post_bind; [exact post_varint32|]. intros n _. apply post_len, H. Qed.
Lemma post_bytes : post pa (fun _ => True) (read_bytes t).
Proof.
  apply post_len_varint. eapply post_bind; [apply post_any_start|]. intros s _. eapply post_bind; [apply post_any_end|]. intros e _.
  apply post_get. auto.
Qed.
Lemma post_string : post pa is_utf8 (read_string t).
Proof.
  apply post_len_varint. eapply post_bind; [apply post_any_start|]. intros s _. eapply post_bind; [apply post_any_end|]. intros e _.
  eapply (post_bind (fun _ => True)); [apply post_get; auto|]. intros x _.
  destruct (utf8_valid x) eqn:U; [apply post_ret, utf8_valid_is, U|apply post_fail].
Qed.
Lemma post_skip n : post pa (fun _ => True) (skip t n).
Proof.
  unfold skip. eapply post_bind; [apply post_any_start|]. intros s _. eapply post_bind; [apply post_any_end|]. intros e _.
  eapply post_bind; [apply post_usub|]. intros d _. destruct (d <? n); [apply post_fail|].
  eapply post_bind; [apply post_uadd|]. intros s' _. apply post_set_start.
Qed.
Lemma post_unknown tag : post pa (fun _ => True) (read_unknown t tag).
Proof.
  unfold read_unknown. repeat match goal with |- context [if ?b then _ else _] => destruct b end;
    try apply post_skip; try apply post_fail.
  - eapply post_bind; [exact post_varint64|]. intros _ _. apply post_ret. exact I.
  - eapply post_bind; [exact post_varint64|]. intros v _. destruct (v <? usize_mod t); [apply post_skip|apply post_fail].
Qed.
Lemma post_packed_loop {M} (P : M -> Prop) m : post pa P m -> forall fuel acc, Forall P acc -> post pa (Forall P) (packed_loop fuel m acc).
Proof.
  intros H. induction fuel as [|fuel IH]; intros acc Ha; [apply post_nofuel|]. cbn [packed_loop].
  eapply post_bind; [apply post_is_eof|]. intros [] _; [apply post_ret, Forall_rev, Ha|].
  eapply post_bind; [exact H|]. intros x Hx. apply IH. constructor; assumption.
Qed.
Lemma post_packed {M} (P : M -> Prop) m fuel : post pa P m -> post pa (Forall P) (read_packed t fuel m).
Proof. intros H. apply post_len_varint, post_packed_loop; [exact H|constructor]. Qed.
Lemma post_map_loop {K V} (P : K -> Prop) (Q : V -> Prop) rk rv : post pa P rk -> post pa Q rv ->
  forall fuel k v, P k -> Q v -> post pa (fun kv => P (fst kv) /\ Q (snd kv)) (map_loop fuel rk rv k v).
Proof.
  intros Hk Hv. induction fuel as [|fuel IH]; intros k v Pk Qv; [apply post_nofuel|]. cbn [map_loop].
  eapply post_bind; [apply post_is_eof|]. intros [] _; [apply post_ret; auto|].
  eapply post_bind; [exact post_u8|]. intros b _. cbn zeta.
  destruct (_ =? 1); [eapply post_bind; [exact Hk|]; intros k' Pk'; apply IH; assumption|].
  destruct (_ =? 2); [eapply post_bind; [exact Hv|]; intros v' Qv'; apply IH; assumption|]. apply post_fail.
Qed.
Lemma post_map {K V} (P : K -> Prop) (Q : V -> Prop) rk rv fuel kd vd : post pa P rk -> post pa Q rv -> P kd -> Q vd ->
  post pa (fun kv => P (fst kv) /\ Q (snd kv)) (read_map t fuel kd vd rk rv).
Proof. intros. apply post_len_varint, post_map_loop; assumption. Qed.

(** bytes whose number is a multiple of the element size hold elements *)
Lemma bytes_represent k (x : bytes) : zlen x mod fk_size k = 0 -> exists l, represents k (Borrowed x) l.
Proof.
  intros M. pose proof (fk_size_pos k) as S.
  assert (E : exists n, length x = (n * Z.to_nat (fk_size k))%nat).
  { exists (Z.to_nat (zlen x / fk_size k)). pose proof (Z.div_mod (zlen x) (fk_size k) ltac:(lia)).
    assert (0 <= zlen x / fk_size k) by (apply Z.div_pos; [apply zlen_nonneg|lia]). unfold zlen in *. nia. }
  destruct E as [n E]. revert x M E. induction n as [|n IH]; intros x M E.
  - exists []. destruct x; [|cbn in E; lia]. split; [reflexivity|constructor].
  - cbn [Nat.mul] in E. set (a := firstn (Z.to_nat (fk_size k)) x). set (b := skipn (Z.to_nat (fk_size k)) x).
    assert (La : length a = Z.to_nat (fk_size k)) by (unfold a; rewrite firstn_length; lia).
    assert (Lb : length b = (n * Z.to_nat (fk_size k))%nat) by (unfold b; rewrite skipn_length; lia).
    destruct (IH b) as (l & H1 & H2); [unfold zlen; rewrite Lb, Nat2Z.inj_mul, Z2Nat.id by lia; apply Z.mod_mul; lia|exact Lb|].
    assert (A : exists z, a = fk_encode k z /\ fk_range k z).
    { assert (B : le_bytes (Z.to_nat (fk_size k)) (le_value a) = a) by (rewrite <- La; apply le_bytes_value).
      assert (R : 0 <= le_value a < 256 ^ fk_size k).
      { pose proof (le_value_range a) as R. unfold zlen in R. rewrite La, Z2Nat.id in R by lia. exact R. }
      assert (W4 : forall z, le_bytes 4 (wrapS 32 z) = le_bytes 4 z).
      { intros z. rewrite <- (le_bytes_mod 4 (wrapS 32 z) _ eq_refl), <- (le_bytes_mod 4 z _ eq_refl). f_equal.
        change (256 ^ Z.of_nat 4) with (2 ^ 32). unfold wrapS. destruct (_ <? _); [apply Z.mod_mod; lia|].
        replace (z mod 2 ^ 32 - 2 ^ 32) with (z mod 2 ^ 32 + (-1) * 2 ^ 32) by lia. rewrite Z.mod_add, Z.mod_mod by lia. reflexivity. }
      assert (W8 : forall z, le_bytes 8 (wrapS 64 z) = le_bytes 8 z).
      { intros z. rewrite <- (le_bytes_mod 8 (wrapS 64 z) _ eq_refl), <- (le_bytes_mod 8 z _ eq_refl). f_equal.
        change (256 ^ Z.of_nat 8) with (2 ^ 64). unfold wrapS. destruct (_ <? _); [apply Z.mod_mod; lia|].
        replace (z mod 2 ^ 64 - 2 ^ 64) with (z mod 2 ^ 64 + (-1) * 2 ^ 64) by lia. rewrite Z.mod_add, Z.mod_mod by lia. reflexivity. }
      exists (fk_decode k a). destruct k; cbn [fk_decode fk_size fk_range] in *; unfold fk_encode; cbn [fk_size];
        (split; [|try exact R; try (apply wrapS_bound; lia)]); try (symmetry; exact B).
      - unfold le_i32. change (Z.to_nat 4) with 4%nat in *. rewrite W4. symmetry. exact B.
      - unfold le_i64. change (Z.to_nat 8) with 8%nat in *. rewrite W8. symmetry. exact B. }
    destruct A as (z & Ez & Rz). exists (z :: l). split; [|constructor; assumption].
    cbn [flat_map]. rewrite <- Ez, <- H1. unfold a, b. symmetry. apply firstn_skipn.
Qed.
End Target.
End Post.

(** ** Generated code *)

Lemma number_from_inv {A} (l : list A) k i x : In (i, x) (number_from k l) -> exists j, i = (k + j)%nat /\ nth_error l j = Some x.
Proof.
  revert k; induction l as [|y l IH]; intros k H; [destruct H|]. cbn in H. destruct H as [H|H].
  - injection H as <- <-. exists 0%nat. split; [lia|reflexivity].
  - destruct (IH _ H) as (j & -> & N). exists (S j). split; [lia|exact N].
Qed.
Lemma slots_ok_Forall2 D c ts ss : slots_ok D c ts ss <-> Forall2 (slot_ok D c) ts ss.
Proof.
  revert ts; induction ss as [|s ss IH]; intros [|ty ts]; split; intros H; try (inversion H; fail); try (exact I); try (constructor; fail).
  - destruct H as [H1 H2]. constructor; [exact H1|apply IH, H2].
  - inversion H; subst. split; [assumption|apply IH; assumption].
Qed.
Lemma Forall2_set_nth {A B} (R : A -> B -> Prop) l l' i x y : Forall2 R l l' -> nth_error l i = Some x -> R x y -> Forall2 R l (set_nth i y l').
Proof.
  intros H. revert i. induction H as [|a b l l' Hab H IH]; intros [|i] N Hy; cbn in *; try discriminate; constructor; auto.
  injection N as ->. exact Hy.
Qed.
Lemma Forall2_nth_r {A B} (R : A -> B -> Prop) l l' i x : Forall2 R l l' -> nth_error l i = Some x -> exists y, nth_error l' i = Some y /\ R x y.
Proof.
  intros H. revert i. induction H as [|a b l l' Hab H IH]; intros [|i] N; cbn in *; try discriminate; eauto. injection N as ->. eauto.
Qed.

Definition enums_ok (D : file_descriptor) : Prop :=
  forall e en, get_enum D e = Some en -> en_fields en <> [] /\ Forall (is_s 32) (map snd (en_fields en)).
(** a repeated field that is a PackedFixed *)
Definition packed_fixed_field (f : field) : Prop :=
  freq_is_repeated (f_freq f) = true /\ f_is_packed f = true /\ is_fixed_size (f_typ f) = true.
Definition has_packed_fixed (D : file_descriptor) (c : config) : Prop :=
  exists m msg f, get_message D m = Some msg /\ In (SdField f) (descs c msg) /\ packed_fixed_field f.

Section GenType.
Variable D : file_descriptor.
Variable c : config.
Variable lit : field_type -> text -> option value.
Hypothesis WF : schema_wf D c lit.
Hypothesis EN : enums_ok D.
Hypothesis LIT : forall ty s v, lit ty s = Some v -> val_ok D c ty v.
Notation val_ok := (val_ok D c).
Notation slot_ok := (slot_ok D c).
Notation message_ok := (message_ok D c).

Lemma enum_value_ok e i : get_enum D e <> None -> val_ok (TEnum e) (VZ (enum_from_i32 D e i)).
Proof.
  intros H. unfold enum_from_i32, enum_default. cbn [GenSpec.val_ok]. destruct (get_enum D e) as [en|] eqn:G; [|congruence].
  destruct (EN e en G) as [N R].
  assert (X : forall z, In z (map snd (en_fields en)) -> is_s 32 z /\ In z (map snd (en_fields en))).
  { intros z Hz. split; [exact (proj1 (Forall_forall _ _) R z Hz)|exact Hz]. }
  apply X. destruct (find (fun '(_, z) => i =? z) (en_fields en)) as [[n z]|] eqn:F.
  - apply find_some in F. apply in_map_iff. exists (n, z). tauto.
  - destruct (en_fields en) as [|[n z] l]; [congruence|]. left. reflexivity.
Qed.
Lemma enum_default_ok e : get_enum D e <> None -> val_ok (TEnum e) (VZ (enum_default D e)).
Proof.
  intros H. unfold enum_default. cbn [GenSpec.val_ok]. destruct (get_enum D e) as [en|] eqn:G; [|congruence].
  destruct (EN e en G) as [N R]. destruct (en_fields en) as [|[n z] l]; [congruence|]. cbn in *. inversion R; subst. auto.
Qed.

(** *** Defaults *)
Lemma type_default_ok dm ty w : (forall m ss, dm m = Some ss -> message_ok m ss) -> typ_ok D ty ->
  type_default D dm ty = Some w -> val_ok ty w.
Proof.
  intros Hd Ht H. destruct ty; cbn [type_default typ_ok] in *; try discriminate H; try (exfalso; exact Ht);
    try (injection H as <-; cbn [GenSpec.val_ok]; unfold is_s, is_u; try lia; try reflexivity; try exact I; fail).
  - injection H as <-. exact (enum_default_ok e Ht).
  - injection H as <-. cbn [GenSpec.val_ok]. apply utf8_valid_is. reflexivity.
  - injection H as <-. cbn [GenSpec.val_ok]. apply utf8_valid_is. reflexivity.
  - destruct (dm m) as [ss|] eqn:E; [|discriminate H]. injection H as <-. rewrite val_ok_msg. apply Hd, E.
Qed.
Lemma plain_typ f ty : field_ok D c lit f -> get_type c f = TyPlain ty -> typ_ok D ty.
Proof.
  intros (O1 & O2 & _) H. unfold get_type, generated_type_of in H. destruct (f_boxed f); [discriminate|].
  destruct (freq_is_map (f_freq f)); [destruct (f_typ f); discriminate|]. destruct (freq_is_repeated (f_freq f)); [destruct (_ && _ && _); discriminate|].
  destruct (freq_is_optional (f_freq f)); [discriminate|]. injection H as <-. exact O2.
Qed.
Lemma init_ok dm b d s : (forall m ss, dm m = Some ss -> message_ok m ss) -> desc_ok D c lit d ->
  init_slot D lit dm (sd_init c b d) = Some s -> slot_ok (sd_type c d) s.
Proof.
  intros Hd Ok H.
  assert (DER : forall ty, (forall u, ty = TyPlain u -> typ_ok D u) -> derived_slot D dm ty = Some s -> slot_ok ty s).
  { clear H Ok. intros ty Ht H. destruct ty; cbn [derived_slot] in H; try discriminate H;
      try (injection H as <-; rewrite ?slot_ok_eq; try exact I; fail).
    - destruct (type_default D dm t) as [w|] eqn:E; [|discriminate H]. injection H as <-. rewrite ?slot_ok_eq.
      eapply type_default_ok; [exact Hd|apply Ht; reflexivity|exact E].
    - injection H as <-. rewrite ?slot_ok_eq. exists []. split; [reflexivity|constructor].
    - injection H as <-. cbn. split; [exact I|constructor]. }
  unfold sd_init in H. destruct b; [|apply DER; [|exact H]].
  - destruct d as [f|vs]; [|injection H as <-; exact I]. cbn [init_slot sd_type] in *.
    pose proof Ok as (O1 & O2 & O3 & O4). unfold get_field_default, get_type, generated_type_of in *.
    destruct (f_boxed f).
    { specialize (O1 eq_refl). destruct (f_freq f); try discriminate O1; cbn in H; injection H as <-; exact I. }
    destruct (freq_is_map (f_freq f)) eqn:M.
    { cbn in H. injection H as <-. destruct (f_typ f); try contradiction O2. split; [exact I|constructor]. }
    destruct (freq_is_repeated (f_freq f)).
    { destruct (f_is_packed f && is_fixed_size (f_typ f) && negb (c_dont_use_cow c)); cbn in H; injection H as <-.
      - exists []. split; [reflexivity|constructor].
      - exact I. }
    destruct (freq_is_optional (f_freq f)); [cbn in H; injection H as <-; exact I|].
    destruct (f_default f) as [x|].
    { cbn in H. destruct (lit (f_typ f) x) as [w|] eqn:L; [|discriminate H]. injection H as <-. apply (LIT _ _ _ L). }
    assert (X : option_map SlOne (type_default D dm (f_typ f)) = Some s) by (destruct (f_typ f); try discriminate H; exact H).
    destruct (type_default D dm (f_typ f)) as [w|] eqn:E; [|discriminate X]. injection X as <-. eapply type_default_ok; eassumption.
  - intros u E. destruct d as [f|vs]; [|discriminate E]. eapply plain_typ; [exact Ok|exact E].
Qed.
Lemma default_msg_ok n : forall m ss, default_msg D c lit n m = Some ss -> message_ok m ss.
Proof.
  induction n as [|n IH]; intros m ss H; [discriminate|]. cbn [default_msg] in H. unfold GenSpec.message_ok.
  destruct (get_message D m) as [msg|] eqn:G; [|discriminate H]. rewrite default_inits_descs, map_map in H.
  apply all_some_map in H. destruct (WF m msg G) as [W _ _]. rewrite struct_def_descs. clear -H W IH LIT EN.
  revert W; induction H as [|x y l l' H1 H2 IH2]; intros W; cbn [map slots_ok]; [exact I|]. inversion W; subst.
  split; [eapply init_ok; [exact IH|assumption|exact H1]|apply IH2; assumption].
Qed.
Lemma message_default_ok m ss : message_default D c lit m = Some ss -> message_ok m ss.
Proof. apply default_msg_ok. Qed.

(** *** Values *)
Variable t : target.
Variable pa : Prop.
Hypothesis PA : overflow_checks t = true -> pa.
Hypothesis PF : has_packed_fixed D c -> pa.

Lemma post_packed_fixed_k k : pa -> post pa (fun p => exists l, represents k p l) (read_packed_fixed_k t k).
Proof.
  intros HP. unfold read_packed_fixed_k. pose proof (fk_size_pos k) as FS.
  eapply (post_rmap pa (fun x => zlen x mod fk_size k = 0)); [|intros x Hx; apply (bytes_represent t), Hx].
  unfold read_packed_fixed. eapply post_bind; [apply post_varint32|]. intros len Hl.
  eapply (post_bind pa (fun _ => True)).
  { unfold rlen. eapply post_bind; [apply post_any_start|]. intros s _. eapply post_bind; [apply post_any_end|]. intros e _.
    apply post_usub, PA. }
  intros l _. destruct (l <? len); [apply post_fail|]. cbn zeta.
  eapply post_bind; [apply post_any_start|]. intros s _. eapply post_bind; [apply post_uadd, PA|]. intros e He.
  eapply (post_bind pa (fun x => zlen x = len / fk_size k * fk_size k)).
  { intros bs r. destruct (slice bs s e) as [x|] eqn:S; cbn [fst]; [|exact HP]. eapply slice_exact; [|exact He|exact S].
    destruct Hl as [Hl1 Hl2]. split; [apply Z.mul_nonneg_nonneg; [apply Z.div_pos; lia|lia]|].
    pose proof (Z.div_mod len (fk_size k) ltac:(lia)). pose proof (Z.mod_pos_bound len (fk_size k) ltac:(lia)). lia. }
  intros x Hx. eapply post_bind; [apply post_uadd, PA|]. intros s' _. eapply post_bind; [apply post_set_start|]. intros _ _.
  apply post_ret. rewrite Hx. apply Z.mod_mul. lia.
Qed.

Definition from_ok (from : midx -> rd (list slot)) : Prop :=
  forall m, get_message D m <> None -> post pa (message_ok m) (from m).

Lemma post_value from ty : from_ok from -> typ_ok D ty -> post pa (val_ok ty) (read_value D t from (read_fn ty)).
Proof.
  intros Hf Ht. destruct ty; cbn [read_fn read_value read_scalar typ_ok] in *; try (exfalso; exact Ht).
  - eapply post_rmap; [apply post_int32|]. auto.
  - eapply post_rmap; [apply post_int64|]. auto.
  - eapply post_rmap; [apply post_varint32|]. auto.
  - eapply post_rmap; [apply post_varint64|]. auto.
  - eapply post_rmap; [apply post_sint32|]. auto.
  - eapply post_rmap; [apply post_sint64|]. auto.
  - unfold read_bool. eapply (post_rmap pa (fun _ => True)); [|reflexivity]. eapply post_rmap; [apply post_varint32|]. auto.
  - unfold read_enum. eapply (post_rmap pa (fun z => val_ok (TEnum e) (VZ z))); [|auto].
    eapply post_rmap; [apply post_int32|]. intros i _. exact (enum_value_ok e i Ht).
  - eapply post_rmap; [apply post_fixed64, PA|]. auto.
  - eapply post_rmap; [apply post_sfixed64, PA|]. auto.
  - eapply post_rmap; [apply post_double, PA|]. auto.
  - eapply post_rmap; [apply post_string, PA|]. auto.
  - eapply post_rmap; [apply post_bytes, PA|]. intros; exact I.
  - eapply post_rmap; [apply post_string, PA|]. auto.
  - eapply post_rmap; [apply post_bytes, PA|]. intros; exact I.
  - eapply post_rmap; [apply post_len_varint; [exact PA|exact (Hf m Ht)]|]. intros ss H. rewrite val_ok_msg. exact H.
  - eapply post_rmap; [apply post_fixed32, PA|]. auto.
  - eapply post_rmap; [apply post_sfixed32, PA|]. auto.
  - eapply post_rmap; [apply post_float, PA|]. auto.
Qed.
Lemma key_typ ty : key_ok ty -> typ_ok D ty.
Proof. destruct ty; cbn; auto; contradiction. Qed.

Lemma key_plain ty k k' : key_ok ty -> val_ok ty k -> val_ok ty k' -> plain_eq k k' = true <-> k = k'.
Proof.
  intros Hk H H'. split; [apply plain_eq_true|]. intros <-. destruct k as [z|b|b|ss].
  - cbn. apply Z.eqb_refl.
  - cbn. apply Bool.eqb_reflx.
  - cbn. clear. induction b as [|x b IH]; [reflexivity|]. cbn. rewrite IH. destruct x; reflexivity.
  - destruct ty; cbn in *; contradiction.
Qed.
Lemma map_insert_ok tk tv k v l : key_ok tk -> val_ok tk k -> val_ok tv v -> slot_ok (TyMap tk tv) (SlMap l) ->
  slot_ok (TyMap tk tv) (SlMap (map_insert k v l)).
Proof.
  intros Hk Vk Vv. rewrite ?slot_ok_eq. intros [F N].
  assert (X : forall x, In x (map fst (map_insert k v l)) -> x = k \/ In x (map fst l)).
  { clear. induction l as [|[a b] l IH]; intros x H; cbn in *.
    - destruct H as [<-|[]]. auto.
    - destruct (plain_eq k a); cbn in *; destruct H as [<-|H]; auto. destruct (IH _ H); auto. }
  induction l as [|[a b] l IH].
  - cbn. split; [auto|]. constructor; [intros []|constructor].
  - cbn [fold_right] in F. destruct F as [[Fa Fb] F]. cbn [map fst] in N. inversion N as [|? ? N1 N2]; subst.
    cbn [map_insert] in *. destruct (plain_eq k a) eqn:E; cbn [fold_right map fst].
    + split; [auto|]. constructor; assumption.
    + assert (X' : forall x, In x (map fst (map_insert k v l)) -> x = k \/ In x (map fst l)).
      { clear. induction l as [|[a b] l IH]; intros x H; cbn in *.
        - destruct H as [<-|[]]. auto.
        - destruct (plain_eq k a); cbn in *; destruct H as [<-|H]; auto. destruct (IH _ H); auto. }
      destruct (IH F N2 X') as [G1 G2]. split; [auto|]. constructor; [|exact G2]. intros Hin.
      destruct (X' _ Hin) as [->|Hin']; [|contradiction].
      assert (plain_eq k k = true) by (apply (key_plain tk); auto). congruence.
Qed.

(** *** Fields *)
Lemma Forall_fold_right {A} (P : A -> Prop) l : Forall P l <-> fold_right (fun v acc => P v /\ acc) True l.
Proof. induction l as [|x l IH]; cbn; split; intros H; try constructor; try (inversion H; subst); try tauto; try (apply IH; tauto). Qed.

Lemma post_action n from msg m i d tag a s : get_message D m = Some msg -> nth_error (descs c msg) i = Some d ->
  In (tag, (i, a)) (desc_arms i d) -> from_ok from -> slot_ok (sd_type c d) s ->
  post pa (slot_ok (sd_type c d)) (run_action D c lit t n from a s).
Proof.
  intros G N Hin Hf Hs. destruct (WF m msg G) as [W _ _].
  assert (Hd : desc_ok D c lit d) by (exact (proj1 (Forall_forall _ _) W _ (nth_error_In _ _ N))).
  destruct d as [f|vs]; cbn [desc_arms] in Hin.
  2:{ apply in_map_iff in Hin. destruct Hin as ([j f] & E & Hin). injection E as <- <-. apply number_from_inv in Hin.
      destruct Hin as (j' & -> & Nj). cbn [Nat.add] in *. cbn [run_action sd_type]. eapply post_rmap.
      - apply post_value; [exact Hf|]. exact (proj1 (Forall_forall _ _) Hd _ (nth_error_In _ _ Nj)).
      - intros v Hv. rewrite ?slot_ok_eq. rewrite Nj. exact Hv. }
  destruct Hin as [E|[]]. injection E as <- <-. cbn [desc_ok sd_type] in *. pose proof Hd as (O1 & O2 & O3 & O4).
  assert (PFF : packed_fixed_field f -> pa).
  { intros H. apply PF. exists m, msg, f. split; [exact G|]. split; [eapply nth_error_In, N|exact H]. }
  unfold field_arm, get_type in *. unfold generated_type_of in *.
  destruct (f_boxed f).
  { specialize (O1 eq_refl). destruct (f_freq f); try discriminate O1; cbn [run_action freq_is_map] in *;
      (eapply post_rmap; [apply post_value; [exact Hf|exact O2]|auto]). }
  destruct (freq_is_map (f_freq f)) eqn:M.
  { destruct (f_typ f) as [| | | | | | | | | | | | | | | | | | | |tk tv]; try contradiction O2. destruct O2 as [Hk Hv].
    cbn [run_action]. destruct s; try contradiction Hs.
    destruct (type_default_some D c lit WF tk (key_typ _ Hk)) as [kd Ek]. destruct (type_default_some D c lit WF tv Hv) as [vd Ev].
    rewrite Ek, Ev. eapply post_rmap.
    - apply (post_map pa t PA (val_ok tk) (val_ok tv)); try (apply post_value; [exact Hf|auto using key_typ]).
      + eapply type_default_ok; [exact message_default_ok|apply key_typ, Hk|exact Ek].
      + eapply type_default_ok; [exact message_default_ok|exact Hv|exact Ev].
    - intros [k v] [H1 H2]. apply map_insert_ok; assumption. }
  destruct (freq_is_repeated (f_freq f)) eqn:R.
  { destruct (f_is_packed f) eqn:P; cbn [andb] in *.
    - destruct (is_fixed_size (f_typ f)) eqn:FX; cbn [andb] in *.
      + rewrite (O3 eq_refl) in *. cbn [negb] in *. cbn [run_action].
        eapply post_rmap; [apply post_packed_fixed_k, PFF; split; auto|]. intros p Hp. exact Hp.
      + cbn [run_action]. eapply post_rmap; [apply (post_packed pa t PA (val_ok (f_typ f))), post_value; [exact Hf|exact O2]|].
        intros l Hl. rewrite ?slot_ok_eq. apply Forall_fold_right, Hl.
    - cbn [run_action]. destruct s; try contradiction Hs. eapply post_rmap; [apply post_value; [exact Hf|exact O2]|].
      intros v Hv. rewrite !slot_ok_eq in *. apply Forall_fold_right. apply Forall_fold_right in Hs. apply Forall_app. auto. }
  destruct (f_freq f); try discriminate M; try discriminate R; cbn [freq_is_optional run_action] in *;
    (eapply post_rmap; [apply post_value; [exact Hf|exact O2]|auto]).
Qed.

Lemma post_run_field n from msg m tag ss : get_message D m = Some msg -> from_ok from -> message_ok m ss ->
  post pa (message_ok m) (run_field D c lit t n from (match_arms c msg) tag ss).
Proof.
  intros G Hf Hs. unfold run_field. destruct (find (fun '(n0, _) => n0 =? tag) (match_arms c msg)) as [[tg [i a]]|] eqn:F.
  - apply find_some in F. destruct F as [Hin _]. rewrite match_arms_descs in Hin. apply in_flat_map in Hin. destruct Hin as ([i' d] & Hn & Hin).
    apply number_from_inv in Hn. destruct Hn as (j & -> & Nj). cbn [Nat.add] in *.
    assert (i = j).
    { destruct d; cbn [desc_arms] in Hin; [destruct Hin as [E|[]]; congruence|]. apply in_map_iff in Hin. destruct Hin as ([? ?] & E & _). congruence. }
    subst i. unfold GenSpec.message_ok in *. rewrite G in *. rewrite struct_def_descs in *. apply slots_ok_Forall2 in Hs.
    destruct (Forall2_nth_r _ _ _ j (sd_type c d) Hs) as (s & Ns & Hsl); [rewrite nth_error_map, Nj; reflexivity|].
    rewrite Ns. eapply post_rmap; [eapply post_action; eassumption|]. intros s' Hs'. apply slots_ok_Forall2.
    eapply Forall2_set_nth; [exact Hs|rewrite nth_error_map, Nj; reflexivity|exact Hs'].
  - eapply post_bind; [apply post_unknown, PA|]. intros _ _. apply post_ret, Hs.
Qed.

Theorem post_from_reader n : from_ok (from_reader D c lit t n).
Proof.
  induction n as [|n IH]; intros m Hm; [apply post_nofuel|]. cbn [from_reader].
  destruct (get_message D m) as [msg|] eqn:G; [|congruence]. destruct (WF m msg G) as [_ _ W].
  destruct (message_default D c lit m) as [df|] eqn:DF; [|congruence].
  assert (Hdf : message_ok m df) by (apply message_default_ok, DF).
  destruct (is_unit msg).
  - eapply (post_bind pa (fun _ => True)); [|intros _ _; apply post_ret, Hdf]. unfold read_to_end.
    eapply post_bind; [apply post_any_end|]. intros e _. apply post_set_start.
  - clear DF W. assert (X : forall k d0, message_ok m d0 -> post pa (message_ok m) (msg_loop k (run_field D c lit t n (from_reader D c lit t n) (match_arms c msg)) d0)).
    { induction k as [|k IHk]; intros d0 Hd0; [apply post_nofuel|]. cbn [msg_loop].
      eapply post_bind; [apply post_is_eof|]. intros [] _; [apply post_ret, Hd0|].
      eapply post_bind; [apply post_varint32|]. intros tag _. eapply post_bind; [apply post_run_field; eassumption|]. intros ss Hss. apply IHk, Hss. }
    apply X, Hdf.
Qed.
End GenType.
