(** The validator accepts exactly the UTF-8 encodings of scalar values. *)
From Coq Require Import ZifyBool ZifyNat ZifyN.
From Verif Require Import Base BaseFacts Utf8 Reader Writer Spec.

Ltac ranges :=
  unfold is_cont, in_range, is_scalar_value in *;
  repeat match goal with
  | b : byte |- _ =>
    lazymatch goal with
    | _ : 0 <= bz b < 256 |- _ => fail
    | _ => pose proof (bz_range b)
    end
  end.

Lemma cons_split {A} (a b : A) l m : a :: l = b :: m -> a = b /\ l = m.
Proof. intros H. injection H. auto. Qed.

Lemma utf8_char_valid c l : is_scalar_value c ->
  forall l0, map bz l0 = utf8_encode_char c ++ map bz l -> utf8_valid l0 = utf8_valid l.
Proof.
  intros Hc l0 H.
  assert (inj : forall x y : bytes, map bz x = map bz y -> x = y).
  { induction x as [|a x IH]; destruct y as [|b y]; simpl; intros E; try discriminate; auto.
    injection E as E1 E2. f_equal; [apply bz_inj; assumption|auto]. }
  unfold utf8_encode_char in H.
  destruct (Z.ltb_spec c 0x80) as [L1|L1]; [|destruct (Z.ltb_spec c 0x800) as [L2|L2];
    [|destruct (Z.ltb_spec c 0x10000) as [L3|L3]]].
  - destruct l0 as [|b0 l0]; cbn [app map] in H; [discriminate|]. apply cons_split in H; destruct H as [H0 H].
    apply inj in H. subst l0. cbn [utf8_valid]. unfold is_scalar_value in *.
    destruct (Z.ltb_spec (bz b0) 0x80); [reflexivity|lia].
  - destruct l0 as [|b0 [|b1 l0]]; cbn [app map] in H; try discriminate. apply cons_split in H; destruct H as [H0 H]. apply cons_split in H; destruct H as [H1 H].
    apply inj in H. subst l0. cbn [utf8_valid]. ranges.
    pose proof (Z.div_mod c 64 ltac:(lia)). pose proof (Z.mod_pos_bound c 64 ltac:(lia)).
    destruct (Z.ltb_spec (bz b0) 0x80); [lia|].
    replace ((0xC2 <=? bz b0) && (bz b0 <=? 0xDF)) with true by lia.
    replace ((0x80 <=? bz b1) && (bz b1 <=? 0xBF)) with true by lia. reflexivity.
  - destruct l0 as [|b0 [|b1 [|b2 l0]]]; cbn [app map] in H; try discriminate. apply cons_split in H; destruct H as [H0 H]. apply cons_split in H; destruct H as [H1 H]. apply cons_split in H; destruct H as [H2 H].
    apply inj in H. subst l0. cbn [utf8_valid]. ranges.
    pose proof (Z.div_mod c 64 ltac:(lia)). pose proof (Z.mod_pos_bound c 64 ltac:(lia)).
    pose proof (Z.div_mod (c / 64) 64 ltac:(lia)). pose proof (Z.mod_pos_bound (c / 64) 64 ltac:(lia)).
    replace (c / 4096) with (c / 64 / 64) in H0 by (rewrite Z.div_div by lia; reflexivity).
    destruct (Z.ltb_spec (bz b0) 0x80); [lia|].
    replace ((0xC2 <=? bz b0) && (bz b0 <=? 0xDF)) with false by lia.
    replace ((0xE0 <=? bz b0) && (bz b0 <=? 0xEF)) with true by lia.
    replace ((0x80 <=? bz b2) && (bz b2 <=? 0xBF)) with true by lia.
    destruct (Z.eqb_spec (bz b0) 0xE0).
    { replace ((0xA0 <=? bz b1) && (bz b1 <=? 0xBF)) with true by lia. reflexivity. }
    destruct (Z.eqb_spec (bz b0) 0xED).
    { replace ((0x80 <=? bz b1) && (bz b1 <=? 0x9F)) with true by lia. reflexivity. }
    replace ((0x80 <=? bz b1) && (bz b1 <=? 0xBF)) with true by lia. reflexivity.
  - destruct l0 as [|b0 [|b1 [|b2 [|b3 l0]]]]; cbn [app map] in H; try discriminate. apply cons_split in H; destruct H as [H0 H]. apply cons_split in H; destruct H as [H1 H]. apply cons_split in H; destruct H as [H2 H]. apply cons_split in H; destruct H as [H3 H].
    apply inj in H. subst l0. cbn [utf8_valid]. ranges.
    pose proof (Z.div_mod c 64 ltac:(lia)). pose proof (Z.mod_pos_bound c 64 ltac:(lia)).
    pose proof (Z.div_mod (c / 64) 64 ltac:(lia)). pose proof (Z.mod_pos_bound (c / 64) 64 ltac:(lia)).
    pose proof (Z.div_mod (c / 64 / 64) 64 ltac:(lia)). pose proof (Z.mod_pos_bound (c / 64 / 64) 64 ltac:(lia)).
    replace (c / 4096) with (c / 64 / 64) in H1 by (rewrite Z.div_div by lia; reflexivity).
    replace (c / 262144) with (c / 64 / 64 / 64) in H0 by (rewrite !Z.div_div by lia; reflexivity).
    destruct (Z.ltb_spec (bz b0) 0x80); [lia|].
    replace ((0xC2 <=? bz b0) && (bz b0 <=? 0xDF)) with false by lia.
    replace ((0xE0 <=? bz b0) && (bz b0 <=? 0xEF)) with false by lia.
    replace ((0xF0 <=? bz b0) && (bz b0 <=? 0xF4)) with true by lia.
    replace ((0x80 <=? bz b2) && (bz b2 <=? 0xBF)) with true by lia.
    replace ((0x80 <=? bz b3) && (bz b3 <=? 0xBF)) with true by lia.
    destruct (Z.eqb_spec (bz b0) 0xF0).
    { replace ((0x90 <=? bz b1) && (bz b1 <=? 0xBF)) with true by lia. reflexivity. }
    destruct (Z.eqb_spec (bz b0) 0xF4).
    { replace ((0x80 <=? bz b1) && (bz b1 <=? 0x8F)) with true by lia. reflexivity. }
    replace ((0x80 <=? bz b1) && (bz b1 <=? 0xBF)) with true by lia. reflexivity.
Qed.

Lemma is_utf8_valid l : is_utf8 l -> utf8_valid l = true.
Proof.
  intros (cs & Hc & H). revert l H; induction cs as [|c cs IH]; intros l H.
  - destruct l; [reflexivity|discriminate].
  - inversion Hc as [|? ? Hc1 Hc2]; subst. simpl in H.
    assert (exists l', map bz l' = flat_map utf8_encode_char cs) as (l' & E').
    { exists (skipn (length (utf8_encode_char c)) l). rewrite <- skipn_map, H, skipn_app, skipn_all, Nat.sub_diag. reflexivity. }
    rewrite <- E' in H. rewrite (utf8_char_valid c l' Hc1 l H). apply IH; assumption.
Qed.

Lemma cons_utf8 c l l0 : is_scalar_value c -> is_utf8 l ->
  map bz l0 = utf8_encode_char c ++ map bz l -> is_utf8 l0.
Proof.
  intros Hc (cs & H1 & H2) E. exists (c :: cs). split; [constructor; assumption|].
  simpl. rewrite <- H2. exact E.
Qed.

Lemma utf8_valid_is l : utf8_valid l = true -> is_utf8 l.
Proof.
  remember (length l) as n eqn:Hn. assert (Hle : (length l <= n)%nat) by lia. clear Hn.
  revert l Hle; induction n as [|n IH]; intros l Hle H.
  { destruct l; [|simpl in Hle; lia]. exists []. split; [constructor|reflexivity]. }
  destruct l as [|b0 l1]; [exists []; split; [constructor|reflexivity]|].
  cbn [utf8_valid] in H. simpl in Hle.
  destruct (Z.ltb_spec (bz b0) 0x80).
  { apply (cons_utf8 (bz b0) l1); [ranges; lia|apply IH; [lia|assumption]|].
    unfold utf8_encode_char. destruct (Z.ltb_spec (bz b0) 0x80); [reflexivity|lia]. }
  destruct (in_range b0 0xC2 0xDF) eqn:R2.
  { destruct l1 as [|b1 l2]; [discriminate|]. apply andb_prop in H. destruct H as [C1 H].
    simpl in Hle. ranges.
    apply (cons_utf8 ((bz b0 - 0xC0) * 64 + (bz b1 - 0x80)) l2);
      [ranges; lia|apply IH; [lia|assumption]|].
    assert (E1 : ((bz b0 - 0xC0) * 64 + (bz b1 - 0x80)) / 64 = bz b0 - 0xC0)
      by (symmetry; apply (Z.div_unique _ 64 _ (bz b1 - 0x80)); lia).
    assert (E2 : ((bz b0 - 0xC0) * 64 + (bz b1 - 0x80)) mod 64 = bz b1 - 0x80)
      by (symmetry; apply (Z.mod_unique _ 64 (bz b0 - 0xC0)); lia).
    unfold utf8_encode_char. rewrite E1, E2.
    destruct (Z.ltb_spec ((bz b0 - 0xC0) * 64 + (bz b1 - 0x80)) 0x80); [lia|].
    destruct (Z.ltb_spec ((bz b0 - 0xC0) * 64 + (bz b1 - 0x80)) 0x800); [|lia].
    cbn [map app]. f_equal; [lia|]. f_equal. lia. }
  destruct (in_range b0 0xE0 0xEF) eqn:R3.
  { destruct l1 as [|b1 [|b2 l3]]; try discriminate. apply andb_prop in H. destruct H as [H H3].
    apply andb_prop in H. destruct H as [C1 C2]. simpl in Hle. ranges.
    set (q := (bz b0 - 0xE0) * 64 + (bz b1 - 0x80)).
    assert (Q : 0x20 <= q < 0x400 /\ (q < 0x360 \/ 0x380 <= q)).
    { unfold q. destruct (Z.eqb_spec (bz b0) 0xE0), (Z.eqb_spec (bz b0) 0xED); lia. }
    assert (B1 : 0x80 <= bz b1 <= 0xBF).
    { destruct (Z.eqb_spec (bz b0) 0xE0), (Z.eqb_spec (bz b0) 0xED); lia. }
    assert (E0 : q / 64 = bz b0 - 0xE0) by (symmetry; apply (Z.div_unique _ 64 _ (bz b1 - 0x80)); unfold q; lia).
    assert (E1 : q mod 64 = bz b1 - 0x80) by (symmetry; apply (Z.mod_unique _ 64 (bz b0 - 0xE0)); unfold q; lia).
    assert (E2 : (q * 64 + (bz b2 - 0x80)) / 64 = q) by (symmetry; apply (Z.div_unique _ 64 _ (bz b2 - 0x80)); lia).
    assert (E3 : (q * 64 + (bz b2 - 0x80)) mod 64 = bz b2 - 0x80) by (symmetry; apply (Z.mod_unique _ 64 q); lia).
    assert (E4 : (q * 64 + (bz b2 - 0x80)) / 4096 = bz b0 - 0xE0)
      by (change 4096 with (64 * 64); rewrite <- Z.div_div, E2 by lia; exact E0).
    clearbody q.
    apply (cons_utf8 (q * 64 + (bz b2 - 0x80)) l3);
      [ranges; lia|apply IH; [lia|assumption]|].
    unfold utf8_encode_char. rewrite E4, E2, E1, E3.
    destruct (Z.ltb_spec (q * 64 + (bz b2 - 0x80)) 0x80); [lia|].
    destruct (Z.ltb_spec (q * 64 + (bz b2 - 0x80)) 0x800); [lia|].
    destruct (Z.ltb_spec (q * 64 + (bz b2 - 0x80)) 0x10000); [|lia].
    cbn [map app]. f_equal; [lia|]. f_equal; [lia|]. f_equal. lia. }
  destruct (in_range b0 0xF0 0xF4) eqn:R4; [|discriminate].
  destruct l1 as [|b1 [|b2 [|b3 l4]]]; try discriminate. apply andb_prop in H. destruct H as [H H4].
  apply andb_prop in H. destruct H as [H C3]. apply andb_prop in H. destruct H as [C1 C2]. simpl in Hle. ranges.
  set (q := (bz b0 - 0xF0) * 64 + (bz b1 - 0x80)).
  assert (Q : 0x10 <= q < 0x110).
  { unfold q. destruct (Z.eqb_spec (bz b0) 0xF0), (Z.eqb_spec (bz b0) 0xF4); lia. }
  assert (B1 : 0x80 <= bz b1 <= 0xBF).
  { destruct (Z.eqb_spec (bz b0) 0xF0), (Z.eqb_spec (bz b0) 0xF4); lia. }
  assert (E0 : q / 64 = bz b0 - 0xF0) by (symmetry; apply (Z.div_unique _ 64 _ (bz b1 - 0x80)); unfold q; lia).
  assert (E1 : q mod 64 = bz b1 - 0x80) by (symmetry; apply (Z.mod_unique _ 64 (bz b0 - 0xF0)); unfold q; lia).
  clearbody q.
  set (q2 := q * 64 + (bz b2 - 0x80)).
  assert (E2 : q2 / 64 = q) by (symmetry; apply (Z.div_unique _ 64 _ (bz b2 - 0x80)); unfold q2; lia).
  assert (E3 : q2 mod 64 = bz b2 - 0x80) by (symmetry; apply (Z.mod_unique _ 64 q); unfold q2; lia).
  assert (Q2 : 0x400 <= q2 < 0x4400) by (unfold q2; lia). clearbody q2.
  set (c := q2 * 64 + (bz b3 - 0x80)).
  assert (E4 : c / 64 = q2) by (symmetry; apply (Z.div_unique _ 64 _ (bz b3 - 0x80)); unfold c; lia).
  assert (E5 : c mod 64 = bz b3 - 0x80) by (symmetry; apply (Z.mod_unique _ 64 q2); unfold c; lia).
  assert (Q3 : 0x10000 <= c < 0x110000) by (unfold c; lia). clearbody c.
  assert (E6 : c / 4096 = q) by (change 4096 with (64 * 64); rewrite <- Z.div_div, E4 by lia; exact E2).
  assert (E7 : c / 262144 = bz b0 - 0xF0) by (change 262144 with (4096 * 64); rewrite <- Z.div_div, E6 by lia; exact E0).
  apply (cons_utf8 c l4); [ranges; lia|apply IH; [lia|assumption]|].
  unfold utf8_encode_char. rewrite E7, E6, E1, E4, E3, E5.
  destruct (Z.ltb_spec c 0x80); [lia|].
  destruct (Z.ltb_spec c 0x800); [lia|].
  destruct (Z.ltb_spec c 0x10000); [lia|].
  cbn [map app]. f_equal; [lia|]. f_equal; [lia|]. f_equal; [lia|]. f_equal; lia.
Qed.

Lemma utf8_valid_iff l : utf8_valid l = true <-> is_utf8 l.
Proof. split; [apply utf8_valid_is|apply is_utf8_valid]. Qed.
