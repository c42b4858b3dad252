(** Writer programs and the bytes they emit. *)
From Coq Require Import ZifyBool ZifyNat ZifyN.
From Verif Require Import Base BaseFacts Reader PackedFixed Writer Sizeofs Spec VarintFacts.
Ltac Zify.zify_post_hook ::= Z.div_mod_to_equations.

Lemma run_app {S} (step : wop -> S -> outcome unit * S) p q s :
  run step (p ++ q) s =
  match run step p s with (Ok _, s') => run step q s' | r => r end.
Proof.
  revert s; induction p as [|o p IH]; intros s; [reflexivity|].
  destruct o; simpl; try (destruct (step _ s) as [[]]; auto); reflexivity.
Qed.

Lemma emits_nil : emits [] [].
Proof. intros out. simpl. rewrite app_nil_r. reflexivity. Qed.

Lemma emits_app p q a b : emits p a -> emits q b -> emits (p ++ q) (a ++ b).
Proof. intros H1 H2 out. rewrite run_app, H1, H2, app_assoc. reflexivity. Qed.

Lemma emits_det p a b : emits p a -> emits p b -> a = b.
Proof. intros H1 H2. specialize (H1 []); specialize (H2 []). rewrite H1 in H2. injection H2. auto. Qed.

Lemma emits_op o : o <> OpPanic -> o <> OpUB -> emits [o] (op_bytes o).
Proof. intros H1 H2 out. destruct o; try congruence; reflexivity. Qed.

Lemma emits_cons o p enc : o <> OpPanic -> o <> OpUB -> emits p enc ->
  emits (o :: p) (op_bytes o ++ enc).
Proof. intros. apply (emits_app [o] p); auto using emits_op. Qed.

Lemma emits_flat_map {M} (w : M -> wprog) (f : M -> bytes) l :
  (forall m, In m l -> emits (w m) (f m)) -> emits (flat_map w l) (flat_map f l).
Proof.
  induction l as [|m l IH]; intros H; simpl; [apply emits_nil|].
  apply emits_app; [apply H; left; reflexivity|apply IH; intros; apply H; right; assumption].
Qed.

(** ** Varints *)

(** the canonical encoding *)
Fixpoint enc_varint_n (n : nat) (v : Z) : bytes :=
  match n with
  | O => [zb v]
  | S n' => if 128 <=? v then zb (v mod 128 + 128) :: enc_varint_n n' (v / 128) else [zb v]
  end.
Definition enc_varint (v : Z) : bytes := enc_varint_n 10 v.

Lemma lor_80 x : 0 <= x < 128 -> Z.lor x 0x80 = x + 128.
Proof. intros H. change 0x80 with (Z.shiftl 1 7) at 1. rewrite lor_add by lia. lia. Qed.

Lemma write_varint_loop_emits n v :
  0 <= v < 128 ^ (Z.of_nat n + 1) ->
  emits (write_varint_loop n v) (enc_varint_n n v).
Proof.
  revert v; induction n as [|n IH]; intros v Hv; cbn [write_varint_loop enc_varint_n].
  - change (128 ^ (Z.of_nat 0 + 1)) with 128 in Hv.
    destruct (Z.ltb_spec 0x7F v); [lia|].
    intros out. simpl. unfold wrapU. change (2^8) with 256. rewrite Z.mod_small by lia. reflexivity.
  - destruct (Z.ltb_spec 0x7F v); destruct (Z.leb_spec 128 v); try lia.
    + rewrite Z.shiftr_div_pow2 by lia. change (2^7) with 128.
      rewrite land_7f. unfold wrapU. change (2^8) with 256.
      rewrite lor_80 by lia.
      replace (v mod 256 mod 128) with (v mod 128) by lia.
      apply (emits_cons (OpU8 (v mod 128 + 128))); [discriminate|discriminate|].
      apply IH. rewrite Nat2Z.inj_succ, Z.add_succ_l, Z.pow_succ_r in Hv by lia. lia.
    + intros out. simpl. unfold wrapU. change (2^8) with 256. rewrite Z.mod_small by lia. reflexivity.
Qed.

Lemma write_varint_emits v : 0 <= v < 2 ^ 64 -> emits (write_varint v) (enc_varint v).
Proof.
  intros H. apply write_varint_loop_emits.
  change (128 ^ (Z.of_nat 10 + 1)) with (2 ^ 77). lia.
Qed.

Lemma enc_varint_n_spec n v :
  0 <= v < 128 ^ (Z.of_nat n + 1) ->
  is_varint (enc_varint_n n v) /\ varint_value (enc_varint_n n v) = v /\
  (v < 128 /\ zlen (enc_varint_n n v) = 1 \/
   128 <= v /\ 128 ^ (zlen (enc_varint_n n v) - 1) <= v < 128 ^ (zlen (enc_varint_n n v))
     /\ 2 <= zlen (enc_varint_n n v)).
Proof.
  revert v; induction n as [|n IH]; intros v Hv; cbn [enc_varint_n].
  - change (128 ^ (Z.of_nat 0 + 1)) with 128 in Hv.
    repeat split.
    + constructor. rewrite bz_zb. lia.
    + cbn [varint_value]. rewrite bz_zb. lia.
    + left. split; [lia|reflexivity].
  - destruct (Z.leb_spec 128 v).
    + rewrite Nat2Z.inj_succ, Z.add_succ_l, Z.pow_succ_r in Hv by lia.
      destruct (IH (v / 128)) as (I1 & I2 & I3); [lia|].
      repeat split.
      * constructor; [rewrite bz_zb; lia|assumption].
      * cbn [varint_value]. rewrite bz_zb, I2. lia.
      * right. rewrite zlen_cons.
        destruct I3 as [(Hlt & ->)|(Hge & Hr & H2)].
        -- change (128 ^ (1 + 1 - 1)) with 128. change (128 ^ (1 + 1)) with 16384. lia.
        -- set (L := zlen (enc_varint_n n (v / 128))) in *.
           replace (1 + L - 1) with (Z.succ (L - 1)) by lia.
           replace (1 + L) with (Z.succ L) by lia.
           rewrite !Z.pow_succ_r by lia. lia.
    + repeat split.
      * constructor. rewrite bz_zb. lia.
      * cbn [varint_value]. rewrite bz_zb. lia.
      * left. split; [lia|reflexivity].
Qed.

Lemma enc_varint_ok v : 0 <= v < 2 ^ 64 -> is_varint (enc_varint v) /\ varint_value (enc_varint v) = v.
Proof.
  intros H. destruct (enc_varint_n_spec 10 v) as (A & B & _); [|auto].
  change (128 ^ (Z.of_nat 10 + 1)) with (2 ^ 77). lia.
Qed.

Lemma enc_varint_len v : 0 <= v < 2 ^ 64 -> zlen (enc_varint v) = sizeof_varint v.
Proof.
  intros H. destruct (enc_varint_n_spec 10 v) as (_ & _ & C);
    [change (128 ^ (Z.of_nat 10 + 1)) with (2 ^ 77); lia|].
  fold (enc_varint v) in C. set (L := zlen (enc_varint v)) in *.
  unfold sizeof_varint.
  destruct C as [(C & ->)|(C0 & C & C2)].
  - destruct (Z.leb_spec v 0x7F); lia.
  - assert (L <= 10).
    { destruct (Z.leb_spec L 10); [assumption|].
      assert (128 ^ 10 <= 128 ^ (L - 1)) by (apply Z.pow_le_mono_r; lia).
      change (128 ^ 10) with (2 ^ 70) in *. lia. }
    assert (L = 2 \/ L = 3 \/ L = 4 \/ L = 5 \/ L = 6 \/ L = 7 \/ L = 8 \/ L = 9 \/ L = 10) as HL by lia.
    repeat (destruct HL as [HL|HL]); rewrite HL in *; cbn in C;
      repeat match goal with |- context [?a <=? ?b] => destruct (Z.leb_spec a b); try lia end.
Qed.

Lemma sizeof_varint_range v : 1 <= sizeof_varint v <= 10.
Proof.
  unfold sizeof_varint.
  repeat match goal with |- context [?a <=? ?b] => destruct (Z.leb_spec a b); try lia end.
Qed.

Lemma enc_varint_len10 v : 0 <= v < 2 ^ 64 -> (length (enc_varint v) <= 10)%nat.
Proof.
  intros H. pose proof (enc_varint_len v H). pose proof (sizeof_varint_range v).
  unfold zlen in *. lia.
Qed.

Lemma enc_varint_nonempty v : 0 <= v < 2 ^ 64 -> 1 <= zlen (enc_varint v).
Proof. intros H. rewrite enc_varint_len by assumption. apply sizeof_varint_range. Qed.

(** value bound of an encoding *)
Lemma varint_value_lt l : varint_value l < 128 ^ zlen l.
Proof.
  induction l as [|b l IH]; [reflexivity|]. cbn [varint_value]. rewrite zlen_cons.
  pose proof (zlen_nonneg l). rewrite Z.pow_add_r by lia. change (128 ^ 1) with 128. lia.
Qed.

Lemma sizeof_minimal l v : 0 <= v < 2 ^ 64 -> is_varint l -> varint_value l = v ->
  sizeof_varint v <= zlen l.
Proof.
  intros H Hl Hv. pose proof (varint_value_lt l) as Hb. rewrite Hv in Hb.
  assert (1 <= zlen l).
  { destruct l as [|b l]; [inversion Hl|]. rewrite zlen_cons. pose proof (zlen_nonneg l). lia. }
  rewrite <- enc_varint_len by assumption.
  destruct (enc_varint_n_spec 10 v) as (_ & _ & C);
    [change (128 ^ (Z.of_nat 10 + 1)) with (2 ^ 77); lia|].
  fold (enc_varint v) in C. set (L := zlen (enc_varint v)) in *.
  destruct C as [(C & ->)|(C0 & C & C2)]; [assumption|].
  destruct (Z.leb_spec L (zlen l)); [assumption|].
  assert (128 ^ zlen l <= 128 ^ (L - 1)) by (apply Z.pow_le_mono_r; lia). lia.
Qed.

(** reading back *)
Lemma reads_varint64 v : 0 <= v < 2 ^ 64 -> reads_any read_varint64 (enc_varint v) v.
Proof.
  intros H pre post e. destruct (enc_varint_ok v H) as [A B].
  erewrite read_varint64_ok; [|apply here_intro|assumption|apply enc_varint_len10; assumption].
  rewrite B, Z.mod_small by assumption. reflexivity.
Qed.

Lemma reads_varint32 v : 0 <= v < 2 ^ 64 -> reads_any read_varint32 (enc_varint v) (v mod 2 ^ 32).
Proof.
  intros H pre post e. destruct (enc_varint_ok v H) as [A B].
  erewrite read_varint32_ok; [|apply here_intro|assumption|apply enc_varint_len10; assumption].
  rewrite B. reflexivity.
Qed.

Lemma reads_any_reads {A} t (m : rd A) enc v : reads_any m enc v -> reads t m enc v.
Proof. intros H pre post e _ _. apply H. Qed.

Lemma reads_any_map {A B} (f : A -> B) m enc v :
  reads_any m enc v -> reads_any (rmap f m) enc (f v).
Proof. intros H pre post e. unfold rmap. erewrite bind_ok by apply H. reflexivity. Qed.
