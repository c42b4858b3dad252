(** Comparison of builds with and without overflow checks. *)
From Verif Require Import Base BaseFacts Reader PackedFixed.

Definition checked (w : width) : target := {| usize_width := w; overflow_checks := true |}.
Definition unchecked (w : width) : target := {| usize_width := w; overflow_checks := false |}.

(** unless [m1] panics, [m2] has the same result and leaves the same reader *)
Definition agrees {A} (m1 m2 : rd A) : Prop :=
  forall bs r, fst (m1 bs r) <> Panic -> m2 bs r = m1 bs r.

Lemma agrees_refl {A} (m : rd A) : agrees m m.
Proof. intros bs r _. reflexivity. Qed.

Lemma agrees_bind {A B} (m1 m2 : rd A) (f1 f2 : A -> rd B) :
  agrees m1 m2 -> (forall a, agrees (f1 a) (f2 a)) -> agrees (bind m1 f1) (bind m2 f2).
Proof.
  intros Hm Hf bs r H. unfold bind in *.
  destruct (m1 bs r) as [o r1] eqn:E1.
  assert (N : fst (m1 bs r) <> Panic) by (rewrite E1; destruct o; simpl in *; congruence).
  rewrite (Hm bs r N), E1. destruct o; try reflexivity. apply Hf. exact H.
Qed.

Lemma agrees_lift {A} (o1 o2 : outcome A) : (o1 <> Panic -> o2 = o1) -> agrees (lift o1) (lift o2).
Proof. intros H bs r N. unfold lift in *. rewrite H; [reflexivity|]. destruct o1; simpl in N; congruence. Qed.

Lemma uadd_agrees w a b : uadd (checked w) a b <> Panic -> uadd (unchecked w) a b = uadd (checked w) a b.
Proof. unfold uadd. simpl. replace (usize_mod (unchecked w)) with (usize_mod (checked w)) by reflexivity. destruct (a + b <? usize_mod (checked w)); congruence. Qed.
Lemma usub_agrees w a b : usub (checked w) a b <> Panic -> usub (unchecked w) a b = usub (checked w) a b.
Proof. unfold usub. simpl. destruct (b <=? a); congruence. Qed.

Ltac agr :=
  repeat first
    [ apply agrees_refl
    | apply agrees_bind; [|intros ?]
    | apply agrees_lift; first [apply uadd_agrees|apply usub_agrees]
    | match goal with
      | |- agrees (if ?b then _ else _) (if ?b then _ else _) => destruct b
      end
    | assumption ].

Section Sim.
Variable w : width.
Let c := checked w.
Let u := unchecked w.

Lemma agrees_rmap {A B} (f : A -> B) m1 m2 : agrees m1 m2 -> agrees (rmap f m1) (rmap f m2).
Proof. intros. unfold rmap. agr. Qed.
Lemma agrees_fixed {M} n (f : bytes -> M) : agrees (read_fixed c n f) (read_fixed u n f).
Proof. unfold read_fixed. agr. Qed.
Lemma agrees_len {M} (m1 m2 : rd M) n : agrees m1 m2 -> agrees (read_len c m1 n) (read_len u m2 n).
Proof. intros. unfold read_len. agr. Qed.
Lemma agrees_len_varint {M} (m1 m2 : rd M) : agrees m1 m2 -> agrees (read_len_varint c m1) (read_len_varint u m2).
Proof. intros. unfold read_len_varint. apply agrees_bind; [apply agrees_refl|intros; apply agrees_len; assumption]. Qed.
Lemma agrees_bytes : agrees (read_bytes c) (read_bytes u).
Proof. apply agrees_len_varint, agrees_refl. Qed.
Lemma agrees_string : agrees (read_string c) (read_string u).
Proof. apply agrees_len_varint, agrees_refl. Qed.
Lemma agrees_packed_loop {M} fuel (m1 m2 : rd M) acc : agrees m1 m2 ->
  agrees (packed_loop fuel m1 acc) (packed_loop fuel m2 acc).
Proof.
  intros H. revert acc; induction fuel as [|fuel IH]; intros acc; cbn [packed_loop]; [apply agrees_refl|].
  apply agrees_bind; [apply agrees_refl|]. intros [|]; [apply agrees_refl|].
  apply agrees_bind; [exact H|]. intros x. apply IH.
Qed.
Lemma agrees_packed {M} fuel (m1 m2 : rd M) : agrees m1 m2 -> agrees (read_packed c fuel m1) (read_packed u fuel m2).
Proof. intros. apply agrees_len_varint, agrees_packed_loop. assumption. Qed.
Lemma agrees_packed_fixed n : agrees (read_packed_fixed c n) (read_packed_fixed u n).
Proof. unfold read_packed_fixed, rlen. agr. Qed.
Lemma agrees_packed_fixed_k k : agrees (read_packed_fixed_k c k) (read_packed_fixed_k u k).
Proof. unfold read_packed_fixed_k. apply agrees_rmap, agrees_packed_fixed. Qed.
Lemma agrees_message {M} (m1 m2 : rd M) : agrees m1 m2 -> agrees (read_message c m1) (read_message u m2).
Proof. apply agrees_len_varint. Qed.
Lemma agrees_map_loop {K V} fuel (k1 k2 : rd K) (v1 v2 : rd V) k v : agrees k1 k2 -> agrees v1 v2 ->
  agrees (map_loop fuel k1 v1 k v) (map_loop fuel k2 v2 k v).
Proof.
  intros Hk Hv. revert k v; induction fuel as [|fuel IH]; intros k v; cbn [map_loop]; [apply agrees_refl|].
  apply agrees_bind; [apply agrees_refl|]. intros [|]; [apply agrees_refl|].
  apply agrees_bind; [apply agrees_refl|]. intros b. cbv zeta.
  destruct (Z.shiftr b 3 =? 1); [apply agrees_bind; auto|].
  destruct (Z.shiftr b 3 =? 2); [apply agrees_bind; auto|apply agrees_refl].
Qed.
Lemma agrees_map {K V} fuel kd vd (k1 k2 : rd K) (v1 v2 : rd V) : agrees k1 k2 -> agrees v1 v2 ->
  agrees (read_map c fuel kd vd k1 v1) (read_map u fuel kd vd k2 v2).
Proof. intros. apply agrees_len_varint, agrees_map_loop; assumption. Qed.
Lemma agrees_skip n : agrees (skip c n) (skip u n).
Proof. unfold skip. agr. Qed.
Lemma agrees_unknown tag : agrees (read_unknown c tag) (read_unknown u tag).
Proof.
  unfold read_unknown. cbv zeta.
  replace (usize_mod u) with (usize_mod c) by reflexivity.
  agr; apply agrees_skip.
Qed.

End Sim.
