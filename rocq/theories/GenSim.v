(** Overflow checks and fuel do not change what the generated readers return. *)
From Coq Require Import ZifyBool ZifyNat ZifyN.
From Verif Require Import Base BaseFacts Reader PackedFixed SimFacts Schema Gen GenSem.

(** ** Overflow checks *)
Section Agree.
Variable D : file_descriptor.
Variable c : config.
Variable lit : field_type -> text -> option value.
Variable w : width.

Lemma agrees_read_scalar s : agrees (read_scalar (checked w) s) (read_scalar (unchecked w) s).
Proof. destruct s; try apply agrees_refl; apply agrees_rmap, agrees_fixed. Qed.

Lemma agrees_read_value f1 f2 r : (forall m, agrees (f1 m) (f2 m)) ->
  agrees (read_value D (checked w) f1 r) (read_value D (unchecked w) f2 r).
Proof.
  intros H. destruct r; cbn [read_value].
  - apply agrees_read_scalar.
  - apply agrees_refl.
  - apply agrees_rmap, agrees_string.
  - apply agrees_rmap, agrees_bytes.
  - apply agrees_rmap, agrees_message, H.
  - apply agrees_refl.
Qed.

Lemma agrees_run_action fuel f1 f2 a s : (forall m, agrees (f1 m) (f2 m)) ->
  agrees (run_action D c lit (checked w) fuel f1 a s) (run_action D c lit (unchecked w) fuel f2 a s).
Proof.
  intros H. destruct a; cbn [run_action]; try apply agrees_refl;
    try (apply agrees_rmap, agrees_read_value, H).
  - apply agrees_rmap, agrees_packed_fixed_k.
  - apply agrees_rmap, agrees_packed, agrees_read_value, H.
  - destruct s; try apply agrees_refl. apply agrees_rmap, agrees_read_value, H.
  - destruct s; try apply agrees_refl.
    destruct (type_default D (message_default D c lit) tk); try apply agrees_refl.
    destruct (type_default D (message_default D c lit) tv); try apply agrees_refl.
    apply agrees_rmap, agrees_map; apply agrees_read_value, H.
Qed.

Lemma agrees_run_field fuel f1 f2 arms tag ss : (forall m, agrees (f1 m) (f2 m)) ->
  agrees (run_field D c lit (checked w) fuel f1 arms tag ss) (run_field D c lit (unchecked w) fuel f2 arms tag ss).
Proof.
  intros H. unfold run_field. destruct (find _ arms) as [[n [i a]]|].
  - destruct (nth_error ss i); [apply agrees_rmap, agrees_run_action, H|apply agrees_refl].
  - apply agrees_bind; [apply agrees_unknown|intros; apply agrees_refl].
Qed.

Lemma agrees_msg_loop fuel s1 s2 ss : (forall tag x, agrees (s1 tag x) (s2 tag x)) ->
  agrees (msg_loop fuel s1 ss) (msg_loop fuel s2 ss).
Proof.
  intros H. revert ss; induction fuel as [|fuel IH]; intros ss; cbn [msg_loop]; [apply agrees_refl|].
  apply agrees_bind; [apply agrees_refl|]. intros [|]; [apply agrees_refl|].
  apply agrees_bind; [apply agrees_refl|]. intros tag. apply agrees_bind; [apply H|]. intros x. apply IH.
Qed.

Theorem agrees_from_reader fuel m :
  agrees (from_reader D c lit (checked w) fuel m) (from_reader D c lit (unchecked w) fuel m).
Proof.
  revert m; induction fuel as [|fuel IH]; intros m; cbn [from_reader]; [apply agrees_refl|].
  destruct (get_message D m) as [msg|]; [|apply agrees_refl].
  destruct (message_default D c lit m); [|apply agrees_refl].
  destruct (is_unit msg); [apply agrees_refl|]. apply agrees_msg_loop. intros tag x. apply agrees_run_field, IH.
Qed.
End Agree.

(** ** Fuel *)

(** unless [m1] runs out of fuel, [m2] does the same *)
Definition mono {A} (m1 m2 : rd A) : Prop :=
  forall bs r, fst (m1 bs r) <> NoFuel -> m2 bs r = m1 bs r.

Lemma mono_refl {A} (m : rd A) : mono m m.
Proof. intros bs r _. reflexivity. Qed.
Lemma mono_bind {A B} (m1 m2 : rd A) (f1 f2 : A -> rd B) :
  mono m1 m2 -> (forall a, mono (f1 a) (f2 a)) -> mono (bind m1 f1) (bind m2 f2).
Proof.
  intros Hm Hf bs r H. unfold bind in *.
  destruct (m1 bs r) as [o r1] eqn:E1.
  assert (N : fst (m1 bs r) <> NoFuel) by (rewrite E1; destruct o; simpl in *; congruence).
  rewrite (Hm bs r N), E1. destruct o; try reflexivity. apply Hf. exact H.
Qed.
Lemma mono_rmap {A B} (f : A -> B) m1 m2 : mono m1 m2 -> mono (rmap f m1) (rmap f m2).
Proof. intros. apply mono_bind; [assumption|intros; apply mono_refl]. Qed.
Lemma mono_none {A} (m : rd A) : mono (lift NoFuel) m.
Proof. intros bs r H. contradiction H. reflexivity. Qed.
Lemma mono_len_varint {A} t (m1 m2 : rd A) : mono m1 m2 -> mono (read_len_varint t m1) (read_len_varint t m2).
Proof.
  intros H. unfold read_len_varint, read_len. repeat (apply mono_bind; [first [apply mono_refl|exact H]|intros]). apply mono_refl.
Qed.
Lemma mono_packed_loop {M} f1 f2 (m1 m2 : rd M) acc : (f1 <= f2)%nat -> mono m1 m2 ->
  mono (packed_loop f1 m1 acc) (packed_loop f2 m2 acc).
Proof.
  intros Hf H. revert f2 Hf acc; induction f1 as [|f1 IH]; intros f2 Hf acc; [apply mono_none|].
  destruct f2 as [|f2]; [lia|]. cbn [packed_loop]. apply mono_bind; [apply mono_refl|]. intros [|]; [apply mono_refl|].
  apply mono_bind; [exact H|]. intros x. apply IH. lia.
Qed.
Lemma mono_map_loop {K V} f1 f2 (k1 k2 : rd K) (v1 v2 : rd V) k v : (f1 <= f2)%nat -> mono k1 k2 -> mono v1 v2 ->
  mono (map_loop f1 k1 v1 k v) (map_loop f2 k2 v2 k v).
Proof.
  intros Hf Hk Hv. revert f2 Hf k v; induction f1 as [|f1 IH]; intros f2 Hf k v; [apply mono_none|].
  destruct f2 as [|f2]; [lia|]. cbn [map_loop]. apply mono_bind; [apply mono_refl|]. intros [|]; [apply mono_refl|].
  apply mono_bind; [apply mono_refl|]. intros b. cbv zeta.
  destruct (Z.shiftr b 3 =? 1); [apply mono_bind; [exact Hk|intros; apply IH; lia]|].
  destruct (Z.shiftr b 3 =? 2); [apply mono_bind; [exact Hv|intros; apply IH; lia]|apply mono_refl].
Qed.

Section Mono.
Variable D : file_descriptor.
Variable c : config.
Variable lit : field_type -> text -> option value.
Variable t : target.

Lemma mono_read_value f1 f2 r : (forall m, mono (f1 m) (f2 m)) -> mono (read_value D t f1 r) (read_value D t f2 r).
Proof. intros H. destruct r; cbn [read_value]; try apply mono_refl. apply mono_rmap, mono_len_varint, H. Qed.

Lemma mono_run_action n1 n2 f1 f2 a s : (n1 <= n2)%nat -> (forall m, mono (f1 m) (f2 m)) ->
  mono (run_action D c lit t n1 f1 a s) (run_action D c lit t n2 f2 a s).
Proof.
  intros Hn H. destruct a; cbn [run_action]; try apply mono_refl;
    try (apply mono_rmap, mono_read_value, H).
  - apply mono_rmap, mono_len_varint, mono_packed_loop; [exact Hn|apply mono_read_value, H].
  - destruct s; try apply mono_refl. apply mono_rmap, mono_read_value, H.
  - destruct s; try apply mono_refl.
    destruct (type_default D (message_default D c lit) tk); try apply mono_refl.
    destruct (type_default D (message_default D c lit) tv); try apply mono_refl.
    apply mono_rmap, mono_len_varint, mono_map_loop; [exact Hn| |]; apply mono_read_value, H.
Qed.

Lemma mono_run_field n1 n2 f1 f2 arms tag ss : (n1 <= n2)%nat -> (forall m, mono (f1 m) (f2 m)) ->
  mono (run_field D c lit t n1 f1 arms tag ss) (run_field D c lit t n2 f2 arms tag ss).
Proof.
  intros Hn H. unfold run_field. destruct (find _ arms) as [[n [i a]]|]; [|apply mono_refl].
  destruct (nth_error ss i); [apply mono_rmap, mono_run_action; assumption|apply mono_refl].
Qed.

Lemma mono_msg_loop n1 n2 s1 s2 ss : (n1 <= n2)%nat -> (forall tag x, mono (s1 tag x) (s2 tag x)) ->
  mono (msg_loop n1 s1 ss) (msg_loop n2 s2 ss).
Proof.
  intros Hn H. revert n2 Hn ss; induction n1 as [|n1 IH]; intros n2 Hn ss; [apply mono_none|].
  destruct n2 as [|n2]; [lia|]. cbn [msg_loop].
  apply mono_bind; [apply mono_refl|]. intros [|]; [apply mono_refl|].
  apply mono_bind; [apply mono_refl|]. intros tag. apply mono_bind; [apply H|]. intros x. apply IH. lia.
Qed.

Theorem mono_from_reader n1 n2 m : (n1 <= n2)%nat ->
  mono (from_reader D c lit t n1 m) (from_reader D c lit t n2 m).
Proof.
  revert n2 m; induction n1 as [|n1 IH]; intros n2 m Hn; [apply mono_none|]. destruct n2 as [|n2]; [lia|].
  cbn [from_reader].
  destruct (get_message D m) as [msg|]; [|apply mono_refl].
  destruct (message_default D c lit m); [|apply mono_refl].
  destruct (is_unit msg); [apply mono_refl|]. apply mono_msg_loop; [exact Hn|]. intros tag x.
  apply mono_run_field; [lia|]. intros m'. apply IH. lia.
Qed.
End Mono.
