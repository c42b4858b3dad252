(** C101: how often sizes are computed when a message is written. *)
From Coq Require Import String Arith ZArith Lia.
From Verif Require Import Base BaseFacts Utf8 Utf8Facts Reader PackedFixed Writer Spec Schema Gen GenSem WriterFacts Sizeofs DelimFacts GenSpec GenCheck GenEmit LifetimeFacts MeanSize Stack Cost Examples Props_Generated Props_Stack.
Import StringSyntax.
Local Open Scope string_scope.
Local Open Scope list_scope.
Local Open Scope Z_scope.

(** The functions that count are those of GenSem.v and Writer.v. *)
Theorem C101_same_program : forall D c lit m ss,
  fst (message_size_n D c lit m ss) = message_size D c lit m ss /\
  fst (message_write_n D c lit m ss) = message_write D c lit m ss /\
  fst (writer_write_message_n D c lit m ss) = write_message (message_size D c lit m ss) (message_write D c lit m ss) /\
  (forall bs, serialize_into_vec (message_size D c lit m ss) (message_write D c lit m ss) = Ok bs <->
     exists u, run vec_step (fst (serialize_n D c lit m ss)) [] = (Ok u, bs)).
Proof.
  intros D c lit m ss. split; [apply message_size_same|]. split; [apply message_write_same|].
  unfold writer_write_message_n. cbn [both fst]. rewrite message_size_same, message_write_same. split; [reflexivity|]. intros bs. rewrite serialize_same. unfold serialize_into_vec.
  destruct (run vec_step (write_message (message_size D c lit m ss) (message_write D c lit m ss)) []) as ([]& v); split; try discriminate; try (intros (u & E); discriminate).
  - intros [= <-]. now exists a.
  - intros (u & [= _ <-]). reflexivity.
Qed.
Print Assumptions C101_same_program.

(** How often get_size runs, exactly: once for every message in the value when the size
    is asked for; when the value is written by Writer::write_message, each message is
    sized once and again for every message around it, and again for every map entry or
    packed array around it; serialize_into_vec sizes everything once more. *)
Theorem C101_exact : forall D c lit, schema_wf D c lit -> forall m ss, message_ok D c m ss ->
  snd (message_size_n D c lit m ss) = messages_in (VMsg ss) /\
  snd (writer_write_message_n D c lit m ss) = sizings D c 1 (TMessage m) (VMsg ss) /\
  snd (serialize_n D c lit m ss) = sizings D c 2 (TMessage m) (VMsg ss).
Proof.
  intros D c lit WF m ss H. assert (T : typ_ok D (TMessage m)) by (cbn [typ_ok]; unfold message_ok in H; destruct (get_message D m); [discriminate|contradiction]).
  destruct (proj1 (all_counts D c lit WF) (VMsg ss) (TMessage m) T H) as (A & B & W & _).
  cbn [size_fn write_fn] in A, W. rewrite value_size_n_msg in A. rewrite value_write_n_msg in W. cbn [then_ snd] in A.
  split; [exact A|]. split; [exact W|]. unfold serialize_n. cbn [both snd]. rewrite A, W, (B 1%nat). lia.
Qed.
Print Assumptions C101_exact.

(** So the activations are at least twice and at most 2d times the messages, with d
    messages inside each other at most. *)
Theorem C101_bound : forall D c lit, schema_wf D c lit -> forall m ss, message_ok D c m ss ->
  (2 * messages_in (VMsg ss) <= snd (serialize_n D c lit m ss) <= 2 * value_depth (VMsg ss) * messages_in (VMsg ss))%nat.
Proof.
  intros D c lit WF m ss H. assert (T : typ_ok D (TMessage m)) by (cbn [typ_ok]; unfold message_ok in H; destruct (get_message D m); [discriminate|contradiction]).
  destruct (C101_exact D c lit WF m ss H) as (_ & _ & E). rewrite E.
  destruct (proj1 (all_counts D c lit WF) (VMsg ss) (TMessage m) T H) as (_ & B & _ & L).
  specialize (L 2%nat _ (le_n _)). rewrite (B 1%nat), (B 0%nat) in *. nia.
Qed.
Print Assumptions C101_bound.

(** If references go down (no message can be inside itself), the number of activations is
    linear in the number of messages, with a factor that the schema gives. *)
Theorem C101_linear_without_recursion : forall D c lit (rank : midx -> nat), schema_wf D c lit ->
  (forall i j, refers D c i j -> (rank j < rank i)%nat) ->
  forall m ss, message_ok D c m ss -> (snd (serialize_n D c lit m ss) <= 2 * S (rank m) * messages_in (VMsg ss))%nat.
Proof.
  intros D c lit rank WF Down m ss H. assert (T : typ_ok D (TMessage m)) by (cbn [typ_ok]; unfold message_ok in H; destruct (get_message D m); [discriminate|contradiction]).
  destruct (C101_bound D c lit WF m ss H) as (_ & L). pose proof (proj1 (ranked_depth D c lit rank WF Down) (VMsg ss) (TMessage m) T H) as R. cbn [type_rank] in R. nia.
Qed.
Print Assumptions C101_linear_without_recursion.

(** ** A recursive message *)
Lemma nodes_sizings n : forall k, (2 * sizings nodeD cfg0 k (TMessage [0%nat]) (VMsg (nodes n)) = (n + 1) * (2 * k + n))%nat.
Proof.
  induction n as [|n IH]; intros k; rewrite (sizings_msg nodeD cfg0 k [0%nat] nodeM _ eq_refl).
  - cbn. lia.
  - change (descs cfg0 nodeM) with [SdField (fld "next" P2Optional (TMessage [0%nat]) 1 None true)]. cbn [nodes]. rewrite slots_sizings_cons, slot_sizings_eq. cbn [f_typ fld].
    change (slots_sizings nodeD cfg0 (S k) [] []) with O. specialize (IH (S k)). nia.
Qed.
Lemma nodes_messages n : messages_in (VMsg (nodes n)) = S n.
Proof. induction n as [|n IH]; [reflexivity|]. cbn [nodes messages_in fold_right slot_messages] in *. lia. Qed.

(** With a recursive message the work is not linear, neither in the number of messages nor
    in the number of bytes that are written: it is quadratic for a list of nodes. *)
Theorem C101_linear_refuted : exists D c lit m, schema_wf D c lit /\
  forall k, Z.of_nat k <= 2 ^ 24 -> exists ss bs, message_ok D c m ss /\ emits (message_write D c lit m ss) bs /\
    (k * (messages_in (VMsg ss) + length bs) < snd (serialize_n D c lit m ss))%nat.
Proof.
  exists nodeD, cfg0, nolit, [0%nat]. split; [exact nodeD_wf|]. intros k Hk. set (n := (14 * k)%nat). exists (nodes n), (enc_message nodeD cfg0 nolit [0%nat] (nodes n)).
  pose proof (nodes_ok n) as Ho. split; [exact Ho|].
  assert (L : zlen (enc_message nodeD cfg0 nolit [0%nat] (nodes n)) <= 6 * Z.of_nat n) by (apply nodes_len; change (2 ^ 24) with 16777216 in Hk; change (2 ^ 29) with 536870912; lia).
  split.
  - apply (message_emit nodeD cfg0 nolit nodeD_wf [0%nat] nodeM (nodes n) eq_refl Ho). change (2 ^ 24) with 16777216 in Hk. change (2 ^ 64) with 18446744073709551616. lia.
  - destruct (C101_exact nodeD cfg0 nolit nodeD_wf [0%nat] (nodes n) Ho) as (_ & _ & ->). rewrite nodes_messages. pose proof (nodes_sizings n 2). unfold zlen in L.
    assert (L' : (length (enc_message nodeD cfg0 nolit [0%nat] (nodes n)) <= 6 * n)%nat) by lia. unfold n in *. nia.
Qed.
Print Assumptions C101_linear_refuted.

(** {v
mids { key: "k" value { lows { id: 7 } lows { } } } mid { }
    v}
    (of the schema [downD] of C100): five messages, of which the two in the map are in one
    message and an entry, the [lows] in two messages and an entry: 2 + (2 + 1) + (2 + 2) +
    2 * (2 + 3); a list of ten nodes takes 77 activations when it is serialized. *)
Definition downVal : list slot :=
  [SlOne (VMsg [SlVec []]); SlMap [(VB [x6b], VMsg [SlVec [VMsg [SlOne (VZ 7)]; VMsg [SlOne (VZ 0)]]])]; SlOneofNone].
Example C101_case :
  schema_wf downD cfg0 nolit /\ message_ok downD cfg0 [0%nat] downVal /\ (forall i j, refers downD cfg0 i j -> (downRank j < downRank i)%nat) /\
  messages_in (VMsg downVal) = 5%nat /\ value_depth (VMsg downVal) = 3%nat /\
  snd (serialize_n downD cfg0 nolit [0%nat] downVal) = 19%nat /\
  message_ok nodeD cfg0 [0%nat] (nodes 10) /\ snd (serialize_n nodeD cfg0 nolit [0%nat] (nodes 10)) = 77%nat.
Proof.
  destruct C100_case as (W & R & _). split; [exact W|]. split.
  - cbn. repeat match goal with |- _ /\ _ => split end; auto; try (unfold is_s; lia); try (apply utf8_valid_iff; reflexivity). constructor; [intros []|constructor].
  - split; [exact R|]. split; [reflexivity|]. split; [reflexivity|]. split; [vm_compute; reflexivity|]. split; [apply nodes_ok|vm_compute; reflexivity].
Qed.
