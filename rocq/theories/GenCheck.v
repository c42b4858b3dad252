(** Deciding well-formedness of a concrete schema. *)
From Coq Require Import ZifyBool ZifyNat ZifyN.
From Verif Require Import Base BaseFacts Reader PackedFixed Spec Schema Gen GenSem GenSpec GenRecords.

(** ** All messages of a descriptor with their indices *)
Fixpoint subtree (pre : midx) (m : message) : list (midx * message) :=
  (pre, m) :: (fix go (i : nat) (l : list message) : list (midx * message) :=
                 match l with [] => [] | x :: l' => subtree (pre ++ [i]) x ++ go (S i) l' end) O (m_messages m).
Fixpoint subtrees (pre : midx) (i : nat) (l : list message) : list (midx * message) :=
  match l with [] => [] | x :: l' => subtree (pre ++ [i]) x ++ subtrees pre (S i) l' end.
Definition all_messages (D : file_descriptor) : list (midx * message) := subtrees [] O (d_messages D).

Lemma subtree_eq pre m : subtree pre m = (pre, m) :: subtrees pre O (m_messages m).
Proof.
  destruct m as [? ? ? ? ? ? ? ms ? ? ?]; cbn [subtree m_messages]. f_equal. generalize O as i. induction ms as [|x l IH]; intros i; [reflexivity|].
  cbn [subtrees]. f_equal. apply IH.
Qed.
Lemma subtrees_nth pre l i k m x : nth_error l k = Some m -> In x (subtree (pre ++ [(i + k)%nat]) m) -> In x (subtrees pre i l).
Proof.
  revert i k; induction l as [|y l IH]; intros i [|k] N H; cbn in N; try discriminate; cbn [subtrees]; apply in_app_iff.
  - injection N as ->. left. rewrite Nat.add_0_r in H. exact H.
  - right. apply (IH (S i) k); [exact N|]. replace (S i + k)%nat with (i + S k)%nat by lia. exact H.
Qed.
Lemma walk_in rest : forall pre m0 msg,
  fold_left (fun cur next => match cur with Some m => nth_error (m_messages m) next | None => None end) rest (Some m0) = Some msg ->
  In (pre ++ rest, msg) (subtree pre m0).
Proof.
  induction rest as [|i rest IH]; intros pre m0 msg H; cbn in H; rewrite subtree_eq.
  - injection H as ->. left. rewrite app_nil_r. reflexivity.
  - destruct (nth_error (m_messages m0) i) as [m1|] eqn:N.
    + right. apply (subtrees_nth pre _ 0 i m1); [exact N|]. replace (pre ++ i :: rest) with ((pre ++ [i]) ++ rest) by (rewrite <- app_assoc; reflexivity).
      apply IH. exact H.
    + exfalso. clear -H. induction rest as [|j rest IH]; cbn in H; [discriminate|auto].
Qed.
Lemma get_message_in D m msg : get_message D m = Some msg -> In (m, msg) (all_messages D).
Proof.
  destruct m as [|i rest]; [discriminate|]. cbn. intros H. unfold all_messages.
  destruct (nth_error (d_messages D) i) as [m0|] eqn:N.
  - apply (subtrees_nth [] _ 0 i m0); [exact N|]. apply (walk_in rest [i]). exact H.
  - exfalso. clear -H. induction rest as [|j rest IH]; cbn in H; [discriminate|auto].
Qed.

(** ** Checks *)
Definition is_some {A} (o : option A) : bool := match o with Some _ => true | None => false end.
Lemma is_some_true {A} (o : option A) : is_some o = true <-> o <> None.
Proof. destruct o; split; cbn; congruence. Qed.

Fixpoint nodupb (l : list Z) : bool :=
  match l with [] => true | x :: l' => negb (existsb (Z.eqb x) l') && nodupb l' end.
Lemma nodupb_true l : nodupb l = true <-> NoDup l.
Proof.
  induction l as [|x l IH]; cbn [nodupb]; [split; [constructor|reflexivity]|]. rewrite andb_true_iff, IH, negb_true_iff. split.
  - intros [H1 H2]. constructor; [|exact H2]. intros Hin. assert (existsb (Z.eqb x) l = true); [|congruence].
    apply existsb_exists. exists x. split; [exact Hin|apply Z.eqb_refl].
  - intros H. inversion H; subst. split; [|assumption]. destruct (existsb (Z.eqb x) l) eqn:E; [|reflexivity].
    apply existsb_exists in E. destruct E as (y & Hy & E). apply Z.eqb_eq in E. subst. contradiction.
Qed.

Section Check.
Variable D : file_descriptor.
Variable c : config.
Variable lit : field_type -> text -> option value.

Definition typ_okb (t : field_type) : bool :=
  match t with
  | TMap _ _ | TMessageOrEnum _ => false
  | TMessage m => is_some (get_message D m)
  | TEnum e => is_some (get_enum D e)
  | _ => true
  end.
Lemma typ_okb_true t : typ_okb t = true <-> typ_ok D t.
Proof. destruct t; cbn; try tauto; try apply is_some_true; split; (contradiction || discriminate). Qed.
Definition key_okb (t : field_type) : bool :=
  match t with
  | TMap _ _ | TMessageOrEnum _ | TMessage _ | TEnum _ | TFloat | TDouble => false
  | _ => true
  end.
Lemma key_okb_true t : key_okb t = true <-> key_ok t.
Proof. destruct t; cbn; try tauto; split; (contradiction || discriminate). Qed.

Definition field_okb (f : field) : bool :=
  (negb (f_boxed f) || freq_is_optional (f_freq f)) &&
  (if freq_is_map (f_freq f)
   then match f_typ f with TMap k v => key_okb k && typ_okb v | _ => false end
   else typ_okb (f_typ f)) &&
  (negb (freq_is_repeated (f_freq f) && f_is_packed f && is_fixed_size (f_typ f)) || negb (c_dont_use_cow c)) &&
  (match f_default f with Some s => is_some (lit (f_typ f) s) | None => true end).
Lemma field_okb_true f : field_okb f = true <-> field_ok D c lit f.
Proof.
  unfold field_okb, field_ok.
  assert (A1 : negb (f_boxed f) || freq_is_optional (f_freq f) = true <-> (f_boxed f = true -> freq_is_optional (f_freq f) = true)).
  { destruct (f_boxed f), (freq_is_optional (f_freq f)); cbn; intuition congruence. }
  assert (A2 : (if freq_is_map (f_freq f) then match f_typ f with TMap k v => key_okb k && typ_okb v | _ => false end else typ_okb (f_typ f)) = true <->
    (if freq_is_map (f_freq f) then match f_typ f with TMap k v => key_ok k /\ typ_ok D v | _ => False end else typ_ok D (f_typ f))).
  { destruct (freq_is_map (f_freq f)); [|apply typ_okb_true]. destruct (f_typ f); try (split; (contradiction||discriminate)).
    rewrite andb_true_iff, key_okb_true, typ_okb_true. reflexivity. }
  assert (A3 : negb (freq_is_repeated (f_freq f) && f_is_packed f && is_fixed_size (f_typ f)) || negb (c_dont_use_cow c) = true <->
    (freq_is_repeated (f_freq f) && f_is_packed f && is_fixed_size (f_typ f) = true -> c_dont_use_cow c = false)).
  { destruct (freq_is_repeated (f_freq f) && f_is_packed f && is_fixed_size (f_typ f)), (c_dont_use_cow c); cbn; intuition congruence. }
  assert (A4 : (match f_default f with Some s => is_some (lit (f_typ f) s) | None => true end) = true <->
    (forall s, f_default f = Some s -> exists w, lit (f_typ f) s = Some w)).
  { destruct (f_default f) as [s|].
    - rewrite is_some_true. split.
      + intros H s' E. injection E as <-. destruct (lit (f_typ f) s); [eauto|congruence].
      + intros H. destruct (H s eq_refl) as (w & ->). discriminate.
    - split; [discriminate|reflexivity]. }
  rewrite <- A1, <- A2, <- A3, <- A4. split.
  - intros H. apply andb_prop in H. destruct H as [H H4]. apply andb_prop in H. destruct H as [H H3].
    apply andb_prop in H. destruct H as [H1 H2]. auto.
  - intros (H1 & H2 & H3 & H4). rewrite H1, H2, H3, H4. reflexivity.
Qed.

Definition desc_okb (d : sdesc) : bool :=
  match d with SdField f => field_okb f | SdOneof vs => forallb (fun f => typ_okb (f_typ f)) vs end.
Lemma desc_okb_true d : desc_okb d = true <-> desc_ok D c lit d.
Proof.
  destruct d as [f|vs]; cbn; [apply field_okb_true|]. rewrite forallb_forall, Forall_forall.
  split; intros H f Hf; apply typ_okb_true, H, Hf.
Qed.

Definition schema_wfb : bool :=
  forallb (fun '(m, msg) =>
    forallb desc_okb (descs c msg) && nodupb (map field_tag (flat_map desc_fields (descs c msg)))
    && is_some (message_default D c lit m)) (all_messages D).
Lemma schema_wfb_sound : schema_wfb = true -> schema_wf D c lit.
Proof.
  unfold schema_wfb. intros H m msg G. rewrite forallb_forall in H. specialize (H _ (get_message_in D m msg G)). cbn beta iota in H.
  rewrite !andb_true_iff in H. destruct H as [[H1 H2] H3]. constructor.
  - rewrite Forall_forall. rewrite forallb_forall in H1. intros d Hd. apply desc_okb_true, H1, Hd.
  - apply nodupb_true, H2.
  - apply is_some_true, H3.
Qed.

Definition packed_okb (d : sdesc) : bool :=
  match d with
  | SdField f => negb (f_is_packed f) || freq_is_repeated (f_freq f) || freq_is_map (f_freq f)
  | SdOneof vs => forallb (fun f => negb (f_is_packed f)) vs
  end.
Definition schema_packed_okb : bool := forallb (fun '(_, msg) => forallb packed_okb (descs c msg)) (all_messages D).
Lemma schema_packed_okb_sound : schema_packed_okb = true -> schema_packed_ok D c.
Proof.
  unfold schema_packed_okb. intros H m msg G. rewrite forallb_forall in H. specialize (H _ (get_message_in D m msg G)). cbn beta iota in H.
  rewrite Forall_forall. rewrite forallb_forall in H. intros d Hd. specialize (H d Hd). destruct d as [f|vs]; cbn in *.
  - intros E. rewrite E in H. cbn in H. apply orb_true_iff in H. exact H.
  - rewrite Forall_forall. rewrite forallb_forall in H. intros f Hf. apply negb_true_iff, H, Hf.
Qed.

End Check.
