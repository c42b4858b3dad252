(** Indices after name resolution. *)
From Coq Require Import String Arith Lia ZifyBool ZifyNat.
From Verif Require Import Base Schema Passes GenCheck Cycles CycleFacts BreakFacts.

Lemma set_indices_eq index m : set_indices index m =
  set_messages (set_index m index) (set_indices_from index 0 (m_messages m)).
Proof.
  destruct m as [? ? ? ? ? ? ? ms ? ? ?]. cbn [set_indices m_messages]. unfold set_messages, set_index. cbn. f_equal.
  generalize O. induction ms as [|x ms IH]; intros i; cbn; [reflexivity|]. f_equal. apply IH.
Qed.
Lemma nth_set_indices pre l : forall i k, nth_error (set_indices_from pre i l) k =
  option_map (set_indices (pre ++ [(i + k)%nat])) (nth_error l k).
Proof.
  induction l as [|x l IH]; intros i [|k]; cbn; try reflexivity.
  - now rewrite Nat.add_0_r.
  - rewrite IH. now replace (S i + k)%nat with (i + S k)%nat by lia.
Qed.
Lemma get_set_indices p : forall pre l, get_in (set_indices_from pre 0 l) p = option_map (set_indices (pre ++ p)) (get_in l p).
Proof.
  induction p as [|k q IH]; intros pre l; [reflexivity|]. cbn [get_in]. rewrite nth_set_indices. cbn [Nat.add].
  destruct (nth_error l k) as [m|]; [|reflexivity]. cbn [option_map]. destruct q as [|k' q]; [reflexivity|].
  rewrite set_indices_eq. cbn [m_messages set_messages]. rewrite IH, <- app_assoc. reflexivity.
Qed.
Lemma get_assign d p : get_message (assign_indices d) p = option_map (set_indices p) (get_message d p).
Proof. rewrite !get_message_eq. unfold assign_indices. cbn. apply get_set_indices. Qed.
Lemma assign_indexed d : indexed (assign_indices d).
Proof.
  intros p m. rewrite get_assign. destruct (get_message d p); [|discriminate]. cbn. intros H; injection H as <-.
  now rewrite set_indices_eq.
Qed.

(** a relation between trees of messages holds at every index *)
Lemma get_in_forall2 (T : message -> message -> Prop) :
  (forall m m', T m m' -> Forall2 T (m_messages m) (m_messages m')) ->
  forall p ms ms', Forall2 T ms ms' -> opt_rel T (get_in ms p) (get_in ms' p).
Proof.
  intros H p. induction p as [|k q IH]; intros ms ms' F; [constructor|]. cbn [get_in].
  assert (N : opt_rel T (nth_error ms k) (nth_error ms' k)).
  { clear IH. revert k. induction F as [|x y l l' R F IH]; intros [|k]; cbn; try constructor; auto. }
  inversion N as [|m m' R]; [constructor|]. destruct q; [now constructor|]. apply IH, H, R.
Qed.

(** resolution only changes the types of fields *)
Definition retyped (f f' : field) : Prop := f' = set_typ f (f_typ f').
Definition resolves (fm : list (text * midx)) (fe : list (text * eidx)) (m m' : message) : Prop :=
  resolve_message fm fe m = GOk m'.

Lemma gmap_go (F : message -> gres message) l :
  (fix go (l : list message) : gres (list message) :=
     match l with
     | [] => GOk []
     | x :: l' => gbind (F x) (fun y => gbind (go l') (fun ys => GOk (y :: ys)))
     end) l = gmap F l.
Proof. induction l as [|x l IH]; [reflexivity|]. cbn. rewrite IH. reflexivity. Qed.

Lemma resolve_message_eq fm fe m : resolve_message fm fe m =
  gbind (gmap (resolve_field fm fe (m_package m) (m_name m)) (m_fields m)) (fun fs =>
  gbind (gmap (fun o => gbind (gmap (resolve_field fm fe (m_package m) (m_name m)) (o_fields o))
                          (fun fs' => GOk (set_ofields o fs'))) (m_oneofs m)) (fun os =>
  gbind (gmap (resolve_message fm fe) (m_messages m)) (fun ms =>
  GOk (set_messages (set_fields m fs os) ms)))).
Proof. destruct m. cbn [resolve_message]. rewrite gmap_go. reflexivity. Qed.

Lemma gbind_ok {A B} (x : gres A) (k : A -> gres B) y : gbind x k = GOk y <-> exists a, x = GOk a /\ k a = GOk y.
Proof. destruct x as [a|e]; cbn; split; [eauto|intros (a' & E & H); congruence|discriminate|intros (a & E & _); discriminate]. Qed.

(** the relation [resolve_message] establishes between a message and its result *)
Definition field_resolves fm fe (m : message) (f f' : field) : Prop :=
  exists t, resolve_type fm fe (m_package m) (m_name m) (f_typ f) = GOk t /\ f' = set_typ f t.

Lemma resolve_message_ok fm fe m m' : resolve_message fm fe m = GOk m' ->
  msg_rel (field_resolves fm fe m) m m' /\ Forall2 (resolves fm fe) (m_messages m) (m_messages m').
Proof.
  rewrite resolve_message_eq. intros H. apply gbind_ok in H. destruct H as (fs & E1 & H). apply gbind_ok in H.
  destruct H as (os & E2 & H). apply gbind_ok in H. destruct H as (ms & E3 & H). injection H as <-.
  apply gmap_ok in E1. apply gmap_ok in E2. apply gmap_ok in E3. split; [|exact E3].
  assert (Q : forall l l', Forall2 (fun x y => resolve_field fm fe (m_package m) (m_name m) x = GOk y) l l' -> Forall2 (field_resolves fm fe m) l l').
  { induction 1 as [|f f' l l' R F IH]; constructor; [|exact IH]. unfold resolve_field in R. apply gbind_ok in R.
    destruct R as (t & T & R). injection R as <-. exists t. auto. }
  split; [apply Q, E1|]. split; [|reflexivity]. cbn. clear E1 E3. induction E2 as [|o o' l l' R F IH]; constructor; [|exact IH].
  apply gbind_ok in R. destruct R as (fs' & R & E). injection E as <-. apply gmap_ok in R. split; [apply Q, R|reflexivity].
Qed.

(** ** resolve_types *)
Lemma resolve_types_ok d d' : resolve_types d = GOk d' ->
  Forall2 (resolves (full_msgs d) (full_enums d)) (d_messages (assign_indices d)) (d_messages d') /\
  set_dmessages d' [] = set_dmessages d [].
Proof.
  unfold resolve_types. intros H. apply gbind_ok in H. destruct H as (ms & E & H). injection H as <-.
  apply gmap_ok in E. split; [exact E|reflexivity].
Qed.
Lemma resolve_types_get d d' p : resolve_types d = GOk d' ->
  opt_rel (resolves (full_msgs d) (full_enums d)) (get_message (assign_indices d) p) (get_message d' p).
Proof.
  intros H. apply resolve_types_ok in H. destruct H as (F & _). rewrite !get_message_eq. apply get_in_forall2; [|exact F].
  intros m m' R. now apply resolve_message_ok in R.
Qed.
Lemma resolve_types_indexed d d' : resolve_types d = GOk d' -> indexed d'.
Proof.
  intros H p m' G. pose proof (resolve_types_get d d' p H) as R. rewrite G in R. inversion R as [|m x M E1 E2]; subst.
  apply resolve_message_ok in M. destruct M as (M & _). rewrite (msg_rel_index _ _ _ M). apply (assign_indexed d). now symmetry.
Qed.

(** ** Descriptors with equal messages everywhere are equal *)
Lemma tree_eq m : forall m', msg_rel eq m m' ->
  (forall p, opt_rel (msg_rel eq) (get_in (m_messages m) p) (get_in (m_messages m') p)) -> m' = m.
Proof.
  induction m as [m IH] using message_tree_ind. intros m' (A & B & C) H.
  assert (Em : m_messages m' = m_messages m).
  { assert (G : forall l l', Forall (fun m => forall m', msg_rel eq m m' ->
        (forall p, opt_rel (msg_rel eq) (get_in (m_messages m) p) (get_in (m_messages m') p)) -> m' = m) l ->
        (forall p, opt_rel (msg_rel eq) (get_in l p) (get_in l' p)) -> l' = l).
    { induction l as [|x l IHl]; intros l' F Hp.
      - destruct l' as [|y l']; [reflexivity|]. specialize (Hp [O]). cbn in Hp. inversion Hp.
      - destruct l' as [|y l']; [specialize (Hp [O]); cbn in Hp; inversion Hp|]. inversion F as [|? ? F1 F2]; subst. f_equal.
        + apply F1.
          * specialize (Hp [O]). cbn in Hp. now inversion Hp.
          * intros [|k q]; [constructor|]. exact (Hp (O :: k :: q)).
        + apply IHl; [exact F2|]. intros [|k q]; [constructor|]. exact (Hp (S k :: q)). }
    exact (G _ _ IH H). }
  assert (Ef : m_fields m' = m_fields m).
  { clear - A. induction A; [reflexivity|]. congruence. }
  assert (Eo : m_oneofs m' = m_oneofs m).
  { clear - B. induction B as [|o o' l l' (O1 & O2) F IH]; [reflexivity|]. f_equal; [|exact IH].
    assert (E : o_fields o' = o_fields o) by (clear - O1; induction O1; [reflexivity|congruence]).
    destruct o, o'. unfold set_ofields in O2. cbn in *. congruence. }
  destruct m, m'. unfold shell, set_fields, set_messages in C. cbn in *. congruence.
Qed.
Lemma desc_eq d d' : desc_rel (fun _ => eq) d d' -> d' = d.
Proof.
  intros (A & B).
  assert (E : d_messages d' = d_messages d).
  { set (mk := fun l => mkMessage String.EmptyString [] [] None None false String.EmptyString l [] String.EmptyString []).
    assert (T : mk (d_messages d') = mk (d_messages d)).
    { apply tree_eq; [|intros p; specialize (A p); rewrite !get_message_eq in A; exact A].
      split; [constructor|]. split; [constructor|reflexivity]. }
    now injection T. }
  destruct d, d'. unfold set_dmessages in B. cbn in *. congruence.
Qed.
