(** Facts about message indices, components and cycle breaking. *)
From Coq Require Import Arith Lia Sorting.Permutation ZifyBool ZifyNat.
From Verif Require Import Base Schema Passes Scc SccFacts GenSem GenCheck Cycles.

Lemma midx_eqb_eq a b : midx_eqb a b = true <-> a = b.
Proof. unfold midx_eqb. destruct (list_eq_dec Nat.eq_dec a b); split; congruence. Qed.
Lemma midx_eqb_refl a : midx_eqb a a = true.
Proof. now apply midx_eqb_eq. Qed.
Lemma existsb_midx m l : existsb (midx_eqb m) l = true <-> In m l.
Proof.
  rewrite existsb_exists. split.
  - intros (x & H & E). apply midx_eqb_eq in E. now subst.
  - intros H. exists m. split; [exact H|apply midx_eqb_refl].
Qed.

Lemma in_filter_map {A B} (g : A -> option B) l y : In y (filter_map g l) <-> exists x, In x l /\ g x = Some y.
Proof.
  induction l as [|x l IH]; cbn.
  - split; [contradiction|]. now intros (x & [] & _).
  - destruct (g x) eqn:E; cbn; rewrite IH; split.
    + intros [<-|(z & H1 & H2)]; [exists x; auto|exists z; auto].
    + intros (z & [<-|H1] & H2); [left; congruence|right; exists z; auto].
    + intros (z & H1 & H2). exists z; auto.
    + intros (z & [<-|H1] & H2); [congruence|exists z; auto].
Qed.

Lemma gmap_ok {A B} (f : A -> gres B) l ys : gmap f l = GOk ys <-> Forall2 (fun x y => f x = GOk y) l ys.
Proof.
  revert ys; induction l as [|x l IH]; intros ys; cbn.
  - split; [intros H; injection H as <-; constructor|]. now inversion 1.
  - split.
    + destruct (f x) as [y|e] eqn:E; [|discriminate]. cbn. destruct (gmap f l) as [zs|e] eqn:G; [|discriminate]. cbn.
      intros H; injection H as <-. constructor; [exact E|]. now apply IH.
    + inversion 1 as [|? y ? ys' H1 H2]; subst. rewrite H1. cbn. apply IH in H2. now rewrite H2.
Qed.
Lemma gmap_map {A B} (f : A -> gres B) (g : A -> B) l : (forall x, In x l -> f x = GOk (g x)) -> gmap f l = GOk (map g l).
Proof.
  intros H. apply gmap_ok. induction l as [|x l IH]; cbn; constructor; [apply H; now left|].
  apply IH. intros y Hy. apply H. now right.
Qed.

(** ** Indices *)
Fixpoint get_in (ms : list message) (path : midx) : option message :=
  match path with
  | [] => None
  | i :: rest =>
    match nth_error ms i with
    | None => None
    | Some m => match rest with [] => Some m | _ => get_in (m_messages m) rest end
    end
  end.
Lemma walk_none rest : fold_left (fun cur next => match cur with Some m => nth_error (m_messages m) next | None => None end)
  rest (@None message) = None.
Proof. induction rest as [|i rest IH]; [reflexivity|exact IH]. Qed.
Lemma get_message_eq d p : get_message d p = get_in (d_messages d) p.
Proof.
  destruct p as [|i rest]; [reflexivity|]. cbn [get_message]. generalize (d_messages d). revert i.
  induction rest as [|j rest IH]; intros i ms; cbn [fold_left get_in].
  - destruct (nth_error ms i); reflexivity.
  - destruct (nth_error ms i) as [m|]; [|apply walk_none]. exact (IH j (m_messages m)).
Qed.

Lemma get_in_cons ms i rest m : nth_error ms i = Some m ->
  get_in ms (i :: rest) = match rest with [] => Some m | _ => get_in (m_messages m) rest end.
Proof. intros H. cbn. now rewrite H. Qed.
Lemma get_in_app ms p q m : get_in ms p = Some m -> q <> [] -> get_in ms (p ++ q) = get_in (m_messages m) q.
Proof.
  revert ms; induction p as [|i p IH]; intros ms H Q; [discriminate|]. cbn in H. cbn [app get_in].
  destruct (nth_error ms i) as [m0|]; [|discriminate]. destruct p as [|j p].
  - injection H as ->. cbn. destruct q; [contradiction|reflexivity].
  - rewrite <- (IH (m_messages m0) H Q). cbn. destruct (nth_error (m_messages m0) j); reflexivity.
Qed.
Lemma get_in_child ms p m k x : get_in ms p = Some m -> nth_error (m_messages m) k = Some x ->
  get_in ms (p ++ [k]) = Some x.
Proof. intros H N. rewrite (get_in_app ms p [k] m H) by discriminate. cbn. now rewrite N. Qed.

Lemma in_subtrees pre i l x : In x (subtrees pre i l) <-> exists k m, nth_error l k = Some m /\ In x (subtree (pre ++ [(i + k)%nat]) m).
Proof.
  revert i; induction l as [|y l IH]; intros i; cbn [subtrees].
  - split; [contradiction|]. intros (k & m & H & _). now destruct k.
  - rewrite in_app_iff, IH. split.
    + intros [H|(k & m & N & H)]; [exists O, y; rewrite Nat.add_0_r; auto|].
      exists (S k), m. replace (i + S k)%nat with (S i + k)%nat by lia. auto.
    + intros ([|k] & m & N & H); cbn in N.
      * injection N as ->. rewrite Nat.add_0_r in H. now left.
      * right. exists k, m. replace (S i + k)%nat with (i + S k)%nat by lia. auto.
Qed.
(** an entry of the subtree at [pre] is a path below [pre] *)
Lemma subtree_path m : forall pre p x, In (p, x) (subtree pre m) ->
  exists q, p = pre ++ q /\ (q = [] /\ x = m \/ q <> [] /\ get_in (m_messages m) q = Some x).
Proof.
  induction m as [m IH] using message_tree_ind. intros pre p x H. rewrite subtree_eq in H. destruct H as [E|H].
  - injection E as <- <-. exists []. rewrite app_nil_r. auto.
  - apply in_subtrees in H. destruct H as (k & m1 & N & H). rewrite Forall_forall in IH.
    destruct (IH m1 (nth_error_In _ _ N) _ _ _ H) as (q & -> & C). exists (k :: q). cbn [Nat.add].
    rewrite <- app_assoc. split; [reflexivity|]. right. split; [discriminate|].
    rewrite (get_in_cons _ _ _ _ N). destruct C as [(-> & ->)|(Q & G)]; [reflexivity|]. now destruct q.
Qed.
Lemma all_messages_get d p x : In (p, x) (all_messages d) <-> get_message d p = Some x.
Proof.
  split; [|apply get_message_in]. intros H. unfold all_messages in H. apply in_subtrees in H.
  destruct H as (k & m & N & H). destruct (subtree_path _ _ _ _ H) as (q & -> & C). cbn [Nat.add app].
  rewrite get_message_eq, (get_in_cons _ _ _ _ N). destruct C as [(-> & ->)|(Q & G)]; [reflexivity|]. now destruct q.
Qed.
Lemma all_messages_paths d p : In p (map fst (all_messages d)) <-> exists m, get_message d p = Some m.
Proof.
  rewrite in_map_iff. split.
  - intros ((p' & m) & <- & H). exists m. now apply all_messages_get.
  - intros (m & H). exists (p, m). split; [reflexivity|now apply all_messages_get].
Qed.

Lemma NoDup_app_intro {A} (l l' : list A) : NoDup l -> NoDup l' -> (forall x, In x l -> ~ In x l') -> NoDup (l ++ l').
Proof.
  induction l as [|a l IH]; intros N N' D; [exact N'|]. inversion N; subst. cbn. constructor.
  - intros H. apply in_app_iff in H. destruct H as [H|H]; [contradiction|]. exact (D a (or_introl eq_refl) H).
  - apply IH; auto. intros x Hx. apply D. now right.
Qed.
Lemma subtrees_nodup_gen l : Forall (fun m => forall pre, NoDup (map fst (subtree pre m))) l ->
  forall pre i, NoDup (map fst (subtrees pre i l)).
Proof.
  induction l as [|m l IH]; intros F pre i; cbn [subtrees]; [constructor|]. inversion F as [|? ? F1 F2]; subst.
  rewrite map_app. apply NoDup_app_intro; [apply F1|apply IH, F2|].
  intros p H1 H2. apply in_map_iff in H1, H2. destruct H1 as ((p1 & x1) & <- & H1), H2 as ((p2 & x2) & E & H2).
  cbn in E. subst p2. destruct (subtree_path _ _ _ _ H1) as (q & E & _).
  apply in_subtrees in H2. destruct H2 as (k & m2 & _ & H2). destruct (subtree_path _ _ _ _ H2) as (q2 & E2 & _).
  cbn [fst] in *. subst p1. rewrite <- !app_assoc in E2. apply app_inv_head in E2. cbn in E2. injection E2 as E2 _. lia.
Qed.
Lemma subtree_nodup m : forall pre, NoDup (map fst (subtree pre m)).
Proof.
  induction m as [m IH] using message_tree_ind. intros pre. rewrite subtree_eq. cbn. constructor.
  - intros H. apply in_map_iff in H. destruct H as ((p & x) & E & H). cbn in E. subst p.
    apply in_subtrees in H. destruct H as (k & m2 & _ & H). destruct (subtree_path _ _ _ _ H) as (q & E & _).
    rewrite <- app_assoc in E. rewrite <- (app_nil_r pre) in E at 1. apply app_inv_head in E. discriminate.
  - apply subtrees_nodup_gen, IH.
Qed.
Lemma all_messages_nodup d : NoDup (map fst (all_messages d)).
Proof. apply subtrees_nodup_gen, Forall_forall. intros m _. apply subtree_nodup. Qed.

(** ** flatten_messages *)
Definition indexed (d : file_descriptor) : Prop :=
  forall p m, get_message d p = Some m -> m_index m = p.

Lemma count_subtrees l : Forall (fun m => forall pre, length (subtree pre m) = count_messages m) l ->
  forall pre i, length (subtrees pre i l) = fold_right (fun x acc => count_messages x + acc)%nat O l.
Proof.
  induction l as [|m l IH]; intros F pre i; cbn; [reflexivity|]. inversion F as [|? ? F1 F2]; subst.
  now rewrite app_length, F1, IH.
Qed.
Lemma count_subtree m : forall pre, length (subtree pre m) = count_messages m.
Proof.
  induction m as [m IH] using message_tree_ind. intros pre. rewrite subtree_eq. destruct m as [? ? ? ? ? ? ? ms ? ? ?].
  cbn [length count_messages m_messages] in *. f_equal. now apply count_subtrees.
Qed.

Definition below (d : file_descriptor) (p : midx) : list midx :=
  match get_message d p with Some m => map fst (subtree p m) | None => [] end.

Lemma perm_flat_map {A B} (g : A -> list B) l l' : Permutation l l' -> Permutation (flat_map g l) (flat_map g l').
Proof.
  induction 1; cbn; auto.
  - now apply Permutation_app_head.
  - rewrite !app_assoc. apply Permutation_app_tail, Permutation_app_comm.
  - etransitivity; eassumption.
Qed.
Lemma below_children d p m l : get_message d p = Some m -> forall i,
  (forall k x, nth_error l k = Some x -> nth_error (m_messages m) (i + k)%nat = Some x) -> indexed d ->
  flat_map (below d) (map m_index l) = map fst (subtrees p i l).
Proof.
  intros G. induction l as [|x l IH]; intros i H I; cbn [subtrees map flat_map]; [reflexivity|].
  rewrite map_app. assert (Gx : get_message d (p ++ [i]) = Some x).
  { rewrite get_message_eq in *. apply (get_in_child _ _ m); [exact G|].
    specialize (H O x eq_refl). now rewrite Nat.add_0_r in H. }
  f_equal.
  - rewrite (I _ _ Gx). unfold below. now rewrite Gx.
  - apply (IH (S i)); [|exact I]. intros k y N. replace (S i + k)%nat with (i + S k)%nat by lia. apply H. exact N.
Qed.

Lemma flatten_loop_ok d : indexed d -> forall fuel stack,
  Forall (fun p => get_message d p <> None) stack ->
  (length (flat_map (below d) stack) <= fuel)%nat ->
  exists vs, flatten_loop fuel d stack = GOk vs /\ Permutation vs (flat_map (below d) stack).
Proof.
  intros I. induction fuel as [|fuel IH]; intros stack F L.
  - destruct stack as [|p stack]; [exists []; split; [reflexivity|constructor]|]. exfalso.
    inversion F as [|? ? F1 F2]; subst. cbn in L. unfold below in L at 1. destruct (get_message d p) as [m|]; [|congruence].
    rewrite subtree_eq in L. cbn in L. lia.
  - destruct stack as [|p stack]; [exists []; split; [reflexivity|constructor]|].
    inversion F as [|? ? F1 F2]; subst. cbn [flatten_loop]. destruct (get_message d p) as [m|] eqn:G; [|congruence].
    assert (E : flat_map (below d) (map m_index (m_messages m)) = map fst (subtrees p 0 (m_messages m))).
    { apply (below_children d p m (m_messages m) G 0); [|exact I]. intros k x N. exact N. }
    assert (Eb : below d p = p :: flat_map (below d) (map m_index (m_messages m))).
    { unfold below at 1. rewrite G, subtree_eq, E. reflexivity. }
    assert (P : Permutation (flat_map (below d) (rev (map m_index (m_messages m)) ++ stack))
                            (flat_map (below d) (map m_index (m_messages m)) ++ flat_map (below d) stack)).
    { rewrite flat_map_app. apply Permutation_app_tail, perm_flat_map. symmetry. apply Permutation_rev. }
    destruct (IH (rev (map m_index (m_messages m)) ++ stack)) as (vs & Ev & Pv).
    + apply Forall_app. split; [|exact F2]. apply Forall_rev, Forall_forall. intros q Hq.
      apply in_map_iff in Hq. destruct Hq as (x & <- & Hx). apply In_nth_error in Hx. destruct Hx as (k & N).
      assert (Gx : get_message d (p ++ [k]) = Some x).
      { rewrite get_message_eq in *. now apply (get_in_child _ _ m). }
      rewrite (I _ _ Gx), Gx. discriminate.
    + rewrite (Permutation_length P). cbn in L. rewrite Eb in L. rewrite app_length in *. cbn in L. lia.
    + rewrite Ev. cbn. exists (p :: vs). split; [reflexivity|]. rewrite Eb. cbn. constructor.
      etransitivity; [exact Pv|exact P].
Qed.

Lemma top_below d : indexed d -> flat_map (below d) (map m_index (d_messages d)) = map fst (all_messages d).
Proof.
  intros I. unfold all_messages.
  assert (A : forall l i, (forall k x, nth_error l k = Some x -> nth_error (d_messages d) (i + k)%nat = Some x) ->
    flat_map (below d) (map m_index l) = map fst (subtrees [] i l)).
  { induction l as [|x l IH]; intros i H; cbn [subtrees map flat_map]; [reflexivity|].
    rewrite map_app. assert (Gx : get_message d [i] = Some x).
    { specialize (H O x eq_refl). rewrite Nat.add_0_r in H. exact H. }
    f_equal.
    - rewrite (I _ _ Gx). unfold below. now rewrite Gx.
    - apply (IH (S i)). intros k y N. replace (S i + k)%nat with (i + S k)%nat by lia. apply H. exact N. }
  apply A. intros k x N. exact N.
Qed.

Lemma flatten_messages_ok d : indexed d -> exists vs, flatten_messages d = GOk vs /\
  NoDup vs /\ forall p, In p vs <-> exists m, get_message d p = Some m.
Proof.
  intros I. unfold flatten_messages.
  assert (P : Permutation (flat_map (below d) (rev (map m_index (d_messages d)))) (map fst (all_messages d))).
  { rewrite <- (top_below d I). apply perm_flat_map. symmetry. apply Permutation_rev. }
  destruct (flatten_loop_ok d I (default_depth d) (rev (map m_index (d_messages d)))) as (vs & E & Pv).
  - apply Forall_rev, Forall_forall. intros q Hq.
    apply in_map_iff in Hq. destruct Hq as (x & <- & Hx). apply In_nth_error in Hx. destruct Hx as (k & N).
    assert (Gx : get_message d [k] = Some x) by exact N. rewrite (I _ _ Gx), Gx. discriminate.
  - rewrite (Permutation_length P), map_length. unfold all_messages, default_depth.
    rewrite count_subtrees; [lia|]. apply Forall_forall. intros m _. apply count_subtree.
  - exists vs. split; [exact E|].
    assert (Pt : Permutation vs (map fst (all_messages d))) by (etransitivity; eassumption).
    split.
    + apply (Permutation_NoDup (l := map fst (all_messages d))); [now symmetry|apply all_messages_nodup].
    + intros p. rewrite <- all_messages_paths. split; apply Permutation_in; [exact Pt|now symmetry].
Qed.

(** ** vertices and edges *)
Lemma vertex_ids_ok d vs : indexed d -> Forall (fun p => get_message d p <> None) vs ->
  forall i, exists ids, vertex_ids d i vs = GOk ids /\
    forall m k, In (m, k) ids <-> exists j, k = (i + j)%nat /\ nth_error vs j = Some m.
Proof.
  intros I. induction vs as [|v vs IH]; intros F i; cbn [vertex_ids].
  - exists []. split; [reflexivity|]. intros m k. split; [contradiction|]. intros (j & _ & H). now destruct j.
  - inversion F as [|? ? F1 F2]; subst. destruct (get_message d v) as [mv|] eqn:G; [|congruence].
    destruct (IH F2 (S i)) as (ids & E & H). rewrite E. cbn. eexists. split; [reflexivity|].
    intros m k. rewrite in_app_iff, H. cbn. rewrite (I _ _ G). split.
    + intros [(j & -> & N)|[E'|[]]]; [exists (S j); split; [lia|exact N]|].
      injection E' as <- <-. exists O. split; [lia|reflexivity].
    + intros ([|j] & -> & N); cbn in N.
      * right. left. injection N as ->. f_equal. lia.
      * left. exists j. split; [lia|exact N].
Qed.
Lemma ids_get_in ids m i : ids_get ids m = Some i -> In (m, i) ids.
Proof.
  induction ids as [|(m', i') ids IH]; cbn; [discriminate|]. destruct (midx_eqb m m') eqn:E.
  - intros H; injection H as <-. apply midx_eqb_eq in E. subst. now left.
  - intros H. right. auto.
Qed.
Lemma ids_get_some ids m i : In (m, i) ids -> exists j, ids_get ids m = Some j.
Proof.
  induction ids as [|(m', i') ids IH]; cbn; [contradiction|]. destruct (midx_eqb m m') eqn:E; [eauto|].
  intros [H|H]; [|auto]. injection H as -> ->. rewrite midx_eqb_refl in E. discriminate.
Qed.
Lemma vertex_ids_get d vs ids : indexed d -> NoDup vs -> Forall (fun p => get_message d p <> None) vs ->
  vertex_ids d 0 vs = GOk ids -> forall m k, ids_get ids m = Some k <-> nth_error vs k = Some m.
Proof.
  intros I N F E m k. destruct (vertex_ids_ok d vs I F 0) as (ids' & E' & H). rewrite E in E'. injection E' as <-.
  split.
  - intros G. apply ids_get_in, H in G. destruct G as (j & -> & G). exact G.
  - intros G. destruct (ids_get_some ids m k) as (j & J); [apply H; exists k; auto|].
    rewrite J. f_equal. apply ids_get_in, H in J. destruct J as (j' & -> & J). cbn.
    pose proof (NoDup_nth_error vs) as [Q _]. apply (Q N); [apply nth_error_Some; congruence|congruence].
Qed.

(** by-value containment: message [i] has a field (possibly in a oneof) of
    message type [j] that is neither repeated nor boxed *)
Definition by_value (d : file_descriptor) (i j : midx) : Prop :=
  exists m f, get_message d i = Some m /\ In f (all_fields m) /\
    f_boxed f = false /\ freq_is_repeated (f_freq f) = false /\ f_typ f = TMessage j.

Lemma msg_succs_in d vs ids u k : (forall m k, ids_get ids m = Some k <-> nth_error vs k = Some m) ->
  In k (msg_succs d vs ids u) <-> exists i j, nth_error vs u = Some i /\ nth_error vs k = Some j /\ by_value d i j.
Proof.
  intros H. unfold msg_succs. split.
  - destruct (nth_error vs u) as [i|] eqn:Ei; [|contradiction]. destruct (get_message d i) as [m|] eqn:G; [|contradiction].
    intros K. apply in_filter_map in K. destruct K as (j & K & E). apply H in E.
    apply in_filter_map in K. destruct K as (f & K & T). apply filter_In in K. destruct K as (K & B).
    exists i, j. split; [reflexivity|]. split; [exact E|]. exists m, f. split; [exact G|]. split; [exact K|].
    destruct (f_boxed f), (freq_is_repeated (f_freq f)); try discriminate B. destruct (f_typ f); try discriminate T.
    injection T as ->. auto.
  - intros (i & j & Ei & Ej & m & f & G & K & B1 & B2 & T). rewrite Ei, G. apply in_filter_map. exists j. split; [|now apply H].
    apply in_filter_map. exists f. split; [|now rewrite T]. apply filter_In. split; [exact K|]. now rewrite B1, B2.
Qed.

(** paths of by-value fields *)
Inductive value_path (d : file_descriptor) : midx -> midx -> Prop :=
| vp_refl : forall i, value_path d i i
| vp_step : forall i j k, by_value d i j -> value_path d j k -> value_path d i k.

Lemma value_path_trans d i j k : value_path d i j -> value_path d j k -> value_path d i k.
Proof. induction 1 as [|i j l B _ IH]; intros H; [exact H|]. exact (vp_step d i j k B (IH H)). Qed.

Definition closed_refs (d : file_descriptor) : Prop :=
  forall i m f j, get_message d i = Some m -> In f (all_fields m) -> f_typ f = TMessage j ->
    exists mj, get_message d j = Some mj.

Lemma Forall2_map_l {A B} (g : A -> B) l : Forall2 (fun x y => y = g x) l (map g l).
Proof. induction l; cbn; constructor; auto. Qed.

Lemma map_nth_seq {A} (l : list A) x : map (fun i => nth i l x) (seq 0 (length l)) = l.
Proof.
  induction l as [|v l IH]; [reflexivity|]. cbn [length seq map]. f_equal.
  rewrite <- seq_shift, map_map. exact IH.
Qed.

Theorem sccs_ok d : indexed d -> exists cs, sccs d = GOk cs /\
  NoDup (concat cs) /\
  (forall p, In p (concat cs) <-> exists m, get_message d p = Some m) /\
  (forall l1 c l2 i j, cs = l1 ++ c :: l2 -> In i c -> by_value d i j -> (exists m, get_message d j = Some m) ->
     In j (concat (l1 ++ [c]))) /\
  (forall c i j, In c cs -> In i c -> In j c -> value_path d i j).
Proof.
  intros I. destruct (flatten_messages_ok d I) as (vs & E & N & V).
  assert (F : Forall (fun p => get_message d p <> None) vs).
  { apply Forall_forall. intros p Hp. apply V in Hp. destruct Hp as (m & ->). discriminate. }
  destruct (vertex_ids_ok d vs I F 0) as (ids & Ei & _).
  pose proof (vertex_ids_get d vs ids I N F Ei) as Hid.
  set (S := msg_succs d vs ids).
  assert (SO : forall u v, (u < length vs)%nat -> In v (S u) -> (v < length vs)%nat).
  { intros u v _ Hv. apply (msg_succs_in d vs ids u v Hid) in Hv. destruct Hv as (i & j & _ & Hj & _).
    apply nth_error_Some. congruence. }
  destruct (scc_run_correct (length vs) S SO) as (cs & Er & P & O & St).
  set (g := fun i => nth i vs []).
  assert (Lt : forall c x, In c cs -> In x c -> (x < length vs)%nat).
  { intros c x Hc Hx. assert (Hs : In x (seq 0 (length vs))).
    { apply (Permutation_in x P), in_concat. eauto. } apply in_seq in Hs. lia. }
  assert (Ge : forall x, (x < length vs)%nat -> nth_error vs x = Some (g x)).
  { intros x L. now apply nth_error_nth'. }
  exists (map (map g) cs). split.
  { unfold sccs. rewrite E. cbn. rewrite Ei. cbn. fold S. rewrite Er.
    apply gmap_map. intros c Hc. apply gmap_map. intros x Hx. now rewrite (Ge x (Lt c x Hc Hx)). }
  assert (Cm : forall l, concat (map (map g) l) = map g (concat l)) by (intros l; symmetry; apply concat_map).
  assert (Pv : Permutation (concat (map (map g) cs)) vs).
  { rewrite Cm. etransitivity; [apply Permutation_map, P|]. apply Permutation_refl'.
    apply map_nth_seq. }
  split; [|split; [|split]].
  - apply (Permutation_NoDup (l := vs)); [now symmetry|exact N].
  - intros p. rewrite <- V. split; apply Permutation_in; [exact Pv|now symmetry].
  - intros l1 c l2 i j Ec Hi B Hj.
    apply map_eq_app in Ec. destruct Ec as (k1 & k2 & -> & <- & E2).
    destruct k2 as [|kc k2]; [discriminate|]. cbn in E2. injection E2 as <- <-.
    apply in_map_iff in Hi. destruct Hi as (x & Ex & Hx).
    assert (Lx : (x < length vs)%nat) by (apply (Lt kc x); [apply in_or_app; right; now left|exact Hx]).
    apply V, In_nth_error in Hj. destruct Hj as (y & Hy).
    assert (Ly : (y < length vs)%nat) by (apply nth_error_Some; congruence).
    assert (Sy : In y (S x)).
    { apply (msg_succs_in d vs ids x y Hid). exists i, j. rewrite (Ge x Lx), Ex. auto. }
    pose proof (O k1 kc k2 x y eq_refl Hx Sy) as R.
    assert (Ey : j = g y) by (rewrite (Ge y Ly) in Hy; congruence).
    rewrite Ey. change [map g kc] with (map (map g) [kc]). rewrite <- map_app, Cm. now apply in_map.
  - intros c i j Hc Hi Hj. apply in_map_iff in Hc. destruct Hc as (k & <- & Hk).
    apply in_map_iff in Hi, Hj. destruct Hi as (x & <- & Hx), Hj as (y & <- & Hy).
    pose proof (St k x y Hk Hx Hy) as R. pose proof (Lt k x Hk Hx) as Lx. clear Hx Hy.
    induction R as [u|u v w Huv R IH]; [apply vp_refl|].
    pose proof Huv as Huv'. apply (msg_succs_in d vs ids u v Hid) in Huv'. destruct Huv' as (a & b & Ha & Hb & B).
    assert (Lv : (v < length vs)%nat) by (apply nth_error_Some; congruence).
    rewrite (Ge u Lx) in Ha. injection Ha as <-. rewrite (Ge v Lv) in Hb. injection Hb as <-.
    exact (vp_step d _ _ _ B (IH Lv)).
Qed.
