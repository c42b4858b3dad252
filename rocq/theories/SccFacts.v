(** Correctness of the strongly-connected-components algorithm. *)
From Coq Require Import Arith Lia Sorting.Sorted Sorting.Permutation ZifyBool ZifyNat.
From Verif Require Import Base Schema Scc.

Section Tarjan.
Variable n : nat.
Variable succs : nat -> list nat.
Hypothesis succs_ok : forall u v, (u < n)%nat -> In v (succs u) -> (v < n)%nat.

Inductive reach : nat -> nat -> Prop :=
| reach_refl : forall u, reach u u
| reach_step : forall u v w, In v (succs u) -> reach v w -> reach u w.

Lemma reach_trans : forall u v w, reach u v -> reach v w -> reach u w.
Proof. induction 1 as [|u v x I _ IH]; intros H; [exact H|]. exact (reach_step u v w I (IH H)). Qed.
Lemma reach_edge : forall u v, In v (succs u) -> reach u v.
Proof. intros u v I. exact (reach_step u v v I (reach_refl v)). Qed.

(** a set closed under edges is closed under paths *)
Lemma reach_closed : forall (P : nat -> Prop), (forall x y, P x -> In y (succs x) -> P y) ->
  forall x y, reach x y -> P x -> P y.
Proof. intros P C x y H. induction H as [|u v w I _ IH]; intros Px; [exact Px|]. apply IH, (C u v Px I). Qed.

Definition done (s : scc_state) : list nat := concat (sc_sccs s).
Definition visited (s : scc_state) (v : nat) : Prop := In v (sc_stack s) \/ In v (done s).

Record inv (gray : list nat) (s : scc_state) : Prop := mkInv {
  i_nodup : NoDup (sc_stack s ++ done s);
  i_disc : forall v, sc_disc s v = -1 <-> ~ visited s v;
  i_range : forall v, visited s v -> 0 <= sc_disc s v < sc_count s;
  i_count : 0 <= sc_count s;
  i_lt : forall v, visited s v -> (v < n)%nat;
  i_sorted : StronglySorted (fun a b => sc_disc s b < sc_disc s a) (sc_stack s);
  i_up : forall x y, In x (sc_stack s) -> In y (sc_stack s) ->
         sc_disc s x <= sc_disc s y -> reach x y;
  i_down : forall x, In x (sc_stack s) -> ~ In x gray ->
         exists y, In y (sc_stack s) /\ sc_disc s y < sc_disc s x /\ reach x y;
  i_gray : forall x, In x gray -> In x (sc_stack s);
  i_black : forall x y, visited s x -> ~ In x gray -> In y (succs x) -> visited s y;
  i_order : forall l1 c l2 x y, sc_sccs s = l1 ++ c :: l2 -> In x c -> In y (succs x) ->
         In y (concat (l1 ++ [c]));
  i_strong : forall c x y, In c (sc_sccs s) -> In x c -> In y c -> reach x y }.

(** what one call leaves behind *)
Record frame (s s' : scc_state) : Prop := mkFrame {
  f_visited : forall v, visited s v -> visited s' v;
  f_disc : forall v, visited s v -> sc_disc s' v = sc_disc s v;
  f_low : forall v, visited s v -> sc_low s' v = sc_low s v;
  f_count : sc_count s <= sc_count s';
  f_sccs : exists N, sc_sccs s' = sc_sccs s ++ N;
  f_stack : exists S2, sc_stack s' = S2 ++ sc_stack s }.

Definition unvisited (s : scc_state) : nat :=
  length (filter (fun v => sc_disc s v =? -1) (seq 0 n)).

Lemma filter_le {A} (f g : A -> bool) l : (forall x, In x l -> g x = true -> f x = true) ->
  (length (filter g l) <= length (filter f l))%nat.
Proof.
  induction l as [|x l IH]; intros H; cbn; [lia|].
  assert (L : (length (filter g l) <= length (filter f l))%nat) by (apply IH; intros y I; apply H; now right).
  destruct (g x) eqn:G.
  - rewrite (H x (or_introl eq_refl) G). cbn. lia.
  - destruct (f x); cbn; lia.
Qed.
Lemma filter_lt {A} (f g : A -> bool) l a : In a l -> f a = true -> g a = false ->
  (forall x, In x l -> g x = true -> f x = true) ->
  (length (filter g l) < length (filter f l))%nat.
Proof.
  induction l as [|x l IH]; intros I Fa Ga H; [contradiction|]. cbn.
  assert (L : (length (filter g l) <= length (filter f l))%nat) by (apply filter_le; intros y J; apply H; now right).
  destruct I as [->|I].
  - rewrite Fa, Ga. cbn. lia.
  - assert (L' : (length (filter g l) < length (filter f l))%nat) by (apply IH; auto; intros y J; apply H; now right).
    destruct (g x) eqn:G.
    + rewrite (H x (or_introl eq_refl) G). cbn. lia.
    + destruct (f x); cbn; lia.
Qed.

Lemma frame_unvisited g g' s s' : inv g s -> inv g' s' -> frame s s' -> (unvisited s' <= unvisited s)%nat.
Proof.
  intros Is Is' F. unfold unvisited. apply filter_le. intros v _ H. apply Z.eqb_eq in H. apply Z.eqb_eq.
  apply (i_disc _ _ Is). intros V. apply (i_disc _ _ Is') in H. apply H, (f_visited _ _ F), V.
Qed.

Lemma frame_refl s : frame s s.
Proof. constructor; auto; try lia; [exists []; now rewrite app_nil_r|now exists []]. Qed.
Lemma frame_trans s1 s2 s3 : frame s1 s2 -> frame s2 s3 -> frame s1 s3.
Proof.
  intros [V1 D1 L1 C1 [N1 E1] [T1 S1]] [V2 D2 L2 C2 [N2 E2] [T2 S2]].
  constructor; auto.
  - intros v H. now rewrite D2, D1 by auto.
  - intros v H. now rewrite L2, L1 by auto.
  - lia.
  - exists (N1 ++ N2). now rewrite E2, E1, app_assoc.
  - exists (T2 ++ T1). now rewrite S2, S1, app_assoc.
Qed.

(** every vertex on the stack reaches a gray one, if there is one at all *)
Lemma stack_to_gray gray s : inv gray s -> forall x, In x (sc_stack s) ->
  exists g, In g gray /\ reach x g.
Proof.
  intros I.
  assert (A : forall k x, In x (sc_stack s) -> sc_disc s x < Z.of_nat k -> exists g, In g gray /\ reach x g).
  { induction k as [|k IH]; intros x Hx L.
    - pose proof (i_range _ _ I x (or_introl Hx)). lia.
    - destruct (in_dec Nat.eq_dec x gray) as [G|G]; [exists x; split; [exact G|apply reach_refl]|].
      destruct (i_down _ _ I x Hx G) as (y & Hy & Ly & R).
      destruct (IH y Hy) as (g & Hg & Rg); [lia|]. exists g. split; [exact Hg|].
      exact (reach_trans _ _ _ R Rg). }
  intros x Hx. apply (A (S (Z.to_nat (sc_disc s x)))); [exact Hx|].
  pose proof (i_range _ _ I x (or_introl Hx)). lia.
Qed.

Lemma NoDup_app_l {A} (l l' : list A) : NoDup (l ++ l') -> NoDup l.
Proof.
  induction l as [|a l IH]; intros N; [constructor|]. inversion N as [|? ? N1 N2]; subst.
  constructor; [|exact (IH N2)]. intros H. apply N1, in_or_app. now left.
Qed.

(** the state of the loop inside the call for [u] *)
Record loop_inv (gray : list nat) (u : nat) (s0 s : scc_state) (todo : list nat) : Prop := mkLoop {
  l_inv : inv (u :: gray) s;
  l_frame : frame s0 s;
  l_stack : exists S2, sc_stack s = S2 ++ u :: sc_stack s0;
  l_disc : sc_disc s u = sc_count s0;
  l_low_le : sc_low s u <= sc_disc s u;
  l_low_ex : exists y, In y (sc_stack s) /\ sc_disc s y = sc_low s u /\ reach u y;
  l_edges : forall x y, In x (sc_stack s) -> ~ In x (sc_stack s0) -> In y (succs x) ->
            In y (sc_stack s0) -> (x = u /\ In y todo) \/ sc_low s u <= sc_disc s y;
  l_todo : forall y, In y (succs u) -> In y todo \/ visited s y }.

(** the contract of one call *)
Definition post (gray : list nat) (u : nat) (s0 s : scc_state) : Prop :=
  inv gray s /\ frame s0 s /\ visited s u /\
  sc_disc s u = sc_count s0 /\ sc_low s u <= sc_disc s u /\
  (In u (sc_stack s) -> exists y, In y (sc_stack s0) /\ sc_disc s y = sc_low s u /\ reach u y) /\
  (~ In u (sc_stack s) -> sc_low s u = sc_disc s u) /\
  (forall x y, In x (sc_stack s) -> ~ In x (sc_stack s0) -> In y (succs x) ->
     In y (sc_stack s0) -> sc_low s u <= sc_disc s y).

Lemma visited_low u x s v : visited (set_low u x s) v <-> visited s v.
Proof. reflexivity. Qed.
Lemma inv_low gray u x s : inv gray s -> inv gray (set_low u x s).
Proof. intros []. constructor; assumption. Qed.

Lemma enter_inv gray u s : inv gray s -> (u < n)%nat -> ~ visited s u ->
  (forall g, In g gray -> reach g u) ->
  loop_inv gray u s (scc_enter u s) (succs u).
Proof.
  intros I Hu NV G.
  assert (V : forall v, visited (scc_enter u s) v <-> v = u \/ visited s v).
  { intros v. unfold visited, done. cbn. intuition. }
  assert (E : forall v, visited s v -> sc_disc (scc_enter u s) v = sc_disc s v).
  { intros v H. cbn. unfold upd. destruct (Nat.eqb_spec v u) as [->|_]; [contradiction|reflexivity]. }
  assert (El : forall v, visited s v -> sc_low (scc_enter u s) v = sc_low s v).
  { intros v H. cbn. unfold upd. destruct (Nat.eqb_spec v u) as [->|_]; [contradiction|reflexivity]. }
  assert (Eu : sc_disc (scc_enter u s) u = sc_count s) by (cbn; unfold upd; now rewrite Nat.eqb_refl).
  assert (Elu : sc_low (scc_enter u s) u = sc_count s) by (cbn; unfold upd; now rewrite Nat.eqb_refl).
  pose proof (i_count _ _ I) as C0.
  assert (F : frame s (scc_enter u s)).
  { constructor; auto.
    - intros v H. apply V. now right.
    - cbn. lia.
    - exists []. cbn. now rewrite app_nil_r.
    - exists [u]. reflexivity. }
  constructor.
  - constructor.
    + cbn. constructor; [|exact (i_nodup _ _ I)]. intros H. apply NV. apply in_app_or in H. exact H.
    + intros v. rewrite V. destruct (Nat.eq_dec v u) as [->|D].
      * rewrite Eu. split; [lia|]. intros H. exfalso. apply H. now left.
      * split.
        -- intros H [->|Vv]; [now apply D|]. rewrite (E v Vv) in H. exact (proj1 (i_disc _ _ I v) H Vv).
        -- intros H. cbn. unfold upd. destruct (Nat.eqb_spec v u); [contradiction|].
           apply (i_disc _ _ I). tauto.
    + intros v H. apply V in H. destruct H as [->|H].
      * rewrite Eu. cbn. lia.
      * rewrite (E v H). cbn. pose proof (i_range _ _ I v H). lia.
    + cbn. lia.
    + intros v H. apply V in H. destruct H as [->|H]; [exact Hu|exact (i_lt _ _ I v H)].
    + cbn [scc_enter sc_stack]. constructor.
      * assert (A : forall l, (forall a, In a l -> visited s a) ->
                  StronglySorted (fun a b => sc_disc s b < sc_disc s a) l ->
                  StronglySorted (fun a b => sc_disc (scc_enter u s) b < sc_disc (scc_enter u s) a) l).
        { induction l as [|a l IH]; intros H S; [constructor|]. inversion S as [|? ? S1 S2]; subst.
          constructor; [apply IH; [intros b Hb; apply H; now right|exact S1]|].
          apply Forall_forall. intros b Hb. rewrite Forall_forall in S2.
          rewrite (E a), (E b); [exact (S2 b Hb)| |]; apply H; [now right|now left]. }
        apply A; [intros a Ha; now left|exact (i_sorted _ _ I)].
      * apply Forall_forall. intros b Hb. rewrite Eu, (E b (or_introl Hb)).
        pose proof (i_range _ _ I b (or_introl Hb)). lia.
    + intros x y Hx Hy L. cbn [scc_enter sc_stack] in Hx, Hy. destruct Hx as [<-|Hx], Hy as [<-|Hy].
      * apply reach_refl.
      * exfalso. rewrite Eu, (E y (or_introl Hy)) in L. pose proof (i_range _ _ I y (or_introl Hy)). lia.
      * destruct (stack_to_gray gray s I x Hx) as (g & Hg & R). exact (reach_trans _ _ _ R (G g Hg)).
      * rewrite (E x (or_introl Hx)), (E y (or_introl Hy)) in L. exact (i_up _ _ I x y Hx Hy L).
    + intros x Hx Gx. cbn [scc_enter sc_stack] in Hx. destruct Hx as [<-|Hx]; [exfalso; apply Gx; now left|].
      destruct (i_down _ _ I x Hx) as (y & Hy & L & R); [intros K; apply Gx; now right|].
      exists y. split; [now right|]. rewrite (E x (or_introl Hx)), (E y (or_introl Hy)). auto.
    + intros x [<-|Hx]; [now left|]. right. exact (i_gray _ _ I x Hx).
    + intros x y Vx Gx Hy. apply V. right. apply V in Vx. destruct Vx as [->|Vx]; [exfalso; apply Gx; now left|].
      apply (i_black _ _ I x y Vx); [intros K; apply Gx; now right|exact Hy].
    + exact (i_order _ _ I).
    + exact (i_strong _ _ I).
  - exact F.
  - exists []. reflexivity.
  - exact Eu.
  - rewrite Elu, Eu. lia.
  - exists u. split; [now left|]. split; [now rewrite Eu, Elu|apply reach_refl].
  - intros x y Hx Nx Hy Sy. cbn [scc_enter sc_stack] in Hx. destruct Hx as [<-|Hx]; [|contradiction].
    left. auto.
  - intros y Hy. now left.
Qed.

(** on a sorted stack, the position of a vertex is given by its number *)
Lemma sorted_app_lt (d : nat -> Z) S1 S2 : StronglySorted (fun a b => d b < d a) (S1 ++ S2) ->
  forall x y, In x S1 -> In y S2 -> d y < d x.
Proof.
  induction S1 as [|a S1 IH]; intros S x y Hx Hy; [contradiction|]. cbn in S. inversion S as [|? ? S' F]; subst.
  destruct Hx as [->|Hx]; [|exact (IH S' x y Hx Hy)].
  rewrite Forall_forall in F. apply F, in_or_app. now right.
Qed.
Lemma sorted_app_r (d : nat -> Z) S1 S2 : StronglySorted (fun a b => d b < d a) (S1 ++ S2) ->
  StronglySorted (fun a b => d b < d a) S2.
Proof. induction S1 as [|a S1 IH]; intros S; [exact S|]. inversion S; subst. auto. Qed.

Lemma pop_until_app u S2 S0 : ~ In u S2 -> pop_until u (S2 ++ u :: S0) = (S2 ++ [u], S0).
Proof.
  induction S2 as [|a S2 IH]; intros H; cbn.
  - now rewrite Nat.eqb_refl.
  - destruct (Nat.eqb_spec a u) as [->|_]; [exfalso; apply H; now left|].
    rewrite IH; [reflexivity|]. intros K. apply H. now right.
Qed.

Lemma exit_post gray u s0 s : inv gray s0 -> ~ visited s0 u ->
  loop_inv gray u s0 s [] -> post gray u s0 (scc_exit u s).
Proof.
  intros I0 NV0 L. pose proof (l_inv _ _ _ _ _ L) as I. pose proof (l_frame _ _ _ _ _ L) as F.
  destruct (l_stack _ _ _ _ _ L) as (S2 & ES).
  assert (ND : NoDup (S2 ++ u :: sc_stack s0)).
  { pose proof (i_nodup _ _ I) as H. rewrite ES in H. exact (NoDup_app_l _ _ H). }
  assert (Nu2 : ~ In u S2).
  { intros H. apply NoDup_remove_2 in ND. apply ND, in_or_app. now left. }
  assert (Nu0 : ~ In u (sc_stack s0)) by (intros H; apply NV0; now left).
  assert (Dis : forall x, In x (S2 ++ [u]) -> ~ In x (sc_stack s0)).
  { intros x Hx K. apply in_app_or in Hx. destruct Hx as [Hx|[->|[]]]; [|contradiction].
    clear - ND Hx K. induction S2 as [|a S2 IH]; [contradiction|]. cbn in ND. inversion ND as [|? ? N1 N2]; subst.
    destruct Hx as [->|Hx]; [apply N1, in_or_app; right; now right|]. exact (IH N2 Hx). }
  assert (Gu : ~ In u gray) by (intros H; apply Nu0, (i_gray _ _ I0), H).
  assert (Su : In u (sc_stack s)) by (rewrite ES; apply in_or_app; right; now left).
  (* all successors of the new part of the stack have been visited *)
  assert (B : forall x y, In x (S2 ++ [u]) -> In y (succs x) -> visited s y).
  { intros x y Hx Hy. apply in_app_or in Hx. destruct Hx as [Hx|[<-|[]]].
    - apply (i_black _ _ I x y).
      + left. rewrite ES. apply in_or_app. now left.
      + intros [->|K]; [contradiction|]. apply (Dis x); [apply in_or_app; now left|]. exact (i_gray _ _ I0 x K).
      + exact Hy.
    - destruct (l_todo _ _ _ _ _ L y Hy) as [[]|V]. exact V. }
  unfold scc_exit. destruct (Z.eqb_spec (sc_low s u) (sc_disc s u)) as [Elow|Nlow].
  - (* a component is popped *)
    rewrite ES, pop_until_app by exact Nu2.
    set (s' := mkScc (sc_count s) (sc_low s) (sc_disc s) (sc_stack s0) (sc_sccs s ++ [S2 ++ [u]])).
    assert (Dn : done s' = done s ++ S2 ++ [u]).
    { unfold done, s'. cbn [sc_sccs]. rewrite concat_app. cbn. now rewrite app_nil_r. }
    assert (V' : forall v, visited s' v <-> visited s v).
    { intros v. unfold visited. rewrite Dn, ES. change (sc_stack s') with (sc_stack s0).
      rewrite !in_app_iff. cbn. tauto. }
    (* no edge leaves the new part towards the old stack *)
    assert (NE : forall x y, In x (S2 ++ [u]) -> In y (succs x) -> In y (S2 ++ [u]) \/ In y (done s)).
    { intros x y Hx Hy. destruct (B x y Hx Hy) as [K|K]; [|now right].
      rewrite ES in K. apply in_app_or in K. destruct K as [K|[<-|K]].
      - left. apply in_or_app. now left.
      - left. apply in_or_app. right. now left.
      - exfalso.
        assert (Hxs : In x (sc_stack s)).
        { rewrite ES. apply in_app_or in Hx. apply in_or_app. destruct Hx as [Hx|[<-|[]]]; [now left|right; now left]. }
        destruct (l_edges _ _ _ _ _ L x y Hxs (Dis x Hx) Hy K) as [(_ & [])|Le].
        rewrite Elow in Le. pose proof (i_sorted _ _ I) as So. rewrite ES in So.
        apply sorted_app_r in So. inversion So as [|? ? _ Fo]; subst.
        rewrite Forall_forall in Fo. specialize (Fo y K). cbn beta in Fo. lia. }
    assert (Cd : forall x y, In x (done s) -> In y (succs x) -> In y (done s)).
    { intros x y Hx Hy. unfold done in *. apply in_concat in Hx. destruct Hx as (c & Hc & Hx).
      apply in_split in Hc. destruct Hc as (l1 & l2 & El).
      pose proof (i_order _ _ I l1 c l2 x y El Hx Hy) as H. rewrite El.
      rewrite concat_app in H |- *. cbn in *. rewrite app_nil_r in H.
      rewrite app_assoc. apply in_or_app. now left. }
    (* every vertex of the new part reaches u *)
    assert (Ru : forall k x, In x (S2 ++ [u]) -> sc_disc s x < Z.of_nat k -> reach x u).
    { induction k as [|k IH]; intros x Hx Lx.
      - assert (Vx : visited s x).
        { left. rewrite ES. apply in_app_or in Hx. apply in_or_app. destruct Hx as [Hx|[<-|[]]]; [now left|right; now left]. }
        pose proof (i_range _ _ I x Vx). lia.
      - destruct (Nat.eq_dec x u) as [->|Nx]; [apply reach_refl|].
        assert (Hx2 : In x S2) by (apply in_app_or in Hx; destruct Hx as [Hx|[<-|[]]]; [exact Hx|now contradiction Nx]).
        destruct (i_down _ _ I x) as (y & Hy & Ly & R).
        + rewrite ES. apply in_or_app. now left.
        + intros [->|K]; [now contradiction Nx|]. apply (Dis x Hx). exact (i_gray _ _ I0 x K).
        + assert (Cy : In y (S2 ++ [u]) \/ In y (done s)).
          { apply (reach_closed (fun z => In z (S2 ++ [u]) \/ In z (done s))) with (x := x); [|exact R|now left].
            intros a b [Ha|Ha] Hb; [exact (NE a b Ha Hb)|right; exact (Cd a b Ha Hb)]. }
          destruct Cy as [Cy|Cy].
          * exact (reach_trans _ _ _ R (IH y Cy ltac:(lia))).
          * exfalso. pose proof (i_nodup _ _ I) as N. clear - N Hy Cy.
            apply in_split in Hy. destruct Hy as (a & b & E). rewrite E in N. rewrite <- app_assoc in N.
            apply NoDup_remove_2 in N. apply N. rewrite app_assoc. apply in_or_app. now right. }
    assert (Ru' : forall x, In x (S2 ++ [u]) -> reach x u).
    { intros x Hx. apply (Ru (S (Z.to_nat (sc_disc s x))) x Hx).
      assert (Vx : visited s x).
      { left. rewrite ES. apply in_app_or in Hx. apply in_or_app. destruct Hx as [Hx|[<-|[]]]; [now left|right; now left]. }
      pose proof (i_range _ _ I x Vx). lia. }
    assert (Fu : forall x, In x (S2 ++ [u]) -> reach u x).
    { intros x Hx. apply in_app_or in Hx. destruct Hx as [Hx|[<-|[]]]; [|apply reach_refl].
      apply (i_up _ _ I); [exact Su|rewrite ES; apply in_or_app; now left|].
      pose proof (i_sorted _ _ I) as So. rewrite ES in So.
      pose proof (sorted_app_lt _ _ _ So x u Hx (or_introl eq_refl)). lia. }
    assert (F' : frame s0 s').
    { destruct F as [FV FD FL FC [N FN] _]. constructor.
      - intros v H. apply V'. auto.
      - exact FD.
      - exact FL.
      - exact FC.
      - exists (N ++ [S2 ++ [u]]). cbn. now rewrite FN, app_assoc.
      - exists []. reflexivity. }
    assert (In' : inv gray s').
    { constructor.
      - rewrite Dn. change (sc_stack s') with (sc_stack s0).
        pose proof (i_nodup _ _ I) as N. rewrite ES in N.
        apply (Permutation_NoDup (l := (S2 ++ u :: sc_stack s0) ++ done s)); [|exact N].
        change (u :: sc_stack s0) with ([u] ++ sc_stack s0). rewrite (app_assoc S2), <- app_assoc.
        rewrite (app_assoc (sc_stack s0)). apply Permutation_app_comm.
      - intros v. rewrite V'. exact (i_disc _ _ I v).
      - intros v H. apply V' in H. exact (i_range _ _ I v H).
      - exact (i_count _ _ I).
      - intros v H. apply V' in H. exact (i_lt _ _ I v H).
      - pose proof (i_sorted _ _ I) as So. rewrite ES in So. change (u :: sc_stack s0) with ([u] ++ sc_stack s0) in So.
        rewrite app_assoc in So. exact (sorted_app_r _ _ _ So).
      - intros x y Hx Hy Le. apply (i_up _ _ I); [| |exact Le]; rewrite ES; apply in_or_app; right; now right.
      - intros x Hx Gx. change (sc_stack s') with (sc_stack s0) in Hx |- *.
        destruct (i_down _ _ I0 x Hx Gx) as (y & Hy & Ly & R). exists y. split; [exact Hy|].
        change (sc_disc s') with (sc_disc s). rewrite !(f_disc _ _ F) by (now left). auto.
      - exact (i_gray _ _ I0).
      - intros x y Vx Gx Hy. apply V'. apply V' in Vx.
        destruct (Nat.eq_dec x u) as [->|Nx].
        + apply (B u y); [apply in_or_app; right; now left|exact Hy].
        + apply (i_black _ _ I x y Vx); [|exact Hy]. intros [->|K]; [now contradiction Nx|contradiction].
      - intros l1 c l2 x y El Hx Hy. cbn in El.
        destruct (list_eq_dec (list_eq_dec Nat.eq_dec) l2 []) as [->|Nl2].
        + apply app_inj_tail in El. destruct El as (<- & <-).
          rewrite concat_app. cbn. rewrite app_nil_r. apply in_or_app.
          destruct (NE x y Hx Hy); auto.
        + destruct (exists_last Nl2) as (l3 & c3 & ->).
          rewrite app_comm_cons, app_assoc in El. apply app_inj_tail in El. destruct El as (El & _).
          exact (i_order _ _ I l1 c l3 x y El Hx Hy).
      - intros c x y Hc Hx Hy. cbn in Hc. apply in_app_or in Hc. destruct Hc as [Hc|[<-|[]]].
        + exact (i_strong _ _ I c x y Hc Hx Hy).
        + exact (reach_trans _ _ _ (Ru' x Hx) (Fu y Hy)). }
    assert (NS : ~ In u (sc_stack s')) by exact Nu0.
    split; [exact In'|]. split; [exact F'|]. split; [apply V'; now left|].
    split; [exact (l_disc _ _ _ _ _ L)|]. split; [cbn; lia|]. split; [contradiction|]. split; [intros _; exact Elow|].
    intros x y Hx Nx. change (sc_stack s') with (sc_stack s0) in Hx. contradiction.
  - (* u stays on the stack *)
    assert (LT : sc_low s u < sc_disc s u) by (pose proof (l_low_le _ _ _ _ _ L); lia).
    destruct (l_low_ex _ _ _ _ _ L) as (y0 & Hy0 & Ey0 & R0).
    assert (Hy0' : In y0 (sc_stack s0)).
    { rewrite ES in Hy0. apply in_app_or in Hy0. destruct Hy0 as [K|[<-|K]]; [| |exact K].
      - exfalso. pose proof (i_sorted _ _ I) as So. rewrite ES in So.
        pose proof (sorted_app_lt _ _ _ So y0 u K (or_introl eq_refl)). lia.
      - exfalso. lia. }
    assert (In' : inv gray s).
    { destruct I as [J1 J2 J3 J4 J5 J6 J7 J8 J9 J10 J11 J12]. constructor; try assumption.
      - intros x Hx Gx. destruct (Nat.eq_dec x u) as [->|Nx].
        + exists y0. rewrite Ey0. auto.
        + apply J8; [exact Hx|]. intros [->|K]; [now contradiction Nx|contradiction].
      - intros x Hx. apply J9. now right.
      - intros x y Vx Gx Hy. destruct (Nat.eq_dec x u) as [->|Nx].
        + apply (B u y); [apply in_or_app; right; now left|exact Hy].
        + apply (J10 x y Vx); [|exact Hy]. intros [->|K]; [now contradiction Nx|contradiction]. }
    split; [exact In'|]. split; [exact F|]. split; [now left|].
    split; [exact (l_disc _ _ _ _ _ L)|]. split; [lia|]. split; [intros _; exists y0; auto|].
    split; [contradiction|].
    intros x y Hx Nx Hy Sy. destruct (l_edges _ _ _ _ _ L x y Hx Nx Hy Sy) as [(_ & [])|Le]. exact Le.
Qed.

Definition call_ok (rec : nat -> scc_state -> option scc_state) (k : nat) : Prop :=
  forall gray u s, inv gray s -> (u < n)%nat -> ~ visited s u ->
    (forall g, In g gray -> reach g u) -> (unvisited s <= k)%nat ->
    exists s', rec u s = Some s' /\ post gray u s s'.

Lemma loop_ok rec k gray u s0 : call_ok rec k -> inv gray s0 -> (u < n)%nat -> ~ visited s0 u ->
  (forall g, In g gray -> reach g u) ->
  forall vs s, (forall v, In v vs -> In v (succs u)) ->
  loop_inv gray u s0 s vs -> (unvisited s <= k)%nat ->
  exists s', scc_loop rec u vs s = Some s' /\ loop_inv gray u s0 s' [].
Proof.
  intros CO I0 Hu NV0 Gr. induction vs as [|v vs IH]; intros s Sub L U.
  - exists s. split; [reflexivity|exact L].
  - assert (Hv : In v (succs u)) by (apply Sub; now left).
    assert (Sub' : forall w, In w vs -> In w (succs u)) by (intros w Hw; apply Sub; now right).
    pose proof (l_inv _ _ _ _ _ L) as I. pose proof (l_frame _ _ _ _ _ L) as F.
    destruct (l_stack _ _ _ _ _ L) as (S2 & ES).
    assert (Su : In u (sc_stack s)) by (rewrite ES; apply in_or_app; right; now left).
    assert (S0s : forall x, In x (sc_stack s0) -> In x (sc_stack s)).
    { intros x Hx. rewrite ES. apply in_or_app. right. now right. }
    cbn [scc_loop]. destruct (Z.eqb_spec (sc_disc s v) (-1)) as [Dv|Dv].
    + (* recursive call *)
      apply (i_disc _ _ I) in Dv.
      destruct (CO (u :: gray) v s I) as (s1 & E1 & P1).
      { exact (succs_ok u v Hu Hv). }
      { exact Dv. }
      { intros g [<-|Hg]; [exact (reach_edge u v Hv)|exact (reach_trans _ _ _ (Gr g Hg) (reach_edge u v Hv))]. }
      { exact U. }
      rewrite E1. destruct P1 as (I1 & F1 & V1 & D1 & Lle & Lin & Lout & Led).
      destruct (f_stack _ _ F1) as (S3 & E3).
      assert (Vu : visited s u) by (now left).
      assert (Lu1 : sc_low s1 u = sc_low s u) by (exact (f_low _ _ F1 u Vu)).
      assert (Du1 : sc_disc s1 u = sc_disc s u) by (exact (f_disc _ _ F1 u Vu)).
      apply IH; [exact Sub'| |].
      * set (m := Z.min (sc_low s1 u) (sc_low s1 v)).
        assert (Em : sc_low (set_low u m s1) u = m) by (cbn; unfold upd; now rewrite Nat.eqb_refl).
        assert (F01 : frame s0 s1) by (exact (frame_trans _ _ _ F F1)).
        constructor.
        -- apply inv_low, I1.
        -- destruct F01 as [A1 A2 A3 A4 A5 A6]. constructor; auto. intros w Hw. cbn. unfold upd.
           destruct (Nat.eqb_spec w u) as [->|_]; [contradiction|auto].
        -- exists (S3 ++ S2). cbn. rewrite E3, ES. now rewrite app_assoc.
        -- cbn [set_low sc_disc]. rewrite Du1. exact (l_disc _ _ _ _ _ L).
        -- rewrite Em. cbn [set_low sc_disc]. rewrite Du1. pose proof (l_low_le _ _ _ _ _ L). lia.
        -- rewrite Em. cbn [set_low sc_disc sc_stack].
           destruct (l_low_ex _ _ _ _ _ L) as (y & Hy & Ey & R).
           destruct (Z_le_gt_dec (sc_low s1 u) (sc_low s1 v)) as [Le|Gt].
           ++ exists y. split; [rewrite E3; apply in_or_app; now right|].
              split; [|exact R]. rewrite (f_disc _ _ F1 y (or_introl Hy)). lia.
           ++ destruct (in_dec Nat.eq_dec v (sc_stack s1)) as [Sv|Sv].
              ** destruct (Lin Sv) as (z & Hz & Ez & Rz). exists z.
                 split; [rewrite E3; apply in_or_app; now right|]. split; [lia|].
                 exact (reach_trans _ _ _ (reach_edge u v Hv) Rz).
              ** exfalso. rewrite (Lout Sv), D1 in Gt. pose proof (l_low_le _ _ _ _ _ L).
                 pose proof (i_range _ _ I u Vu). lia.
        -- rewrite Em. cbn [set_low sc_disc sc_stack]. intros x y Hx Nx Hy Sy.
           assert (Vy : visited s y) by (left; exact (S0s y Sy)).
           destruct (in_dec Nat.eq_dec x (sc_stack s)) as [Sx|Sx].
           ++ destruct (l_edges _ _ _ _ _ L x y Sx Nx Hy Sy) as [(Ex & [Ey|Ey])|Le].
              ** exfalso. subst y. now apply Dv.
              ** left. auto.
              ** right. rewrite (f_disc _ _ F1 y Vy). lia.
           ++ right. pose proof (Led x y Hx Sx Hy (S0s y Sy)). lia.
        -- intros y Hy. destruct (l_todo _ _ _ _ _ L y Hy) as [[<-|K]|K]; [right; exact V1|now left|].
           right. exact (f_visited _ _ F1 y K).
      * change (unvisited (set_low u (Z.min (sc_low s1 u) (sc_low s1 v)) s1)) with (unvisited s1).
        pose proof (frame_unvisited _ _ _ _ I I1 F1). lia.
    + assert (Vv : visited s v).
      { destruct (in_dec Nat.eq_dec v (sc_stack s)) as [K|K]; [now left|].
        destruct (in_dec Nat.eq_dec v (done s)) as [K'|K']; [now right|].
        exfalso. apply Dv, (i_disc _ _ I). intros [?|?]; contradiction. }
      destruct (existsb (Nat.eqb v) (sc_stack s)) eqn:Ex.
      * (* back or cross edge inside the stack *)
        apply existsb_exists in Ex. destruct Ex as (v' & Sv & Ev). apply Nat.eqb_eq in Ev. subst v'.
        apply IH; [exact Sub'| |exact U].
        set (m := Z.min (sc_low s u) (sc_disc s v)).
        assert (Em : sc_low (set_low u m s) u = m) by (cbn; unfold upd; now rewrite Nat.eqb_refl).
        constructor.
        -- apply inv_low, I.
        -- destruct F as [A1 A2 A3 A4 A5 A6]. constructor; auto. intros w Hw. cbn. unfold upd.
           destruct (Nat.eqb_spec w u) as [->|_]; [contradiction|auto].
        -- exists S2. exact ES.
        -- exact (l_disc _ _ _ _ _ L).
        -- rewrite Em. cbn [set_low sc_disc]. pose proof (l_low_le _ _ _ _ _ L). lia.
        -- rewrite Em. cbn [set_low sc_disc sc_stack].
           destruct (Z_le_gt_dec (sc_low s u) (sc_disc s v)) as [Le|Gt].
           ++ destruct (l_low_ex _ _ _ _ _ L) as (y & Hy & Ey & R). exists y. split; [exact Hy|]. split; [lia|exact R].
           ++ exists v. split; [exact Sv|]. split; [lia|exact (reach_edge u v Hv)].
        -- rewrite Em. cbn [set_low sc_disc sc_stack]. intros x y Hx Nx Hy Sy.
           destruct (l_edges _ _ _ _ _ L x y Hx Nx Hy Sy) as [(Exu & [Ey|Ey])|Le].
           ++ right. subst y. lia.
           ++ left. auto.
           ++ right. lia.
        -- intros y Hy. destruct (l_todo _ _ _ _ _ L y Hy) as [[<-|K]|K]; [right; exact Vv|now left|now right].
      * (* already in a component *)
        assert (Sv : ~ In v (sc_stack s)).
        { intros K. assert (T : existsb (Nat.eqb v) (sc_stack s) = true)
            by (apply existsb_exists; exists v; split; [exact K|apply Nat.eqb_refl]). congruence. }
        apply IH; [exact Sub'| |exact U].
        destruct L as [A1 A2 A3 A4 A5 A6 A7 A8]. constructor; auto.
        -- intros x y Hx Nx Hy Sy. destruct (A7 x y Hx Nx Hy Sy) as [(Exu & [Ey|Ey])|Le]; [|left; auto|right; auto].
           exfalso. subst y. exact (Sv (S0s v Sy)).
        -- intros y Hy. destruct (A8 y Hy) as [[<-|K]|K]; [right; exact Vv|now left|now right].
Qed.

Lemma scc_ok : forall k, call_ok (scc succs k) k.
Proof.
  induction k as [|k IH]; intros gray u s I Hu NV Gr U.
  - exfalso. assert (L : (0 < unvisited s)%nat).
    { unfold unvisited.
      assert (In u (filter (fun v => sc_disc s v =? -1) (seq 0 n))).
      { apply filter_In. split; [apply in_seq; lia|]. apply Z.eqb_eq, (i_disc _ _ I), NV. }
      destruct (filter _ _); [contradiction|cbn; lia]. }
    lia.
  - cbn [scc]. pose proof (enter_inv gray u s I Hu NV Gr) as L.
    assert (U' : (unvisited (scc_enter u s) <= k)%nat).
    { assert (unvisited (scc_enter u s) < unvisited s)%nat; [|lia].
      unfold unvisited. apply (filter_lt _ _ _ u).
      - apply in_seq. lia.
      - apply Z.eqb_eq, (i_disc _ _ I), NV.
      - pose proof (l_disc _ _ _ _ _ L) as D. rewrite D. pose proof (i_count _ _ I). lia.
      - intros x _ H. apply Z.eqb_eq in H. apply Z.eqb_eq.
        apply (i_disc _ _ I). intros V. apply (i_disc _ _ (l_inv _ _ _ _ _ L)) in H.
        apply H, (f_visited _ _ (l_frame _ _ _ _ _ L)), V. }
    destruct (loop_ok (scc succs k) k gray u s IH I Hu NV Gr (succs u) (scc_enter u s) (fun v H => H) L U') as (s' & E & L').
    rewrite E. exists (scc_exit u s'). split; [reflexivity|]. exact (exit_post gray u s s' I NV L').
Qed.

Lemma inv_empty_stack s : inv [] s -> sc_stack s = [].
Proof.
  intros I. destruct (sc_stack s) as [|x l] eqn:E; [reflexivity|]. exfalso.
  destruct (stack_to_gray [] s I x) as (g & [] & _). rewrite E. now left.
Qed.

Lemma scc_all_ok : forall us s, inv [] s -> (forall u, In u us -> (u < n)%nat) ->
  exists s', scc_all succs n us s = Some s' /\ inv [] s' /\
    (forall v, visited s v -> visited s' v) /\ forall u, In u us -> visited s' u.
Proof.
  induction us as [|u us IH]; intros s I H.
  - exists s. cbn. split; [reflexivity|]. split; [exact I|]. split; [auto|]. intros ? [].
  - cbn [scc_all]. destruct (Z.eqb_spec (sc_disc s u) (-1)) as [D|D].
    + apply (i_disc _ _ I) in D.
      destruct (scc_ok n [] u s I) as (s1 & E1 & I1 & F1 & V1 & _).
      { apply H. now left. }
      { exact D. }
      { intros g []. }
      { unfold unvisited. etransitivity; [apply (filter_le (fun _ => true)); reflexivity|].
        assert (T : forall l : list nat, filter (fun _ => true) l = l) by (induction l as [|a l IHl]; cbn; congruence).
        rewrite T. now rewrite seq_length. }
      rewrite E1. destruct (IH s1 I1) as (s' & E & I' & M & A); [intros w Hw; apply H; now right|].
      exists s'. split; [exact E|]. split; [exact I'|]. split.
      * intros v Hv. apply M, (f_visited _ _ F1), Hv.
      * intros w [<-|Hw]; [apply M, V1|auto].
    + destruct (IH s I) as (s' & E & I' & M & A); [intros w Hw; apply H; now right|].
      exists s'. split; [exact E|]. split; [exact I'|]. split; [exact M|].
      intros w [<-|Hw]; [|auto]. apply M.
      destruct (in_dec Nat.eq_dec u (sc_stack s)) as [K|K]; [now left|].
      destruct (in_dec Nat.eq_dec u (done s)) as [K'|K']; [now right|].
      exfalso. apply D, (i_disc _ _ I). intros [?|?]; contradiction.
Qed.

Lemma init_inv : inv [] scc_init.
Proof.
  constructor; cbn; try (intros; contradiction); try lia.
  - constructor.
  - intros v. split; [intros _ [[]|[]]|reflexivity].
  - intros v [[]|[]].
  - intros v [[]|[]].
  - constructor.
  - intros x y [[]|[]].
  - intros l1 c l2 x y E. now destruct l1.
Qed.

Theorem scc_run_correct : exists cs, scc_run succs n = Some cs /\
  Permutation (concat cs) (seq 0 n) /\
  (forall l1 c l2 x y, cs = l1 ++ c :: l2 -> In x c -> In y (succs x) -> In y (concat (l1 ++ [c]))) /\
  (forall c x y, In c cs -> In x c -> In y c -> reach x y).
Proof.
  destruct (scc_all_ok (seq 0 n) scc_init init_inv) as (s & E & I & _ & A).
  { intros u Hu. apply in_seq in Hu. lia. }
  exists (sc_sccs s). unfold scc_run. rewrite E. split; [reflexivity|].
  pose proof (inv_empty_stack s I) as Es.
  split; [|split; [exact (i_order _ _ I)|exact (i_strong _ _ I)]].
  apply NoDup_Permutation.
  - pose proof (i_nodup _ _ I) as N. rewrite Es in N. exact N.
  - apply seq_NoDup.
  - intros x. split.
    + intros H. apply in_seq. split; [lia|]. cbn. exact (i_lt _ _ I x (or_intror H)).
    + intros H. destruct (A x H) as [K|K]; [rewrite Es in K; contradiction|exact K].
Qed.

End Tarjan.
