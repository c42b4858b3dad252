(** Lemmas about the memory of the owned structs ([Owned.v]). *)
From Coq Require Import Permutation.
From Verif Require Import Base Owned.
Arguments Next {A}. Arguments Stop {A}. Arguments Undefined {A}. Arguments Panicked {A}. Arguments Ill {A}.
Local Open Scope nat_scope.
Local Open Scope list_scope.

(** ** Lists *)
Lemma put_len {A} i (x : A) l : length (put i x l) = length l.
Proof. revert i; induction l as [|y l IH]; intros [|i]; cbn; auto. Qed.
Lemma put_same {A} i (x : A) l : i < length l -> nth_error (put i x l) i = Some x.
Proof. revert i; induction l as [|y l IH]; intros [|i] H; cbn in *; try lia; auto. apply IH. lia. Qed.
Lemma put_other {A} i j (x : A) l : i <> j -> nth_error (put i x l) j = nth_error l j.
Proof. revert i j; induction l as [|y l IH]; intros [|i] [|j] H; cbn; auto; try congruence. Qed.
Lemma put_put {A} i (x y : A) l : put i x (put i y l) = put i x l.
Proof. revert i; induction l as [|z l IH]; intros [|i]; cbn; auto. now rewrite IH. Qed.
Lemma put_comm {A} i j (x y : A) l : i <> j -> put i x (put j y l) = put j y (put i x l).
Proof. revert i j; induction l as [|z l IH]; intros [|i] [|j] H; cbn; auto; try congruence. rewrite IH; auto. Qed.
Lemma put_self {A} i (x : A) l : nth_error l i = Some x -> put i x l = l.
Proof. revert i; induction l as [|z l IH]; intros [|i] H; cbn in *; auto; [now injection H as ->|]. now rewrite IH. Qed.

Section Facts.
Variable shape : Type.
Notation mval := (mval shape).
Notation menv := (menv shape).
Notation pval := (pval shape).
Notation penv := (penv shape).

Definition oowns (v : option mval) : list nat := match v with Some v => vowns shape v | None => [] end.
Definition owns (e : menv) : list nat := flat_map oowns e.
Lemma owns_app e e' : owns (e ++ e') = owns e ++ owns e'.
Proof. apply flat_map_app. Qed.
Lemma owns_put e x v w : nth_error e x = Some v -> Permutation (oowns v ++ owns (put x w e)) (oowns w ++ owns e).
Proof.
  revert x; induction e as [|y e IH]; intros [|x] H; cbn in *; try discriminate.
  - injection H as ->. rewrite !app_assoc. apply Permutation_app_tail, Permutation_app_comm.
  - specialize (IH x H). fold (owns e) (owns (put x w e)).
    rewrite (Permutation_app_swap_app (oowns v)), (Permutation_app_swap_app (oowns w)). now apply Permutation_app_head.
Qed.
Lemma owns_get e x v : nth_error e x = Some (Some v) -> incl (vowns shape v) (owns e).
Proof. intros H a Ha. apply in_flat_map. exists (Some v). split; [exact (nth_error_In _ _ H)|exact Ha]. Qed.

(** ** Contents *)
Definition cows_ok (h : heap) (l : list cow) (r : list bytes) : Prop := Forall2 (fun c b => cow_bytes h c = Some b) l r.
Lemma read_ok h l r : cows_ok h l r -> read_cows h l = Some r.
Proof. induction 1 as [|c b l r H1 H2 IH]; cbn; [reflexivity|]. now rewrite H1, IH. Qed.
Definition target (c : cow) : list nat := match c with Bor a _ _ => [a] | Own a => [a] | Static _ => [] end.
Definition targets (l : list cow) : list nat := flat_map target l.
Definition borrows (l : list cow) : list nat := flat_map (fun c => match c with Bor a _ _ => [a] | _ => [] end) l.
Lemma targets_in l a : In a (targets l) <-> In a (borrows l) \/ In a (owned_cows l).
Proof.
  unfold targets, borrows, owned_cows. rewrite !in_flat_map. split.
  - intros (c & Hc & Ha). destruct c; cbn in Ha; [left|right|destruct Ha]; eexists; split; try exact Hc; exact Ha.
  - intros [(c & Hc & Ha)|(c & Hc & Ha)]; exists c; (split; [exact Hc|]); destruct c; cbn in *; auto; try (now destruct Ha).
Qed.
Lemma cow_agree h h' c : (forall a, In a (target c) -> mem h' a = mem h a) -> cow_bytes h' c = cow_bytes h c.
Proof. intros H. destruct c; cbn in *; rewrite ?H; auto. Qed.
Lemma cows_agree h h' l r : (forall a, In a (targets l) -> mem h' a = mem h a) -> cows_ok h l r -> cows_ok h' l r.
Proof.
  intros H C. induction C as [|c b l r H1 H2 IH]; constructor.
  - rewrite <- H1. apply cow_agree. intros a Ha. apply H. cbn. rewrite in_app_iff. auto.
  - apply IH. intros a Ha. apply H. cbn. rewrite in_app_iff. auto.
Qed.
Lemma cows_piece h a bs ps : mem h a = Some bs -> Forall (piece_in bs) ps -> cows_ok h (map (piece_cow a) ps) (map (piece_bytes bs) ps).
Proof.
  intros M H. induction H as [|p ps H1 H2 IH]; cbn; constructor; [|exact IH]. destruct p as [off len|l]; cbn in *; [|reflexivity].
  rewrite M. now rewrite (proj2 (Nat.leb_le _ _) H1).
Qed.
Lemma owned_piece a ps : owned_cows (map (piece_cow a) ps) = [].
Proof. induction ps as [|[] ps IH]; cbn; auto. Qed.
Lemma borrows_piece a ps b : In b (borrows (map (piece_cow a) ps)) -> b = a.
Proof. induction ps as [|[] ps IH]; cbn; auto; [intros []|intros [H|H]; auto]. Qed.
Lemma cows_static h l : cows_ok h (map Static l) l.
Proof. induction l; constructor; auto. Qed.
Lemma owned_static l : owned_cows (map Static l) = [].
Proof. induction l; cbn; auto. Qed.
Lemma borrows_static l : borrows (map Static l) = [].
Proof. induction l; cbn; auto. Qed.

(** ** The invariant *)

(** the buffer of a variable *)
Definition buf_of (v : mval) : option nat := match v with HVec _ a | HOwned _ a _ => Some a | HMsg _ _ => None end.

(** [v] has type [T] and contains [p]; the messages borrow only from the variables
    of their type, owned structs only from their own buffer *)
Inductive vrel (h : heap) (e : menv) : ty -> mval -> pval -> Prop :=
| RVec a bs : mem h a = Some bs -> vrel h e TyVec (HVec shape a) (PVec shape bs)
| ROwned a bs s l r : mem h a = Some bs -> cows_ok h l r -> (forall b, In b (borrows l) -> b = a) ->
    vrel h e TyOwned (HOwned shape a (Some (s, l))) (POwned shape bs s r)
| RMsg L s l r : cows_ok h l r ->
    (forall b, In b (borrows l) -> exists j w, In j L /\ nth_error e j = Some (Some w) /\ buf_of w = Some b) ->
    vrel h e (TyMsg L) (HMsg shape (s, l)) (PMsg shape s r).

(** [hand]: the allocations that are neither freed nor owned by a variable *)
Record inv (hand : list nat) (g : tenv) (h : heap) (e : menv) (p : penv) : Prop := mkInv {
  inv_len1 : length g = length e;
  inv_len2 : length p = length e;
  inv_nodup : NoDup (hand ++ owns e);
  inv_live : forall a, mem h a <> None <-> In a (hand ++ owns e);
  inv_next : forall a, mem h a <> None -> a < next h;
  inv_vars : forall x T, tget g x = Some T -> exists v q, mget shape e x = Some v /\ pget shape p x = Some q /\ vrel h e T v q
}.

Lemma buf_owned v a : buf_of v = Some a -> In a (vowns shape v).
Proof. destruct v as [b|b [[s l]|]|m]; cbn; try discriminate; intros [= ->]; now left. Qed.

(** what a value reaches is its own or belongs to a variable *)
Lemma vrel_agree h h' e T v q : (forall a, In a (vowns shape v) \/ In a (owns e) -> mem h' a = mem h a) -> vrel h e T v q -> vrel h' e T v q.
Proof.
  intros H R. destruct R as [a bs M|a bs s l r M C B|L s l r C B].
  - constructor. rewrite H; [exact M|]. left. now left.
  - constructor; [rewrite H; [exact M|left; now left]| |exact B].
    refine (cows_agree h h' l r _ C). intros b Hb. apply H. left. apply targets_in in Hb. destruct Hb as [Hb|Hb]; [left; symmetry; auto|now right].
  - constructor; [|exact B]. refine (cows_agree h h' l r _ C). intros b Hb. apply H. apply targets_in in Hb. destruct Hb as [Hb|Hb]; [|now left].
    right. destruct (B b Hb) as (j & w & _ & N & W). exact (owns_get _ _ _ N _ (buf_owned _ _ W)).
Qed.
(** and stays when the variables it borrows from keep their values *)
Lemma vrel_env h e e' T v q :
  (forall L, T = TyMsg L -> forall j w, In j L -> nth_error e j = Some (Some w) -> buf_of w <> None -> nth_error e' j = Some (Some w)) ->
  vrel h e T v q -> vrel h e' T v q.
Proof.
  intros H R. destruct R as [a bs M|a bs s l r M C B|L s l r C B]; constructor; auto.
  intros b Hb. destruct (B b Hb) as (j & w & J & N & W). exists j, w. split; [exact J|]. split; [|exact W].
  apply (H L eq_refl j w J N). congruence.
Qed.

Lemma get_nth {A} (l : list (option A)) x v : match nth_error l x with Some (Some v) => Some v | _ => None end = Some v <-> nth_error l x = Some (Some v).
Proof. destruct (nth_error l x) as [[y|]|]; split; intros [= ->] || intros H; congruence. Qed.
Lemma mget_nth (e : menv) x v : mget shape e x = Some v <-> nth_error e x = Some (Some v). Proof. apply get_nth. Qed.
Lemma pget_nth (e : penv) x v : pget shape e x = Some v <-> nth_error e x = Some (Some v). Proof. apply get_nth. Qed.
Lemma tget_nth g x v : tget g x = Some v <-> nth_error g x = Some (Some v). Proof. apply get_nth. Qed.

Lemma kill_len x g : length (kill x g) = length g.
Proof. apply map_length. Qed.
Lemma kill_get x g y T : tget (kill x g) y = Some T <-> tget g y = Some T /\ (forall L, T = TyMsg L -> ~ In x L).
Proof.
  rewrite !tget_nth. unfold kill. rewrite nth_error_map. destruct (nth_error g y) as [[[| |L]|]|]; cbn; split; try (intros; discriminate); try (intros [? ?]; discriminate).
  - intros [= <-]. split; [reflexivity|]. discriminate.
  - intros [H _]. exact H.
  - intros [= <-]. split; [reflexivity|]. discriminate.
  - intros [H _]. exact H.
  - destruct (existsb (Nat.eqb x) L) eqn:E; [discriminate|]. intros [= <-]. split; [reflexivity|]. intros L' [= <-] Hx.
    assert (existsb (Nat.eqb x) L = true) by (apply existsb_exists; exists x; split; [exact Hx|apply Nat.eqb_refl]). congruence.
  - intros [[= <-] H]. destruct (existsb (Nat.eqb x) L) eqn:E; [|reflexivity]. apply existsb_exists in E. destruct E as (z & Hz & E). apply Nat.eqb_eq in E. subst z.
    destruct (H L eq_refl Hz).
Qed.
Lemma tget_put_other g x y t : x <> y -> tget (put x t g) y = tget g y.
Proof. intros H. unfold tget. now rewrite put_other. Qed.
Lemma tget_put_none g x : tget (put x None g) x = None.
Proof. unfold tget. destruct (Nat.lt_ge_cases x (length g)) as [H|H]; [now rewrite put_same|]. rewrite (proj2 (nth_error_None _ _)); [reflexivity|]. now rewrite put_len. Qed.
Lemma tget_lt g x T : tget g x = Some T -> x < length g.
Proof. intros H. apply tget_nth in H. apply nth_error_Some. congruence. Qed.

(** fewer usable variables *)
Lemma inv_weaken hand g g' h e p : (forall x T, tget g' x = Some T -> tget g x = Some T) -> length g' = length g -> inv hand g h e p -> inv hand g' h e p.
Proof. intros H Hl I. destruct I as [L1 L2 ND LV NX V]. constructor; auto. congruence. Qed.
Lemma inv_kill hand g h e p x : inv hand g h e p -> inv hand (kill x g) h e p.
Proof. apply inv_weaken; [|apply kill_len]. intros y T G. now apply kill_get in G. Qed.

Lemma inv_hand_perm hand hand' g h e p : Permutation hand hand' -> inv hand g h e p -> inv hand' g h e p.
Proof.
  intros P [L1 L2 ND LV NX V]. assert (Q : Permutation (hand ++ owns e) (hand' ++ owns e)) by now apply Permutation_app_tail.
  constructor; auto; [exact (Permutation_NoDup Q ND)|]. intros a. rewrite LV. split; apply Permutation_in; [exact Q|exact (Permutation_sym Q)].
Qed.

(** taking the value out of a variable *)
Lemma inv_out hand g h e p x T v q : inv hand g h e p -> tget g x = Some T -> mget shape e x = Some v -> pget shape p x = Some q -> vrel h e T v q ->
  inv (vowns shape v ++ hand) (kill x (put x None g)) h (put x None e) (put x None p) /\ vrel h (put x None e) T v q.
Proof.
  intros [L1 L2 ND LV NX V] G M Q R. apply mget_nth in M. assert (X : x < length e) by (apply nth_error_Some; congruence).
  pose proof (owns_put e x _ None M) as P. cbn in P.
  assert (P' : Permutation ((vowns shape v ++ hand) ++ owns (put x None e)) (hand ++ owns e)).
  { rewrite <- P, <- app_assoc. apply Permutation_app_swap_app. }
  split; [constructor|].
  - now rewrite kill_len, !put_len.
  - now rewrite !put_len.
  - apply Permutation_sym in P'. exact (Permutation_NoDup P' ND).
  - intros a. rewrite LV. split; apply Permutation_in; [now symmetry|exact P'].
  - exact NX.
  - intros y U Gy. apply kill_get in Gy. destruct Gy as [Gy K]. destruct (Nat.eq_dec x y) as [->|NE]; [now rewrite tget_put_none in Gy|].
    rewrite tget_put_other in Gy by exact NE. destruct (V y U Gy) as (w & r & Mw & Pr & Rw). exists w, r.
    unfold mget, pget. rewrite !put_other by exact NE. split; [exact Mw|]. split; [exact Pr|].
    refine (vrel_env _ _ _ _ _ _ _ Rw). intros L -> j z J N B. rewrite put_other; [exact N|]. intros <-. exact (K L eq_refl J).
  - refine (vrel_env _ _ _ _ _ _ _ R). intros L -> j z J N B. rewrite put_other; [exact N|]. intros <-. rewrite M in N. injection N as <-.
    inversion R; subst. now apply B.
Qed.

(** and back into an empty one *)
Lemma inv_in hand g h e p x T v q : inv (vowns shape v ++ hand) g h e p -> nth_error e x = Some None -> vrel h e T v q ->
  inv hand (put x (Some T) g) h (put x (Some v) e) (put x (Some q) p).
Proof.
  intros [L1 L2 ND LV NX V] M R. assert (X : x < length e) by (apply nth_error_Some; congruence).
  pose proof (owns_put e x _ (Some v) M) as P. cbn in P.
  assert (P' : Permutation ((vowns shape v ++ hand) ++ owns e) (hand ++ owns (put x (Some v) e))).
  { rewrite P, <- app_assoc. apply Permutation_app_swap_app. }
  assert (EV : forall U w r, vrel h e U w r -> vrel h (put x (Some v) e) U w r).
  { intros U w r Rw. refine (vrel_env _ _ _ _ _ _ _ Rw). intros L -> j z J N B. rewrite put_other; [exact N|]. intros <-. rewrite M in N. discriminate. }
  constructor.
  - now rewrite !put_len.
  - now rewrite !put_len.
  - exact (Permutation_NoDup P' ND).
  - intros a. rewrite LV. split; apply Permutation_in; [exact P'|now symmetry].
  - exact NX.
  - intros y U Gy. destruct (Nat.eq_dec x y) as [<-|NE].
    + unfold tget in Gy. rewrite put_same in Gy by (rewrite L1; exact X). injection Gy as <-. exists v, q.
      unfold mget, pget. rewrite !put_same by (rewrite ?L2; exact X). auto.
    + rewrite tget_put_other in Gy by exact NE. destruct (V y U Gy) as (w & r & Mw & Pr & Rw). exists w, r.
      unfold mget, pget. rewrite !put_other by exact NE. auto.
Qed.
(** a new variable *)
Lemma inv_new hand g h e p T v q : inv (vowns shape v ++ hand) g h e p -> vrel h e T v q ->
  inv hand (g ++ [Some T]) h (e ++ [Some v]) (p ++ [Some q]).
Proof.
  intros [L1 L2 ND LV NX V] R.
  assert (P' : Permutation ((vowns shape v ++ hand) ++ owns e) (hand ++ owns (e ++ [Some v]))).
  { rewrite owns_app. cbn. rewrite app_nil_r, <- app_assoc, Permutation_app_swap_app. apply Permutation_app_head, Permutation_app_comm. }
  assert (EV : forall U w r, vrel h e U w r -> vrel h (e ++ [Some v]) U w r).
  { intros U w r Rw. refine (vrel_env _ _ _ _ _ _ _ Rw). intros L -> j z J N B. rewrite nth_error_app1; [exact N|]. apply nth_error_Some. congruence. }
  constructor.
  - rewrite !app_length. cbn. lia.
  - rewrite !app_length. cbn. lia.
  - exact (Permutation_NoDup P' ND).
  - intros a. rewrite LV. split; apply Permutation_in; [exact P'|now symmetry].
  - exact NX.
  - intros y U Gy. apply tget_nth in Gy. destruct (Nat.lt_ge_cases y (length g)) as [Y|Y].
    + rewrite nth_error_app1 in Gy by exact Y. destruct (V y U (proj2 (tget_nth _ _ _) Gy)) as (w & r & Mw & Pr & Rw). exists w, r.
      unfold mget, pget. rewrite !nth_error_app1 by lia. auto.
    + rewrite nth_error_app2 in Gy by exact Y. destruct (y - length g) as [|k] eqn:K; [|destruct k; discriminate]. injection Gy as <-. exists v, q.
      unfold mget, pget. rewrite !nth_error_app2 by lia. replace (y - length e) with 0 by lia. replace (y - length p) with 0 by lia. auto.
Qed.
(** freeing and allocating *)
Lemma inv_free hand a g h e p : inv (a :: hand) g h e p -> exists h', free h a = Some h' /\ inv hand g h' e p /\ (forall b, b <> a -> mem h' b = mem h b).
Proof.
  intros [L1 L2 ND LV NX V]. unfold free. destruct (mem h a) as [bs|] eqn:M; [|exfalso; apply (proj2 (LV a)); [now left|exact M]].
  eexists. split; [reflexivity|]. inversion ND as [|? ? NI ND']; subst.
  assert (AG : forall b, b <> a -> (if b =? a then None else mem h b) = mem h b).
  { intros b H. apply Nat.eqb_neq in H. now rewrite H. }
  split; [|exact AG]. constructor; auto; cbn [mem next].
  - intros b. destruct (Nat.eqb_spec b a) as [->|NE]; [split; [congruence|contradiction]|]. rewrite LV. cbn. split; [intros [H|H]; [congruence|exact H]|auto].
  - intros b. destruct (b =? a); [congruence|]. apply NX.
  - intros x T G. destruct (V x T G) as (v & q & M1 & P1 & R). exists v, q. split; [exact M1|]. split; [exact P1|].
    refine (vrel_agree _ _ _ _ _ _ _ R). cbn [mem]. intros b Hb. apply AG. intros ->. apply NI. apply in_or_app. right.
    destruct Hb as [Hb|Hb]; [|exact Hb]. apply mget_nth in M1. exact (owns_get _ _ _ M1 _ Hb).
Qed.
Lemma inv_free_all l : forall hand g h e p, inv (l ++ hand) g h e p -> exists h', free_all h l = Some h' /\ inv hand g h' e p /\ (forall b, ~ In b l -> mem h' b = mem h b).
Proof.
  induction l as [|a l IH]; intros hand g h e p I; cbn [free_all app] in *; [exists h; auto|].
  destruct (inv_free _ _ _ _ _ _ I) as (h1 & -> & I1 & A1). destruct (IH _ _ _ _ _ I1) as (h2 & E & I2 & A2). exists h2. split; [exact E|]. split; [exact I2|].
  intros b Hb. cbn in Hb. rewrite A2 by tauto. apply A1. intros ->. tauto.
Qed.
Lemma inv_alloc hand bs g h e p : inv hand g h e p -> let (a, h') := alloc h bs in inv (a :: hand) g h' e p /\ mem h' a = Some bs /\ (forall b, mem h b <> None -> mem h' b = mem h b).
Proof.
  intros [L1 L2 ND LV NX V]. cbn [alloc]. cbn [mem].
  assert (NI : ~ In (next h) (hand ++ owns e)). { intros H. apply LV in H. apply NX in H. lia. }
  assert (AG : forall b, mem h b <> None -> (if b =? next h then Some bs else mem h b) = mem h b).
  { intros b H. destruct (Nat.eqb_spec b (next h)) as [->|]; [|reflexivity]. apply NX in H. lia. }
  split; [|split; [now rewrite Nat.eqb_refl|exact AG]]. constructor; auto; cbn [mem next].
  - cbn. now constructor.
  - intros b. cbn. destruct (Nat.eqb_spec b (next h)) as [->|NE]; [split; [auto|discriminate]|]. rewrite LV. split; [auto|intros [H|H]; [congruence|exact H]].
  - intros b. destruct (Nat.eqb_spec b (next h)) as [->|NE]; [lia|]. intros H. apply NX in H. lia.
  - intros x T G. destruct (V x T G) as (v & q & M1 & P1 & R). exists v, q. split; [exact M1|]. split; [exact P1|].
    refine (vrel_agree _ _ _ _ _ _ _ R). cbn [mem]. intros b Hb. apply AG. apply LV. apply in_or_app. right.
    destruct Hb as [Hb|Hb]; [|exact Hb]. apply mget_nth in M1. exact (owns_get _ _ _ M1 _ Hb).
Qed.
Lemma cow_live h c b a : cow_bytes h c = Some b -> In a (target c) -> mem h a <> None.
Proof. destruct c as [x off len|x|x]; cbn; intros H Ha; [destruct Ha as [<-|[]]; destruct (mem h x); congruence|destruct Ha as [<-|[]]; congruence|destruct Ha]. Qed.
Lemma cows_live h l r a : cows_ok h l r -> In a (targets l) -> mem h a <> None.
Proof. induction 1 as [|c b l r H1 H2 IH]; cbn; [intros []|]. rewrite in_app_iff. intros [H|H]; [exact (cow_live _ _ _ _ H1 H)|auto]. Qed.
(** cloning *)
Lemma inv_clone all g e p : forall l r hand h, inv hand g h e p -> cows_ok h l r ->
  exists l' h', clone_cows all h l = Some (l', h') /\ inv (owned_cows l' ++ hand)%list g h' e p /\ cows_ok h' l' r /\
    (forall b, mem h b <> None -> mem h' b = mem h b) /\ incl (borrows l') (if all then [] else borrows l).
Proof.
  induction l as [|c l IH]; intros r hand h I C; inversion C as [|? b ? r' Hb C']; subst; cbn [clone_cows].
  - exists [], h. cbn. repeat match goal with |- _ /\ _ => split end; auto; destruct all; intros x [].
  - assert (K : exists c' h1, clone_cow all h c = Some (c', h1) /\ inv (owned_cows [c'] ++ hand) g h1 e p /\ cow_bytes h1 c' = Some b /\
        (forall b, mem h b <> None -> mem h1 b = mem h b) /\ incl (borrows [c']) (if all then [] else borrows [c])).
    { assert (A : exists c' h1, (let (a, h') := alloc h b in Some (Own a, h')) = Some (c', h1) /\ inv (owned_cows [c'] ++ hand) g h1 e p /\ cow_bytes h1 c' = Some b /\
        (forall b, mem h b <> None -> mem h1 b = mem h b) /\ borrows [c'] = []).
      { pose proof (inv_alloc hand b g h e p I) as X. destruct (alloc h b) as [a h'] eqn:E. destruct X as (X1 & X2 & X3). exists (Own a), h'. cbn. auto. }
      destruct A as (c1 & h1 & A1 & A2 & A3 & A4 & A5).
      assert (S1 : exists c' h1, Some (c, h) = Some (c', h1) /\ (owned_cows [c] = [] -> inv (owned_cows [c'] ++ hand) g h1 e p) /\ cow_bytes h1 c' = Some b /\
        (forall b, mem h b <> None -> mem h1 b = mem h b) /\ incl (borrows [c']) (borrows [c])).
      { exists c, h. repeat match goal with |- _ /\ _ => split end; auto; [intros ->; exact I|apply incl_refl]. }
      unfold clone_cow. destruct c as [x off len|x|x], all; rewrite ?Hb;
        try (exists c1, h1; repeat match goal with |- _ /\ _ => split end; auto; rewrite A5; intros z []; fail);
        destruct S1 as (c2 & h2 & B1 & B2 & B3 & B4 & B5); exists c2, h2; repeat match goal with |- _ /\ _ => split end; auto. }
    destruct K as (c' & h1 & -> & I1 & Hc & A1 & B1).
    assert (C1 : cows_ok h1 l r') by (refine (cows_agree h h1 l r' _ C'); intros a Ha; apply A1; exact (cows_live _ _ _ _ C' Ha)).
    destruct (IH r' _ h1 I1 C1) as (l2 & h2 & -> & I2 & C2 & A2 & B2). exists (c' :: l2), h2. split; [reflexivity|].
    assert (AG : forall b, mem h b <> None -> mem h2 b = mem h b) by (intros z Hz; rewrite A2; rewrite A1; auto).
    split; [|split; [|split; [exact AG|]]].
    + refine (inv_hand_perm _ _ _ _ _ _ _ I2). cbn. rewrite app_nil_r, app_assoc. apply Permutation_app_tail, Permutation_app_comm.
    + constructor; [|exact C2]. rewrite <- Hc. apply cow_agree. intros a Ha. apply A2. exact (cow_live _ _ _ _ Hc Ha).
    + cbn in B1 |- *. rewrite app_nil_r in B1. destruct all; [apply incl_app; auto|]. rewrite app_nil_r in B1. apply incl_app; [apply incl_appl|apply incl_appr]; auto.
Qed.
End Facts.
