(** Facts about the lifetimes of the generated types. *)
From Coq Require Import Arith Lia ZifyBool.
From Verif Require Import Base Schema Gen Passes GenCheck Cycles CycleFacts Lifetime.

(** the types a type is made of *)
Fixpoint leaves (t : field_type) : list field_type :=
  match t with TMap k v => leaves k ++ leaves v | t => [t] end.

Lemma gany_total {A} (g : A -> gres bool) l : (forall x, In x l -> exists b, g x = GOk b) ->
  exists b, gany g l = GOk b /\ (b = true <-> exists x, In x l /\ g x = GOk true).
Proof.
  induction l as [|x l IH]; intros H; cbn.
  - exists false. split; [reflexivity|]. split; [discriminate|]. intros (x & [] & _).
  - destruct (H x (or_introl eq_refl)) as ([|] & E); rewrite E; cbn.
    + exists true. split; [reflexivity|]. split; [|reflexivity]. intros _. exists x. auto.
    + destruct IH as (b & E' & K); [intros y Hy; apply H; now right|]. exists b. split; [exact E'|]. rewrite K. split.
      * intros (y & Hy & F). exists y. auto.
      * intros (y & [->|Hy] & F); [congruence|]. exists y. auto.
Qed.

(** a type that needs the lifetime without looking at messages *)
Definition borrows_itself (packed : bool) (t : field_type) : Prop :=
  In TStringCow (leaves t) \/ In TBytesCow (leaves t) \/
  (packed = true /\ (is_fixed_size t = true \/ t = TString \/ t = TBytes)).

Lemma type_has_lifetime_total rec : forall t packed,
  (forall i, In (TMessage i) (leaves t) -> exists b, rec i = GOk b) ->
  exists b, type_has_lifetime rec packed t = GOk b /\
    (b = true <-> borrows_itself packed t \/ exists i, In (TMessage i) (leaves t) /\ rec i = GOk true).
Proof.
  unfold borrows_itself.
  assert (P : forall (P : Prop) (b : bool), (b = true <-> P) -> exists b', GOk b = GOk b' /\ (b' = true <-> P)) by (intros P b H; exists b; auto).
  induction t; intros packed H; cbn [type_has_lifetime];
    try (apply P; cbn; unfold is_fixed_size; cbn; split;
         [intros E; try discriminate; subst; tauto
         |intros [[[E|[]]|[[E|[]]|(E & [E'|[E'|E']])]]|(i & [E|[]] & _)]; congruence || discriminate || reflexivity]).
  - cbn in H. destruct (H m (or_introl eq_refl)) as (b & E). rewrite E. exists b. split; [reflexivity|]. cbn. unfold is_fixed_size. cbn. split.
    + intros ->. right. exists m. auto.
    + intros [[[E'|[]]|[[E'|[]]|(_ & [E'|[E'|E']])]]|(i & [E'|[]] & F)]; try discriminate. injection E' as ->. congruence.
  - cbn in H. destruct (IHt1 false) as (b1 & E1 & K1); [intros i Hi; apply H; rewrite in_app_iff; auto|].
    destruct (IHt2 false) as (b2 & E2 & K2); [intros i Hi; apply H; rewrite in_app_iff; auto|]. rewrite E1. cbn [gbind].
    assert (Q : b1 || b2 = true <-> ((In TStringCow (leaves (TMap t1 t2)) \/ In TBytesCow (leaves (TMap t1 t2)) \/
        packed = true /\ (is_fixed_size (TMap t1 t2) = true \/ TMap t1 t2 = TString \/ TMap t1 t2 = TBytes)) \/
        exists i, In (TMessage i) (leaves (TMap t1 t2)) /\ rec i = GOk true)).
    { rewrite Bool.orb_true_iff, K1, K2. cbn [leaves]. unfold is_fixed_size at 3. cbn [wire_type_num_non_packed Z.eqb Pos.eqb orb].
      rewrite !in_app_iff. split.
      - intros [[[A|[A|(A & _)]]|(i & A & B)]|[[A|[A|(A & _)]]|(i & A & B)]]; try discriminate; auto;
          right; exists i; rewrite in_app_iff; auto.
      - intros [[[A|A]|[[A|A]|(_ & [A|[A|A]])]]|(i & A & B)]; try discriminate; auto.
        rewrite in_app_iff in A. destruct A as [A|A]; [left|right]; right; exists i; auto. }
    destruct b1; [exists true; split; [reflexivity|exact Q]|exists b2; split; [exact E2|exact Q]].
Qed.

Section Lifetimes.
Variables (c : config) (d : file_descriptor).
Hypothesis Idx : indexed d.
Hypothesis Refs : forall i m f j, get_message d i = Some m -> In f (all_fields m) -> In (TMessage j) (leaves (f_typ f)) ->
  exists m', get_message d j = Some m'.

(** the message has a visible field that borrows, or that mentions a message *)
Definition direct (i : midx) : Prop :=
  exists m f, get_message d i = Some m /\ In f (all_fields m) /\ visible c f = true /\ borrows_itself (f_is_packed f) (f_typ f).
Definition edge (i j : midx) : Prop :=
  exists m f, get_message d i = Some m /\ In f (all_fields m) /\ visible c f = true /\ In (TMessage j) (leaves (f_typ f)).

(** a way that never enters a message of [ignore] nor one twice *)
Inductive hits : list midx -> midx -> Prop :=
| hits_here ignore i : ~ In i ignore -> direct i -> hits ignore i
| hits_step ignore i j : ~ In i ignore -> edge i j -> hits (ignore ++ [i]) j -> hits ignore i.

Lemma message_has_lifetime_total n : forall ignore i m, get_message d i = Some m ->
  NoDup ignore -> incl ignore (map fst (all_messages d)) -> (length (all_messages d) <= length ignore + n)%nat ->
  exists b, message_has_lifetime c d n ignore m = GOk b /\ (b = true <-> hits ignore i).
Proof.
  induction n as [|n IH]; intros ignore i m G Nd Inc Len.
  all: pose proof (Idx i m G) as Ei; cbn [message_has_lifetime]; rewrite Ei;
    destruct (existsb (midx_eqb i) ignore) eqn:X;
    [apply existsb_midx in X; exists false; split; [reflexivity|]; split; [discriminate|]; inversion 1; contradiction|].
  all: assert (Ni : ~ In i ignore) by (intros C; apply existsb_midx in C; congruence).
  all: assert (Nd' : NoDup (ignore ++ [i])) by (apply (Permutation.Permutation_NoDup (Permutation.Permutation_cons_append ignore i)); now constructor).
  all: assert (Inc' : incl (ignore ++ [i]) (map fst (all_messages d)))
       by (intros x Hx; apply in_app_iff in Hx; destruct Hx as [Hx|[<-|[]]]; [now apply Inc|apply all_messages_paths; eauto]).
  all: pose proof (NoDup_incl_length Nd' Inc') as L; rewrite app_length, map_length in L; cbn in L.
  - lia.
  - set (rec := fun j => match get_message d j with Some m' => message_has_lifetime c d n (ignore ++ [i]) m' | None => GErr GenPanic end).
    assert (R : forall j, (exists m', get_message d j = Some m') -> exists b, rec j = GOk b /\ (b = true <-> hits (ignore ++ [i]) j)).
    { intros j (m' & Gj). unfold rec. rewrite Gj. apply IH; auto. rewrite app_length. cbn. lia. }
    assert (F : forall f, In f (all_fields m) -> exists b, gbind (type_has_lifetime rec (f_is_packed f) (f_typ f)) (fun b => GOk (b && visible c f)) = GOk b /\
       (b = true <-> visible c f = true /\ (borrows_itself (f_is_packed f) (f_typ f) \/ exists j, In (TMessage j) (leaves (f_typ f)) /\ hits (ignore ++ [i]) j))).
    { intros f Hf. destruct (type_has_lifetime_total rec (f_typ f) (f_is_packed f)) as (b & E & K).
      { intros j Hj. destruct (R j) as (b & E & _); [eapply Refs; eauto|]. eauto. }
      rewrite E. cbn. exists (b && visible c f). split; [reflexivity|]. rewrite Bool.andb_true_iff, K. split.
      - intros ([A|(j & A & B)] & V); (split; [exact V|]); [now left|]. right. exists j. split; [exact A|].
        destruct (R j) as (b' & E' & K'); [eapply Refs; eauto|]. apply K'. congruence.
      - intros (V & [A|(j & A & B)]); (split; [|exact V]); [now left|]. right. exists j. split; [exact A|].
        destruct (R j) as (b' & E' & K'); [eapply Refs; eauto|]. apply K' in B. congruence. }
    destruct (gany_total (fun f => gbind (type_has_lifetime rec (f_is_packed f) (f_typ f)) (fun b => GOk (b && visible c f))) (all_fields m)) as (b & E & K).
    { intros f Hf. destruct (F f Hf) as (b & E & _). eauto. }
    exists b. split; [exact E|]. rewrite K. split.
    + intros (f & Hf & E1). destruct (F f Hf) as (b' & E2 & K2). assert (b' = true) by congruence. subst b'.
      destruct K2 as (K2 & _). destruct (K2 eq_refl) as (V & [A|(j & A & B)]).
      * apply hits_here; [exact Ni|]. exists m, f. auto.
      * apply hits_step with j; [exact Ni| |exact B]. exists m, f. auto.
    + intros H. inversion H as [ig x _ (m' & f & G' & Hf & V & A)|ig x j _ (m' & f & G' & Hf & V & A) B]; subst;
        rewrite G in G'; injection G' as <-; exists f; (split; [exact Hf|]); destruct (F f Hf) as (b' & E2 & K2);
        rewrite E2; f_equal; apply K2; (split; [exact V|]); [now left|right; exists j; auto].
Qed.

(** a message that needs the lifetime: some way leads to a field that borrows *)
Inductive needs : midx -> Prop :=
| needs_here i : direct i -> needs i
| needs_step i j : edge i j -> needs j -> needs i.

Inductive chain : list midx -> Prop :=
| chain_end i : direct i -> chain [i]
| chain_cons i j l : edge i j -> chain (j :: l) -> chain (i :: j :: l).

Lemma chain_suffix l1 : forall l2, l2 <> [] -> chain (l1 ++ l2) -> chain l2.
Proof.
  induction l1 as [|x l1 IH]; intros l2 N H; [exact H|]. apply IH; [exact N|]. cbn in H. inversion H as [i D E|i j l D C E]; [|exact C].
  destruct l1; [|discriminate]. destruct l2; [contradiction|discriminate].
Qed.
Lemma needs_chain i : needs i -> exists l, chain (i :: l) /\ NoDup (i :: l).
Proof.
  induction 1 as [i D|i j E H (l & C & N)].
  - exists []. split; [now constructor|]. repeat constructor. intros [].
  - destruct (in_dec (list_eq_dec Nat.eq_dec) i (j :: l)) as [Hi|Hi].
    + apply in_split in Hi. destruct Hi as (l1 & l2 & Eq). exists l2. rewrite Eq in C, N. split.
      * apply (chain_suffix l1); [discriminate|exact C].
      * clear -N. induction l1 as [|x l1 IH]; [exact N|]. apply IH. now inversion N.
    + exists (j :: l). split; [now constructor|]. constructor; assumption.
Qed.
Lemma chain_hits l : forall ignore, chain l -> NoDup l -> (forall x, In x l -> ~ In x ignore) ->
  forall i l', l = i :: l' -> hits ignore i.
Proof.
  induction l as [|x l IH]; intros ignore C N Dj i l' E; [discriminate|]. injection E as -> ->.
  inversion C as [y D|y j l2 D C' E]; subst.
  - apply hits_here; [apply Dj; now left|exact D].
  - inversion N as [|? ? Ni N']; subst. apply hits_step with j; [apply Dj; now left|exact D|].
    eapply IH; [exact C'|exact N'| |reflexivity]. intros z Hz Hin. apply in_app_iff in Hin. destruct Hin as [Hin|[<-|[]]].
    + apply (Dj z); [now right|exact Hin].
    + contradiction.
Qed.
Lemma hits_needs ignore i : hits ignore i -> needs i.
Proof. induction 1; [now constructor|]. now apply needs_step with j. Qed.
Lemma needs_hits i : needs i -> hits [] i.
Proof.
  intros H. destruct (needs_chain i H) as (l & C & N). eapply chain_hits; [exact C|exact N| |reflexivity]. intros x _ [].
Qed.

(** [has_lifetime] ends, and answers whether the message needs the lifetime *)
Lemma index_has_lifetime_total i m : get_message d i = Some m ->
  exists b, index_has_lifetime c d [] i = GOk b /\ (b = true <-> needs i).
Proof.
  intros G. unfold index_has_lifetime. rewrite G.
  destruct (message_has_lifetime_total (lifetime_fuel d) [] i m G) as (b & E & K).
  - constructor.
  - intros x [].
  - unfold lifetime_fuel. cbn. lia.
  - exists b. split; [exact E|]. rewrite K. split; [apply hits_needs|apply needs_hits].
Qed.
Lemma ignored_has_lifetime i m n : get_message d i = Some m -> message_has_lifetime c d n [m_index m] m = GOk false.
Proof. intros G. assert (X : existsb (midx_eqb (m_index m)) [m_index m] = true) by (cbn; now rewrite midx_eqb_refl). destruct n; cbn [message_has_lifetime]; now rewrite X. Qed.

Lemma field_has_lifetime f : (forall j, In (TMessage j) (leaves (f_typ f)) -> exists m', get_message d j = Some m') ->
  exists b, type_has_lifetime (index_has_lifetime c d []) (f_is_packed f) (f_typ f) = GOk b /\
    (b = true <-> borrows_itself (f_is_packed f) (f_typ f) \/ exists j, In (TMessage j) (leaves (f_typ f)) /\ needs j).
Proof.
  intros H. destruct (type_has_lifetime_total (index_has_lifetime c d []) (f_typ f) (f_is_packed f)) as (b & E & K).
  { intros j Hj. destruct (H j Hj) as (m' & G). destruct (index_has_lifetime_total j m' G) as (b & E & _). eauto. }
  exists b. split; [exact E|]. rewrite K. split; (intros [A|(j & A & B)]; [now left|right; exists j; split; [exact A|]]);
    destruct (H j A) as (m' & G); destruct (index_has_lifetime_total j m' G) as (b' & E' & K').
  - apply K'. congruence.
  - apply K' in B. congruence.
Qed.
Lemma oneof_has_lifetime_total o : (forall f j, In f (o_fields o) -> In (TMessage j) (leaves (f_typ f)) -> exists m', get_message d j = Some m') ->
  exists b, oneof_has_lifetime c d o = GOk b /\ (b = true <-> exists f, In f (o_fields o) /\ visible c f = true /\
     (borrows_itself (f_is_packed f) (f_typ f) \/ exists j, In (TMessage j) (leaves (f_typ f)) /\ needs j)).
Proof.
  intros H. destruct (gany_total (fun f => gbind (type_has_lifetime (index_has_lifetime c d []) (f_is_packed f) (f_typ f))
                       (fun b => GOk (b && visible c f))) (o_fields o)) as (b & E & K).
  { intros f Hf. destruct (field_has_lifetime f) as (b & E & _); [intros j; now apply H|]. rewrite E. cbn. eauto. }
  exists b. split; [exact E|]. rewrite K. split.
  - intros (f & Hf & E'). exists f. split; [exact Hf|]. destruct (field_has_lifetime f) as (b' & E2 & K2); [intros j; now apply H|].
    rewrite E2 in E'. cbn in E'. injection E' as E'. apply andb_prop in E'. destruct E' as (-> & V). split; [exact V|]. now apply K2.
  - intros (f & Hf & V & A). exists f. split; [exact Hf|]. destruct (field_has_lifetime f) as (b' & E2 & K2); [intros j; now apply H|].
    rewrite E2. cbn. apply K2 in A. rewrite A, V. reflexivity.
Qed.
End Lifetimes.
