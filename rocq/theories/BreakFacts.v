(** What breaking cycles does to the fields of a descriptor. *)
From Coq Require Import Arith Lia Sorting.Permutation ZifyBool ZifyNat.
From Verif Require Import Base Schema Passes Scc SccFacts GenSem GenCheck Cycles CycleFacts.

(** a message without the messages nested in it *)
Definition shell (m : message) : message := set_messages m [].
Inductive opt_rel {A B} (R : A -> B -> Prop) : option A -> option B -> Prop :=
| or_none : opt_rel R None None
| or_some : forall x y, R x y -> opt_rel R (Some x) (Some y).

Lemma nth_upd {A} i j (g : A -> A) l :
  nth_error (upd_nth i g l) j = if (j =? i)%nat then option_map g (nth_error l j) else nth_error l j.
Proof.
  revert i j; induction l as [|x l IH]; intros [|i] [|j]; cbn; try reflexivity; try (now destruct (_ =? _)%nat).
  apply IH.
Qed.

Lemma upd_get g rest : (forall m, m_messages (g m) = m_messages m) -> forall ms i0 p,
  opt_rel (fun m m' => shell m' = shell (if midx_eqb p (i0 :: rest) then g m else m))
          (get_in ms p) (get_in (upd_nth i0 (upd_path rest g) ms) p).
Proof.
  intros Hg. induction rest as [|r rest IH]; intros ms i0 [|j q]; try constructor; cbn [get_in]; rewrite nth_upd.
  - destruct (Nat.eqb_spec j i0) as [->|D].
    + destruct (nth_error ms i0) as [m|]; cbn; [|constructor]. destruct q as [|r q].
      * constructor. now rewrite midx_eqb_refl.
      * rewrite Hg. destruct (get_in (m_messages m) (r :: q)); [|constructor]. constructor.
        destruct (midx_eqb (i0 :: r :: q) [i0]) eqn:E; [|reflexivity]. apply midx_eqb_eq in E. discriminate.
    + assert (Ne : midx_eqb (j :: q) [i0] = false).
      { destruct (midx_eqb (j :: q) [i0]) eqn:E; [|reflexivity]. apply midx_eqb_eq in E. congruence. }
      rewrite Ne. destruct (nth_error ms j) as [m|]; [|constructor]. destruct q as [|r q]; [now constructor|].
      destruct (get_in (m_messages m) (r :: q)); now constructor.
  - destruct (Nat.eqb_spec j i0) as [->|D].
    + destruct (nth_error ms i0) as [m|]; cbn [option_map]; [|constructor]. destruct q as [|r' q].
      * constructor. destruct (midx_eqb [i0] (i0 :: r :: rest)) eqn:E; [apply midx_eqb_eq in E; discriminate|].
        cbn [upd_path]. reflexivity.
      * cbn [upd_path m_messages set_messages].
        replace (midx_eqb (i0 :: r' :: q) (i0 :: r :: rest)) with (midx_eqb (r' :: q) (r :: rest)); [apply IH|].
        destruct (midx_eqb (r' :: q) (r :: rest)) eqn:E1, (midx_eqb (i0 :: r' :: q) (i0 :: r :: rest)) eqn:E2; try reflexivity.
        -- apply midx_eqb_eq in E1. rewrite E1, midx_eqb_refl in E2. discriminate.
        -- apply midx_eqb_eq in E2. injection E2 as -> ->. rewrite midx_eqb_refl in E1. discriminate.
    + assert (Ne : midx_eqb (j :: q) (i0 :: r :: rest) = false).
      { destruct (midx_eqb (j :: q) (i0 :: r :: rest)) eqn:E; [|reflexivity]. apply midx_eqb_eq in E. congruence. }
      rewrite Ne. destruct (nth_error ms j) as [m|]; [|constructor]. destruct q as [|r' q]; [now constructor|].
      destruct (get_in (m_messages m) (r' :: q)); now constructor.
Qed.

(** ** Descriptors that differ only in their fields *)
Definition oneof_rel (R : field -> field -> Prop) (o o' : oneof) : Prop :=
  Forall2 R (o_fields o) (o_fields o') /\ set_ofields o' [] = set_ofields o [].
Definition msg_rel (R : field -> field -> Prop) (m m' : message) : Prop :=
  Forall2 R (m_fields m) (m_fields m') /\ Forall2 (oneof_rel R) (m_oneofs m) (m_oneofs m') /\
  shell (set_fields m' [] []) = shell (set_fields m [] []).
Definition desc_rel (R : midx -> field -> field -> Prop) (d d' : file_descriptor) : Prop :=
  (forall p, opt_rel (msg_rel (R p)) (get_message d p) (get_message d' p)) /\
  set_dmessages d' [] = set_dmessages d [].

Lemma Forall2_refl {A} (R : A -> A -> Prop) l : (forall x, R x x) -> Forall2 R l l.
Proof. intros H. induction l; constructor; auto. Qed.
Lemma Forall2_trans {A} (R S T : A -> A -> Prop) : (forall x y z, R x y -> S y z -> T x z) ->
  forall l1 l2 l3, Forall2 R l1 l2 -> Forall2 S l2 l3 -> Forall2 T l1 l3.
Proof.
  intros H l1 l2 l3 H1; revert l3. induction H1 as [|x y l1 l2 Rxy F IH]; intros l3 H2; inversion H2; subst; constructor; eauto.
Qed.
Lemma msg_rel_refl (R : field -> field -> Prop) m : (forall f, R f f) -> msg_rel R m m.
Proof.
  intros H. split; [now apply Forall2_refl|]. split; [|reflexivity]. apply Forall2_refl. intros o. split; [|reflexivity].
  now apply Forall2_refl.
Qed.
Lemma msg_rel_trans (R S T : field -> field -> Prop) m1 m2 m3 : (forall x y z, R x y -> S y z -> T x z) ->
  msg_rel R m1 m2 -> msg_rel S m2 m3 -> msg_rel T m1 m3.
Proof.
  intros H (A1 & A2 & A3) (B1 & B2 & B3). split; [now apply (Forall2_trans R S T H) with (m_fields m2)|]. split; [|congruence].
  apply (Forall2_trans (oneof_rel R) (oneof_rel S) (oneof_rel T)) with (m_oneofs m2); [|exact A2|exact B2].
  intros x y z (E1 & E2) (F1 & F2). split; [|congruence]. now apply (Forall2_trans R S T H) with (o_fields y).
Qed.
Lemma desc_rel_refl (R : midx -> field -> field -> Prop) d : (forall p f, R p f f) -> desc_rel R d d.
Proof.
  intros H. split; [|reflexivity]. intros p. destruct (get_message d p); constructor. apply msg_rel_refl, H.
Qed.
Lemma desc_rel_trans (R S T : midx -> field -> field -> Prop) d1 d2 d3 : (forall p x y z, R p x y -> S p y z -> T p x z) ->
  desc_rel R d1 d2 -> desc_rel S d2 d3 -> desc_rel T d1 d3.
Proof.
  intros H (A & A') (B & B'). split; [|congruence]. intros p. specialize (A p). specialize (B p).
  inversion A as [E1 E2|x y Rxy E1 E2]; rewrite <- E2 in B; inversion B as [E3 E4|x' y' Sxy E3 E4]; subst; constructor.
  exact (msg_rel_trans _ _ _ _ _ _ (H p) Rxy Sxy).
Qed.
Lemma desc_rel_impl (R S : midx -> field -> field -> Prop) d d' : (forall p f f', R p f f' -> S p f f') -> desc_rel R d d' -> desc_rel S d d'.
Proof.
  intros H (A & B). split; [|exact B]. intros p. specialize (A p). inversion A as [|x y (X & Y & Z)]; constructor.
  assert (Q : forall l l', Forall2 (R p) l l' -> Forall2 (S p) l l') by (induction 1; constructor; auto).
  split; [auto|]. split; [|exact Z]. clear - Y Q. induction Y as [|o o' l l' (O1 & O2) F IH]; constructor; [split; auto|exact IH].
Qed.
Lemma msg_rel_fields R m m' : msg_rel R m m' -> Forall2 R (all_fields m) (all_fields m').
Proof.
  intros (A & B & _). unfold all_fields. apply Forall2_app; [exact A|].
  induction B as [|o o' l l' (E & _) F IH]; cbn; [constructor|]. now apply Forall2_app.
Qed.
Lemma Forall2_in_l {A B} (R : A -> B -> Prop) l l' : Forall2 R l l' -> forall x, In x l -> exists y, In y l' /\ R x y.
Proof.
  induction 1 as [|x y l l' H F IH]; intros z Hz; [contradiction|]. destruct Hz as [<-|Hz]; [exists y; split; [now left|exact H]|].
  destruct (IH z Hz) as (w & Hw & Rw). exists w. split; [now right|exact Rw].
Qed.
Lemma Forall2_in_r {A B} (R : A -> B -> Prop) l l' : Forall2 R l l' -> forall y, In y l' -> exists x, In x l /\ R x y.
Proof.
  induction 1 as [|x y l l' H F IH]; intros z Hz; [contradiction|]. destruct Hz as [<-|Hz]; [exists x; split; [now left|exact H]|].
  destruct (IH z Hz) as (w & Hw & Rw). exists w. split; [now right|exact Rw].
Qed.
Lemma desc_rel_back R d d' p m' : desc_rel R d d' -> get_message d' p = Some m' ->
  exists m, get_message d p = Some m /\ msg_rel (R p) m m'.
Proof. intros (A & _) G. specialize (A p). rewrite G in A. inversion A; subst. eauto. Qed.
Lemma desc_rel_fwd R d d' p m : desc_rel R d d' -> get_message d p = Some m ->
  exists m', get_message d' p = Some m' /\ msg_rel (R p) m m'.
Proof. intros (A & _) G. specialize (A p). rewrite G in A. inversion A; subst. eauto. Qed.
Lemma msg_rel_index R m m' : msg_rel R m m' -> m_index m' = m_index m.
Proof. intros (_ & _ & E). apply (f_equal m_index) in E. exact E. Qed.
Lemma msg_rel_name R m m' : msg_rel R m m' -> m_name m' = m_name m.
Proof. intros (_ & _ & E). apply (f_equal m_name) in E. exact E. Qed.
Lemma indexed_rel R d d' : desc_rel R d d' -> indexed d -> indexed d'.
Proof.
  intros H I p m' G. destruct (desc_rel_back _ _ _ _ _ H G) as (m & G' & M). rewrite (msg_rel_index _ _ _ M). exact (I _ _ G').
Qed.

(** ** Updating the fields of one message *)
Lemma map_fields_all g m : all_fields (map_fields g m) = map g (all_fields m).
Proof.
  unfold all_fields, map_fields. cbn. rewrite map_app. f_equal. induction (m_oneofs m) as [|o l IH]; cbn; [reflexivity|].
  rewrite map_app. f_equal. exact IH.
Qed.
Lemma shell_eq m m' : shell m' = shell m -> m_fields m' = m_fields m /\ m_oneofs m' = m_oneofs m /\ all_fields m' = all_fields m.
Proof.
  intros H. pose proof (f_equal m_fields H) as A. pose proof (f_equal m_oneofs H) as B. cbn in A, B.
  unfold all_fields. now rewrite A, B.
Qed.

Lemma msg_rel_map (R : field -> field -> Prop) g m m' : (forall f, R f (g f)) -> shell m' = shell (map_fields g m) -> msg_rel R m m'.
Proof.
  intros H E. destruct (shell_eq _ _ E) as (A & B & _). unfold msg_rel. rewrite A, B. cbn.
  assert (Q : forall l, Forall2 R l (map g l)) by (induction l; cbn; constructor; auto).
  split; [apply Q|]. split.
  - induction (m_oneofs m) as [|o l IH]; cbn; constructor; [|exact IH]. split; [apply Q|reflexivity].
  - assert (F : shell (set_fields m' [] []) = set_fields (shell m') [] []) by reflexivity. rewrite F, E. reflexivity.
Qed.
Lemma msg_rel_shell (R : field -> field -> Prop) m m' : (forall f, R f f) -> shell m' = shell m -> msg_rel R m m'.
Proof.
  intros H E. destruct (shell_eq _ _ E) as (A & B & _). unfold msg_rel. rewrite A, B.
  pose proof (msg_rel_refl R m H) as (P & Q & _). split; [exact P|]. split; [exact Q|].
  assert (F : shell (set_fields m' [] []) = set_fields (shell m') [] []) by reflexivity. rewrite F, E. reflexivity.
Qed.

Lemma upd_message_ok i g d d' : upd_message i (map_fields g) d = GOk d' ->
  (forall p, opt_rel (fun m m' => shell m' = shell (if midx_eqb p i then map_fields g m else m)) (get_message d p) (get_message d' p))
  /\ set_dmessages d' [] = set_dmessages d [].
Proof.
  unfold upd_message. destruct (get_message d i) as [m|]; [|discriminate]. destruct i as [|i0 rest]; [discriminate|].
  intros H; injection H as <-. split; [|reflexivity]. intros p. rewrite !get_message_eq. cbn [d_messages set_dmessages].
  apply upd_get. reflexivity.
Qed.
Lemma upd_message_exists i g d : get_message d i <> None -> exists d', upd_message i g d = GOk d'.
Proof.
  intros H. unfold upd_message. destruct i as [|i0 rest]; [now contradiction H|].
  destruct (get_message d (i0 :: rest)); [eauto|congruence].
Qed.

Lemma upd_message_rel (R : midx -> field -> field -> Prop) i g d d' : (forall p f, R p f f) -> (forall f, R i f (g f)) ->
  upd_message i (map_fields g) d = GOk d' -> desc_rel R d d'.
Proof.
  intros H1 H2 E. apply upd_message_ok in E. destruct E as (A & B). split; [|exact B]. intros p. specialize (A p).
  inversion A as [|m m' S]; constructor. destruct (midx_eqb p i) eqn:Ep.
  - apply midx_eqb_eq in Ep. subst p. now apply (msg_rel_map _ g).
  - now apply msg_rel_shell.
Qed.
Lemma upd_all_rel (R : midx -> field -> field -> Prop) g vs : (forall p f, R p f f) ->
  (forall p x y z, R p x y -> R p y z -> R p x z) -> (forall p f, In p vs -> R p f (g f)) ->
  forall d d', upd_all vs g d = GOk d' -> desc_rel R d d'.
Proof.
  intros H1 H2. induction vs as [|v vs IH]; intros H3 d d' E; cbn in E.
  - injection E as <-. now apply desc_rel_refl.
  - destruct (upd_message v (map_fields g) d) as [d1|] eqn:E1; [|discriminate]. cbn in E.
    apply (desc_rel_trans R R R) with d1; [exact H2| |].
    + apply (upd_message_rel R v g); auto. intros f. apply H3. now left.
    + apply IH; [|exact E]. intros p f Hp. apply H3. now right.
Qed.

(** a property established by the update *)
Definition fields_at (d : file_descriptor) (v : midx) (P : field -> Prop) : Prop :=
  forall m f, get_message d v = Some m -> In f (all_fields m) -> P f.
Lemma upd_message_at i g d d' v (P Q : field -> Prop) : upd_message i (map_fields g) d = GOk d' ->
  fields_at d v P -> (forall f, P f -> P (g f) /\ Q (g f)) -> fields_at d' v P /\ (v = i -> fields_at d' v Q).
Proof.
  intros E H HP. apply upd_message_ok in E. destruct E as (A & _). specialize (A v). split.
  - intros m' f G Hf. rewrite G in A. inversion A as [|m x S E1 E2]; subst. apply shell_eq in S. destruct S as (_ & _ & S).
    rewrite S in Hf. destruct (midx_eqb v i); [|exact (H m f (eq_sym E1) Hf)]. rewrite map_fields_all in Hf.
    apply in_map_iff in Hf. destruct Hf as (f0 & <- & Hf). apply HP, (H m f0 (eq_sym E1) Hf).
  - intros -> m' f G Hf. rewrite G in A. inversion A as [|m x S E1 E2]; subst. apply shell_eq in S. destruct S as (_ & _ & S).
    rewrite S, midx_eqb_refl, map_fields_all in Hf.
    apply in_map_iff in Hf. destruct Hf as (f0 & <- & Hf). apply HP, (H m f0 (eq_sym E1) Hf).
Qed.
Lemma upd_message_keep i g d d' v (P : field -> Prop) : upd_message i (map_fields g) d = GOk d' ->
  fields_at d v P -> (forall f, P f -> P (g f)) -> fields_at d' v P.
Proof. intros E H HP. apply (proj1 (upd_message_at i g d d' v P P E H (fun f Hf => conj (HP f Hf) (HP f Hf)))). Qed.
Lemma upd_all_keep vs g (P : field -> Prop) v : (forall f, P f -> P (g f)) -> forall d d', upd_all vs g d = GOk d' ->
  fields_at d v P -> fields_at d' v P.
Proof.
  intros HP. induction vs as [|w vs IH]; intros d d' E H; cbn in E; [injection E as <-; exact H|].
  destruct (upd_message w (map_fields g) d) as [d1|] eqn:E1; [|discriminate]. cbn in E.
  apply (IH d1 d' E). exact (upd_message_keep w g d d1 v P E1 H HP).
Qed.
Lemma upd_all_at vs g (P Q : field -> Prop) : (forall f, P f -> P (g f) /\ Q (g f)) -> (forall f, P f -> Q f -> Q (g f)) ->
  forall d d' v, upd_all vs g d = GOk d' -> fields_at d v P -> In v vs -> fields_at d' v Q.
Proof.
  intros HP HQ. induction vs as [|w vs IH]; intros d d' v E H Hv; cbn in E; [contradiction|].
  destruct (upd_message w (map_fields g) d) as [d1|] eqn:E1; [|discriminate]. cbn in E.
  destruct (upd_message_at w g d d1 v P Q E1 H HP) as (H1 & H2).
  destruct Hv as [->|Hv]; [|exact (IH d1 d' v E H1 Hv)].
  specialize (H2 eq_refl).
  assert (K : fields_at d' v (fun f => P f /\ Q f)).
  { apply (upd_all_keep vs g (fun f => P f /\ Q f) v) with (d := d1); [|exact E|intros m f G Hf; split; eauto].
    intros f (Pf & Qf). split; [apply HP, Pf|now apply HQ]. }
  intros m f G Hf. apply (K m f G Hf).
Qed.
Lemma upd_all_exists vs g : forall d, Forall (fun v => get_message d v <> None) vs -> exists d', upd_all vs g d = GOk d'.
Proof.
  induction vs as [|v vs IH]; intros d F; cbn; [eauto|]. inversion F as [|? ? F1 F2]; subst.
  destruct (upd_message_exists v (map_fields g) d F1) as (d1 & E). rewrite E. cbn. apply IH.
  apply upd_message_ok in E. destruct E as (A & _). rewrite Forall_forall in *. intros p Hp. specialize (A p). specialize (F2 p Hp).
  inversion A as [E1 E2|x y S E1 E2]; congruence.
Qed.

(** ** How a field may change *)

(** [f'] is [f] or the boxed optional version of [f], whose type lies at the
    end of an allowed edge; with [ec] only optional fields change *)
Definition evo (ec : bool) (E : midx -> midx -> Prop) (p : midx) (f f' : field) : Prop :=
  f' = f \/
  exists j, f_typ f = TMessage j /\ E p j /\ freq_is_repeated (f_freq f) = false /\
    (ec = true -> freq_is_optional (f_freq f) = true) /\ f' = set_boxed f (optional_of (f_freq f)).

Lemma optional_of_idem q : optional_of (optional_of q) = optional_of q.
Proof. now destruct q. Qed.
Lemma optional_of_opt q : freq_is_optional (optional_of q) = true.
Proof. now destruct q. Qed.
Lemma optional_of_same q : freq_is_optional q = true -> optional_of q = q.
Proof. now destruct q. Qed.

Lemma evo_refl ec E p f : evo ec E p f f.
Proof. now left. Qed.
Lemma evo_trans ec E p x y z : evo ec E p x y -> evo ec E p y z -> evo ec E p x z.
Proof.
  intros [->|(j & T & Hj & Rp & Op & ->)] [->|(j' & T' & Hj' & Rp' & Op' & ->)].
  - now left.
  - right. exists j'. auto.
  - right. exists j. auto.
  - right. exists j. split; [exact T|]. split; [exact Hj|]. split; [exact Rp|]. split; [exact Op|].
    unfold set_boxed. cbn. now rewrite optional_of_idem.
Qed.
Lemma evo_mono ec (E E' : midx -> midx -> Prop) p f f' : (forall j, E p j -> E' p j) -> evo ec E p f f' -> evo ec E' p f f'.
Proof. intros H [->|(j & T & Hj & R)]; [now left|]. right. exists j. split; [exact T|]. split; [auto|exact R]. Qed.
Lemma evo_typ ec E p f f' : evo ec E p f f' -> f_typ f' = f_typ f.
Proof. intros [->|(j & _ & _ & _ & _ & ->)]; reflexivity. Qed.
Lemma evo_boxed ec E p f f' : evo ec E p f f' -> f_boxed f = true -> f_boxed f' = true.
Proof. intros [->|(j & _ & _ & _ & _ & ->)]; auto. Qed.
Lemma evo_repeated ec E p f f' : evo ec E p f f' -> freq_is_repeated (f_freq f') = freq_is_repeated (f_freq f).
Proof. intros [->|(j & _ & _ & R & _ & ->)]; [reflexivity|]. cbn. rewrite R. now destruct (f_freq f). Qed.

Lemma in_cycle_iff cycle f : in_cycle cycle f = true <-> exists j, f_typ f = TMessage j /\ In j cycle.
Proof.
  unfold in_cycle. split.
  - destruct (f_typ f) as [| | | | | | | | | | | | | | |j| | | | |]; try discriminate. cbn. intros H. exists j. split; [reflexivity|]. now apply existsb_midx.
  - intros (j & -> & H). cbn. now apply existsb_midx.
Qed.

Lemma box_optional_evo ec (E : midx -> midx -> Prop) cycle p f : (forall j, In j cycle -> E p j) -> evo ec E p f (box_optional cycle f).
Proof.
  intros H. unfold box_optional. destruct (freq_is_optional (f_freq f)) eqn:O; [|now left].
  destruct (in_cycle cycle f) eqn:C; [|now left]. cbn. right. apply in_cycle_iff in C. destruct C as (j & T & Hj).
  exists j. rewrite (optional_of_same _ O). split; [exact T|]. split; [auto|]. split; [now destruct (f_freq f)|]. auto.
Qed.
Lemma box_required_evo (E : midx -> midx -> Prop) cycle p f : (forall j, In j cycle -> E p j) -> evo false E p f (box_required cycle f).
Proof.
  intros H. unfold box_required. destruct (negb _ && _) eqn:C; [|now left].
  apply andb_prop in C. destruct C as (C1 & C2). apply in_cycle_iff in C2. destruct C2 as (j & T & Hj).
  right. exists j. split; [exact T|]. split; [auto|]. split; [|split; [discriminate|reflexivity]].
  destruct (f_freq f); try reflexivity; discriminate C1.
Qed.

(** a field towards the cycle is boxed unless it is repeated *)
Definition tamed (cycle : list midx) (f : field) : Prop :=
  in_cycle cycle f = true -> freq_is_repeated (f_freq f) = false -> f_boxed f = true.
Definition opt_tamed (cycle : list midx) (f : field) : Prop :=
  in_cycle cycle f = true -> freq_is_optional (f_freq f) = true -> f_boxed f = true.

Lemma in_cycle_boxed cycle f q : in_cycle cycle (set_boxed f q) = in_cycle cycle f.
Proof. reflexivity. Qed.

Lemma messages_of_ok d vs ms : messages_of d vs = GOk ms <-> Forall2 (fun v m => get_message d v = Some m) vs ms.
Proof.
  unfold messages_of. rewrite gmap_ok. split; intros H.
  - induction H as [|v m l l' H F IH]; constructor; [|exact IH]. destruct (get_message d v); congruence.
  - induction H as [|v m l l' H F IH]; constructor; [|exact IH]. now rewrite H.
Qed.
Lemma messages_of_exists d vs : Forall (fun v => get_message d v <> None) vs -> exists ms, messages_of d vs = GOk ms.
Proof.
  intros H. assert (exists ms, Forall2 (fun v m => get_message d v = Some m) vs ms) as (ms & F).
  { induction H as [|v l H F IH]; [exists []; constructor|]. destruct IH as (ms & IH). destruct (get_message d v) as [m|] eqn:G; [|congruence].
    exists (m :: ms). now constructor. }
  exists ms. now apply messages_of_ok.
Qed.

Lemma exists_none_rel R d d' : desc_rel R d d' -> forall v, get_message d v <> None -> get_message d' v <> None.
Proof. intros (A & _) v H. specialize (A v). inversion A; congruence. Qed.

Definition inside (cycle : list midx) (p j : midx) : Prop := In p cycle /\ In j cycle.

Lemma break_cycle_ok ec cycle d : Forall (fun v => get_message d v <> None) cycle ->
  (exists d', break_cycle ec cycle d = GOk d' /\ desc_rel (evo ec (inside cycle)) d d' /\
     forall v, In v cycle -> fields_at d' v (tamed cycle)) \/
  (ec = true /\ exists names, break_cycle ec cycle d = GErr (ErrCycle names) /\
     exists v m f j, In v cycle /\ get_message d v = Some m /\ In f (all_fields m) /\
       f_typ f = TMessage j /\ In j cycle /\ f_boxed f = false /\ freq_is_optional (f_freq f) = false).
Proof.
  intros F. unfold break_cycle. destruct (upd_all_exists cycle (box_optional cycle) d F) as (d1 & E1). rewrite E1. cbn [gbind].
  assert (R1 : forall ec, desc_rel (evo ec (inside cycle)) d d1).
  { intros ec'. apply (upd_all_rel (evo ec' (inside cycle)) (box_optional cycle) cycle); try exact E1.
    - intros p f. apply evo_refl.
    - intros p x y z. apply evo_trans.
    - intros p f Hp. apply box_optional_evo. intros j Hj. split; assumption. }
  assert (T1 : forall v, In v cycle -> fields_at d1 v (opt_tamed cycle)).
  { intros v Hv. apply (upd_all_at cycle (box_optional cycle) (fun _ => True) (opt_tamed cycle)) with (d := d); auto.
    - intros f _. split; [exact I|]. intros C O. unfold box_optional in *.
      destruct (freq_is_optional (f_freq f)) eqn:Of; cbn in *; [|congruence].
      destruct (in_cycle cycle f) eqn:Cf; cbn in *; [reflexivity|congruence].
    - intros f _ H C O. unfold box_optional in *. destruct (freq_is_optional (f_freq f)) eqn:Of; cbn in *; [|congruence].
      destruct (in_cycle cycle f) eqn:Cf; cbn in *; [reflexivity|congruence].
    - intros ? ? ? ?. exact I. }
  assert (F1 : Forall (fun v => get_message d1 v <> None) cycle).
  { rewrite Forall_forall in *. intros v Hv. apply (exists_none_rel _ _ _ (R1 ec)), F, Hv. }
  unfold is_cycle. destruct (messages_of_exists d1 cycle F1) as (ms & Em). rewrite Em. cbn [gbind].
  pose proof (proj1 (messages_of_ok _ _ _) Em) as Fm.
  destruct (existsb (fun f => negb (f_boxed f) && in_cycle cycle f) (flat_map all_fields ms)) eqn:Ex.
  - destruct ec.
    + right. split; [reflexivity|]. exists (map m_name ms). split; [reflexivity|].
      apply existsb_exists in Ex. destruct Ex as (f & Hf & B). apply andb_prop in B. destruct B as (B1 & B2).
      apply in_flat_map in Hf. destruct Hf as (m1 & Hm & Hf). destruct (Forall2_in_r _ _ _ Fm m1 Hm) as (v & Hv & G1).
      destruct (desc_rel_back _ _ _ _ _ (R1 true) G1) as (m & G & M).
      destruct (Forall2_in_r _ _ _ (msg_rel_fields _ _ _ M) f Hf) as (f0 & Hf0 & Ev).
      pose proof (T1 v Hv m1 f G1 Hf B2) as TT.
      apply in_cycle_iff in B2. destruct B2 as (j & T & Hj).
      assert (Bf : f_boxed f = false) by (now destruct (f_boxed f)).
      assert (Of : freq_is_optional (f_freq f) = false).
      { destruct (freq_is_optional (f_freq f)); [|reflexivity]. specialize (TT eq_refl). congruence. }
      destruct Ev as [->|(j' & _ & _ & _ & _ & ->)]; [|discriminate Bf].
      exists v, m, f0, j. auto 10.
    + left. destruct (upd_all_exists cycle (box_required cycle) d1 F1) as (d2 & E2). exists d2. split; [exact E2|]. split.
      * apply (desc_rel_trans (evo false (inside cycle)) (evo false (inside cycle)) (evo false (inside cycle))) with d1.
        -- intros p x y z. apply evo_trans.
        -- apply R1.
        -- apply (upd_all_rel (evo false (inside cycle)) (box_required cycle) cycle); try exact E2.
           ++ intros p f. apply evo_refl.
           ++ intros p x y z. apply evo_trans.
           ++ intros p f Hp. apply box_required_evo. intros j Hj. split; assumption.
      * intros v Hv. apply (upd_all_at cycle (box_required cycle) (opt_tamed cycle) (tamed cycle)) with (d := d1); auto.
        -- intros f H. unfold box_required. destruct (negb (freq_is_optional (f_freq f) || freq_is_repeated (f_freq f)) && in_cycle cycle f) eqn:C.
           ++ split; intros _ _; reflexivity.
           ++ split; [exact H|]. intros C1 C2. rewrite C1, C2 in C. destruct (freq_is_optional (f_freq f)) eqn:O; [|discriminate C].
              exact (H C1 O).
        -- intros f _ H. unfold box_required. destruct (negb _ && _); [|exact H]. intros _ _. reflexivity.
  - left. exists d1. split; [reflexivity|]. split; [apply R1|]. intros v Hv m f G Hf C Rp.
    destruct (f_boxed f) eqn:B; [reflexivity|]. exfalso. rewrite <- not_true_iff_false in Ex. apply Ex. apply existsb_exists.
    exists f. split; [|now rewrite B, C]. apply in_flat_map. destruct (Forall2_in_l _ _ _ Fm v Hv) as (m1 & Hm & G1).
    exists m1. split; [exact Hm|]. congruence.
Qed.

(** ** All the cycles of a component *)
Lemma tamed_evo ec E p cycle f f' : evo ec E p f f' -> tamed cycle f -> tamed cycle f'.
Proof.
  intros Ev H C R. rewrite (evo_repeated _ _ _ _ _ Ev) in R. apply (evo_boxed _ _ _ _ _ Ev), H; [|exact R].
  unfold in_cycle in *. now rewrite <- (evo_typ _ _ _ _ _ Ev).
Qed.
Lemma fields_at_rel ec E d d' v cycle : desc_rel (evo ec E) d d' -> fields_at d v (tamed cycle) -> fields_at d' v (tamed cycle).
Proof.
  intros R H m' f' G Hf. destruct (desc_rel_back _ _ _ _ _ R G) as (m & G0 & M).
  destruct (Forall2_in_r _ _ _ (msg_rel_fields _ _ _ M) f' Hf) as (f & Hf0 & Ev).
  exact (tamed_evo _ _ _ _ _ _ Ev (H m f G0 Hf0)).
Qed.

Lemma position_some m l k : position m l = Some k -> nth_error l k = Some m /\ ~ In m (firstn k l).
Proof.
  revert k; induction l as [|n l IH]; intros k H; cbn in H; [discriminate|]. destruct (midx_eqb n m) eqn:E.
  - injection H as <-. apply midx_eqb_eq in E. subst. split; [reflexivity|intros []].
  - destruct (position m l) as [k'|]; [|discriminate]. injection H as <-. destruct (IH k' eq_refl) as (A & B).
    split; [exact A|]. cbn. intros [->|C]; [rewrite midx_eqb_refl in E; discriminate|contradiction].
Qed.
Lemma position_in m l : In m l -> exists k, position m l = Some k.
Proof.
  induction l as [|n l IH]; intros H; [contradiction|]. cbn. destruct (midx_eqb n m) eqn:E; [eauto|].
  destruct H as [->|H]; [rewrite midx_eqb_refl in E; discriminate|]. destruct (IH H) as (k & ->). exists (S k). reflexivity.
Qed.
Lemma nth_firstn_in {A} (l : list A) k x : nth_error l k = Some x -> In x (firstn (S k) l).
Proof.
  revert l; induction k as [|k IH]; intros [|y l] H; cbn in H; try discriminate.
  - injection H as ->. now left.
  - right. exact (IH l H).
Qed.
Lemma firstn_in {A} (l : list A) k x : In x (firstn k l) -> In x l.
Proof. intros H. rewrite <- (firstn_skipn k l). apply in_or_app. now left. Qed.

Definition error_reason (cs : list midx) (d : file_descriptor) : Prop :=
  exists v m f j, In v cs /\ get_message d v = Some m /\ In f (all_fields m) /\
    f_typ f = TMessage j /\ In j cs /\ f_boxed f = false /\ freq_is_optional (f_freq f) = false.

Lemma error_reason_back ec E cs cs' d d' : desc_rel (evo ec E) d d' -> (forall x, In x cs -> In x cs') ->
  error_reason cs d' -> error_reason cs' d.
Proof.
  intros R S (v & m' & f' & j & Hv & G & Hf & T & Hj & B & O). destruct (desc_rel_back _ _ _ _ _ R G) as (m & G0 & M).
  destruct (Forall2_in_r _ _ _ (msg_rel_fields _ _ _ M) f' Hf) as (f & Hf0 & Ev).
  destruct Ev as [->|(j' & _ & _ & _ & _ & ->)]; [|discriminate B]. exists v, m, f, j. auto 10.
Qed.

Lemma Forall_exists_rel R d d' vs : desc_rel R d d' -> Forall (fun v => get_message d v <> None) vs -> Forall (fun v => get_message d' v <> None) vs.
Proof. intros H F. rewrite Forall_forall in *. intros v Hv. exact (exists_none_rel R d d' H v (F v Hv)). Qed.
Lemma Forall_firstn {A} (P : A -> Prop) k l : Forall P l -> Forall P (firstn k l).
Proof. intros F. rewrite Forall_forall in *. intros x Hx. apply F, (firstn_in l k x Hx). Qed.

Lemma break_ends_ok ec scc : forall ends d, Forall (fun v => get_message d v <> None) scc ->
  (exists d', break_ends ec scc ends d = GOk d' /\ desc_rel (evo ec (inside scc)) d d' /\
     forall e v, In e ends -> In v (firstn (S e) scc) -> fields_at d' v (tamed (firstn (S e) scc))) \/
  (ec = true /\ exists names, break_ends ec scc ends d = GErr (ErrCycle names) /\ error_reason scc d).
Proof.
  induction ends as [|e ends IH]; intros d F; cbn [break_ends].
  - left. exists d. split; [reflexivity|]. split; [apply desc_rel_refl; intros; apply evo_refl|]. intros e v [].
  - destruct (break_cycle_ok ec (firstn (S e) scc) d (Forall_firstn _ _ _ F)) as [(d1 & E1 & R1 & T1)|(-> & names & E1 & W)].
    + rewrite E1. cbn [gbind].
      assert (R1' : desc_rel (evo ec (inside scc)) d d1).
      { apply (desc_rel_impl (evo ec (inside (firstn (S e) scc)))); [|exact R1]. intros p f f'. apply evo_mono.
        intros j (A & B). split; eapply firstn_in; eassumption. }
      destruct (IH d1 (Forall_exists_rel _ _ _ _ R1' F)) as [(d' & E' & R' & T')|(-> & names & E' & W)].
      * left. exists d'. split; [exact E'|]. split; [apply (desc_rel_trans (evo ec (inside scc)) (evo ec (inside scc)) (evo ec (inside scc))) with d1; auto; intros p x y z; apply evo_trans|].
        intros e' v [<-|He] Hv; [|exact (T' e' v He Hv)]. exact (fields_at_rel _ _ _ _ _ _ R' (T1 v Hv)).
      * right. split; [reflexivity|]. exists names. split; [exact E'|]. exact (error_reason_back _ _ _ _ _ _ R1' (fun x H => H) W).
    + right. split; [reflexivity|]. exists names. rewrite E1. split; [reflexivity|].
      destruct W as (v & m & f & j & A1 & A2 & A3 & A4 & A5 & A6 & A7). exists v, m, f, j.
      repeat match goal with |- _ /\ _ => split end; auto; eapply firstn_in; eassumption.
Qed.

Lemma break_scc_ok ec : forall scc d, Forall (fun v => get_message d v <> None) scc ->
  (exists d', break_scc ec scc d = GOk d' /\ desc_rel (evo ec (inside scc)) d d' /\
     forall l1 v rest, scc = l1 ++ v :: rest -> fields_at d' v (tamed (v :: rest))) \/
  (ec = true /\ exists names, break_scc ec scc d = GErr (ErrCycle names) /\ error_reason scc d).
Proof.
  induction scc as [|v rest IH]; intros d F; cbn [break_scc].
  - left. exists d. split; [reflexivity|]. split; [apply desc_rel_refl; intros; apply evo_refl|]. intros l1 v rest E. now destruct l1.
  - pose proof F as F0. inversion F as [|? ? Fv Fr]; subst. destruct (get_message d v) as [m|] eqn:G; [|congruence].
    destruct (break_ends_ok ec (v :: rest) (cycle_ends m (v :: rest)) d F0) as [(d1 & E1 & R1 & T1)|(-> & names & E1 & W)].
    + rewrite E1. cbn [gbind]. destruct (IH d1 (Forall_exists_rel _ _ _ _ R1 Fr)) as [(d' & E' & R' & T')|(-> & names & E' & W)].
      * left. exists d'. split; [exact E'|].
        assert (R'' : desc_rel (evo ec (inside (v :: rest))) d1 d').
        { apply (desc_rel_impl (evo ec (inside rest))); [|exact R']. intros p f f'. apply evo_mono. intros j (A & B). split; now right. }
        split; [apply (desc_rel_trans (evo ec (inside (v :: rest))) (evo ec (inside (v :: rest))) (evo ec (inside (v :: rest)))) with d1; auto; intros p x y z; apply evo_trans|].
        intros [|a l1] w r2 Es.
        -- injection Es as <- <-. intros m' f' G' Hf' C Rp.
           destruct (desc_rel_back _ _ _ _ _ R'' G') as (m1 & G1 & M1).
           destruct (Forall2_in_r _ _ _ (msg_rel_fields _ _ _ M1) f' Hf') as (f1 & Hf1 & Ev1).
           destruct (desc_rel_back _ _ _ _ _ R1 G1) as (m0 & G0 & M0). rewrite G in G0. injection G0 as <-.
           destruct (Forall2_in_r _ _ _ (msg_rel_fields _ _ _ M0) f1 Hf1) as (f0 & Hf0 & Ev0).
           apply in_cycle_iff in C. destruct C as (j & Tj & Hj). destruct (position_in _ _ Hj) as (e & Pe).
           assert (He : In e (cycle_ends m (v :: rest))).
           { apply in_filter_map. exists j. split; [|exact Pe]. apply in_filter_map. exists f0. split; [exact Hf0|].
             rewrite <- (evo_typ _ _ _ _ _ Ev0), <- (evo_typ _ _ _ _ _ Ev1), Tj. reflexivity. }
           apply position_some in Pe. destruct Pe as (Pe & _).
           assert (Hv : In v (firstn (S e) (v :: rest))) by (now left).
           pose proof (fields_at_rel _ _ _ _ _ _ R'' (T1 e v He Hv)) as K. apply (K m' f' G' Hf'); [|exact Rp].
           apply in_cycle_iff. exists j. split; [exact Tj|]. now apply nth_firstn_in.
        -- injection Es as <- Es. exact (T' l1 w r2 Es).
      * right. split; [reflexivity|]. exists names. split; [exact E'|].
        exact (error_reason_back _ _ rest (v :: rest) _ _ R1 (fun x H => or_intror H) W).
    + right. split; [reflexivity|]. exists names. rewrite E1. split; [reflexivity|exact W].
Qed.

Definition inside_any (cs : list (list midx)) (p j : midx) : Prop := exists c, In c cs /\ In p c /\ In j c.

Lemma break_sccs_ok ec : forall cs d, Forall (fun v => get_message d v <> None) (concat cs) ->
  (exists d', break_sccs ec cs d = GOk d' /\ desc_rel (evo ec (inside_any cs)) d d' /\
     forall c l1 v rest, In c cs -> c = l1 ++ v :: rest -> fields_at d' v (tamed (v :: rest))) \/
  (ec = true /\ exists names, break_sccs ec cs d = GErr (ErrCycle names) /\ exists c, In c cs /\ error_reason c d).
Proof.
  induction cs as [|c cs IH]; intros d F; cbn [break_sccs].
  - left. exists d. split; [reflexivity|]. split; [apply desc_rel_refl; intros; apply evo_refl|]. intros c l1 v rest [].
  - cbn in F. apply Forall_app in F. destruct F as (F1 & F2).
    destruct (break_scc_ok ec c d F1) as [(d1 & E1 & R1 & T1)|(-> & names & E1 & W)].
    + rewrite E1. cbn [gbind]. destruct (IH d1 (Forall_exists_rel _ _ _ _ R1 F2)) as [(d' & E' & R' & T')|(-> & names & E' & c' & Hc & W)].
      * left. exists d'. split; [exact E'|].
        assert (R1' : desc_rel (evo ec (inside_any (c :: cs))) d d1).
        { apply (desc_rel_impl (evo ec (inside c))); [|exact R1]. intros p f f'. apply evo_mono. intros j (A & B). exists c. split; [now left|auto]. }
        assert (R2' : desc_rel (evo ec (inside_any (c :: cs))) d1 d').
        { apply (desc_rel_impl (evo ec (inside_any cs))); [|exact R']. intros p f f'. apply evo_mono. intros j (c' & A & B). exists c'. split; [now right|auto]. }
        split; [apply (desc_rel_trans (evo ec (inside_any (c :: cs))) (evo ec (inside_any (c :: cs))) (evo ec (inside_any (c :: cs)))) with d1; auto; intros p x y z; apply evo_trans|].
        intros c' l1 v rest [<-|Hc] Es; [|exact (T' c' l1 v rest Hc Es)].
        exact (fields_at_rel _ _ _ _ _ _ R' (T1 l1 v rest Es)).
      * right. split; [reflexivity|]. exists names. split; [exact E'|]. exists c'. split; [now right|].
        exact (error_reason_back _ _ _ _ _ _ R1 (fun x H => H) W).
    + right. split; [reflexivity|]. exists names. rewrite E1. split; [reflexivity|]. exists c. split; [now left|exact W].
Qed.

(** ** break_cycles *)
Theorem break_cycles_ok ec d : indexed d ->
  exists cs, sccs d = GOk cs /\
  ((exists d', break_cycles ec d = GOk d' /\ desc_rel (evo ec (inside_any cs)) d d' /\
     forall c l1 v rest, In c cs -> c = l1 ++ v :: rest -> fields_at d' v (tamed (v :: rest))) \/
   (ec = true /\ exists names, break_cycles ec d = GErr (ErrCycle names) /\ exists c, In c cs /\ error_reason c d)).
Proof.
  intros I. destruct (sccs_ok d I) as (cs & E & N & V & _ & _). exists cs. split; [exact E|].
  unfold break_cycles. rewrite E. cbn. apply break_sccs_ok. apply Forall_forall. intros p Hp. apply V in Hp.
  destruct Hp as (m & ->). discriminate.
Qed.

(** by-value edges go to earlier positions in the list of components *)
Lemma by_value_rel ec E d d' i j : desc_rel (evo ec E) d d' -> by_value d' i j -> by_value d i j.
Proof.
  intros R (m' & f' & G & Hf & B & Rp & T). destruct (desc_rel_back _ _ _ _ _ R G) as (m & G0 & M).
  destruct (Forall2_in_r _ _ _ (msg_rel_fields _ _ _ M) f' Hf) as (f & Hf0 & Ev).
  destruct Ev as [->|(j' & _ & _ & _ & _ & ->)]; [|discriminate B]. exists m, f. auto 10.
Qed.

Theorem break_cycles_rank_bounded ec d d' : indexed d -> break_cycles ec d = GOk d' ->
  exists rank : midx -> nat,
    (forall i j, by_value d' i j -> (exists m, get_message d' j = Some m) -> (rank j < rank i)%nat) /\
    (forall i, (exists m, get_message d' i = Some m) -> (rank i < length (all_messages d'))%nat).
Proof.
  intros I Ed. destruct (sccs_ok d I) as (cs & E & N & V & Ord & _).
  destruct (break_cycles_ok ec d I) as (cs' & E' & [(d1 & Ed1 & R & T)|(-> & names & Ed1 & _)]); [|congruence].
  rewrite E in E'. injection E' as <-. rewrite Ed in Ed1. injection Ed1 as <-.
  exists (fun i => match position i (concat cs) with Some k => k | None => O%nat end). split; cycle 1.
  { intros i (m & G). destruct (desc_rel_back _ _ _ _ _ R G) as (m0 & G0 & _).
    assert (Hi : In i (concat cs)) by (apply V; eauto). destruct (position_in _ _ Hi) as (k & P). rewrite P.
    apply position_some in P. destruct P as (P & _). assert (L : (k < length (concat cs))%nat) by (apply nth_error_Some; congruence).
    enough ((length (concat cs) <= length (map fst (all_messages d')))%nat) by (rewrite map_length in *; lia).
    apply NoDup_incl_length; [exact N|]. intros x Hx. apply V in Hx. destruct Hx as (mx & Gx).
    destruct (desc_rel_fwd _ _ _ _ _ R Gx) as (mx' & Gx' & _). apply all_messages_paths. eauto. }
  intros i j B (mj & Gj).
  assert (Hj : In j (concat cs)).
  { apply V. destruct (desc_rel_back _ _ _ _ _ R Gj) as (m & G & _). eauto. }
  assert (Hi : In i (concat cs)).
  { apply V. destruct B as (m' & f & G & _). destruct (desc_rel_back _ _ _ _ _ R G) as (m & G0 & _). eauto. }
  pose proof (proj1 (V j) Hj) as Ej.
  pose proof Hi as Hi'. apply in_concat in Hi'. destruct Hi' as (c & Hc & Hic). pose proof Hc as Hc'. apply in_split in Hc'. destruct Hc' as (l1 & l2 & Ecs).
  pose proof (Ord l1 c l2 i j Ecs Hic (by_value_rel _ _ _ _ _ _ R B) Ej) as Hjc.
  pose proof Hic as Hic'. apply in_split in Hic'. destruct Hic' as (a & b & Ec).
  assert (Hlt : In j (concat l1 ++ a)).
  { rewrite concat_app in Hjc. cbn in Hjc. rewrite app_nil_r in Hjc. apply in_app_iff in Hjc. apply in_app_iff.
    destruct Hjc as [H|H]; [now left|]. rewrite Ec in H. apply in_app_iff in H. destruct H as [H|H]; [now right|].
    exfalso. destruct B as (m' & f & G & Hf & Bf & Rp & Tf).
    pose proof (T c a i b Hc Ec m' f G Hf) as K. rewrite K in Bf; [discriminate| |exact Rp].
    apply in_cycle_iff. exists j. split; [exact Tf|exact H]. }
  assert (Es : concat cs = (concat l1 ++ a) ++ i :: (b ++ concat l2)).
  { rewrite Ecs, concat_app. cbn. rewrite Ec, <- !app_assoc. reflexivity. }
  assert (Pi : position i (concat cs) = Some (length (concat l1 ++ a))).
  { rewrite Es. rewrite Es in N. apply NoDup_remove_2 in N. clear - N. set (l := concat l1 ++ a) in *. clearbody l.
    induction l as [|x l IH]; cbn; [now rewrite midx_eqb_refl|]. destruct (midx_eqb x i) eqn:X.
    - apply midx_eqb_eq in X. exfalso. apply N. now left.
    - rewrite IH; [reflexivity|]. intros H. apply N. now right. }
  assert (Pj : exists k, position j (concat cs) = Some k /\ (k < length (concat l1 ++ a))%nat).
  { rewrite Es. clear - Hlt. set (l := concat l1 ++ a) in *. clearbody l. induction l as [|x l IH]; [contradiction|]. cbn.
    destruct (midx_eqb x j) eqn:X; [exists O; split; [reflexivity|lia]|].
    destruct Hlt as [->|H]; [rewrite midx_eqb_refl in X; discriminate|]. destruct (IH H) as (k & -> & L).
    exists (S k). split; [reflexivity|lia]. }
  destruct Pj as (k & -> & L). rewrite Pi. exact L.
Qed.
Theorem break_cycles_rank ec d d' : indexed d -> break_cycles ec d = GOk d' ->
  exists rank : midx -> nat, forall i j, by_value d' i j -> (exists m, get_message d' j = Some m) -> (rank j < rank i)%nat.
Proof. intros I E. destruct (break_cycles_rank_bounded ec d d' I E) as (rank & H & _). eauto. Qed.
