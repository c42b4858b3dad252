(** Lemmas for C90: reading a file copies the messages of the files that it imports,
    and the passes treat the copies as they treat the originals. *)
From Coq Require Import String Ascii Arith Lia Bool Relations.
From Verif Require Import Props_EndToEnd Props_Safety Props_Paths Props_Text.
From Verif Require Import Base Schema Keywords Modules Passes Scc GenSem GenCheck Cycles CycleFacts BreakFacts IndexFacts Props_Cycles.
From Verif Require Import Pipeline PassFacts ResolveFacts AcceptFacts Lifetime LifetimeFacts Parser ProtoText FileText ParserOut Import Props_Import Paths PathFacts PlaceFacts.
From Verif Require Import RustTypes Emit Literals Output GenText RustLex RustAst GenAst GenGood Props_Boxes MeanImports MeanCopy.
Import Schema StringSyntax.
Local Open Scope string_scope.
Local Open Scope list_scope.

(** ** A pass keeps copies *)
Lemma nested_count : forall d p m q m', get_message d p = Some m -> forall d', get_message d' q = Some m' ->
  (forall k, get_message d (p ++ [k]) = None <-> get_message d' (q ++ [k]) = None) -> length (m_messages m) = length (m_messages m').
Proof.
  intros d p m q m' G d' G' H. rewrite get_message_eq in G, G'.
  assert (N : forall k, nth_error (m_messages m) k = None <-> nth_error (m_messages m') k = None).
  { intros k. specialize (H k). rewrite !get_message_eq, (get_in_app _ _ [k] _ G), (get_in_app _ _ [k] _ G') in H by discriminate. cbn in H.
    destruct (nth_error (m_messages m) k), (nth_error (m_messages m') k); tauto. }
  destruct (Nat.lt_trichotomy (length (m_messages m)) (length (m_messages m'))) as [L|[L|L]]; [|exact L|]; exfalso.
  - apply nth_error_Some in L. apply L, N, nth_error_None. lia.
  - apply nth_error_Some in L. apply L, N, nth_error_None. lia.
Qed.
Lemma desc_rel_nested : forall R d d' p m m', desc_rel R d d' -> get_message d p = Some m -> get_message d' p = Some m' ->
  length (m_messages m) = length (m_messages m').
Proof.
  intros R d d' p m m' (H & _) G G'. apply (nested_count d p m p m' G d' G'). intros k. specialize (H (p ++ [k])).
  inversion H as [E1 E2|x y _ E1 E2]; split; congruence.
Qed.

Section Stage.
Variables (pm : midx -> midx) (pe : eidx -> eidx).
Notation mf := (map_field pm pe).
Notation mt := (map_type pm pe).

Lemma map_both : forall (R RF : field -> field -> Prop) l l1 l2, Forall2 R (map mf l) l1 -> Forall2 RF l l2 ->
  (forall f f1 f2, In f l -> R (mf f) f1 -> RF f f2 -> f1 = mf f2) -> l1 = map mf l2.
Proof.
  intros R RF l. induction l as [|f l IH]; intros l1 l2 F1 F2 H; inversion F1; inversion F2; subst; [reflexivity|]. cbn [map]. f_equal.
  - apply (H f); auto. now left.
  - apply IH; auto. intros g f1 f2 I. apply H. now right.
Qed.

Lemma stage_keeps : forall (R RF : midx -> field -> field -> Prop) d d1 dF dF1,
  copies pm pe d dF -> desc_rel R d d1 -> desc_rel RF dF dF1 ->
  (forall j y f f1 f2, get_message dF j = Some y -> In f (all_fields y) -> R (pm j) (mf f) f1 -> RF j f f2 -> f1 = mf f2) ->
  copies pm pe d1 dF1.
Proof.
  intros R RF d d1 dF dF1 [Sy Ms Ne En To Ow Pk] D DF H.
  destruct (desc_rel_syntax _ _ _ D) as (S1 & _). destruct (desc_rel_syntax _ _ _ DF) as (S2 & _).
  constructor.
  - congruence.
  - intros j y1 G1. destruct (desc_rel_back _ _ _ _ _ DF G1) as (y & G & MF). destruct (Ms j y G) as (x & Gx & S).
    destruct (desc_rel_fwd _ _ _ _ _ D Gx) as (x1 & Gx1 & M). exists x1. split; [exact Gx1|].
    pose proof (desc_rel_nested _ _ _ _ _ _ D Gx Gx1) as N1. pose proof (desc_rel_nested _ _ _ _ _ _ DF G G1) as N2.
    destruct S as [A B C0 E F0]. destruct M as (M1 & M2 & M3). destruct MF as (F1 & F2 & F3).
    assert (Q : forall f f1 f2, In f (all_fields y) -> R (pm j) (mf f) f1 -> RF j f f2 -> f1 = mf f2) by (intros f f1 f2; apply (H j y f f1 f2 G)).
    constructor.
    + rewrite (f_equal m_name M3 : m_name x1 = m_name x), (f_equal m_name F3 : m_name y1 = m_name y). exact A.
    + rewrite (f_equal m_module M3 : m_module x1 = m_module x), (f_equal m_module F3 : m_module y1 = m_module y). exact B.
    + rewrite C0 in M1. apply (map_both _ _ _ _ _ M1 F1). intros f f1 f2 I. apply Q. unfold all_fields. apply in_or_app. now left.
    + assert (Q' : forall o f f1 f2, In o (m_oneofs y) -> In f (o_fields o) -> R (pm j) (mf f) f1 -> RF j f f2 -> f1 = mf f2).
      { intros o f f1 f2 Io If. apply Q. unfold all_fields. apply in_or_app. right. apply in_flat_map. eauto. }
      clear - E M2 F2 Q'. revert M2 F2 Q'. generalize (m_oneofs x1) as l1, (m_oneofs y1) as l2.
      induction E as [|o oF l lF Eo E IH]; intros l1 l2 M2 F2 Q'; inversion M2 as [|? o1 ? l1' (A1 & A2) M2']; inversion F2 as [|? o2 ? l2' (B1 & B2) F2']; subst; constructor.
      * destruct Eo as (X & Y & Z). unfold same_oneof. rewrite (f_equal o_name A2 : o_name o1 = o_name o), (f_equal o_name B2 : o_name o2 = o_name oF),
          (f_equal o_module A2 : o_module o1 = o_module o), (f_equal o_module B2 : o_module o2 = o_module oF).
        split; [exact X|]. split; [exact Y|]. rewrite Z in A1. apply (map_both _ _ _ _ _ A1 B1). intros f f1 f2 I. apply (Q' oF); [now left|exact I].
      * apply IH; auto. intros o0 f f1 f2 Io. apply Q'. now right.
    + congruence.
  - intros j k y1 G1. destruct (desc_rel_back _ _ _ _ _ DF G1) as (y & G & _). exact (Ne j k y G).
  - intros q y G. rewrite (get_enum_rel _ _ _ q DF) in G. destruct (En q y G) as (x & Gx & S). exists x. rewrite (get_enum_rel _ _ _ _ D). auto.
  - intros k y1 G1. destruct (desc_rel_back _ _ _ _ _ DF G1) as (y & G & (_ & _ & MF)). destruct (To k y G) as (k' & x & A & Gx & B).
    destruct (desc_rel_fwd _ _ _ _ _ D Gx) as (x1 & Gx1 & (_ & _ & M)). exists k', x1. split; [exact A|]. split; [exact Gx1|].
    rewrite (f_equal m_package M : m_package x1 = m_package x), (f_equal m_package MF : m_package y1 = m_package y). exact B.
  - intros q y G. rewrite (get_enum_rel _ _ _ q DF) in G. exact (Ow q y G).
  - intros q x y N G Gx. rewrite (get_enum_rel _ _ _ q DF) in G. rewrite (get_enum_rel _ _ _ _ D) in Gx. exact (Pk q x y N G Gx).
Qed.

(** *** Indices *)
Lemma get_enum_assign : forall d q, get_enum (assign_indices d) q = get_enum d q.
Proof.
  intros d q. unfold get_enum. destruct (e_msg q) as [|i p]; [reflexivity|]. rewrite get_assign. destruct (get_message d (i :: p)) as [m|]; [|reflexivity].
  cbn [option_map]. now rewrite set_indices_eq.
Qed.
Lemma length_set_indices : forall pre l i, length (set_indices_from pre i l) = length l.
Proof. intros pre l. induction l; intros i; cbn; auto. Qed.
Lemma assign_keeps : forall d dF, copies pm pe d dF -> copies pm pe (assign_indices d) (assign_indices dF).
Proof.
  intros d dF [Sy Ms Ne En To Ow Pk]. constructor.
  - exact Sy.
  - intros j y1 G1. rewrite get_assign in G1. destruct (get_message dF j) as [y|] eqn:G; [|discriminate]. injection G1 as <-.
    destruct (Ms j y G) as (x & Gx & [A B C0 D E]). exists (set_indices (pm j) x). rewrite get_assign, Gx. split; [reflexivity|].
    rewrite !set_indices_eq. constructor; cbn; auto. now rewrite !length_set_indices.
  - intros j k y G. rewrite get_assign in G. destruct (get_message dF (j ++ [k])) as [y0|] eqn:E; [|discriminate]. exact (Ne j k y0 E).
  - intros q y G. rewrite get_enum_assign in G |- *. exact (En q y G).
  - intros k y1 G1. rewrite get_assign in G1. destruct (get_message dF [k]) as [y|] eqn:G; [|discriminate]. injection G1 as <-.
    destruct (To k y G) as (k' & x & A & Gx & B). exists k', (set_indices [k'] x). rewrite get_assign, Gx. split; [exact A|]. split; [reflexivity|]. rewrite !set_indices_eq. exact B.
  - intros q y G. rewrite get_enum_assign in G. exact (Ow q y G).
  - intros q x y N G Gx. rewrite get_enum_assign in G, Gx. exact (Pk q x y N G Gx).
Qed.

(** *** Names *)
Definition declares_message (d : file_descriptor) (n : text) (i : midx) : Prop := exists m, get_message d i = Some m /\ msg_full_name m = n.
Definition declares_enum (d : file_descriptor) (n : text) (q : eidx) : Prop :=
  exists e, get_enum d q = Some e /\ (match e_msg q with [] => enum_full_name e | _ => nested_enum_full_name e end) = n.
(** no two messages or enums have the same full name *)
Record unique_names (d : file_descriptor) : Prop := mkUniqueNames {
  un_messages : forall n i j, declares_message d n i -> declares_message d n j -> i = j;
  un_enums : forall n q r, declares_enum d n q -> declares_enum d n r -> q = r;
  un_both : forall n i q, declares_message d n i -> declares_enum d n q -> False }.
(** a name that is looked up for a type in [dF] *)
Definition looked_up (dF : file_descriptor) (n : text) : Prop := exists j m f name, get_message dF j = Some m /\ In f (all_fields m) /\
  In (TMessageOrEnum name) (leaves (f_typ f)) /\ In n (test_names (m_package m) (m_name m) name).
(** The files around [dF] do not capture its names: what they declare under a name that
    is looked up in [dF] is declared there. *)
Definition not_captured (d dF : file_descriptor) : Prop := forall n, looked_up dF n ->
  (exists i, declares_message d n i) \/ (exists q, declares_enum d n q) -> (exists j, declares_message dF n j) \/ exists q, declares_enum dF n q.

Section Names.
Variables d dF : file_descriptor.
Hypothesis Unique : unique_names d.
Hypothesis Scope : not_captured d dF.
Hypothesis DeclM : forall n j, declares_message dF n j -> declares_message d n (pm j).
Hypothesis DeclE : forall n q, declares_enum dF n q -> declares_enum d n (pe q).

Lemma lookup_messages : forall n, looked_up dF n -> lookup (full_msgs d) n = option_map pm (lookup (full_msgs dF) n).
Proof.
  intros n L. destruct (lookup (full_msgs dF) n) as [j|] eqn:E; cbn [option_map].
  - apply lookup_some, full_msgs_in, DeclM in E. destruct (lookup (full_msgs d) n) as [i|] eqn:K.
    + apply lookup_some, full_msgs_in in K. f_equal. exact (un_messages d Unique n i (pm j) K E).
    + exfalso. apply (lookup_none _ _ K (pm j)), full_msgs_in, E.
  - destruct (lookup (full_msgs d) n) as [i|] eqn:K; [exfalso|reflexivity]. apply lookup_some, full_msgs_in in K.
    destruct (Scope n L (or_introl (ex_intro _ i K))) as [(j & X)|(q & X)].
    + apply (lookup_none _ _ E j), full_msgs_in, X.
    + exact (un_both d Unique n i (pe q) K (DeclE n q X)).
Qed.
Lemma lookup_enums : forall n, looked_up dF n -> lookup (full_enums d) n = option_map pe (lookup (full_enums dF) n).
Proof.
  intros n L. destruct (lookup (full_enums dF) n) as [j|] eqn:E; cbn [option_map].
  - apply lookup_some, full_enums_in, DeclE in E. destruct (lookup (full_enums d) n) as [i|] eqn:K.
    + apply lookup_some, full_enums_in in K. f_equal. exact (un_enums d Unique n i (pe j) K E).
    + exfalso. apply (lookup_none _ _ K (pe j)), full_enums_in, E.
  - destruct (lookup (full_enums d) n) as [i|] eqn:K; [exfalso|reflexivity]. apply lookup_some, full_enums_in in K.
    destruct (Scope n L (or_intror (ex_intro _ i K))) as [(j & X)|(q & X)].
    + exact (un_both d Unique n (pm j) i (DeclM n j X) K).
    + apply (lookup_none _ _ E q), full_enums_in, X.
Qed.
Lemma match_same : forall ns, (forall n, In n ns -> looked_up dF n) ->
  first_match (full_msgs d) (full_enums d) ns = option_map mt (first_match (full_msgs dF) (full_enums dF) ns).
Proof.
  induction ns as [|n ns IH]; intros H; [reflexivity|]. cbn [first_match]. rewrite (lookup_messages n (H n (or_introl eq_refl))).
  destruct (lookup (full_msgs dF) n); [reflexivity|]. cbn [option_map]. rewrite (lookup_enums n (H n (or_introl eq_refl))).
  destruct (lookup (full_enums dF) n); [reflexivity|]. cbn [option_map]. apply IH. intros x Hx. apply H. now right.
Qed.
Lemma parsed_same : forall t, parsed_type t -> mt t = t.
Proof.
  induction 1 as [t k S|n _|k v _ IHk _ IHv]; cbn [map_type].
  - unfold scalar_type in S. cbn [In] in S. repeat (destruct S as [S|S]; [injection S as <- <-; reflexivity|]). contradiction.
  - reflexivity.
  - now rewrite IHk, IHv.
Qed.
(** the type of a field of [dF], resolved there and in the copy *)
Lemma resolve_name_same : forall pk nm t t1 t2, parsed_type t -> (forall name, t = TMessageOrEnum name -> forall n, In n (test_names pk nm name) -> looked_up dF n) ->
  resolve_name (full_msgs d) (full_enums d) pk nm t = GOk t1 -> resolve_name (full_msgs dF) (full_enums dF) pk nm t = GOk t2 -> t1 = mt t2.
Proof.
  intros pk nm t t1 t2 P H E1 E2. pose proof (parsed_same t P) as Q. destruct t; cbn [resolve_name] in E1, E2; try (injection E1 as <-; injection E2 as <-; congruence).
  rewrite (match_same _ (H _ eq_refl)) in E1. destruct (first_match (full_msgs dF) (full_enums dF) _); [|discriminate]. cbn in E1. congruence.
Qed.
Lemma resolve_type_same : forall pk nm t t1 t2, parsed_type t ->
  (forall name, In (TMessageOrEnum name) (leaves t) -> forall n, In n (test_names pk nm name) -> looked_up dF n) ->
  resolve_type (full_msgs d) (full_enums d) pk nm t = GOk t1 -> resolve_type (full_msgs dF) (full_enums dF) pk nm t = GOk t2 -> t1 = mt t2.
Proof.
  intros pk nm t t1 t2 P H E1 E2. destruct t; try (apply (resolve_name_same pk nm _ t1 t2 P) with (2 := E1) (3 := E2); intros name0 N0; (discriminate N0 || (apply (H name0); rewrite <- N0; now left))).
  cbn [resolve_type] in E1, E2. apply gbind_ok in E1, E2. destruct E1 as (k1 & A1 & E1). destruct E2 as (k2 & A2 & E2).
  apply gbind_ok in E1, E2. destruct E1 as (v1 & B1 & E1). destruct E2 as (v2 & B2 & E2). injection E1 as <-. injection E2 as <-.
  inversion P as [? ? S| |? ? Pk Pv]; subst.
  - exfalso. unfold scalar_type in S. cbn [In] in S. repeat (destruct S as [S|S]; [discriminate S|]). contradiction.
  - cbn [map_type]. f_equal.
    + apply (resolve_name_same pk nm _ k1 k2 Pk) with (2 := A1) (3 := A2). intros name -> n. apply (H name). cbn [leaves]. apply in_or_app. left. now left.
    + apply (resolve_name_same pk nm _ v1 v2 Pv) with (2 := B1) (3 := B2). intros name -> n. apply (H name). cbn [leaves]. apply in_or_app. right. now left.
Qed.
End Names.

Definition resolved_in (d : file_descriptor) (p : midx) (f f' : field) : Prop :=
  exists m, get_message d p = Some m /\ field_resolves (full_msgs d) (full_enums d) m f f'.
Lemma resolve_rel : forall d d1, resolve_types d = GOk d1 -> desc_rel (resolved_in d) (assign_indices d) d1.
Proof.
  intros d d1 H. split; [|exact (proj2 (resolve_types_ok d d1 H))]. intros p. pose proof (resolve_types_get d d1 p H) as R.
  rewrite get_assign in R |- *. destruct (get_message d p) as [m|] eqn:G; cbn [option_map] in R |- *; inversion R as [|x y M E1 E2]; subst; constructor.
  apply resolve_message_ok in M. destruct M as ((A & B & C0) & _).
  assert (Q : forall f f', field_resolves (full_msgs d) (full_enums d) (set_indices p m) f f' -> resolved_in d p f f').
  { intros f f' (t & T & ->). exists m. split; [exact G|]. exists t. split; [|reflexivity]. rewrite set_indices_eq in T. exact T. }
  assert (QL : forall l l', Forall2 (field_resolves (full_msgs d) (full_enums d) (set_indices p m)) l l' -> Forall2 (resolved_in d p) l l') by (induction 1; constructor; auto).
  split; [auto|]. split; [|exact C0]. clear - B QL. induction B as [|o o' l l' (X & Y) B IH]; constructor; [|exact IH]. split; auto.
Qed.

Lemma resolve_keeps : forall d dF d1 dF1, copies pm pe d dF -> unique_names d -> not_captured d dF ->
  (forall j y, get_message dF j = Some y -> exists x, get_message d (pm j) = Some x /\ m_name x = m_name y /\ m_package x = m_package y) ->
  (forall n j, declares_message dF n j -> declares_message d n (pm j)) -> (forall n q, declares_enum dF n q -> declares_enum d n (pe q)) ->
  (forall j y f, get_message dF j = Some y -> In f (all_fields y) -> parsed_type (f_typ f)) ->
  resolve_types d = GOk d1 -> resolve_types dF = GOk dF1 -> copies pm pe d1 dF1.
Proof.
  intros d dF d1 dF1 Co Un Sc Na DM DE Pa E1 E2. apply (stage_keeps (resolved_in d) (resolved_in dF) (assign_indices d) d1 (assign_indices dF) dF1).
  - now apply assign_keeps.
  - now apply resolve_rel.
  - now apply resolve_rel.
  - intros j y f f1 f2 G I (x & Gx & t1 & T1 & ->) (y' & Gy & t2 & T2 & ->). rewrite get_assign, Gy in G. injection G as <-.
    rewrite set_indices_eq in I. change (In f (all_fields y')) in I. destruct (Na j y' Gy) as (x' & Gx' & Nn & Np). assert (x' = x) as -> by congruence.
    pose proof (Pa j y' f Gy I) as P. cbn [map_field f_typ] in T1. rewrite (parsed_same _ P), Nn, Np in T1.
    assert (t1 = mt t2) as ->.
    { apply (resolve_type_same d dF Un Sc DM DE (m_package y') (m_name y') (f_typ f) t1 t2 P) with (2 := T1) (3 := T2).
      intros name L n Hn. exists j, y', f, name. auto. }
    reflexivity.
Qed.

(** *** Cycles *)
Hypothesis Injective : forall i j, pm i = pm j -> i = j.
Lemma copied_fields : forall x y, same_message pm pe x y -> all_fields x = map mf (all_fields y).
Proof. exact (all_fields_same pm pe). Qed.
(** every message that contains another which contains it again, at any depth, is
    contained in that one directly *)
Definition direct_cycles (d : file_descriptor) : Prop :=
  forall i j, contains d i j -> clos_refl_trans _ (contains d) j i -> contains d j i.
(** the field [f] of message [p] goes to a message that contains [p] *)
Definition returns (d : file_descriptor) (p : midx) (f : field) : Prop :=
  freq_is_repeated (f_freq f) = false /\ exists j, f_typ f = TMessage j /\ contains d j p.
Definition boxed_in (d : file_descriptor) (p : midx) (f f' : field) : Prop :=
  (returns d p f /\ f' = set_boxed f (optional_of (f_freq f))) \/ (~ returns d p f /\ f' = f).
Lemma value_path_contains : forall d i j, value_path d i j -> clos_refl_trans _ (contains d) i j.
Proof.
  intros d i j H. induction H as [i|i j k B _ IH]; [apply rt_refl|]. apply rt_trans with j; [apply rt_step; now apply contains_by_value|exact IH].
Qed.
Lemma msg_rel_in : forall (R S : field -> field -> Prop) m m', (forall f f', In f (all_fields m) -> In f' (all_fields m') -> R f f' -> S f f') -> msg_rel R m m' -> msg_rel S m m'.
Proof.
  intros R S m m' H (A & B & C0).
  assert (Q : forall l l', (forall f, In f l -> In f (all_fields m)) -> (forall f, In f l' -> In f (all_fields m')) -> Forall2 R l l' -> Forall2 S l l').
  { intros l l' L L' F. induction F as [|f f' l l' X F IH]; constructor; [apply H; [apply L; now left|apply L'; now left|exact X]|].
    apply IH; intros g Hg; [apply L|apply L']; now right. }
  split; [apply Q; [| |exact A]; intros f If; unfold all_fields; apply in_or_app; now left|]. split; [|exact C0].
  assert (QO : forall l l', (forall o, In o l -> In o (m_oneofs m)) -> (forall o, In o l' -> In o (m_oneofs m')) -> Forall2 (oneof_rel R) l l' -> Forall2 (oneof_rel S) l l').
  { intros l l' L L' F. induction F as [|o o' l l' (X & Y) F IH]; constructor.
    - split; [|exact Y]. apply Q; [| |exact X]; intros f If; unfold all_fields; apply in_or_app; right; apply in_flat_map; eexists; (split; [|exact If]);
        [apply L|apply L']; now left.
    - apply IH; intros g Hg; [apply L|apply L']; now right. }
  apply QO; auto.
Qed.
Lemma break_rel : forall d0 d ec d', resolve_types d0 = GOk d -> direct_cycles d ->
  (forall p m f, get_message d p = Some m -> In f (all_fields m) -> f_boxed f = false) ->
  break_cycles ec d = GOk d' -> desc_rel (boxed_in d) d d'.
Proof.
  intros d0 d ec d' H Di Un E. pose proof (resolve_types_indexed _ _ H) as I. destruct (sccs_ok d I) as (cs & Es & _ & _ & _ & Vp).
  destruct (break_cycles_ok ec d I) as (cs' & Es' & [(d2 & E2 & R & _)|(_ & names & E2 & _)]); [|congruence].
  assert (cs' = cs) as -> by congruence. assert (d2 = d') as -> by congruence.
  destruct R as (R & R'). split; [|exact R']. intros p. specialize (R p).
  destruct (get_message d p) as [m|] eqn:G; inversion R as [E3 G'|x y M E3 G']; subst; constructor. symmetry in G'.
  apply (msg_rel_in _ _ _ _) with (2 := M). intros f f' If If' [->|(j & T & (c & Hc & Ip & Ij) & Rp & _ & ->)].
  - right. split; [|reflexivity]. intros (Rp & j & T & Cj).
    pose proof (C92_direct_partial d0 d ec d' p j H E Cj y f G' If' T Rp) as K. rewrite (Un p m f G If) in K. discriminate.
  - left. split; [|reflexivity]. split; [exact Rp|]. exists j. split; [exact T|]. apply Di.
    + exists m, f. split; [exact G|]. split; [exact If|]. split; [exact T|]. split; [exact (Un p m f G If)|exact Rp].
    + apply value_path_contains. exact (Vp c j p Hc Ij Ip).
Qed.

Section Cycles.
Variables d dF : file_descriptor.
Hypothesis Co : copies pm pe d dF.
Hypothesis Refs : forall i m f j, get_message dF i = Some m -> In f (all_fields m) -> f_typ f = TMessage j -> exists m', get_message dF j = Some m'.
Lemma contains_fwd : forall i j, contains dF i j -> contains d (pm i) (pm j).
Proof.
  intros i j (m & f & G & If & T & B). destruct (cp_messages _ _ _ _ Co _ _ G) as (x & Gx & S). exists x, (mf f). split; [exact Gx|].
  rewrite (copied_fields x m S). split; [now apply in_map|]. split; [cbn; now rewrite T|exact B].
Qed.
Lemma contains_back : forall i j m, get_message dF i = Some m -> contains d (pm i) (pm j) -> contains dF i j.
Proof.
  intros i j m G (x & f & Gx & If & T & B). destruct (cp_messages _ _ _ _ Co _ _ G) as (x' & Gx' & S). assert (x' = x) as -> by congruence.
  rewrite (copied_fields x m S) in If. apply in_map_iff in If. destruct If as (f0 & <- & If). exists m, f0. split; [exact G|]. split; [exact If|].
  split; [|exact B]. cbn [map_field f_typ] in T. destruct (f_typ f0); try discriminate. injection T as T. now rewrite (Injective _ _ T).
Qed.
Lemma direct_copy : direct_cycles d -> direct_cycles dF.
Proof.
  intros H i j Cij P. destruct Cij as (m & f & G & If & T & B). destruct (Refs i m f j G If T) as (m' & G').
  apply (contains_back j i m' G'). apply H.
  - apply contains_fwd. exists m, f. auto.
  - clear - P Co. induction P as [x y S|x|x y z _ IH1 _ IH2]; [apply rt_step; now apply contains_fwd|apply rt_refl|now apply rt_trans with (pm y)].
Qed.
Lemma returns_same : forall j y f, get_message dF j = Some y -> In f (all_fields y) -> (returns d (pm j) (mf f) <-> returns dF j f).
Proof.
  intros j y f G If. split; intros (Rp & k & T & K); (split; [exact Rp|]).
  - cbn [map_field f_typ] in T. destruct (f_typ f) eqn:Tf; try discriminate. injection T as <-. exists m. split; [reflexivity|].
    destruct (Refs j y f m G If Tf) as (m' & G'). exact (contains_back m j m' G' K).
  - exists (pm k). split; [cbn; now rewrite T|exact (contains_fwd k j K)].
Qed.
End Cycles.

(** *** The types of a resolved file *)
Lemma resolved_refs : forall d d1, (forall j y f, get_message d j = Some y -> In f (all_fields y) -> parsed_type (f_typ f)) -> resolve_types d = GOk d1 ->
  forall i m f j, get_message d1 i = Some m -> In f (all_fields m) -> f_typ f = TMessage j -> exists m', get_message d1 j = Some m'.
Proof.
  intros d d1 Pa E i m f j G If T. pose proof (resolve_rel d d1 E) as R. destruct (desc_rel_back _ _ _ _ _ R G) as (m0 & G0 & M).
  destruct (Forall2_in_r _ _ _ (msg_rel_fields _ _ _ M) f If) as (f0 & If0 & (m1 & G1 & t & Rt & ->)). cbn [set_typ f_typ] in T. subst t.
  rewrite get_assign, G1 in G0. injection G0 as <-. rewrite set_indices_eq in If0. change (In f0 (all_fields m1)) in If0.
  pose proof (Pa i m1 f0 G1 If0) as P.
  assert (X : exists y, get_message d j = Some y).
  { clear - Rt P. destruct (f_typ f0) eqn:Tf; cbn [resolve_type resolve_name] in Rt; try discriminate.
    - exfalso. inversion P as [? ? S| |]; subst. unfold scalar_type in S. cbn [In] in S. repeat (destruct S as [S|S]; [discriminate S|]). contradiction.
    - destruct (first_match _ _ _) as [t|] eqn:F; [|discriminate]. injection Rt as ->. revert F. generalize (test_names (m_package m1) (m_name m1) name).
      intros l. induction l as [|n l IH]; cbn [first_match]; [discriminate|]. destruct (lookup (full_msgs d) n) as [k|] eqn:L.
      + intros F. injection F as <-. apply lookup_some, full_msgs_in in L. destruct L as (y & L & _). eauto.
      + destruct (lookup (full_enums d) n); [discriminate|exact IH].
    - apply gbind_ok in Rt. destruct Rt as (k & _ & Rt). apply gbind_ok in Rt. destruct Rt as (v & _ & Rt). discriminate. }
  destruct X as (y & Gy). pose proof (proj1 R j) as Q. rewrite get_assign, Gy in Q. inversion Q; eauto.
Qed.
Lemma resolved_unboxed : forall d d1, (forall j y f, get_message d j = Some y -> In f (all_fields y) -> f_boxed f = false) -> resolve_types d = GOk d1 ->
  forall p m f, get_message d1 p = Some m -> In f (all_fields m) -> f_boxed f = false.
Proof.
  intros d d1 H E p m f G If. pose proof (resolve_rel d d1 E) as R. destruct (desc_rel_back _ _ _ _ _ R G) as (m0 & G0 & M).
  destruct (Forall2_in_r _ _ _ (msg_rel_fields _ _ _ M) f If) as (f0 & If0 & (m1 & G1 & t & Rt & ->)).
  rewrite get_assign, G1 in G0. injection G0 as <-. rewrite set_indices_eq in If0. exact (H p m1 f0 G1 If0).
Qed.

(** *** Defaults *)
Lemma primitive_same : forall t, is_primitive (mt t) = is_primitive t.
Proof. now destruct t. Qed.
Lemma own_type_same : forall t, PassFacts.own_type (mt t) = mt (PassFacts.own_type t).
Proof. intros t. destruct t; try reflexivity. destruct t1, t2; reflexivity. Qed.
Lemma modules_same : forall module i i' p p', p <> "" -> p' <> "" -> get_modules module i p = get_modules module i' p'.
Proof. intros module i i' p p' H H'. unfold get_modules. apply String.eqb_neq in H, H'. now rewrite H, H'. Qed.
Lemma literal_same : forall d dF, copies pm pe d dF -> d_package d <> "" -> d_package dF <> "" -> forall t s y1 y2,
  default_literal d (mt t) s = GOk y1 -> default_literal dF t s = GOk y2 -> y1 = y2.
Proof.
  intros d dF Co P PF t s y1 y2. destruct t; cbn [map_type default_literal]; try congruence.
  intros E1 E2. destruct (get_enum dF e) as [y|] eqn:G; [|discriminate]. destruct (cp_enums _ _ _ _ Co _ _ G) as (x & Gx & (A & B & _)). rewrite Gx in E1.
  rewrite A, B, (modules_same _ _ (en_imported y) _ _ P PF) in E1. congruence.
Qed.

(** *** All passes *)
Lemma before_keeps : forall c d dF d4 dF4, copies pm pe d dF -> unique_names d -> not_captured d dF -> d_package d <> "" -> d_package dF <> "" ->
  (forall j y, get_message dF j = Some y -> exists x, get_message d (pm j) = Some x /\ m_name x = m_name y /\ m_package x = m_package y) ->
  (forall n j, declares_message dF n j -> declares_message d n (pm j)) -> (forall n q, declares_enum dF n q -> declares_enum d n (pe q)) ->
  (forall j y f, get_message dF j = Some y -> In f (all_fields y) -> parsed_type (f_typ f) /\ f_boxed f = false) ->
  (forall j y f, get_message d j = Some y -> In f (all_fields y) -> f_boxed f = false) ->
  (forall d1, resolve_types d = GOk d1 -> direct_cycles d1) ->
  before_escape c d = GOk d4 -> before_escape c dF = GOk dF4 -> copies pm pe d4 dF4.
Proof.
  intros c d dF d4 dF4 Co Un Sc P PF Na DM DE Pa Bx Di E EF.
  apply before_stages in E, EF. destruct E as (d1 & d2 & E1 & E2 & E3). destruct EF as (dF1 & dF2 & F1 & F2 & F3).
  assert (C1 : copies pm pe d1 dF1) by (apply (resolve_keeps d dF d1 dF1); auto; intros; eapply Pa; eauto).
  assert (Rf : forall i m f j, get_message dF1 i = Some m -> In f (all_fields m) -> f_typ f = TMessage j -> exists m', get_message dF1 j = Some m')
    by (apply (resolved_refs dF dF1); [intros; eapply Pa; eauto|exact F1]).
  assert (B2 : desc_rel (boxed_in d1) d1 d2).
  { apply (break_rel d d1 (c_error_cycle c)); auto. apply (resolved_unboxed d d1 Bx E1). }
  assert (BF2 : desc_rel (boxed_in dF1) dF1 dF2).
  { apply (break_rel dF dF1 (c_error_cycle c)); auto; [exact (direct_copy d1 dF1 C1 Rf (Di d1 E1))|].
    apply (resolved_unboxed dF dF1); [intros; eapply Pa; eauto|exact F1]. }
  assert (C2 : copies pm pe d2 dF2).
  { apply (stage_keeps _ _ _ _ _ _ C1 B2 BF2). intros j y f f1 f2 G If A B. pose proof (returns_same d1 dF1 C1 Rf j y f G If) as Q.
    destruct A as [(A & ->)|(A & ->)], B as [(B & ->)|(B & ->)]; try tauto; reflexivity. }
  assert (C3 : copies pm pe (drop_cows c d2) (drop_cows c dF2)).
  { apply (stage_keeps _ _ _ _ _ _ C2 (drop_cows_rel c d2) (drop_cows_rel c dF2)). intros j y f f1 f2 G If -> ->.
    unfold set_typ, map_field. cbn. f_equal. destruct (c_dont_use_cow c); [apply own_type_same|reflexivity]. }
  assert (PK : forall x x1 x2, resolve_types x = GOk x1 -> desc_rel (boxed_in x1) x1 x2 -> d_package (drop_cows c x2) = d_package x).
  { intros x x1 x2 A B. rewrite (proj2 (proj2 (desc_rel_syntax _ _ _ (drop_cows_rel c x2)))), (proj2 (proj2 (desc_rel_syntax _ _ _ B))).
    exact (f_equal d_package (proj2 (resolve_types_ok _ _ A))). }
  apply (stage_keeps _ _ _ _ _ _ C3 (set_defaults_rel _ _ E3) (set_defaults_rel _ _ F3)).
  intros j y f f1 f2 G If (s1 & -> & S1) (s2 & -> & S2).
  assert (s1 = s2) as ->.
  { unfold sanitized in S1, S2. cbn [map_field f_default f_typ] in S1. destruct (f_default f) as [x|]; [|congruence].
    destruct S1 as (y1 & -> & L1). destruct S2 as (y2 & -> & L2). f_equal.
    apply (literal_same _ _ C3) with (3 := L1) (4 := L2); [now rewrite (PK d d1 d2 E1 B2)|now rewrite (PK dF dF1 dF2 F1 BF2)]. }
  assert (Tp : is_top (pm j) = is_top j).
  { destruct j as [|k [|k' r]]; [discriminate G| |].
    - destruct (cp_top _ _ _ _ C3 k y G) as (k' & _ & -> & _). reflexivity.
    - destruct (pm (k :: k' :: r)) as [|z [|z' r']] eqn:Z; try reflexivity. exfalso.
      assert (X : exists q l, q <> [] /\ k :: k' :: r = q ++ [l]).
      { exists (removelast (k :: k' :: r)), (last (k :: k' :: r) 0%nat). split; [cbn; destruct r; discriminate|]. apply app_removelast_last. discriminate. }
      destruct X as (q & l & Nq & X). rewrite X in G, Z. rewrite (cp_nested _ _ _ _ C3 q l y G Nq) in Z. destruct (pm q) as [|w w'] eqn:W; [|destruct w'; discriminate].
      assert (exists y', get_message (drop_cows c dF2) q = Some y') as (y' & Gq).
      { clear - G Nq. rewrite !get_message_eq in *. revert Nq G. generalize (d_messages (drop_cows c dF2)). induction q as [|a q IH]; intros ms Nq G; [contradiction|].
        cbn [app get_in] in G |- *. destruct (nth_error ms a) as [m|]; [|discriminate]. destruct q as [|b q]; [eauto|]. apply (IH (m_messages m)); [discriminate|exact G]. }
      destruct (cp_messages _ _ _ _ C3 q y' Gq) as (x' & Gx' & _). rewrite W in Gx'. discriminate. }
  unfold set_default, set_packed, map_field. cbn. f_equal. rewrite (cp_syntax _ _ _ _ C3), Tp. unfold packed_after. cbn. now rewrite primitive_same.
Qed.
End Stage.

(** ** Reading copies what is imported *)
Definition enum_set_imported (e : enumerator) : enumerator := mkEnum (en_name e) (en_fields e) true (en_package e) (en_module e).
(** [d] has the messages of [dF] from the [a]-th on, and its enums from the [b]-th on *)
Record part_of (a b : nat) (d dF : file_descriptor) : Prop := mkPartOf {
  po_messages : exists before after, d_messages d = before ++ map msg_set_imported (d_messages dF) ++ after /\ length before = a;
  po_enums : exists before after, d_enums d = before ++ map enum_set_imported (d_enums dF) ++ after /\ length before = b }.
Definition shift_m (a : nat) (j : midx) : midx := match j with [] => [] | k :: r => (a + k)%nat :: r end.
Definition shift_e (a b : nat) (q : eidx) : eidx :=
  match e_msg q with [] => mkEidx [] (b + e_pos q) | j => mkEidx (shift_m a j) (e_pos q) end.
Lemma shift_injective : forall a i j, shift_m a i = shift_m a j -> i = j.
Proof. intros a [|k r] [|k' r'] H; try discriminate; [reflexivity|]. injection H as H ->. f_equal. lia. Qed.
(** all that is declared has a package *)
Definition packaged (d : file_descriptor) : Prop :=
  (forall m, In m (d_messages d) -> m_package m <> "") /\ forall e, In e (d_enums d) -> en_package e <> "".

Lemma imported_package : forall m, m_package (msg_set_imported m) = m_package m.
Proof. now destruct m. Qed.
Lemma imported_twice : forall m, msg_set_imported (msg_set_imported m) = msg_set_imported m.
Proof.
  intros m. induction m as [m IH] using message_tree_ind. destruct m. cbn in *. f_equal.
  - rewrite map_map. reflexivity.
  - rewrite map_map. rewrite Forall_forall in IH. apply map_ext_in. exact IH.
  - rewrite map_map. reflexivity.
Qed.
Lemma map_id_on {A} (g : A -> A) l : (forall x, In x l -> g x = x) -> map g l = l.
Proof. intros H. rewrite <- (map_id l) at 2. now apply map_ext_in. Qed.

Lemma add_import_part : forall d x, packaged x -> part_of (length (d_messages d)) (length (d_enums d)) (add_import d x) x.
Proof.
  intros d x (PM & PE). constructor.
  - exists (d_messages d), []. split; [|reflexivity]. rewrite app_nil_r. cbn [add_import d_messages]. f_equal. apply map_ext_in. intros m Hm.
    apply PM, String.eqb_neq in Hm. now rewrite Hm.
  - exists (d_enums d), []. split; [|reflexivity]. rewrite app_nil_r. cbn [add_import d_enums]. f_equal. apply map_ext_in. intros e He.
    apply PE, String.eqb_neq in He. now rewrite He.
Qed.
Lemma add_import_keeps : forall a b d x dF, part_of a b d dF -> part_of a b (add_import d x) dF.
Proof.
  intros a b d x dF [(A & B & E & L) (A' & B' & E' & L')]. constructor.
  - eexists A, (B ++ _). split; [|exact L]. cbn [add_import d_messages]. rewrite E, <- !app_assoc. reflexivity.
  - eexists A', (B' ++ _). split; [|exact L']. cbn [add_import d_enums]. rewrite E', <- !app_assoc. reflexivity.
Qed.
(** what [x] has copied is copied with [x] *)
Lemma add_import_through : forall a b d x dF, packaged dF -> part_of a b x dF ->
  part_of (length (d_messages d) + a) (length (d_enums d) + b) (add_import d x) dF.
Proof.
  intros a b d x dF (PM & PE) [(A & B & E & L) (A' & B' & E' & L')]. constructor.
  - eexists (d_messages d ++ map _ A), (map _ B). split; [|rewrite app_length, map_length; lia]. cbn [add_import d_messages]. rewrite E, !map_app, <- !app_assoc.
    do 3 f_equal. rewrite map_map. apply map_ext_in. intros m Hm. rewrite imported_package. apply PM, String.eqb_neq in Hm. rewrite Hm. apply imported_twice.
  - eexists (d_enums d ++ map _ A'), (map _ B'). split; [|rewrite app_length, map_length; lia]. cbn [add_import d_enums]. rewrite E', !map_app, <- !app_assoc.
    do 3 f_equal. rewrite map_map. apply map_ext_in. intros e He. cbn [enum_set_imported en_package]. apply PE, String.eqb_neq in He. now rewrite He.
Qed.

Section Reading.
Variables (check : bool) (fs : file_system) (search : list fpath).
Notation read := (read_proto check fs search).
Notation imports := (imports check fs search).

Lemma fetch_keeps : forall rd l f d d' a b dF, fetch fs search f rd d l = ROk d' -> part_of a b d dF -> part_of a b d' dF.
Proof.
  intros rd. induction l as [|i l IH]; intros f d d' a b dF H P; cbn [fetch] in H; [now injection H as <-|].
  destruct (find_import fs search f i) as [g|]; [|discriminate]. destruct (rd g) as [x| | |]; try discriminate.
  apply (IH f _ _ a b dF H). now apply add_import_keeps.
Qed.
Lemma fetch_parts : forall rd l f d d' i g x, fetch fs search f rd d l = ROk d' -> In i l -> resolves fs search f i g -> rd g = ROk x ->
  (packaged x -> exists a b, part_of a b d' x) /\ forall a b dF, packaged dF -> part_of a b x dF -> exists a b, part_of a b d' dF.
Proof.
  intros rd. induction l as [|i0 l IH]; intros f d d' i g x H Hi R E; [contradiction|]. cbn [fetch] in H.
  destruct (find_import fs search f i0) as [g0|] eqn:Ef; [|discriminate]. destruct (rd g0) as [x0| | |] eqn:Er; try discriminate.
  destruct Hi as [<-|Hi]; [|exact (IH f _ d' i g x H Hi R E)].
  apply find_import_resolves in R. assert (g0 = g) as -> by congruence. assert (x0 = x) as -> by congruence. split.
  - intros P. eexists _, _. apply (fetch_keeps _ _ _ _ _ _ _ _ H). now apply add_import_part.
  - intros a b dF P Q. eexists _, _. exact (fetch_keeps _ _ _ _ _ _ _ _ H (add_import_through a b _ _ _ P Q)).
Qed.

(** a file that is imported, directly or through others, is read, and its messages
    are in the file that imports it *)
Lemma read_parts : forall f g, clos_trans _ imports f g -> forall n d, read n f = ROk d ->
  exists k dF, read k g = ROk dF /\ (packaged dF -> exists a b, part_of a b d dF).
Proof.
  intros f g T. apply clos_trans_t1n in T. induction T as [f g I|f h g I T IH]; intros n d R; (destruct n as [|n]; [discriminate|]);
    destruct (read_step _ _ _ _ _ _ R) as (p & d0 & Cp & _ & F); destruct I as (p' & i & Cp' & Hi & Rs);
    assert (p' = p) as -> by exact (content_fun _ _ _ _ _ Cp' Cp);
    destruct (fetch_each fs search _ _ _ _ _ F i Hi) as (g' & x & Rs' & Ex);
    pose proof Rs as Rs0; apply find_import_resolves in Rs0, Rs'; rewrite Rs0 in Rs'; injection Rs' as <-;
    destruct (fetch_parts _ _ _ _ _ i _ x F Hi Rs Ex) as (P1 & P2).
  - exists n, x. auto.
  - destruct (IH n x Ex) as (k & dF & Rk & P). exists k, dF. split; [exact Rk|]. intros Pk. destruct (P Pk) as (a & b & Q). exact (P2 a b dF Pk Q).
Qed.
End Reading.

(** ** The copies before the passes *)
Section Part.
Variables (a b : nat) (d dF : file_descriptor).
Hypothesis Part : part_of a b d dF.
Lemma part_get : forall j y, get_message dF j = Some y -> get_message d (shift_m a j) = Some (msg_set_imported y).
Proof.
  intros [|k r] y G; [discriminate|]. rewrite get_message_eq in G |- *. destruct (po_messages _ _ _ _ Part) as (A & B & -> & L).
  cbn [shift_m get_in]. rewrite nth_error_app2 by lia. replace (a + k - length A)%nat with k by lia.
  assert (K : nth_error (d_messages dF) k <> None) by (cbn [get_in] in G; destruct (nth_error (d_messages dF) k); discriminate).
  rewrite nth_error_app1 by (rewrite map_length; apply nth_error_Some; exact K).
  change (get_in (map msg_set_imported (d_messages dF)) (k :: r) = Some (msg_set_imported y)).
  rewrite get_in_map by (intros m; now destruct m). now rewrite G.
Qed.
Lemma part_enum : forall q e, get_enum dF q = Some e -> get_enum d (shift_e a b q) = Some (enum_set_imported e).
Proof.
  intros q e G. unfold get_enum in G. unfold shift_e. destruct (e_msg q) as [|k r] eqn:Eq.
  - unfold get_enum. cbn [e_msg e_pos]. destruct (po_enums _ _ _ _ Part) as (A & B & -> & L). rewrite nth_error_app2 by lia.
    replace (b + e_pos q - length A)%nat with (e_pos q) by lia.
    rewrite nth_error_app1 by (rewrite map_length; apply nth_error_Some; congruence). rewrite nth_error_map. now rewrite G.
  - destruct (get_message dF (k :: r)) as [m|] eqn:Gm; [|discriminate]. pose proof (part_get _ _ Gm) as Gd. unfold get_enum. cbn [e_msg shift_m e_pos].
    cbn [shift_m] in Gd. rewrite Gd. destruct m. cbn in G |- *. rewrite nth_error_map, G. reflexivity.
Qed.
Lemma part_declares_message : forall n j, declares_message dF n j -> declares_message d n (shift_m a j).
Proof.
  intros n j (m & G & E). exists (msg_set_imported m). split; [exact (part_get j m G)|]. unfold msg_full_name in *. now destruct m.
Qed.
Lemma part_declares_enum : forall n q, declares_enum dF n q -> declares_enum d n (shift_e a b q).
Proof.
  intros n q (e & G & E). exists (enum_set_imported e). split; [exact (part_enum q e G)|]. unfold shift_e. destruct (e_msg q); exact E.
Qed.
Lemma part_copies : d_syntax d = d_syntax dF -> (forall j y f, get_message dF j = Some y -> In f (all_fields y) -> parsed_type (f_typ f)) ->
  copies (shift_m a) (shift_e a b) d dF.
Proof.
  intros Sy Pa. constructor.
  - exact Sy.
  - intros j y G. exists (msg_set_imported y). split; [exact (part_get j y G)|].
    assert (Q : forall l, (forall f, In f l -> In f (all_fields y)) -> l = map (map_field (shift_m a) (shift_e a b)) l).
    { intros l H. symmetry. apply map_id_on. intros f If. unfold map_field. rewrite (parsed_same _ _ _ (Pa j y f G (H f If))). now destruct f. }
    assert (QO : forall o, In o (m_oneofs y) -> forall f, In f (o_fields o) -> In f (all_fields y)).
    { intros o Io f If. unfold all_fields. apply in_or_app. right. apply in_flat_map. eauto. }
    assert (QF : forall f, In f (m_fields y) -> In f (all_fields y)) by (intros f If; unfold all_fields; apply in_or_app; now left).
    constructor.
    + now destruct y.
    + now destruct y.
    + specialize (Q _ QF). destruct y. exact Q.
    + assert (E : m_oneofs (msg_set_imported y) = map (fun o => mkOneof (o_name o) (o_fields o) (o_package o) (o_module o) true) (m_oneofs y)) by now destruct y.
      rewrite E. clear E. assert (QQ : forall o, In o (m_oneofs y) -> o_fields o = map (map_field (shift_m a) (shift_e a b)) (o_fields o)) by (intros o Io; apply Q, QO, Io).
      clear - QQ. induction (m_oneofs y) as [|o l IH]; [constructor|]. constructor; [|apply IH; intros; apply QQ; now right].
      unfold same_oneof. cbn. split; [reflexivity|]. split; [reflexivity|]. apply QQ. now left.
    + destruct y. cbn. now rewrite map_length.
  - intros [|k r] l y G N; [contradiction|reflexivity].
  - intros q y G. exists (enum_set_imported y). split; [exact (part_enum q y G)|]. repeat split.
  - intros k y G. exists (a + k)%nat, (msg_set_imported y). split; [reflexivity|]. split; [exact (part_get _ _ G)|apply imported_package].
  - intros q y G. unfold shift_e. destruct (e_msg q); reflexivity.
  - intros q x y N G Gx. rewrite (part_enum q y G) in Gx. now injection Gx as <-.
Qed.
End Part.

(** ** Everything in a file is its own or a copy *)
Lemma own_fresh : forall check fs f p d0, content check fs f p -> own f p d0 ->
  (forall m, In m (d_messages d0) -> m_imported m = false /\ (d_package d0 <> "" -> m_package m <> "")) /\
  (forall e, In e (d_enums d0) -> en_imported e = false /\ (d_package d0 <> "" -> en_package e <> "")).
Proof.
  intros check fs f p d0 (s & r & _ & Ep & _) (mo & _ & ->). destruct (o_file _ _ _ _ Ep) as (r' & sx & _ & [M E _ _ _ _ _]).
  rewrite Forall_forall in M, E. cbn [set_own_package d_messages d_enums d_package]. split.
  - intros m Hm. apply in_map_iff in Hm. destruct Hm as (m0 & <- & Hm). specialize (M m0 Hm). inversion M; subst. cbn. split; [reflexivity|].
    intros N. apply String.eqb_neq in N. rewrite N. now apply String.eqb_neq.
  - intros e He. apply in_map_iff in He. destruct He as (e0 & <- & He). destruct (E e0 He) as [_ _ (_ & _ & Im)]. cbn. auto.
Qed.

Section All.
Variables (check : bool) (fs : file_system) (search : list fpath).
Notation read := (read_proto check fs search).
Notation imports := (imports check fs search).

Lemma fetch_package : forall rd l f d d', fetch fs search f rd d l = ROk d' -> d_package d' = d_package d.
Proof.
  intros rd. induction l as [|i l IH]; intros f d d' H; cbn [fetch] in H; [now injection H as <-|].
  destruct (find_import fs search f i) as [g|]; [|discriminate]. destruct (rd g) as [x| | |]; try discriminate. exact (IH f _ _ H).
Qed.
Lemma fetch_packaged : forall rd l f d d', fetch fs search f rd d l = ROk d' -> packaged d ->
  (forall i g x, In i l -> resolves fs search f i g -> rd g = ROk x -> packaged x) -> packaged d'.
Proof.
  intros rd. induction l as [|i l IH]; intros f d d' H P Q; cbn [fetch] in H; [now injection H as <-|].
  destruct (find_import fs search f i) as [g|] eqn:Ef; [|discriminate]. destruct (rd g) as [x| | |] eqn:Er; try discriminate. apply find_import_resolves in Ef.
  apply (IH f _ _ H); [|intros j h y Hj; apply Q; now right]. destruct (Q i g x (or_introl eq_refl) Ef Er) as (X1 & X2). destruct P as (P1 & P2). split.
  - intros m Hm. cbn [add_import d_messages] in Hm. apply in_app_or in Hm. destruct Hm as [Hm|Hm]; [auto|]. apply in_map_iff in Hm. destruct Hm as (m0 & <- & Hm).
    pose proof (X1 m0 Hm) as N. rewrite imported_package. pose proof N as N'. apply String.eqb_neq in N'. now rewrite N'.
  - intros e He. cbn [add_import d_enums] in He. apply in_app_or in He. destruct He as [He|He]; [auto|]. apply in_map_iff in He. destruct He as (e0 & <- & He).
    pose proof (X2 e0 He) as N. cbn. pose proof N as N'. apply String.eqb_neq in N'. now rewrite N'.
Qed.
(** all files that are read for [f] have a package *)
Definition packages (f : fpath) : Prop := forall g k x, clos_refl_trans _ imports f g -> read k g = ROk x -> d_package x <> "".
Lemma read_packaged : forall n f d, read n f = ROk d -> packages f -> packaged d.
Proof.
  induction n as [|n IH]; intros f d R P; [discriminate|]. pose proof (P f _ d (rt_refl _ _ f) R) as Pd.
  destruct (read_step _ _ _ _ _ _ R) as (p & d0 & Cp & Ow & F). rewrite (fetch_package _ _ _ _ _ F) in Pd.
  destruct (own_fresh _ _ _ _ _ Cp Ow) as (M & E). apply (fetch_packaged _ _ _ _ _ F).
  - split; [intros m Hm; now apply M|intros e He; now apply E].
  - intros i g x Hi Rs Rx. apply (IH g x Rx). intros h k y T. apply P. apply rt_trans with g; [|exact T]. apply rt_step. exists p, i. auto.
Qed.

(** where a message or an enum of a file comes from *)
Lemma fetch_split : forall rd l f d d', fetch fs search f rd d l = ROk d' -> (forall i g x, In i l -> resolves fs search f i g -> rd g = ROk x -> packaged x) ->
  (forall k, (k < length (d_messages d'))%nat -> (k < length (d_messages d) /\ nth_error (d_messages d') k = nth_error (d_messages d) k)%nat \/ exists i g x a b k', In i l /\ resolves fs search f i g /\ rd g = ROk x /\
     k = (a + k')%nat /\ (k' < length (d_messages x))%nat /\ part_of a b d' x /\
     forall a0 b0 dF, packaged dF -> part_of a0 b0 x dF -> part_of (a + a0) (b + b0) d' dF) /\
  (forall k, (k < length (d_enums d'))%nat -> (k < length (d_enums d) /\ nth_error (d_enums d') k = nth_error (d_enums d) k)%nat \/ exists i g x a b k', In i l /\ resolves fs search f i g /\ rd g = ROk x /\
     k = (b + k')%nat /\ (k' < length (d_enums x))%nat /\ part_of a b d' x /\
     forall a0 b0 dF, packaged dF -> part_of a0 b0 x dF -> part_of (a + a0) (b + b0) d' dF).
Proof.
  intros rd. induction l as [|i l IH]; intros f d d' H P; cbn [fetch] in H; [injection H as <-; auto|].
  destruct (find_import fs search f i) as [g|] eqn:Ef; [|discriminate]. destruct (rd g) as [x| | |] eqn:Er; try discriminate.
  apply find_import_resolves in Ef. pose proof (P i g x (or_introl eq_refl) Ef Er) as Px.
  destruct (IH f _ _ H) as (IM & IE); [intros j h y Hj; apply P; now right|].
  assert (Q1 : part_of (length (d_messages d)) (length (d_enums d)) d' x) by exact (fetch_keeps fs search _ _ _ _ _ _ _ _ H (add_import_part d x Px)).
  assert (Q2 : forall a0 b0 dF, packaged dF -> part_of a0 b0 x dF -> part_of (length (d_messages d) + a0) (length (d_enums d) + b0) d' dF)
    by (intros a0 b0 dF Pd Q; exact (fetch_keeps fs search _ _ _ _ _ _ _ _ H (add_import_through a0 b0 _ _ _ Pd Q))).
  split; intros k Hk.
  - destruct (IM k Hk) as [(L & N)|(j & h & y & a & b & k' & Hj & R)]; [|right; exists j, h, y, a, b, k'; split; [now right|exact R]].
    cbn [add_import d_messages] in L, N. rewrite app_length, map_length in L. destruct (Nat.lt_ge_cases k (length (d_messages d))) as [L'|L'].
    + left. split; [exact L'|]. rewrite N. now apply nth_error_app1.
    + right. exists i, g, x, (length (d_messages d)), (length (d_enums d)), (k - length (d_messages d))%nat. repeat (split; [first [now left|assumption|lia]|]). exact Q2.
  - destruct (IE k Hk) as [(L & N)|(j & h & y & a & b & k' & Hj & R)]; [|right; exists j, h, y, a, b, k'; split; [now right|exact R]].
    cbn [add_import d_enums] in L, N. rewrite app_length, map_length in L. destruct (Nat.lt_ge_cases k (length (d_enums d))) as [L'|L'].
    + left. split; [exact L'|]. rewrite N. now apply nth_error_app1.
    + right. exists i, g, x, (length (d_messages d)), (length (d_enums d)), (k - length (d_enums d))%nat. repeat (split; [first [now left|assumption|lia]|]). exact Q2.
Qed.
Lemma read_split : forall n f d, read n f = ROk d -> packages f ->
  (forall k m, nth_error (d_messages d) k = Some m -> m_imported m = false \/ exists g j dF a b k' mF, clos_trans _ imports f g /\ read j g = ROk dF /\
     k = (a + k')%nat /\ part_of a b d dF /\ nth_error (d_messages dF) k' = Some mF /\ m_imported mF = false) /\
  (forall k e, nth_error (d_enums d) k = Some e -> en_imported e = false \/ exists g j dF a b k' eF, clos_trans _ imports f g /\ read j g = ROk dF /\
     k = (b + k')%nat /\ part_of a b d dF /\ nth_error (d_enums dF) k' = Some eF /\ en_imported eF = false).
Proof.
  induction n as [|n IH]; intros f d R P; [discriminate|]. destruct (read_step _ _ _ _ _ _ R) as (p & d0 & Cp & Ow & F).
  destruct (own_fresh _ _ _ _ _ Cp Ow) as (M & E).
  assert (Pi : forall i g x, In i (p_imports p) -> resolves fs search f i g -> read n g = ROk x -> imports f g /\ packages g /\ packaged x).
  { intros i g x Hi Rs Rx. assert (I : imports f g) by (exists p, i; auto).
    assert (Pg : packages g) by (intros h k y T; apply P; apply rt_trans with g; [now apply rt_step|exact T]). split; [exact I|]. split; [exact Pg|]. exact (read_packaged n g x Rx Pg). }
  destruct (fetch_split _ _ _ _ _ F) as (SM & SE); [intros i g x Hi Rs Rx; now apply (Pi i g x)|]. split.
  - intros k m N. destruct (SM k) as [(L & N')|(i & g & x & a & b & k' & Hi & Rs & Rx & -> & L & Q & T)]; [apply nth_error_Some; congruence| |].
    + left. rewrite N in N'. symmetry in N'. apply nth_error_In in N'. now apply M.
    + right. destruct (Pi i g x Hi Rs Rx) as (I & Pg & _). destruct (nth_error (d_messages x) k') as [mx|] eqn:Nx; [|apply nth_error_None in Nx; lia].
      destruct (IH g x Rx Pg) as (IM & _). destruct (IM k' mx Nx) as [O|(h & j & dF & a0 & b0 & k0 & mF & C0 & Rj & -> & Q0 & NF & O)].
      * exists g, n, x, a, b, k', mx. repeat (split; [first [assumption|reflexivity|now apply t_step]|]). exact O.
      * exists h, j, dF, (a + a0)%nat, (b + b0)%nat, k0, mF. split; [apply t_trans with g; [now apply t_step|exact C0]|]. split; [exact Rj|]. split; [lia|].
        split; [|auto]. apply T; [|exact Q0]. apply (read_packaged j h dF Rj). intros z k y Tz. apply Pg. apply rt_trans with h; [|exact Tz]. clear -C0; induction C0; [now apply rt_step|eapply rt_trans; eassumption].
  - intros k m N. destruct (SE k) as [(L & N')|(i & g & x & a & b & k' & Hi & Rs & Rx & -> & L & Q & T)]; [apply nth_error_Some; congruence| |].
    + left. rewrite N in N'. symmetry in N'. apply nth_error_In in N'. now apply E.
    + right. destruct (Pi i g x Hi Rs Rx) as (I & Pg & _). destruct (nth_error (d_enums x) k') as [mx|] eqn:Nx; [|apply nth_error_None in Nx; lia].
      destruct (IH g x Rx Pg) as (_ & IM). destruct (IM k' mx Nx) as [O|(h & j & dF & a0 & b0 & k0 & mF & C0 & Rj & -> & Q0 & NF & O)].
      * exists g, n, x, a, b, k', mx. repeat (split; [first [assumption|reflexivity|now apply t_step]|]). exact O.
      * exists h, j, dF, (a + a0)%nat, (b + b0)%nat, k0, mF. split; [apply t_trans with g; [now apply t_step|exact C0]|]. split; [exact Rj|]. split; [lia|].
        split; [|auto]. apply T; [|exact Q0]. apply (read_packaged j h dF Rj). intros z k y Tz. apply Pg. apply rt_trans with h; [|exact Tz]. clear -C0; induction C0; [now apply rt_step|eapply rt_trans; eassumption].
Qed.
End All.
