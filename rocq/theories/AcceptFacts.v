(** From the parsed schema to the schema that the writer sees: enums, types,
    tags and defaults. *)
From Coq Require Import String Arith Lia ZifyBool ZifyNat.
From Verif Require Import Base Schema Keywords Modules Passes Gen GenSem GenSpec GenRecords GenType GenCheck
  Cycles CycleFacts BreakFacts IndexFacts Pipeline PassFacts ResolveFacts.
Import StringSyntax.
Local Open Scope string_scope.
Local Open Scope list_scope.

(** ** Enums *)
Lemma get_enum_sanitize d q : get_enum (sanitize_names d) q = option_map enum_sanitize_names (get_enum d q).
Proof.
  unfold get_enum. destruct (e_msg q) as [|i p]; [cbn; apply nth_error_map|].
  rewrite get_sanitize_names. destruct (get_message d (i :: p)) as [m|]; [|reflexivity]. cbn. destruct m. cbn. apply nth_error_map.
Qed.
Lemma get_enum_single c d q : get_enum (single_module c d) q = get_enum d q.
Proof. unfold get_enum. rewrite get_single_module. unfold single_module. now destruct (c_single_module c). Qed.

Lemma process_enum c d d' q : process c d = GOk d' -> get_enum d' q = option_map enum_sanitize_names (get_enum d q).
Proof.
  intros H. apply process_stages in H. destruct H as (d1 & d2 & d4 & [E1 E2 E3 E4 ->]).
  rewrite get_enum_single, get_enum_sanitize. f_equal.
  rewrite (get_enum_rel _ _ _ q (set_defaults_rel _ _ E4)), (get_enum_rel _ _ _ q (drop_cows_rel c d2)).
  destruct (break_cycles_ok (c_error_cycle c) d1 (resolve_types_indexed d d1 E1)) as (cs & _ & [(d2' & E2' & R2 & _)|(_ & names & E2' & _)]); [|congruence].
  rewrite E2 in E2'. injection E2' as <-. rewrite (get_enum_rel _ _ _ q R2). now apply get_enum_resolve.
Qed.

(** ** Messages stay where they are *)
Lemma process_exists c d d' p : process c d = GOk d' -> (get_message d' p = None <-> get_message d p = None).
Proof.
  intros H. pose proof (process_message c d d' H p) as R. inversion R; split; intros; congruence.
Qed.

(** ** Types *)
Definition found (d : file_descriptor) (t : field_type) : Prop :=
  match t with TMessage i => get_message d i <> None | TEnum q => get_enum d q <> None | _ => False end.
Lemma first_match_found d l t : first_match (full_msgs d) (full_enums d) l = Some t -> found d t.
Proof.
  induction l as [|n l IH]; cbn; [discriminate|]. destruct (lookup (full_msgs d) n) as [i|] eqn:E1.
  - intros H; injection H as <-. apply lookup_some, full_msgs_in in E1. destruct E1 as (m & G & _). cbn. congruence.
  - destruct (lookup (full_enums d) n) as [q|] eqn:E2; [|exact IH]. intros H; injection H as <-.
    apply lookup_some, full_enums_in in E2. destruct E2 as (e & G & _). cbn. congruence.
Qed.
(** the scalar types, strings and bytes as the parser delivers them; or a name *)
Definition source_type (t : field_type) : Prop :=
  match t with TMap _ _ | TMessage _ | TEnum _ => False | _ => True end.
Lemma resolve_name_typ_ok d p m t t' : source_type t -> resolve_name (full_msgs d) (full_enums d) p m t = GOk t' ->
  found d t' \/ (t' = t /\ source_type t /\ forall n, t <> TMessageOrEnum n).
Proof.
  unfold resolve_name. intros S. destruct t; intros H; try (injection H as <-; right; repeat split; (exact I || discriminate)); try contradiction.
  destruct (first_match (full_msgs d) (full_enums d) (test_names p m name)) as [u|] eqn:E; [|discriminate].
  injection H as <-. left. eapply first_match_found, E.
Qed.

Definition own_if (b : bool) (t : field_type) : field_type := if b then own_type t else t.
Lemma resolved_typ_ok c d d' p m t t' : process c d = GOk d' -> source_type t ->
  resolve_name (full_msgs d) (full_enums d) p m t = GOk t' -> typ_ok d' (own1 t') /\ typ_ok d' t'.
Proof.
  intros H S R. apply resolve_name_typ_ok in R; [|exact S]. destruct R as [F|(-> & S' & N)].
  - destruct t'; try contradiction; cbn in *.
    + split; rewrite (process_enum c d d' e H); destruct (get_enum d e); cbn; congruence.
    + split; intros E; apply (process_exists c d d' m0 H) in E; contradiction.
  - destruct t; cbn in *; try contradiction; auto. now contradiction (N name).
Qed.
Lemma key_stays d p m t t' : key_ok t -> resolve_name (full_msgs d) (full_enums d) p m t = GOk t' -> t' = t.
Proof. unfold resolve_name. destruct t; intros K H; try contradiction; now injection H. Qed.
Lemma own1_key t : key_ok t -> key_ok (own1 t).
Proof. now destruct t. Qed.

(** ** Defaults *)
Lemma all_some_map {A B} (g : A -> option B) l : (forall x, In x l -> g x <> None) -> all_some (map g l) <> None.
Proof.
  induction l as [|x l IH]; intros H; cbn; [discriminate|]. pose proof (H x (or_introl eq_refl)) as Hx. destruct (g x) as [y|]; [|congruence].
  assert (K : all_some (map g l) <> None) by (apply IH; intros z Hz; apply H; now right). destruct (all_some (map g l)); [discriminate|congruence].
Qed.

Section Defaults.
Variable D : file_descriptor.
Variable c : config.
Variable lit : field_type -> text -> option value.
Variable rank : midx -> nat.
Hypothesis Hrank : forall i j, by_value D i j -> (exists m, get_message D j = Some m) -> (rank j < rank i)%nat.
Hypothesis Hfields : forall i m f, get_message D i = Some m -> In f (m_fields m) -> field_ok D c lit f.

Lemma type_default_some dm t : typ_ok D t -> (forall j, t = TMessage j -> dm j <> None) -> type_default D dm t <> None.
Proof.
  intros T H. destruct t; cbn in *; try discriminate; try contradiction. specialize (H m eq_refl). now destruct (dm m).
Qed.
Lemma default_msg_some n : forall i m, get_message D i = Some m -> (rank i < n)%nat -> default_msg D c lit n i <> None.
Proof.
  induction n as [|n IH]; intros i m G L; [lia|]. cbn [default_msg]. rewrite G.
  assert (P : forall f j, In f (m_fields m) -> f_boxed f = false -> freq_is_repeated (f_freq f) = false -> typ_ok D (f_typ f) ->
                f_typ f = TMessage j -> default_msg D c lit n j <> None).
  { intros f j Hf B Rp T E. rewrite E in T. cbn in T. destruct (get_message D j) as [mj|] eqn:Gj; [|congruence].
    apply (IH j mj Gj). enough (rank j < rank i)%nat by lia. apply Hrank; [|eauto]. exists m, f. split; [exact G|].
    split; [unfold all_fields; rewrite in_app_iff; now left|]. auto. }
  apply all_some_map. intros x Hx. unfold default_inits in Hx.
  destruct (message_must_generate_impl_default (d_syntax D) c m); apply in_app_iff in Hx || apply in_map_iff in Hx.
  - destruct Hx as [Hx|Hx]; apply in_map_iff in Hx; destruct Hx as (f & <- & Hf); [|discriminate].
    unfold visible_fields in Hf. apply filter_In in Hf. destruct Hf as (Hf & _). pose proof (Hfields i m f G Hf) as (F1 & F2 & F3 & F4).
    cbn [init_slot]. unfold get_field_default, generated_type_of. destruct (freq_is_map (f_freq f)) eqn:Fm; [discriminate|].
    destruct (freq_is_repeated (f_freq f)) eqn:Fr; [destruct (f_is_packed f && is_fixed_size (f_typ f) && negb (c_dont_use_cow c)); discriminate|].
    destruct (f_boxed f) eqn:Fb; [discriminate|]. destruct (freq_is_optional (f_freq f)); [discriminate|].
    destruct (f_default f) as [s|].
    + cbn. destruct (F4 s eq_refl) as (w & ->). discriminate.
    + assert (T : type_default D (default_msg D c lit n) (f_typ f) <> None).
      { apply type_default_some; [exact F2|]. intros j E. now apply (P f j Hf). }
      destruct (f_typ f); try (now contradiction F2); cbn [dexpr_slot];
        match goal with |- option_map _ ?o <> None => destruct o; [discriminate|congruence] end.
  - destruct Hx as (ty & <- & Hx). unfold struct_def in Hx. apply in_app_iff in Hx.
    destruct Hx as [Hx|Hx]; apply in_map_iff in Hx; destruct Hx as (f & <- & Hf); [|discriminate].
    unfold visible_fields in Hf. apply filter_In in Hf. destruct Hf as (Hf & _). pose proof (Hfields i m f G Hf) as (F1 & F2 & F3 & F4).
    cbn [init_slot]. unfold get_type, generated_type_of. destruct (f_boxed f) eqn:Fb; [discriminate|].
    destruct (freq_is_map (f_freq f)) eqn:Fm; [destruct (f_typ f); try contradiction; discriminate|].
    destruct (freq_is_repeated (f_freq f)) eqn:Fr; [destruct (f_is_packed f && is_fixed_size (f_typ f) && negb (c_dont_use_cow c)); discriminate|].
    destruct (freq_is_optional (f_freq f)); [discriminate|]. cbn.
    assert (T : type_default D (default_msg D c lit n) (f_typ f) <> None).
    { apply type_default_some; [exact F2|]. intros j E. now apply (P f j Hf). }
    destruct (type_default D (default_msg D c lit n) (f_typ f)); [discriminate|congruence].
Qed.
Lemma message_default_some : (forall i, (exists m, get_message D i = Some m) -> (rank i < length (all_messages D))%nat) ->
  forall i m, get_message D i = Some m -> message_default D c lit i <> None.
Proof.
  intros B i m G. unfold message_default. apply (default_msg_some _ i m G). specialize (B i (ex_intro _ m G)).
  unfold all_messages in B. rewrite count_subtrees in B; [unfold default_depth; lia|]. apply Forall_forall. intros x _. apply count_subtree.
Qed.
End Defaults.

(** ** By-value containment after the remaining passes *)
Lemma post_message c d d1 d2 d4 d' p : stages c d d1 d2 d4 d' ->
  opt_rel (fun m m' => fields_rel (fun f f' => f_freq f' = f_freq f /\ f_boxed f' = f_boxed f /\
      f_typ f' = own_if (c_dont_use_cow c) (f_typ f)) m m') (get_message d2 p) (get_message d' p).
Proof.
  intros [E1 E2 E3 E4 ->]. rewrite get_single_module, get_sanitize_names.
  destruct (drop_cows_rel c d2) as (R3 & _). destruct (set_defaults_rel _ _ E4) as (R4 & _). specialize (R3 p). specialize (R4 p).
  destruct R3 as [|m2 m3 M3]; [apply opt_rel_none in R4; rewrite R4; constructor|].
  inversion R4 as [|x m4 M4 A B]; subst. cbn. constructor. apply msg_fields_rel in M3, M4.
  refine (fields_rel_trans _ _ _ _ _ _ _ M3 (fields_rel_trans _ _ _ _ _ _ (fun x y z A B => ex_intro _ y (conj A B)) M4 (sanitize_names_fields m4))).
  intros f f3 f' -> (f4 & (s & -> & _) & ->). cbn. auto.
Qed.
Lemma own_if_message b t j : own_if b t = TMessage j <-> t = TMessage j.
Proof. destruct b; [|reflexivity]. cbn. destruct t; cbn; split; intros H; congruence. Qed.
Lemma process_rank c d d' : process c d = GOk d' -> exists rank : midx -> nat,
    (forall i j, by_value d' i j -> (exists m, get_message d' j = Some m) -> (rank j < rank i)%nat) /\
    (forall i, (exists m, get_message d' i = Some m) -> (rank i < length (all_messages d'))%nat).
Proof.
  intros H. apply process_stages in H. destruct H as (d1 & d2 & d4 & St).
  pose proof (fun p => post_message c d d1 d2 d4 d' p St) as Q. destruct St as [E1 E2 _ _ _].
  destruct (break_cycles_rank_bounded (c_error_cycle c) d1 d2 (resolve_types_indexed d d1 E1) E2) as (rank & H1 & H2).
  assert (Ex : forall i, (exists m, get_message d' i = Some m) <-> (exists m, get_message d2 i = Some m)).
  { intros i. specialize (Q i). inversion Q; split; intros (m & E); try congruence; eauto. }
  exists rank. split.
  - intros i j (m' & f' & G & Hf & B & Rp & T) Ej. apply H1; [|now apply Ex]. specialize (Q i). rewrite G in Q. inversion Q as [|m x F A A']; subst.
    destruct (Forall2_in_r _ _ _ (fields_rel_all _ _ _ F) f' Hf) as (f & Hf0 & (Q1 & Q2 & Q3)).
    exists m, f. split; [now symmetry|]. split; [exact Hf0|]. rewrite <- Q2, <- Q1. split; [exact B|]. split; [exact Rp|].
    rewrite Q3 in T. now apply own_if_message in T.
  - intros i Ei. apply Ex in Ei. specialize (H2 i Ei). enough (length (all_messages d2) <= length (all_messages d'))%nat by lia.
    rewrite <- (map_length fst (all_messages d2)), <- (map_length fst (all_messages d')). apply NoDup_incl_length; [apply all_messages_nodup|].
    intros x Hx. apply all_messages_paths in Hx. now apply all_messages_paths, Ex.
Qed.
