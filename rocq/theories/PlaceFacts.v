(** The modules of messages, enums and oneofs, from reading the files to the
    descriptor that is written. *)
From Coq Require Import String Ascii Arith Lia.
From Verif Require Import Base Schema Gen Keywords Modules KeywordFacts ModuleFacts Passes GenCheck Cycles CycleFacts BreakFacts IndexFacts
  Pipeline PassFacts ResolveFacts AcceptFacts Parser ProtoText FileText ParserOut Import Props_Import Paths PathFacts.
Import Schema StringSyntax.
Local Open Scope string_scope.
Local Open Scope list_scope.

(** ** Passes *)
Record head_final (m m' : message) : Prop := mkHead {
  hf_name : m_name m' = sanitize_keyword (m_name m);
  hf_module : m_module m' = m_module m;
  hf_imported : m_imported m' = m_imported m;
  hf_enums : m_enums m' = map enum_sanitize_names (m_enums m);
  hf_oneofs : Forall2 (fun o o' => o_name o' = sanitize_keyword (o_name o) /\ o_module o' = o_module o /\ o_imported o' = o_imported o)
                (m_oneofs m) (m_oneofs m') }.

Definition same_head (m m' : message) : Prop :=
  m_name m' = m_name m /\ m_module m' = m_module m /\ m_imported m' = m_imported m /\ m_enums m' = m_enums m /\
  Forall2 (fun o o' => o_name o' = o_name o /\ o_module o' = o_module o /\ o_imported o' = o_imported o) (m_oneofs m) (m_oneofs m').
Lemma same_head_trans m1 m2 m3 : same_head m1 m2 -> same_head m2 m3 -> same_head m1 m3.
Proof.
  intros (A1 & B1 & C1 & D1 & E1) (A2 & B2 & C2 & D2 & E2). unfold same_head. repeat match goal with |- _ /\ _ => split end; try congruence.
  eapply Forall2_trans; [|exact E1|exact E2]. intros x y z (P1 & P2 & P3) (Q1 & Q2 & Q3). repeat match goal with |- _ /\ _ => split end; congruence.
Qed.
Lemma msg_rel_head R m m' : msg_rel R m m' -> same_head m m'.
Proof.
  intros (_ & O & S). unfold same_head. repeat match goal with |- _ /\ _ => split end.
  - exact (f_equal m_name S).
  - exact (f_equal m_module S).
  - exact (f_equal m_imported S).
  - exact (f_equal m_enums S).
  - clear S. induction O as [|o o' l l' (_ & E) F IH]; constructor; [|exact IH]. repeat match goal with |- _ /\ _ => split end.
    + exact (f_equal o_name E).
    + exact (f_equal o_module E).
    + exact (f_equal o_imported E).
Qed.

Lemma process_head c d d' : process c d = GOk d' -> forall p, opt_rel head_final (get_message d p) (get_message d' p).
Proof.
  intros H p. apply process_stages in H. destruct H as (d1 & d2 & d4 & [E1 E2 E3 E4 ->]).
  pose proof (resolve_types_get d d1 p E1) as R1. rewrite get_assign in R1.
  destruct (break_cycles_ok (c_error_cycle c) d1 (resolve_types_indexed d d1 E1)) as (cs & _ & [(d2' & E2' & R2 & _)|(_ & names & E2' & _)]); [|congruence].
  rewrite E2 in E2'. injection E2' as <-.
  pose proof (drop_cows_rel c d2) as R3. pose proof (set_defaults_rel _ _ E4) as R4.
  rewrite get_single_module, get_sanitize_names.
  destruct (get_message d p) as [m|]; cbn in R1; inversion R1 as [A B|m0 m1 M1 A B]; subst.
  - symmetry in B. destruct (desc_rel_fwd _ _ _ _ _ R2 B) as (m2 & G2 & M2).
    destruct (desc_rel_fwd _ _ _ _ _ R3 G2) as (m3 & G3 & M3). destruct (desc_rel_fwd _ _ _ _ _ R4 G3) as (m4 & G4 & M4).
    rewrite G4. cbn. constructor. apply resolve_message_ok in M1. destruct M1 as (M1 & _).
    apply msg_rel_head in M1, M2, M3, M4.
    pose proof (same_head_trans _ _ _ (same_head_trans _ _ _ (same_head_trans _ _ _ M1 M2) M3) M4) as (A1 & A2 & A3 & A4 & A5).
    rewrite set_indices_eq in A1, A2, A3, A4, A5. cbn in A1, A2, A3, A4, A5. clear -A1 A2 A3 A4 A5. destruct m4. cbn in *. constructor; cbn; try congruence.
    clear -A5. induction A5 as [|o o' l l' (P & Q & R) F IH]; cbn; constructor; auto. cbn. repeat match goal with |- _ /\ _ => split end; congruence.
  - destruct R2 as (R2 & _). specialize (R2 p). rewrite <- B in R2. apply opt_rel_none in R2.
    destruct R3 as (R3 & _). specialize (R3 p). rewrite R2 in R3. apply opt_rel_none in R3.
    destruct R4 as (R4 & _). specialize (R4 p). rewrite R3 in R4. apply opt_rel_none in R4. rewrite R4. constructor.
Qed.
Lemma process_header c d d' : process c d = GOk d' -> d_enums d' = map enum_sanitize_names (d_enums d) /\ d_module d' = d_module d /\
  d_package d' = if c_single_module c then "" else d_package d.
Proof.
  intros H. apply process_stages in H. destruct H as (d1 & d2 & d4 & [E1 E2 E3 E4 ->]).
  destruct (break_cycles_ok (c_error_cycle c) d1 (resolve_types_indexed d d1 E1)) as (cs & _ & [(d2' & E2' & R2 & _)|(_ & names & E2' & _)]); [|congruence].
  rewrite E2 in E2'. injection E2' as <-. apply resolve_types_ok in E1. destruct E1 as (_ & E1).
  pose proof (drop_cows_rel c d2) as (_ & R3). pose proof (set_defaults_rel _ _ E4) as (_ & R4). destruct R2 as (_ & R2).
  assert (X : set_dmessages d4 [] = set_dmessages d []) by congruence.
  pose proof (f_equal d_enums X) as X1. pose proof (f_equal d_package X) as X2. pose proof (f_equal d_module X) as X3. cbn in X1, X2, X3.
  unfold single_module. destruct (c_single_module c); cbn; repeat match goal with |- _ /\ _ => split end; congruence.
Qed.

(** the modules remain right if messages that contain others are not renamed *)
Definition nests (m : message) : Prop := m_messages m <> [] \/ m_enums m <> [] \/ m_oneofs m <> [].
Definition keeps_names (d : file_descriptor) : Prop := forall i m, get_message d i = Some m -> nests m -> sanitize_keyword (m_name m) = m_name m.

Lemma process_placed c d d' : process c d = GOk d' -> placed_at d -> keeps_names d -> placed_at d'.
Proof.
  intros H P K i m' G'. pose proof (process_head c d d' H i) as R. rewrite G' in R. inversion R as [|m y HF A B]; subst. symmetry in A.
  destruct HF as [F1 F2 F3 F4 F5]. destruct (P i m A) as (P1 & P2 & P3).
  assert (Ch : nests m -> child_module m' = child_module m) by (intros N; unfold child_module; now rewrite F1, F2, (K i m A N)).
  repeat match goal with |- _ /\ _ => split end.
  - intros x' Hx. apply In_nth_error in Hx. destruct Hx as (k & Nk).
    assert (Gx : get_message d' (i ++ [k]) = Some x') by (rewrite get_message_eq in G' |- *; now apply (get_in_child _ _ m')).
    pose proof (process_head c d d' H (i ++ [k])) as Rx. rewrite Gx in Rx. inversion Rx as [|x y HF A' B']; subst. symmetry in A'.
    destruct HF as [_ X2 X3 _ _]. assert (Nx : nth_error (m_messages m) k = Some x).
    { rewrite get_message_eq in A, A'. rewrite (get_in_app _ i [k] m A) in A' by discriminate. cbn in A'. now destruct (nth_error (m_messages m) k). }
    apply nth_error_In in Nx. destruct (P1 x Nx) as (Q1 & Q2). rewrite X2, X3, F3, Ch; [auto|]. left. intros E. now rewrite E in Nx.
  - intros e' He. rewrite F4 in He. apply in_map_iff in He. destruct He as (e & <- & He). destruct (P2 e He) as (Q1 & Q2). cbn.
    rewrite F3, Ch; [auto|]. right. left. intros E. now rewrite E in He.
  - intros o' Ho. apply In_nth_error in Ho. destruct Ho as (k & Nk).
    assert (X : exists o, In o (m_oneofs m) /\ o_module o' = o_module o /\ o_imported o' = o_imported o).
    { clear -F5 Nk. revert k Nk. induction F5 as [|o y l l' (_ & A & B) F IH]; intros k Nk; [destruct k; discriminate|]. destruct k as [|k].
      - injection Nk as ->. exists o. repeat match goal with |- _ /\ _ => split end; [now left|assumption|assumption].
      - destruct (IH k Nk) as (o1 & Ho & E). exists o1. split; [now right|exact E]. }
    destruct X as (o & Ho & E1 & E2). destruct (P3 o Ho) as (Q1 & Q2). rewrite E1, E2, F3, Ch; [auto|].
    right. right. intros E. now rewrite E in Ho.
Qed.

(** ** Reading *)
(** all parts of a message have the same origin *)
Inductive uniform (b : bool) (m : message) : Prop := uniform_intro :
  m_imported m = b -> Forall (fun e => en_imported e = b) (m_enums m) -> Forall (fun o => o_imported o = b) (m_oneofs m) ->
  Forall (uniform b) (m_messages m) -> uniform b m.
(** their modules are right *)
Inductive placed (m : message) : Prop := placed_intro :
  Forall (fun e => en_module e = child_module m) (m_enums m) -> Forall (fun o => o_module o = child_module m) (m_oneofs m) ->
  Forall (fun x => m_module x = child_module m /\ placed x) (m_messages m) -> placed m.

Lemma uniform_set_package b m : forall pk mo, uniform b m -> uniform b (msg_set_package pk mo m).
Proof.
  induction m as [m IH] using message_tree_ind. intros pk mo [H1 H2 H3 H4]. rewrite Forall_forall in IH, H4.
  destruct m. cbn in *. constructor; cbn; [exact H1| | |].
  - rewrite Forall_map. eapply Forall_impl; [|exact H2]. intros o K. exact K.
  - rewrite Forall_map. eapply Forall_impl; [|exact H3]. intros o K. exact K.
  - apply Forall_forall. intros x Hx. apply in_map_iff in Hx. destruct Hx as (y & <- & Hy). apply (IH y Hy). now apply H4.
Qed.
Lemma uniform_set_imported m : uniform true (msg_set_imported m).
Proof.
  induction m as [m IH] using message_tree_ind. rewrite Forall_forall in IH.
  destruct m. cbn in *. constructor; cbn; [reflexivity| | |].
  - rewrite Forall_map. apply Forall_forall. reflexivity.
  - rewrite Forall_map. apply Forall_forall. reflexivity.
  - apply Forall_forall. intros x Hx. apply in_map_iff in Hx. destruct Hx as (y & <- & Hy). now apply (IH y Hy).
Qed.
Lemma module_set_package pk mo m : m_module (msg_set_package pk mo m) = mo.
Proof. now destruct m. Qed.
Lemma placed_set_package m : forall pk mo, placed (msg_set_package pk mo m).
Proof.
  induction m as [m IH] using message_tree_ind. intros pk mo. rewrite Forall_forall in IH.
  destruct m. cbn in *. constructor; cbn.
  - rewrite Forall_map. apply Forall_forall. reflexivity.
  - rewrite Forall_map. apply Forall_forall. reflexivity.
  - apply Forall_forall. intros x Hx. apply in_map_iff in Hx. destruct Hx as (y & <- & Hy). split; [apply module_set_package|now apply (IH y Hy)].
Qed.
Lemma placed_set_imported m : placed m -> placed (msg_set_imported m).
Proof.
  induction m as [m IH] using message_tree_ind. intros [H1 H2 H3]. rewrite Forall_forall in IH, H3.
  destruct m. cbn in *. constructor; cbn.
  - rewrite Forall_map. eapply Forall_impl; [|exact H1]. intros e E. exact E.
  - rewrite Forall_map. eapply Forall_impl; [|exact H2]. intros e E. exact E.
  - apply Forall_forall. intros x Hx. apply in_map_iff in Hx. destruct Hx as (y & <- & Hy). destruct (H3 y Hy) as (E & P).
    split; [|now apply (IH y Hy)]. destruct y. exact E.
Qed.

Lemma word_not_dot c : word_char c -> Ascii.eqb c "." = false.
Proof.
  intros H. destruct (Ascii.eqb_spec c "."%char) as [->|]; [|reflexivity]. exfalso.
  destruct H as [[[(A & _)|(A & _)]|A]|(A & _)]; [apply Nat.leb_le in A; discriminate A|apply Nat.leb_le in A; discriminate A|discriminate A|apply Nat.leb_le in A; discriminate A].
Qed.
Lemma ident_no_dot n : ident n -> no_dot n.
Proof.
  intros [a t S A]. unfold no_dot. cbn [contains_char]. rewrite (word_not_dot a) by (now left). cbn.
  induction A as [|c t Hc A IH]; [reflexivity|]. cbn [contains_char]. now rewrite (word_not_dot c Hc).
Qed.

(** what the parser delivers *)
Inductive dotless (m : message) : Prop := dotless_intro :
  no_dot (m_name m) -> Forall dotless (m_messages m) -> dotless m.
Lemma parsed_uniform sx m : parsed_message sx m -> uniform false m /\ dotless m.
Proof.
  induction m as [m IH] using message_tree_ind. intros H. destruct H as [name fs os nums names ms es Nm Hf Ho _ _ Hm He].
  cbn [m_messages] in IH. rewrite Forall_forall in IH, Hm. split; constructor; cbn.
  - reflexivity.
  - eapply Forall_impl; [|exact He]. intros e [_ _ (_ & _ & E)]. exact E.
  - eapply Forall_impl; [|exact Ho]. intros o [_ _ _ (_ & _ & E)]. exact E.
  - apply Forall_forall. intros x Hx. now apply IH, Hm.
  - now apply ident_no_dot.
  - apply Forall_forall. intros x Hx. now apply IH, Hm.
Qed.
Lemma dotless_set_package m : forall pk mo, dotless m -> dotless (msg_set_package pk mo m).
Proof.
  induction m as [m IH] using message_tree_ind. intros pk mo [H1 H4]. rewrite Forall_forall in IH, H4.
  destruct m. cbn in *. constructor; cbn; [exact H1|].
  apply Forall_forall. intros x Hx. apply in_map_iff in Hx. destruct Hx as (y & <- & Hy). apply (IH y Hy). now apply H4.
Qed.
Lemma dotless_set_imported m : dotless m -> dotless (msg_set_imported m).
Proof.
  induction m as [m IH] using message_tree_ind. intros [H1 H4]. rewrite Forall_forall in IH, H4.
  destruct m. cbn in *. constructor; cbn; [exact H1|].
  apply Forall_forall. intros x Hx. apply in_map_iff in Hx. destruct Hx as (y & <- & Hy). apply (IH y Hy). now apply H4.
Qed.

(** a message of a descriptor that was read *)
Record read_message (own_module : text) (m : message) : Prop := mkReadMessage {
  rm_uniform : uniform (m_imported m) m;
  rm_placed : placed m;
  rm_dotless : dotless m;
  rm_own : m_imported m = false -> m_module m = own_module }.
Definition read_desc (d : file_descriptor) : Prop :=
  Forall (read_message (d_module d)) (d_messages d) /\
  Forall (fun e => en_imported e = false -> en_module e = d_module d) (d_enums d).

Lemma read_desc_own d : Forall (fun m => uniform false m /\ dotless m) (d_messages d) -> read_desc (set_own_package d).
Proof.
  intros H. split; cbn; rewrite Forall_map.
  - eapply Forall_impl; [|exact H]. intros m (U & D). constructor.
    + pose proof (uniform_set_package false m (d_package d) (d_module d) U) as V. pose proof V as V'. destruct V' as [E _ _ _]. now rewrite E.
    + apply placed_set_package.
    + now apply dotless_set_package.
    + intros _. apply module_set_package.
  - apply Forall_forall. intros e _ _. reflexivity.
Qed.
Lemma read_desc_import d x : read_desc d -> read_desc x -> read_desc (add_import d x).
Proof.
  intros [H1 H2] [H3 H4]. split; cbn; apply Forall_app; (split; [assumption|]); rewrite Forall_map.
  - eapply Forall_impl; [|exact H3]. intros m [U P D _]. set (m0 := if String.eqb (m_package m) "" then msg_set_package (d_package x) (d_module x) m else m).
    assert (P0 : placed m0) by (unfold m0; destruct (String.eqb (m_package m) ""); [apply placed_set_package|exact P]).
    assert (D0 : dotless m0) by (unfold m0; destruct (String.eqb (m_package m) ""); [now apply dotless_set_package|exact D]).
    assert (I : m_imported (msg_set_imported m0) = true) by (now destruct m0).
    constructor; [rewrite I; apply uniform_set_imported|now apply placed_set_imported|now apply dotless_set_imported|congruence].
  - apply Forall_forall. intros e _. discriminate.
Qed.
Lemma module_import d x : d_module (add_import d x) = d_module d /\ d_package (add_import d x) = d_package d.
Proof. split; reflexivity. Qed.

Lemma fetch_desc fs search rd : (forall g x, rd g = ROk x -> read_desc x) ->
  forall l f d d', fetch fs search f rd d l = ROk d' -> read_desc d -> read_desc d' /\ d_module d' = d_module d /\ d_package d' = d_package d.
Proof.
  intros R. induction l as [|i l IH]; intros f d d' H S; cbn [fetch] in H; [now injection H as <-|].
  destruct (find_import fs search f i) as [g|]; [|discriminate]. destruct (rd g) as [x| | |] eqn:E; try discriminate.
  apply (IH f _ _ H). apply read_desc_import; [exact S|exact (R g x E)].
Qed.
Lemma read_placed check fs search n : forall f d, read_proto check fs search n f = ROk d ->
  read_desc d /\ file_module (d_package d) f = Some (d_module d).
Proof.
  induction n as [|n IH]; intros f d H; [discriminate|].
  destruct (read_step _ _ _ _ _ _ H) as (p & d0 & (s & r & _ & Ep & _) & (mo & Em & ->) & F).
  assert (R0 : read_desc (set_own_package (mkDesc (package_of p) (d_syntax (p_desc p)) (d_messages (p_desc p)) (d_enums (p_desc p)) mo))).
  { apply read_desc_own. cbn. destruct (o_file _ _ _ _ Ep) as (r' & sx & _ & [M _ _ _ _ _ _]).
    eapply Forall_impl; [|exact M]. apply parsed_uniform. }
  destruct (fetch_desc _ _ _ (fun g x E => proj1 (IH g x E)) _ _ _ _ F R0) as (R & E1 & E2). split; [exact R|].
  rewrite E1, E2. exact Em.
Qed.

Lemma uniform_get b ms : Forall (uniform b) ms -> forall p m, get_in ms p = Some m -> uniform b m.
Proof.
  intros H p. revert ms H. induction p as [|k p IH]; intros ms H m G; [discriminate|]. cbn [get_in] in G.
  destruct (nth_error ms k) as [x|] eqn:E; [|discriminate]. apply nth_error_In in E. rewrite Forall_forall in H. specialize (H x E).
  destruct p as [|k' p]; [now injection G as <-|]. destruct H as [_ _ _ H4]. exact (IH _ H4 m G).
Qed.
Lemma placed_get ms : Forall placed ms -> forall p m, get_in ms p = Some m -> placed m.
Proof.
  intros H p. revert ms H. induction p as [|k p IH]; intros ms H m G; [discriminate|]. cbn [get_in] in G.
  destruct (nth_error ms k) as [x|] eqn:E; [|discriminate]. apply nth_error_In in E. rewrite Forall_forall in H. specialize (H x E).
  destruct p as [|k' p]; [now injection G as <-|]. destruct H as [_ _ H4]. apply (IH (m_messages x)); [|exact G].
  eapply Forall_impl; [|exact H4]. now intros y (_ & Y).
Qed.
Lemma dotless_get ms : Forall dotless ms -> forall p m, get_in ms p = Some m -> dotless m.
Proof.
  intros H p. revert ms H. induction p as [|k p IH]; intros ms H m G; [discriminate|]. cbn [get_in] in G.
  destruct (nth_error ms k) as [x|] eqn:E; [|discriminate]. apply nth_error_In in E. rewrite Forall_forall in H. specialize (H x E).
  destruct p as [|k' p]; [now injection G as <-|]. destruct H as [_ H4]. exact (IH _ H4 m G).
Qed.

Lemma read_desc_placed d : read_desc d -> placed_at d /\ (forall i m, get_message d i = Some m -> no_dot (m_name m)).
Proof.
  intros (R & _). split.
  - intros i m G. rewrite get_message_eq in G.
    assert (P : placed m).
    { apply (placed_get (d_messages d)) with i; [|exact G]. eapply Forall_impl; [|exact R]. now intros x [_ X _ _]. }
    assert (U : uniform (m_imported m) m).
    { destruct i as [|k rest]; [discriminate|]. rewrite get_below in G. destruct (nth_error (d_messages d) k) as [top|] eqn:N; [|discriminate].
      apply nth_error_In in N. rewrite Forall_forall in R. destruct (R top N) as [U _ _ _].
      assert (V : uniform (m_imported top) m).
      { clear -U G. revert U. generalize (m_imported top) as b. intros b U. revert top U G. induction rest as [|k rest IH]; intros top U G; cbn in G; [now injection G as <-|].
        destruct (nth_error (m_messages top) k) as [x|] eqn:E; [|discriminate]. apply (IH x); [|exact G]. destruct U as [_ _ _ H4].
        apply nth_error_In in E. rewrite Forall_forall in H4. auto. }
      pose proof V as [E _ _ _]. now rewrite E. }
    destruct U as [_ U1 U2 U3]. destruct P as [P1 P2 P3]. rewrite Forall_forall in U1, U2, U3, P1, P2, P3.
    repeat match goal with |- _ /\ _ => split end; [intros x Hx|intros x Hx|intros x Hx]; split.
    + now apply P3.
    + destruct (U3 x Hx) as [E _ _ _]. exact E.
    + now apply P1.
    + now apply U1.
    + now apply P2.
    + now apply U2.
  - intros i m G. rewrite get_message_eq in G.
    assert (P : dotless m).
    { apply (dotless_get (d_messages d)) with i; [|exact G]. eapply Forall_impl; [|exact R]. now intros x [_ _ X _]. }
    now destruct P.
Qed.
