(** Property theorem C66: the Rust paths in the generated code lead to the items
    they stand for. *)
From Coq Require Import String Ascii Arith Lia.
From Verif Require Import Base Schema Gen Keywords Modules KeywordFacts ModuleFacts Passes GenCheck Cycles CycleFacts BreakFacts IndexFacts
  Pipeline PassFacts ResolveFacts AcceptFacts Parser ProtoText FileText ParserOut Import Props_Import Paths PathFacts PlaceFacts.
Import Schema StringSyntax.
Local Open Scope string_scope.
Local Open Scope list_scope.

(** ** What is claimed *)

(** in the module [place] of the file, [path] means [it]; [root] are the items of
    the output directory *)
Definition finds (root : ritems) (d : file_descriptor) (stem : text) (place path : list text) (it : ritem) : Prop :=
  exists scopes, scopes_at root d stem place = Some scopes /\ resolve scopes path = Some it.

(** the places where code for the message at [i] is written: next to its
    struct, and in its module if it has oneofs *)
Definition written_at (d : file_descriptor) (i : midx) (place : list text) : Prop :=
  exists m, get_message d i = Some m /\ m_imported m = false /\
    (place = mods d i \/ m_oneofs m <> [] /\ place = mods d i ++ [("mod_" ++ m_name m)%string]).

(** The file is in the output directory where [write_proto] puts it; no module
    of it declares a name twice (E0428); names that paths begin with are not
    declared again further inside. *)
Record laid_out (root : ritems) (d : file_descriptor) (stem : text) : Prop := mkLaidOut {
  lo_file : exists g, walk (IMod false root) (own_path (d_package d) stem) = Some (IMod g (emit_file d));
  lo_distinct : distinct (emit_file d);
  lo_local : d_package d = "" -> forall n, In n (map fst (emit_file d)) -> ~ declared_below (emit_file d) n;
  lo_package : d_package d <> "" -> forall s l, split_on "." (d_package d) = s :: l -> ~ declared (emit_file d) s }.

(** an item declared in this file; or one in an imported file that is in the
    output directory too, at the place its module says *)
Definition message_available := laid.
Definition enum_available (root : ritems) (d : file_descriptor) (q : eidx) : Prop :=
  match e_msg q with [] => enum_laid root d (e_pos q) | i => laid root d i end.

(** ** The file stem *)
Lemma map_chars_no_dot g s : (forall a, g a <> "."%char) -> no_dot (map_chars g s).
Proof.
  intros H. unfold no_dot. induction s as [|a s IH]; [reflexivity|]. cbn. rewrite IH. destruct (Ascii.eqb_spec (g a) "."%char) as [E|_]; [|reflexivity].
  now apply H in E.
Qed.
Lemma sanitize_no_dot s : no_dot s -> no_dot (sanitize_keyword s) /\ (s <> "" -> sanitize_keyword s <> "").
Proof.
  intros H. unfold sanitize_keyword. unfold no_dot in *. rewrite H. cbn [negb andb]. destruct (is_keyword s) eqn:K.
  - split; [|destruct s; discriminate]. clear K. induction s as [|a s IH]; [reflexivity|]. cbn in *. apply Bool.orb_false_iff in H. destruct H as (-> & H).
    now rewrite IH.
  - rewrite (split_none "." s H). cbn. unfold sanitize_segment. rewrite K. auto.
Qed.
Lemma stem_one f stem : Forall (fun p => p <> "") (fp_parts f) -> get_file_stem f = Some stem -> no_dot stem /\ stem <> "".
Proof.
  intros P H. unfold get_file_stem, file_stem in H. destruct (fp_parts f) as [|p ps] eqn:E; [discriminate|].
  assert (L : last (p :: ps) "" <> "").
  { rewrite Forall_forall in P. apply P. assert (X : p :: ps <> []) by discriminate. rewrite (app_removelast_last "" X) at 2. apply in_app_iff. right. now left. }
  set (name := last (p :: ps) "") in *. destruct (String.eqb name ".."); [discriminate|].
  assert (X : exists s, s <> "" /\ stem = sanitize_stem s).
  { destruct (rfind_char "." name) as [[|i]|] eqn:R; injection H as <-; eauto. exists (slice 0 (S i) name). split; [|reflexivity].
    destruct name; [contradiction|discriminate]. }
  destruct X as (s & Ns & ->). unfold sanitize_stem.
  assert (D : no_dot (map_chars (fun a => if is_alphanumeric a then a else "_"%char) s)).
  { apply map_chars_no_dot. intros a. destruct (is_alphanumeric a) eqn:A; [|discriminate]. intros ->. discriminate A. }
  split; [now apply sanitize_no_dot|]. apply sanitize_no_dot; [exact D|]. destruct s; [contradiction|discriminate].
Qed.
Lemma segments_plain p : plain_package p -> p <> "" -> segments p = split_on "." p.
Proof.
  intros [->|H] N; [contradiction|]. unfold segments. clear N. induction H as [|x l (Nx & _) F IH]; [reflexivity|]. cbn.
  destruct (String.eqb_spec x "") as [|_]; [contradiction|]. cbn. now rewrite IH.
Qed.
Lemma segments_one s : no_dot s -> s <> "" -> segments s = [s].
Proof.
  intros H N. unfold segments. rewrite (split_none "." s H). cbn. destruct (String.eqb_spec s "") as [|_]; [contradiction|reflexivity].
Qed.

(** ** The theorem *)
Section Accepted.
Variables (check : bool) (fs : file_system) (search : list fpath) (n : nat) (f : fpath) (d : file_descriptor) (c : config)
  (d' : file_descriptor) (root : ritems) (stem : text).
Hypothesis Read : read_proto check fs search n f = ROk d.
Hypothesis Parts : Forall (fun p => p <> "") (fp_parts f).
Hypothesis Accepted : process c d = GOk d'.
Hypothesis Keeps : keeps_names d.
Hypothesis Pack : plain_package (d_package d).
Hypothesis Single : c_single_module c = true -> no_dot (d_module d).
Hypothesis Laid : laid_out root d' stem.

Let own := segments (d_module d).

Lemma acc_module : d_module d <> "" /\ (if String.eqb (d_package d) "" then own = [d_module d] else own = split_on "." (d_package d)).
Proof.
  destruct (read_placed _ _ _ _ _ _ Read) as (_ & M). unfold file_module in M. unfold own. destruct (String.eqb_spec (d_package d) "") as [E|E].
  - destruct (stem_one f (d_module d) Parts M) as (A & B). split; [exact B|now apply segments_one].
  - injection M as <-. split; [exact E|now apply segments_plain].
Qed.
Lemma acc_own : if String.eqb (d_package d') "" then length own = 1%nat else own = split_on "." (d_package d').
Proof.
  destruct acc_module as (Nm & A). destruct (process_header c d d' Accepted) as (_ & _ & ->). unfold own. destruct (c_single_module c) eqn:S.
  - cbn. now rewrite (segments_one _ (Single eq_refl) Nm).
  - destruct (String.eqb (d_package d) ""); [unfold own in A; now rewrite A|exact A].
Qed.
Lemma acc_placed : placed_at d' /\ (forall i m, get_message d' i = Some m -> no_dot (m_name m)).
Proof.
  destruct (read_placed _ _ _ _ _ _ Read) as (R & _). destruct (read_desc_placed d R) as (P & N).
  split; [now apply (process_placed c d d')|]. intros i m' G. pose proof (process_head c d d' Accepted i) as H. rewrite G in H.
  inversion H as [|m y [E _ _ _ _] A B]; subst. symmetry in A. rewrite E. apply sanitize_no_dot. exact (N i m A).
Qed.
Lemma acc_own_message k m : nth_error (d_messages d') k = Some m -> m_imported m = false -> segments (m_module m) = own.
Proof.
  intros N I. assert (G : get_message d' [k] = Some m) by (rewrite get_message_eq; cbn; now rewrite N).
  pose proof (process_head c d d' Accepted [k]) as H. rewrite G in H. destruct (get_message d [k]) as [m0|] eqn:A; [|inversion H]. assert (HF : head_final m0 m) by (now inversion H). destruct HF as [_ E1 E2 _ _].
  rewrite get_message_eq in A. cbn in A. destruct (nth_error (d_messages d) k) as [x|] eqn:Nx; [|discriminate]. injection A as ->.
  destruct (read_placed _ _ _ _ _ _ Read) as ((R & _) & _). apply nth_error_In in Nx. rewrite Forall_forall in R. destruct (R _ Nx) as [_ _ _ Ow].
  unfold own. rewrite E1, Ow; [reflexivity|congruence].
Qed.
Lemma acc_own_enum k e : nth_error (d_enums d') k = Some e -> en_imported e = false -> segments (en_module e) = own.
Proof.
  intros N I. destruct (process_header c d d' Accepted) as (E & _). rewrite E, nth_error_map in N. destruct (nth_error (d_enums d) k) as [x|] eqn:Nx; [|discriminate].
  injection N as <-. cbn in *. destruct (read_placed _ _ _ _ _ _ Read) as ((_ & R) & _). apply nth_error_In in Nx. rewrite Forall_forall in R.
  unfold own. now rewrite (R x Nx I).
Qed.
Lemma acc_package : plain_package (d_package d').
Proof. destruct (process_header c d d' Accepted) as (_ & _ & ->). destruct (c_single_module c); [now left|exact Pack]. Qed.
Lemma acc_shadow : d_package d' <> "" -> forall s l, own = s :: l -> ~ declared (emit_file d') s.
Proof.
  intros Ne s l E. apply (lo_package _ _ _ Laid Ne s l). pose proof acc_own as A. destruct (String.eqb_spec (d_package d') "") as [|_]; [contradiction|]. congruence.
Qed.

Lemma place_globbed i place : written_at d' i place -> globbed (emit_file d') place.
Proof.
  intros (m & G & I & H). destruct acc_placed as (P & Dt).
  destruct (places_globbed d' P Dt (lo_distinct _ _ _ Laid) i m G I) as (A & B). destruct H as [->|(O & ->)]; [exact A|exact (B O)].
Qed.

Lemma paths_found i place : written_at d' i place ->
  (forall j m, get_message d' j = Some m -> message_available root d' j -> finds root d' stem place (message_path d' m) (IMessage j)) /\
  (forall q e, get_enum d' q = Some e -> enum_available root d' q -> finds root d' stem place (enum_path d' e) (IEnum q)) /\
  (forall j m k o, get_message d' j = Some m -> nth_error (m_oneofs m) k = Some o -> message_available root d' j ->
     finds root d' stem place (oneof_path d' o) (IOneof j k)).
Proof.
  intros W. pose proof (place_globbed i place W) as Gl. destruct acc_placed as (P & Dt). destruct Laid as [L1 L2 L3 L4].
  repeat match goal with |- _ /\ _ => split end.
  - intros j m G A. exact (message_reached root d' stem own P Dt acc_own_message acc_own_enum acc_package acc_own L1 L2 L3 acc_shadow place j m Gl A G).
  - intros q e G A. exact (enum_reached root d' stem own P Dt acc_own_message acc_own_enum acc_package acc_own L1 L2 L3 acc_shadow place q e Gl A G).
  - intros j m k o G N A. exact (oneof_reached root d' stem own P Dt acc_own_message acc_own_enum acc_package acc_own L1 L2 L3 acc_shadow place j m k o Gl A G N).
Qed.
End Accepted.

(** C66.  From every place where code is written for a message of the file, the
    path of every message, enum and oneof leads to its item.

    Missing (refuted below): messages whose names are Rust keywords and that
    contain other items, package names with a keyword or an empty part,
    --single-mod with a package of several parts, and files in which a name is
    declared twice or hides one that a path begins with.  The names of the fixed
    [use] lines are left out, see C67. *)
Theorem C66_paths_partial : forall check fs search n f d c d' root stem,
  read_proto check fs search n f = ROk d -> Forall (fun p => p <> "") (fp_parts f) -> process c d = GOk d' ->
  (forall i m, get_message d i = Some m -> m_messages m <> [] \/ m_enums m <> [] \/ m_oneofs m <> [] ->
     sanitize_keyword (m_name m) = m_name m) ->
  d_package d = "" \/ Forall (fun p => p <> "" /\ sanitize_keyword p = p) (split_on "." (d_package d)) ->
  (c_single_module c = true -> no_dot (d_module d)) ->
  laid_out root d' stem ->
  forall i place, written_at d' i place ->
  (forall j m, get_message d' j = Some m -> message_available root d' j -> finds root d' stem place (message_path d' m) (IMessage j)) /\
  (forall q e, get_enum d' q = Some e -> enum_available root d' q -> finds root d' stem place (enum_path d' e) (IEnum q)) /\
  (forall j m k o, get_message d' j = Some m -> nth_error (m_oneofs m) k = Some o -> message_available root d' j ->
     finds root d' stem place (oneof_path d' o) (IOneof j k)).
Proof.
  intros check fs search n f d c d' root stem R P A K Pk S L i place W.
  exact (paths_found check fs search n f d c d' root stem R P A K Pk S L i place W).
Qed.
Print Assumptions C66_paths_partial.

(** C66.  The same for the values of enums, which are the defaults of proto3
    fields: the path of the first value leads to the enum, if the file is where
    its module says. *)
Theorem C66_enum_values_partial : forall check fs search n f d c d' root stem,
  read_proto check fs search n f = ROk d -> Forall (fun p => p <> "") (fp_parts f) -> process c d = GOk d' ->
  (forall i m, get_message d i = Some m -> m_messages m <> [] \/ m_enums m <> [] \/ m_oneofs m <> [] ->
     sanitize_keyword (m_name m) = m_name m) ->
  d_package d = "" \/ Forall (fun p => p <> "" /\ sanitize_keyword p = p) (split_on "." (d_package d)) ->
  (c_single_module c = true -> no_dot (d_module d)) ->
  laid_out root d' stem ->
  own_path (d_package d') stem = segments (d_module d) ->
  (forall s l, segments (d_module d) = s :: l -> ~ declared (emit_file d') s) ->
  forall i place, written_at d' i place ->
  forall q e path v, get_enum d q = Some e -> enum_available root d' q ->
    sanitize_keyword (en_name e) = en_name e -> ~ In "" (split_on "." (en_module e)) ->
    qualified_value e = Some (path ++ [v]) ->
    finds root d' stem place path (IEnum q) /\
    exists e', get_enum d' q = Some e' /\ (sanitize_keyword v = v -> In v (map fst (en_fields e'))).
Proof.
  intros check fs search n f d c d' root stem R P A K Pk S L Ow Sh i place W q e path v G Av Ne Parts Q.
  pose proof (place_globbed check fs search n f d c d' root stem R A K L i place W) as Gl.
  destruct (acc_placed check fs search n f d c d' R A K) as (Pl & Dt).
  pose proof (process_enum c d d' q A) as G'. rewrite G in G'. cbn in G'. split.
  - assert (E : path = segments (en_module (enum_sanitize_names e)) ++ [en_name (enum_sanitize_names e)]).
    { cbn [enum_sanitize_names en_module en_name]. rewrite Ne. unfold qualified_value in Q. destruct (en_fields e) as [|(v0, x) l]; [discriminate|]. injection Q as Q.
      assert (Sg : segments (en_module e) = split_on "." (en_module e)).
      { unfold segments. generalize (split_on "." (en_module e)) as ps, Parts. induction ps as [|p ps IH]; intros H; [reflexivity|]. cbn.
        destruct (String.eqb_spec p "") as [->|_]; [exfalso; apply H; now left|]. cbn. f_equal. apply IH. intros X. apply H. now right. }
      destruct (String.eqb_spec (en_module e) "") as [E0|_]; [exfalso; apply Parts; rewrite E0; now left|].
      rewrite Sg. change [en_name e; v0] with ([en_name e] ++ [v0]) in Q. rewrite app_assoc in Q. apply app_inj_tail in Q. now destruct Q. }
    rewrite E. destruct L as [L1 L2 L3 L4].
    apply (value_reached root d' stem (segments (d_module d)) Pl Dt
             (acc_own_message check fs search n f d c d' R A) (acc_own_enum check fs search n f d c d' R A)
             (acc_package d c d' A Pk S)
             (acc_own check fs search n f d c d' R P A Pk S) L1 L2
             (fun _ => Sh) place q); auto.
    rewrite <- Ow. unfold own_path. destruct (split_package (d_package d')) as (a & b). destruct (String.eqb a ""); [discriminate|].
    intros X. apply app_eq_nil in X. now destruct X.
  - exists (enum_sanitize_names e). split; [exact G'|]. intros Sv. cbn. rewrite map_map. cbn. unfold qualified_value in Q.
    destruct (en_fields e) as [|(v0, x) l]; [discriminate|]. injection Q as Q.
    change [en_name e; v0] with ([en_name e] ++ [v0]) in Q. rewrite app_assoc in Q. apply app_inj_tail in Q. destruct Q as (_ & <-).
    left. exact Sv.
Qed.
Print Assumptions C66_enum_values_partial.

(** C66.  What the file declares: exactly the messages, enums and oneofs that are
    its own, each of them once. *)
Fixpoint declared_in (it : ritem) : list ritem :=
  match it with
  | IMod _ l => flat_map (fun p => declared_in (snd p)) l
  | _ => [it]
  end.
Definition own_item (d : file_descriptor) (it : ritem) : Prop :=
  match it with
  | IMessage i => exists m, get_message d i = Some m /\ m_imported m = false
  | IEnum q => exists e, get_enum d q = Some e /\ en_imported e = false
  | IOneof i k => exists m o, get_message d i = Some m /\ nth_error (m_oneofs m) k = Some o /\ o_imported o = false
  | IMod _ _ => False
  end.

Definition flat (l : ritems) : list ritem := flat_map (fun p => declared_in (snd p)) l.
Lemma flat_app a b : flat (a ++ b) = flat a ++ flat b.
Proof. unfold flat. apply flat_map_app. Qed.
Definition enums_at (i : midx) (es : list enumerator) : list ritem := map (fun '(k, _) => IEnum (mkEidx i k)) (number_from 0 es).
Definition oneofs_at (i : midx) (os : list oneof) : list ritem := map (fun '(k, _) => IOneof i k) (number_from 0 os).
Lemma flat_message i m : flat (emit_message i m) = IMessage i :: flat (emit_from i 0 (m_messages m)) ++ enums_at i (m_enums m) ++ oneofs_at i (m_oneofs m).
Proof.
  assert (A : forall es k, flat (map (fun '(k, e) => (en_name e, IEnum (mkEidx i k))) (number_from k es)) = map (fun '(k, _) => IEnum (mkEidx i k)) (number_from k es)).
  { induction es as [|e es IH]; intros k; [reflexivity|]. cbn. f_equal. apply IH. }
  assert (B : forall os k, flat (map (fun '(k, o) => (("OneOf" ++ o_name o)%string, IOneof i k)) (number_from k os)) = map (fun '(k, _) => IOneof i k) (number_from k os)).
  { induction os as [|e os IH]; intros k; [reflexivity|]. cbn. f_equal. apply IH. }
  assert (S : flat (sub_items i m) = flat (emit_from i 0 (m_messages m)) ++ enums_at i (m_enums m) ++ oneofs_at i (m_oneofs m)).
  { unfold sub_items. rewrite !flat_app, A, B. reflexivity. }
  rewrite emit_message_eq. cbn [flat flat_map snd declared_in app]. f_equal.
  change (flat (match m_messages m with [] => match m_enums m with [] => match m_oneofs m with [] => [] | _ :: _ => [(modn m, IMod (globs m) (sub_items i m))] end
     | _ :: _ => [(modn m, IMod (globs m) (sub_items i m))] end | _ :: _ => [(modn m, IMod (globs m) (sub_items i m))] end) =
    flat (emit_from i 0 (m_messages m)) ++ enums_at i (m_enums m) ++ oneofs_at i (m_oneofs m)).
  assert (X : flat [(modn m, IMod (globs m) (sub_items i m))] = flat (sub_items i m)) by (cbn; apply app_nil_r).
  destruct (m_messages m) eqn:E1, (m_enums m) eqn:E2, (m_oneofs m) eqn:E3; try (rewrite X, S; reflexivity). reflexivity.
Qed.
Definition item_place (it : ritem) : midx := match it with IMessage i => i | IEnum q => e_msg q | IOneof i _ => i | IMod _ _ => [] end.
(** an item declared by the message at [i] itself *)
Definition item_at (i : midx) (m : message) (it : ritem) : Prop :=
  match it with
  | IMessage j => j = i
  | IEnum q => e_msg q = i /\ nth_error (m_enums m) (e_pos q) <> None
  | IOneof j k => j = i /\ nth_error (m_oneofs m) k <> None
  | IMod _ _ => False
  end.
Lemma in_enums_at i es it : In it (enums_at i es) <-> exists k, it = IEnum (mkEidx i k) /\ nth_error es k <> None.
Proof.
  unfold enums_at. rewrite in_map_iff. split.
  - intros ((k, e) & <- & I). apply in_number_from in I. destruct I as (n & -> & E). exists n. split; [reflexivity|]. congruence.
  - intros (k & -> & N). destruct (nth_error es k) as [e|] eqn:E; [|contradiction]. exists (k, e). split; [reflexivity|]. apply in_number_from. now exists k.
Qed.
Lemma in_oneofs_at i os it : In it (oneofs_at i os) <-> exists k, it = IOneof i k /\ nth_error os k <> None.
Proof.
  unfold oneofs_at. rewrite in_map_iff. split.
  - intros ((k, e) & <- & I). apply in_number_from in I. destruct I as (n & -> & E). exists n. split; [reflexivity|]. congruence.
  - intros (k & -> & N). destruct (nth_error os k) as [e|] eqn:E; [|contradiction]. exists (k, e). split; [reflexivity|]. apply in_number_from. now exists k.
Qed.
Lemma in_emit_from i l it : forall k, In it (flat (emit_from i k l)) <-> exists n x, nth_error l n = Some x /\ In it (flat (emit_message (i ++ [(k + n)%nat]) x)).
Proof.
  induction l as [|y l IH]; intros k; cbn [emit_from].
  - split; [intros []|]. intros ([|n] & x & E & _); discriminate.
  - rewrite flat_app, in_app_iff, IH. split.
    + intros [H|(n & x & E & H)]; [exists O, y; rewrite Nat.add_0_r; auto|exists (S n), x; rewrite Nat.add_succ_r; auto].
    + intros ([|n] & x & E & H); cbn in E; [injection E as <-; left; now rewrite Nat.add_0_r in H|right; exists n, x; rewrite Nat.add_succ_r in H; auto].
Qed.
Lemma in_emit_message m it : forall i, In it (flat (emit_message i m)) <-> exists p x, below m p = Some x /\ item_at (i ++ p) x it.
Proof.
  induction m as [m IH] using message_tree_ind. intros i. rewrite flat_message. rewrite Forall_forall in IH. split.
  - intros [<-|H]; [exists [], m; cbn; split; [reflexivity|now rewrite app_nil_r]|]. rewrite !in_app_iff in H. destruct H as [H|[H|H]].
    + apply in_emit_from in H. destruct H as (n & x & E & H). apply (IH x (nth_error_In _ _ E)) in H. destruct H as (p & y & B & A).
      exists (n :: p), y. cbn [below]. rewrite E. split; [exact B|]. rewrite <- app_assoc in A. exact A.
    + apply in_enums_at in H. destruct H as (k & -> & N). exists [], m. cbn. rewrite app_nil_r. auto.
    + apply in_oneofs_at in H. destruct H as (k & -> & N). exists [], m. cbn. rewrite app_nil_r. auto.
  - intros (p & x & B & A). destruct p as [|n p]; cbn [below] in B.
    + injection B as <-. rewrite app_nil_r in A. destruct it as [j|q|j k|]; cbn in A; [left; congruence|..|contradiction]; right; rewrite !in_app_iff; right.
      * left. apply in_enums_at. destruct q as [j k]. cbn in A. destruct A as (-> & N). eauto.
      * right. apply in_oneofs_at. destruct A as (-> & N). eauto.
    + destruct (nth_error (m_messages m) n) as [y|] eqn:E; [|discriminate]. right. rewrite !in_app_iff. left. apply in_emit_from. exists n, y. split; [exact E|].
      apply (IH y (nth_error_In _ _ E)). exists p, x. split; [exact B|]. rewrite <- app_assoc. exact A.
Qed.
Lemma item_at_place i m it : item_at i m it -> item_place it = i.
Proof. destruct it; cbn; tauto. Qed.
Lemma nodup_app_intro {A} (l1 l2 : list A) : NoDup l1 -> NoDup l2 -> (forall x, In x l1 -> ~ In x l2) -> NoDup (l1 ++ l2).
Proof.
  induction l1 as [|x l1 IH]; intros N1 N2 D; [exact N2|]. inversion N1 as [|? ? X N]; subst. cbn. constructor.
  - rewrite in_app_iff. intros [H|H]; [auto|]. now apply (D x (or_introl eq_refl)).
  - apply IH; auto. intros y Hy. apply D. now right.
Qed.
Lemma nodup_numbered {A} (g : nat -> ritem) (l : list A) : (forall a b, g a = g b -> a = b) -> forall k, NoDup (map (fun '(k, _) => g k) (number_from k l)).
Proof.
  intros G. induction l as [|x l IH]; intros k; cbn; constructor; [|apply IH]. intros H. apply in_map_iff in H. destruct H as ((j, y) & E & I).
  apply in_number_from in I. destruct I as (n & -> & _). apply G in E. lia.
Qed.
Lemma emit_from_nodup i l : Forall (fun x => forall j, NoDup (flat (emit_message j x))) l -> forall k, NoDup (flat (emit_from i k l)).
Proof.
  induction 1 as [|x l H _ IH]; intros k; cbn [emit_from]; [constructor|]. rewrite flat_app. apply nodup_app_intro; [apply H|apply IH|].
  intros it I J. apply in_emit_message in I. destruct I as (p & y & _ & A). apply item_at_place in A.
  apply in_emit_from in J. destruct J as (n & z & _ & J). apply in_emit_message in J. destruct J as (p' & y' & _ & A'). apply item_at_place in A'.
  rewrite A, <- !app_assoc in A'. apply app_inv_head in A'. cbn in A'. injection A'. lia.
Qed.
Lemma emit_message_nodup m : forall i, NoDup (flat (emit_message i m)).
Proof.
  induction m as [m IH] using message_tree_ind. intros i. rewrite flat_message.
  assert (X : forall it, In it (flat (emit_from i 0 (m_messages m))) -> item_place it <> i).
  { intros it J. apply in_emit_from in J. destruct J as (n & z & _ & J). apply in_emit_message in J. destruct J as (p' & y' & _ & A'). apply item_at_place in A'.
    rewrite A', <- app_assoc. intros E. rewrite <- (app_nil_r i) in E at 2. apply app_inv_head in E. discriminate. }
  constructor.
  - rewrite !in_app_iff. intros [H|[H|H]]; [now apply X in H|apply in_enums_at in H|apply in_oneofs_at in H]; destruct H as (k & E & _); discriminate.
  - apply nodup_app_intro; [now apply emit_from_nodup|apply nodup_app_intro|].
    + apply nodup_numbered. congruence.
    + apply nodup_numbered. congruence.
    + intros it H K. apply in_enums_at in H. apply in_oneofs_at in K. destruct H as (k & -> & _), K as (k' & E & _). discriminate.
    + intros it H K. apply X in H. apply H. rewrite in_app_iff in K. destruct K as [K|K]; [apply in_enums_at in K|apply in_oneofs_at in K]; now destruct K as (k & -> & _).
Qed.

Lemma nth_pair {A B} (R : A -> B -> Prop) l l' : Forall2 R l l' -> forall k y, nth_error l' k = Some y -> exists x, nth_error l k = Some x /\ R x y.
Proof.
  induction 1 as [|a b l l' H _ IH]; intros [|k] y N; cbn in N; try discriminate; [injection N as <-; exists a; auto|exact (IH k y N)].
Qed.
Theorem C66_own_items : forall check fs search n f d c d',
  read_proto check fs search n f = ROk d -> process c d = GOk d' ->
  NoDup (declared_in (IMod false (emit_file d'))) /\
  forall it, In it (declared_in (IMod false (emit_file d'))) <-> own_item d' it.
Proof.
  intros check fs search n f d c d' R A.
  assert (Al : forall i m, get_message d' i = Some m -> (forall x, In x (m_messages m) -> m_imported x = m_imported m) /\
    (forall e, In e (m_enums m) -> en_imported e = m_imported m) /\ (forall o, In o (m_oneofs m) -> o_imported o = m_imported m)).
  { destruct (read_placed _ _ _ _ _ _ R) as (Rd & _). destruct (read_desc_placed d Rd) as (P & _). intros i m' G.
    pose proof (process_head c d d' A i) as Rm. rewrite G in Rm. inversion Rm as [|m y [_ _ E Ee Eo] X Y]; subst. symmetry in X.
    destruct (P i m X) as (P1 & P2 & P3). rewrite E. split; [|split].
    - intros x I. apply In_nth_error in I. destruct I as (k & Nk).
      assert (Gx : get_message d' (i ++ [k]) = Some x) by (rewrite get_message_eq in G |- *; now apply (get_in_child _ _ m')).
      pose proof (process_head c d d' A (i ++ [k])) as Rx. rewrite Gx in Rx. inversion Rx as [|x0 y [_ _ E' _ _] A' B']; subst.
      rewrite E'. apply P1. symmetry in A'. rewrite get_message_eq in A', X. rewrite (get_in_app _ _ _ _ X) in A' by discriminate. cbn in A'.
      destruct (nth_error (m_messages m) k) eqn:Z; [|discriminate]. injection A' as <-. now apply nth_error_In in Z.
    - intros e I. rewrite Ee in I. apply in_map_iff in I. destruct I as (e0 & <- & I). cbn. now apply P2.
    - intros o I. apply In_nth_error in I. destruct I as (k & Nk). destruct (nth_pair _ _ _ Eo k o Nk) as (o0 & N0 & _ & _ & ->). apply P3. now apply nth_error_In in N0. }
  assert (Im : forall k rest top m, nth_error (d_messages d') k = Some top -> below top rest = Some m -> m_imported m = m_imported top).
  { intros k rest. induction rest as [|j rest IH] using rev_ind; intros top m N B; [cbn in B; congruence|].
    assert (G : get_message d' (k :: rest ++ [j]) = Some m) by (rewrite get_message_eq, get_below, N; exact B).
    destruct (below top rest) as [x|] eqn:Bx.
    - rewrite <- (IH top x N Bx). assert (Gx : get_message d' (k :: rest) = Some x) by (rewrite get_message_eq, get_below, N; exact Bx).
      apply (proj1 (Al _ _ Gx)). rewrite get_message_eq in G, Gx. change (k :: rest ++ [j]) with ((k :: rest) ++ [j]) in G.
      rewrite (get_in_app _ _ _ _ Gx) in G by discriminate. cbn in G. destruct (nth_error (m_messages x) j) eqn:Z; [|discriminate]. injection G as <-. now apply nth_error_In in Z.
    - exfalso. clear -B Bx. revert top B Bx. induction rest as [|a rest IH]; intros top B Bx; [discriminate|]. cbn in B, Bx.
      destruct (nth_error (m_messages top) a) as [y|]; [now apply (IH y)|discriminate]. }
  cbn [declared_in]. fold (flat (emit_file d')). unfold emit_file. rewrite flat_app. split.
  - clear Im Al R A. apply nodup_app_intro.
    + generalize 0%nat as k. induction (d_enums d') as [|e es IH]; intros k; cbn [number_from flat_map]; [constructor|]. rewrite flat_app.
      apply nodup_app_intro; [|apply IH|].
      * destruct (en_imported e); cbn; repeat constructor. intros [].
      * intros it I J. destruct (en_imported e); [destruct I|]. cbn in I. destruct I as [<-|[]]. unfold flat in J. apply in_flat_map in J.
        destruct J as ((n0, x) & I & J). apply in_flat_map in I. destruct I as ((j, e') & I & K). apply in_number_from in I. destruct I as (a & -> & _).
        destruct (en_imported e'); [contradiction|]. destruct K as [K|[]]. injection K as <- <-. cbn in J. destruct J as [J|[]]. injection J. lia.
    + generalize 0%nat as k. induction (d_messages d') as [|m ms IH]; intros k; cbn [number_from flat_map]; [constructor|]. rewrite flat_app.
      apply nodup_app_intro; [|apply IH|].
      * destruct (m_imported m); [constructor|apply emit_message_nodup].
      * intros it I J. destruct (m_imported m); [destruct I|]. apply in_emit_message in I. destruct I as (p & y & _ & I). apply item_at_place in I.
        unfold flat in J. apply in_flat_map in J. destruct J as ((n0, x) & K & J). apply in_flat_map in K. destruct K as ((j, m') & K & L).
        apply in_number_from in K. destruct K as (a & -> & _). destruct (m_imported m'); [contradiction|].
        assert (Z : In it (flat (emit_message [(S k + a)%nat] m'))) by (unfold flat; apply in_flat_map; exists (n0, x); auto).
        apply in_emit_message in Z. destruct Z as (p' & y' & _ & Z). apply item_at_place in Z. rewrite I in Z. cbn in Z. injection Z. lia.
    + intros it I J. unfold flat in I. apply in_flat_map in I. destruct I as ((n0, x) & K & I). apply in_flat_map in K. destruct K as ((j, e') & K & L).
      destruct (en_imported e'); [contradiction|]. destruct L as [L|[]]. injection L as <- <-. cbn in I. destruct I as [<-|[]].
      unfold flat in J. apply in_flat_map in J. destruct J as ((n0, x) & K' & J). apply in_flat_map in K'. destruct K' as ((j', m') & K' & L).
      destruct (m_imported m'); [contradiction|].
      assert (Z : In (IEnum (mkEidx [] j)) (flat (emit_message [j'] m'))) by (unfold flat; apply in_flat_map; exists (n0, x); auto).
      apply in_emit_message in Z. destruct Z as (p' & y' & _ & Z). apply item_at_place in Z. discriminate.
  - assert (Me : forall it, In it (flat (flat_map (fun '(k, e) => if en_imported e then [] else [(en_name e, IEnum (mkEidx [] k))]) (number_from 0 (d_enums d')))) <->
        exists k e, it = IEnum (mkEidx [] k) /\ nth_error (d_enums d') k = Some e /\ en_imported e = false).
    { intros it. unfold flat. rewrite in_flat_map. split.
      - intros ((n0, x) & K & I). apply in_flat_map in K. destruct K as ((j, e') & K & L). apply in_number_from in K. destruct K as (a & -> & K).
        destruct (en_imported e') eqn:E; [contradiction|]. destruct L as [L|[]]. injection L as <- <-. cbn in I. destruct I as [<-|[]]. exists a, e'. auto.
      - intros (k & e & -> & N & E). exists (en_name e, IEnum (mkEidx [] k)). split; [|now left]. apply in_flat_map. exists (k, e). split; [apply in_number_from; now exists k|].
        rewrite E. now left. }
    assert (Mm : forall it, In it (flat (flat_map (fun '(k, m) => if m_imported m then [] else emit_message [k] m) (number_from 0 (d_messages d')))) <->
        exists k rest top m, nth_error (d_messages d') k = Some top /\ m_imported top = false /\ below top rest = Some m /\ item_at (k :: rest) m it).
    { intros it. unfold flat. rewrite in_flat_map. split.
      - intros ((n0, x) & K & I). apply in_flat_map in K. destruct K as ((j, top) & K & L). apply in_number_from in K. destruct K as (a & -> & K).
        destruct (m_imported top) eqn:E; [contradiction|].
        assert (Z : In it (flat (emit_message [(0 + a)%nat] top))) by (unfold flat; apply in_flat_map; exists (n0, x); auto).
        apply in_emit_message in Z. destruct Z as (p & m & B & Z). exists a, p, top, m. auto.
      - intros (k & rest & top & m & N & E & B & Z).
        assert (X : In it (flat (emit_message [k] top))) by (apply in_emit_message; exists rest, m; auto).
        unfold flat in X. apply in_flat_map in X. destruct X as (p & I & X). exists p. split; [|exact X]. apply in_flat_map. exists (k, top).
        split; [apply in_number_from; now exists k|]. now rewrite E. }
    intros it. rewrite in_app_iff, Me, Mm. split.
    + intros [(k & e & -> & N & E)|(k & rest & top & m & N & E & B & Z)]; [exists e; cbn; auto|].
      assert (G : get_message d' (k :: rest) = Some m) by (rewrite get_message_eq, get_below, N; exact B).
      pose proof (Im k rest top m N B) as E'. destruct (Al _ _ G) as (_ & Ale & Alo).
      destruct it as [j|q|j l|]; cbn in Z; [subst j; exists m; split; [exact G|congruence]|..|contradiction].
      * destruct q as (j, l). cbn in Z. destruct Z as (-> & Z). destruct (nth_error (m_enums m) l) as [e|] eqn:X; [|contradiction].
        exists e. cbn [get_enum e_msg e_pos]. unfold get_enum. cbn [e_msg e_pos]. rewrite G. split; [exact X|]. apply nth_error_In in X. rewrite (Ale e X). congruence.
      * destruct Z as (-> & Z). destruct (nth_error (m_oneofs m) l) as [o|] eqn:X; [|contradiction]. exists m, o. split; [exact G|]. split; [exact X|].
        apply nth_error_In in X. rewrite (Alo o X). congruence.
    + assert (T : forall i m, get_message d' i = Some m -> exists k rest top, i = k :: rest /\ nth_error (d_messages d') k = Some top /\ below top rest = Some m).
      { intros i m G. destruct i as [|k rest]; [discriminate|]. rewrite get_message_eq, get_below in G. destruct (nth_error (d_messages d') k) as [top|] eqn:N; [|discriminate].
        exists k, rest, top. auto. }
      destruct it as [i|q|i l|]; cbn [own_item].
      * intros (m & G & E). right. destruct (T i m G) as (k & rest & top & -> & N & B). exists k, rest, top, m. rewrite <- (Im k rest top m N B). cbn. auto.
      * intros (e & G & E). destruct q as (i, l). unfold get_enum in G. cbn [e_msg e_pos] in G. destruct i as [|k0 r0]; [left; exists l, e; auto|right].
        destruct (get_message d' (k0 :: r0)) as [m|] eqn:Gm; [|discriminate]. destruct (T _ m Gm) as (k & rest & top & Ei & N & B). rewrite Ei in *.
        exists k, rest, top, m. rewrite <- (Im k rest top m N B). destruct (Al _ _ Gm) as (_ & Ale & _). rewrite <- (Ale e (nth_error_In _ _ G)).
        cbn. repeat split; auto. congruence.
      * intros (m & o & Gm & G & E). right. destruct (T _ m Gm) as (k & rest & top & Ei & N & B). rewrite Ei in *.
        exists k, rest, top, m. rewrite <- (Im k rest top m N B). destruct (Al _ _ Gm) as (_ & _ & Alo). rewrite <- (Alo o (nth_error_In _ _ G)).
        cbn. repeat split; auto. congruence.
      * intros [].
Qed.
Print Assumptions C66_own_items.

(** ** A case: two files, nested messages, enums and a oneof *)
Definition ex_lib : text := "syntax = ""proto3""; package lib.base; message Id { enum Kind { SMALL = 0; BIG = 1; } Kind kind = 1; } enum Color { RED = 0; }".
Definition ex_app : text := "syntax = ""proto3""; package app; import ""lib.proto""; enum Level { LOW = 0; } message Node { message Part { Level level = 1; lib.base.Id id = 2; } enum State { NEW = 0; } oneof body { Part part = 1; lib.base.Id.Kind kind = 2; Node next = 3; } State state = 4; lib.base.Color color = 5; } message Tree { Node.Part root = 1; }".

Definition two_files (a b : text) : file_system :=
  fun p => match fp_parts p with ["app.proto"] => Some a | ["lib.proto"] => Some b | _ => None end.
Definition read_two (a b : text) : rres := read_proto false (two_files a b) [path_of "."] 3 (path_of "app.proto").
Definition plain_config : config := mkConfig false false false false.
Definition get_ok (r : rres) : file_descriptor := match r with ROk d => d | _ => mkDesc "" Proto2 [] [] "" end.
Definition get_processed (c : config) (d : file_descriptor) : file_descriptor := match process c d with GOk d' => d' | _ => d end.
(** how the file [d] can be checked for being laid out, and the names being kept *)
Definition laid_out_b (d : file_descriptor) : bool :=
  distinct_item (IMod false (emit_file d)) &&
  if String.eqb (d_package d) "" then forallb (fun n => negb (mem_text n (names_below (emit_file d)))) (map fst (emit_file d))
  else negb (mem_text (hd "" (split_on "." (d_package d))) (map fst (emit_file d) ++ names_below (emit_file d))).
Lemma laid_out_ok root d stem g : walk (IMod false root) (own_path (d_package d) stem) = Some (IMod g (emit_file d)) ->
  laid_out_b d = true -> laid_out root d stem.
Proof.
  intros W H. unfold laid_out_b in H. apply Bool.andb_true_iff in H. destruct H as (H1 & H2). constructor.
  - now exists g.
  - now apply distinct_item_ok with false.
  - intros E n Hn Hb. destruct (String.eqb_spec (d_package d) "") as [_|]; [|contradiction]. rewrite forallb_forall in H2. specialize (H2 n Hn).
    apply declared_below_names, mem_text_in in Hb. now rewrite Hb in H2.
  - intros E s l Es Hb. destruct (String.eqb_spec (d_package d) "") as [|_]; [contradiction|]. rewrite Es in H2. cbn [hd] in H2.
    apply declared_names, mem_text_in in Hb. now rewrite Hb in H2.
Qed.
Definition keeps_b (d : file_descriptor) : bool :=
  forallb (fun p => match m_messages (snd p), m_enums (snd p), m_oneofs (snd p) with [], [], [] => true | _, _, _ => String.eqb (sanitize_keyword (m_name (snd p))) (m_name (snd p)) end) (all_messages d).
Lemma keeps_ok d : keeps_b d = true -> keeps_names d.
Proof.
  intros H i m G N. unfold keeps_b in H. rewrite forallb_forall in H. apply all_messages_get in G. specialize (H _ G). cbn [snd] in H. unfold nests in N.
  destruct (m_messages m), (m_enums m), (m_oneofs m); try (apply String.eqb_eq; exact H). now destruct N as [N|[N|N]].
Qed.

Definition ex_d : file_descriptor := Eval vm_compute in get_ok (read_two ex_app ex_lib).
Definition ex_d' : file_descriptor := Eval vm_compute in get_processed plain_config ex_d.
(** app.rs and lib/base.rs, the latter with the items of the imported file *)
Definition ex_lib_items : ritems := Eval vm_compute in
  match nth_error (d_messages ex_d') 2 with Some m => ("Color", IEnum (mkEidx [] 1)) :: emit_message [2%nat] m | None => [] end.
Definition ex_root : ritems := [("app", IMod true (emit_file ex_d')); ("lib", IMod false [("base", IMod true ex_lib_items)])].

Example C66_case :
  read_two ex_app ex_lib = ROk ex_d /\ process plain_config ex_d = GOk ex_d' /\ keeps_names ex_d /\ plain_package (d_package ex_d) /\
  laid_out ex_root ex_d' "app" /\
  (forall j m, get_message ex_d' j = Some m -> message_available ex_root ex_d' j) /\
  (forall q e, get_enum ex_d' q = Some e -> enum_available ex_root ex_d' q) /\
  own_path (d_package ex_d') "app" = segments (d_module ex_d) /\
  written_at ex_d' [0; 0]%nat ["mod_Node"] /\
  (exists m, get_message ex_d' [0; 0]%nat = Some m /\ message_path ex_d' m = ["app"; "mod_Node"; "Part"]) /\
  (exists m, get_message ex_d' [2]%nat = Some m /\ message_path ex_d' m = ["lib"; "base"; "Id"]) /\
  (exists e, get_enum ex_d (mkEidx [2]%nat 0) = Some e /\ qualified_value e = Some ["lib"; "base"; "mod_Id"; "Kind"; "SMALL"]).
Proof.
  assert (S : forall s, mem_text s (map fst (emit_file ex_d') ++ names_below (emit_file ex_d')) = false -> ~ declared (emit_file ex_d') s).
  { intros s H D. apply declared_names, mem_text_in in D. congruence. }
  assert (DL : distinct ex_lib_items) by (apply (distinct_item_ok _ false); vm_compute; reflexivity).
  assert (AM : forall k, message_laid ex_root ex_d' k).
  { intros k m N I. destruct k as [|[|[|k]]]; cbn in N; [injection N as <-; discriminate|injection N as <-; discriminate| |now destruct k].
    injection N as <-. split; [exists "lib", ["base"]; split; [reflexivity|apply S; reflexivity]|].
    exists true, ex_lib_items. split; [reflexivity|]. split; [|exact DL]. vm_compute. tauto. }
  assert (AE : forall k, enum_laid ex_root ex_d' k).
  { intros k m N I. destruct k as [|[|k]]; cbn in N; [injection N as <-; discriminate| |now destruct k].
    injection N as <-. split; [exists "lib", ["base"]; split; [reflexivity|apply S; reflexivity]|].
    exists true, ex_lib_items. split; [reflexivity|]. split; [|exact DL]. now left. }
  assert (AL : forall i, laid ex_root ex_d' i) by (intros [|k l]; [exact I|apply AM]).
  repeat match goal with |- _ /\ _ => split end.
  - vm_compute. reflexivity.
  - vm_compute. reflexivity.
  - apply keeps_ok. vm_compute. reflexivity.
  - right. repeat constructor; discriminate.
  - apply (laid_out_ok _ _ _ true); vm_compute; reflexivity.
  - intros j m _. apply AL.
  - intros q e _. unfold enum_available. destruct (e_msg q); [apply AE|apply AL].
  - reflexivity.
  - eexists. split; [reflexivity|]. split; [reflexivity|]. left. reflexivity.
  - eexists. split; reflexivity.
  - eexists. split; reflexivity.
  - eexists. split; reflexivity.
Qed.

(** ** Where it is false *)

(** a file in the output directory *)
Definition alone (d : file_descriptor) (stem : text) : ritems := [(stem, IMod true (emit_file d))].

(** A message with the name of a Rust keyword: its module is called
    [mod_Result_pb], but the types in it are referred to as [mod_Result::Status]. *)
Theorem C66_keyword_refuted : exists fs f d d' i m q e,
  read_proto false fs [path_of "."] 3 f = ROk d /\ process plain_config d = GOk d' /\
  laid_out (alone d' "app") d' "app" /\ get_message d' i = Some m /\ m_imported m = false /\
  (exists x, In x (m_fields m) /\ f_typ x = TEnum q) /\ get_enum d' q = Some e /\
  enum_path d' e = ["mod_Result"; "Status"] /\ written_at d' i [] /\
  forall it, ~ finds (alone d' "app") d' "app" [] (enum_path d' e) it.
Proof.
  exists (two_files "message Result { enum Status { OK = 0; } optional Status s = 1; }" ""), (path_of "app.proto").
  eexists _, _, [0%nat], _, (mkEidx [0%nat] 0), _. split; [vm_compute; reflexivity|]. split; [vm_compute; reflexivity|].
  split; [apply (laid_out_ok _ _ _ true); vm_compute; reflexivity|]. split; [reflexivity|]. split; [reflexivity|].
  split; [eexists; split; [left; reflexivity|reflexivity]|]. split; [reflexivity|]. split; [vm_compute; reflexivity|].
  split; [eexists; split; [reflexivity|]; split; [reflexivity|left; reflexivity]|].
  intros it (scs & E & R). vm_compute in E. injection E as <-. vm_compute in R. discriminate R.
Qed.
Print Assumptions C66_keyword_refuted.

(** With --single-mod and a package of two parts, only the first part is left
    out of the paths. *)
Theorem C66_single_module_refuted : exists fs f d d' m,
  let c := mkConfig false false false true in
  read_proto false fs [path_of "."] 3 f = ROk d /\ process c d = GOk d' /\
  laid_out (alone d' "app") d' "app" /\ get_message d' [0]%nat = Some m /\ keeps_names d /\
  message_path d' m = ["b"; "M"] /\ written_at d' [1]%nat [] /\
  forall it, ~ finds (alone d' "app") d' "app" [] (message_path d' m) it.
Proof.
  exists (two_files "package a.b; message M { } message N { optional M m = 1; }" ""), (path_of "app.proto").
  eexists _, _, _. cbv zeta. split; [vm_compute; reflexivity|]. split; [vm_compute; reflexivity|].
  split; [apply (laid_out_ok _ _ _ true); vm_compute; reflexivity|]. split; [reflexivity|].
  split; [apply keeps_ok; vm_compute; reflexivity|]. split; [vm_compute; reflexivity|].
  split; [eexists; split; [reflexivity|]; split; [reflexivity|left; reflexivity]|].
  intros it (scs & E & R). vm_compute in E. injection E as <-. vm_compute in R. discriminate R.
Qed.
Print Assumptions C66_single_module_refuted.

(** A package with the name of a keyword: the file is type_pb.rs, the paths say
    [type]. *)
Theorem C66_package_refuted : exists fs f d d' m,
  read_proto false fs [path_of "."] 3 f = ROk d /\ process plain_config d = GOk d' /\ keeps_names d /\
  laid_out (alone d' "type_pb") d' "app" /\ get_message d' [0]%nat = Some m /\
  message_path d' m = ["type"; "M"] /\ written_at d' [1]%nat [] /\
  forall it, ~ finds (alone d' "type_pb") d' "app" [] (message_path d' m) it.
Proof.
  exists (two_files "package type; message M { } message N { optional M m = 1; }" ""), (path_of "app.proto").
  eexists _, _, _. split; [vm_compute; reflexivity|]. split; [vm_compute; reflexivity|].
  split; [apply keeps_ok; vm_compute; reflexivity|].
  split; [apply (laid_out_ok _ _ _ true); vm_compute; reflexivity|]. split; [reflexivity|]. split; [vm_compute; reflexivity|].
  split; [eexists; split; [reflexivity|]; split; [reflexivity|left; reflexivity]|].
  intros it (scs & E & R). vm_compute in E. injection E as <-. vm_compute in R. discriminate R.
Qed.
Print Assumptions C66_package_refuted.

(** Without a package, the path of a message at the top is its name, which an
    inner message may have too: the generated code has a field of the wrong
    message and compiles. *)
Theorem C66_shadowing_refuted : exists fs f d d' m x,
  read_proto false fs [path_of "."] 3 f = ROk d /\ process plain_config d = GOk d' /\ keeps_names d /\
  distinct (emit_file d') /\ get_message d' [0]%nat = Some m /\
  (exists b, get_message d' [1; 1]%nat = Some b /\ In x (m_fields b) /\ f_typ x = TMessage [0]%nat) /\
  written_at d' [1; 1]%nat ["mod_A"] /\
  finds (alone d' "app") d' "app" ["mod_A"] (message_path d' m) (IMessage [1; 0]%nat).
Proof.
  exists (two_files "message N { optional string s = 1; } message A { message N { optional int32 n = 1; } message B { optional .N x = 1; } }" ""), (path_of "app.proto").
  eexists _, _, _, _. split; [vm_compute; reflexivity|]. split; [vm_compute; reflexivity|].
  split; [apply keeps_ok; vm_compute; reflexivity|]. split; [apply (distinct_item_ok _ false); vm_compute; reflexivity|]. split; [reflexivity|].
  split; [eexists; split; [reflexivity|]; split; [left; reflexivity|reflexivity]|].
  split; [eexists; split; [reflexivity|]; split; [reflexivity|left; reflexivity]|].
  eexists. split; vm_compute; reflexivity.
Qed.
Print Assumptions C66_shadowing_refuted.

(** Names that differ in the proto file and are the same in the generated code:
    the module of X and the message mod_X, a oneof and a message, and a message
    that is renamed. *)
Theorem C66_distinct_refuted : forall t,
  In t ["message X { message Y { } } message mod_X { }";
        "message X { oneof a { int32 b = 1; } message OneOfa { } }";
        "message Result { } message Result_pb { }"] ->
  exists d d', read_two t "" = ROk d /\ process plain_config d = GOk d' /\ NoDup (map m_name (d_messages d)) /\
    ~ distinct (emit_file d').
Proof.
  intros t [<-|[<-|[<-|[]]]]; eexists _, _; (split; [vm_compute; reflexivity|]); (split; [vm_compute; reflexivity|]);
    (split; [apply nodup_text_ok; vm_compute; reflexivity|]); intros D.
  - specialize (D [] _ _ eq_refl). vm_compute in D. inversion D as [|? ? _ D1]; subst. inversion D1 as [|? ? N _]; subst. apply N. now left.
  - specialize (D ["mod_X"] _ _ eq_refl). vm_compute in D. inversion D as [|? ? N _]; subst. apply N. now left.
  - specialize (D [] _ _ eq_refl). vm_compute in D. inversion D as [|? ? N _]; subst. apply N. now left.
Qed.
Print Assumptions C66_distinct_refuted.

(** The default of a proto3 enum is written with the module of the proto file,
    also if the generated file is somewhere else: here with --single-mod, which
    is fine for the other paths. *)
Theorem C66_enum_values_refuted : exists fs f d d' q e path v,
  let c := mkConfig false false false true in
  read_proto false fs [path_of "."] 3 f = ROk d /\ process c d = GOk d' /\ keeps_names d /\ no_dot (d_module d) /\
  laid_out (alone d' "app") d' "app" /\ written_at d' [0]%nat [] /\
  (exists m x, get_message d' [0]%nat = Some m /\ In x (m_fields m) /\ f_typ x = TEnum q) /\
  get_enum d q = Some e /\ qualified_value e = Some (path ++ [v]) /\ path = ["a"; "E"] /\
  forall it, ~ finds (alone d' "app") d' "app" [] path it.
Proof.
  exists (two_files "syntax = ""proto3""; package a; enum E { ZERO = 0; } message M { E e = 1; }" ""), (path_of "app.proto").
  eexists _, _, (mkEidx [] 0), _, ["a"; "E"], "ZERO". cbv zeta. split; [vm_compute; reflexivity|]. split; [vm_compute; reflexivity|].
  split; [apply keeps_ok; vm_compute; reflexivity|]. split; [vm_compute; reflexivity|].
  split; [apply (laid_out_ok _ _ _ true); vm_compute; reflexivity|].
  split; [eexists; split; [reflexivity|]; split; [reflexivity|left; reflexivity]|].
  split; [eexists _, _; split; [reflexivity|]; split; [left; reflexivity|reflexivity]|].
  split; [reflexivity|]. split; [reflexivity|]. split; [reflexivity|].
  intros it (scs & E & R). vm_compute in E. injection E as <-. vm_compute in R. discriminate R.
Qed.
Print Assumptions C66_enum_values_refuted.
(** two files: the items of the imported one are not declared *)
Example C66_items_case : read_two ex_app ex_lib = ROk ex_d /\ process plain_config ex_d = GOk ex_d' /\
  own_item ex_d' (IOneof [0]%nat 0) /\ own_item ex_d' (IMessage [0; 0]%nat) /\ get_message ex_d' [2]%nat <> None /\ ~ own_item ex_d' (IMessage [2]%nat) /\
  declared_in (IMod false (emit_file ex_d')) =
    [IEnum (mkEidx [] 0); IMessage [0]; IMessage [0; 0]; IEnum (mkEidx [0] 0); IOneof [0] 0; IMessage [1]]%nat.
Proof.
  split; [vm_compute; reflexivity|]. split; [vm_compute; reflexivity|]. split; [vm_compute; eauto|]. split; [vm_compute; eauto|]. split; [vm_compute; discriminate|].
  split; [|vm_compute; reflexivity]. intros (m & G & E). vm_compute in G. injection G as <-. discriminate.
Qed.
