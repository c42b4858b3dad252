(** Lemmas for C81: the names that the generated code uses mean what C66 says. *)
From Coq Require Import String Ascii Arith Lia Bool.
From Verif Require Import Props_Paths Base Schema Gen Keywords Modules KeywordFacts ModuleFacts Passes GenCheck Cycles CycleFacts BreakFacts IndexFacts
  Pipeline PassFacts ResolveFacts AcceptFacts Parser ProtoText FileText ParserOut Import Paths PathFacts PlaceFacts.
From Verif Require Import RustTypes RustLex RustAst GenAst GenGood RustSem Meaning.
Import Schema StringSyntax.
Local Open Scope string_scope.
Local Open Scope list_scope.

(** ** Names in a crate *)

(** the type that an item is *)
Definition item_type (d : file_descriptor) (it : ritem) : option rtype :=
  match it with
  | IMessage i => Some (YMsg i)
  | IEnum q => Some (YEnum q)
  | IOneof i k => match get_message d i with Some m => option_map (fun o => YOneof (o_name o)) (nth_error (m_oneofs m) k) | None => None end
  | IMod _ _ => None
  end.
(** the module in which code is *)
Definition own_module (d : file_descriptor) (i : midx) : list text :=
  mods d i ++ match get_message d i with Some m => [("mod_" ++ m_name m)%string] | None => [] end.
Definition module_of (d : file_descriptor) (here : scope) : list text :=
  match here with
  | InMsg i => mods d i
  | InOneof i _ => own_module d i
  | InEnum q => match e_msg q with [] => [] | i => own_module d i end
  end.
(** what Rust finds: [root] are the items of the output directory *)
Definition crate_names (root : ritems) (d : file_descriptor) (stem : text) (here : scope) (q : list text) : option rtype :=
  match scopes_at root d stem (module_of d here) with
  | Some scopes => match Paths.resolve scopes q with Some it => item_type d it | None => None end
  | None => None
  end.

(** a name that no type of the library has *)
Definition free_name (n : text) : Prop := primitive n = None /\ constructor_of n = None /\ n <> "Self".
(** The file has no imports and is where [write_proto] puts it (C66, [laid_out]);
    names that would have to be escaped where they are not, and names of the
    library, are not used. *)
Record in_crate (d d' : file_descriptor) (c : config) (f : fpath) (root : ritems) (stem : text) : Prop := mkInCrate {
  ic_parts : Forall (fun p => p <> "") (fp_parts f);
  ic_package : d_package d = "" \/ Forall (fun p => p <> "" /\ sanitize_keyword p = p) (split_on "." (d_package d));
  ic_single : c_single_module c = true -> no_dot (d_module d);
  ic_laid : laid_out root d' stem;
  ic_path : own_path (d_package d') stem = segments (d_module d);
  ic_shadow : forall s l, segments (d_module d) = s :: l -> ~ declared (emit_file d') s;
  ic_messages : forall i m, get_message d' i = Some m -> m_imported m = false /\ free_name (m_name m);
  ic_enums : forall q e, get_enum d' q = Some e -> en_imported e = false /\ free_name (en_name e);
  ic_modules : forall i m, get_message d i = Some m -> m_messages m <> [] \/ m_enums m <> [] \/ m_oneofs m <> [] ->
    sanitize_keyword (m_name m) = m_name m;
  ic_values : forall q e, get_enum d q = Some e -> sanitize_keyword (en_name e) = en_name e /\
    exists v z l, en_fields e = (v, z) :: l /\ sanitize_keyword v = v }.

(** ** The module of an item *)
Lemma inner_walk path : forall items outer g0 g sub, walk (IMod g0 items) path = Some (IMod g sub) ->
  exists outer', inner_scopes items outer path = Some (sub :: outer').
Proof.
  induction path as [|s path IH]; intros items outer g0 g sub W; cbn [inner_scopes].
  - injection W as _ <-. eauto.
  - rewrite walk_cons in W. destruct (Paths.assoc s items) as [[| | |b items']|]; try (destruct path; discriminate W); try discriminate W. exact (IH _ _ b g sub W).
Qed.
Lemma assoc_name {A} n (a : A) l : NoDup (map fst l) -> In (n, a) l -> Paths.assoc n l = Some a.
Proof. exact (PathFacts.assoc_in n a l). Qed.

Section Names.
Variables (check : bool) (fs : file_system) (search : list fpath) (n : nat) (f : fpath) (d d4 : file_descriptor) (c : config) (root : ritems) (stem : text).
Let d' := after_escape c d4.
Hypothesis Read : read_proto check fs search n f = ROk d.
Hypothesis Before : before_escape c d = GOk d4.
Hypothesis Schema : schema_ok d = true.
Hypothesis Crate : in_crate d d' c f root stem.

Lemma accepted : process c d = GOk d'.
Proof. rewrite process_escape, Before. reflexivity. Qed.
Lemma target_items : exists items, glob_target root d' stem = Some items.
Proof.
  exists root. apply glob_target_root. exact (acc_package d c d' accepted (ic_package _ _ _ _ _ _ Crate) (ic_single _ _ _ _ _ _ Crate)).
Qed.
Lemma found_crate : forall place here path it y, module_of d' here = place -> finds root d' stem place path it -> item_type d' it = Some y ->
  crate_names root d' stem here path = Some y.
Proof.
  intros place here path it y E (sc & S & R) T. unfold crate_names. rewrite E, S, R. exact T.
Qed.
(** an item of the module itself *)
Lemma own_name_found : forall here g sub x it y, walk (IMod false (emit_file d')) (module_of d' here) = Some (IMod g sub) -> In (x, it) sub ->
  item_type d' it = Some y -> crate_names root d' stem here [x] = Some y.
Proof.
  intros here g sub x it y W I T. destruct target_items as (outer & O). unfold crate_names, scopes_at. rewrite O.
  destruct (inner_walk _ _ [outer] _ _ _ W) as (outer' & ->).
  assert (A : Paths.assoc x sub = Some it).
  { apply assoc_name; [|exact I]. exact (lo_distinct _ _ _ (ic_laid _ _ _ _ _ _ Crate) _ _ _ W). }
  cbn [Paths.resolve]. rewrite A. exact T.
Qed.
Lemma walk_own : forall i m, get_message d' i = Some m -> m_messages m <> [] \/ m_enums m <> [] \/ m_oneofs m <> [] ->
  exists g, walk (IMod false (emit_file d')) (own_module d' i) = Some (IMod g (sub_items i m)).
Proof.
  intros i m G H. destruct (acc_placed check fs search n f d c d' Read accepted (ic_modules _ _ _ _ _ _ Crate)) as (Pl & Dt).
  destruct (split_index d' Pl Dt i m G) as (k & rest & top & -> & N & B & E & _ & Im).
  destruct (ic_messages _ _ _ _ _ _ Crate _ _ G) as (I & _).
  pose proof (lo_distinct _ _ _ (ic_laid _ _ _ _ _ _ Crate)) as D.
  destruct (walk_below rest false [k] top (emit_file d') m (emit_file_in d' k top N ltac:(congruence)) D B) as (g & items & W & Inc & Di).
  unfold own_module. rewrite G, E, walk_app, W. cbn [app] in Inc. rewrite walk_cons.
  rewrite (assoc_name ("mod_" ++ m_name m)%string (IMod (globs m) (sub_items (k :: rest) m)) items); [exists (globs m); reflexivity| |].
  - now apply distinct_here.
  - apply Inc, emit_mod, H.
Qed.
Lemma places : forall i m, get_message d' i = Some m ->
  written_at d' i (mods d' i) /\ (m_oneofs m <> [] -> written_at d' i (own_module d' i)).
Proof.
  intros i m G. destruct (ic_messages _ _ _ _ _ _ Crate _ _ G) as (I & _). split.
  - exists m. auto.
  - intros O. exists m. unfold own_module. rewrite G. auto.
Qed.
Lemma available : (forall i, message_available root d' i) /\ forall q, enum_available root d' q.
Proof.
  assert (M : forall i, message_available root d' i).
  { intros i. unfold message_available, laid. destruct i as [|k r]; [exact Logic.I|]. intros m N Im. exfalso.
    assert (G : get_message d' [k] = Some m) by (rewrite get_message_eq; cbn; now rewrite N).
    destruct (ic_messages _ _ _ _ _ _ Crate _ _ G). congruence. }
  split; [exact M|]. intros q. unfold enum_available. destruct (e_msg q) as [|a b] eqn:E; [|apply M]. intros e N Im. exfalso.
  destruct (ic_enums _ _ _ _ _ _ Crate (mkEidx [] (e_pos q)) e N). congruence.
Qed.
Lemma paths : forall i place, written_at d' i place ->
  (forall j m, get_message d' j = Some m -> finds root d' stem place (message_path d' m) (IMessage j)) /\
  (forall q e, get_enum d' q = Some e -> finds root d' stem place (enum_path d' e) (IEnum q)) /\
  (forall j m k o, get_message d' j = Some m -> nth_error (m_oneofs m) k = Some o -> finds root d' stem place (oneof_path d' o) (IOneof j k)).
Proof.
  intros i place W. destruct Crate as [P Pk Sg La Pa Sh Im Ie Mo Va]. destruct available as (Av & Ae).
  destruct (C66_paths_partial check fs search n f d c d' root stem Read P accepted Mo Pk Sg La i place W) as (A & B & C0).
  repeat match goal with |- _ /\ _ => split end; intros; auto. now apply (C0 j m).
Qed.
Lemma single_name : forall path x, free_name x -> own_name (path ++ [x]).
Proof. intros [|a [|b path]] x H; [exact H|exact Logic.I|exact Logic.I]. Qed.
Lemma oneof_name_free : forall o, free_name ("OneOf" ++ o_name o)%string.
Proof. intros o. unfold free_name. repeat split; discriminate. Qed.
Lemma in_nth {A} (l : list A) x : In x l -> exists k, nth_error l k = Some x.
Proof. apply In_nth_error. Qed.

Lemma enum_module : forall q e, get_enum d q = Some e -> en_imported e = false -> ~ In "" (split_on "." (en_module e)).
Proof.
  intros q e G Im H. pose proof (schema_enum_of d q e Schema G) as S. unfold schema_enum in S. rewrite !andb_true_iff in S. destruct S as (((_ & S) & _) & _).
  unfold module_ok in S. apply orb_true_iff in S. destruct S as [S|S].
  2: { rewrite forallb_forall in S. specialize (S _ H). discriminate S. }
  apply String.eqb_eq in S. clear H.
  destruct (read_placed _ _ _ _ _ _ Read) as (R & _). destruct (read_desc_placed d R) as (Pl & _).
  unfold get_enum in G. destruct (e_msg q) as [|a b].
  - destruct R as (_ & R). rewrite Forall_forall in R. specialize (R e (nth_error_In _ _ G) Im).
    destruct (acc_module check fs search n f d Read (ic_parts _ _ _ _ _ _ Crate) (ic_package _ _ _ _ _ _ Crate)) as (N & _). apply N. now rewrite <- R.
  - destruct (get_message d (a :: b)) as [m|] eqn:Gm; [|discriminate]. destruct (Pl _ m Gm) as (_ & P & _). destruct (P e (nth_error_In _ _ G)) as (M & _).
    rewrite M in S. unfold child_module in S. destruct (m_module m); discriminate S.
Qed.

Theorem names_in_crate : names_ok d' d4 (crate_names root d' stem).
Proof.
  pose proof (acc_placed check fs search n f d c d' Read accepted (ic_modules _ _ _ _ _ _ Crate)) as (Pl & Dt).
  constructor.
  - intros i m j x G Gx. destruct (places i m G) as (W1 & W2). destruct (paths i _ W1) as (A & _).
    destruct (ic_messages _ _ _ _ _ _ Crate _ _ Gx) as (_ & Fr). split; [now apply single_name|]. split.
    + exact (found_crate _ (InMsg i) _ _ _ eq_refl (A j x Gx) eq_refl).
    + intros o O. assert (Ne : m_oneofs m <> []) by (intros E; rewrite E in O; destruct O). destruct (paths i _ (W2 Ne)) as (A2 & _).
      exact (found_crate _ (InOneof i (o_name o)) _ _ _ eq_refl (A2 j x Gx) eq_refl).
  - intros i m q e G Ge. destruct (places i m G) as (W1 & W2). destruct (paths i _ W1) as (_ & A & _).
    destruct (ic_enums _ _ _ _ _ _ Crate _ _ Ge) as (_ & Fr). split; [now apply single_name|]. split.
    + exact (found_crate _ (InMsg i) _ _ _ eq_refl (A q e Ge) eq_refl).
    + intros o O. assert (Ne : m_oneofs m <> []) by (intros E; rewrite E in O; destruct O). destruct (paths i _ (W2 Ne)) as (_ & A2 & _).
      exact (found_crate _ (InOneof i (o_name o)) _ _ _ eq_refl (A2 q e Ge) eq_refl).
  - intros i m o G O. destruct (places i m G) as (W1 & _). destruct (paths i _ W1) as (_ & _ & A). destruct (in_nth _ _ O) as (k & K).
    split; [apply single_name, oneof_name_free|].
    assert (T : item_type d' (IOneof i k) = Some (YOneof (o_name o))) by (cbn [item_type]; rewrite G, K; reflexivity). split.
    + exact (found_crate _ (InMsg i) _ _ _ eq_refl (A i m k o G K) T).
    + assert (Ne : m_oneofs m <> []) by (intros E; rewrite E in O; destruct O). destruct (walk_own i m G (or_intror (or_intror Ne))) as (g & W).
      exact (own_name_found (InOneof i (o_name o)) g _ _ _ _ W (sub_oneof i m k o K) T).
  - intros q e G. split; [exact (proj2 (ic_enums _ _ _ _ _ _ Crate _ _ G))|]. pose proof G as G0. unfold get_enum in G. destruct q as (i, k). cbn [e_msg e_pos] in G. destruct i as [|a b].
    + apply (own_name_found (InEnum (mkEidx [] k)) false (emit_file d') _ (IEnum (mkEidx [] k))); [reflexivity| |reflexivity].
      apply emit_file_enum; [exact G|]. now destruct (ic_enums _ _ _ _ _ _ Crate _ _ G0).
    + destruct (get_message d' (a :: b)) as [m|] eqn:Gm; [|discriminate].
      destruct (walk_own (a :: b) m Gm) as (g & W). { right. left. intros E. rewrite E in G. destruct k; discriminate. }
      exact (own_name_found (InEnum (mkEidx (a :: b) k)) g _ _ _ _ W (sub_enum (a :: b) m k e G) eq_refl).
  - intros q e' G'. pose proof (process_enum c d d' q accepted) as GA. rewrite G' in GA. destruct (get_enum d q) as [e|] eqn:G; [|discriminate]. injection GA as ->.
    destruct (before_message c d d4 Before) as (_ & _ & _ & R). pose proof G as G4. rewrite <- R in G4.
    destruct (ic_values _ _ _ _ _ _ Crate q e G) as (Ke & v & z & l & Ef & Kv).
    assert (Im : en_imported e = false) by (destruct (ic_enums _ _ _ _ _ _ Crate _ _ G') as (X & _); exact X).
    exists e, v, z, (map (fun p : text * BinNums.Z => (sanitize_keyword (fst p), snd p)) l), l,
      ((if String.eqb (en_module e) "" then [] else split_on "." (en_module e)) ++ [en_name e]).
    assert (Q : qualified_value e = Some (((if String.eqb (en_module e) "" then [] else split_on "." (en_module e)) ++ [en_name e]) ++ [v])).
    { unfold qualified_value. rewrite Ef, <- app_assoc. reflexivity. }
    repeat match goal with |- _ /\ _ => split end; auto.
    + cbn [enum_sanitize_names en_fields]. rewrite Ef. cbn [map fst snd]. now rewrite Kv.
    + apply single_name. destruct (ic_enums _ _ _ _ _ _ Crate _ _ G') as (_ & Fr). cbn [enum_sanitize_names en_name] in Fr. now rewrite Ke in Fr.
    + intros i m Gi. destruct (places i m Gi) as (W1 & _). destruct Crate as [P Pk Sg La Pa Sh Imm Ie Mo Va].
      destruct (C66_enum_values_partial check fs search n f d c d' root stem Read P accepted Mo Pk Sg La Pa Sh i _ W1 q e _ v G (proj2 available q) Ke
                  (enum_module q e G Im) Q) as (F & _).
      exact (found_crate _ (InMsg i) _ _ _ eq_refl F eq_refl).
Qed.
End Names.
