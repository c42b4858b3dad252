(** Property theorem C76: the configurations that the command line and
    [ConfigBuilder] make. *)
From Coq Require Import String Ascii Arith Lia.
From Verif Require Import Base Schema Keywords Modules KeywordFacts ModuleFacts Passes Parser ProtoText ParserOut Pipeline Import
  Props_Import Props_Names Paths Props_Paths PlaceFacts PathFacts Output OutputFacts Props_Output.
Import Schema StringSyntax.
Local Open Scope string_scope.
Local Open Scope list_scope.

(** ** What is claimed *)

(** what is wrong with the arguments of [ConfigBuilder::new]: the first of these
    that applies *)
Inductive rejected (d : disk) (ins : list fpath) (out dir : option fpath) : build_error -> Prop :=
| rej_none : ins = [] -> rejected d ins out dir NoProto
| rej_input l f l' : ins = l ++ f :: l' -> Forall (fun g => path_exists d g = true) l -> path_exists d f = false ->
    rejected d ins out dir (InputFile f)
| rej_many o : ins <> [] -> Forall (fun g => path_exists d g = true) ins -> out = Some o -> dir = None -> (2 <= List.length ins)%nat ->
    rejected d ins out dir OutputMultipleInputs
| rej_dir p : ins <> [] -> Forall (fun g => path_exists d g = true) ins -> out = None -> dir = Some p -> is_dir d p = false ->
    rejected d ins out dir (OutputDirectory p)
| rej_both o p : ins <> [] -> Forall (fun g => path_exists d g = true) ins -> out = Some o -> dir = Some p ->
    rejected d ins out dir OutputAndOutputDir.
(** arguments that are fine *)
Definition accepted (d : disk) (ins : list fpath) (out dir : option fpath) : Prop :=
  ins <> [] /\ Forall (fun g => path_exists d g = true) ins /\
  match out, dir with
  | None, None => True
  | Some _, None => List.length ins = 1%nat
  | None, Some p => is_dir d p = true
  | Some _, Some _ => False
  end.

(** the directories that are searched for imports: those asked for, in this order,
    and the current directory, last unless it was asked for *)
Definition searched (asked paths : list fpath) : Prop :=
  (In (path_of ".") asked /\ paths = asked) \/ (~ In (path_of ".") asked /\ paths = asked ++ [path_of "."]).

(** the output path for the input [stem].proto in [dir] *)
Inductive goes_to (d : disk) (o : options) (dir : fpath) (stem : text) : fpath -> Prop :=
| goes_beside : o_OUTPUT o = None -> o_OUTPUT_DIR o = None -> goes_to d o dir stem (sub dir (stem ++ ".rs")%string)
| goes_dir s : o_OUTPUT o = None -> o_OUTPUT_DIR o = Some s -> goes_to d o dir stem (sub (path_of s) (stem ++ ".rs")%string)
| goes_file s : o_OUTPUT o = Some s -> o_OUTPUT_DIR o = None -> is_dir d (path_of s) = false -> goes_to d o dir stem (path_of s)
| goes_file_dir s : o_OUTPUT o = Some s -> o_OUTPUT_DIR o = None -> is_dir d (path_of s) = true ->
    goes_to d o dir stem (sub (path_of s) (stem ++ ".rs")%string).

(** each option is where the generator looks for it *)
Record options_reach (o : options) (c : gen_config) : Prop := mkReach {
  or_single : c_single_module (g_passes c) = o_SINGLE_MOD o;
  or_cycle : c_error_cycle (g_passes c) = o_CYCLE o;
  or_cow : c_dont_use_cow (g_passes c) = o_DONT_USE_COW o;
  or_deprecated : c_add_deprecated_fields (g_passes c) = o_ADD_DEPRECATED_FIELDS o;
  or_no_output : g_no_output c = o_NO_OUTPUT o;
  or_headers : g_headers c = negb (o_NO_HEADERS o);
  or_derive : String.concat "," (g_derive c) = (match o_CUSTOM_STRUCT_DERIVE o with Some s => s | None => "" end) /\
    Forall (fun x => contains_char "," x = false) (g_derive c);
  or_repr : g_repr c = o_CUSTOM_REPR o;
  or_owned : g_owned c = o_OWNED o;
  or_nostd : g_nostd c = o_NOSTD o;
  or_hashbrown : g_hashbrown c = o_HASHBROWN o;
  or_info : g_gen_info c = o_GEN_INFO o;
  or_getters : g_getters c = o_GENERATE_GETTERS o;
  or_search : searched (map path_of (o_INCLUDE_PATH o)) (g_search c) }.

(** ** Proofs *)
Lemma find_exists d ins : match find (fun f => negb (path_exists d f)) ins with
  | Some f => exists l l', ins = l ++ f :: l' /\ Forall (fun g => path_exists d g = true) l /\ path_exists d f = false
  | None => Forall (fun g => path_exists d g = true) ins
  end.
Proof.
  induction ins as [|f l IH]; cbn; [constructor|]. destruct (path_exists d f) eqn:E; cbn.
  - destruct (find _ l) as [g|].
    + destruct IH as (a & b & -> & F & N). exists (f :: a), b. repeat match goal with |- _ /\ _ => split end; auto.
    + now constructor.
  - exists [], l. auto.
Qed.
Lemma with_current_ok l : searched l (with_current l).
Proof.
  unfold searched, with_current. destruct (existsb _ l) eqn:E.
  - apply existsb_exists in E. destruct E as (x & I & E). destruct (path_eqb_spec (path_of ".") x) as [<-|]; [|discriminate]. now left.
  - right. split; [|reflexivity]. intros I. rewrite <- Bool.not_true_iff_false in E. apply E. apply existsb_exists. exists (path_of "."). split; [exact I|apply path_eqb_refl].
Qed.

(** [ConfigBuilder::new] accepts the right arguments, and says what is wrong with
    the others. *)
Theorem C76_new : forall d ins out dir includes,
  (forall e, new_builder d ins out dir includes = inr e <-> rejected d ins out dir e) /\
  (accepted d ins out dir <-> exists b, new_builder d ins out dir includes = inl b) /\
  (forall b, new_builder d ins out dir includes = inl b ->
     b_in_files b = ins /\ b_out_file b = match out with Some o => Some o | None => dir end /\ searched includes (b_include_paths b) /\
     b_headers b = true /\ b_single_module b = false /\ b_no_output b = false /\ b_error_cycle b = false /\ b_dont_use_cow b = false /\
     b_derive b = [] /\ b_repr b = None /\ b_owned b = false /\ b_nostd b = false /\ b_hashbrown b = false /\ b_gen_info b = false /\
     b_add_deprecated_fields b = false /\ b_getters b = false).
Proof.
  intros d ins out dir includes. unfold new_builder, accepted. pose proof (find_exists d ins) as F.
  destruct ins as [|i ins].
  { split; [|split; [|discriminate]].
    - intros e. split; [intros [= <-]; now constructor|]. intros [| | | |]; try congruence. now apply app_cons_not_nil in H.
    - split; [intros (A & _); congruence|intros (b & H); discriminate]. }
  destruct (find _ (i :: ins)) as [f|].
  { destruct F as (l & l' & E & Fl & N).
    assert (U : forall g, path_exists d g = false -> In g (i :: ins) -> ~ Forall (fun g => path_exists d g = true) (i :: ins)).
    { intros g Ng Ig X. rewrite Forall_forall in X. specialize (X g Ig). congruence. }
    assert (If : In f (i :: ins)) by (rewrite E; apply in_elt). split; [|split; [|discriminate]].
    - intros e. split; [intros [= <-]; exact (rej_input _ _ _ _ l f l' E Fl N)|]. intros [Hn|l1 g l1' E1 F1 N1|o Hn Fa|p Hn Fa|o p Hn Fa]; try congruence; try (now apply (U f N If) in Fa).
      f_equal. f_equal. rewrite E in E1. clear -E1 Fl F1 N N1. revert l1 E1 F1. induction l as [|x l IH]; intros [|y l1] E1 F1; cbn in E1; injection E1 as E1 E2.
      + exact E1.
      + subst y. inversion F1. congruence.
      + subst x. inversion Fl. congruence.
      + inversion Fl. inversion F1. eauto.
    - split; [intros (_ & X & _); now apply (U f N If) in X|intros (b & H); discriminate]. }
  unfold choose_output. destruct out as [o|], dir as [p|].
  - split; [|split; [|discriminate]].
    + intros e. split; [intros [= <-]; now apply (rej_both _ _ _ _ o p)|]. intros [Hn|l g l' E Fl N| | |]; try congruence.
      rewrite E, Forall_forall in F. rewrite F in N by apply in_elt. discriminate.
    + split; [intros (_ & _ & [])|intros (b & H); discriminate].
  - destruct (Nat.ltb_spec 1 (List.length (i :: ins))) as [L|L].
    + split; [|split; [|discriminate]].
      * intros e. split; [intros [= <-]; now apply (rej_many _ _ _ _ o)|]. intros [Hn|l g l' E Fl N| | |]; try congruence.
        rewrite E, Forall_forall in F. rewrite F in N by apply in_elt. discriminate.
      * split; [intros (_ & _ & X); lia|intros (b & H); discriminate].
    + split; [|split].
      * intros e. split; [discriminate|]. intros [Hn|l g l' E Fl N|o' Hn Fa E1 E2 L'| |]; try congruence; [|lia].
        rewrite E, Forall_forall in F. rewrite F in N by apply in_elt. discriminate.
      * split; [intros _; eauto|]. intros _. split; [discriminate|]. split; [exact F|]. cbn in L |- *. lia.
      * intros b [= <-]. cbn. repeat match goal with |- _ /\ _ => split end; try reflexivity. apply with_current_ok.
  - destruct (is_dir d p) eqn:Dp.
    + split; [|split].
      * intros e. split; [discriminate|]. intros [Hn|l g l' E Fl N| | |]; try congruence.
        rewrite E, Forall_forall in F. rewrite F in N by apply in_elt. discriminate.
      * split; [intros _; eauto|]. intros _. split; [discriminate|]. now split.
      * intros b [= <-]. cbn. repeat match goal with |- _ /\ _ => split end; try reflexivity. apply with_current_ok.
    + split; [|split; [|discriminate]].
      * intros e. split; [intros [= <-]; now apply rej_dir|]. intros [Hn|l g l' E Fl N| | |]; try congruence.
        rewrite E, Forall_forall in F. rewrite F in N by apply in_elt. discriminate.
      * split; [intros (_ & _ & X); congruence|intros (b & H); discriminate].
  - split; [|split].
    + intros e. split; [discriminate|]. intros [Hn|l g l' E Fl N| | |]; try congruence.
      rewrite E, Forall_forall in F. rewrite F in N by apply in_elt. discriminate.
    + split; [intros _; eauto|]. intros _. split; [discriminate|]. now split.
    + intros b [= <-]. cbn. repeat match goal with |- _ /\ _ => split end; try reflexivity. apply with_current_ok.
Qed.
Print Assumptions C76_new.

(** a path with an extension *)
Definition named (p : fpath) (dir : fpath) (stem ext : text) : Prop :=
  p = sub dir (stem ++ "." ++ ext)%string /\ stem <> "" /\ contains_char "." ext = false.
Lemma path_of_parts s : Forall (fun x => x <> "" /\ x <> "." /\ contains_char "/" x = false) (fp_parts (path_of s)).
Proof.
  apply Forall_forall. intros x I. unfold path_of in I. cbn [fp_parts] in I. apply filter_In in I. destruct I as (I & E).
  apply Bool.andb_true_iff in E. destruct E as (E1 & E2). destruct (String.eqb_spec x ""); [discriminate|]. destruct (String.eqb_spec x "."); [discriminate|].
  split; [assumption|]. split; [assumption|]. pose proof (split_on_no_char "/" s) as F. rewrite Forall_forall in F. now apply F.
Qed.
Lemma extension_named s ext : extension_matches s ext = true -> exists dir stem, named (path_of s) dir stem ext /\ contains_char "/" stem = false.
Proof.
  unfold extension_matches, extension, file_name. intros H. pose proof (path_of_parts s) as P. destruct (path_of s) as [a ps]. cbn [fp_parts] in *.
  destruct ps as [|z zs _] using rev_ind; [discriminate|]. destruct (zs ++ [z]) as [|y ys] eqn:E; [now destruct zs|]. rewrite <- E in *.
  rewrite last_last in H. apply Forall_app in P. destruct P as (_ & P). inversion P as [|? ? (Pz & _ & Ps) _]; subst.
  destruct (String.eqb z ".."); [discriminate|]. destruct (rfind_char "." z) as [i|] eqn:R; [|discriminate].
  destruct (ModuleFacts.rfind_some _ _ _ R) as (u & v & Ez & L & N). destruct i as [|i]; [discriminate|].
  destruct (String.eqb_spec (slice (S i + 1) (String.length z) z) ext) as [Ex|]; [|discriminate].
  assert (V : slice (S i + 1) (String.length z) z = v).
  { rewrite Ez, <- L. apply slice_app_r. }
  rewrite V in Ex. subst v. exists (mkPath a zs), u. unfold named, sub. cbn [fp_absolute fp_parts]. rewrite Ez. split; [split; [reflexivity|]|].
  - split; [|exact N]. intros ->. discriminate.
  - rewrite Ez, contains_char_app in Ps. now apply Bool.orb_false_iff in Ps.
Qed.

Lemma rejoin c s : String.concat (String c "") (split_on c s) = s.
Proof.
  induction s as [|a s IH]; [reflexivity|]. cbn [split_on]. pose proof (split_on_nonempty c s) as N. destruct (split_on c s) as [|p ps] eqn:E; [contradiction|].
  destruct (Ascii.eqb_spec a c) as [->|]; [cbn; now rewrite <- IH|]. destruct ps; cbn in *; now rewrite <- IH.
Qed.
Lemma ext_dots stem ext : stem <> "" -> contains_char "." ext = false -> ext <> "" -> (stem ++ "." ++ ext)%string <> "..".
Proof.
  intros A B C E. destruct stem as [|x [|y stem]]; [contradiction| |]; cbn in E.
  - injection E as _ E. now subst ext.
  - injection E as _ _ E. now destruct stem.
Qed.
Lemma with_ext dir stem ext e : named (sub dir (stem ++ "." ++ ext)%string) dir stem ext -> ext <> "" -> plain (stem ++ "." ++ e)%string ->
  with_extension (sub dir (stem ++ "." ++ ext)%string) e = sub dir (stem ++ "." ++ e)%string.
Proof.
  intros (_ & N & D) Ne Pl. pose proof (ext_dots stem ext N D Ne) as X. unfold with_extension.
  rewrite file_stem_sub by exact X. change ("." ++ ext)%string with (String "." ext). rewrite (ModuleFacts.rfind_app "." stem ext D).
  destruct (String.length stem) as [|n] eqn:L; [now destruct stem|]. rewrite <- L, slice_split. unfold with_file_name.
  change (String "." ext) with ("." ++ ext)%string. rewrite file_name_sub by exact X. rewrite pop_sub. now apply push_plain.
Qed.
Lemma plain_ext stem e : stem <> "" -> contains_char "/" stem = false -> contains_char "/" e = false -> e <> "" -> plain (stem ++ "." ++ e)%string.
Proof.
  intros A B C D. split; [now destruct stem|]. split.
  - destruct stem as [|x [|y stem]]; [contradiction|intros [= _ E]|intros [=]]; now subst.
  - rewrite contains_char_app, B. cbn. now rewrite C.
Qed.

Lemma valid_input o i : options_valid o = true -> In i (o_INPUT o) -> extension_matches i "proto" = true.
Proof.
  unfold options_valid. intros V I. apply Bool.andb_true_iff in V. destruct V as (V & _). destruct (o_INPUT o) as [|x l]; [discriminate|].
  rewrite forallb_forall in V. now apply V.
Qed.

(** what [configure] does to one input *)
Definition configured (d : disk) (o : options) (i : text) (c : gen_config) : Prop :=
  g_in c = path_of i /\ options_reach o c /\
  exists dir stem, path_of i = sub dir (stem ++ ".proto")%string /\ stem <> "" /\ contains_char "/" stem = false /\ goes_to d o dir stem (g_out c).

(** The command line makes one configuration for each input, in this order; each
    option is where the generator looks for it; the output path is as documented.
    It does not panic. *)
Theorem C76_configure : forall d o, options_valid o = true ->
  configure d o <> inr None /\
  (forall e, configure d o = inr (Some e) <->
     rejected d (map path_of (o_INPUT o)) (option_map path_of (o_OUTPUT o)) (option_map path_of (o_OUTPUT_DIR o)) e) /\
  (forall cs, configure d o = inl cs ->
     accepted d (map path_of (o_INPUT o)) (option_map path_of (o_OUTPUT o)) (option_map path_of (o_OUTPUT_DIR o)) /\
     Forall2 (configured d o) (o_INPUT o) cs).
Proof.
  intros d o V. destruct (C76_new d (map path_of (o_INPUT o)) (option_map path_of (o_OUTPUT o)) (option_map path_of (o_OUTPUT_DIR o)) (map path_of (o_INCLUDE_PATH o))) as (Er & Ac & Bu).
  unfold configure. destruct (new_builder d _ _ _ _) as [b|e].
  - destruct (Bu b eq_refl) as (B1 & B2 & B3 & _). set (b' := mkBuilder _ _ _ _ _ _ _ _ _ _ _ _ _ _ _ _).
    assert (X : forall l, incl l (o_INPUT o) -> exists cs, build_configs d b' (map path_of l) = Some cs /\ Forall2 (configured d o) l cs).
    { induction l as [|i l IH]; intros I; [exists []; now split|]. destruct IH as (cs & E & F); [intros x Ix; apply I; now right|].
      assert (Ii : In i (o_INPUT o)) by (apply I; now left). destruct (extension_named i "proto" (valid_input o i V Ii)) as (dir & stem & Nm & Sl).
      pose proof Nm as (Ep & Ne & _). assert (Pl : plain (stem ++ ".rs")%string) by (now apply (plain_ext stem "rs")).
      assert (W : with_extension (path_of i) "rs" = sub dir (stem ++ ".rs")%string).
      { rewrite Ep in Nm |- *. apply (with_ext dir stem "proto" "rs"); [exact Nm|discriminate|exact Pl]. }
      assert (G : exists out, out_of d (b_out_file b') (path_of i) = Some out /\ goes_to d o dir stem out).
      { unfold out_of. rewrite W. cbn [b' b_out_file]. rewrite B2. destruct (Ac) as (_ & Ac'). destruct (Ac' (ex_intro _ b eq_refl)) as (_ & _ & Acc).
        rewrite (file_name_sub dir (stem ++ ".rs")%string (rs_dots stem)).
        destruct (o_OUTPUT o) as [s|] eqn:Eo, (o_OUTPUT_DIR o) as [s'|] eqn:Ed; cbn [option_map] in Acc |- *.
        - destruct Acc.
        - destruct (is_dir d (path_of s)) eqn:Ds; eexists; (split; [reflexivity|]); [rewrite (push_plain _ _ Pl); now apply goes_file_dir|now apply goes_file].
        - rewrite Acc. eexists. split; [reflexivity|]. rewrite (push_plain _ _ Pl). now apply goes_dir.
        - eexists. split; [reflexivity|]. now apply goes_beside. }
      destruct G as (out & G1 & G2). exists (config_for b' (path_of i) out :: cs). cbn [map build_configs]. rewrite G1, E. split; [reflexivity|].
      constructor; [|exact F]. split; [reflexivity|]. split; [|exists dir, stem; now repeat match goal with |- _ /\ _ => split end].
      constructor; cbn; try reflexivity; [|exact B3]. split; [apply rejoin|]. apply split_on_no_char. }
    destruct (X (o_INPUT o) (incl_refl _)) as (cs & E & F). unfold build. replace (b_in_files b') with (map path_of (o_INPUT o)) by (symmetry; exact B1). rewrite E.
    split; [discriminate|]. split; [|].
    + intros e. split; [discriminate|]. intros R. apply Er in R. discriminate.
    + intros cs' [= <-]. split; [apply Ac; eauto|exact F].
  - split; [discriminate|]. split; [|discriminate]. intros e'. rewrite <- Er. split; congruence.
Qed.
Print Assumptions C76_configure.

Lemma Forall2_in A B (R : A -> B -> Prop) l l' : Forall2 R l l' ->
  (forall x, In x l -> exists y, In y l' /\ R x y) /\ (forall y, In y l' -> exists x, In x l /\ R x y).
Proof.
  induction 1 as [|x y l l' H F (IH1 & IH2)]; [split; intros ? []|]. split; intros z [<-|I].
  - exists y. split; [now left|exact H].
  - destruct (IH1 z I) as (w & Iw & Rw). exists w. split; [now right|exact Rw].
  - exists x. split; [now left|exact H].
  - destruct (IH2 z I) as (w & Iw & Rw). exists w. split; [now right|exact Rw].
Qed.
Lemma sub_base c p s : g_out c = sub p s -> s <> ".." -> base c = p.
Proof. intros E N. unfold base. rewrite E, (file_name_sub p s N). apply pop_sub. Qed.
Lemma proto_not_rs p stem : ~ ends_rs (sub p (stem ++ ".proto")%string).
Proof.
  intros (q & s & E). apply sub_inj in E. destruct E as (_ & E).
  assert (X : forall a b : text, (a ++ ".proto")%string = (b ++ ".rs")%string -> False).
  { clear. intros a b H. apply (f_equal (fun x => String.get (String.length x - 1) x)) in H. rewrite !length_append in H.
    assert (G : forall u v, v <> "" -> String.get (String.length u + String.length v - 1) (u ++ v)%string = String.get (String.length v - 1) v).
    { clear. induction u as [|x u IH]; intros v N; [reflexivity|]. cbn [String.append String.length]. rewrite <- IH by exact N.
      destruct v as [|y v]; [contradiction|]. cbn [String.length]. replace (S (String.length u) + S (String.length v) - 1)%nat with (S (String.length u + S (String.length v) - 1)) by lia. reflexivity. }
    rewrite !G in H by discriminate. cbn in H. discriminate. }
  exact (X _ _ E).
Qed.

(** ** From the command line to the output directory *)

(** nothing is in the directory [p] *)
Definition empty_dir (d : disk) (p : fpath) : Prop :=
  is_dir d p = true /\ forall l x, path_exists d (sub (subs p l) x) = false.
(** a path below [p] *)
Definition below (p q : fpath) : Prop := exists l x, q = sub (subs p l) x.

Lemma cli_ready check d o cs s : closed d -> options_valid o = true -> o_OUTPUT_DIR o = Some s -> empty_dir d (path_of s) ->
  configure d o = inl cs -> ready check d cs /\ (forall c, In c cs -> base c = path_of s) /\ o_OUTPUT o = None.
Proof.
  intros Cl V Ed (Ds & Em) Co. destruct (C76_configure d o V) as (_ & _ & X). destruct (X cs Co) as (Acc & F). destruct (Forall2_in _ _ _ _ _ F) as (_ & Fc).
  assert (No : o_OUTPUT o = None).
  { destruct Acc as (_ & _ & Acc). rewrite Ed in Acc. cbn in Acc. now destruct (o_OUTPUT o). }
  assert (Ba : forall c, In c cs -> base c = path_of s /\ ~ ends_rs (g_in c) /\ Forall (fun x => x <> "") (fp_parts (g_out c))).
  { intros c I. destruct (Fc c I) as (i & Ii & Gi & _ & dir & stem & Ep & Ne & Sl & G). rewrite Gi, Ep.
    inversion G as [E1 E2|s' E1 E2 Eg|s' E1 E2 E3 Eg|s' E1 E2 E3 Eg]; try congruence. rewrite Ed in E2. injection E2 as <-.
    split; [apply (sub_base c _ _ (eq_sym Eg)), rs_dots|]. split; [apply proto_not_rs|]. cbn. apply Forall_app. split.
    - eapply Forall_impl; [|apply path_of_parts]. cbn. now intros x (A & _).
    - constructor; [|constructor]. now destruct stem. }
  split; [|split; [intros c I; now destruct (Ba c I)|exact No]]. constructor.
  - exact Cl.
  - intros c I. now destruct (Ba c I) as (_ & B & _).
  - intros c I. destruct (Ba c I) as (A & _ & B). rewrite A. now split.
  - intros c ds st l l' I P E. destruct (Ba c I) as (-> & _). specialize (Em l "mod.rs"). unfold path_exists in Em. apply Bool.orb_false_iff in Em.
    destruct Em as (E1 & E2). split; [exact E1|]. intros t Et. unfold file_exists in E2. now rewrite Et in E2.
  - intros c ds st l x l' I P E Y. destruct (Ba c I) as (Eb & _). rewrite Eb, (Em l x) in Y. discriminate.
Qed.

(** With an empty output directory: after success the code of each input is found
    through the module path of its package, starting at the mod.rs file of that
    directory; no matter how it ends, no file and no directory elsewhere changes. *)
Theorem C76_output_directory_partial : forall render check fuel o d s r d',
  closed d -> options_valid o = true -> o_OUTPUT_DIR o = Some s -> empty_dir d (path_of s) ->
  cli render check fuel o d = (r, d') ->
  (forall q, ~ below (path_of s) q -> dk_file d' q = dk_file d q /\ is_dir d' q = is_dir d q) /\
  (r = inl WOk -> o_NO_OUTPUT o = false -> forall i, In i (o_INPUT o) ->
     exists p dirs stem, content check (dk_file d) (path_of i) p /\
       (segments (if o_SINGLE_MOD o then "" else package_of p) = [] /\ dirs = [] \/
        exists last, segments (if o_SINGLE_MOD o then "" else package_of p) = dirs ++ [last] /\ stem = sanitize_segment last) /\
       leads_to d' (path_of s) (dirs ++ [stem]) (sub (subs (path_of s) dirs) (stem ++ ".rs")%string)).
Proof.
  intros render check fuel o d s r d' Cl V Ed Em H. unfold cli in H. destruct (configure d o) as [cs|[e|]] eqn:Co.
  2:{ injection H as <- <-. split; [auto|discriminate]. }
  2:{ injection H as <- <-. split; [auto|discriminate]. }
  destruct (run render check fuel cs d) as (w, d1) eqn:Rn. injection H as <- <-.
  destruct (cli_ready check d o cs s Cl V Ed Em Co) as (R & Ba & No). split.
  - destruct (C77_frame_partial render check fuel cs d w d1 R Rn) as (F1 & F2 & F3). intros q N. split.
    + destruct (dk_file d1 q) as [t1|] eqn:T1; destruct (dk_file d q) as [t|] eqn:T; try reflexivity;
        [destruct (String.eqb_spec t1 t) as [->|Nt]; [reflexivity|]| |].
      all: exfalso; apply N; destruct (F1 q) as (_ & c & dirs & stem & I & P & Q); [rewrite T1, T; congruence|].
      all: destruct Q as [->|(l & l' & -> & ->)]; unfold output_file; rewrite (Ba c I); eexists _, _; reflexivity.
    + destruct (is_dir d q) eqn:Dq; [now apply F2|]. destruct (is_dir d1 q) eqn:Dq1; [|reflexivity]. destruct (F3 q Dq1) as [E|(c & ds & st & l & x & l' & I & P & E & ->)]; [congruence|].
      exfalso. apply N. exists l, x. now rewrite (Ba c I), subs_snoc.
  - intros [= ->] Dry i Ii. destruct (C76_configure d o V) as (_ & _ & X). destruct (X cs Co) as (_ & F). destruct (Forall2_in _ _ _ _ _ F) as (Fi & _).
    destruct (Fi i Ii) as (c & Ic & Gi & Rc & _). destruct (C77_reachable_partial render check fuel cs d d1 R Rn c Ic) as (dirs & stem & (p & C & P) & L).
    rewrite (or_no_output _ _ Rc) in L. specialize (L Dry). rewrite (Ba c Ic) in L. unfold output_file in L. rewrite (Ba c Ic) in L.
    exists p, dirs, stem. rewrite Gi in C. split; [exact C|]. split; [|exact L]. unfold counts in P. rewrite (or_single _ _ Rc) in P.
    inversion P as [st S G|ds last S]; subst; [left; now split|right; now exists last].
Qed.
Print Assumptions C76_output_directory_partial.

(** ** Cases *)
Definition plain_options (ins : list text) (out dir : option text) : options :=
  mkOptions ins out dir [] false false false false None None false false false false false false false.
Definition full_options : options :=
  mkOptions ["a/m.proto"; "n.proto"] None (Some "out") ["inc"] false false true true (Some "Eq,Hash") (Some "C") true true true true true true true.
Definition case_disk : disk :=
  small_disk ["a"; "out"] [("a/m.proto", "package p.q; message M { }"); ("n.proto", "message N { }")].
Definition case_configs : list gen_config := Eval vm_compute in match configure case_disk full_options with inl l => l | _ => [] end.
Lemma pair_snd {A B} (x : A * B) a : fst x = a -> x = (a, snd x).
Proof. destruct x. cbn. now intros ->. Qed.
Lemma cli_run render check fuel o d cs : configure d o = inl cs ->
  cli render check fuel o d = (inl (fst (run render check fuel cs d)), snd (run render check fuel cs d)).
Proof. intros E. unfold cli. rewrite E. now destruct (run render check fuel cs d). Qed.
Lemma run_of (x : wres * disk) d' : (@inl wres build_error (fst x), snd x) = (inl WOk, d') -> x = (WOk, d').
Proof. destruct x as (w, e). cbn. congruence. Qed.
Lemma case_run check : fst (cli names_of check 2 full_options case_disk) = inl WOk /\
  dk_file (snd (cli names_of check 2 full_options case_disk)) (path_of "out/p/q.rs") = Some "M" /\
  dk_file (snd (cli names_of check 2 full_options case_disk)) (path_of "out/n.rs") = Some "N".
Proof. destruct check; split; [|split| |split]; vm_compute; reflexivity. Qed.
Example C76_case : forall check, exists cs d',
  closed case_disk /\ options_valid full_options = true /\ empty_dir case_disk (path_of "out") /\
  configure case_disk full_options = inl cs /\ map g_in cs = [path_of "a/m.proto"; path_of "n.proto"] /\
  map g_out cs = [path_of "out/m.rs"; path_of "out/n.rs"] /\
  map g_derive cs = [["Eq"; "Hash"]; ["Eq"; "Hash"]] /\ map g_search cs = [[path_of "inc"; path_of "."]; [path_of "inc"; path_of "."]] /\
  cli names_of check 2 full_options case_disk = (inl WOk, d') /\
  dk_file d' (path_of "out/p/q.rs") = Some "M" /\ dk_file d' (path_of "out/n.rs") = Some "N" /\
  leads_to d' (path_of "out") ["p"; "q"] (path_of "out/p/q.rs") /\ leads_to d' (path_of "out") ["n"] (path_of "out/n.rs").
Proof.
  intros check. assert (Cl : closed case_disk) by (apply small_closed; vm_compute; reflexivity).
  assert (Em : empty_dir case_disk (path_of "out")).
  { split; [reflexivity|]. intros l x. unfold path_exists. rewrite is_dir_sub. unfold case_disk, small_disk, file_exists. cbn [dk_dir dk_file existsb find fst].
    repeat match goal with |- context [path_eqb ?a ?b] => destruct (path_eqb_spec a b) as [E|_];
      [exfalso; cbn in E; injection E as E; apply (f_equal (@List.length _)) in E || idtac; cbn in E; try discriminate; destruct l; discriminate|] end. reflexivity. }
  assert (Co : configure case_disk full_options = inl case_configs) by (vm_compute; reflexivity).
  destruct (case_run check) as (Y0 & Y2 & Y3). apply pair_snd in Y0. pose proof Y0 as Y1. revert Y1 Y2 Y3. clear Y0.
  generalize (snd (cli names_of check 2 full_options case_disk)). intros d' Y1 Y2 Y3. exists case_configs, d'.
  assert (V : options_valid full_options = true) by reflexivity.
  destruct (cli_ready check case_disk full_options case_configs "out" Cl V eq_refl Em Co) as (R & Ba & _).
  assert (Rn : run names_of check 2 case_configs case_disk = (WOk, d')).
  { rewrite (cli_run names_of check 2 full_options case_disk case_configs Co) in Y1. exact (run_of _ _ Y1). }
  assert (L : forall c ds st b f, In c case_configs -> plan check case_disk c ds st -> g_no_output c = false -> base c = b -> output_file c ds st = f ->
    leads_to d' b (ds ++ [st]) f).
  { intros c ds st b f I P No <- <-. destruct (C77_reachable_partial names_of check 2 case_configs case_disk d' R Rn c I) as (ds' & st' & P' & L).
    destruct (plan_fun _ _ _ _ _ _ _ P P') as (-> & ->). now apply L. }
  repeat match goal with |- _ /\ _ => split end; try assumption; try reflexivity.
  - apply (L (nth 0 case_configs (to_dir "" "" false)) ["p"] "q"); [now left| |reflexivity|vm_compute; reflexivity|vm_compute; reflexivity].
    apply plan_of_ok. destruct check; vm_compute; reflexivity.
  - apply (L (nth 1 case_configs (to_dir "" "" false)) [] "n"); [right; now left| |reflexivity|vm_compute; reflexivity|vm_compute; reflexivity].
    apply plan_of_ok. destruct check; vm_compute; reflexivity.
Qed.

(** Two inputs of the same name in different directories have the same output path;
    the run succeeds and the code of the first one is lost. *)
Theorem C76_same_name_refuted : forall check, exists d o d',
  closed d /\ options_valid o = true /\ o_INPUT o = ["a/x.proto"; "b/x.proto"] /\ o_OUTPUT_DIR o = Some "out" /\
  (exists p q, content check (dk_file d) (path_of "a/x.proto") p /\ content check (dk_file d) (path_of "b/x.proto") q /\ d_messages (p_desc p) <> d_messages (p_desc q)) /\
  (exists c1 c2, configure d o = inl [c1; c2] /\ g_out c1 = g_out c2) /\
  cli names_of check 2 o d = (inl WOk, d') /\
  dk_file d' (path_of "out/x.rs") = Some "N" /\ forall p, dk_file d' p <> Some "M".
Proof.
  intros check. exists (small_disk ["a"; "b"; "out"] [("a/x.proto", "message M { }"); ("b/x.proto", "message N { }")]), (plain_options ["a/x.proto"; "b/x.proto"] None (Some "out")).
  assert (X : exists d', cli names_of check 2 (plain_options ["a/x.proto"; "b/x.proto"] None (Some "out"))
      (small_disk ["a"; "b"; "out"] [("a/x.proto", "message M { }"); ("b/x.proto", "message N { }")]) = (inl WOk, d') /\
     dk_file d' (path_of "out/x.rs") = Some "N" /\ forall p, dk_file d' p <> Some "M").
  { destruct check; (eexists; split; [vm_compute; reflexivity|]; split; [vm_compute; reflexivity|]); intros p;
      cbn -[path_eqb small_disk]; repeat (match goal with |- context [if ?b then _ else _] => destruct b end; try discriminate);
      unfold small_disk; cbn -[path_eqb path_of]; repeat (match goal with |- context [if ?b then _ else _] => destruct b end; cbn; try discriminate). }
  destruct X as (d' & X1 & X2 & X3). exists d'. split; [apply small_closed; vm_compute; reflexivity|]. split; [reflexivity|]. split; [reflexivity|]. split; [reflexivity|].
  split; [|split; [|split; [exact X1|split; [exact X2|exact X3]]]].
  - destruct check; (eexists _, _; split; [|split]; [eexists _, _; split; [reflexivity|]; split; [vm_compute; reflexivity|reflexivity]|
      eexists _, _; split; [reflexivity|]; split; [vm_compute; reflexivity|reflexivity]|cbn; congruence]).
  - eexists _, _. split; vm_compute; reflexivity.
Qed.
Print Assumptions C76_same_name_refuted.

(** The name given with --output is not used for an input with a package. *)
Theorem C76_output_name_refuted : forall check, exists d o d',
  closed d /\ options_valid o = true /\ o_OUTPUT o = Some "out/x.rs" /\
  cli names_of check 2 o d = (inl WOk, d') /\
  dk_file d' (path_of "out/x.rs") = None /\ dk_file d' (path_of "out/p.rs") = Some "M".
Proof.
  intros check. exists (small_disk ["out"] [("m.proto", "package p; message M { }")]), (plain_options ["m.proto"] (Some "out/x.rs") None).
  assert (X : exists d', cli names_of check 2 (plain_options ["m.proto"] (Some "out/x.rs") None) (small_disk ["out"] [("m.proto", "package p; message M { }")]) = (inl WOk, d') /\
     dk_file d' (path_of "out/x.rs") = None /\ dk_file d' (path_of "out/p.rs") = Some "M").
  { destruct check; (eexists; split; [vm_compute; reflexivity|]); split; vm_compute; reflexivity. }
  destruct X as (d' & X1 & X2 & X3). exists d'. split; [apply small_closed; vm_compute; reflexivity|]. split; [reflexivity|]. split; [reflexivity|].
  split; [exact X1|]. split; [exact X2|exact X3].
Qed.
Print Assumptions C76_output_name_refuted.
