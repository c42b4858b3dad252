(** C99: as Props_CrateRun, where the copies of imported messages come from reading
    the files and from the passes. *)
From Coq Require Import String Ascii Arith ZArith Lia Bool Relations.
From Verif Require Import Props_EndToEnd Props_Safety Props_Paths Props_Passes Props_Accepted Props_Lifetime Props_Generated Props_Defaults Props_TypeCheck Props_Literals Props_Text Props_Exact.
From Verif Require Import Base KeywordFacts Utf8Facts Reader PackedFixed Writer Sizeofs Spec Schema Keywords Modules Passes Gen GenSem GenSpec GenRecords GenType GenSame GenCheck GenBack.
From Verif Require Import Cycles CycleFacts BreakFacts IndexFacts Pipeline PassFacts ResolveFacts AcceptFacts Lifetime LifetimeFacts Parser ProtoText FileText ParserOut Import
  Props_Import Props_Names Paths PathFacts PlaceFacts Output OutputFacts Props_Output.
From Verif Require Import RustTypes Emit Literals GenText RustLex RustAst RustParse GenAst LexFacts GenGood RustLit RustSem Meaning
  MeanFacts MeanSize MeanWrite MeanRead MeanConst MeanNames MeanImports MeanCopy Props_Meaning Props_Run Props_Imports Props_CrateRun Copies Props_Copies.
Import Schema StringSyntax.
Local Open Scope string_scope.
Local Open Scope list_scope.
Local Open Scope Z_scope.

(** What is asked of each file that is imported, directly or not: it follows the rules of
    the language, has the syntax of the importing file, no other file captures its
    names, and the run has it as an input, with the same options. *)
Definition imported_run (check : bool) (d : disk) (cs : list gen_config) (c : gen_config) (desc : file_descriptor) : Prop :=
  forall fileF k dF, clos_trans _ (imports check (dk_file d) (g_search c)) (g_in c) fileF -> read_proto check (dk_file d) (g_search c) k fileF = ROk dF ->
  language_rules dF /\ schema_ok dF = true /\ d_syntax desc = d_syntax dF /\ not_captured desc dF /\ plain_words (d_package dF) /\
  exists c', In c' cs /\ same_options c c' /\ g_in c' = fileF /\ base c' = base c.

(** C99.  As C99_crate_run_partial, without a list of the imported files: the run has
    every file that is imported, directly or not, among its inputs. *)
Theorem C99_whole_run_partial : forall check fuel cs d dd c desc d4 root t,
  ready check d cs -> (forall c', In c' cs -> sources_apart check d c') -> outputs_differ check d cs ->
  Output.run text_of check fuel cs d = (WOk, dd) ->
  In c cs -> g_no_output c = false -> config_ok c = true -> (forall c' n, In c' cs -> file_name (g_in c') = Some n -> all_chars not_newline n = true) ->
  good_crate check (dk_file d) (g_search c) fuel (g_in c) desc c d4 root -> plain_words (d_package desc) ->
  plain_crate check (dk_file d) (g_search c) (g_in c) desc c -> imported_run check d cs c desc ->
  let p := g_passes c in let out := after_escape p d4 in let names := crates_names root out in let prog := generated_program c out d4 in
  crate_on_disk dd (base c) prog out /\
  forall i m ss depth, get_message out i = Some m -> message_ok out p i ss -> (slots_depth ss < depth)%nat ->
    zlen (enc_message out p (rust_lit out) i ss) < 2 ^ 32 ->
  exists size write full ss',
    struct_size t names prog (default_depth out) depth i (rust_struct out p i m ss) = Some size /\
    struct_write t names prog (default_depth out) depth i (rust_struct out p i m ss) = Some write /\
    serialize_into_vec size write = Ok full /\
    back out p (rust_lit out) i ss ss' /\ (Forall2 same_slot ss ss' <-> no_negative_zero out p i ss) /\
    (buf_ok t full -> forall k, (length full <= k)%nat ->
      deserialize_from_slice t (struct_from t names prog (default_depth out) k i) full = Ok (rust_struct out p i m ss')).
Proof.
  intros check fuel cs d dd c desc d4 root t Rd Ap Df Rn Ic No Ck Fn Good Pw Pl Im p out names prog.
  destruct (parts_exist check (dk_file d) (g_search c) fuel (g_in c) desc c d4 root
    (fun pt => plain_words (d_package (pa_d pt)) /\ exists c', In c' cs /\ same_options c c' /\ g_in c' = pa_file pt /\ base c' = base c) Good Pl) as (parts & AP & F).
  { intros fileF k dF T RF. destruct (Im fileF k dF T RF) as (Ru & Na & Sy & Sc & PwF & c' & Ic' & So & Ei & Eb).
    assert (PF : d_package dF <> "").
    { apply (pc_packages _ _ _ _ _ _ Pl fileF k dF); [|exact RF]. clear -T. induction T; [now apply rt_step|eapply rt_trans; eassumption]. }
    destruct (output_of check fuel cs d dd c' k dF Rd Ap Rn Df Ic') as (fF & sF & nmF & svF & _ & _ & GF & _); auto.
    - rewrite (so_no_output _ _ So). exact No.
    - rewrite (so_search _ _ So), Ei. exact RF.
    - rewrite (so_passes _ _ So). exact (pc_modules _ _ _ _ _ _ Pl).
    - rewrite (generated_same _ _ So) in GF. unfold GenGood.generated in GF. destruct (before_escape (g_passes c) dF) as [dF4|] eqn:Be; [|discriminate].
      exists dF4, "". split; [constructor; assumption|]. intros a b. cbn. split; [exact PwF|]. exists c'. auto. }
  apply (C99_crate_run_partial check fuel cs d dd c desc d4 root parts t); auto.
  eapply Forall_impl; [|exact F]. intros pt (G & _ & X & Y). split; [exact G|]. split; [exact X|exact Y].
Qed.
Print Assumptions C99_whole_run_partial.

(** the case of C99 *)
Lemma disk_reach : forall f, clos_trans _ (imports true (dk_file crate_disk) [path_of ""]) app_file f -> f = lib_file.
Proof.
  intros f T. apply clos_trans_t1n in T.
  assert (A : forall g, imports true (dk_file crate_disk) [path_of ""] app_file g -> g = lib_file).
  { intros g (p & i & (s & r & F & P & _) & Hi & Rs). vm_compute in F. injection F as <-. vm_compute in P. injection P as <- <-. destruct Hi as [<-|[]].
    apply find_import_resolves in Rs. vm_compute in Rs. injection Rs as <-. reflexivity. }
  assert (B : forall g, ~ imports true (dk_file crate_disk) [path_of ""] lib_file g).
  { intros g (p & i & (s & r & F & P & _) & Hi & Rs). vm_compute in F. injection F as <-. vm_compute in P. injection P as <- <-. destruct Hi. }
  inversion T as [g I|g h I T']; subst; [exact (A f I)|]. apply A in I. subst g. inversion T' as [g I|g h' I _]; subst; now apply B in I.
Qed.
Lemma disk_reads : forall k d, read_proto true (dk_file crate_disk) [path_of ""] k lib_file = ROk d -> d = lib_d.
Proof.
  intros [|k] d R; [discriminate|]. destruct (read_step _ _ _ _ _ _ R) as (p & d0 & (s & r & F & P & _) & (m & M & ->) & H).
  vm_compute in F. injection F as <-. vm_compute in P. injection P as <- <-. vm_compute in M. injection M as <-. cbn [p_imports fetch] in H. injection H as <-. vm_compute. reflexivity.
Qed.
Lemma disk_packages : packages true (dk_file crate_disk) [path_of ""] app_file.
Proof.
  intros g k x T R. apply Operators_Properties.clos_rt_rtn1 in T.
  assert (G : g = app_file \/ g = lib_file).
  { clear R. induction T as [|g h I T IH]; [now left|]. right. destruct IH as [->| ->]; [apply disk_reach; now apply t_step|].
    apply disk_reach. apply t_trans with lib_file; [|now apply t_step]. apply t_step. eexists _, "lib.proto"%string. split; [eexists _, _; split; [vm_compute; reflexivity|]; split; [vm_compute; reflexivity|vm_compute; reflexivity]|].
    split; [now left|]. apply find_import_resolves. vm_compute. reflexivity. }
  destruct k as [|k]; [discriminate|]. destruct (read_step _ _ _ _ _ _ R) as (p & d0 & (s & r & F & P & _) & (m & M & ->) & H).
  rewrite (fetch_package _ _ _ _ _ _ _ H). destruct G as [->| ->]; vm_compute in F; injection F as <-; vm_compute in P; injection P as <- <-; cbn; discriminate.
Qed.
Example C99_whole_case : exists dd,
  ready true crate_disk crate_configs /\ (forall c, In c crate_configs -> sources_apart true crate_disk c) /\ outputs_differ true crate_disk crate_configs /\
  Output.run text_of true 3 crate_configs crate_disk = (WOk, dd) /\
  good_crate true (dk_file crate_disk) [path_of ""] 3 (path_of "app.proto") crate_d app_config crate_d4 crate_root /\
  plain_crate true (dk_file crate_disk) [path_of ""] app_file crate_d app_config /\ imported_run true crate_disk crate_configs app_config crate_d /\
  clos_trans _ (imports true (dk_file crate_disk) [path_of ""]) app_file lib_file /\
  crate_on_disk dd (path_of "out") crate_prog crate_d'.
Proof.
  destruct C99_case as (dd & R & A & D & Q & G & Ps & Al & H & L). exists dd. repeat (split; [assumption|]).
  split; [constructor; [exact disk_packages|reflexivity|exact crate_unique|exact crate_cycles]|]. split; [|split; [|exact L]].
  - intros fileF k dF T RF. apply disk_reach in T. subst fileF. apply disk_reads in RF. subst dF.
    destruct lib_imported as ([_ Ru Na _ _ _] & _). split; [exact Ru|]. split; [exact Na|]. split; [reflexivity|]. split; [exact crate_scope|].
    split; [repeat constructor; discriminate|]. exists lib_config. split; [right; now left|]. split; [constructor; reflexivity|]. split; reflexivity.
  - apply t_step. eexists _, "lib.proto"%string. split; [eexists _, _; split; [vm_compute; reflexivity|]; split; [vm_compute; reflexivity|vm_compute; reflexivity]|].
    split; [now left|]. apply find_import_resolves. vm_compute. reflexivity.
Qed.
