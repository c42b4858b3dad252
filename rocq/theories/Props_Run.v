(** C85: from the files on the disk before a run of pb-rs to the meaning of the
    files after it. *)
From Coq Require Import String Ascii Arith ZArith Lia Bool Relations.
From Verif Require Import Props_EndToEnd Props_Safety Props_Paths Props_Passes Props_Accepted Props_Generated Props_Defaults Props_TypeCheck Props_Literals Props_Text.
From Verif Require Import Base KeywordFacts Utf8Facts Reader PackedFixed Writer Sizeofs Spec Schema Keywords Modules Passes Gen GenSem GenSpec GenRecords GenType GenSame GenCheck.
From Verif Require Import Cycles CycleFacts BreakFacts IndexFacts Pipeline PassFacts ResolveFacts AcceptFacts Parser ProtoText FileText ParserOut Import
  Props_Import Props_Names Paths PathFacts PlaceFacts Output OutputFacts Props_Output.
From Verif Require Import RustTypes Emit Literals GenText RustLex RustAst RustParse GenAst LexFacts GenGood RustLit RustSem Meaning
  MeanFacts MeanSize MeanWrite MeanRead MeanConst MeanNames Props_Meaning.
Import Schema StringSyntax.
Local Open Scope string_scope.
Local Open Scope list_scope.
Local Open Scope Z_scope.

(** types.rs:2653-2655: [desc.write], with the name of the input file *)
Definition text_of : renderer := fun c x =>
  match GenGood.generated c (in_read x) (match file_name (g_in c) with Some n => n | None => "" end) (in_services x) with
  | (s, None) => (s, WOk)
  | (s, Some e) => (s, WGen e)
  end.

(** a crate with one file, at the end of a module path *)
Fixpoint crate_at (p : list text) (items : ritems) : ritems :=
  match p with
  | [] => items
  | [x] => [(x, IMod true items)]
  | x :: rest => [(x, IMod false (crate_at rest items))]
  end.
Lemma crate_walk : forall p items g, p <> [] -> walk (IMod g (crate_at p items)) p = Some (IMod true items).
Proof.
  induction p as [|x p IH]; intros items g N; [contradiction|]. destruct p as [|y p].
  - cbn. now rewrite String.eqb_refl.
  - change (crate_at (x :: y :: p) items) with [(x, IMod false (crate_at (y :: p) items))]. cbn [walk Paths.assoc]. rewrite String.eqb_refl.
    apply (IH items false). discriminate.
Qed.

(** the module path of C66 is the place of C77 *)
Lemma placed_path : forall pk out dirs stem, file_package pk -> (pk = "" \/ Forall (fun p => p <> "") (split_on "." pk)) ->
  placed_file pk out dirs stem -> own_path pk stem = dirs ++ [stem].
Proof.
  intros pk out dirs stem Pk Ne Pl. destruct Pk as [->|Ty].
  - inversion Pl as [st S G|ds l S]; subst; [reflexivity|now destruct dirs].
  - destruct (package_place _ Ty) as (prefix & ds & l & E & S & Fd & Ml & Pre).
    inversion Pl as [st S' G|ds' l' S']; subst; [rewrite S in S'; now destruct ds|]. rewrite S in S'. apply app_inj_tail in S'. destruct S' as (-> & ->).
    unfold own_path. rewrite E. destruct (String.eqb_spec l' "") as [X|_]; [now apply mn_ne in Ml|]. rewrite (sanitize_keyword_one _ (mn_dot _ Ml)).
    destruct Pre as [(-> & ->)|(Np & [Sp|Sp])]; [reflexivity| |].
    + destruct (String.eqb_spec prefix ""); [contradiction|]. now rewrite Sp.
    + exfalso. destruct Ne as [->|Ne]; [injection E as <- <-; contradiction|].
      assert (N : pk <> "") by (intros ->; injection E as <- <-; contradiction).
      destruct (split_package_split pk N) as (pre & last & E' & Q). rewrite E in E'. injection E' as <- <-.
      destruct Q as [(_ & -> & _)|(_ & _ & Q)]; [contradiction|]. rewrite Q, Sp in Ne. cbn [app] in Ne. inversion Ne. congruence.
Qed.

Lemma describe_read : forall check fuel c d x, describe check fuel c d = inl x ->
  read_proto check (dk_file d) (g_search c) fuel (g_in c) = ROk (in_read x) /\ process (g_passes c) (in_read x) = GOk (in_desc x) /\
  in_services x = services check (dk_file d) (g_in c).
Proof.
  intros check fuel c d x H. unfold describe in H. destruct (read_proto _ _ _ _ _) as [ds| | |]; try discriminate.
  destruct (process (g_passes c) ds) as [ds'|] eqn:P; [|discriminate]. injection H as <-. cbn. auto.
Qed.

(** C85.  A run of pb-rs ends well.  Then the output of each of its inputs, found
    from the directory for output through the mod.rs files along the module path
    that the generated code uses for itself, is a file; what is in it is Rust; and
    the functions in it turn each value of each message into bytes and those bytes
    into the value again. *)
Theorem C85_run_partial : forall check fuel l1 c l2 d d' dirs stem desc d4 t,
  ready check d (l1 ++ c :: l2) -> (forall c', In c' (l1 ++ c :: l2) -> sources_apart check d c') ->
  Output.run text_of check fuel (l1 ++ c :: l2) d = (WOk, d') ->
  plan check d c dirs stem -> g_no_output c = false ->
  (forall c' dirs' stem', In c' l2 -> g_no_output c' = false -> plan check d c' dirs' stem' -> output_file c' dirs' stem' <> output_file c dirs stem) ->
  let out := after_escape (g_passes c) d4 in let root := crate_at (dirs ++ [stem]) (emit_file out) in
  good_file check (dk_file d) (g_search c) fuel (g_in c) desc c d4 root stem ->
  config_ok c = true -> (forall n, file_name (g_in c) = Some n -> all_chars not_newline n = true) ->
  let names := crate_names root out stem in let prog := generated_program c out d4 in let p := g_passes c in
  own_path (d_package out) stem = dirs ++ [stem] /\ leads_to d' (base c) (dirs ++ [stem]) (output_file c dirs stem) /\
  exists s f, dk_file d' (output_file c dirs stem) = Some s /\ parse_rust s = Some f /\ program_in prog out (file_items f) /\
  forall i m ss depth, get_message out i = Some m -> GenSpec.message_ok out p i ss -> no_negative_zero out p i ss -> (slots_depth ss < depth)%nat ->
    zlen (enc_message out p (rust_lit out) i ss) < 2 ^ 32 ->
  exists size write full,
    struct_size t names prog (default_depth out) depth i (rust_struct out p i m ss) = Some size /\
    struct_write t names prog (default_depth out) depth i (rust_struct out p i m ss) = Some write /\
    serialize_into_vec size write = Ok full /\
    (buf_ok t full -> exists ss', Forall2 same_slot ss ss' /\ forall k, (length full <= k)%nat ->
      deserialize_from_slice t (struct_from t names prog (default_depth out) k i) full = Ok (rust_struct out p i m ss')).
Proof.
  intros check fuel l1 c l2 d d' dirs stem desc d4 t Rd Ap Rn Pl No Last out root Good Ck Fn names prog p.
  destruct (C77_content_partial text_of check fuel l1 c l2 d d' dirs stem Rd Ap Rn Pl No Last) as (x & Dx & Wx & Fx).
  destruct (describe_read _ _ _ _ _ Dx) as (R & P & Sv). rewrite (gf_read _ _ _ _ _ _ _ _ _ _ Good) in R. injection R as R.
  pose proof (good_process _ _ _ _ _ _ _ _ _ _ Good) as P'. rewrite <- R in P. rewrite P' in P. injection P as P. fold p in P. fold out in P.
  split; [|split].
  - destruct (describe_package _ _ _ _ _ Dx) as (q & C & Ep & Fp). rewrite <- P in Ep. change (d_package out = counts c q) in Ep. destruct Pl as (q' & C' & Pl).
    pose proof (content_fun _ _ _ _ _ C C') as E. subst q'. rewrite Ep. apply (placed_path _ (g_out c)); auto. rewrite <- Ep.
    destruct (process_header _ _ _ P') as (_ & _ & Hp). change (d_package out = if c_single_module p then "" else d_package desc) in Hp. rewrite Hp. destruct (c_single_module p); [now left|].
    destruct (ic_package _ _ _ _ _ _ (gf_crate _ _ _ _ _ _ _ _ _ _ Good)) as [->|F]; [now left|]. right. eapply Forall_impl; [|exact F]. cbn. tauto.
  - destruct (C77_reachable_partial text_of check fuel _ d d' Rd Rn c) as (dirs' & stem' & P2 & L); [apply in_or_app; right; now left|].
    destruct (plan_fun _ _ _ _ _ _ _ Pl P2) as (<- & <-). now apply L.
  - unfold text_of in Wx, Fx. rewrite <- R in Wx, Fx.
    destruct (GenGood.generated c desc _ (in_services x)) as (s, [e|]) eqn:G; [discriminate Wx|]. cbn in Fx.
    destruct (C82_roundtrip_partial check (dk_file d) (g_search c) fuel (g_in c) desc c d4 root stem _ _ s t Good G Ck) as (f & Pf & In & All).
    { destruct (file_name (g_in c)) as [n|]; [now apply Fn|reflexivity]. }
    exists s, f. split; [exact Fx|]. split; [exact Pf|]. split; [exact In|]. exact All.
Qed.
Print Assumptions C85_run_partial.

(** the file of C80, in a directory of its own *)
Definition run_config : gen_config :=
  mkGenConfig (path_of "a.proto") (path_of "out/a.rs") [path_of ""] false true meanConfig [""] None true false false true true.
Definition run_disk : disk := small_disk ["out"] [("a.proto", meanSchema)].
Lemma run_read : read_proto true (dk_file run_disk) [path_of ""] 2 (path_of "a.proto") = ROk mean_d.
Proof. vm_compute. reflexivity. Qed.
Lemma run_good : good_file true (dk_file run_disk) [path_of ""] 2 (path_of "a.proto") mean_d run_config mean_d4
  (crate_at ["p"; "q"] (emit_file (after_escape (g_passes run_config) mean_d4))) "q".
Proof.
  destruct mean_good as [_ G2 G3 G4 G5 G6 G7 G8 G9 _]. constructor; try assumption; try exact run_read; try reflexivity; try now left.
  change (g_passes run_config) with (g_passes textConfig). destruct G8 as [C1 C2 C3 [L1 L2 L3 L4] C5 C6 C7 C8 C9 C10]. constructor; try assumption.
  now constructor.
Qed.
Lemma run_ends : fst (Output.run text_of true 2 [run_config] run_disk) = WOk.
Proof. vm_compute. reflexivity. Qed.
Example C85_case : exists d' s f,
  ready true run_disk [run_config] /\ (forall c, In c [run_config] -> sources_apart true run_disk c) /\
  Output.run text_of true 2 [run_config] run_disk = (WOk, d') /\ plan true run_disk run_config ["p"] "q" /\ config_ok run_config = true /\
  good_file true (dk_file run_disk) [path_of ""] 2 (path_of "a.proto") mean_d run_config mean_d4
    (crate_at ["p"; "q"] (emit_file (after_escape (g_passes run_config) mean_d4))) "q" /\
  leads_to d' (path_of "out") ["p"; "q"] (path_of "out/p/q.rs") /\
  dk_file d' (path_of "out/p/q.rs") = Some s /\ parse_rust s = Some f.
Proof.
  assert (R : ready true run_disk [run_config]) by (apply small_ready; vm_compute; reflexivity).
  assert (A : forall c, In c [run_config] -> sources_apart true run_disk c) by (intros c [<-|[]]; apply small_apart; vm_compute; reflexivity).
  assert (P : plan true run_disk run_config ["p"] "q") by (apply plan_of_ok; vm_compute; reflexivity).
  assert (K : config_ok run_config = true) by (vm_compute; reflexivity).
  pose proof run_ends as E. pose proof (surjective_pairing (Output.run text_of true 2 [run_config] run_disk)) as Q. rewrite E in Q. clear E. revert Q.
  generalize (snd (Output.run text_of true 2 [run_config] run_disk)). intros d' Q.
  destruct (C85_run_partial true 2 [] run_config [] run_disk d' ["p"] "q" mean_d mean_d4 mean_target R A Q P eq_refl) as (_ & L & s & f & S & F & _).
  - intros c' ds st [].
  - exact run_good.
  - exact K.
  - intros n N. vm_compute in N. injection N as <-. reflexivity.
  - exists d', s, f. repeat match goal with |- _ /\ _ => split end; auto using run_good.
Qed.
