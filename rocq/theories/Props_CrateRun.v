(** C99: a run of pb-rs over a file and the files that it imports, from the files
    on the disk before it to the meaning of the files after it. *)
From Coq Require Import String Ascii Arith ZArith Lia Bool Relations.
From Verif Require Import Props_EndToEnd Props_Safety Props_Paths Props_Passes Props_Accepted Props_Lifetime Props_Generated Props_Defaults Props_TypeCheck Props_Literals Props_Text Props_Exact.
From Verif Require Import Base KeywordFacts Utf8Facts Reader PackedFixed Writer Sizeofs Spec Schema Keywords Modules Passes Gen GenSem GenSpec GenRecords GenType GenSame GenCheck GenBack.
From Verif Require Import Cycles CycleFacts BreakFacts IndexFacts Pipeline PassFacts ResolveFacts AcceptFacts Lifetime LifetimeFacts Parser ProtoText FileText ParserOut Import
  Props_Import Props_Names Paths PathFacts PlaceFacts Output OutputFacts Props_Output.
From Verif Require Import RustTypes Emit Literals GenText RustLex RustAst RustParse GenAst LexFacts GenGood RustLit RustSem Meaning
  MeanFacts MeanSize MeanWrite MeanRead MeanConst MeanNames MeanImports MeanCopy Props_Meaning Props_Run Props_Imports.
Import Schema StringSyntax.
Local Open Scope string_scope.
Local Open Scope list_scope.
Local Open Scope Z_scope.

(** ** C90, for every value *)

(** As C90_roundtrip_partial, for every message: [ss'] is what [back] says, and it
    is the same message iff no field without presence holds -0.0. *)
Theorem C90_exact_partial : forall check fs search n file d g d4 root t,
  good_crate check fs search n file d g d4 root ->
  let c := g_passes g in let d' := after_escape c d4 in let prog := generated_program g d' d4 in let names := crates_names root d' in
  forall i m ss depth, get_message d' i = Some m -> message_ok d' c i ss -> (slots_depth ss < depth)%nat ->
    zlen (enc_message d' c (rust_lit d') i ss) < 2 ^ 32 ->
  exists size write full ss',
    struct_size t names prog (default_depth d') depth i (rust_struct d' c i m ss) = Some size /\
    struct_write t names prog (default_depth d') depth i (rust_struct d' c i m ss) = Some write /\
    serialize_into_vec size write = Ok full /\
    back d' c (rust_lit d') i ss ss' /\ (Forall2 same_slot ss ss' <-> no_negative_zero d' c i ss) /\
    (buf_ok t full -> forall k, (length full <= k)%nat ->
      deserialize_from_slice t (struct_from t names prog (default_depth d') k i) full = Ok (rust_struct d' c i m ss')).
Proof.
  intros check fs search n file d g d4 root t Good c d' prog names i m ss depth G Ok Dp Hl.
  destruct (C90_functions_partial _ _ _ _ _ _ _ _ _ t Good) as (_ & _ & _ & Fn & Rd). destruct (Fn i m ss depth G Ok Dp) as (Sz & Wr).
  destruct (crate_schema _ _ _ _ _ _ _ _ _ Good) as (Wf & _ & N3).
  destruct (C93_roundtrip_exact _ _ _ Wf (or_intror (or_introl N3)) i ss Ok Hl) as (enc & full & ss' & _ & S & Bk & Kp & _ & _ & R).
  eexists _, _, full, ss'. split; [exact Sz|]. split; [exact Wr|]. split; [exact S|]. split; [exact Bk|].
  split; [rewrite Kp; exact (C93_negative_zero _ _ _ Wf N3 i ss Ok)|]. intros Bo k Lk. specialize (R t k Bo Lk).
  rewrite (deserialize_lifts (rust_struct d' c i m) t (GenSem.from_reader d' c (rust_lit d') t k i)).
  - fold c in R. fold d' in R. rewrite R. reflexivity.
  - intros bs r. exact (Rd k i m bs r G).
Qed.
Print Assumptions C90_exact_partial.

(** ** The run *)

(** the options of pb-rs, apart from the names of the files *)
Record same_options (c c' : gen_config) : Prop := mkSameOptions {
  so_search : g_search c' = g_search c; so_no_output : g_no_output c' = g_no_output c; so_headers : g_headers c' = g_headers c;
  so_passes : g_passes c' = g_passes c; so_derive : g_derive c' = g_derive c; so_repr : g_repr c' = g_repr c; so_owned : g_owned c' = g_owned c;
  so_nostd : g_nostd c' = g_nostd c; so_hashbrown : g_hashbrown c' = g_hashbrown c; so_gen_info : g_gen_info c' = g_gen_info c;
  so_getters : g_getters c' = g_getters c }.
(** the text does not depend on where the files are *)
Lemma generated_same : forall c c', same_options c c' -> forall d n sv, generated c' d n sv = generated c d n sv.
Proof.
  intros [a1 a2 a3 a4 a5 a6 a7 a8 a9 a10 a11 a12 a13] [b1 b2 b3 b4 b5 b6 b7 b8 b9 b10 b11 b12 b13] [E1 E2 E3 E4 E5 E6 E7 E8 E9 E10 E11] d n sv.
  cbn in *. subst. reflexivity.
Qed.

Lemma read_fuel : forall check fs search f n k d, read_proto check fs search n f = ROk d -> read_proto check fs search (n + k) f = ROk d.
Proof.
  intros check fs search f n k d H. induction k as [|k IH]; [now rewrite Nat.add_0_r|].
  rewrite Nat.add_succ_r, read_more; rewrite IH; [reflexivity|discriminate].
Qed.
Lemma read_fun : forall check fs search f n n' d d', read_proto check fs search n f = ROk d -> read_proto check fs search n' f = ROk d' -> d = d'.
Proof.
  intros check fs search f n n' d d' H H'. apply (read_fuel _ _ _ _ _ n') in H. apply (read_fuel _ _ _ _ _ n) in H'.
  rewrite Nat.add_comm in H. congruence.
Qed.

(** no output file is written twice *)
Definition outputs_differ (check : bool) (d : disk) (cs : list gen_config) : Prop :=
  forall l1 c l2 c' dirs stem dirs' stem', cs = l1 ++ c :: l2 -> In c' l2 -> g_no_output c = false -> g_no_output c' = false ->
    plan check d c dirs stem -> plan check d c' dirs' stem' -> output_file c' dirs' stem' <> output_file c dirs stem.
(** the words of a package, none of them a keyword of Rust *)
Definition plain_words (pk : text) : Prop := Forall (fun p => p <> "" /\ sanitize_keyword p = p) (split_on "." pk).

(** the output of one input: its text, and where it is *)
Lemma output_of : forall check fuel cs d dd c n desc,
  ready check d cs -> (forall c', In c' cs -> sources_apart check d c') -> Output.run text_of check fuel cs d = (WOk, dd) -> outputs_differ check d cs ->
  In c cs -> g_no_output c = false -> read_proto check (dk_file d) (g_search c) n (g_in c) = ROk desc ->
  c_single_module (g_passes c) = false -> d_package desc <> "" -> plain_words (d_package desc) ->
  exists file s name services, leads_to dd (base c) (segments (d_module desc)) file /\ dk_file dd file = Some s /\
    generated c desc name services = (s, None) /\ (name = "" \/ file_name (g_in c) = Some name).
Proof.
  intros check fuel cs d dd c n desc Rd Ap Rn Df Ic No Re Sm Pk Pw.
  destruct (C77_reachable_partial text_of check fuel cs d dd Rd Rn c Ic) as (dirs & stem & Pl & L). specialize (L No).
  destruct (in_split c cs Ic) as (l1 & l2 & E).
  destruct (C77_content_partial text_of check fuel l1 c l2 d dd dirs stem) as (x & Dx & Wx & Fx); try (rewrite <- E; assumption); auto.
  { intros c' ds st I N P. exact (Df l1 c l2 c' dirs stem ds st E I No N Pl P). }
  destruct (describe_read _ _ _ _ _ Dx) as (R & P & Sv). pose proof (read_fun _ _ _ _ _ _ _ _ Re R) as Ed.
  destruct (read_placed _ _ _ _ _ _ Re) as (_ & M). unfold file_module in M. destruct (String.eqb_spec (d_package desc) "") as [|_]; [contradiction|]. injection M as M.
  assert (Sg : segments (d_module desc) = dirs ++ [stem]).
  { rewrite <- M. rewrite (segments_plain _ (or_intror Pw) Pk).
    destruct (describe_package _ _ _ _ _ Dx) as (q & C & Ep & Fp). rewrite <- Ed in P. destruct (process_header _ _ _ P) as (_ & _ & Hp). rewrite Sm in Hp.
    destruct Pl as (q' & C' & Pl). pose proof (content_fun _ _ _ _ _ C C') as E'. subst q'. rewrite Hp in Ep. rewrite <- Ep in Fp, Pl.
    assert (Pn : Forall (fun p => p <> "") (split_on "." (d_package desc))) by (eapply Forall_impl; [|exact Pw]; cbn; tauto).
    rewrite <- (placed_path _ (g_out c) dirs stem Fp (or_intror Pn) Pl).
    rewrite (own_path_plain _ stem (or_intror Pw)). destruct (String.eqb_spec (d_package desc) ""); [contradiction|reflexivity]. }
  unfold text_of in Wx, Fx. rewrite <- Ed in Wx, Fx.
  destruct (GenGood.generated c desc _ (in_services x)) as (s, [e|]) eqn:G; [discriminate Wx|]. cbn in Fx.
  exists (output_file c dirs stem), s. eexists _, _. rewrite Sg. split; [exact L|]. split; [exact Fx|]. split; [exact G|].
  destruct (file_name (g_in c)); auto.
Qed.

(** The code of each message and enum is in a file on the disk, and mod.rs files
    lead to that file along the module path that names are searched with. *)
Record crate_on_disk (dd : disk) (place : fpath) (prog : program) (d : file_descriptor) : Prop := mkOnDisk {
  od_message : forall i m, get_message d i = Some m -> exists module package file s, top_home d i = Some (module, package) /\
    leads_to dd place (segments module) file /\ dk_file dd file = Some s /\ (forall it, In it (p_struct prog i) -> in_text s (mods d i) it) /\
    forall o it, In o (m_oneofs m) -> In it (p_oneof prog i (o_name o)) -> in_text s (own_module d i) it;
  od_enum : forall q e, get_enum d q = Some e -> en_fields e <> [] -> exists module package file s, home d (InEnum q) = Some (module, package) /\
    leads_to dd place (segments module) file /\ dk_file dd file = Some s /\ forall it, In it (p_enum prog q) -> in_text s (module_of d (InEnum q)) it }.

(** the module of what a file declares itself *)
Section Own.
Variables (check : bool) (fs : file_system) (search : list fpath) (n : nat) (f : fpath) (d d' : file_descriptor) (c : config).
Hypothesis Read : read_proto check fs search n f = ROk d.
Hypothesis Acc : process c d = GOk d'.
Lemma own_home : forall i, top_own d' i -> exists module package, top_home d' i = Some (module, package) /\ segments module = segments (d_module d).
Proof.
  intros i (k & rest & top & -> & N & I). cbn [top_home]. rewrite N. cbn. eexists _, _. split; [reflexivity|].
  exact (acc_own_message check fs search n f d c d' Read Acc k top N I).
Qed.
Lemma own_home_enum : forall q e, get_enum d' q = Some e -> own_enum d' q e ->
  exists module package, home d' (InEnum q) = Some (module, package) /\ segments module = segments (d_module d).
Proof.
  intros q e G O. unfold own_enum in O. cbn [home]. unfold get_enum in G. destruct (e_msg q) as [|a b].
  - rewrite G. cbn. eexists _, _. split; [reflexivity|]. exact (acc_own_enum check fs search n f d c d' Read Acc (e_pos q) e G O).
  - exact (own_home (a :: b) O).
Qed.
End Own.

(** what the run has for an imported file *)
Definition part_run (check : bool) (d : disk) (cs : list gen_config) (c : gen_config) (d4 : file_descriptor) (p : part) : Prop :=
  good_part check (dk_file d) (g_search c) c d4 (pa_file p) (pa_d p) (pa_d4 p) (pa_messages p) (pa_enums p) /\ plain_words (d_package (pa_d p)) /\
  exists c', In c' cs /\ same_options c c' /\ g_in c' = pa_file p /\ base c' = base c.

(** C99.  A run of pb-rs over a file and all files that it imports, with the same
    options and the same directory for output, ends well.  Then the code of every
    message and enum that the file has or imports is in a file on the disk, where
    the other files search it; and that code turns each value of each message into
    bytes, and those bytes into what [back] says. *)
Theorem C99_crate_run_partial : forall check fuel cs d dd c desc d4 root parts t,
  ready check d cs -> (forall c', In c' cs -> sources_apart check d c') -> outputs_differ check d cs ->
  Output.run text_of check fuel cs d = (WOk, dd) ->
  In c cs -> g_no_output c = false -> config_ok c = true -> (forall c' n, In c' cs -> file_name (g_in c') = Some n -> all_chars not_newline n = true) ->
  good_crate check (dk_file d) (g_search c) fuel (g_in c) desc c d4 root -> plain_words (d_package desc) ->
  Forall (part_run check d cs c d4) parts ->
  let p := g_passes c in let out := after_escape p d4 in all_parts p out parts ->
  let names := crates_names root out in let prog := generated_program c out d4 in
  crate_on_disk dd (base c) prog out /\
  forall i m ss depth, get_message out i = Some m -> message_ok out p i ss -> (slots_depth ss < depth)%nat ->
    zlen (enc_message out p (rust_lit out) i ss) < 2 ^ 32 ->
  exists size write full ss',
    struct_size t names prog (default_depth out) depth i (rust_struct out p i m ss) = Some size /\
    struct_write t names prog (default_depth out) depth i (rust_struct out p i m ss) = Some write /\
    serialize_into_vec size write = Ok full /\
    back out p (rust_lit out) i ss ss' /\ (Forall2 same_slot ss ss' <-> no_negative_zero out p i ss) /\
    (buf_ok t full -> forall k, (length full <= k)%nat ->
      deserialize_from_slice t (struct_from t names prog (default_depth out) k i) full = Ok (rust_struct out p i m ss')).
Proof.
  intros check fuel cs d dd c desc d4 root parts t Rd Ap Df Rn Ic No Ck Fn Good Pw Parts p out All names prog.
  split; [|exact (C90_exact_partial _ _ _ _ _ _ _ _ _ t Good)]. rewrite Forall_forall in Parts.
  pose proof (crate_process _ _ _ _ _ _ _ _ _ Good) as P. change (process p desc = GOk out) in P. pose proof (gc_read _ _ _ _ _ _ _ _ _ Good) as Re.
  destruct (process_header _ _ _ P) as (_ & _ & Hp). pose proof (cs_package _ _ _ (gc_crate _ _ _ _ _ _ _ _ _ Good)) as Ne. change (d_package out <> "") in Ne.
  assert (Sm : c_single_module p = false) by (destruct (c_single_module p); [contradiction|reflexivity]). rewrite Sm in Hp. rewrite Hp in Ne.
  destruct (output_of check fuel cs d dd c fuel desc Rd Ap Rn Df Ic No Re Sm Ne Pw) as (file & s & nm & sv & L & Fs & G & Nm).
  assert (Nn : all_chars not_newline nm = true) by (destruct Nm as [-> | Nm]; [reflexivity|exact (Fn c nm Ic Nm)]).
  destruct (C80_program_in_file c desc nm sv s _ G (gc_names _ _ _ _ _ _ _ _ _ Good) Ck Nn P) as (x & f & B & _ & Q & [I1 I2 I3]).
  assert (x = d4) as -> by (rewrite (gc_before _ _ _ _ _ _ _ _ _ Good) in B; congruence).
  assert (PP : forall pt, In pt parts -> let dF' := after_escape p (pa_d4 pt) in copies (pa_messages pt) (pa_enums pt) out dF' /\ process p (pa_d pt) = GOk dF' /\
    exists fileF sF fF, leads_to dd (base c) (segments (d_module (pa_d pt))) fileF /\ dk_file dd fileF = Some sF /\ parse_rust sF = Some fF /\
      part_in prog (pa_messages pt) (pa_enums pt) dF' (file_items fF)).
  { intros pt Ip dF'. destruct (Parts pt Ip) as (GP & PwF & c' & Ic' & So & Ei & Eb). split; [exact (copies_after _ _ c _ _ (gp_copies _ _ _ _ _ _ _ _ _ _ GP))|].
    pose proof (accepted _ _ _ (gp_before _ _ _ _ _ _ _ _ _ _ GP)) as PF. split; [exact PF|].
    destruct (process_header _ _ _ PF) as (_ & _ & HpF). pose proof (gp_package _ _ _ _ _ _ _ _ _ _ GP) as NeF. fold p in Sm, HpF, NeF. rewrite Sm in HpF. rewrite HpF in NeF.
    destruct (gp_read _ _ _ _ _ _ _ _ _ _ GP) as (nF & ReF).
    destruct (output_of check fuel cs d dd c' nF (pa_d pt) Rd Ap Rn Df Ic') as (fileF & sF & nmF & svF & LF & FsF & GF & NmF); auto.
    - rewrite (so_no_output _ _ So). exact No.
    - rewrite (so_search _ _ So), Ei. exact ReF.
    - rewrite (so_passes _ _ So). exact Sm.
    - assert (NnF : all_chars not_newline nmF = true) by (destruct NmF as [-> | NmF]; [reflexivity|exact (Fn c' nmF Ic' NmF)]).
      rewrite (generated_same _ _ So) in GF. rewrite Eb in LF.
      destruct (C90_imported_code_partial _ _ _ _ _ _ _ _ _ _ _ _ _ _ _ _ _ Good GP GF Ck NnF) as (fF & QF & PI).
      exists fileF, sF, fF. auto. }
  destruct All as [AM AE]. constructor.
  - intros i m Gi. destruct (AM i m Gi) as [O|(pt & j & mF & Ip & <- & GF & O)].
    + destruct (own_home _ _ _ _ _ _ _ _ Re P i O) as (module & package & Ho & Sg). exists module, package, file, s. rewrite Sg.
      split; [exact Ho|]. split; [exact L|]. split; [exact Fs|]. split.
      * intros it Hi. exists f. split; [exact Q|]. exact (I1 i m it Gi O Hi).
      * intros o it Io Hi. exists f. split; [exact Q|]. exact (I2 i m o it Gi O Io Hi).
    + destruct (PP pt Ip) as (Co & PF & fileF & sF & fF & LF & FsF & QF & [J1 J2 J3]). destruct (Parts pt Ip) as (GP & _). destruct (gp_read _ _ _ _ _ _ _ _ _ _ GP) as (nF & ReF).
      destruct (own_home _ _ _ _ _ _ _ _ ReF PF j O) as (module & package & Ho & Sg). exists module, package, fileF, sF.
      destruct (message_place _ _ _ _ Co _ _ GF) as (Mo & Th). rewrite Sg, Th, Mo, (own_place _ _ _ _ Co _ _ GF).
      split; [exact Ho|]. split; [exact LF|]. split; [exact FsF|].
      destruct (cp_messages _ _ _ _ Co _ _ GF) as (m' & G' & S). assert (m' = m) as -> by congruence. split.
      * intros it Hi. exists fF. split; [exact QF|]. exact (J1 j mF it GF O Hi).
      * intros o it Io Hi. exists fF. split; [exact QF|]. pose proof (sm_oneofs _ _ _ _ S) as SO.
        assert (X : exists o', In o' (m_oneofs mF) /\ o_name o' = o_name o).
        { clear - SO Io. induction SO as [|a b la lb E SO IH]; [destruct Io|]. destruct Io as [<-|Io].
          - exists b. split; [now left|]. symmetry. apply E.
          - destruct (IH Io) as (o' & I & En). exists o'. split; [now right|exact En]. }
        destruct X as (o' & Io' & En). rewrite <- En in Hi. exact (J2 j mF o' it GF O Io' Hi).
  - intros q e Gq Nf. destruct (AE q e Gq) as [O|(pt & r & eF & Ip & <- & GF & O)].
    + destruct (own_home_enum _ _ _ _ _ _ _ _ Re P q e Gq O) as (module & package & Ho & Sg). exists module, package, file, s. rewrite Sg.
      split; [exact Ho|]. split; [exact L|]. split; [exact Fs|]. intros it Hi. exists f. split; [exact Q|]. exact (I3 q e it Gq O Nf Hi).
    + destruct (PP pt Ip) as (Co & PF & fileF & sF & fF & LF & FsF & QF & [J1 J2 J3]). destruct (Parts pt Ip) as (GP & _). destruct (gp_read _ _ _ _ _ _ _ _ _ _ GP) as (nF & ReF).
      destruct (own_home_enum _ _ _ _ _ _ _ _ ReF PF r eF GF O) as (module & package & Ho & Sg). exists module, package, fileF, sF.
      destruct (enum_place _ _ _ _ Co _ _ GF) as (Mo & Th). rewrite Sg, Th, Mo. split; [exact Ho|]. split; [exact LF|]. split; [exact FsF|].
      destruct (cp_enums _ _ _ _ Co _ _ GF) as (e' & G' & (_ & _ & Ef)). assert (e' = e) as -> by congruence. rewrite Ef in Nf.
      intros it Hi. exists fF. split; [exact QF|]. exact (J3 r eF it GF O Nf Hi).
Qed.
Print Assumptions C99_crate_run_partial.

(** ** The concrete case: the two files of C90 *)

Definition app_config : gen_config :=
  mkGenConfig (path_of "app.proto") (path_of "out/app.rs") [path_of ""] false true meanConfig [""] None true false false true true.
Definition lib_config : gen_config :=
  mkGenConfig (path_of "lib.proto") (path_of "out/lib.rs") [path_of ""] false true meanConfig [""] None true false false true true.
Definition crate_disk : disk := small_disk ["out"] [("app.proto", crateApp); ("lib.proto", crateLib)].
Definition crate_configs : list gen_config := [app_config; lib_config].
Lemma crate_run_good : good_crate true (dk_file crate_disk) [path_of ""] 3 (path_of "app.proto") crate_d app_config crate_d4 crate_root.
Proof. destruct crate_good as [_ G2 G3 G4 G5 G6 G7 G8 G9 _]. constructor; try assumption; try reflexivity. now left. Qed.
Lemma lib_run : part_run true crate_disk crate_configs app_config crate_d4 lib_part.
Proof.
  split; [|split].
  - destruct lib_imported as ([_ G2 G3 G4 G5 G6] & _). constructor; try assumption. exists 3%nat. vm_compute. reflexivity.
  - repeat constructor; discriminate.
  - exists lib_config. split; [right; now left|]. split; [constructor; reflexivity|]. split; reflexivity.
Qed.
Lemma crate_differ : outputs_differ true crate_disk crate_configs.
Proof.
  assert (PA : plan true crate_disk app_config [] "app") by (apply plan_of_ok; vm_compute; reflexivity).
  assert (PL : plan true crate_disk lib_config ["lib"] "base") by (apply plan_of_ok; vm_compute; reflexivity).
  intros l1 c l2 c' dirs stem dirs' stem' E I _ _ P P'. destruct l1 as [|a [|b [|? l1]]]; try discriminate.
  - injection E as <- <-. destruct I as [<-|[]]. destruct (plan_fun _ _ _ _ _ _ _ PA P) as (<- & <-). destruct (plan_fun _ _ _ _ _ _ _ PL P') as (<- & <-).
    vm_compute. discriminate.
  - injection E as <- <- <-. destruct I.
Qed.
Lemma crate_contents : (forall p, content true (dk_file crate_disk) (path_of "app.proto") p -> p_imports p = ["lib.proto"]) /\
  forall p, content true (dk_file crate_disk) (path_of "lib.proto") p -> p_imports p = [].
Proof.
  split; intros p (s & rest & A & B & _); vm_compute in A; injection A as <-;
    match type of B with ?e = _ => let r := eval vm_compute in e in let H := fresh in assert (H : e = r) by (vm_compute; reflexivity); rewrite H in B end; now injection B as <- <-.
Qed.
Lemma crate_apart : forall c, In c crate_configs -> sources_apart true crate_disk c.
Proof.
  destruct crate_contents as (CA & CL).
  assert (Pa : forall dir h, In dir [path_of ""] -> import_place (path_of "app.proto") dir "lib.proto" h -> h = path_of "lib.proto").
  { intros dir h [<-|[]] P. inversion P; subst; try discriminate; reflexivity. }
  assert (Ls : forall g, clos_refl_trans _ (imports true (dk_file crate_disk) [path_of ""]) (path_of "lib.proto") g -> g = path_of "lib.proto").
  { intros g Rt. apply clos_rt_rt1n in Rt. inversion Rt as [|y z (q & j & Cq & Iq & _) _]; [reflexivity|]. rewrite (CL q Cq) in Iq. destruct Iq. }
  intros c [<-|[<-|[]]]; (split; [now apply ends_ok_rs|]); intros g p i dir h Rt C I Id P.
  - cbn [g_in g_search app_config] in *. apply clos_rt_rt1n in Rt. inversion Rt as [|y z (q & j & Cq & Iq & Rs) Rt']; subst.
    + rewrite (CA p C) in I. destruct I as [<-|[]]. rewrite (Pa dir h Id P). now apply ends_ok_rs.
    + rewrite (CA q Cq) in Iq. destruct Iq as [<-|[]]. assert (y = path_of "lib.proto") as -> by (destruct Rs as (before & dir1 & after & Es & P1 & _); apply (Pa dir1); [rewrite Es; apply in_or_app; right; now left|exact P1]).
      apply clos_rt1n_rt in Rt'. rewrite (Ls g Rt') in C. rewrite (CL p C) in I. destruct I.
  - cbn [g_in g_search lib_config] in *. rewrite (Ls g Rt) in C. rewrite (CL p C) in I. destruct I.
Qed.
Lemma crate_run_ends : fst (Output.run text_of true 3 crate_configs crate_disk) = WOk.
Proof. vm_compute. reflexivity. Qed.
(** the imported message [Id] is found in out/lib/base.rs *)
Example C99_case : exists dd,
  ready true crate_disk crate_configs /\ (forall c, In c crate_configs -> sources_apart true crate_disk c) /\ outputs_differ true crate_disk crate_configs /\
  Output.run text_of true 3 crate_configs crate_disk = (WOk, dd) /\
  good_crate true (dk_file crate_disk) [path_of ""] 3 (path_of "app.proto") crate_d app_config crate_d4 crate_root /\
  Forall (part_run true crate_disk crate_configs app_config crate_d4) [lib_part] /\ all_parts meanConfig crate_d' [lib_part] /\
  top_home crate_d' [1%nat] = Some ("lib.base", "lib.base") /\
  crate_on_disk dd (path_of "out") crate_prog crate_d'.
Proof.
  assert (R : ready true crate_disk crate_configs) by (apply small_ready; vm_compute; reflexivity).
  pose proof crate_apart as A.
  pose proof crate_run_ends as E. pose proof (surjective_pairing (Output.run text_of true 3 crate_configs crate_disk)) as Q. rewrite E in Q. clear E. revert Q.
  generalize (snd (Output.run text_of true 3 crate_configs crate_disk)). intros dd Q.
  assert (Ps : Forall (part_run true crate_disk crate_configs app_config crate_d4) [lib_part]) by (constructor; [exact lib_run|constructor]).
  destruct (C99_crate_run_partial true 3 crate_configs crate_disk dd app_config crate_d crate_d4 crate_root [lib_part] mean_target R A crate_differ Q) as (L & _); auto.
  - now left.
  - intros c' n [<-|[<-|[]]] N; vm_compute in N; injection N as <-; reflexivity.
  - exact crate_run_good.
  - repeat constructor; discriminate.
  - change (g_passes app_config) with meanConfig. rewrite (proj1 crate_after). exact crate_parts.
  - change (g_passes app_config) with meanConfig in L. rewrite (proj1 crate_after) in L. exists dd. repeat match goal with |- _ /\ _ => split end; auto.
    + exact crate_differ.
    + exact crate_run_good.
    + exact crate_parts.
Qed.
