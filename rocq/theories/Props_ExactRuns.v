(** C52, C53, C64 and C85 for every value, with what comes back as in C93. *)
From Coq Require Import String Ascii Arith ZArith Lia Bool.
From Verif Require Import Props_EndToEnd Props_Safety Props_Paths Props_Passes Props_Accepted Props_Lifetime Props_Generated Props_Defaults Props_TypeCheck Props_Literals Props_Text Props_Exact.
From Verif Require Import Base KeywordFacts Utf8Facts Reader PackedFixed Writer Sizeofs Spec SimFacts Schema Keywords Modules Passes Gen GenSem GenSpec GenRecords GenType GenSame GenCheck GenBack Examples.
From Verif Require Import Cycles CycleFacts BreakFacts IndexFacts Pipeline PassFacts ResolveFacts AcceptFacts Lifetime LifetimeFacts Parser ProtoText FileText ParserOut Import
  Props_Import Props_Names Paths PathFacts PlaceFacts Output OutputFacts Props_Output.
From Verif Require Import RustTypes Emit Literals GenText RustLex RustAst RustParse GenAst LexFacts GenGood RustLit RustSem Meaning
  MeanFacts MeanSize MeanWrite MeanRead MeanConst MeanNames Props_Meaning Props_Run.
Import Schema StringSyntax.
Local Open Scope string_scope.
Local Open Scope list_scope.
Local Open Scope Z_scope.

(** Any message that was decoded, from whatever bytes, is written and read again as
    [back] says; the bytes of a third round are those of the second.  Missing: encodings of
    2^32 bytes and more. *)
Theorem C52_exact_partial : forall D c lit, schema_wf D c lit -> one_syntax D -> enums_ok D ->
  (forall ty s v, lit ty s = Some v -> val_ok D c ty v) ->
  forall t' k m bs ss, get_message D m <> None -> decode D c lit t' k m bs = Ok ss ->
  zlen (enc_message D c lit m ss) < 2 ^ 32 ->
  exists enc ss', emits (message_write D c lit m ss) enc /\ back D c lit m ss ss' /\ (Forall2 same_slot ss ss' <-> kept D c lit m ss) /\ kept D c lit m ss' /\
    forall t n, buf_ok t enc -> (length enc < n)%nat -> decode D c lit t n m enc = Ok ss'.
Proof.
  intros D c lit WF OS EN LIT t' k m bs ss Hm Hd Hl.
  assert (Ho : GenSpec.message_ok D c m ss) by (exact (proj1 (C51_decoded_well_typed D c lit t' WF EN LIT k m bs ss Hm) Hd)).
  destruct (C93_roundtrip_exact D c lit WF OS m ss Ho Hl) as (enc & full & ss' & E & _ & B & S & K & R & _).
  exists enc, ss'. repeat match goal with |- _ /\ _ => split end; assumption.
Qed.
Print Assumptions C52_exact_partial.

(** Every accepted schema of one syntax, default options on proto3 fields included. *)
Theorem C53_exact_partial : forall c lit d d', protobuf_rules d -> process c d = GOk d' -> literals_ok lit d' -> compiles c d' -> one_syntax d' ->
  forall i ss, GenSpec.message_ok d' c i ss -> zlen (enc_message d' c lit i ss) < 2 ^ 32 ->
  exists full ss', serialize_into_vec (message_size d' c lit i ss) (message_write d' c lit i ss) = Ok full /\
    back d' c lit i ss ss' /\ (Forall2 same_slot ss ss' <-> kept d' c lit i ss) /\
    forall t n, buf_ok t full -> (length full <= n)%nat -> deserialize_from_slice t (GenSem.from_reader d' c lit t n i) full = Ok ss'.
Proof.
  intros c lit d d' R A L C OS i ss Ho Hl. destruct (C53_accepted_well_formed c lit d d' R A L C) as (W & _).
  destruct (C93_roundtrip_exact d' c lit W OS i ss Ho Hl) as (enc & full & ss' & _ & S & B & Sm & _ & _ & Rd).
  exists full, ss'. repeat match goal with |- _ /\ _ => split end; assumption.
Qed.
Print Assumptions C53_exact_partial.

(** From the text of a proto file to what comes back, for every value. *)
Theorem C64_exact_partial : forall check fs search n f d c lit d',
  read_proto check fs search n f = ROk d -> language_rules d -> process c d = GOk d' -> literals_ok lit d' -> compiles c d' ->
  forall i ss, GenSpec.message_ok d' c i ss -> zlen (enc_message d' c lit i ss) < 2 ^ 32 ->
  exists full ss', serialize_into_vec (message_size d' c lit i ss) (message_write d' c lit i ss) = Ok full /\
    back d' c lit i ss ss' /\ (Forall2 same_slot ss ss' <-> no_negative_zero d' c i ss) /\
    forall t k, buf_ok t full -> (length full <= k)%nat -> deserialize_from_slice t (GenSem.from_reader d' c lit t k i) full = Ok ss'.
Proof.
  intros check fs search n f d c lit d' R L A Li C i ss Ho Hl. destruct (C64_read_well_formed _ _ _ _ _ _ c lit d' R L A Li C) as (W & _ & _ & N).
  destruct (C93_roundtrip_exact d' c lit W (or_intror (or_introl N)) i ss Ho Hl) as (enc & full & ss' & _ & S & B & Sm & _ & _ & Rd).
  exists full, ss'. split; [exact S|]. split; [exact B|]. split; [rewrite Sm; exact (C93_negative_zero d' c lit W N i ss Ho)|exact Rd].
Qed.
Print Assumptions C64_exact_partial.

(** As C85_run_partial, for every message: what comes back is what [back] says, and it is
    the same message iff no field without presence holds -0.0. *)
Theorem C85_exact_partial : forall check fuel l1 c l2 d d' dirs stem desc d4 t,
  ready check d (l1 ++ c :: l2) -> (forall c', In c' (l1 ++ c :: l2) -> sources_apart check d c') ->
  Output.run text_of check fuel (l1 ++ c :: l2) d = (WOk, d') ->
  plan check d c dirs stem -> g_no_output c = false ->
  (forall c' dirs' stem', In c' l2 -> g_no_output c' = false -> plan check d c' dirs' stem' -> output_file c' dirs' stem' <> output_file c dirs stem) ->
  let out := after_escape (g_passes c) d4 in let root := crate_at (dirs ++ [stem]) (emit_file out) in
  good_file check (dk_file d) (g_search c) fuel (g_in c) desc c d4 root stem ->
  config_ok c = true -> (forall n, file_name (g_in c) = Some n -> all_chars not_newline n = true) ->
  let names := crate_names root out stem in let prog := generated_program c out d4 in let p := g_passes c in
  own_path (d_package out) stem = dirs ++ [stem] /\ leads_to d' (base c) (dirs ++ [stem]) (output_file c dirs stem) /\
  exists s f, dk_file d' (output_file c dirs stem) = Some s /\ parse_rust s = Some f /\ program_in prog out (file_items f) /\
  forall i m ss depth, get_message out i = Some m -> GenSpec.message_ok out p i ss -> (slots_depth ss < depth)%nat ->
    zlen (enc_message out p (rust_lit out) i ss) < 2 ^ 32 ->
  exists size write full ss',
    struct_size t names prog (default_depth out) depth i (rust_struct out p i m ss) = Some size /\
    struct_write t names prog (default_depth out) depth i (rust_struct out p i m ss) = Some write /\
    serialize_into_vec size write = Ok full /\
    back out p (rust_lit out) i ss ss' /\ (Forall2 same_slot ss ss' <-> no_negative_zero out p i ss) /\
    (buf_ok t full -> forall k, (length full <= k)%nat ->
      deserialize_from_slice t (struct_from t names prog (default_depth out) k i) full = Ok (rust_struct out p i m ss')).
Proof.
  intros check fuel l1 c l2 d d' dirs stem desc d4 t Rd Ap Rn Pl No Last out root Good Ck Fn names prog p.
  destruct (C77_content_partial text_of check fuel l1 c l2 d d' dirs stem Rd Ap Rn Pl No Last) as (x & Dx & Wx & Fx).
  destruct (describe_read _ _ _ _ _ Dx) as (R & P & Sv). rewrite (gf_read _ _ _ _ _ _ _ _ _ _ Good) in R. injection R as R.
  pose proof (good_process _ _ _ _ _ _ _ _ _ _ Good) as P'. rewrite <- R in P. rewrite P' in P. injection P as P. fold p in P. fold out in P.
  split; [|split].
  - destruct (describe_package _ _ _ _ _ Dx) as (q & C & Ep & Fp). rewrite <- P in Ep. change (d_package out = counts c q) in Ep. destruct Pl as (q' & C' & Pl).
    pose proof (content_fun _ _ _ _ _ C C') as E. subst q'. rewrite Ep. apply (placed_path _ (g_out c)); auto. rewrite <- Ep.
    destruct (process_header _ _ _ P') as (_ & _ & Hp). change (d_package out = if c_single_module p then "" else d_package desc) in Hp. rewrite Hp. destruct (c_single_module p); [now left|].
    destruct (ic_package _ _ _ _ _ _ (gf_crate _ _ _ _ _ _ _ _ _ _ Good)) as [->|F]; [now left|]. right. eapply Forall_impl; [|exact F]. cbn. tauto.
  - destruct (C77_reachable_partial text_of check fuel _ d d' Rd Rn c) as (dirs' & stem' & P2 & L); [apply in_or_app; right; now left|].
    destruct (plan_fun _ _ _ _ _ _ _ Pl P2) as (<- & <-). now apply L.
  - unfold text_of in Wx, Fx. rewrite <- R in Wx, Fx.
    destruct (GenGood.generated c desc _ (in_services x)) as (s, [e|]) eqn:G; [discriminate Wx|]. cbn in Fx.
    destruct (C82_exact_partial check (dk_file d) (g_search c) fuel (g_in c) desc c d4 root stem _ _ s t Good G Ck) as (f & Pf & In & All).
    { destruct (file_name (g_in c)) as [n|]; [now apply Fn|reflexivity]. }
    exists s, f. split; [exact Fx|]. split; [exact Pf|]. split; [exact In|]. exact All.
Qed.
Print Assumptions C85_exact_partial.

(** A message from another writer with -0.0 in a field without presence: it is decoded as
    -0.0, written without the field, and read again as 0.0.  The hypotheses of the other
    theorems are those of C53_case, C64_case and C85_case. *)
Example C52_exact_case : exists ss ss',
  decode exD cfg0 nolit (checked W64) 20 [1%nat] [x15; x00; x00; x00; x80] = Ok ss /\ ss = [SlOne (VZ 0); SlOne (VZ (2 ^ 31))] /\
  enc_message exD cfg0 nolit [1%nat] ss = [] /\ decode exD cfg0 nolit (checked W64) 20 [1%nat] [] = Ok ss' /\ ss' = [SlOne (VZ 0); SlOne (VZ 0)] /\
  ~ kept exD cfg0 nolit [1%nat] ss /\ kept exD cfg0 nolit [1%nat] ss' /\ one_syntax exD.
Proof.
  eexists _, _. split; [vm_compute; reflexivity|]. split; [reflexivity|]. split; [vm_compute; reflexivity|]. split; [vm_compute; reflexivity|]. split; [reflexivity|].
  split; [|split].
  - intros K. apply (C93_negative_zero exD cfg0 nolit exD_wf exD_no_default) in K; [|cbn; repeat split; unfold is_u, is_s; lia].
    destruct K as (_ & ((K & _) & _)). apply K; reflexivity.
  - apply (C93_negative_zero exD cfg0 nolit exD_wf exD_no_default); [cbn; repeat split; unfold is_u, is_s; lia|].
    cbn. repeat split; intros; try discriminate; intros []; discriminate.
  - now left.
Qed.
