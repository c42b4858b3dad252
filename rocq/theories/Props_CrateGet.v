(** C84 for files that import others. *)
From Coq Require Import String Ascii Arith ZArith Lia Bool.
From Verif Require Import Props_EndToEnd Props_Safety Props_Paths Props_Passes Props_Accepted Props_Generated Props_Defaults Props_TypeCheck Props_Literals Props_Text Props_Info.
From Verif Require Import Base KeywordFacts Utf8Facts Reader PackedFixed Writer Sizeofs Spec Schema Keywords Modules Passes Gen GenSem GenSpec GenRecords GenType GenSame GenCheck.
From Verif Require Import Cycles CycleFacts BreakFacts IndexFacts Pipeline PassFacts ResolveFacts AcceptFacts Parser ProtoText FileText ParserOut Import
  Paths PathFacts PlaceFacts.
From Verif Require Import RustTypes Emit Literals Output GenText RustLex RustAst RustParse GenAst GenAstFacts LexFacts GenGood RustLit RustSem Meaning
  MeanFacts MeanSize MeanWrite MeanRead MeanConst MeanNames MeanImports MeanCopy MeanGet Props_Meaning Props_Getters Props_Imports.
Import Schema StringSyntax.
Local Open Scope string_scope.
Local Open Scope list_scope.
Local Open Scope Z_scope.

(** C84 where the file may import others (the crate of C90): the constants and getters
    of all messages, those of the imported files included, and [PATH] of the messages of
    the file itself. *)
Theorem C84_crate_getters_partial : forall check fs search n file d g d4 root t,
  good_crate check fs search n file d g d4 root ->
  let c := g_passes g in let d' := after_escape c d4 in
  let names := crates_names root d' in let prog := generated_program g d' d4 in
  forall p m j f k, get_message d p = Some m -> nth_error (visible_fields c m) j = Some f -> f_freq f = P2Optional -> d_syntax d = Proto2 ->
  declares_default d m f k ->
  exists m' f' v, get_message d' p = Some m' /\ nth_error (visible_fields c m') j = Some f' /\ f_name f' = sanitize_keyword (f_name f) /\
    denotes (f_typ f) k v /\ val_ok d' c (f_typ f') v /\
    const_of t names prog p ("DEFAULT_" ++ f_name f')%string = Some (rust_value d' c (f_typ f') v) /\
    forall depth ss, GenSpec.message_ok d' c p ss ->
    exists s, nth_error ss j = Some s /\ (s = SlNone \/ exists x, s = SlSome x) /\
      struct_method t names prog depth p ("get_" ++ f_name f')%string (rust_struct d' c p m' ss) =
      if g_getters g then Some (rust_value d' c (f_typ f') (value_or s v)) else None.
Proof.
  intros check fs search n file d g d4 root t Good c d' names prog p m j f k G N Fq Sy K.
  pose proof (crate_names_ok _ _ _ _ _ _ _ _ _ Good) as Nm. pose proof (crate_plain _ _ _ _ _ _ _ _ _ Good) as Pl.
  destruct (crate_schema _ _ _ _ _ _ _ _ _ Good) as (Wf & En & _). destruct (crate_literals _ _ _ _ _ _ _ _ _ Good) as (_ & Ty).
  pose proof (crate_constants _ _ _ _ _ _ _ _ _ t Good) as Co. pose proof (crate_process _ _ _ _ _ _ _ _ _ Good) as A.
  fold c d' in Nm, Pl, Wf, Ty, Co, A.
  destruct (C70_getters c d d' p m j f k A (gc_single _ _ _ _ _ _ _ _ _ Good) G N Fq Sy K) as (m' & f' & v & G' & N' & Mc & _ & Gt & Dn & _).
  cbn in Gt. destruct (f_default f') as [s|] eqn:Df; [|discriminate].
  pose proof (nth_error_In _ _ N') as I'.
  assert (Nf : f_name f' = sanitize_keyword (f_name f)).
  { pose proof (process_message c d d' A p) as R. rewrite G, G' in R. inversion R as [|x y F E1 E2]; subst.
    destruct (Forall2_nth_l _ _ _ _ _ (visible_rel c d p m m' F) N) as (f1 & N1 & FF). assert (f1 = f') by congruence. subst f1. exact (ff_name _ _ _ _ _ _ FF). }
  exists m', f', v. repeat match goal with |- _ /\ _ => split end; auto.
  - exact (Ty _ _ _ Gt).
  - exact (const_is g d' d4 t names (rust_lit d') Pl Wf Co p m' f' s v G' I' Mc Df Gt).
  - intros depth ss Ok. unfold GenSpec.message_ok in Ok. rewrite G' in Ok.
    destruct (const_written g d' (rust_lit d') Pl Wf p m' f' G' I' Mc) as (_ & _ & _ & _ & Gty).
    pose proof (slot_of_field g m' j f' N') as Sl. fold c in Sl. unfold c in Gty. fold c in Gty. rewrite Gty in Sl.
    assert (Lt : (j < length ss)%nat).
    { apply slots_ok_Forall2, GenLaws.Forall2_len in Ok. rewrite <- Ok. apply nth_error_Some. unfold c. rewrite <- (named_types g m'). fold c. now rewrite nth_error_map, Sl. }
    destruct (nth_error ss j) as [s0|] eqn:Es; [|apply nth_error_None in Es; lia].
    pose proof (slot_fits g d' m' j _ _ ss s0 Sl Ok Es) as Fit. cbn in Fit.
    exists s0. split; [reflexivity|].
    assert (Sh : match s0 with SlNone => True | SlSome x => val_ok d' c (f_typ f') x | _ => False end) by (destruct s0; try contradiction; auto).
    split; [destruct s0; try contradiction; eauto|].
    destruct (g_getters g) eqn:Gg.
    + pose proof (pn_fields _ _ Pl p m' G') as Nd.
      exact (getter_is g d' d4 t names (rust_lit d') Pl Wf Co depth p m' f' s v s0 ss Gg G' I' Mc Df Gt (slot_there g d' _ ss j _ _ s0 Nd Sl Es) Sh).
    + exact (no_getter g d' d4 t names depth p m' _ _ G' Gg).
Qed.
Print Assumptions C84_crate_getters_partial.

Theorem C84_crate_path : forall check fs search n file d g d4 root t,
  good_crate check fs search n file d g d4 root ->
  let d' := after_escape (g_passes g) d4 in
  forall pre k m, get_message d (pre ++ [k]) = Some m -> m_imported m = false ->
  trait_const t (crates_names root d') (generated_program g d' d4) "MessageInfo" "PATH" (pre ++ [k]) =
  if g_gen_info g
  then Some (XBytes (eight_bits (list_ascii_of_string
    (join_with "." (d_module d :: map (fun x => "mod_" ++ x)%string (names_in (d_messages d) pre) ++ [sanitize_keyword (m_name m)])))))
  else None.
Proof.
  intros check fs search n file d g d4 root t Good d' pre k m G Im. pose proof (crate_process _ _ _ _ _ _ _ _ _ Good) as A. fold d' in A.
  pose proof (process_head (g_passes g) d d' A (pre ++ [k])) as H. rewrite G in H. inversion H as [|x m' HF E1 E2]; subst. symmetry in E2.
  rewrite <- (C72_paths check fs search n file d (g_passes g) d' pre k m m' (gc_read _ _ _ _ _ _ _ _ _ Good) A G Im E2).
  apply (path_is g d' d4 t _ (pre ++ [k]) m' E2). rewrite (hf_module _ _ HF), (hf_name _ _ HF).
  pose proof (schema_message_of d _ m (gc_names _ _ _ _ _ _ _ _ _ Good) G) as S. unfold schema_message in S. rewrite !andb_true_iff in S.
  destruct S as ((((S1 & S2) & _) & _) & _). rewrite !all_chars_app, (module_printed _ S2). cbn [all_chars].
  pose proof (escaped_name _ S1) as Q. apply andb_true_iff in Q. destruct Q as (Q & _). apply ident_word in Q.
  rewrite (all_chars_imp is_word printed_char _ word_printed Q). reflexivity.
Qed.
Print Assumptions C84_crate_path.

(** the crate of C90, made with --generate-getters and --gen-info: a default that is a
    constant of an imported enum, and the default of a field of an imported message *)
Example C84_crate_case : good_crate true crate_fs [path_of ""] 3 (path_of "app.proto") crate_d textConfig crate_d4 crate_root /\
  g_getters textConfig = true /\ g_gen_info textConfig = true /\ d_syntax crate_d = Proto2 /\
  (exists m f k, get_message crate_d [0]%nat = Some m /\ nth_error (visible_fields meanConfig m) 1 = Some f /\ f_name f = "color" /\
     f_freq f = P2Optional /\ m_imported m = false /\ declares_default crate_d m f k) /\
  (exists m f k, get_message crate_d [1; 0]%nat = Some m /\ nth_error (visible_fields meanConfig m) 0 = Some f /\ f_name f = "s" /\
     f_freq f = P2Optional /\ m_imported m = true /\ declares_default crate_d m f k) /\
  const_of mean_target crate_names_of crate_prog [0]%nat "DEFAULT_color" = Some (XEnum (mkEidx [] 0) 3) /\
  struct_method mean_target crate_names_of crate_prog 0 [0]%nat "get_color"
    (XStruct [0]%nat [("id", XUnit); ("color", XOpt None); ("parts", XList []); ("type_pb", XMap [])]) = Some (XEnum (mkEidx [] 0) 3) /\
  const_of mean_target crate_names_of crate_prog [1; 0]%nat "DEFAULT_s" = Some (XBytes (map zb [120])) /\
  struct_method mean_target crate_names_of crate_prog 0 [1; 0]%nat "get_s"
    (XStruct [1; 0]%nat [("s", XOpt None); ("back", XOpt None)]) = Some (XBytes (map zb [120])) /\
  trait_const mean_target crate_names_of crate_prog "MessageInfo" "PATH" [0]%nat = Some (XBytes (eight_bits (list_ascii_of_string "app.Node"))).
Proof.
  split; [exact crate_good|].
  assert (Dd : forall p j nm im, (exists m f, get_message crate_d p = Some m /\ nth_error (visible_fields meanConfig m) j = Some f /\ f_name f = nm /\
      f_freq f = P2Optional /\ m_imported m = im /\ f_default f <> None) ->
    exists m f k, get_message crate_d p = Some m /\ nth_error (visible_fields meanConfig m) j = Some f /\ f_name f = nm /\
      f_freq f = P2Optional /\ m_imported m = im /\ declares_default crate_d m f k).
  { intros p j nm im (m & f & G & N & E1 & E2 & E3 & E4).
    assert (Of : field_of m f) by (left; apply nth_error_In in N; unfold visible_fields in N; apply filter_In in N; tauto).
    destruct (crate_defaults p m f G Of E4) as (k & K). exists m, f, k. repeat match goal with |- _ /\ _ => split end; assumption. }
  repeat match goal with |- _ /\ _ => split end; try (vm_compute; reflexivity).
  - apply Dd. eexists _, _. split; [vm_compute; reflexivity|]. split; [vm_compute; reflexivity|]. repeat match goal with |- _ /\ _ => split end; try reflexivity. discriminate.
  - apply Dd. eexists _, _. split; [vm_compute; reflexivity|]. split; [vm_compute; reflexivity|]. repeat match goal with |- _ /\ _ => split end; try reflexivity. discriminate.
Qed.
