(** C84: the constants, the getters and [PATH] of the generated files. *)
From Coq Require Import String Ascii Arith ZArith Lia Bool.
From Verif Require Import Props_EndToEnd Props_Safety Props_Paths Props_Passes Props_Accepted Props_Generated Props_Defaults Props_TypeCheck Props_Literals Props_Text Props_Info.
From Verif Require Import Base KeywordFacts Utf8Facts Reader PackedFixed Writer Sizeofs Spec Schema Keywords Modules Passes Gen GenSem GenSpec GenRecords GenType GenSame GenCheck.
From Verif Require Import Cycles CycleFacts BreakFacts IndexFacts Pipeline PassFacts ResolveFacts AcceptFacts Parser ProtoText FileText ParserOut Import
  Paths PathFacts PlaceFacts.
From Verif Require Import RustTypes Emit Literals Output GenText RustLex RustAst RustParse GenAst GenAstFacts LexFacts GenGood RustLit RustSem Meaning
  MeanFacts MeanSize MeanWrite MeanRead MeanConst MeanNames MeanGet Props_Meaning.
Import Schema StringSyntax.
Local Open Scope string_scope.
Local Open Scope list_scope.
Local Open Scope Z_scope.

Lemma all_chars_imp : forall (P Q : ascii -> bool) s, (forall a, P a = true -> Q a = true) -> all_chars P s = true -> all_chars Q s = true.
Proof. induction s as [|a s IH]; intros H K; [reflexivity|]. cbn [all_chars] in *. apply andb_true_iff in K. destruct K as (A & B). now rewrite (H a A), (IH H B). Qed.
Lemma word_printed : forall a, is_word a = true -> printed_char a = true.
Proof. intros [[] [] [] [] [] [] [] []] H; vm_compute in H |- *; congruence. Qed.
Lemma split_printed : forall s, forallb rust_name (split_on "." s) = true -> all_chars printed_char s = true.
Proof.
  intros s H. assert (K : forallb (all_chars printed_char) (split_on "." s) = true).
  { rewrite forallb_forall in *. intros x I. apply H in I. apply andb_true_iff in I. apply (all_chars_imp is_word); [exact word_printed|]. now apply ident_word. }
  clear H. revert K. induction s as [|a s IH]; cbn [split_on]; [reflexivity|]. cbn [all_chars]. destruct (Ascii.eqb_spec a ".") as [->|_].
  - cbn [forallb]. exact IH.
  - pose proof (split_on_nonempty "." s) as N. destruct (split_on "." s) as [|p ps]; [contradiction|]. cbn [forallb all_chars] in *.
    rewrite !andb_true_iff. intros ((A & B) & C). split; [exact A|]. apply IH. now rewrite B, C.
Qed.
Lemma module_printed : forall s, module_ok s = true -> all_chars printed_char s = true.
Proof. unfold module_ok. intros s H. apply orb_true_iff in H. destruct H as [H|H]; [apply String.eqb_eq in H; now subst s|now apply split_printed]. Qed.

(** What the getter of a field gives: the value of the field, and the default when
    there is none. *)
Definition value_or (s : slot) (v : value) : value := match s with SlSome x => x | _ => v end.

(** C84.  An optional field with a default has a constant in the text of the file,
    and it is the default that the schema declares.  With --generate-getters the
    file has a getter, and, on any value of the message, Rust's run of it gives the
    value of the field or that default.  Without the option there are no getters. *)
Theorem C84_getters_partial : forall check fs search n file d g d4 root stem t,
  good_file check fs search n file d g d4 root stem ->
  let c := g_passes g in let d' := after_escape c d4 in
  let names := crate_names root d' stem in let prog := generated_program g d' d4 in
  forall p m j f k, get_message d p = Some m -> nth_error (visible_fields c m) j = Some f -> f_freq f = P2Optional -> d_syntax d = Proto2 ->
  declares_default d m f k ->
  exists m' f' v, get_message d' p = Some m' /\ nth_error (visible_fields c m') j = Some f' /\ f_name f' = sanitize_keyword (f_name f) /\
    denotes (f_typ f) k v /\ val_ok d' c (f_typ f') v /\
    const_of t names prog p ("DEFAULT_" ++ f_name f')%string = Some (rust_value d' c (f_typ f') v) /\
    forall depth ss, GenSpec.message_ok d' c p ss ->
    exists s, nth_error ss j = Some s /\ (s = SlNone \/ exists x, s = SlSome x) /\
      struct_method t names prog depth p ("get_" ++ f_name f')%string (rust_struct d' c p m' ss) =
      if g_getters g then Some (rust_value d' c (f_typ f') (value_or s v)) else None.
Proof.
  intros check fs search n file d g d4 root stem t Good c d' names prog p m j f k G N Fq Sy K.
  pose proof (good_names _ _ _ _ _ _ _ _ _ _ Good) as Nm. pose proof (good_plain _ _ _ _ _ _ _ _ _ _ Good) as Pl.
  destruct (good_schema _ _ _ _ _ _ _ _ _ _ Good) as (Wf & En & _). destruct (good_literals _ _ _ _ _ _ _ _ _ _ Good) as (_ & Ty).
  pose proof (good_constants _ _ _ _ _ _ _ _ _ _ t Good) as Co. pose proof (good_process _ _ _ _ _ _ _ _ _ _ Good) as A.
  fold c d' in Nm, Pl, Wf, Ty, Co, A.
  destruct (C70_getters c d d' p m j f k A (gf_single _ _ _ _ _ _ _ _ _ _ Good) G N Fq Sy K) as (m' & f' & v & G' & N' & Mc & _ & Gt & Dn & _).
  cbn in Gt. destruct (f_default f') as [s|] eqn:Df; [|discriminate].
  pose proof (nth_error_In _ _ N') as I'.
  assert (Nf : f_name f' = sanitize_keyword (f_name f)).
  { pose proof (process_message c d d' A p) as R. rewrite G, G' in R. inversion R as [|x y F E1 E2]; subst.
    destruct (Forall2_nth_l _ _ _ _ _ (visible_rel c d p m m' F) N) as (f1 & N1 & FF). assert (f1 = f') by congruence. subst f1. exact (ff_name _ _ _ _ _ _ FF). }
  exists m', f', v. repeat match goal with |- _ /\ _ => split end; auto.
  - exact (Ty _ _ _ Gt).
  - exact (const_is g d' d4 t names (rust_lit d') Pl Wf Co p m' f' s v G' I' Mc Df Gt).
  - intros depth ss Ok. unfold GenSpec.message_ok in Ok. rewrite G' in Ok.
    destruct (const_written g d' (rust_lit d') Pl Wf p m' f' G' I' Mc) as (_ & _ & _ & _ & Gty).
    pose proof (slot_of_field g m' j f' N') as Sl. fold c in Sl. unfold c in Gty. fold c in Gty. rewrite Gty in Sl.
    assert (Lt : (j < length ss)%nat).
    { apply slots_ok_Forall2, GenLaws.Forall2_len in Ok. rewrite <- Ok. apply nth_error_Some. unfold c. rewrite <- (named_types g m'). fold c. now rewrite nth_error_map, Sl. }
    destruct (nth_error ss j) as [s0|] eqn:Es; [|apply nth_error_None in Es; lia].
    pose proof (slot_fits g d' m' j _ _ ss s0 Sl Ok Es) as Fit. cbn in Fit.
    exists s0. split; [reflexivity|].
    assert (Sh : match s0 with SlNone => True | SlSome x => val_ok d' c (f_typ f') x | _ => False end) by (destruct s0; try contradiction; auto).
    split; [destruct s0; try contradiction; eauto|].
    destruct (g_getters g) eqn:Gg.
    + pose proof (pn_fields _ _ Pl p m' G') as Nd.
      exact (getter_is g d' d4 t names (rust_lit d') Pl Wf Co depth p m' f' s v s0 ss Gg G' I' Mc Df Gt (slot_there g d' _ ss j _ _ s0 Nd Sl Es) Sh).
    + exact (no_getter g d' d4 t names depth p m' _ _ G' Gg).
Qed.
Print Assumptions C84_getters_partial.

(** C84.  [PATH] of a message, as the text of the file has it: the path of C72 with
    --gen-info, and no such constant without. *)
Theorem C84_path : forall check fs search n file d g d4 root stem t,
  good_file check fs search n file d g d4 root stem ->
  let d' := after_escape (g_passes g) d4 in
  forall pre k m, get_message d (pre ++ [k]) = Some m -> m_imported m = false ->
  trait_const t (crate_names root d' stem) (generated_program g d' d4) "MessageInfo" "PATH" (pre ++ [k]) =
  if g_gen_info g
  then Some (XBytes (eight_bits (list_ascii_of_string
    (join_with "." (d_module d :: map (fun x => "mod_" ++ x)%string (names_in (d_messages d) pre) ++ [sanitize_keyword (m_name m)])))))
  else None.
Proof.
  intros check fs search n file d g d4 root stem t Good d' pre k m G Im. pose proof (good_process _ _ _ _ _ _ _ _ _ _ Good) as A. fold d' in A.
  pose proof (process_head (g_passes g) d d' A (pre ++ [k])) as H. rewrite G in H. inversion H as [|x m' HF E1 E2]; subst. symmetry in E2.
  rewrite <- (C72_paths check fs search n file d (g_passes g) d' pre k m m' (gf_read _ _ _ _ _ _ _ _ _ _ Good) A G Im E2).
  apply (path_is g d' d4 t _ (pre ++ [k]) m' E2). rewrite (hf_module _ _ HF), (hf_name _ _ HF).
  pose proof (schema_message_of d _ m (gf_names _ _ _ _ _ _ _ _ _ _ Good) G) as S. unfold schema_message in S. rewrite !andb_true_iff in S.
  destruct S as ((((S1 & S2) & _) & _) & _). rewrite !all_chars_app, (module_printed _ S2). cbn [all_chars].
  pose proof (escaped_name _ S1) as Q. apply andb_true_iff in Q. destruct Q as (Q & _). apply ident_word in Q.
  rewrite (all_chars_imp is_word printed_char _ word_printed Q). reflexivity.
Qed.
Print Assumptions C84_path.

(** the file of C80, made with --generate-getters and --gen-info *)
Example C84_case : good_file true (one_file meanSchema) [path_of ""] 2 (path_of "a.proto") mean_d textConfig mean_d4 mean_root "a" /\
  g_getters textConfig = true /\ g_gen_info textConfig = true /\
  (exists m f k, get_message mean_d [0; 0]%nat = Some m /\ nth_error (visible_fields meanConfig m) 0 = Some f /\ f_name f = "match" /\
     f_freq f = P2Optional /\ d_syntax mean_d = Proto2 /\ m_imported m = false /\ declares_default mean_d m f k) /\
  const_of mean_target mean_names mean_prog [0; 0]%nat "DEFAULT_match_pb" = Some (XBytes (map zb [97; 10; 98])) /\
  struct_method mean_target mean_names mean_prog 0 [0; 0]%nat "get_match_pb" (XStruct [0; 0]%nat [("match_pb", XOpt None); ("back", XList [])]) =
    Some (XBytes (map zb [97; 10; 98])) /\
  struct_method mean_target mean_names mean_prog 0 [0; 0]%nat "get_match_pb"
    (XStruct [0; 0]%nat [("match_pb", XOpt (Some (XBytes (map zb [65])))); ("back", XList [])]) = Some (XBytes (map zb [65])) /\
  trait_const mean_target mean_names mean_prog "MessageInfo" "PATH" [0; 0]%nat =
    Some (XBytes (eight_bits (list_ascii_of_string "p.q.mod_Outer.In"))).
Proof.
  split; [exact mean_good|]. repeat match goal with |- _ /\ _ => split end; try (vm_compute; reflexivity).
  destruct (get_message mean_d [0; 0]%nat) as [m|] eqn:G; [|discriminate G].
  destruct (nth_error (visible_fields meanConfig m) 0) as [f|] eqn:N; [|vm_compute in G; injection G as <-; discriminate N].
  assert (E : f_name f = "match" /\ f_freq f = P2Optional /\ m_imported m = false /\ f_default f <> None).
  { vm_compute in G. injection G as <-. vm_compute in N. injection N as <-. repeat split. discriminate. }
  destruct E as (E1 & E2 & E3 & E4).
  assert (Of : field_of m f) by (left; apply nth_error_In in N; unfold visible_fields in N; apply filter_In in N; tauto).
  destruct (gf_defaults _ _ _ _ _ _ _ _ _ _ mean_good _ m f G Of E4) as (k & K).
  exists m, f, k. repeat split; assumption.
Qed.
