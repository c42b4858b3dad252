(** C80 with [-C]: what the text of the generated files does where derives are
    asked for. *)
From Coq Require Import String Ascii Arith ZArith Lia Bool.
From Verif Require Import Props_EndToEnd Props_Safety Props_Paths Props_Passes Props_Accepted Props_Generated Props_Defaults Props_TypeCheck Props_Literals
  Props_Text Props_Meaning.
From Verif Require Import Base Utf8Facts Reader PackedFixed Writer Sizeofs Spec Schema Keywords Modules Passes Gen GenSem GenSpec GenRecords GenType GenSame GenCheck.
From Verif Require Import Cycles CycleFacts BreakFacts IndexFacts Pipeline PassFacts ResolveFacts AcceptFacts Parser ProtoText FileText ParserOut Import
  Paths PathFacts PlaceFacts.
From Verif Require Import RustTypes Emit Literals Output GenText RustLex RustAst RustParse GenAst LexFacts GenGood RustLit RustSem Meaning
  MeanFacts MeanSize MeanWrite MeanRead MeanConst MeanNames.
Import Schema StringSyntax.
Local Open Scope string_scope.
Local Open Scope list_scope.
Local Open Scope Z_scope.

(** ** Where [Default] is written for each message *)

Definition keptSchema : text := "package p; message A { required int32 x = 1 [default = 5]; optional A o = 2; repeated string s = 3; }"%string.
Definition kept_g : gen_config := with_derive ["Eq"; "Hash"].
Definition kept_d : file_descriptor := Eval vm_compute in match read_one keptSchema with ROk d => d | _ => mkDesc "" Proto2 [] [] "" end.
Definition kept_d4 : file_descriptor := Eval vm_compute in match before_escape meanConfig kept_d with GOk d => d | _ => mkDesc "" Proto2 [] [] "" end.
Definition kept_d' : file_descriptor := Eval vm_compute in after_escape meanConfig kept_d4.
Definition kept_root : ritems := [("p", IMod true (emit_file kept_d'))].
Lemma kept_after : after_escape meanConfig kept_d4 = kept_d'.
Proof. vm_compute. reflexivity. Qed.
Ltac no_enum q G :=
  unfold get_enum in G; destruct q as [[|? ?] pos]; cbn [e_msg e_pos] in G;
  [cbn in G; destruct pos; discriminate G|];
  let K := fresh in match type of G with match ?x with _ => _ end = _ => destruct x eqn:K; [each_message K; cbn in G; destruct pos; discriminate G|discriminate G] end.
Lemma kept_good_but : forall g, g_passes g = meanConfig -> default_kept g kept_d' ->
  good_file true (one_file keptSchema) [path_of ""] 2 (path_of "a.proto") kept_d g kept_d4 kept_root "p".
Proof.
  intros g Pg De. constructor; rewrite ?Pg; fold kept_d'; rewrite ?kept_after.
  - vm_compute. reflexivity.
  - apply rules_check.
    + cbn. intros p m H. decompose [or] H; try contradiction; match goal with K : _ = _ |- _ => injection K as <- <- end;
        (split; [reflexivity|]); cbn; distinct_texts.
    + repeat constructor; discriminate.
  - vm_compute. reflexivity.
  - vm_compute. reflexivity.
  - discriminate.
  - intros p m f G Hf Nf. apply field_of_all in Hf. each_message G; vm_compute in Hf;
      repeat (destruct Hf as [<-|Hf]); try destruct Hf; try (now destruct Nf).
    eexists. eapply (dd_literal _ _ _ [("default", "5")]); [exact Logic.I|reflexivity|vm_compute; reflexivity|vm_compute; reflexivity|vm_compute; reflexivity|vm_compute; intuition discriminate].
  - intros X. discriminate X.
  - constructor.
    + repeat constructor; discriminate.
    + right. vm_compute. repeat (constructor; [split; [discriminate|reflexivity]|]). constructor.
    + discriminate.
    + apply (laid_out_ok _ _ _ true); vm_compute; reflexivity.
    + vm_compute. reflexivity.
    + intros s l E. vm_compute in E. injection E as <- <-. intros X. apply declared_names, mem_text_in in X. vm_compute in X. discriminate X.
    + intros i m G. each_message G; (split; [reflexivity|]); repeat split; discriminate.
    + intros q e G. no_enum q G.
    + intros i m G _. each_message G; vm_compute; reflexivity.
    + intros q e G. no_enum q G.
  - constructor.
    + intros i m G. each_message G; cbn; distinct_texts.
    + intros i m o G H. each_message G; cbn in H; repeat (destruct H as [<-|H]); try destruct H; cbn; distinct_texts.
    + intros q e G. no_enum q G.
  - exact De.
Qed.
Lemma kept_default : default_kept kept_g kept_d'.
Proof. right. intros i m G. each_message G; vm_compute; reflexivity. Qed.
Example C80_derive_case : exists s f,
  good_file true (one_file keptSchema) [path_of ""] 2 (path_of "a.proto") kept_d kept_g kept_d4 kept_root "p" /\
  generated kept_g kept_d "a.proto" 0 = (s, None) /\ config_ok kept_g = true /\ parse_rust s = Some f /\
  derive_of f "A" = [idents ["Eq"; "Hash"; "Debug"; "PartialEq"; "Clone"]] /\
  struct_default mean_target (crate_names kept_root kept_d' "p") (generated_program kept_g kept_d' kept_d4) (default_depth kept_d') [0%nat] =
    Some (XStruct [0%nat] [("x", XInt 5); ("o", XOpt None); ("s", XList [])]).
Proof.
  let r := eval vm_compute in (fst (generated kept_g kept_d "a.proto" 0)) in exists r.
  match goal with |- exists f, _ /\ generated _ _ _ _ = (?s, _) /\ _ => let r := eval vm_compute in (parse_rust s) in match r with Some ?f => exists f end end.
  split; [exact (kept_good_but kept_g eq_refl kept_default)|]. repeat match goal with |- _ /\ _ => split end; vm_compute; reflexivity.
Qed.

(** ** Where it is not *)

(** The condition cannot be left out.  With [-C Serialize] a file that is good
    without [-C] is generated and is Rust, but a message without default values
    of its own has no [Default], which reading it needs. *)
Theorem C80_derive_refuted : exists fs d d4 root stem i m s f t,
  good_file true fs [path_of ""] 2 (path_of "a.proto") d (with_derive [""]) d4 root stem /\
  let g := with_derive ["Serialize"] in let d' := after_escape (g_passes g) d4 in
  let names := crate_names root d' stem in let prog := generated_program g d' d4 in
  config_ok g = true /\ generated g d "a.proto" 0 = (s, None) /\ parse_rust s = Some f /\
  get_message d' i = Some m /\ derives_default (message_attrs g d' m) = false /\
  struct_default t names prog (default_depth d') i = None /\
  GenSem.message_default d' (g_passes g) (rust_lit d') i <> None.
Proof.
  exists (one_file meanSchema), mean_d, mean_d4, mean_root, "a", [0; 0]%nat.
  let r := eval vm_compute in (get_message mean_d' [0; 0]%nat) in match r with Some ?m => exists m end.
  let r := eval vm_compute in (fst (generated (with_derive ["Serialize"]) mean_d "a.proto" 0)) in exists r.
  let s := eval vm_compute in (fst (generated (with_derive ["Serialize"]) mean_d "a.proto" 0)) in
  let r := eval vm_compute in (parse_rust s) in match r with Some ?f => exists f end.
  exists mean_target. split; [exact mean_good|]. cbv zeta.
  repeat match goal with |- _ /\ _ => split end; try (vm_compute; reflexivity). vm_compute. discriminate.
Qed.
Print Assumptions C80_derive_refuted.

(** ** C79 where [Default] is derived *)

Lemma join_tokens_exact : forall l, l <> [] -> forallb ident l = true -> exists t w, lexed LNone (join_with ", " l) t (LWord w) /\
  forall x, In x l <-> In (TWord x) (t ++ [TWord w]).
Proof.
  induction l as [|y l IH]; intros N H; [contradiction|]. cbn [forallb] in H. apply andb_true_iff in H. destruct H as [A H].
  destruct l as [|z l].
  - exists [], y. split; [exact (scan_ident y A)|]. intros x. cbn. intuition congruence.
  - destruct IH as (t & w & L & K); [discriminate|exact H|]. exists (TWord y :: TSym "," :: t), w. split.
    + rewrite KeywordFacts.join_cons by discriminate. change (TWord y :: TSym "," :: t) with ([] ++ [TWord y; TSym ","] ++ t).
      eapply lexed_app; [exact (scan_ident y A)|]. eapply lexed_app; [|exact L]. reflexivity.
    + intros x. specialize (K x). cbn [In app] in *. intuition congruence.
Qed.
Lemma join_last : forall l z s, (join_with ", " (l ++ [z]) ++ s)%string = join_with ", " (l ++ [(z ++ s)%string]).
Proof.
  induction l as [|y l IH]; intros z s; [reflexivity|]. cbn [app]. rewrite !KeywordFacts.join_cons by (destruct l; discriminate).
  rewrite <- IH, !str_app_assoc. reflexivity.
Qed.
(** the struct of that name has an attribute [derive] with exactly these names *)
Definition derives_exactly (l : list ritem_) (p : list text) (name : text) (traits : list text) : Prop :=
  exists attrs lt fs ts, item_in l p (RIStruct attrs true name lt fs) /\ In (RAttr "derive" (Some ts)) attrs /\
    forall x, In (TWord x) ts <-> In x traits.
(** In every file that is written with [-C] and for every message without a
    default value, the last trait asked for and [Default] become one word: neither
    of the two is derived, unless it is asked for twice. *)
Theorem C79_derives_glued : forall g d filename services s d' f,
  generated g d filename services = (s, None) -> schema_ok d = true -> config_ok g = true -> all_chars not_newline filename = true ->
  process (g_passes g) d = GOk d' -> parse_rust s = Some f ->
  forall p x, nested_in (filter (fun m => negb (m_imported m)) (d_messages d')) p x ->
  message_must_generate_impl_default (d_syntax d') (g_passes g) x = false ->
  forall l z, g_derive g = l ++ [z] -> forallb ident (l ++ [z]) = true ->
  derives_exactly (file_items f) (map (fun n => "mod_" ++ n)%string p) (m_name x) (l ++ [(z ++ "Default")%string; "Debug"; "PartialEq"; "Clone"]).
Proof.
  intros g d filename services s d' f H S C F P Pf p x N M l z E D. destruct (C78_generated_files_are_rust _ _ _ _ _ H S C F) as (d4 & B & Q).
  rewrite process_escape, B in P. injection P as <-. rewrite Q in Pf. injection Pf as <-. change (fun n => ("mod_" ++ n)%string) with in_module.
  pose proof (file_tree g d4 p x N) as A. set (d' := after_escape (g_passes g) d4) in *.
  assert (D2 : forallb ident (l ++ [(z ++ "Default")%string]) = true).
  { rewrite forallb_app in *. apply andb_true_iff in D. destruct D as [D1 D2]. rewrite D1. cbn [forallb] in *. rewrite andb_true_r in *.
    now apply ident_snoc. }
  destruct (join_tokens_exact (l ++ [(z ++ "Default")%string])) as (ts & w & L & K); [destruct l; discriminate|exact D2|].
  assert (T : (derive_text g d' x ++ "Debug, PartialEq, Clone")%string = (join_with ", " (l ++ [(z ++ "Default")%string]) ++ ", Debug, PartialEq, Clone")%string).
  { unfold derive_text. cbv zeta. rewrite E, M. cbn [negb]. rewrite join_last.
    assert (Ne : String.eqb (join_with ", " (l ++ [(z ++ "Default")%string])) "" = false).
    { destruct (String.eqb_spec (join_with ", " (l ++ [(z ++ "Default")%string])) "") as [X|]; [|reflexivity]. rewrite X in L. discriminate L. }
    rewrite Ne. cbn [negb]. rewrite str_app_assoc. reflexivity. }
  assert (St : exists lt fs, definition_item g d' x = RIStruct (message_attrs g d' x) true (m_name x) lt fs).
  { unfold definition_item. destruct (is_unit x); eauto. }
  destruct St as (lt & fs & St). exists (message_attrs g d' x), lt, fs, (tokens_of (derive_text g d' x ++ "Debug, PartialEq, Clone")%string).
  split; [|split].
  - rewrite <- St. apply A. unfold message_items. rewrite in_app_iff. left. now left.
  - unfold message_attrs. right. now left.
  - intros y. rewrite T, (debug_tokens _ _ _ L), in_app_iff, <- (K y), !in_app_iff. cbn [In].
    intuition (try discriminate; try congruence);
      match goal with X : TWord _ = TWord _ |- _ => injection X as <-; auto | _ => idtac end; subst; auto 9.
Qed.
Print Assumptions C79_derives_glued.
Example C79_glued_case : exists d d' s f, read_one "message B { optional int32 y = 1; }" = ROk d /\
  generated (with_derive ["Eq"; "Hash"]) d "a.proto" 0 = (s, None) /\ schema_ok d = true /\ config_ok (with_derive ["Eq"; "Hash"]) = true /\
  process (g_passes (with_derive ["Eq"; "Hash"])) d = GOk d' /\ parse_rust s = Some f /\
  map (message_must_generate_impl_default (d_syntax d') (g_passes (with_derive ["Eq"; "Hash"]))) (d_messages d') = [false] /\
  derive_of f "B" = [idents ["Eq"; "HashDefault"; "Debug"; "PartialEq"; "Clone"]].
Proof.
  let r := eval vm_compute in (read_one "message B { optional int32 y = 1; }") in match r with ROk ?d => exists d;
    let p := eval vm_compute in (process (g_passes (with_derive ["Eq"; "Hash"])) d) in match p with GOk ?d' => exists d' end;
    let s := eval vm_compute in (fst (generated (with_derive ["Eq"; "Hash"]) d "a.proto" 0)) in exists s;
    let f := eval vm_compute in (parse_rust s) in match f with Some ?f => exists f end end.
  repeat match goal with |- _ /\ _ => split end; vm_compute; reflexivity.
Qed.

(** The converse of what C80 needs: with [-C], a message for which [Default] is
    not written has no [Default], in every file, unless [-C] has that trait before
    its last one. *)
Theorem C80_no_default : forall g d d0 t names n i m l z,
  get_message d i = Some m -> message_must_generate_impl_default (d_syntax d) (g_passes g) m = false ->
  g_derive g = l ++ [z] -> forallb ident (l ++ [z]) = true -> ~ In "Default" l ->
  struct_default t names (generated_program g d d0) n i = None.
Proof.
  intros g d d0 t names n i m l z G M E D Nd. destruct n as [|n]; [reflexivity|]. cbn [struct_default].
  rewrite (default_fn_of g d d0 i m G), M, (the_struct_of g d d0 i m G).
  replace (derives_default (message_attrs g d m)) with false; [reflexivity|]. symmetry. apply not_true_is_false. intros X.
  unfold derives_default in X. apply existsb_exists in X. destruct X as (a & I & X).
  unfold message_attrs in I. apply in_app_or in I. destruct I as [I|I];
    [|destruct (g_repr g); [destruct I as [<-|[]]; discriminate X|destruct I]].
  destruct I as [<-|[<-|[]]]; [discriminate X|]. apply existsb_exists in X. destruct X as (k & I & X).
  destruct k; try discriminate X. apply String.eqb_eq in X. subst.
  assert (D2 : forallb ident (l ++ [(z ++ "Default")%string]) = true /\ ident z = true).
  { rewrite forallb_app in *. apply andb_true_iff in D. destruct D as [D1 D2]. rewrite D1. cbn [forallb] in *. rewrite andb_true_r in *.
    split; [now apply ident_snoc|exact D2]. }
  destruct D2 as (D2 & Dz).
  destruct (join_tokens_exact (l ++ [(z ++ "Default")%string])) as (ts & w & L & K); [destruct l; discriminate|exact D2|].
  assert (T : (derive_text g d m ++ "Debug, PartialEq, Clone")%string = (join_with ", " (l ++ [(z ++ "Default")%string]) ++ ", Debug, PartialEq, Clone")%string).
  { unfold derive_text. cbv zeta. rewrite E, M. cbn [negb]. rewrite join_last.
    assert (Ne : String.eqb (join_with ", " (l ++ [(z ++ "Default")%string])) "" = false).
    { destruct (String.eqb_spec (join_with ", " (l ++ [(z ++ "Default")%string])) "") as [Y|]; [|reflexivity]. rewrite Y in L. discriminate L. }
    rewrite Ne. cbn [negb]. rewrite str_app_assoc. reflexivity. }
  rewrite T, (debug_tokens _ _ _ L), in_app_iff, <- (K "Default"), in_app_iff in I. cbn [In] in I.
  decompose [or] I; try contradiction; try discriminate.
  match goal with H : (z ++ "Default")%string = _ |- _ => destruct z as [|c z]; [discriminate Dz|]; apply (f_equal String.length) in H;
    cbn [append String.length] in H; rewrite KeywordFacts.length_append in H; cbn in H; lia end.
Qed.
Print Assumptions C80_no_default.
Example C80_no_default_case :
  (exists m, get_message mean_d' [0; 0]%nat = Some m /\
     message_must_generate_impl_default (d_syntax mean_d') (g_passes (with_derive ["Eq"; "Hash"])) m = false) /\
  struct_default mean_target mean_names (generated_program (with_derive ["Eq"; "Hash"]) mean_d' mean_d4) (default_depth mean_d') [0; 0]%nat = None /\
  struct_default mean_target mean_names (generated_program (with_derive [""]) mean_d' mean_d4) (default_depth mean_d') [0; 0]%nat <> None.
Proof.
  split; [|split].
  - eexists. split; [vm_compute; reflexivity|]. vm_compute. reflexivity.
  - vm_compute. reflexivity.
  - vm_compute. discriminate.
Qed.
