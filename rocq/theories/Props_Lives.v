(** Property theorem C95: in every generated file that Rust parses, every
    lifetime that is named is declared. *)
From Coq Require Import String Ascii Arith ZArith Lia Bool.
From Verif Require Import Base Schema Keywords KeywordFacts Modules Passes Gen GenSpec GenCheck Cycles CycleFacts BreakFacts IndexFacts Pipeline PassFacts Props_Passes Props_Generated Props_Accepted Examples
  Lifetime LifetimeFacts Props_Lifetime.
From Verif Require Import RustTypes Emit Uses Output OutputFacts Paths GenText.
From Verif Require Import RustLex RustAst RustParse RustParseFacts GenAst LexFacts GenAstFacts GenAstOk GenGood Props_Text RustLife LifeTree.
Import Schema StringSyntax.
Local Open Scope string_scope.
Local Open Scope list_scope.
Local Open Scope nat_scope.

(** ** Default values *)
Definition silent (y : text) : Prop := exists C ts, piece C y ts /\ lives ts = [].
Lemma number_silent s suffix : number_ok s = true -> all_chars is_word suffix = true -> silent (s ++ suffix)%string.
Proof.
  intros H S. unfold number_ok in H. destruct (scan LNone s) as [t st] eqn:E.
  assert (L : exists w, st = LNum w /\ (t = [] \/ t = [TSym "-"])).
  { destruct t as [|x t]; [destruct st; try discriminate; eauto|]. destruct x as [| | | | |m]; try discriminate. destruct t; [|discriminate].
    destruct st; try discriminate. apply String.eqb_eq in H. subst m. eauto. }
  destruct L as (w & -> & T). pose proof (lexed_app _ _ _ _ _ _ _ E (scan_num_word suffix w S)) as Q. rewrite app_nil_r in Q.
  exists closer, (t ++ [TNum (w ++ suffix)%string]). split; [|destruct T as [-> | ->]; reflexivity].
  exists t, (LNum (w ++ suffix)%string). repeat split; [exact Q|]. intros a A. now apply num_closer.
Qed.
Lemma path_silent l : forallb rust_name l = true -> l <> [] -> silent (path_text l).
Proof.
  intros H N. exists word_closer, (print_names l). split; [|apply lives_names]. apply piece_path; [exact N|]. rewrite forallb_forall in *. intros x I. apply H in I.
  apply andb_true_iff in I. apply I.
Qed.
Lemma float_silent ty s : ty = "f32" \/ ty = "f64" -> special_ok s || number_ok s = true -> silent (float_literal ty s).
Proof.
  intros T H. unfold float_literal. cbv zeta.
  assert (K : forall x, In x ["INFINITY"; "NEG_INFINITY"; "NAN"] -> silent ("::core::" ++ ty ++ "::" ++ x)%string).
  { intros x I. exists (fun _ => false). destruct T as [-> | ->]; repeat (destruct I as [<-|I] || destruct I);
      (eexists; split; [eexists _, _; split; [reflexivity|]; split; [reflexivity|discriminate]|reflexivity]). }
  destruct (String.eqb_spec (map_chars lower s) "inf"); [apply (K "INFINITY"); cbn; auto|].
  destruct (String.eqb_spec (map_chars lower s) "-inf"); [apply (K "NEG_INFINITY"); cbn; auto|].
  destruct (String.eqb_spec (map_chars lower s) "nan"); [apply (K "NAN"); cbn; auto|].
  apply orb_true_iff in H. destruct H as [H|H].
  - unfold special_ok in H. apply existsb_exists in H. destruct H as (x & I & H). apply String.eqb_eq in H. subst x.
    destruct I as [I|[I|[I|[]]]]; congruence.
  - apply number_silent; [exact H|]. destruct T as [-> | ->]; reflexivity.
Qed.
Lemma literal_silent d t s y : (forall q e, get_enum d q = Some e -> schema_enum e = true) -> default_ok t s = true ->
  default_literal d t s = GOk y -> silent y.
Proof.
  intros En H L.
  destruct t; cbn [default_ok default_literal] in *; try discriminate L;
    try (apply ok_inj in L; subst y; first
      [ apply number_silent; [exact H|reflexivity]
      | apply float_silent; [auto|exact H]
      | exists word_closer, [TStr s]; split; [exact (quoted_reads s H)|reflexivity]
      | exists closer; eexists; split;
        [apply borrowed_reads; [eexists _, _; split; [reflexivity|apply (quote_step "("); discriminate]|exact (quoted_reads s H)]|reflexivity]
      | exact (path_silent [s] (andb_true_intro (conj H eq_refl)) ltac:(discriminate)) ]).
  - destruct (String.eqb_spec s "true") as [->|_]; [|destruct (String.eqb_spec s "false") as [->|_]; [|discriminate L]];
      apply ok_inj in L; subst y; (eexists word_closer, _; split; [apply piece_ident; reflexivity|reflexivity]).
  - destruct (get_enum d e) as [en|] eqn:G; [|discriminate L]. apply ok_inj in L. subst y. rewrite modules_text.
    specialize (En _ _ G). unfold schema_enum in En. rewrite !andb_true_iff in En. destruct En as (((A & B) & _) & _).
    assert (Q : (path_text (module_path (en_module en) (en_imported en) (d_package d) ++ [en_name en]) ++ "::" ++ s)%string =
                path_text ((module_path (en_module en) (en_imported en) (d_package d) ++ [en_name en]) ++ [s])).
    { generalize (module_path (en_module en) (en_imported en) (d_package d)) as l. clear. induction l as [|x l IH]; [reflexivity|].
      change ((x :: l) ++ [en_name en]) with (x :: (l ++ [en_name en])). cbn [app].
      rewrite !path_text_cons by (intros E; destruct l; discriminate E). rewrite <- IH, !str_app_assoc. reflexivity. }
    refine (eq_ind_r silent _ Q). apply path_silent; [|apply GenAstFacts.path_nonempty]. rewrite !forallb_app. cbn [forallb]. rewrite A, H, !andb_true_r.
    now apply module_path_names.
  - apply ok_inj in L. subst y. exists closer. eexists. split.
    + apply (borrowed_reads ("b" ++ quoted s)%string); [eexists _, _; split; reflexivity|exact (bytes_reads s H)].
    + reflexivity.
  - apply ok_inj in L. subst y. exists word_closer, [TBStr s]. split; [exact (bytes_reads s H)|reflexivity].
Qed.
Lemma reads_quiet f : default_reads f -> (forall y, f_default f = Some y -> silent y) -> quiet_default f.
Proof.
  intros R S y E. destruct (R y E) as (e & P & O & _ & _ & X & _).
  assert (Q : exp_of y = e) by (eapply exp_of_is; [|exact P|exact O|exact X]; destruct (is_non_cow_string_or_byte (f_typ f)); reflexivity).
  destruct (S y E) as (C & ts & (t & st & A & B & _) & L). destruct P as (t' & st' & A' & B' & _). unfold quiet. rewrite Q.
  rewrite A in A'. injection A' as <- <-. now rewrite <- B', B.
Qed.

(** ** The file *)
Section File.
Variable g : gen_config.
Let c : config := g_passes g.
Variables d d4 : file_descriptor.
Hypothesis before : before_escape c d = GOk d4.
Hypothesis schema : schema_ok d = true.
Hypothesis config : config_ok g = true.
Let d' := after_escape c d4.
Hypothesis right : forall p m, get_message d' p = Some m -> lives_right c d' m.

Lemma get_after p : get_message d' p = option_map msg_sanitize_names (get_message d4 p).
Proof. unfold d', after_escape. now rewrite get_single_module, get_sanitize_names. Qed.
Lemma fields_quiet p m4 : get_message d4 p = Some m4 -> forall f, In f (m_fields (msg_sanitize_names m4)) -> quiet_default f.
Proof.
  intros G f I. destruct (message4 g d d4 before p m4 G) as (m & Gm & [S1 S2 S3 S4 S5 S6]). pose proof (schema_message_of d p m schema Gm) as K. unfold schema_message in K.
  rewrite !andb_true_iff in K. destruct K as ((((A & B) & F) & O) & E). rewrite forallb_forall in F.
  assert (P : m_fields (msg_sanitize_names m4) = map (fun f => set_fname f (sanitize_keyword (f_name f))) (m_fields m4)) by now destruct m4.
  rewrite P in I. apply in_map_iff in I. destruct I as (f4 & <- & I). destruct (Forall2_in_r _ _ _ S5 f4 I) as (f0 & I0 & Pr).
  specialize (F f0 I0). apply reads_quiet.
  - exact (proj2 (field_good4 d schema f0 f4 F Pr)).
  - cbn. intros y D. destruct Pr as (_ & L). destruct (L y D) as (s & Y & Q & Li). unfold schema_field in F. apply andb_true_iff in F. destruct F as [_ F].
    rewrite Y, <- Q in F. exact (literal_silent d _ _ _ (fun q e => schema_enum_of d q e schema) F Li).
Qed.
Lemma kv_lives x : item_lives [] (kv_alias x). Proof. split; reflexivity. Qed.
Lemma use_lives p u : item_lives [] (RIUse p u). Proof. exact Logic.I. Qed.
Ltac uses := repeat match goal with
  | |- items_live _ (_ ++ _) => apply items_app
  | |- items_live _ (only _ _) => apply items_only
  | |- items_live _ (if ?b then _ else _) => destruct b
  | |- items_live _ [] => apply items_nil
  | |- items_live _ (_ :: _) => apply items_cons
  | |- item_lives _ (RIUse _ _) => apply use_lives
  | |- item_lives _ (kv_alias _) => apply kv_lives
  end.
Lemma common_live ms : items_live [] (common_uses g d' ms).
Proof. unfold common_uses. uses. Qed.
Lemma use_items_live : items_live [] (use_items g d').
Proof. unfold use_items. cbv zeta. pose proof common_live. uses. apply common_live. Qed.

Lemma message_live : forall m4 p, get_message d4 p = Some m4 -> items_live [] (message_ast g d' d4 (msg_sanitize_names m4) m4).
Proof.
  fix IH 1. intros m4 p G.
  assert (R : lives_right c d' (msg_sanitize_names m4)) by (apply (right p); now rewrite get_after, G).
  pose proof (message_items_live g d' d4 (msg_sanitize_names m4) R (fields_quiet p m4 G)) as Own.
  pose proof (oneof_items_live g d' (msg_sanitize_names m4) R) as One.
  assert (C : forall k x, nth_error (m_messages m4) k = Some x -> get_message d4 (p ++ [k]) = Some x).
  { intros k x N. rewrite get_message_eq in G |- *. exact (get_in_child _ _ _ _ _ G N). }
  destruct m4 as [name fields oneofs rnums rnames imported package messages enums module index].
  cbn [msg_sanitize_names] in Own, One |- *. cbn [message_ast m_messages m_enums] in *. cbn [m_oneofs] in One. apply items_app; [exact Own|].
  clear Own R.
  assert (Go : items_live [] ((fix go (l l0 : list message) {struct l} : list ritem_ :=
    match l, l0 with x :: l', y :: l0' => message_ast g d' d4 x y ++ go l' l0' | _, _ => [] end) (map msg_sanitize_names messages) messages)).
  { assert (Go : forall n, (forall k x, nth_error messages k = Some x -> get_message d4 (p ++ [(n + k)%nat]) = Some x) ->
      items_live [] ((fix go (l l0 : list message) {struct l} : list ritem_ :=
      match l, l0 with x :: l', y :: l0' => message_ast g d' d4 x y ++ go l' l0' | _, _ => [] end) (map msg_sanitize_names messages) messages)).
    { clear - IH. induction messages as [|x l IHl]; intros n H; [apply items_nil|]. apply items_app.
      - apply (IH x (p ++ [(n + 0)%nat])). apply H. reflexivity.
      - apply (IHl (S n)). intros k y N. specialize (H (S k) y N). now rewrite <- plus_n_Sm in H. }
    exact (Go O C). }
  match goal with |- items_live _ (match ?a with _ => _ end) => destruct a end; [match goal with |- items_live _ (match ?a with _ => _ end) => destruct a end;
    [match goal with |- items_live _ (match ?a with _ => _ end) => destruct a end|]|]; try apply items_nil.
  all: apply items_cons; [|apply items_nil]; apply mod_lives;
    repeat match goal with |- items_live _ (_ ++ _) => apply items_app end;
    first [ exact Go | apply common_live | apply items_only; apply items_cons; [apply use_lives|apply items_nil]
          | apply items_flat; intros q Hq; first [apply enum_items_live | apply One; exact Hq] | idtac ].
Qed.
Lemma file_live : file_lives (file_ast g d' d4).
Proof.
  unfold file_lives, file_ast. cbn [file_items]. apply items_app; [apply use_items_live|]. apply items_app; [uses|]. apply items_app.
  - apply items_flat. intros q _. apply items_cons; [apply enum_definition_lives|apply enum_impls_lives].
  - apply items_flat. intros q I. apply filter_In in I. destruct I as [I _].
    assert (E : d_messages d' = map msg_sanitize_names (d_messages d4)) by (unfold d', after_escape, single_module; now destruct (c_single_module c)).
    rewrite E in I. apply combine_map in I. destruct I as (m & I & ->). apply In_nth_error in I. destruct I as (k & I). cbn [fst snd].
    apply (message_live m [k]). rewrite get_message_eq. cbn. now rewrite I.
Qed.
End File.

(** ** C95 *)

(** The file of a schema that follows the rules of the language obeys the rules
    for the names of lifetimes everywhere: in the structs and enums, in the
    headers and methods of all [impl]s, in the constants, and in the owned
    structs with their [unsafe] casts. *)
Theorem C95_lifetime_names : forall g d filename services s d',
  generated g d filename services = (s, None) -> schema_ok d = true -> config_ok g = true -> all_chars not_newline filename = true ->
  protobuf_rules d -> strings_not_packed d -> process (g_passes g) d = GOk d' -> compiles (g_passes g) d' ->
  exists f, parse_rust s = Some f /\ file_lives f.
Proof.
  intros g d filename services s d' H S C F R Sp P Cw. destruct (C78_generated_files_are_rust _ _ _ _ _ H S C F) as (d4 & B & Q).
  eexists. split; [exact Q|]. pose proof P as P0. rewrite process_escape, B in P. injection P as <-. apply (file_live g d d4 B S).
  intros p m G. destruct (C65_lifetimes_partial _ _ _ R Sp P0 Cw p m G) as ((it & E & [D _] & _) & O). split; [eauto|].
  intros o I. destruct (O o I) as (it' & E' & [D' _]). eauto.
Qed.
Print Assumptions C95_lifetime_names.

(** The concrete case: the schema of [C65_case], with owned structs and getters.
    The struct [Node] declares the lifetime, and so do its [impl]s. *)
Definition liveConfig : gen_config :=
  mkGenConfig (g_in textConfig) (g_out textConfig) [] false true cfgC [""] None true false false true true.
Definition declared (l : list ritem_) : list (text * list text) :=
  flat_map (fun i => match i with
                     | RIStruct _ _ n lts _ => [(n, lts)]
                     | RIImpl _ lts (Some (RTPath _ [PSeg t _])) (RTPath _ [PSeg n _]) _ => [((t ++ " for " ++ n)%string, lts)]
                     | _ => []
                     end) l.
Example C95_case : exists s f, generated liveConfig srcD "a.proto" 0 = (s, None) /\ schema_ok srcD = true /\ config_ok liveConfig = true /\
  protobuf_rules srcD /\ strings_not_packed srcD /\ (exists d', process (g_passes liveConfig) srcD = GOk d' /\ compiles (g_passes liveConfig) d') /\
  parse_rust s = Some f /\ file_lives f /\
  declared (file_items f) =
   [("Default for Color", []); ("From for Color", []); ("From for Color", ["a"]); ("Node", ["a"]); ("MessageRead for Node", ["a"]);
    ("MessageWrite for Node", ["a"]); ("MessageInfo for Node", ["a"]); ("NodeOwnedInner", []); ("NodeOwned", []); ("TryFrom for NodeOwned", []);
    ("TryInto for NodeOwned", []); ("From for NodeOwned", []); ("MessageInfo for NodeOwned", []); ("Other", ["a"]); ("MessageRead for Other", ["a"]);
    ("MessageWrite for Other", ["a"]); ("MessageInfo for Other", ["a"]); ("OtherOwnedInner", []); ("OtherOwned", []); ("TryFrom for OtherOwned", []);
    ("TryInto for OtherOwned", []); ("From for OtherOwned", []); ("MessageInfo for OtherOwned", [])].
Proof.
  destruct C65_case as (R & Sp & K & _).
  destruct (process cfgC srcD) as [d'|e] eqn:P; [|destruct K]. destruct K as (Cw & _).
  destruct (generated liveConfig srcD "a.proto" 0) as [s w] eqn:G.
  assert (W : w = None) by (change w with (snd (s, w)); rewrite <- G; vm_compute; reflexivity). subst w.
  assert (S : schema_ok srcD = true) by (vm_compute; reflexivity). assert (C : config_ok liveConfig = true) by (vm_compute; reflexivity).
  destruct (C95_lifetime_names liveConfig srcD "a.proto" 0 s d' G S C eq_refl R Sp P Cw) as (f & Q & L).
  exists s, f. repeat match goal with |- _ /\ _ => split end; try assumption; try reflexivity; eauto.
  assert (E : option_map (fun f => declared (file_items f)) (parse_rust (fst (generated liveConfig srcD "a.proto" 0))) =
    Some [("Default for Color", []); ("From for Color", []); ("From for Color", ["a"]); ("Node", ["a"]); ("MessageRead for Node", ["a"]);
    ("MessageWrite for Node", ["a"]); ("MessageInfo for Node", ["a"]); ("NodeOwnedInner", []); ("NodeOwned", []); ("TryFrom for NodeOwned", []);
    ("TryInto for NodeOwned", []); ("From for NodeOwned", []); ("MessageInfo for NodeOwned", []); ("Other", ["a"]); ("MessageRead for Other", ["a"]);
    ("MessageWrite for Other", ["a"]); ("MessageInfo for Other", ["a"]); ("OtherOwnedInner", []); ("OtherOwned", []); ("TryFrom for OtherOwned", []);
    ("TryInto for OtherOwned", []); ("From for OtherOwned", []); ("MessageInfo for OtherOwned", [])]) by (vm_compute; reflexivity).
  rewrite G in E. cbn [fst] in E. rewrite Q in E. now injection E.
Qed.

(** Both hypotheses of C65 are needed here too.  With --dont-use-cow the struct
    [B] mentions a lifetime that it does not declare; and with the option
    [packed] on a singular field the struct [A] declares one that it does not
    use. *)
Definition cowD : file_descriptor :=
  set_own_package (mkDesc "p" Proto3 [msg "A" [fd "x" P3Repeated TFixed32 1] [] []; msg "B" [fd "a" P3Optional (TMessageOrEnum "A") 1] [] []] [] "p").
Definition packD : file_descriptor := file Proto2 [msg "A" [mkField "x" P2Optional TFixed32 1 None (Some true) false false] [] []].
Definition with_passes (c : config) : gen_config :=
  mkGenConfig (g_in textConfig) (g_out textConfig) [] false true c [""] None true false false true true.
Definition struct_named (n : text) (f : rfile) : option (list text * list rty_) :=
  match find (fun i => match i with RIStruct _ _ n' _ _ => String.eqb n' n | _ => false end) (file_items f) with
  | Some (RIStruct _ _ _ lts fs) => Some (lts, map rf_type fs)
  | _ => None
  end.
Lemma named_lives n f lts ts : struct_named n f = Some (lts, ts) -> file_lives f -> data_lives lts ts.
Proof.
  unfold struct_named. destruct (find _ _) as [i|] eqn:E; [|discriminate]. apply find_some in E. destruct E as [I _].
  destruct i; try discriminate. intros H L. injection H as <- <-. exact (L _ I).
Qed.
Theorem C95_dont_use_cow_refuted : exists g d s f d', generated g d "a.proto" 0 = (s, None) /\ schema_ok d = true /\ config_ok g = true /\
  strings_not_packed d /\ process (g_passes g) d = GOk d' /\ parse_rust s = Some f /\ ~ file_lives f.
Proof.
  pose (g := with_passes cfgOwn).
  destruct (generated g cowD "a.proto" 0) as [s w] eqn:G.
  assert (W : w = None) by (change w with (snd (s, w)); rewrite <- G; vm_compute; reflexivity). subst w.
  assert (E : match parse_rust (fst (generated g cowD "a.proto" 0)) with Some f => struct_named "B" f | None => None end =
    Some ([], [RTPath false [PSeg "Option" [GType (RTPath false [PSeg "p" []; PSeg "A" [GLife "a"]])]]])) by (vm_compute; reflexivity).
  rewrite G in E. cbn [fst] in E. destruct (parse_rust s) as [f|] eqn:Q; [|discriminate].
  destruct (process (g_passes g) cowD) as [d'|] eqn:P; [|vm_compute in P; discriminate].
  exists g, cowD, s, f, d'. repeat match goal with |- _ /\ _ => split end; try assumption; try (vm_compute; reflexivity).
  - intros p m h Gm Hf. apply get_message_in in Gm. apply field_of_all in Hf. cbn in Gm. decompose [or] Gm; try contradiction;
      match goal with K : _ = _ |- _ => injection K as <- <- end; cbn in Hf; decompose [or] Hf; subst; try contradiction; discriminate.
  - intros L. destruct (named_lives _ _ _ _ E L) as (_ & K & _). destruct (proj1 (K _ (or_introl eq_refl)) "a") as [[]|[X|X]]; [now left|discriminate|discriminate].
Qed.
Print Assumptions C95_dont_use_cow_refuted.

Theorem C95_packed_singular_refuted : exists g d s f d', generated g d "a.proto" 0 = (s, None) /\ schema_ok d = true /\ config_ok g = true /\
  process (g_passes g) d = GOk d' /\ compiles (g_passes g) d' /\ parse_rust s = Some f /\ ~ file_lives f.
Proof.
  pose (g := with_passes cfgC).
  destruct (generated g packD "a.proto" 0) as [s w] eqn:G.
  assert (W : w = None) by (change w with (snd (s, w)); rewrite <- G; vm_compute; reflexivity). subst w.
  assert (E : match parse_rust (fst (generated g packD "a.proto" 0)) with Some f => struct_named "A" f | None => None end =
    Some (["a"], [RTPath false [PSeg "Option" [GType (RTPath false [PSeg "u32" []])]]])) by (vm_compute; reflexivity).
  rewrite G in E. cbn [fst] in E. destruct (parse_rust s) as [f|] eqn:Q; [|discriminate].
  destruct (process (g_passes g) packD) as [d'|] eqn:P; [|vm_compute in P; discriminate].
  exists g, packD, s, f, d'. repeat match goal with |- _ /\ _ => split end; try assumption; try (vm_compute; reflexivity).
  - discriminate.
  - intros L. destruct (named_lives _ _ _ _ E L) as (_ & _ & K). destruct (K "a") as (t & [<-|[]] & I); [now left|]. cbn in I. exact I.
Qed.
Print Assumptions C95_packed_singular_refuted.
