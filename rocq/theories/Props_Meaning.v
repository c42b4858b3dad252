(** C80 to C82: what the text of the generated files does. *)
From Coq Require Import String Ascii Arith ZArith Lia Bool.
From Verif Require Import Props_EndToEnd Props_Safety Props_Paths Props_Passes Props_Accepted Props_Generated Props_Defaults Props_TypeCheck Props_Literals Props_Text.
From Verif Require Import Base Utf8Facts Reader PackedFixed Writer Sizeofs Spec Schema Keywords Modules Passes Gen GenSem GenSpec GenRecords GenType GenSame GenCheck.
From Verif Require Import Cycles CycleFacts BreakFacts IndexFacts Pipeline PassFacts ResolveFacts AcceptFacts Parser ProtoText FileText ParserOut Import
  Paths PathFacts PlaceFacts.
From Verif Require Import RustTypes Emit Literals Output GenText RustLex RustAst RustParse GenAst LexFacts GenGood RustLit RustSem Meaning
  MeanFacts MeanSize MeanWrite MeanRead MeanConst MeanNames.
Import Schema StringSyntax.
Local Open Scope string_scope.
Local Open Scope list_scope.
Local Open Scope Z_scope.

(** ** The program is in the file *)

(** an item that the file declares itself: the outermost message of a message is
    not imported *)
Definition top_own (d : file_descriptor) (i : midx) : Prop :=
  exists k rest top, i = k :: rest /\ nth_error (d_messages d) k = Some top /\ m_imported top = false.
Definition own_enum (d : file_descriptor) (q : eidx) (e : enumerator) : Prop :=
  match e_msg q with [] => en_imported e = false | i => top_own d i end.
(** The items of the program are in the tree of a file: those of a message in the
    modules of the outer messages, those of its oneofs and enums in its own. *)
Record program_in (prog : program) (d : file_descriptor) (items : list ritem_) : Prop := mkProgramIn {
  pi_struct : forall i m it, get_message d i = Some m -> top_own d i -> In it (p_struct prog i) -> item_in items (mods d i) it;
  pi_oneof : forall i m o it, get_message d i = Some m -> top_own d i -> In o (m_oneofs m) -> In it (p_oneof prog i (o_name o)) ->
    item_in items (own_module d i) it;
  pi_enum : forall q e it, get_enum d q = Some e -> own_enum d q e -> en_fields e <> [] -> In it (p_enum prog q) ->
    item_in items (module_of d (InEnum q)) it }.

Lemma item_app l p it : forall l', item_in l p it -> incl l l' -> item_in l' p it.
Proof. intros l' H S. exact (item_snoc l p it H l' S). Qed.

Section InFile.
Variables (g : gen_config) (d4 : file_descriptor).
Let c := g_passes g.
Let d' := after_escape c d4.
Let items := file_items (file_ast g d' d4).

Lemma messages_of_file : forall k top top0 it, nth_error (d_messages d') k = Some top -> nth_error (d_messages d4) k = Some top0 ->
  m_imported top = false -> In it (message_ast g d' d4 top top0) -> In it items.
Proof.
  intros k top top0 it N N0 I H. unfold items, file_ast. cbn [file_items]. rewrite !in_app_iff. do 3 right. apply in_flat_map. exists (top, top0).
  split; [|exact H]. apply filter_In. cbn [fst]. rewrite I. split; [|reflexivity].
  revert k N N0. generalize (d_messages d4). induction (d_messages d') as [|x l IH]; intros l0 k N N0; [destruct k; discriminate|].
  destruct l0 as [|y l0]; [destruct k; discriminate|]. destruct k as [|k]; cbn in N, N0.
  - injection N as ->. injection N0 as ->. now left.
  - right. exact (IH l0 k N N0).
Qed.
(** the items in the module of a message *)
Definition inner_ast (m m0 : message) : list ritem_ :=
  common_uses g d' (m_messages m)
  ++ only (match m_messages m, m_oneofs m with [], [] => false | _, _ => true end) [RIUse ["super"] UGlob]
  ++ ((fix go (l l0 : list message) {struct l} : list ritem_ :=
         match l, l0 with
         | x :: l', y :: l0' => message_ast g d' d4 x y ++ go l' l0'
         | _, _ => []
         end) (m_messages m) (m_messages m0))
  ++ flat_map (fun p => enum_items (fst p) (snd p)) (combine (m_enums m) (m_enums m0))
  ++ flat_map (oneof_items g d') (m_oneofs m).
Lemma module_ast : forall m m0, m_messages m <> [] \/ m_enums m <> [] \/ m_oneofs m <> [] ->
  In (RIMod (modn m) (inner_ast m m0)) (message_ast g d' d4 m m0).
Proof.
  intros [name fields oneofs rnums rnames imported package messages enums module index] m0 H. cbn [m_messages m_enums m_oneofs] in H.
  cbn [message_ast]. apply in_or_app. right. destruct messages, enums, oneofs; try (left; reflexivity). now destruct H as [H|[H|H]].
Qed.
Lemma nested_ast : forall m m0 k x x0, nth_error (m_messages m) k = Some x -> nth_error (m_messages m0) k = Some x0 ->
  incl (message_ast g d' d4 x x0) (inner_ast m m0).
Proof.
  intros m m0 k x x0 N N0 it H. unfold inner_ast. rewrite !in_app_iff. do 2 right. left. revert k N N0. generalize (m_messages m0).
  induction (m_messages m) as [|y l IH]; intros l0 k N N0; [destruct k; discriminate|]. destruct l0 as [|y0 l0]; [destruct k; discriminate|].
  apply in_or_app. destruct k as [|k]; cbn in N, N0.
  - injection N as ->. injection N0 as ->. now left.
  - right. exact (IH l0 k N N0).
Qed.
Lemma ast_below : forall rest m m0 x x0 it, below m rest = Some x -> below m0 rest = Some x0 -> In it (message_ast g d' d4 x x0) ->
  item_in (message_ast g d' d4 m m0) (mods_below m rest) it.
Proof.
  induction rest as [|k rest IH]; intros m m0 x x0 it B B0 H; cbn [below mods_below] in *.
  - injection B as ->. injection B0 as ->. now constructor.
  - destruct (nth_error (m_messages m) k) as [y|] eqn:N; [|discriminate]. destruct (nth_error (m_messages m0) k) as [y0|] eqn:N0; [|discriminate].
    eapply item_inside; [apply (module_ast m m0); left; intros E; rewrite E in N; now destruct k|].
    apply item_app with (1 := IH _ _ _ _ _ B B0 H). exact (nested_ast m m0 k y y0 N N0).
Qed.
Lemma ast_of : forall i m, get_message d' i = Some m -> top_own d' i -> exists m0, get_message d4 i = Some m0 /\ m = msg_sanitize_names m0 /\
  forall p it, item_in (message_ast g d' d4 m m0) p it -> item_in items (mods d' i ++ p) it.
Proof.
  intros i m G (k & rest & top & -> & N & I). pose proof G as Gm. unfold d' in G. rewrite (get_message_after g) in G.
  destruct (get_message d4 (k :: rest)) as [m0|] eqn:G0; [|discriminate]. injection G as <-. exists m0. split; [reflexivity|]. split; [reflexivity|].
  rewrite get_message_eq, get_below in Gm, G0. rewrite N in Gm. destruct (nth_error (d_messages d4) k) as [top0|] eqn:N0; [|discriminate].
  intros p it H. unfold mods. rewrite (mods_in_below _ _ _ _ N).
  assert (K : forall it, In it (message_ast g d' d4 (msg_sanitize_names m0) m0) -> item_in items (mods_below top rest) it).
  { intros x X. apply item_app with (1 := ast_below rest top top0 _ _ x Gm G0 X). intros y. exact (messages_of_file k top top0 y N N0 I). }
  clear - K H. revert K H. generalize items (mods_below top rest) (message_ast g d' d4 (msg_sanitize_names m0) m0). intros l q s K H.
  assert (J : forall q l, (forall it, In it s -> item_in l q it) -> item_in l (q ++ p) it).
  { clear - H. destruct H as [s it I|s n sub p it I H]; intros q l K.
    - rewrite app_nil_r. auto.
    - apply K in I. clear - I H. remember (RIMod n sub) as x eqn:E. revert E. induction I as [l i I|l n' sub' q i I J IH]; intros ->.
      + cbn [app]. now apply item_inside with sub.
      + cbn [app]. apply item_inside with sub'; [exact I|]. now apply IH. }
  now apply J.
Qed.
Theorem program_is_in : program_in (generated_program g d' d4) d' items.
Proof.
  constructor.
  - intros i m it G O H. cbn [p_struct generated_program] in H. rewrite G in H. destruct (ast_of i m G O) as (m0 & G0 & -> & K).
    rewrite <- (app_nil_r (mods d' i)). apply K. constructor. destruct m0. cbn [msg_sanitize_names message_ast] in *. apply in_or_app. now left.
  - intros i m o it G O Ho H. cbn [p_oneof generated_program] in H. rewrite G in H. destruct (ast_of i m G O) as (m0 & G0 & E & K).
    unfold own_module. rewrite G. apply K. destruct (find _ (m_oneofs m)) as [x|] eqn:F; [|destruct H]. apply find_some in F. destruct F as (F & _).
    eapply item_inside; [apply (module_ast m m0); right; right; intros X; rewrite X in Ho; destruct Ho|]. constructor. unfold inner_ast.
    rewrite !in_app_iff. do 4 right. apply in_flat_map. eauto.
  - intros q e it G O Ne H. cbn [p_enum generated_program] in H. rewrite G in H. unfold module_of. unfold get_enum in G. unfold own_enum in O.
    destruct (get_enum d4 q) as [e0|] eqn:G4; [|destruct H]. unfold get_enum in G4. destruct (e_msg q) as [|k r].
    + constructor. unfold items, file_ast. cbn [file_items]. rewrite !in_app_iff. do 2 right. left. apply in_flat_map. exists (e, e0). split.
      * apply filter_In. cbn [fst]. rewrite O. split; [|reflexivity]. clear - G G4. revert G G4. generalize (d_enums d4) (e_pos q).
        induction (d_enums d') as [|x l IH]; intros l0 k N N0; [destruct k; discriminate|].
        destruct l0 as [|y l0]; [destruct k; discriminate|]. destruct k as [|k]; cbn in N, N0.
        -- injection N as ->. injection N0 as ->. now left.
        -- right. exact (IH l0 k N N0).
      * cbn [fst snd]. unfold enum_items in H. destruct (en_fields e); [contradiction|exact H].
    + destruct (get_message d' (k :: r)) as [m|] eqn:Gm; [|discriminate]. destruct (ast_of (k :: r) m Gm O) as (m0 & G0 & E & K). rewrite G0 in G4.
      unfold own_module. rewrite Gm. apply K.
      eapply item_inside; [apply (module_ast m m0); right; left; intros X; rewrite X in G; now destruct (e_pos q)|]. constructor. unfold inner_ast.
      rewrite !in_app_iff. do 3 right. left. apply in_flat_map. exists (e, e0). split; [|exact H].
      clear - G G4. revert G G4. generalize (m_enums m0) (e_pos q). induction (m_enums m) as [|x l IH]; intros l0 j N N0; [destruct j; discriminate|].
      destruct l0 as [|y l0]; [destruct j; discriminate|]. destruct j as [|j]; cbn in N, N0.
      * injection N as ->. injection N0 as ->. now left.
      * right. exact (IH l0 j N N0).
Qed.
End InFile.

(** ** The hypotheses *)

(** names that Rust wants to be distinct: the fields of a struct, the variants of
    an enum *)
Record rust_distinct (c : config) (d' : file_descriptor) : Prop := mkRustDistinct {
  rd_fields : forall i m, get_message d' i = Some m -> NoDup (map f_name (visible_fields c m) ++ map o_name (m_oneofs m));
  rd_variants : forall i m o, get_message d' i = Some m -> In o (m_oneofs m) -> NoDup ("None" :: map f_name (oneof_variants c o));
  rd_values : forall q e, get_enum d' q = Some e -> NoDup (map fst (en_fields e)) }.
(** A proto file without imports that is read, follows the rules of protobuf and
    is accepted; its names are names in Rust too (C78), distinct and not taken;
    its default values are constants (C70); the code compiles in the crate [root]
    (C66), in which the generated file is the module [stem] of its package; [-C]
    is not used, or [Default] is written for each message (C79). *)
Record good_file (check : bool) (fs : file_system) (search : list fpath) (n : nat) (file : fpath) (d : file_descriptor)
  (g : gen_config) (d4 : file_descriptor) (root : ritems) (stem : text) : Prop := mkGoodFile {
  gf_read : read_proto check fs search n file = ROk d;
  gf_rules : language_rules d;
  gf_names : schema_ok d = true;
  gf_before : before_escape (g_passes g) d = GOk d4;
  gf_single : c_single_module (g_passes g) = true -> d_package d = "";
  gf_defaults : defaults_declared d;
  gf_compiles : compiles (g_passes g) (after_escape (g_passes g) d4);
  gf_crate : in_crate d (after_escape (g_passes g) d4) (g_passes g) file root stem;
  gf_distinct : rust_distinct (g_passes g) (after_escape (g_passes g) d4);
  gf_derive : default_kept g (after_escape (g_passes g) d4) }.

Section Good.
Variables (check : bool) (fs : file_system) (search : list fpath) (n : nat) (file : fpath) (d : file_descriptor)
  (g : gen_config) (d4 : file_descriptor) (root : ritems) (stem : text) (t : target).
Hypothesis Good : good_file check fs search n file d g d4 root stem.
Let c := g_passes g.
Let d' := after_escape c d4.
Let names := crate_names root d' stem.
Let prog := generated_program g d' d4.

Lemma good_process : process c d = GOk d'.
Proof. exact (accepted d d4 c (gf_before _ _ _ _ _ _ _ _ _ _ Good)). Qed.
Lemma good_rules : protobuf_rules d.
Proof. exact (shaped_rules d (read_shaped _ _ _ _ _ _ (gf_read _ _ _ _ _ _ _ _ _ _ Good)) (gf_rules _ _ _ _ _ _ _ _ _ _ Good)). Qed.
Lemma good_plain : plain_names g d'.
Proof.
  destruct (gf_distinct _ _ _ _ _ _ _ _ _ _ Good) as [Fi Va En]. constructor.
  - intros i m G. unfold named_slots. rewrite map_app, !map_map. exact (Fi i m G).
  - exact Va.
  - exact En.
  - intros i m f G Hf B. assert (Hf' : field_of m f) by (apply field_of_all; exact Hf).
    destruct (process_field_back c d d' i m f good_process G Hf') as (m1 & f1 & G1 & Hf1 & FF).
    now destruct (boxed_message c d d' good_rules good_process i m1 f1 f G1 Hf1 FF B) as (_ & _ & X).
Qed.
Lemma good_names : names_ok d' d4 names.
Proof.
  destruct Good. unfold names. now apply (names_in_crate check fs search n file d d4 c root stem).
Qed.
Lemma good_literals : literals_ok (rust_lit d') d' /\ forall ty s v, rust_lit d' ty s = Some v -> val_ok d' c ty v.
Proof. destruct Good. now apply (C70_literals c d d' good_process). Qed.
Lemma good_schema : schema_wf d' c (rust_lit d') /\ enums_ok d' /\ no_proto3_default d'.
Proof.
  destruct Good. destruct (C64_read_well_formed check fs search n file d c (rust_lit d') d') as (A & _ & B & C0); auto.
  - exact good_process.
  - apply good_literals.
Qed.
Lemma good_constants : constants_ok g d' d4 t names (rust_lit d').
Proof. destruct Good. apply (constants_are g d d4); auto using good_names, good_plain. Qed.
End Good.

(** ** C80 *)

(** The program is what Rust parses from the text of the file. *)
Theorem C80_program_in_file : forall g d filename services s d',
  generated g d filename services = (s, None) -> schema_ok d = true -> config_ok g = true -> all_chars not_newline filename = true ->
  process (g_passes g) d = GOk d' ->
  exists d4 f, before_escape (g_passes g) d = GOk d4 /\ d' = after_escape (g_passes g) d4 /\ parse_rust s = Some f /\
    program_in (generated_program g d' d4) d' (file_items f).
Proof.
  intros g d filename services s d' H S C F P. destruct (C78_generated_files_are_rust _ _ _ _ _ H S C F) as (d4 & B & Q).
  rewrite process_escape, B in P. injection P as <-. exists d4. eexists. split; [exact B|]. split; [reflexivity|]. split; [exact Q|].
  exact (program_is_in g d4).
Qed.
Print Assumptions C80_program_in_file.

(** The functions of the generated code that take no bytes.  [default], the
    conversions of enums, [get_size] and [write_message], as Rust runs the trees,
    give what the model of the generated code says, for every value of a message. *)
Theorem C80_functions_partial : forall check fs search n file d g d4 root stem t,
  good_file check fs search n file d g d4 root stem ->
  let c := g_passes g in let d' := after_escape c d4 in let lit := rust_lit d' in
  let names := crate_names root d' stem in let prog := generated_program g d' d4 in
  (forall i m, get_message d' i = Some m -> exists ss, GenSem.message_default d' c lit i = Some ss /\
     struct_default t names prog (default_depth d') i = Some (rust_struct d' c i m ss)) /\
  (forall i m o, get_message d' i = Some m -> In o (m_oneofs m) -> oneof_default_of t names prog i (o_name o) = Some (XVariant "None" None)) /\
  (forall q e, get_enum d' q = Some e -> enum_default_of t names prog q = Some (XEnum q (enum_default d' q)) /\
     forall z, enum_from_of t names prog q z = Some (XEnum q (enum_from_i32 d' q z))) /\
  (forall i m ss k, get_message d' i = Some m -> message_ok d' c i ss -> (slots_depth ss < k)%nat ->
     struct_size t names prog (default_depth d') k i (rust_struct d' c i m ss) = Some (message_size d' c lit i ss) /\
     struct_write t names prog (default_depth d') k i (rust_struct d' c i m ss) = Some (message_write d' c lit i ss)).
Proof.
  intros check fs search n file d g d4 root stem t Good c d' lit names prog.
  pose proof (good_names _ _ _ _ _ _ _ _ _ _ Good) as Nm. pose proof (good_plain _ _ _ _ _ _ _ _ _ _ Good) as Pl.
  destruct (good_schema _ _ _ _ _ _ _ _ _ _ Good) as (Wf & En & _). destruct (good_literals _ _ _ _ _ _ _ _ _ _ Good) as (_ & Ty).
  pose proof (good_constants _ _ _ _ _ _ _ _ _ _ t Good) as Co. pose proof (gf_derive _ _ _ _ _ _ _ _ _ _ Good) as De.
  repeat match goal with |- _ /\ _ => split end.
  - intros i m G. destruct (Wf i m G) as [_ _ W]. unfold lit, names, prog, d', c in *.
    destruct (GenSem.message_default _ _ _ i) as [ss|] eqn:E; [|contradiction]. exists ss. split; [reflexivity|].
    exact (struct_default_is g _ d4 t _ _ Nm Pl Wf Co De _ i m ss G E).
  - intros i m o G I. exact (oneof_default_is g _ d4 t _ _ Nm Pl Wf i m o G I).
  - intros q e G. split; [exact (enum_default_is g _ d4 t _ Nm Pl q e G)|]. intros z. exact (enum_from_is g _ d4 t _ Nm Pl q e z G).
  - intros i m ss k G Ok D. unfold message_ok in Ok. rewrite G in Ok. split.
    + exact (struct_size_is g _ d4 t _ _ Nm Pl Wf Co De Ty k i m ss G Ok D).
    + exact (struct_write_is g _ d4 t _ _ Nm Pl Wf Co De Ty k i m ss G Ok D).
Qed.
Print Assumptions C80_functions_partial.

(** ** C81 *)

(** [from_reader], on any bytes. *)
Theorem C81_from_reader_partial : forall check fs search n file d g d4 root stem t,
  good_file check fs search n file d g d4 root stem ->
  let c := g_passes g in let d' := after_escape c d4 in
  forall k i m bs r, get_message d' i = Some m ->
  struct_from t (crate_names root d' stem) (generated_program g d' d4) (default_depth d') k i bs r =
  rmap (rust_struct d' c i m) (GenSem.from_reader d' c (rust_lit d') t k i) bs r.
Proof.
  intros check fs search n file d g d4 root stem t Good c d' k i m bs r G.
  pose proof (good_names _ _ _ _ _ _ _ _ _ _ Good) as Nm. pose proof (good_plain _ _ _ _ _ _ _ _ _ _ Good) as Pl.
  destruct (good_schema _ _ _ _ _ _ _ _ _ _ Good) as (Wf & En & _). destruct (good_literals _ _ _ _ _ _ _ _ _ _ Good) as (_ & Ty).
  pose proof (good_constants _ _ _ _ _ _ _ _ _ _ t Good) as Co. pose proof (gf_derive _ _ _ _ _ _ _ _ _ _ Good) as De.
  exact (struct_from_is g _ d4 t _ _ Nm Pl Wf En Co De Ty k i m bs r G).
Qed.
Print Assumptions C81_from_reader_partial.

(** ** C82 *)

Lemma deserialize_lifts {A B} (f : A -> B) t m m' bs : lifts f m m' ->
  deserialize_from_slice t m' bs = match deserialize_from_slice t m bs with Ok a => Ok (f a) | Err e => Err e | Panic => Panic | UB => UB | NoFuel => NoFuel end.
Proof.
  intros L. unfold deserialize_from_slice, Reader.read_message. rewrite (lifts_len t _ _ _ L bs _). rewrite rmap_eq.
  now destruct (read_len_varint t m bs (from_bytes bs)) as ([a|e| | |], r).
Qed.

(** From the proto file to the generated text, and from there to bytes and back:
    [s] is the text that pb-rs writes, [f] what Rust parses from it; its
    [get_size] and [write_message] give the bytes of a message, and its
    [from_reader] reads them as the same message. *)
Theorem C82_roundtrip_partial : forall check fs search n file d g d4 root stem filename services s t,
  good_file check fs search n file d g d4 root stem ->
  generated g d filename services = (s, None) -> config_ok g = true -> all_chars not_newline filename = true ->
  let c := g_passes g in let d' := after_escape c d4 in let prog := generated_program g d' d4 in
  exists f, parse_rust s = Some f /\ program_in prog d' (file_items f) /\
  forall i m ss depth, get_message d' i = Some m -> message_ok d' c i ss -> no_negative_zero d' c i ss -> (slots_depth ss < depth)%nat ->
    zlen (enc_message d' c (rust_lit d') i ss) < 2 ^ 32 ->
  exists size write full,
    struct_size t (crate_names root d' stem) prog (default_depth d') depth i (rust_struct d' c i m ss) = Some size /\
    struct_write t (crate_names root d' stem) prog (default_depth d') depth i (rust_struct d' c i m ss) = Some write /\
    serialize_into_vec size write = Ok full /\
    (buf_ok t full -> exists ss', Forall2 same_slot ss ss' /\ forall k, (length full <= k)%nat ->
      deserialize_from_slice t (struct_from t (crate_names root d' stem) prog (default_depth d') k i) full = Ok (rust_struct d' c i m ss')).
Proof.
  intros check fs search n file d g d4 root stem filename services s t Good H C F c d' prog.
  pose proof (good_process _ _ _ _ _ _ _ _ _ _ Good) as P.
  destruct (C80_program_in_file g d filename services s _ H (gf_names _ _ _ _ _ _ _ _ _ _ Good) C F P) as (d4' & f & B & _ & Q & In).
  assert (d4' = d4) as -> by (rewrite (gf_before _ _ _ _ _ _ _ _ _ _ Good) in B; congruence).
  exists f. split; [exact Q|]. split; [exact In|]. intros i m ss depth G Ok Hz Dp Hl.
  destruct (C80_functions_partial _ _ _ _ _ _ _ _ _ _ t Good) as (_ & _ & _ & Fn). destruct (Fn i m ss depth G Ok Dp) as (Sz & Wr).
  destruct (good_schema _ _ _ _ _ _ _ _ _ _ Good) as (Wf & _ & N3).
  destruct (proj2 (C26_roundtrip_partial _ _ _ t Wf N3 i ss Ok Hz Hl)) as (full & S & R).
  eexists _, _, full. split; [exact Sz|]. split; [exact Wr|]. split; [exact S|]. intros Bo. destruct (R Bo) as (ss' & Same & K).
  exists ss'. split; [exact Same|]. intros k Lk. specialize (K k Lk).
  rewrite (deserialize_lifts (rust_struct d' c i m) t (GenSem.from_reader d' c (rust_lit d') t k i)).
  - fold c in K. fold d' in K. rewrite K. reflexivity.
  - intros bs r. exact (C81_from_reader_partial _ _ _ _ _ _ _ _ _ _ t Good k i m bs r G).
Qed.
Print Assumptions C82_roundtrip_partial.

(** ** The concrete case *)

Definition meanSchema : text := "
package p.q;
enum Color { RED = 0; GREEN = 1; NEG = 5; }
enum Mode { FIRST = 0; type = 1; }
message Outer {
  message In { optional string match = 1 [default = ""a\nb""]; repeated Outer back = 2; }
  required Color c = 1 [default = NEG];
  optional float f = 2 [default = -1.5e3];
  oneof pick { In left = 3; bytes self = 4; fixed32 x = 12; }
  map<string, In> all = 5;
  optional int32 old = 6 [deprecated = true];
  repeated fixed32 pf = 7 [packed = true];
  repeated sint32 pv = 8 [packed = true];
  repeated sint64 pw = 9;
  required bytes s = 10 [default = ""abc""];
  optional Outer o = 11;
  optional Mode mode = 13;
}"%string.
Definition meanConfig : config := g_passes textConfig.
Definition mean_d : file_descriptor := Eval vm_compute in match read_one meanSchema with ROk d => d | _ => mkDesc "" Proto2 [] [] "" end.
Definition mean_d4 : file_descriptor := Eval vm_compute in match before_escape meanConfig mean_d with GOk d => d | _ => mkDesc "" Proto2 [] [] "" end.
Definition mean_d' : file_descriptor := Eval vm_compute in after_escape meanConfig mean_d4.
Definition mean_root : ritems := [("p", IMod false [("q", IMod true (emit_file mean_d'))])].
Lemma mean_after : after_escape meanConfig mean_d4 = mean_d'.
Proof. vm_compute. reflexivity. Qed.
Ltac each_message H :=
  apply get_message_in in H; vm_compute in H; repeat (destruct H as [H|H]; [injection H as <- <-|]); try destruct H.
Ltac each_enum q e H :=
  unfold get_enum in H; destruct q as [[|? ?] pos]; cbn [e_msg e_pos] in H;
  [|let K := fresh in match type of H with match ?x with _ => _ end = _ => destruct x eqn:K; [each_message K; cbn in H; destruct pos; discriminate|discriminate] end];
  cbn in H; destruct pos as [|[|[]]]; cbn in H; try discriminate; injection H as <-.
Lemma mean_defaults : defaults_declared mean_d.
Proof.
  intros p m f G Hf Nf. apply field_of_all in Hf. each_message G; vm_compute in Hf;
    repeat (destruct Hf as [<-|Hf]); try destruct Hf; try (now destruct Nf).
  - eexists. eapply dd_enum; [vm_compute; reflexivity|vm_compute; reflexivity|reflexivity|right; right; left; reflexivity|lia|repeat constructor; cbn; intuition discriminate|reflexivity|cbn; intros v [<-|[<-|[<-|[]]]]; reflexivity].
  - eexists. eapply (dd_literal _ _ _ [("default", "-1.5e3")]); [exact Logic.I|reflexivity|vm_compute; reflexivity|vm_compute; reflexivity|vm_compute; reflexivity|vm_compute; discriminate].
  - eexists. eapply (dd_literal _ _ _ [("default", """abc""")]); [exact Logic.I|reflexivity|vm_compute; reflexivity|vm_compute; reflexivity|vm_compute; reflexivity|exact Logic.I].
  - eexists. eapply (dd_literal _ _ _ [("default", """a\nb""")]); [exact Logic.I|reflexivity|vm_compute; reflexivity|vm_compute; reflexivity|vm_compute; reflexivity|apply utf8_valid_is; vm_compute; reflexivity].
Qed.
Ltac distinct_texts := repeat (constructor; [cbn; intuition discriminate|]); constructor.
Lemma mean_good : good_file true (one_file meanSchema) [path_of ""] 2 (path_of "a.proto") mean_d textConfig mean_d4 mean_root "a".
Proof.
  constructor.
  - vm_compute. reflexivity.
  - apply rules_check.
    + cbn. intros p m H. decompose [or] H; try contradiction; match goal with K : _ = _ |- _ => injection K as <- <- end;
        (split; [reflexivity|]); cbn; distinct_texts.
    + repeat constructor; discriminate.
  - vm_compute. reflexivity.
  - vm_compute. reflexivity.
  - discriminate.
  - exact mean_defaults.
  - intros X. discriminate X.
  - change (after_escape (g_passes textConfig) mean_d4) with (after_escape meanConfig mean_d4). rewrite mean_after. constructor.
    + repeat constructor; discriminate.
    + right. vm_compute. repeat (constructor; [split; [discriminate|reflexivity]|]). constructor.
    + discriminate.
    + apply (laid_out_ok _ _ _ true); vm_compute; reflexivity.
    + vm_compute. reflexivity.
    + intros s l E. vm_compute in E. injection E as <- <-. intros X. apply declared_names, mem_text_in in X. vm_compute in X. discriminate X.
    + intros i m G. each_message G; (split; [reflexivity|]); repeat split; discriminate.
    + intros q e G. each_enum q e G; (split; [reflexivity|]); repeat split; discriminate.
    + intros i m G _. each_message G; vm_compute; reflexivity.
    + intros q e G. each_enum q e G; (split; [vm_compute; reflexivity|]); eexists _, _, _; (split; [reflexivity|vm_compute; reflexivity]).
  - change (after_escape (g_passes textConfig) mean_d4) with (after_escape meanConfig mean_d4). rewrite mean_after. constructor.
    + intros i m G. each_message G; cbn; distinct_texts.
    + intros i m o G H. each_message G; cbn in H; repeat (destruct H as [<-|H]); try destruct H; cbn; distinct_texts.
    + intros q e G. each_enum q e G; cbn; distinct_texts.
  - now left.
Qed.

(** Bytes with a value of each kind: what the generated [from_reader] makes of
    them, and what [get_size] and [write_message] then write. *)
Definition mean_target : target := {| usize_width := W64; overflow_checks := false |}.
Definition mean_input : bytes := map zb
  [8;1; 21;1;2;3;4; 26;4;10;2;65;66; 42;8;10;1;66;18;3;10;1;67; 58;8;1;0;0;0;2;0;0;0; 66;2;4;5; 72;3;72;5;90;2;8;0; 104;1; 120;1].
Definition mean_names := crate_names mean_root mean_d' "a".
Definition mean_prog := generated_program textConfig mean_d' mean_d4.
Definition mean_value : rv := Eval vm_compute in
  match struct_from mean_target mean_names mean_prog (default_depth mean_d') 60 [0%nat] mean_input (from_bytes mean_input) with (Ok v, _) => v | _ => XUnit end.
Definition mean_written : bytes := Eval vm_compute in
  match struct_size mean_target mean_names mean_prog (default_depth mean_d') 5 [0%nat] mean_value,
        struct_write mean_target mean_names mean_prog (default_depth mean_d') 5 [0%nat] mean_value with
  | Some size, Some write => match serialize_into_vec size write with Ok b => b | _ => [] end
  | _, _ => []
  end.
Example C80_case : exists s f, good_file true (one_file meanSchema) [path_of ""] 2 (path_of "a.proto") mean_d textConfig mean_d4 mean_root "a" /\
  generated textConfig mean_d "a.proto" 0 = (s, None) /\ config_ok textConfig = true /\ parse_rust s = Some f /\
  length (p_struct mean_prog [0; 0]%nat) = 15%nat /\ mods mean_d' [0; 0]%nat = ["mod_Outer"] /\
  struct_default mean_target mean_names mean_prog (default_depth mean_d') [0%nat] = Some (XStruct [0%nat]
    [("c", XEnum (mkEidx [] 0) 5); ("f", XOpt None); ("all", XMap []); ("pf", XPacked KU32 (Owned [])); ("pv", XList []); ("pw", XList []);
     ("s", XBytes (map zb [97; 98; 99])); ("o", XOpt None); ("mode", XOpt None); ("pick", XVariant "None" None)]) /\
  enum_from_of mean_target mean_names mean_prog (mkEidx [] 0) 7 = Some (XEnum (mkEidx [] 0) 0) /\
  struct_size mean_target mean_names mean_prog (default_depth mean_d') 5 [0%nat] mean_value = Some 57.
Proof.
  let r := eval vm_compute in (fst (generated textConfig mean_d "a.proto" 0)) in exists r.
  match goal with |- exists f, _ /\ generated _ _ _ _ = (?s, _) /\ _ => let r := eval vm_compute in (parse_rust s) in match r with Some ?f => exists f end end.
  split; [exact mean_good|]. repeat match goal with |- _ /\ _ => split end; vm_compute; reflexivity.
Qed.
Example C81_case : struct_from mean_target mean_names mean_prog (default_depth mean_d') 60 [0%nat] mean_input (from_bytes mean_input) =
    (Ok mean_value, mkR 49 49) /\ 
  match mean_value with XStruct _ fs => map fst fs = ["c"; "f"; "all"; "pf"; "pv"; "pw"; "s"; "o"; "mode"; "pick"] | _ => False end.
Proof. split; vm_compute; reflexivity. Qed.
(** the bytes come back: the string [s] is written since it is required, an
    unknown field is not kept *)
Example C82_case : zlen mean_written = 58 /\
  (exists m ss, get_message mean_d' [0%nat] = Some m /\ GenSem.decode mean_d' meanConfig (rust_lit mean_d') mean_target 60 [0%nat] mean_input = Ok ss /\
     rust_struct mean_d' meanConfig [0%nat] m ss = mean_value /\ slots_depth ss = 1%nat) /\
  deserialize_from_slice mean_target (struct_from mean_target mean_names mean_prog (default_depth mean_d') 60 [0%nat]) mean_written = Ok mean_value.
Proof.
  split; [vm_compute; reflexivity|]. split; [|vm_compute; reflexivity]. eexists _, _. split; [reflexivity|]. split; [vm_compute; reflexivity|].
  split; vm_compute; reflexivity.
Qed.
(** ** C83: the names of C66 are those of the file *)

(** the names that structs, enums and modules declare; the names of the [use]
    lines and [KVMap] are left out, as in C66 *)
Inductive shape := HType | HMod (globs_super : bool) (items : list (text * shape)).
Definition uses_super (it : ritem_) : bool := match it with RIUse ["super"] UGlob => true | _ => false end.
Fixpoint declares (it : ritem_) : list (text * shape) :=
  match it with
  | RIStruct _ _ n _ _ | RIEnum _ n _ _ => [(n, HType)]
  | RIMod n l => [(n, HMod (existsb uses_super l) (flat_map declares l))]
  | _ => []
  end.
(** those of C66 *)
Fixpoint item_shape (it : ritem) : shape :=
  match it with
  | IMod b l => HMod b (map (fun p => (fst p, item_shape (snd p))) l)
  | _ => HType
  end.
Definition shapes (l : ritems) : list (text * shape) := map (fun p => (fst p, item_shape (snd p))) l.
(** the same names in the same order; if [owned] then there may be the two
    structs of types.rs:1780-1899 for a message more *)
Inductive same_names (owned : bool) : list (text * shape) -> list (text * shape) -> Prop :=
| sn_nil : same_names owned [] []
| sn_type n l l' : same_names owned l l' -> same_names owned ((n, HType) :: l) ((n, HType) :: l')
| sn_mod n b s s' l l' : same_names owned s s' -> same_names owned l l' -> same_names owned ((n, HMod b s) :: l) ((n, HMod b s') :: l')
| sn_owned n l l' : owned = true -> same_names owned l l' ->
    same_names owned (((n ++ "OwnedInner")%string, HType) :: ((n ++ "Owned")%string, HType) :: l) l'.
Lemma same_app ow a a' : same_names ow a a' -> forall b b', same_names ow b b' -> same_names ow (a ++ b) (a' ++ b').
Proof. intros H b b' K. induction H; cbn [app]; try (constructor; auto). exact K. Qed.

Section Shapes.
Variables (g : gen_config) (d d0 : file_descriptor).
Notation decl l := (flat_map declares l).
Lemma decl_app a b : decl (a ++ b) = decl a ++ decl b.
Proof. apply flat_map_app. Qed.
Lemma decl_only b l : decl l = [] -> decl (only b l) = [].
Proof. now destruct b. Qed.
Lemma message_declares m : same_names (g_owned g) (decl (message_items g d d0 m)) [(m_name m, HType)].
Proof.
  unfold message_items. rewrite !decl_app.
  assert (E1 : decl [definition_item g d m] = [(m_name m, HType)]) by (unfold definition_item; now destruct (is_unit m)).
  assert (E2 : decl (consts_items g d m) = []) by (unfold consts_items; destruct (d_syntax d); [|reflexivity]; now destruct (negb _)).
  assert (E3 : decl (getters_items g d m) = []) by (unfold getters_items; reflexivity).
  rewrite E1, (decl_only _ _ E2), (decl_only _ _ E3). cbn [app]. constructor.
  rewrite decl_only by (unfold message_default; now destruct (is_unit m)).
  assert (E4 : decl [message_read g d m; message_write_impl g d d0 m] = []).
  { unfold message_read, message_write_impl. destruct (is_unit m); reflexivity. }
  rewrite E4, decl_only by reflexivity. cbn [app]. destruct (g_owned g); [|constructor]. cbn [only].
  destruct (or_else _ _); [|constructor]. unfold owned_items. cbv zeta. destruct (g_gen_info g).
  all: cbn [app flat_map declares]; apply sn_owned; [reflexivity|constructor].
Qed.
Lemma enum_declares e e0 : decl (enum_items e e0) = [(en_name e, HType)].
Proof. unfold enum_items. now destruct (en_fields e). Qed.
Lemma oneof_declares o : decl (oneof_items g d o) = [(("OneOf" ++ o_name o)%string, HType)].
Proof. reflexivity. Qed.
Lemma uses_declare ms : decl (common_uses g d ms) = [].
Proof.
  unfold common_uses. rewrite !decl_app. rewrite decl_only by reflexivity. cbn [app].
  assert (E : forall (b1 b2 b3 : bool) x, decl (if b1 then only b2 [RIUse x (UName "Cow")] else only b3 [RIUse ["alloc"; "borrow"] (UName "ToOwned")]) = [])
    by (intros [] [] [] ?; reflexivity).
  rewrite E. rewrite decl_only by reflexivity. cbn [app]. apply decl_only. destruct (g_hashbrown g), (g_nostd g); reflexivity.
Qed.
(** no item but the [use] line is one *)
Definition no_super (l : list ritem_) : Prop := existsb uses_super l = false.
Lemma no_super_app a b : no_super a -> no_super b -> no_super (a ++ b).
Proof. unfold no_super. intros H K. now rewrite existsb_app, H, K. Qed.
Lemma no_super_all l : (forall x, In x l -> uses_super x = false) -> no_super l.
Proof. unfold no_super. induction l as [|y l IH]; intros H; [reflexivity|]. cbn [existsb]. rewrite (H y), IH; cbn; auto. intros x I. apply H. now right. Qed.
Lemma no_super_only b l : no_super l -> no_super (only b l).
Proof. now destruct b. Qed.
Lemma uses_not_super ms : existsb uses_super (common_uses g d ms) = false.
Proof.
  change (no_super (common_uses g d ms)). unfold common_uses. repeat apply no_super_app; try (apply no_super_only; reflexivity).
  - destruct (negb (c_dont_use_cow _)); apply no_super_only; destruct (g_nostd g); reflexivity.
  - apply no_super_only. destruct (g_hashbrown g), (g_nostd g); reflexivity.
Qed.
Lemma message_no_super m : no_super (message_items g d d0 m).
Proof.
  unfold message_items. repeat apply no_super_app; try apply no_super_only.
  - unfold definition_item. now destruct (is_unit m).
  - unfold consts_items. destruct (d_syntax d); [|reflexivity]. now destruct (negb _).
  - reflexivity.
  - unfold message_default. now destruct (is_unit m).
  - unfold message_read, message_write_impl. now destruct (is_unit m).
  - reflexivity.
  - destruct (or_else _ _); [|reflexivity]. unfold owned_items. cbv zeta. now destruct (g_gen_info g).
Qed.
Lemma enum_no_super e e0 : no_super (enum_items e e0).
Proof. unfold enum_items. now destruct (en_fields e). Qed.
Lemma ast_no_super m m0 : no_super (message_ast g d d0 m m0).
Proof.
  destruct m as [name fields oneofs rnums rnames imported package messages enums module index]. cbn [message_ast]. apply no_super_app; [apply message_no_super|].
  now destruct messages, enums, oneofs.
Qed.
Definition asts (l l0 : list message) : list ritem_ :=
  (fix go (l l0 : list message) {struct l} : list ritem_ :=
     match l, l0 with x :: l', y :: l0' => message_ast g d d0 x y ++ go l' l0' | _, _ => [] end) l l0.
Lemma asts_no_super l : forall l0, no_super (asts l l0).
Proof. induction l as [|x l IH]; intros [|y l0]; try reflexivity. apply no_super_app; [apply ast_no_super|apply IH]. Qed.
Lemma enums_declare i k es : forall es0, length es = length es0 ->
  decl (flat_map (fun p => enum_items (fst p) (snd p)) (combine es es0)) = shapes (map (fun '(k, e) => (en_name e, IEnum (mkEidx i k))) (number_from k es)).
Proof.
  revert k. induction es as [|e es IH]; intros k [|e0 es0] L; try discriminate; [reflexivity|]. cbn [combine flat_map number_from map fst snd].
  rewrite decl_app, enum_declares. cbn [app shapes map fst snd item_shape]. f_equal. apply IH. now injection L.
Qed.
Lemma oneofs_declare i k os :
  decl (flat_map (oneof_items g d) os) = shapes (map (fun '(k, o) => (("OneOf" ++ o_name o)%string, IOneof i k)) (number_from k os)).
Proof.
  revert k. induction os as [|o os IH]; intros k; [reflexivity|]. cbn [flat_map number_from map fst snd].
  rewrite decl_app, oneof_declares. cbn [app shapes map fst snd item_shape]. f_equal. apply IH.
Qed.
Lemma same_cons ow : forall s n l l', same_names ow l l' -> same_names ow ((n, s) :: l) ((n, s) :: l').
Proof.
  fix IH 1. intros [|b s] n l l' H; [now constructor|]. apply sn_mod; [|exact H]. induction s as [|(x, s0) s IHs]; [constructor|]. apply (IH s0). exact IHs.
Qed.
Lemma same_refl ow l : same_names ow l l.
Proof. induction l as [|(n, s) l IH]; [constructor|]. now apply same_cons. Qed.
Lemma enums_no_super es es0 : no_super (flat_map (fun p => enum_items (fst p) (snd p)) (combine es es0)).
Proof. induction (combine es es0) as [|p l IH]; [reflexivity|]. cbn [flat_map]. apply no_super_app; [apply enum_no_super|exact IH]. Qed.
Lemma oneofs_no_super os : no_super (flat_map (oneof_items g d) os).
Proof. induction os as [|o l IH]; [reflexivity|]. cbn [flat_map]. apply no_super_app; [reflexivity|exact IH]. Qed.
(** the enums of the two descriptors are in the same places *)
Fixpoint alike (m m0 : message) {struct m} : Prop :=
  match m with
  | mkMessage _ _ _ _ _ _ _ messages enums _ _ =>
    length enums = length (m_enums m0) /\
    (fix go (l l0 : list message) {struct l} : Prop :=
       match l, l0 with
       | [], [] => True
       | x :: l', y :: l0' => alike x y /\ go l' l0'
       | _, _ => False
       end) messages (m_messages m0)
  end.
Lemma ast_declares : forall m m0 i, alike m m0 -> same_names (g_owned g) (decl (message_ast g d d0 m m0)) (shapes (emit_message i m)).
Proof.
  fix IH 1. intros [name fields oneofs rnums rnames imported package messages enums module index] m0 i A.
  cbn [alike] in A. destruct A as (A1 & A2).
  change (message_ast g d d0 (mkMessage name fields oneofs rnums rnames imported package messages enums module index) m0) with
    (message_items g d d0 (mkMessage name fields oneofs rnums rnames imported package messages enums module index) ++
     match messages, enums, oneofs with
     | [], [], [] => []
     | _, _, _ => [RIMod ("mod_" ++ name)%string
         (common_uses g d messages ++ only (match messages, oneofs with [], [] => false | _, _ => true end) [RIUse ["super"] UGlob]
          ++ asts messages (m_messages m0) ++ flat_map (fun p => enum_items (fst p) (snd p)) (combine enums (m_enums m0))
          ++ flat_map (oneof_items g d) oneofs)]
     end).
  rewrite emit_message_eq. cbn [m_name m_messages m_enums m_oneofs]. rewrite decl_app.
  change (shapes ((name, IMessage i) :: ?l)) with ([(name, HType)] ++ shapes l). apply same_app; [exact (message_declares _)|].
  assert (M : same_names (g_owned g) (decl (asts messages (m_messages m0))) (shapes (emit_from i 0 messages))).
  { clear - IH A2. revert A2. generalize (m_messages m0) O. induction messages as [|x l IHl]; intros [|y l0] k A; try destruct A; [constructor|].
    cbn [asts emit_from]. rewrite decl_app. unfold shapes. rewrite map_app. apply same_app; [now apply IH|now apply IHl]. }
  match goal with |- same_names _ (decl ?a) (shapes ?b) =>
    assert (K : messages = [] /\ enums = [] /\ oneofs = [] /\ a = [] /\ b = [] \/
      a = [RIMod ("mod_" ++ name)%string
         (common_uses g d messages ++ only (match messages, oneofs with [], [] => false | _, _ => true end) [RIUse ["super"] UGlob]
          ++ asts messages (m_messages m0) ++ flat_map (fun p => enum_items (fst p) (snd p)) (combine enums (m_enums m0))
          ++ flat_map (oneof_items g d) oneofs)] /\
      b = [(("mod_" ++ name)%string, IMod (match messages, oneofs with [], [] => false | _, _ => true end)
             (emit_from i 0 messages ++ map (fun '(k, e) => (en_name e, IEnum (mkEidx i k))) (number_from 0 enums)
              ++ map (fun '(k, o) => (("OneOf" ++ o_name o)%string, IOneof i k)) (number_from 0 oneofs)))]) end.
  { destruct messages, enums, oneofs; try (right; split; reflexivity). left. auto. }
  destruct K as [(_ & _ & _ & -> & ->)|(-> & ->)]; [constructor|]. cbn [flat_map declares app shapes map fst snd item_shape].
  rewrite !existsb_app, uses_not_super, (asts_no_super messages), (enums_no_super enums), (oneofs_no_super oneofs), !decl_app, uses_declare.
  set (b := match messages, oneofs with [], [] => false | _, _ => true end). cbn [orb]. rewrite !orb_false_r.
  replace (existsb uses_super (only b [RIUse ["super"] UGlob])) with b by now destruct b.
  replace (decl (only b [RIUse ["super"] UGlob])) with (@nil (text * shape)) by now destruct b. cbn [app].
  apply sn_mod; [|constructor]. fold (shapes (emit_from i 0 messages ++ map (fun '(k, e) => (en_name e, IEnum (mkEidx i k))) (number_from 0 enums)
              ++ map (fun '(k, o) => (("OneOf" ++ o_name o)%string, IOneof i k)) (number_from 0 oneofs))).
  unfold shapes. rewrite !map_app. apply same_app; [exact M|]. rewrite (enums_declare i 0) by exact A1. rewrite (oneofs_declare i 0). apply same_refl.
Qed.
End Shapes.
Lemma alike_escape : forall m, alike (msg_sanitize_names m) m.
Proof.
  fix IH 1. intros [name fields oneofs rnums rnames imported package messages enums module index]. cbn [msg_sanitize_names alike m_messages m_enums].
  split; [now rewrite map_length|]. induction messages as [|x l IHl]; [exact Logic.I|]. split; [apply IH|exact IHl].
Qed.

(** The names that the file declares, in each module, and which modules import
    those around them: as in C66, and the [Owned] structs. *)
Theorem C83_names_of_file : forall g d4, let d' := after_escape (g_passes g) d4 in
  same_names (g_owned g) (flat_map declares (file_items (file_ast g d' d4))) (shapes (emit_file d')).
Proof.
  intros g d4 d'. unfold file_ast. cbn [file_items]. rewrite !decl_app.
  assert (U : flat_map declares (use_items g d') = []).
  { unfold use_items. destruct (forallb is_unit (d_messages d')); [now destruct (g_owned g)|]. rewrite !decl_app, uses_declare. now destruct (g_owned g). }
  rewrite U. cbn [app flat_map declares]. unfold emit_file, shapes. rewrite map_app. apply same_app.
  - assert (E : d_enums d' = map enum_sanitize_names (d_enums d4)) by (unfold d', after_escape, single_module; now destruct (c_single_module (g_passes g))).
    rewrite E. generalize O. clear E. induction (d_enums d4) as [|e l IH]; intros k; [constructor|]. cbn [map combine filter number_from flat_map fst].
    destruct (en_imported (enum_sanitize_names e)); cbn [negb]; [exact (IH (S k))|].
    cbn [flat_map fst snd]. rewrite decl_app. cbn [app map fst snd item_shape].
    change (flat_map declares (enum_definition (enum_sanitize_names e) :: enum_impls (enum_sanitize_names e) e)) with [(en_name (enum_sanitize_names e), HType)].
    apply sn_type. exact (IH (S k)).
  - assert (E : d_messages d' = map msg_sanitize_names (d_messages d4)) by (unfold d', after_escape, single_module; now destruct (c_single_module (g_passes g))).
    rewrite E. generalize O. clearbody d'. clear E. induction (d_messages d4) as [|m l IH]; intros k; [constructor|]. cbn [map combine filter number_from flat_map fst].
    destruct (m_imported (msg_sanitize_names m)); cbn [negb]; [exact (IH (S k))|].
    cbn [flat_map fst snd]. rewrite decl_app, map_app. apply same_app; [|exact (IH (S k))].
    apply ast_declares, alike_escape.
Qed.
Print Assumptions C83_names_of_file.
Lemma same_names_eq l l' : same_names false l l' -> l = l'.
Proof. intros H. induction H; congruence. Qed.
Example C83_case : flat_map declares (file_items (file_ast textConfig mean_d' mean_d4)) =
  [("Color", HType); ("Mode", HType); ("Outer", HType); ("OuterOwnedInner", HType); ("OuterOwned", HType);
   ("mod_Outer", HMod true [("In", HType); ("InOwnedInner", HType); ("InOwned", HType); ("OneOfpick", HType)])] /\
  shapes (emit_file mean_d') =
  [("Color", HType); ("Mode", HType); ("Outer", HType); ("mod_Outer", HMod true [("In", HType); ("OneOfpick", HType)])].
Proof. split; vm_compute; reflexivity. Qed.

(** The [Owned] structs (types.rs:1780-1899) may have the name of a message: then
    the file declares two structs of that name, and Rust refuses it. *)
Theorem C83_owned_refuted : exists d s f, read_one "message A { optional string s = 1; } message AOwned { optional int32 x = 1; }" = ROk d /\
  NoDup (map m_name (d_messages d)) /\ generated textConfig d "a.proto" 0 = (s, None) /\ parse_rust s = Some f /\
  ~ NoDup (map fst (flat_map declares (file_items f))).
Proof.
  match goal with |- exists d s f, read_one ?t = _ /\ _ =>
    let r := eval vm_compute in (match read_one t with
      | ROk d => Some (d, fst (generated textConfig d "a.proto" 0), parse_rust (fst (generated textConfig d "a.proto" 0))) | _ => None end) in
    match r with Some (?d, ?s, Some ?f) => exists d, s, f end
  end. split; [vm_compute; reflexivity|]. split; [cbn; distinct_texts|]. split; [vm_compute; reflexivity|]. split; [vm_compute; reflexivity|].
  intros N. vm_compute in N. repeat (inversion N as [|? ? ? N0]; subst; clear N; rename N0 into N; try (match goal with H : ~ In ?x _ |- _ => apply H; cbn; tauto end)).
Qed.
Print Assumptions C83_owned_refuted.
