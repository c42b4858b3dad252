(** C90: what the text of the generated files does, for files that import others. *)
From Coq Require Import String Ascii Arith ZArith Lia Bool.
From Verif Require Import Props_EndToEnd Props_Safety Props_Paths Props_Passes Props_Accepted Props_Lifetime Props_Generated Props_Defaults Props_TypeCheck Props_Literals Props_Text Props_Meaning.
From Verif Require Import Base Utf8Facts Reader PackedFixed Writer Sizeofs Spec Schema Keywords Modules Passes Gen GenSem GenSpec GenRecords GenType GenSame GenCheck.
From Verif Require Import Cycles CycleFacts BreakFacts IndexFacts Pipeline PassFacts ResolveFacts AcceptFacts Lifetime LifetimeFacts Parser ProtoText FileText ParserOut Import
  Paths PathFacts PlaceFacts.
From Verif Require Import RustTypes Emit Literals Output GenText RustLex RustAst RustParse GenAst LexFacts GenGood RustLit RustSem Meaning
  MeanFacts MeanSize MeanWrite MeanRead MeanConst MeanNames MeanImports MeanCopy.
Import Schema StringSyntax.
Local Open Scope string_scope.
Local Open Scope list_scope.
Local Open Scope Z_scope.

(** ** The hypotheses *)

(** As [good_file] of C80, but the file may import others: the crate [root] has
    the generated files of all of them, each at the module of its package. *)
Record good_crate (check : bool) (fs : file_system) (search : list fpath) (n : nat) (file : fpath) (d : file_descriptor)
  (g : gen_config) (d4 : file_descriptor) (root : ritems) : Prop := mkGoodCrate {
  gc_read : read_proto check fs search n file = ROk d;
  gc_rules : language_rules d;
  gc_names : schema_ok d = true;
  gc_before : before_escape (g_passes g) d = GOk d4;
  gc_single : c_single_module (g_passes g) = true -> d_package d = "";
  gc_defaults : defaults_declared d;
  gc_compiles : compiles (g_passes g) (after_escape (g_passes g) d4);
  gc_crate : in_crates d (after_escape (g_passes g) d4) root;
  gc_distinct : rust_distinct (g_passes g) (after_escape (g_passes g) d4);
  gc_derive : default_kept g (after_escape (g_passes g) d4) }.

Section Good.
Variables (check : bool) (fs : file_system) (search : list fpath) (n : nat) (file : fpath) (d : file_descriptor)
  (g : gen_config) (d4 : file_descriptor) (root : ritems) (t : target).
Hypothesis Good : good_crate check fs search n file d g d4 root.
Let c := g_passes g.
Let d' := after_escape c d4.
Let names := crates_names root d'.

Lemma crate_process : process c d = GOk d'.
Proof. exact (accepted d d4 c (gc_before _ _ _ _ _ _ _ _ _ Good)). Qed.
Lemma crate_rules : protobuf_rules d.
Proof. exact (shaped_rules d (read_shaped _ _ _ _ _ _ (gc_read _ _ _ _ _ _ _ _ _ Good)) (gc_rules _ _ _ _ _ _ _ _ _ Good)). Qed.
Lemma crate_plain : plain_names g d'.
Proof.
  destruct (gc_distinct _ _ _ _ _ _ _ _ _ Good) as [Fi Va En]. constructor.
  - intros i m G. unfold named_slots. rewrite map_app, !map_map. exact (Fi i m G).
  - exact Va.
  - exact En.
  - intros i m f G Hf B. assert (Hf' : field_of m f) by (apply field_of_all; exact Hf).
    destruct (process_field_back c d d' i m f crate_process G Hf') as (m1 & f1 & G1 & Hf1 & FF).
    now destruct (boxed_message c d d' crate_rules crate_process i m1 f1 f G1 Hf1 FF B) as (_ & _ & X).
Qed.
Lemma crate_names_ok : names_ok d' d4 names.
Proof. destruct Good. unfold names. now apply (names_in_crates check fs search n file d d4 c root). Qed.
Lemma crate_literals : literals_ok (rust_lit d') d' /\ forall ty s v, rust_lit d' ty s = Some v -> val_ok d' c ty v.
Proof. destruct Good. now apply (C70_literals c d d' crate_process). Qed.
Lemma crate_schema : schema_wf d' c (rust_lit d') /\ enums_ok d' /\ no_proto3_default d'.
Proof.
  destruct Good. destruct (C64_read_well_formed check fs search n file d c (rust_lit d') d') as (A & _ & B & C0); auto.
  - exact crate_process.
  - apply crate_literals.
Qed.
Lemma crate_constants : constants_ok g d' d4 t names (rust_lit d').
Proof. destruct Good. apply (constants_are g d d4); auto using crate_names_ok, crate_plain. Qed.
End Good.

(** ** The functions *)

(** As C80 and C81: the functions of the trees of all messages, imported or not,
    where the names are those of the crate. *)
Theorem C90_functions_partial : forall check fs search n file d g d4 root t,
  good_crate check fs search n file d g d4 root ->
  let c := g_passes g in let d' := after_escape c d4 in let lit := rust_lit d' in
  let names := crates_names root d' in let prog := generated_program g d' d4 in
  (forall i m, get_message d' i = Some m -> exists ss, GenSem.message_default d' c lit i = Some ss /\
     struct_default t names prog (default_depth d') i = Some (rust_struct d' c i m ss)) /\
  (forall i m o, get_message d' i = Some m -> In o (m_oneofs m) -> oneof_default_of t names prog i (o_name o) = Some (XVariant "None" None)) /\
  (forall q e, get_enum d' q = Some e -> enum_default_of t names prog q = Some (XEnum q (enum_default d' q)) /\
     forall z, enum_from_of t names prog q z = Some (XEnum q (enum_from_i32 d' q z))) /\
  (forall i m ss k, get_message d' i = Some m -> message_ok d' c i ss -> (slots_depth ss < k)%nat ->
     struct_size t names prog (default_depth d') k i (rust_struct d' c i m ss) = Some (message_size d' c lit i ss) /\
     struct_write t names prog (default_depth d') k i (rust_struct d' c i m ss) = Some (message_write d' c lit i ss)) /\
  (forall k i m bs r, get_message d' i = Some m ->
     struct_from t names prog (default_depth d') k i bs r = rmap (rust_struct d' c i m) (GenSem.from_reader d' c lit t k i) bs r).
Proof.
  intros check fs search n file d g d4 root t Good c d' lit names prog.
  pose proof (crate_names_ok _ _ _ _ _ _ _ _ _ Good) as Nm. pose proof (crate_plain _ _ _ _ _ _ _ _ _ Good) as Pl.
  destruct (crate_schema _ _ _ _ _ _ _ _ _ Good) as (Wf & En & _). destruct (crate_literals _ _ _ _ _ _ _ _ _ Good) as (_ & Ty).
  pose proof (crate_constants _ _ _ _ _ _ _ _ _ t Good) as Co. pose proof (gc_derive _ _ _ _ _ _ _ _ _ Good) as De.
  repeat match goal with |- _ /\ _ => split end.
  - intros i m G. destruct (Wf i m G) as [_ _ W]. unfold lit, names, prog, d', c in *.
    destruct (GenSem.message_default _ _ _ i) as [ss|] eqn:E; [|contradiction]. exists ss. split; [reflexivity|].
    exact (struct_default_is g _ d4 t _ _ Nm Pl Wf Co De _ i m ss G E).
  - intros i m o G I. exact (oneof_default_is g _ d4 t _ _ Nm Pl Wf i m o G I).
  - intros q e G. split; [exact (enum_default_is g _ d4 t _ Nm Pl q e G)|]. intros z. exact (enum_from_is g _ d4 t _ Nm Pl q e z G).
  - intros i m ss k G Ok D. unfold message_ok in Ok. rewrite G in Ok. split.
    + exact (struct_size_is g _ d4 t _ _ Nm Pl Wf Co De Ty k i m ss G Ok D).
    + exact (struct_write_is g _ d4 t _ _ Nm Pl Wf Co De Ty k i m ss G Ok D).
  - intros k i m bs r G. exact (struct_from_is g _ d4 t _ _ Nm Pl Wf En Co De Ty k i m bs r G).
Qed.
Print Assumptions C90_functions_partial.

(** ** The code of what is imported *)

Lemma copies_after : forall pm pe g d1 d2, copies pm pe d1 d2 -> copies pm pe (after_escape (g_passes g) d1) (after_escape (g_passes g) d2).
Proof.
  intros pm pe g d1 d2 [Sy Ms Ne En To Ow Pk]. set (c := g_passes g).
  assert (Gm : forall d p, get_message (after_escape c d) p = option_map msg_sanitize_names (get_message d p)).
  { intros d p. unfold after_escape. now rewrite get_single_module, get_sanitize_names. }
  assert (Ge : forall d q, get_enum (after_escape c d) q = option_map enum_sanitize_names (get_enum d q)) by (intros d p; exact (get_enum_after g d p)).
  constructor.
  - unfold after_escape, single_module. destruct (c_single_module c); exact Sy.
  - intros j y G. rewrite Gm in G. destruct (get_message d2 j) as [y0|] eqn:E; [|discriminate]. injection G as <-.
    destruct (Ms j y0 E) as (x0 & G1 & S). exists (msg_sanitize_names x0). rewrite Gm, G1. split; [reflexivity|]. destruct S as [A B C0 D E0].
    destruct x0, y0. cbn in A, B, C0, D, E0. subst. constructor; cbn.
    + reflexivity.
    + reflexivity.
    + rewrite !map_map. apply map_ext. intros f. unfold map_field. now destruct f.
    + clear - D. induction D as [|a b la lb (A & B & C0) D IH]; constructor; [|exact IH]. destruct a, b. cbn in A, B, C0. subst.
      repeat match goal with |- _ /\ _ => split end; try reflexivity. unfold same_oneof. cbn. repeat match goal with |- _ /\ _ => split end; try reflexivity.
      rewrite !map_map. apply map_ext. intros f. unfold map_field. now destruct f.
    + now rewrite !map_length.
  - intros j k y G N. rewrite Gm in G. destruct (get_message d2 (j ++ [k])) as [y0|] eqn:E; [|discriminate]. exact (Ne j k y0 E N).
  - intros q y G. rewrite Ge in G. destruct (get_enum d2 q) as [y0|] eqn:E; [|discriminate]. injection G as <-. destruct (En q y0 E) as (x0 & G1 & (A & B & C0)).
    exists (enum_sanitize_names x0). rewrite Ge, G1. split; [reflexivity|]. unfold same_enum, enum_sanitize_names. cbn. now rewrite A, B, C0.
  - intros k y G. rewrite Gm in G. destruct (get_message d2 [k]) as [y0|] eqn:E; [|discriminate]. injection G as <-. destruct (To k y0 E) as (k' & x & A & B & C0).
    exists k', (msg_sanitize_names x). rewrite Gm, B. split; [exact A|]. split; [reflexivity|]. destruct x, y0. cbn in C0 |- *. now rewrite C0.
  - intros q y G. rewrite Ge in G. destruct (get_enum d2 q) as [y0|] eqn:E; [|discriminate]. exact (Ow q y0 E).
  - intros q x y N G Gx. rewrite Ge in G, Gx. destruct (get_enum d2 q) as [y0|] eqn:E; [|discriminate]. destruct (get_enum d1 (pe q)) as [x0|] eqn:E0; [|discriminate].
    injection G as <-. injection Gx as <-. cbn. now rewrite (Pk q x0 y0 N E E0).
Qed.

(** A file [dF] that the file of [d4] imports, in its own run: it has a package,
    and [d4] has a copy of all that is in it. *)
Record good_part (check : bool) (fs : file_system) (search : list fpath) (g : gen_config) (d4 : file_descriptor)
  (file : fpath) (dF dF4 : file_descriptor) (pm : midx -> midx) (pe : eidx -> eidx) : Prop := mkGoodPart {
  gp_read : exists n, read_proto check fs search n file = ROk dF;
  gp_rules : language_rules dF;
  gp_names : schema_ok dF = true;
  gp_before : before_escape (g_passes g) dF = GOk dF4;
  gp_package : d_package (after_escape (g_passes g) dF4) <> "";
  gp_copies : copies pm pe d4 dF4 }.

(** the types of the fields of a processed file *)
Lemma field_types_ok : forall c d d', protobuf_rules d -> process c d = GOk d' -> forall i m f t, get_message d' i = Some m -> field_of m f ->
  In t (leaves (f_typ f)) -> typ_ok d' t.
Proof.
  intros c d d' R A i m' f' t G Hf. destruct (process_field_back c d d' i m' f' A G Hf) as (m & f & G0 & Hf0 & FF).
  pose proof (final_types c d d' R A i m f f' G0 Hf0 FF) as T.
  assert (L : forall u, typ_ok d' u -> leaves u = [u]) by (intros u Hu; destruct u; try reflexivity; contradiction).
  assert (Kt : forall u, key_ok u -> typ_ok d' u) by (intros u Hu; destruct u; try contradiction; exact Logic.I).
  destruct (freq_is_map (f_freq f)).
  - destruct T as (k & v & E' & Hk & Hv). rewrite E'. cbn [leaves]. rewrite (L k (Kt k Hk)), (L v Hv). intros [<-|[<-|[]]]; auto.
  - rewrite (L _ T). now intros [<-|[]].
Qed.

(** An imported item of the program is an item of the generated file of the file
    that it comes from: in its text, and where that file declares it. *)
Record part_in (prog : program) (pm : midx -> midx) (pe : eidx -> eidx) (dF' : file_descriptor) (items : list ritem_) : Prop := mkPartIn {
  pt_struct : forall j m it, get_message dF' j = Some m -> top_own dF' j -> In it (p_struct prog (pm j)) -> item_in items (mods dF' j) it;
  pt_oneof : forall j m o it, get_message dF' j = Some m -> top_own dF' j -> In o (m_oneofs m) -> In it (p_oneof prog (pm j) (o_name o)) ->
    item_in items (own_module dF' j) it;
  pt_enum : forall q e it, get_enum dF' q = Some e -> own_enum dF' q e -> en_fields e <> [] -> In it (p_enum prog (pe q)) ->
    item_in items (module_of dF' (InEnum q)) it }.

Theorem C90_imported_code_partial : forall check fs search n file d g d4 root fileF dF dF4 pm pe filename services s,
  good_crate check fs search n file d g d4 root -> good_part check fs search g d4 fileF dF dF4 pm pe ->
  generated g dF filename services = (s, None) -> config_ok g = true -> all_chars not_newline filename = true ->
  let d' := after_escape (g_passes g) d4 in let dF' := after_escape (g_passes g) dF4 in
  exists f, parse_rust s = Some f /\ part_in (generated_program g d' d4) pm pe dF' (file_items f).
Proof.
  intros check fs search n file d g d4 root fileF dF dF4 pm pe filename services s Good Part H C F d' dF'.
  destruct Part as [(nF & Rd) Ru Na Be Pa Co].
  assert (P : process (g_passes g) dF = GOk dF') by exact (accepted dF dF4 (g_passes g) Be).
  assert (PR : protobuf_rules dF) by exact (shaped_rules dF (read_shaped _ _ _ _ _ _ Rd) Ru).
  destruct (C80_program_in_file g dF filename services s dF' H Na C F P) as (x & f & B & _ & Q & In0).
  assert (x = dF4) as -> by congruence. exists f. split; [exact Q|].
  pose proof (crate_process _ _ _ _ _ _ _ _ _ Good) as PG. pose proof (crate_rules _ _ _ _ _ _ _ _ _ Good) as RG.
  assert (K : forall j y f0, get_message dF' j = Some y -> field_of y f0 -> known dF' dF4 (f_typ f0)).
  { intros j y f0 G Hf u Hu. pose proof (field_types_ok _ _ _ PR P j y f0 u G Hf Hu) as T. destruct u; cbn in T |- *; try exact Logic.I; try contradiction.
    all: lazymatch type of T with
      | get_message _ ?z <> None => destruct (get_message dF' z); [eauto|contradiction]
      | get_enum _ ?q <> None => split; [destruct (get_enum dF' q); [eauto|contradiction]|]; unfold dF' in T; rewrite (get_enum_after g) in T;
          destruct (get_enum dF4 q); [eauto|now destruct T]
      end. }
  assert (Rf : forall i m f0 j, get_message d' i = Some m -> In f0 (all_fields m) -> In (TMessage j) (leaves (f_typ f0)) -> exists m', get_message d' j = Some m').
  { intros i m f0 j G Hf Hl. pose proof (field_types_ok _ _ _ RG PG i m f0 _ G (proj2 (field_of_all m f0) Hf) Hl) as T. cbn in T.
    fold d' in T. destruct (get_message d' j); [eauto|contradiction]. }
  destruct (program_same g pm pe d' d4 dF' dF4 (copies_after _ _ g _ _ Co) Co (cs_package _ _ _ (gc_crate _ _ _ _ _ _ _ _ _ Good)) Pa K
    (process_indexed _ _ _ PG) (process_indexed _ _ _ P) Rf) as (S1 & S2 & S3).
  destruct In0 as [I1 I2 I3]. constructor.
  - intros j m it G O Hi. rewrite (S1 j m G) in Hi. exact (I1 j m it G O Hi).
  - intros j m o it G O Ho Hi. rewrite (S2 j m _ G) in Hi. exact (I2 j m o it G O Ho Hi).
  - intros q e it G O Ne Hi. rewrite (S3 q e G) in Hi; [exact (I3 q e it G O Ne Hi)|].
    unfold dF' in G. rewrite (get_enum_after g) in G. destruct (get_enum dF4 q); [discriminate|discriminate].
Qed.
Print Assumptions C90_imported_code_partial.

(** ** All files of the crate *)

(** a file that is imported, directly or through another, and its generated text *)
Record part := mkPart { pa_file : fpath; pa_d : file_descriptor; pa_d4 : file_descriptor; pa_messages : midx -> midx; pa_enums : eidx -> eidx; pa_text : text }.
Definition imported_part (check : bool) (fs : file_system) (search : list fpath) (g : gen_config) (d4 : file_descriptor) (p : part) : Prop :=
  good_part check fs search g d4 (pa_file p) (pa_d p) (pa_d4 p) (pa_messages p) (pa_enums p) /\
  exists filename services, generated g (pa_d p) filename services = (pa_text p, None) /\ all_chars not_newline filename = true.
(** every message and enum is of the file itself, or of one of the [parts] *)
Record all_parts (c : config) (d' : file_descriptor) (parts : list part) : Prop := mkAllParts {
  ap_messages : forall i m, get_message d' i = Some m -> top_own d' i \/
    exists p j mF, In p parts /\ pa_messages p j = i /\ get_message (after_escape c (pa_d4 p)) j = Some mF /\ top_own (after_escape c (pa_d4 p)) j;
  ap_enums : forall q e, get_enum d' q = Some e -> own_enum d' q e \/
    exists p r eF, In p parts /\ pa_enums p r = q /\ get_enum (after_escape c (pa_d4 p)) r = Some eF /\ own_enum (after_escape c (pa_d4 p)) r eF }.
(** The items of the program are in the texts: those of a message all in one
    text, in the modules in which they are searched. *)
Definition in_text (s : text) (path : list text) (it : ritem_) : Prop := exists f, parse_rust s = Some f /\ item_in (file_items f) path it.
Record program_in_texts (prog : program) (d : file_descriptor) (texts : list text) : Prop := mkProgramInTexts {
  px_struct : forall i m, get_message d i = Some m -> exists s, In s texts /\ (forall it, In it (p_struct prog i) -> in_text s (mods d i) it) /\
    forall o it, In o (m_oneofs m) -> In it (p_oneof prog i (o_name o)) -> in_text s (own_module d i) it;
  px_enum : forall q e, get_enum d q = Some e -> en_fields e <> [] -> exists s, In s texts /\
    forall it, In it (p_enum prog q) -> in_text s (module_of d (InEnum q)) it }.

Theorem C90_program_in_texts_partial : forall check fs search n file d g d4 root filename services s parts,
  good_crate check fs search n file d g d4 root -> Forall (imported_part check fs search g d4) parts ->
  let d' := after_escape (g_passes g) d4 in all_parts (g_passes g) d' parts ->
  generated g d filename services = (s, None) -> config_ok g = true -> all_chars not_newline filename = true ->
  program_in_texts (generated_program g d' d4) d' (s :: map pa_text parts).
Proof.
  intros check fs search n file d g d4 root filename services s parts Good Parts d' [AM AE] H C F. rewrite Forall_forall in Parts.
  destruct (C80_program_in_file g d filename services s _ H (gc_names _ _ _ _ _ _ _ _ _ Good) C F (crate_process _ _ _ _ _ _ _ _ _ Good)) as (x & f & B & _ & Q & [I1 I2 I3]).
  assert (x = d4) as -> by (rewrite (gc_before _ _ _ _ _ _ _ _ _ Good) in B; congruence).
  assert (PP : forall p, In p parts -> copies (pa_messages p) (pa_enums p) d' (after_escape (g_passes g) (pa_d4 p)) /\
    exists fF, parse_rust (pa_text p) = Some fF /\ part_in (generated_program g d' d4) (pa_messages p) (pa_enums p) (after_escape (g_passes g) (pa_d4 p)) (file_items fF)).
  { intros p Ip. destruct (Parts p Ip) as (GP & fn & sv & H' & F'). split; [exact (copies_after _ _ g _ _ (gp_copies _ _ _ _ _ _ _ _ _ _ GP))|].
    exact (C90_imported_code_partial _ _ _ _ _ _ _ _ _ _ _ _ _ _ _ _ _ Good GP H' C F'). }
  constructor.
  - intros i m G. destruct (AM i m G) as [O|(p & j & mF & Ip & <- & GF & O)].
    + exists s. split; [now left|]. split.
      * intros it Hi. exists f. split; [exact Q|]. exact (I1 i m it G O Hi).
      * intros o it Ho Hi. exists f. split; [exact Q|]. exact (I2 i m o it G O Ho Hi).
    + destruct (PP p Ip) as (Co & fF & QF & [J1 J2 J3]). exists (pa_text p). split; [right; now apply in_map|].
      destruct (cp_messages _ _ _ _ Co _ _ GF) as (m' & G' & S). assert (m' = m) as -> by congruence.
      rewrite (proj1 (message_place _ _ _ _ Co _ _ GF)), (own_place _ _ _ _ Co _ _ GF). split.
      * intros it Hi. exists fF. split; [exact QF|]. exact (J1 j mF it GF O Hi).
      * intros o it Ho Hi. exists fF. split; [exact QF|]. pose proof (sm_oneofs _ _ _ _ S) as SO.
        assert (X : exists o', In o' (m_oneofs mF) /\ o_name o' = o_name o).
        { clear - SO Ho. induction SO as [|a b la lb E SO IH]; [destruct Ho|]. destruct Ho as [<-|Ho].
          - exists b. split; [now left|]. symmetry. apply E.
          - destruct (IH Ho) as (o' & I & En). exists o'. split; [now right|exact En]. }
        destruct X as (o' & Io & En). rewrite <- En in Hi. exact (J2 j mF o' it GF O Io Hi).
  - intros q e G Ne. destruct (AE q e G) as [O|(p & r & eF & Ip & <- & GF & O)].
    + exists s. split; [now left|]. intros it Hi. exists f. split; [exact Q|]. exact (I3 q e it G O Ne Hi).
    + destruct (PP p Ip) as (Co & fF & QF & [J1 J2 J3]). exists (pa_text p). split; [right; now apply in_map|].
      destruct (cp_enums _ _ _ _ Co _ _ GF) as (e' & G' & (_ & _ & Ef)). assert (e' = e) as -> by congruence. rewrite Ef in Ne.
      rewrite (proj1 (enum_place _ _ _ _ Co _ _ GF)). intros it Hi. exists fF. split; [exact QF|]. exact (J3 r eF it GF O Ne Hi).
Qed.
Print Assumptions C90_program_in_texts_partial.

(** ** Writing and reading *)

(** As C82: the program, whose items are in the texts of the file and of the files
    that it imports, writes every message and reads it back. *)
Theorem C90_roundtrip_partial : forall check fs search n file d g d4 root filename services s parts t,
  good_crate check fs search n file d g d4 root -> Forall (imported_part check fs search g d4) parts ->
  let c := g_passes g in let d' := after_escape c d4 in let prog := generated_program g d' d4 in let names := crates_names root d' in
  all_parts c d' parts -> generated g d filename services = (s, None) -> config_ok g = true -> all_chars not_newline filename = true ->
  program_in_texts prog d' (s :: map pa_text parts) /\
  forall i m ss depth, get_message d' i = Some m -> message_ok d' c i ss -> no_negative_zero d' c i ss -> (slots_depth ss < depth)%nat ->
    zlen (enc_message d' c (rust_lit d') i ss) < 2 ^ 32 ->
  exists size write full,
    struct_size t names prog (default_depth d') depth i (rust_struct d' c i m ss) = Some size /\
    struct_write t names prog (default_depth d') depth i (rust_struct d' c i m ss) = Some write /\
    serialize_into_vec size write = Ok full /\
    (buf_ok t full -> exists ss', Forall2 same_slot ss ss' /\ forall k, (length full <= k)%nat ->
      deserialize_from_slice t (struct_from t names prog (default_depth d') k i) full = Ok (rust_struct d' c i m ss')).
Proof.
  intros check fs search n file d g d4 root filename services s parts t Good Parts c d' prog names All H C F.
  split; [exact (C90_program_in_texts_partial _ _ _ _ _ _ _ _ _ _ _ _ _ Good Parts All H C F)|]. intros i m ss depth G Ok Hz Dp Hl.
  destruct (C90_functions_partial _ _ _ _ _ _ _ _ _ t Good) as (_ & _ & _ & Fn & Rd). destruct (Fn i m ss depth G Ok Dp) as (Sz & Wr).
  destruct (crate_schema _ _ _ _ _ _ _ _ _ Good) as (Wf & _ & N3).
  destruct (proj2 (C26_roundtrip_partial _ _ _ t Wf N3 i ss Ok Hz Hl)) as (full & S & R).
  eexists _, _, full. split; [exact Sz|]. split; [exact Wr|]. split; [exact S|]. intros Bo. destruct (R Bo) as (ss' & Same & K).
  exists ss'. split; [exact Same|]. intros k Lk. specialize (K k Lk).
  rewrite (deserialize_lifts (rust_struct d' c i m) t (GenSem.from_reader d' c (rust_lit d') t k i)).
  - fold c in K. fold d' in K. rewrite K. reflexivity.
  - intros bs r. exact (Rd k i m bs r G).
Qed.
Print Assumptions C90_roundtrip_partial.

(** ** The concrete case *)

Definition crateLib : text := "
package lib.base;
enum Color { RED = 0; GREEN = 3; }
message Id {
  enum Kind { EMPTY = 0; FULL = 1; }
  message Part { optional string s = 1 [default = ""x""]; optional Id back = 2; }
  oneof body { Part part = 1; uint32 num = 2; }
  optional Kind kind = 3 [default = FULL];
}"%string.
Definition crateApp : text := "
package app;
import ""lib.proto"";
message Node {
  required lib.base.Id id = 1;
  optional lib.base.Color color = 2 [default = GREEN];
  repeated lib.base.Id.Part parts = 3;
  map<string, Node> type = 4;
}"%string.
Definition crate_fs : file_system := fun p => match fp_parts p with ["app.proto"] => Some crateApp | ["lib.proto"] => Some crateLib | _ => None end.
Definition empty_desc : file_descriptor := mkDesc "" Proto2 [] [] "".
Definition crate_d : file_descriptor := Eval vm_compute in match read_proto true crate_fs [path_of ""] 3 (path_of "app.proto") with ROk d => d | _ => empty_desc end.
Definition crate_d4 : file_descriptor := Eval vm_compute in match before_escape meanConfig crate_d with GOk d => d | _ => empty_desc end.
Definition crate_d' : file_descriptor := Eval vm_compute in after_escape meanConfig crate_d4.
Definition lib_d : file_descriptor := Eval vm_compute in match read_proto true crate_fs [path_of ""] 3 (path_of "lib.proto") with ROk d => d | _ => empty_desc end.
Definition lib_d4 : file_descriptor := Eval vm_compute in match before_escape meanConfig lib_d with GOk d => d | _ => empty_desc end.
Definition lib_d' : file_descriptor := Eval vm_compute in after_escape meanConfig lib_d4.
(** the files of the crate, with the numbers that the items have for [crate_d'] *)
Definition lib_items : ritems := match d_messages crate_d' with [_; m] => ("Color", IEnum (mkEidx [] 0)) :: emit_message [1%nat] m | _ => [] end.
Definition crate_root : ritems := [("app", IMod true (emit_file crate_d')); ("lib", IMod false [("base", IMod true lib_items)])].
Definition lib_pm (j : midx) : midx := match j with k :: r => Datatypes.S k :: r | [] => [] end.
Definition lib_pe (q : eidx) : eidx := mkEidx (lib_pm (e_msg q)) (e_pos q).
Definition lib_part : part := mkPart (path_of "lib.proto") lib_d lib_d4 lib_pm lib_pe (fst (generated textConfig lib_d "lib.proto" 0)).
Lemma crate_after : after_escape meanConfig crate_d4 = crate_d' /\ after_escape meanConfig lib_d4 = lib_d'.
Proof. split; vm_compute; reflexivity. Qed.
Ltac each_enum_of q e H :=
  unfold get_enum in H; destruct q as [[|? ?] pos]; cbn [e_msg e_pos] in H;
  [cbn in H; destruct pos as [|[|[]]]; cbn in H; try discriminate; injection H as <-
  |let K := fresh in match type of H with match ?x with _ => _ end = _ => destruct x eqn:K; [|discriminate] end; each_message K; cbn in H;
   destruct pos as [|[|[]]]; cbn in H; try discriminate; injection H as <-].
Lemma crate_defaults : defaults_declared crate_d.
Proof.
  intros p m f G Hf Nf. apply field_of_all in Hf. each_message G; vm_compute in Hf;
    repeat (destruct Hf as [<-|Hf]); try destruct Hf; try (now destruct Nf).
  - eexists. eapply dd_enum; [vm_compute; reflexivity|vm_compute; reflexivity|reflexivity|right; left; reflexivity|lia|repeat constructor; cbn; intuition discriminate|reflexivity|cbn; intros v [<-|[<-|[]]]; reflexivity].
  - eexists. eapply dd_enum; [vm_compute; reflexivity|vm_compute; reflexivity|reflexivity|right; left; reflexivity|lia|repeat constructor; cbn; intuition discriminate|reflexivity|cbn; intros v [<-|[<-|[]]]; reflexivity].
  - eexists. eapply (dd_literal _ _ _ [("default", """x""")]); [exact Logic.I|reflexivity|vm_compute; reflexivity|vm_compute; reflexivity|vm_compute; reflexivity|apply utf8_valid_is; vm_compute; reflexivity].
Qed.
Ltac in_root := unfold file_in_root; split; [vm_compute; intuition discriminate|]; split; [vm_compute; reflexivity|]; eexists _, _; split; [vm_compute; reflexivity|].
Lemma crate_begins s : begins_path crate_d' s -> s = "app" \/ s = "lib".
Proof.
  intros (l & [(m & I & E)|(e & I & E)]); vm_compute in I; repeat (destruct I as [<-|I]); try destruct I; vm_compute in E; injection E as <- <-; auto.
Qed.
Ltac not_begun := intros s Hb Hd; apply declared_names, mem_text_in in Hd; destruct (crate_begins s Hb) as [-> | ->]; vm_compute in Hd; discriminate Hd.
Lemma crate_good : good_crate true crate_fs [path_of ""] 3 (path_of "app.proto") crate_d textConfig crate_d4 crate_root.
Proof.
  constructor.
  - vm_compute. reflexivity.
  - apply rules_check.
    + cbn. intros p m H. decompose [or] H; try contradiction; match goal with K : _ = _ |- _ => injection K as <- <- end;
        (split; [reflexivity|]); cbn; distinct_texts.
    + repeat constructor; discriminate.
  - vm_compute. reflexivity.
  - vm_compute. reflexivity.
  - discriminate.
  - exact crate_defaults.
  - intros X. discriminate X.
  - change (after_escape (g_passes textConfig) crate_d4) with (after_escape meanConfig crate_d4). rewrite (proj1 crate_after). constructor.
    + discriminate.
    + intros k m N. destruct k as [|[|[]]]; cbn in N; try discriminate; injection N as <-; in_root.
      all: split; [intros x Hx; vm_compute in Hx |- *; tauto|]; split; [apply distinct_item_ok with false; vm_compute; reflexivity|not_begun].
    + intros k e N. destruct k as [|[]]; cbn in N; try discriminate; injection N as <-; in_root.
      split; [now left|]. split; [apply distinct_item_ok with false; vm_compute; reflexivity|not_begun].
    + split.
      * intros i m G. each_message G; (split; [reflexivity|]); repeat split; discriminate.
      * intros q e G. each_enum_of q e G; (split; [reflexivity|]); repeat split; discriminate.
    + intros i m G _. each_message G; vm_compute; reflexivity.
    + intros q e G. each_enum_of q e G; (split; [vm_compute; reflexivity|]); eexists _, _, _; (split; [reflexivity|vm_compute; reflexivity]).
  - change (after_escape (g_passes textConfig) crate_d4) with (after_escape meanConfig crate_d4). rewrite (proj1 crate_after). constructor.
    + intros i m G. each_message G; cbn; distinct_texts.
    + intros i m o G H. each_message G; cbn in H; repeat (destruct H as [<-|H]); try destruct H; cbn; distinct_texts.
    + intros q e G. each_enum_of q e G; cbn; distinct_texts.
  - now left.
Qed.
Lemma lib_copies : copies lib_pm lib_pe crate_d4 lib_d4.
Proof.
  constructor.
  - reflexivity.
  - intros j y G. each_message G; eexists; (split; [reflexivity|]); (constructor; [reflexivity|reflexivity|reflexivity| |reflexivity]);
      try (constructor; [unfold same_oneof; repeat match goal with |- _ /\ _ => split end; reflexivity|]); constructor.
  - intros [|x j] k y G N; [contradiction|reflexivity].
  - intros q y G. each_enum_of q y G; eexists; (split; [reflexivity|]); unfold same_enum; repeat match goal with |- _ /\ _ => split end; reflexivity.
  - intros [|[|k]] y G; cbn in G; try discriminate; injection G as <-. eexists _, _; (split; [reflexivity|]); split; reflexivity.
  - intros q y G. each_enum_of q y G; reflexivity.
  - intros q x y N G Gx. each_enum_of q y G; try discriminate. cbn in Gx. now injection Gx as <-.
Qed.
Lemma lib_imported : imported_part true crate_fs [path_of ""] textConfig crate_d4 lib_part.
Proof.
  split.
  - constructor.
    + exists 3%nat. vm_compute. reflexivity.
    + apply rules_check.
      * cbn. intros p m H. decompose [or] H; try contradiction; match goal with K : _ = _ |- _ => injection K as <- <- end;
          (split; [reflexivity|]); cbn; distinct_texts.
      * repeat constructor; discriminate.
    + vm_compute. reflexivity.
    + vm_compute. reflexivity.
    + discriminate.
    + exact lib_copies.
  - exists "lib.proto", 0%nat. split; vm_compute; reflexivity.
Qed.
Lemma crate_parts : all_parts meanConfig crate_d' [lib_part].
Proof.
  constructor.
  - intros i m G. each_message G.
    + left. exists 0%nat, []. eexists. repeat split.
    + right. exists lib_part, [0%nat]. eexists. split; [now left|]. split; [reflexivity|]. split; [reflexivity|]. exists 0%nat, []. eexists. repeat split.
    + right. exists lib_part, [0%nat; 0%nat]. eexists. split; [now left|]. split; [reflexivity|]. split; [reflexivity|]. exists 0%nat, [0%nat]. eexists. repeat split.
  - intros q e G. each_enum_of q e G; right.
    + exists lib_part, (mkEidx [] 0). eexists. repeat split. now left.
    + exists lib_part, (mkEidx [0%nat] 0). eexists. split; [now left|]. split; [reflexivity|]. split; [reflexivity|]. exists 0%nat, []. eexists. repeat split.
Qed.
(** A node with imported messages in it, read by the code of both files and
    written again. *)
Definition crate_names_of := crates_names crate_root crate_d'.
Definition crate_prog := generated_program textConfig crate_d' crate_d4.
Definition crate_input : bytes := map zb [10;8; 24;0; 10;4; 10;2;65;66; 16;3; 26;4; 18;2; 16;7; 34;9; 10;1;90; 18;4; 10;2; 16;9].
Definition crate_value : rv := Eval vm_compute in
  match struct_from mean_target crate_names_of crate_prog (default_depth crate_d') 60 [0%nat] crate_input (from_bytes crate_input) with (Ok v, _) => v | _ => XUnit end.
Example C90_case : exists s, generated textConfig crate_d "app.proto" 0 = (s, None) /\ config_ok textConfig = true /\
  good_crate true crate_fs [path_of ""] 3 (path_of "app.proto") crate_d textConfig crate_d4 crate_root /\
  Forall (imported_part true crate_fs [path_of ""] textConfig crate_d4) [lib_part] /\ all_parts meanConfig crate_d' [lib_part] /\
  length (p_struct crate_prog [1; 0]%nat) = 15%nat /\ mods crate_d' [1; 0]%nat = ["mod_Id"] /\
  crate_value = XStruct [0%nat]
    [("id", XStruct [1%nat] [("kind", XOpt (Some (XEnum (mkEidx [1%nat] 0) 0)));
                             ("body", XVariant "part" (Some (XStruct [1; 0]%nat [("s", XOpt (Some (XBytes (map zb [65; 66])))); ("back", XOpt None)])))]);
     ("color", XOpt (Some (XEnum (mkEidx [] 0) 3)));
     ("parts", XList [XStruct [1; 0]%nat [("s", XOpt None); ("back", XOpt (Some (XStruct [1%nat] [("kind", XOpt None); ("body", XVariant "num" (Some (XInt 7)))])))]]);
     ("type_pb", XMap [(XBytes (map zb [90]), XStruct [0%nat] [("id", XStruct [1%nat] [("kind", XOpt None); ("body", XVariant "num" (Some (XInt 9)))]);
                                                              ("color", XOpt None); ("parts", XList []); ("type_pb", XMap [])])])] /\
  match struct_size mean_target crate_names_of crate_prog (default_depth crate_d') 5 [0%nat] crate_value,
        struct_write mean_target crate_names_of crate_prog (default_depth crate_d') 5 [0%nat] crate_value with
  | Some size, Some write => match serialize_into_vec size write with
                             | Ok b => deserialize_from_slice mean_target (struct_from mean_target crate_names_of crate_prog (default_depth crate_d') 60 [0%nat]) b = Ok crate_value
                             | _ => False
                             end
  | _, _ => False
  end.
Proof.
  let r := eval vm_compute in (fst (generated textConfig crate_d "app.proto" 0)) in exists r.
  split; [vm_compute; reflexivity|]. split; [reflexivity|]. split; [exact crate_good|]. split; [constructor; [exact lib_imported|constructor]|]. split; [exact crate_parts|].
  split. { vm_compute. reflexivity. } split. { reflexivity. } split. { vm_compute. reflexivity. } vm_compute. reflexivity.
Qed.

(** ** Files of different syntax *)

(** A proto3 file that imports a proto2 file: the fields of the imported messages
    are packed as if they were of proto3 (types.rs:2772-2778 goes through all
    messages), so a message may borrow there (types.rs:371) that does not borrow
    in its own file.  The importing file then says [lib::M<'a>], where [M] is
    declared without a lifetime: Rust refuses the crate (E0107). *)
Definition mixLib : text := "package lib; message M { repeated fixed32 xs = 1; }"%string.
Definition mixApp : text := "syntax = ""proto3""; package app; import ""lib.proto""; message A { lib.M m = 1; }"%string.
Definition mix_fs : file_system := fun p => match fp_parts p with ["app.proto"] => Some mixApp | ["lib.proto"] => Some mixLib | _ => None end.
Theorem C90_mixed_syntax_refuted : exists d dL s sL f fL,
  read_proto true mix_fs [path_of ""] 3 (path_of "app.proto") = ROk d /\ read_proto true mix_fs [path_of ""] 3 (path_of "lib.proto") = ROk dL /\
  language_rules d /\ language_rules dL /\
  generated textConfig d "app.proto" 0 = (s, None) /\ generated textConfig dL "lib.proto" 0 = (sL, None) /\ parse_rust s = Some f /\ parse_rust sL = Some fL /\
  (exists attrs pub fields, In (RIStruct attrs pub "M" [] fields) (file_items fL)) /\
  exists attrs pub fields fld, In (RIStruct attrs pub "A" ["a"] fields) (file_items f) /\ In fld fields /\
    rf_type fld = RTPath false [PSeg "lib" []; PSeg "M" [GLife "a"]].
Proof.
  let r := eval vm_compute in (match read_proto true mix_fs [path_of ""] 3 (path_of "app.proto"), read_proto true mix_fs [path_of ""] 3 (path_of "lib.proto") with
    | ROk d, ROk dL => let s := fst (generated textConfig d "app.proto" 0) in let sL := fst (generated textConfig dL "lib.proto" 0) in
                       Some (d, dL, s, sL, parse_rust s, parse_rust sL)
    | _, _ => None end) in
  match r with Some (?d, ?dL, ?s, ?sL, Some ?f, Some ?fL) => exists d, dL, s, sL, f, fL end.
  split; [vm_compute; reflexivity|]. split; [vm_compute; reflexivity|].
  split. { apply rules_check; [|repeat constructor; discriminate]. cbn. intros p m H. decompose [or] H; try contradiction;
    match goal with K : _ = _ |- _ => injection K as <- <- end; (split; [reflexivity|]); cbn; distinct_texts. }
  split. { apply rules_check; [|repeat constructor; discriminate]. cbn. intros p m H. decompose [or] H; try contradiction;
    match goal with K : _ = _ |- _ => injection K as <- <- end; (split; [reflexivity|]); cbn; distinct_texts. }
  do 4 (split; [vm_compute; reflexivity|]). cbn [file_items]. split.
  - eexists _, _, _. repeat first [left; reflexivity|right].
  - eexists _, _, _, _. split; [repeat first [left; reflexivity|right]|]. split; [left; reflexivity|]. reflexivity.
Qed.
Print Assumptions C90_mixed_syntax_refuted.
