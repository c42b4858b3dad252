(** C90: the copies of imported messages come from reading the files and from the
    passes, and every message is of the file itself or is one of the copies. *)
From Coq Require Import String Ascii Arith ZArith Lia Bool Relations.
From Verif Require Import Props_EndToEnd Props_Safety Props_Paths Props_Passes Props_Accepted Props_Lifetime Props_Generated Props_Defaults Props_TypeCheck Props_Literals Props_Text Props_Meaning.
From Verif Require Import Props_Cycles.
From Verif Require Import Base Utf8Facts Reader PackedFixed Writer Sizeofs Spec Schema Keywords Modules Passes Scc Gen GenSem GenSpec GenRecords GenType GenSame GenCheck.
From Verif Require Import Cycles CycleFacts BreakFacts IndexFacts Pipeline PassFacts ResolveFacts AcceptFacts Lifetime LifetimeFacts Parser ProtoText FileText ParserOut Import
  Props_Import Paths PathFacts PlaceFacts.
From Verif Require Import RustTypes Emit Literals Output GenText RustLex RustAst RustParse GenAst LexFacts GenGood RustLit RustSem Meaning
  MeanFacts MeanSize MeanWrite MeanRead MeanConst MeanNames MeanImports MeanCopy Props_Imports Copies.
Import Schema StringSyntax.
Local Open Scope string_scope.
Local Open Scope list_scope.
Local Open Scope Z_scope.


Lemma shaped_fields : forall d, shaped_desc d -> forall j y f, get_message d j = Some y -> In f (all_fields y) -> parsed_type (f_typ f) /\ f_boxed f = false.
Proof.
  intros d (S & _) j y f G If. rewrite get_message_eq in G. pose proof (Props_EndToEnd.shaped_get _ S j y G) as [H1 H2 _ _].
  rewrite Forall_forall in H1, H2. unfold all_fields in If. apply in_app_or in If. destruct If as [If|If].
  - destruct (H1 f If) as (A & B & _). auto.
  - apply in_flat_map in If. destruct If as (o & Io & If). specialize (H2 o Io). rewrite Forall_forall in H2. destruct (H2 f If) as (A & B & _). auto.
Qed.
Lemma before_package : forall c d d4, before_escape c d = GOk d4 -> c_single_module c = false -> d_package (after_escape c d4) = d_package d.
Proof.
  intros c d d4 H S. destruct (process_header c d _ (accepted d d4 c H)) as (_ & _ & ->). now rewrite S.
Qed.

(** ** The hypotheses *)

(** What is asked of the files together.  Each file has a package; no two declarations
    have the same full name; a message that contains itself through others by value or
    in an [Option] contains one that directly contains it. *)
Record plain_crate (check : bool) (fs : file_system) (search : list fpath) (file : fpath) (d : file_descriptor) (g : gen_config) : Prop := mkPlainCrate {
  pc_packages : packages check fs search file;
  pc_modules : c_single_module (g_passes g) = false;
  pc_names : unique_names d;
  pc_cycles : forall d1, resolve_types d = GOk d1 -> direct_cycles d1 }.
(** What is asked of a file that is imported, directly or not. *)
Record plain_part (d : file_descriptor) (g : gen_config) (dF dF4 : file_descriptor) : Prop := mkPlainPart {
  pp_rules : language_rules dF;
  pp_names : schema_ok dF = true;
  pp_before : before_escape (g_passes g) dF = GOk dF4;
  pp_syntax : d_syntax d = d_syntax dF;
  pp_scope : not_captured d dF }.

(** ** One file *)

Lemma part_good : forall check fs search n file d g d4 root fileF k dF a b dF4,
  good_crate check fs search n file d g d4 root -> plain_crate check fs search file d g ->
  clos_trans _ (imports check fs search) file fileF -> read_proto check fs search k fileF = ROk dF -> part_of a b d dF ->
  plain_part d g dF dF4 -> good_part check fs search g d4 fileF dF dF4 (shift_m a) (shift_e a b).
Proof.
  intros check fs search n file d g d4 root fileF k dF a b dF4 Good Pl T RF Q [Ru Na Be Sy Sc].
  pose proof (gc_read _ _ _ _ _ _ _ _ _ Good) as R.
  pose proof (shaped_fields d (read_shaped _ _ _ _ _ _ R)) as Sd. pose proof (shaped_fields dF (read_shaped _ _ _ _ _ _ RF)) as SF.
  assert (PF : d_package dF <> "").
  { apply (pc_packages _ _ _ _ _ _ Pl fileF k dF); [|exact RF]. clear -T. induction T; [now apply rt_step|eapply rt_trans; eassumption]. }
  constructor; [now exists k|exact Ru|exact Na|exact Be| |].
  - now rewrite (before_package _ _ _ Be (pc_modules _ _ _ _ _ _ Pl)).
  - apply (before_keeps (shift_m a) (shift_e a b) (shift_injective a) (g_passes g) d dF d4 dF4).
    + apply (part_copies a b d dF Q Sy). intros j y f G If. now apply (SF j y f).
    + exact (pc_names _ _ _ _ _ _ Pl).
    + exact Sc.
    + exact (pc_packages _ _ _ _ _ _ Pl file n d (rt_refl _ _ _) R).
    + exact PF.
    + intros j y G. exists (msg_set_imported y). split; [exact (part_get a b d dF Q j y G)|]. now destruct y.
    + exact (part_declares_message a b d dF Q).
    + exact (part_declares_enum a b d dF Q).
    + exact SF.
    + intros j y f G If. now apply (Sd j y f).
    + exact (pc_cycles _ _ _ _ _ _ Pl).
    + exact (gc_before _ _ _ _ _ _ _ _ _ Good).
    + exact Be.
Qed.

(** What is read for a file has the messages and enums of every file that it imports,
    directly or not, marked as imported and otherwise unchanged, at consecutive
    positions; and after the passes they are still copies of those of that file. *)
Theorem C90_copies_partial : forall check fs search n file d g d4 root fileF,
  good_crate check fs search n file d g d4 root -> plain_crate check fs search file d g ->
  clos_trans _ (imports check fs search) file fileF ->
  exists k dF a b, read_proto check fs search k fileF = ROk dF /\ part_of a b d dF /\
  forall dF4, plain_part d g dF dF4 -> good_part check fs search g d4 fileF dF dF4 (shift_m a) (shift_e a b).
Proof.
  intros check fs search n file d g d4 root fileF Good Pl T.
  pose proof (gc_read _ _ _ _ _ _ _ _ _ Good) as R. destruct (read_parts _ _ _ _ _ T n d R) as (k & dF & RF & P).
  destruct P as (a & b & Q).
  { apply (read_packaged check fs search k fileF dF RF).
    intros h j y Th. apply (pc_packages _ _ _ _ _ _ Pl). apply rt_trans with fileF; [|exact Th]. clear -T. induction T; [now apply rt_step|eapply rt_trans; eassumption]. }
  exists k, dF, a, b. split; [exact RF|]. split; [exact Q|]. intros dF4 PP. exact (part_good _ _ _ _ _ _ _ _ _ _ _ _ _ _ _ Good Pl T RF Q PP).
Qed.
Print Assumptions C90_copies_partial.

(** ** All files *)

Lemma part_back : forall a b d dF k r, part_of a b d dF -> (k < length (d_messages dF))%nat ->
  get_message d ((a + k)%nat :: r) = option_map msg_set_imported (get_message dF (k :: r)).
Proof.
  intros a b d dF k r Q L. rewrite !get_message_eq. destruct (po_messages _ _ _ _ Q) as (A & B & -> & LA).
  transitivity (get_in (map msg_set_imported (d_messages dF)) (k :: r)); [|apply get_in_map; intros m; now destruct m].
  cbn [get_in]. rewrite nth_error_app2 by lia. replace (a + k - length A)%nat with k by lia.
  now rewrite nth_error_app1 by (now rewrite map_length).
Qed.
Lemma gather : forall (A : Type) (P : nat -> A -> Prop) (Q : A -> Prop) n, (forall k, (k < n)%nat -> exists p, Q p /\ P k p) ->
  exists l, Forall Q l /\ forall k, (k < n)%nat -> exists p, In p l /\ P k p.
Proof.
  intros A P Q n. induction n as [|n IH]; intros H; [exists []; split; [constructor|lia]|].
  destruct IH as (l & F & L); [intros k Hk; apply H; lia|]. destruct (H n) as (p & Qp & Pp); [lia|]. exists (p :: l). split; [now constructor|].
  intros k Hk. destruct (Nat.eq_dec k n) as [->|N]; [exists p; split; [now left|exact Pp]|]. destruct (L k) as (q & Iq & Pq); [lia|]. exists q. split; [now right|exact Pq].
Qed.
Lemma message_head : forall c d d', process c d = GOk d' -> forall i m', get_message d' i = Some m' -> exists m, get_message d i = Some m /\ head_final m m'.
Proof. intros c d d' H i m' G. pose proof (process_head c d d' H i) as O. rewrite G in O. inversion O; subst. eauto. Qed.
Lemma head_message : forall c d d', process c d = GOk d' -> forall i m, get_message d i = Some m -> exists m', get_message d' i = Some m' /\ head_final m m'.
Proof. intros c d d' H i m' G. pose proof (process_head c d d' H i) as O. rewrite G in O. inversion O; subst. eauto. Qed.
Lemma get_top : forall d k, get_message d [k] = nth_error (d_messages d) k.
Proof. intros d k. rewrite get_message_eq. cbn [get_in]. now destruct (nth_error (d_messages d) k). Qed.
Lemma get_top_some : forall d k r m, get_message d (k :: r) = Some m -> exists top, nth_error (d_messages d) k = Some top.
Proof. intros d k r m G. rewrite get_message_eq in G. cbn [get_in] in G. destruct (nth_error (d_messages d) k); [eauto|discriminate]. Qed.
Lemma own_head : forall c d d', process c d = GOk d' -> forall k r m top, get_message d (k :: r) = Some m -> nth_error (d_messages d) k = Some top ->
  m_imported top = false -> top_own d' (k :: r).
Proof.
  intros c d d' H k r m top _ N I. rewrite <- get_top in N. destruct (head_message c d d' H [k] top N) as (t' & G' & HF).
  rewrite get_top in G'. exists k, r, t'. repeat (split; [first [reflexivity|exact G']|]). now rewrite (hf_imported _ _ HF).
Qed.

(** the texts that are generated for the imported files *)
Definition crate_texts (check : bool) (fs : file_system) (search : list fpath) (file : fpath) (d : file_descriptor) (g : gen_config) (texts : list text) : Prop :=
  forall fileF k dF, clos_trans _ (imports check fs search) file fileF -> read_proto check fs search k fileF = ROk dF ->
  exists dF4 filename services s, plain_part d g dF dF4 /\ generated g dF filename services = (s, None) /\ all_chars not_newline filename = true /\ In s texts.

Lemma parts_exist : forall check fs search n file d g d4 root (More : part -> Prop),
  good_crate check fs search n file d g d4 root -> plain_crate check fs search file d g ->
  (forall fileF k dF, clos_trans _ (imports check fs search) file fileF -> read_proto check fs search k fileF = ROk dF ->
     exists dF4 s, plain_part d g dF dF4 /\ forall a b, More (mkPart fileF dF dF4 (shift_m a) (shift_e a b) s)) ->
  let d' := after_escape (g_passes g) d4 in
  exists parts, all_parts (g_passes g) d' parts /\
    Forall (fun p => good_part check fs search g d4 (pa_file p) (pa_d p) (pa_d4 p) (pa_messages p) (pa_enums p) /\
      clos_trans _ (imports check fs search) file (pa_file p) /\ More p) parts.
Proof.
  intros check fs search n file d g d4 root More Good Pl Tx d'. set (c := g_passes g).
  pose proof (crate_process _ _ _ _ _ _ _ _ _ Good) as PG. fold c in PG. change (process c d = GOk d') in PG.
  pose proof (gc_read _ _ _ _ _ _ _ _ _ Good) as R.
  destruct (read_split check fs search n file d R (pc_packages _ _ _ _ _ _ Pl)) as (SM & SE).
  set (good := fun p => good_part check fs search g d4 (pa_file p) (pa_d p) (pa_d4 p) (pa_messages p) (pa_enums p) /\
    clos_trans _ (imports check fs search) file (pa_file p) /\ More p).
  assert (Mk : forall fileF k dF a b, clos_trans _ (imports check fs search) file fileF -> read_proto check fs search k fileF = ROk dF -> part_of a b d dF ->
    exists p, good p /\ pa_d p = dF /\ pa_messages p = shift_m a /\ pa_enums p = shift_e a b).
  { intros fileF k dF a b T RF Q. destruct (Tx fileF k dF T RF) as (dF4 & s & PP & HX).
    exists (mkPart fileF dF dF4 (shift_m a) (shift_e a b) s). unfold good. cbn. split; [|auto]. split; [|auto].
    exact (part_good _ _ _ _ _ _ _ _ _ _ _ _ _ _ _ Good Pl T RF Q PP). }
  assert (Pr : forall p, good p -> process c (pa_d p) = GOk (after_escape c (pa_d4 p)))
    by (intros p (GP & _); exact (accepted _ _ c (gp_before _ _ _ _ _ _ _ _ _ _ GP))).
  assert (LM : exists l, Forall good l /\ forall k top, nth_error (d_messages d) k = Some top -> m_imported top = false \/
    exists p a b k' mF, In p l /\ pa_messages p = shift_m a /\ pa_enums p = shift_e a b /\ k = (a + k')%nat /\ part_of a b d (pa_d p) /\
      nth_error (d_messages (pa_d p)) k' = Some mF /\ m_imported mF = false).
  { destruct (gather (option part) (fun k o => forall top, nth_error (d_messages d) k = Some top -> m_imported top = false \/
      exists p a b k' mF, o = Some p /\ pa_messages p = shift_m a /\ pa_enums p = shift_e a b /\ k = (a + k')%nat /\ part_of a b d (pa_d p) /\
      nth_error (d_messages (pa_d p)) k' = Some mF /\ m_imported mF = false) (fun o => forall p, o = Some p -> good p) (length (d_messages d))) as (l & F & L).
    - intros k Hk. destruct (nth_error (d_messages d) k) as [top|] eqn:N; [|apply nth_error_None in N; lia].
      destruct (SM k top N) as [I|(fF & j & dF & a & b & k' & mF & T & RF & E & Q & NF & I)].
      + exists None. split; [discriminate|]. intros top' X. injection X as <-. now left.
      + destruct (Mk fF j dF a b T RF Q) as (p & Gp & Ed & Em & Ee). exists (Some p). split; [intros p' X; now injection X as <-|].
        intros top' X. right. exists p, a, b, k', mF. rewrite Ed. auto 10.
    - exists (flat_map (fun o => match o with Some p => [p] | None => [] end) l). split.
      + rewrite Forall_forall in F |- *. intros p Ip. apply in_flat_map in Ip. destruct Ip as ([q|] & Iq & Ip); [|destruct Ip]. destruct Ip as [<-|[]]. exact (F _ Iq q eq_refl).
      + intros k top N. destruct (L k) as (o & Io & Po); [apply nth_error_Some; congruence|]. destruct (Po top N) as [I|(p & a & b & k' & mF & -> & X)]; [now left|].
        right. exists p, a, b, k', mF. split; [apply in_flat_map; exists (Some p); split; [exact Io|now left]|exact X]. }
  assert (LE : exists l, Forall good l /\ forall k e, nth_error (d_enums d) k = Some e -> en_imported e = false \/
    exists p a b k' eF, In p l /\ pa_messages p = shift_m a /\ pa_enums p = shift_e a b /\ k = (b + k')%nat /\ part_of a b d (pa_d p) /\
      nth_error (d_enums (pa_d p)) k' = Some eF /\ en_imported eF = false).
  { destruct (gather (option part) (fun k o => forall e, nth_error (d_enums d) k = Some e -> en_imported e = false \/
      exists p a b k' eF, o = Some p /\ pa_messages p = shift_m a /\ pa_enums p = shift_e a b /\ k = (b + k')%nat /\ part_of a b d (pa_d p) /\
      nth_error (d_enums (pa_d p)) k' = Some eF /\ en_imported eF = false) (fun o => forall p, o = Some p -> good p) (length (d_enums d))) as (l & F & L).
    - intros k Hk. destruct (nth_error (d_enums d) k) as [top|] eqn:N; [|apply nth_error_None in N; lia].
      destruct (SE k top N) as [I|(fF & j & dF & a & b & k' & mF & T & RF & E & Q & NF & I)].
      + exists None. split; [discriminate|]. intros top' X. injection X as <-. now left.
      + destruct (Mk fF j dF a b T RF Q) as (p & Gp & Ed & Em & Ee). exists (Some p). split; [intros p' X; now injection X as <-|].
        intros top' X. right. exists p, a, b, k', mF. rewrite Ed. auto 10.
    - exists (flat_map (fun o => match o with Some p => [p] | None => [] end) l). split.
      + rewrite Forall_forall in F |- *. intros p Ip. apply in_flat_map in Ip. destruct Ip as ([q|] & Iq & Ip); [|destruct Ip]. destruct Ip as [<-|[]]. exact (F _ Iq q eq_refl).
      + intros k top N. destruct (L k) as (o & Io & Po); [apply nth_error_Some; congruence|]. destruct (Po top N) as [I|(p & a & b & k' & mF & -> & X)]; [now left|].
        right. exists p, a, b, k', mF. split; [apply in_flat_map; exists (Some p); split; [exact Io|now left]|exact X]. }
  destruct LM as (lm & Fm & LM). destruct LE as (le & Fe & LE).
  assert (Fa : Forall good (lm ++ le)) by now apply Forall_app.
  (* one message *)
  assert (One : forall i m, get_message d' i = Some m -> top_own d' i \/
    exists p j mF, In p (lm ++ le) /\ pa_messages p j = i /\ (forall pos, pa_enums p (mkEidx j pos) = mkEidx i pos) /\
      get_message (after_escape c (pa_d4 p)) j = Some mF /\ top_own (after_escape c (pa_d4 p)) j /\ length (m_enums mF) = length (m_enums m) /\ j <> []).
  { intros [|k r] m G; [discriminate|]. destruct (message_head c d d' PG _ _ G) as (m0 & G0 & HF0). destruct (get_top_some _ _ _ _ G0) as (top & N).
    destruct (LM k top N) as [I|(p & a & b & k' & mF & Ip & Em & Ee & -> & Q & NF & I)]; [left; exact (own_head c d d' PG k r m0 top G0 N I)|right].
    assert (Gp : good p) by (rewrite Forall_forall in Fm; auto).
    rewrite (part_back a b d (pa_d p) k' r Q) in G0 by (apply nth_error_Some; congruence).
    destruct (get_message (pa_d p) (k' :: r)) as [y|] eqn:Gy; [|discriminate]. injection G0 as <-.
    destruct (head_message c _ _ (Pr p Gp) _ _ Gy) as (y' & Gy' & HFy). exists p, (k' :: r), y'.
    split; [apply in_or_app; now left|]. split; [now rewrite Em|]. split; [intros pos; now rewrite Ee|]. split; [exact Gy'|].
    split; [exact (own_head c _ _ (Pr p Gp) k' r y mF Gy NF I)|]. split; [|discriminate].
    rewrite (hf_enums _ _ HF0), (hf_enums _ _ HFy). destruct y. cbn. now rewrite !map_length. }
  exists (lm ++ le). split; [|exact Fa].
  - constructor.
    + intros i m G. destruct (One i m G) as [O|(p & j & mF & Ip & Ej & _ & GF & O & _)]; [now left|right]. exists p, j, mF. auto.
    + intros [[|k r] pos] e G.
      * unfold get_enum in G. cbn [e_msg e_pos] in G. destruct (process_header c d d' PG) as (He & _). rewrite He, nth_error_map in G.
        destruct (nth_error (d_enums d) pos) as [e0|] eqn:N; [|discriminate]. injection G as <-.
        destruct (LE pos e0 N) as [I|(p & a & b & k' & eF & Ip & Em & Ee & -> & Q & NF & I)]; [left; unfold own_enum; cbn; now destruct e0|right].
        assert (Gp : good p) by (rewrite Forall_forall in Fe; auto). destruct (process_header c _ _ (Pr p Gp)) as (HeF & _).
        exists p, (mkEidx [] k'), (enum_sanitize_names eF). split; [apply in_or_app; now right|]. split; [now rewrite Ee|].
        split; [|unfold own_enum; cbn; now destruct eF]. unfold get_enum. cbn [e_msg e_pos]. now rewrite HeF, nth_error_map, NF.
      * unfold get_enum in G. cbn [e_msg e_pos] in G. destruct (get_message d' (k :: r)) as [m|] eqn:Gm; [|discriminate].
        destruct (One _ m Gm) as [O|(p & j & mF & Ip & Ej & Eq & GF & O & Le & Nj)]; [now left|right].
        destruct (nth_error (m_enums mF) pos) as [eF|] eqn:NF; [|apply nth_error_None in NF; assert (pos < length (m_enums m))%nat by (apply nth_error_Some; congruence); lia].
        exists p, (mkEidx j pos), eF. split; [exact Ip|]. split; [apply Eq|]. unfold get_enum, own_enum. cbn [e_msg e_pos]. destruct j as [|x j]; [contradiction|].
        rewrite GF. auto.
Qed.

(** The parts of C90 exist: each message and enum is of the file itself, or comes from
    a file that it imports, directly or not, and that declares it itself. *)
Theorem C90_parts_partial : forall check fs search n file d g d4 root texts,
  good_crate check fs search n file d g d4 root -> plain_crate check fs search file d g -> crate_texts check fs search file d g texts ->
  let d' := after_escape (g_passes g) d4 in
  exists parts, Forall (imported_part check fs search g d4) parts /\ all_parts (g_passes g) d' parts /\
    Forall (fun p => clos_trans _ (imports check fs search) file (pa_file p) /\ In (pa_text p) texts) parts.
Proof.
  intros check fs search n file d g d4 root texts Good Pl Tx d'.
  destruct (parts_exist check fs search n file d g d4 root
    (fun p => (exists filename services, generated g (pa_d p) filename services = (pa_text p, None) /\ all_chars not_newline filename = true) /\ In (pa_text p) texts)
    Good Pl) as (parts & AP & F).
  { intros fileF k dF T RF. destruct (Tx fileF k dF T RF) as (dF4 & fn & sv & s & PP & H & F & I). exists dF4, s. split; [exact PP|]. cbn. eauto. }
  exists parts. split; [|split; [exact AP|]]; (eapply Forall_impl; [|exact F]); intros p (G & T & H & I); [split; assumption|auto].
Qed.
Print Assumptions C90_parts_partial.

(** So the code of all messages is in the text generated for the file and the texts
    generated for the files that it imports, and it reads back what it writes. *)
Theorem C90_crate_roundtrip_partial : forall check fs search n file d g d4 root texts filename services s t,
  good_crate check fs search n file d g d4 root -> plain_crate check fs search file d g -> crate_texts check fs search file d g texts ->
  generated g d filename services = (s, None) -> config_ok g = true -> all_chars not_newline filename = true ->
  let c := g_passes g in let d' := after_escape c d4 in let prog := generated_program g d' d4 in let names := crates_names root d' in
  program_in_texts prog d' (s :: texts) /\
  forall i m ss depth, get_message d' i = Some m -> message_ok d' c i ss -> no_negative_zero d' c i ss -> (slots_depth ss < depth)%nat ->
    zlen (enc_message d' c (rust_lit d') i ss) < 2 ^ 32 ->
  exists size write full,
    struct_size t names prog (default_depth d') depth i (rust_struct d' c i m ss) = Some size /\
    struct_write t names prog (default_depth d') depth i (rust_struct d' c i m ss) = Some write /\
    serialize_into_vec size write = Ok full /\
    (buf_ok t full -> exists ss', Forall2 same_slot ss ss' /\ forall k, (length full <= k)%nat ->
      deserialize_from_slice t (struct_from t names prog (default_depth d') k i) full = Ok (rust_struct d' c i m ss')).
Proof.
  intros check fs search n file d g d4 root texts filename services s t Good Pl Tx H C F c d' prog names.
  destruct (C90_parts_partial _ _ _ _ _ _ _ _ _ _ Good Pl Tx) as (parts & IP & AP & RT).
  destruct (C90_roundtrip_partial _ _ _ _ _ _ _ _ _ _ _ _ _ t Good IP AP H C F) as ([X1 X2] & RTrip). split; [|exact RTrip].
  assert (Sub : forall x, In x (s :: map pa_text parts) -> In x (s :: texts)).
  { intros x [<-|I]; [now left|right]. apply in_map_iff in I. destruct I as (p & <- & Ip). rewrite Forall_forall in RT. now apply RT. }
  constructor.
  - intros i m G. destruct (X1 i m G) as (x & Ix & Y). exists x. auto.
  - intros q e G N. destruct (X2 q e G N) as (x & Ix & Y). exists x. auto.
Qed.
Print Assumptions C90_crate_roundtrip_partial.

(** ** The concrete case *)

Lemma direct_ranked : forall d (rank : midx -> nat),
  (forall i j, contains d i j -> (contains d j i /\ (rank j <= rank i)%nat) \/ (rank j < rank i)%nat) -> direct_cycles d.
Proof.
  intros d rank H i j C T. destruct (H i j C) as [(B & _)|L]; [exact B|exfalso].
  assert (K : (rank i <= rank j)%nat); [|lia]. clear -H T. induction T as [x y C|x|x y z _ I1 _ I2]; [destruct (H x y C) as [(_ & L)|L]; lia|lia|lia].
Qed.
(** the files of the case of C90 *)
Definition app_file : fpath := path_of "app.proto".
Definition lib_file : fpath := path_of "lib.proto".
Lemma crate_reach : forall f, clos_trans _ (imports true crate_fs [path_of ""]) app_file f -> f = lib_file.
Proof.
  intros f T. apply clos_trans_t1n in T.
  assert (A : forall g, imports true crate_fs [path_of ""] app_file g -> g = lib_file).
  { intros g (p & i & (s & r & F & P & _) & Hi & Rs). vm_compute in F. injection F as <-. vm_compute in P. injection P as <- <-. destruct Hi as [<-|[]].
    apply find_import_resolves in Rs. vm_compute in Rs. injection Rs as <-. reflexivity. }
  assert (B : forall g, ~ imports true crate_fs [path_of ""] lib_file g).
  { intros g (p & i & (s & r & F & P & _) & Hi & Rs). vm_compute in F. injection F as <-. vm_compute in P. injection P as <- <-. destruct Hi. }
  inversion T as [g I|g h I T']; subst; [exact (A f I)|]. apply A in I. subst g. inversion T' as [g I|g h' I _]; subst; now apply B in I.
Qed.
Lemma crate_reads : forall k d, read_proto true crate_fs [path_of ""] k lib_file = ROk d -> d = lib_d.
Proof.
  intros [|k] d R; [discriminate|]. destruct (read_step _ _ _ _ _ _ R) as (p & d0 & (s & r & F & P & _) & (m & M & ->) & H).
  vm_compute in F. injection F as <-. vm_compute in P. injection P as <- <-. vm_compute in M. injection M as <-. cbn [p_imports fetch] in H. injection H as <-. vm_compute. reflexivity.
Qed.
Lemma crate_packages : packages true crate_fs [path_of ""] app_file.
Proof.
  intros g k x T R. apply Operators_Properties.clos_rt_rtn1 in T.
  assert (G : g = app_file \/ g = lib_file).
  { clear R. induction T as [|g h I T IH]; [now left|]. right. destruct IH as [->| ->]; [apply crate_reach; now apply t_step|].
    apply crate_reach. apply t_trans with lib_file; [|now apply t_step]. apply t_step. eexists _, "lib.proto"%string. split; [eexists _, _; split; [vm_compute; reflexivity|]; split; [vm_compute; reflexivity|vm_compute; reflexivity]|].
    split; [now left|]. apply find_import_resolves. vm_compute. reflexivity. }
  destruct k as [|k]; [discriminate|]. destruct (read_step _ _ _ _ _ _ R) as (p & d0 & (s & r & F & P & _) & (m & M & ->) & H).
  rewrite (fetch_package _ _ _ _ _ _ _ H). destruct G as [->| ->]; vm_compute in F; injection F as <-; vm_compute in P; injection P as <- <-; cbn; discriminate.
Qed.
Ltac in_names H := vm_compute in H; repeat (destruct H as [H|H]; [injection H; clear H; intros; subst|]); try destruct H.
Lemma crate_unique : unique_names crate_d.
Proof.
  constructor.
  - intros n i j A B. apply full_msgs_in in A, B. in_names A; in_names B; try discriminate; reflexivity.
  - intros n i j A B. apply full_enums_in in A, B. in_names A; in_names B; try discriminate; reflexivity.
  - intros n i j A B. apply full_msgs_in in A. apply full_enums_in in B. in_names A; in_names B; try discriminate.
Qed.
Lemma crate_scope : not_captured crate_d lib_d.
Proof.
  intros n (j & m & f & name & G & If & It & In0) D.
  assert (D' : In n (map fst (full_msgs crate_d) ++ map fst (full_enums crate_d))).
  { apply in_or_app. destruct D as [(i & X)|(i & X)]; [left; apply full_msgs_in in X|right; apply full_enums_in in X]; exact (in_map fst _ _ X). }
  assert (K : In n (map fst (full_msgs lib_d)) \/ In n (map fst (full_enums lib_d))).
  { clear D. each_message G; vm_compute in If; repeat (destruct If as [<-|If]); try destruct If; vm_compute in It; (destruct It as [It|[]]; [try discriminate It]);
      injection It as <-; vm_compute in In0, D'; repeat (destruct In0 as [<-|In0]); try destruct In0; vm_compute;
      repeat (destruct D' as [D'|D']; [try discriminate D'|]); try destruct D'; auto 10. }
  destruct K as [K|K]; apply in_map_iff in K; destruct K as ((n0 & x) & <- & K); [left; exists x; now apply full_msgs_in|right; exists x; now apply full_enums_in].
Qed.
Lemma crate_cycles : forall d1, resolve_types crate_d = GOk d1 -> direct_cycles d1.
Proof.
  intros d1 E. vm_compute in E. injection E as <-. apply (direct_ranked _ (fun i => match i with [0%nat] => 1%nat | _ => 0%nat end)).
  intros i j (m & f & G & If & Et & B). each_message G; vm_compute in If; repeat (destruct If as [<-|If]); try destruct If; try discriminate; vm_compute in Et; try discriminate; injection Et as <-;
    try (destruct B as (_ & B); discriminate B); first [right; cbn; lia|left; split; [|cbn; lia]]; apply contains_by_value; eexists _, _; (split; [vm_compute; reflexivity|]).
  - split; [vm_compute; now right; left|]. repeat split.
  - split; [vm_compute; now right; left|]. repeat split.
Qed.
Example C90_copies_case :
  good_crate true crate_fs [path_of ""] 3 app_file crate_d textConfig crate_d4 crate_root /\
  plain_crate true crate_fs [path_of ""] app_file crate_d textConfig /\
  clos_trans _ (imports true crate_fs [path_of ""]) app_file lib_file /\ plain_part crate_d textConfig lib_d lib_d4 /\ part_of 1 0 crate_d lib_d /\
  crate_texts true crate_fs [path_of ""] app_file crate_d textConfig [pa_text lib_part] /\
  (forall j, shift_m 1 j = lib_pm j) /\ length (d_messages crate_d) = 2%nat /\ length (d_messages lib_d) = 1%nat.
Proof.
  assert (PP : plain_part crate_d textConfig lib_d lib_d4).
  { destruct lib_imported as ([_ Ru Na Be _ _] & _). constructor; [exact Ru|exact Na|exact Be|reflexivity|exact crate_scope]. }
  split; [exact crate_good|]. split; [constructor; [exact crate_packages|reflexivity|exact crate_unique|exact crate_cycles]|]. split.
  { apply t_step. eexists _, "lib.proto"%string. split; [eexists _, _; split; [vm_compute; reflexivity|]; split; [vm_compute; reflexivity|vm_compute; reflexivity]|].
    split; [now left|]. apply find_import_resolves. vm_compute. reflexivity. }
  split; [exact PP|]. split; [constructor; vm_compute; [eexists [_], []|exists [], []]; split; reflexivity|]. split; [|split; [intros [|k r]; reflexivity|split; reflexivity]].
  intros fileF k dF T R. apply crate_reach in T. subst fileF. apply crate_reads in R. subst dF. destruct lib_imported as (_ & fn & sv & H & F).
  exists lib_d4, fn, sv, (pa_text lib_part). split; [exact PP|]. split; [exact H|]. split; [exact F|now left].
Qed.

(** ** A name that another file captures *)

(** The types of imported messages are looked up again among the declarations of all
    files that are read (types.rs:2957-3019), so a declaration of the importing file, which
    the imported one cannot see, may be found first: [M] of lib.proto has a field of
    type [common.X]; for app.proto it is [acme.common.X], which borrows.  The importing
    file says [acme::lib::M<'a>], where [M] is declared without a lifetime: Rust
    refuses the crate (E0107). *)
Definition captBase : text := "package common; message X { optional uint32 n = 1; }"%string.
Definition captLib : text := "package acme.lib; import ""base.proto""; message M { optional common.X x = 1; }"%string.
Definition captApp : text := "package acme.common; import ""lib.proto""; message X { optional string s = 1; } message A { required acme.lib.M m = 1; }"%string.
Definition capt_fs : file_system :=
  fun p => match fp_parts p with ["app.proto"] => Some captApp | ["lib.proto"] => Some captLib | ["base.proto"] => Some captBase | _ => None end.
Theorem C90_captured_refuted : exists d dL s sL f fL,
  read_proto true capt_fs [path_of ""] 4 (path_of "app.proto") = ROk d /\ read_proto true capt_fs [path_of ""] 4 (path_of "lib.proto") = ROk dL /\
  language_rules d /\ language_rules dL /\
  generated textConfig d "app.proto" 0 = (s, None) /\ generated textConfig dL "lib.proto" 0 = (sL, None) /\ parse_rust s = Some f /\ parse_rust sL = Some fL /\
  (exists attrs pub fields, In (RIStruct attrs pub "M" [] fields) (file_items fL)) /\
  exists attrs pub fields fld, In (RIStruct attrs pub "A" ["a"] fields) (file_items f) /\ In fld fields /\
    rf_type fld = RTPath false [PSeg "acme" []; PSeg "lib" []; PSeg "M" [GLife "a"]].
Proof.
  let r := eval vm_compute in (match read_proto true capt_fs [path_of ""] 4 (path_of "app.proto"), read_proto true capt_fs [path_of ""] 4 (path_of "lib.proto") with
    | ROk d, ROk dL => let s := fst (generated textConfig d "app.proto" 0) in let sL := fst (generated textConfig dL "lib.proto" 0) in
                       Some (d, dL, s, sL, parse_rust s, parse_rust sL)
    | _, _ => None end) in
  match r with Some (?d, ?dL, ?s, ?sL, Some ?f, Some ?fL) => exists d, dL, s, sL, f, fL end.
  split; [vm_compute; reflexivity|]. split; [vm_compute; reflexivity|].
  split. { apply rules_check; [|repeat constructor; discriminate]. cbn. intros p m H. decompose [or] H; try contradiction;
    match goal with K : _ = _ |- _ => injection K as <- <- end; (split; [reflexivity|]); cbn; distinct_texts. }
  split. { apply rules_check; [|repeat constructor; discriminate]. cbn. intros p m H. decompose [or] H; try contradiction;
    match goal with K : _ = _ |- _ => injection K as <- <- end; (split; [reflexivity|]); cbn; distinct_texts. }
  do 4 (split; [vm_compute; reflexivity|]). cbn [file_items]. split.
  - eexists _, _, _. repeat first [left; reflexivity|right].
  - eexists _, _, _, _. split; [repeat first [left; reflexivity|right]|]. split; [left; reflexivity|]. reflexivity.
Qed.
Print Assumptions C90_captured_refuted.
