(** The parser on the texts of services, extensions and files (ProtoText.v). *)
From Coq Require Import String Ascii Arith Lia.
From Verif Require Import Base Schema Modules Parser ParserFacts ProtoText TextFacts FieldText MessageText.
Import StringSyntax.
Local Open Scope string_scope.
Local Open Scope list_scope.

(* ---- services ---- *)

Definition rpc_record (r : rpc) : rpc_function :=
  let '(name, arg, ret) := r in mkRpc name arg ret.

Lemma rpc_end_ok : forall e s,
  (e = ";" \/ exists g, gap g /\ e = ("{" ++ g ++ "}")%string) ->
  alt [pvalue tt (delimited (pair (tag "{") (many0 br))
                            (many0 (alt [option_ignore; pvalue tt (tag ";")]))
                            (pair (many0 br) (tag "}")));
       pvalue tt (tag ";")] (e ++ s)%string = POk s tt.
Proof.
  intros e s [->|[g [G ->]]]; cbn [alt]; nf.
  - replace (tag "{" (";" ++ s)%string) with (@PErr text) by reflexivity. nf.
    rewrite tag_ok; nf. reflexivity.
  - rewrite !append_assoc. rewrite tag_ok; nf. rewrite br0; [|exact G|apply solid_close]. nf.
    rewrite many0_stop.
    + nf. rewrite br0_solid by apply solid_close. nf. rewrite tag_ok; nf. reflexivity.
    + reflexivity.
Qed.

Lemma rpc_ok : forall r t s, rpc_text r t -> p_rpc_function (t ++ s)%string = POk s (rpc_record r).
Proof.
  intros r t s [g1 name g2 g3 arg g4 g5 g6 g7 ret g8 g9 e G1 Hn G2 G3 Ha G4 G5 G6 G7 Hr G8 G9 He].
  assert (Se : solid (e ++ s)%string).
  { destruct He as [->|[g [_ ->]]]; lit. }
  pose proof (rpc_end_ok e s He) as E. unfold p_rpc_function.
  unfold delimited, preceded, terminated, pair, pvalue, pmap, pbind, pret in E |- *.
  rewrite !append_assoc. rewrite tag_ok; nf.
  rewrite br1; [|exact G1|now apply solid_word]. nf.
  rewrite word_ok; [|exact Hn|apply stop_gap; [exact G2|lit]]. nf.
  rewrite br0; [|exact G2|lit]. nf. rewrite tag_ok; nf.
  rewrite br0; [|exact G3|now apply solid_word]. nf.
  rewrite word_ok; [|exact Ha|apply stop_gap; [exact G4|lit]]. nf.
  rewrite br0; [|exact G4|lit]. nf. rewrite tag_ok; nf.
  rewrite br1; [|exact G5|lit]. nf. rewrite tag_ok; nf.
  rewrite br0; [|exact G6|lit]. nf. rewrite tag_ok; nf.
  rewrite br0; [|exact G7|now apply solid_word]. nf.
  rewrite word_ok; [|exact Hr|apply stop_gap; [exact G8|lit]]. nf.
  rewrite br0; [|exact G8|lit]. nf. rewrite tag_ok; nf.
  rewrite br0; [|exact G9|exact Se]. nf. rewrite E; nf. reflexivity.
Qed.

Lemma rpc_close : forall s, p_rpc_function ("}" ++ s)%string = PErr.
Proof. intro s. reflexivity. Qed.

Lemma rpc_facts : forall r t, rpc_text r t -> t <> "" /\ forall s, solid (t ++ s)%string.
Proof.
  intros r t [g1 name g2 g3 arg g4 g5 g6 g7 ret g8 g9 e _ _ _ _ _ _ _ _ _ _ _ _ _].
  split; [discriminate|]. intro s. lit.
Qed.

Lemma rpcs_ok : forall rs ts, rpcs_text rs ts -> forall s,
  exists g0 r, gap g0 /\ ts = (g0 ++ r)%string /\ solid (r ++ "}" ++ s)%string
    /\ forall g, gap g -> (rs = [] -> g = "") ->
       many0 (spaced p_rpc_function) (g ++ r ++ "}" ++ s)%string
       = POk ("}" ++ s)%string (map rpc_record rs).
Proof.
  assert (F : forall s, many0 (spaced p_rpc_function) ("}" ++ s)%string = POk ("}" ++ s)%string []).
  { intro s. apply many0_stop. unfold spaced. nf. rewrite br0_solid by apply solid_close. nf.
    now rewrite rpc_close. }
  intros rs ts H. induction H as [|g1 r t g2 G1 Hr G2|g1 r t rs ts G1 Hr _ IH N]; intro s.
  - exists "", "". split; [constructor|]. split; [reflexivity|]. split; [apply solid_close|].
    intros g _ Hg. rewrite (Hg eq_refl). apply F.
  - destruct (rpc_facts r t Hr) as [Nt So].
    exists g1, (t ++ g2)%string. split; [exact G1|]. split; [reflexivity|].
    rewrite append_assoc. split; [apply So|]. intros g G _.
    apply (many0_step _ _ _ ("}" ++ s)%string); [| |apply F].
    + unfold spaced. nf. rewrite br0; [|exact G|apply So]. nf. rewrite (rpc_ok r t) by exact Hr. nf.
      rewrite br0; [reflexivity|exact G2|apply solid_close].
    + rewrite !slen_append. destruct t; [congruence|cbn; lia].
  - destruct (rpc_facts r t Hr) as [Nt So]. destruct (IH s) as [g0 [q [G0 [-> [Sq IHq]]]]].
    exists g1, (t ++ g0 ++ q)%string. split; [exact G1|]. split; [reflexivity|].
    rewrite !append_assoc. split; [apply So|]. intros g G _.
    apply (many0_step _ _ _ (q ++ "}" ++ s)%string).
    + unfold spaced. nf. rewrite br0; [|exact G|apply So]. nf. rewrite (rpc_ok r t) by exact Hr. nf.
      rewrite br0; [reflexivity|exact G0|exact Sq].
    + rewrite !slen_append. destruct t; [congruence|cbn; lia].
    + apply (IHq "" gap_nil). congruence.
Qed.

Definition service_record (s : text * list rpc) : text * list rpc_function :=
  (fst s, map rpc_record (snd s)).

Lemma service_ok : forall sv t s, service_text sv t ->
  p_rpc_service (t ++ s)%string = POk s (service_record sv).
Proof.
  intros sv t s [g1 name g2 rs b G1 Hn G2 Hb]. unfold p_rpc_service. nf.
  rewrite !append_assoc. rewrite tag_ok; nf.
  rewrite br1; [|exact G1|now apply solid_word]. nf.
  rewrite word_ok; [|exact Hn|apply stop_gap; [exact G2|lit]]. nf.
  rewrite br0; [|exact G2|lit]. nf. rewrite tag_ok; nf.
  assert (Hg : rs = [] -> b = "") by (destruct Hb; congruence).
  destruct (rpcs_ok rs b Hb s) as [g0 [r [G0 [-> [Sr E]]]]].
  assert (Hg0 : rs = [] -> g0 = "").
  { intro H0. now destruct (append_eq_nil _ _ (Hg H0)). }
  specialize (E g0 G0 Hg0). unfold spaced, delimited, preceded, terminated, pbind, pret in E.
  rewrite append_assoc. rewrite E; nf. rewrite tag_ok; nf. reflexivity.
Qed.

(* ---- extend ---- *)

Lemma extend_ok : forall sx x t s, extend_text sx x t -> no_semi s ->
  p_extend sx (t ++ s)%string = POk s x.
Proof.
  intros sx x t s [g1 name g2 fs b sm G1 Hn G2 Hf Hs] Ns.
  destruct (semi_ok sm s Hs Ns) as [o Eo]. unfold opt, pair, pbind, pret in Eo.
  unfold p_extend. nf. rewrite !append_assoc. rewrite tag_ok; nf.
  rewrite br1; [|exact G1|now apply solid_name]. nf.
  rewrite qualifiable_ok; [|exact Hn|apply stop_name_gap; [exact G2|lit]]. nf.
  rewrite br0; [|exact G2|lit]. nf. rewrite tag_ok; nf.
  destruct (fields_ok (message_field_text sx) (message_field sx)) with (fs := fs) (ts := b)
    (s := ("}" ++ sm ++ s)%string) as [g0 [r [G0 [-> [Sr H]]]]].
  - intros f ft Hft. destruct (field_text_facts _ _ _ _ Hft) as [N So].
    split; [exact N|]. split; [exact So|]. intro s0. now apply message_field_ok.
  - exact Hf.
  - lit.
  - apply close_field_fails.
  - rewrite append_assoc. destruct (H g0 G0) as [E _].
    unfold spaced, delimited, preceded, terminated, pbind, pret in E. rewrite E; nf.
    rewrite tag_ok; nf. rewrite Eo; nf. reflexivity.
Qed.

(* ---- declarations ---- *)

Lemma package_ok : forall g1 p g2 s, break g1 -> path p -> gap g2 ->
  p_package ("package" ++ g1 ++ p ++ g2 ++ ";" ++ s)%string = POk s p.
Proof.
  intros g1 p g2 s G1 Hp G2. unfold p_package. nf. rewrite tag_ok; nf.
  assert (Ht : type_name p) by now apply name_rel.
  rewrite br1; [|exact G1|now apply solid_name]. nf.
  rewrite qualifiable_ok; [|exact Ht|apply stop_name_gap; [exact G2|lit]]. nf.
  rewrite br0; [|exact G2|lit]. nf. rewrite tag_ok; nf. reflexivity.
Qed.

Lemma import_ok : forall g1 i t g2 s, break g1 -> quoted i t -> gap g2 ->
  p_import ("import" ++ g1 ++ t ++ g2 ++ ";" ++ s)%string = POk s i.
Proof.
  intros g1 i t g2 s G1 Hi G2. unfold p_import. nf. rewrite tag_ok; nf.
  rewrite br1; [|exact G1|now apply (solid_quoted i)]. nf.
  rewrite (string_ok i) by exact Hi. nf.
  rewrite br0; [|exact G2|lit]. nf. rewrite tag_ok; nf. reflexivity.
Qed.

Lemma syntax_ok : forall sx t s, syntax_text sx t -> p_syntax (t ++ s)%string = POk s sx.
Proof.
  intros sx t s [g1 g2 g3 G1 G2 G3]. unfold p_syntax. nf. rewrite !append_assoc.
  rewrite tag_ok; nf. rewrite br0; [|exact G1|lit]. nf. rewrite tag_ok; nf.
  rewrite br0; [|exact G2|unfold dq; lit]. nf. cbn [alt].
  destruct sx; cbn [syntax_word]; nf.
  - replace (dq ++ "proto2" ++ dq ++ g3 ++ ";" ++ s)%string
      with ((quote ++ "proto2" ++ quote) ++ g3 ++ ";" ++ s)%string by reflexivity.
    rewrite tag_ok; nf. rewrite br0; [|exact G3|lit]. nf. rewrite tag_ok; nf. reflexivity.
  - replace (tag (quote ++ "proto2" ++ quote)%string (dq ++ "proto3" ++ dq ++ g3 ++ ";" ++ s)%string)
      with (@PErr text) by reflexivity. nf.
    replace (dq ++ "proto3" ++ dq ++ g3 ++ ";" ++ s)%string
      with ((quote ++ "proto3" ++ quote) ++ g3 ++ ";" ++ s)%string by reflexivity.
    rewrite tag_ok; nf. rewrite br0; [|exact G3|lit]. nf. rewrite tag_ok; nf. reflexivity.
Qed.

Definition file_event (d : decl) : event :=
  match d with
  | DPackage p => FPackage p
  | DImport i => FImport i
  | DMessage m => FMessage m
  | DEnum e => FEnum e
  | DService s => FService (service_record s)
  | DExtend x => FExtend x
  | DNothing => FIgnore
  end.

Lemma service_shape : forall s t, service_text s t -> exists u, t = ("service" ++ u)%string.
Proof. intros s t [g1 name g2 rs b _ _ _ _]. now eexists. Qed.
Lemma extend_shape : forall sx x t, extend_text sx x t -> exists u, t = ("extend" ++ u)%string.
Proof. intros sx x t [g1 name g2 fs b sm _ _ _ _ _]. now eexists. Qed.
Lemma ignored_shape : forall t, ignored_option t -> exists u, t = ("option" ++ u)%string.
Proof. intros t [g c u _ _ _ _ _]. now eexists. Qed.

Lemma decl_shape : forall sx d t, decl_text sx d t ->
  exists k u, t = (k ++ u)%string
    /\ In k ["package"; "import"; "message"; "enum"; "service"; "extend"; "option"].
Proof.
  intros sx d t [g1 p g2 _ _ _|g1 i u g2 _ _ _|m u H|e u H|sv u H|x u H|u H].
  - eexists "package", _. split; [reflexivity|cbn; tauto].
  - eexists "import", _. split; [reflexivity|cbn; tauto].
  - destruct (message_shape _ _ _ H) as [v ->]. eexists "message", _. split; [reflexivity|cbn; tauto].
  - destruct (enum_shape _ _ H) as [v ->]. eexists "enum", _. split; [reflexivity|cbn; tauto].
  - destruct (service_shape _ _ H) as [v ->]. eexists "service", _. split; [reflexivity|cbn; tauto].
  - destruct (extend_shape _ _ _ H) as [v ->]. eexists "extend", _. split; [reflexivity|cbn; tauto].
  - destruct (ignored_shape _ H) as [v ->]. eexists "option", _. split; [reflexivity|cbn; tauto].
Qed.

Lemma decl_facts : forall sx d t, decl_text sx d t ->
  t <> "" /\ forall s, solid (t ++ s)%string /\ head (fun c => c <> ";"%char) (t ++ s)%string
    /\ p_syntax (t ++ s)%string = PErr.
Proof.
  intros sx d t H. destruct (decl_shape sx d t H) as [k [u [-> Hk]]]. cbn [In] in Hk.
  repeat (destruct Hk as [Hk|Hk];
    [subst k; split; [discriminate|]; intro s; split; [lit|]; split; [cbn; discriminate|reflexivity]|]).
  destruct Hk.
Qed.

Lemma message_none : forall sx k s, In k ["package"; "import"; "service"; "extend"; "option"; "enum"] ->
  p_message sx (k ++ s)%string = PErr.
Proof.
  intros sx k s H. rewrite message_eq. unfold message_body. nf. cbn [In] in H.
  repeat (destruct H as [H|H]; [subst k; reflexivity|]). destruct H.
Qed.

Lemma decl_ok : forall sx d t s, decl_text sx d t -> no_semi s ->
  p_event sx (t ++ s)%string = POk s (file_event d).
Proof.
  intros sx d t s H Ns. unfold p_event. cbn [alt]. nf.
  destruct H as [g1 p g2 G1 Hp G2|g1 i u g2 G1 Hi G2|m u H|e u H|sv u H|x u H|u H].
  - rewrite !append_assoc.
    replace (p_syntax ("package" ++ g1 ++ p ++ g2 ++ ";" ++ s)%string) with (@PErr syntax) by reflexivity.
    replace (p_import ("package" ++ g1 ++ p ++ g2 ++ ";" ++ s)%string) with (@PErr text) by reflexivity.
    now rewrite package_ok.
  - rewrite !append_assoc.
    replace (p_syntax ("import" ++ g1 ++ u ++ g2 ++ ";" ++ s)%string) with (@PErr syntax) by reflexivity.
    now rewrite (import_ok g1 i).
  - pose proof (message_ok sx m u s H Ns) as E. destruct (message_shape _ _ _ H) as [v ->].
    rewrite append_assoc in *.
    replace (p_syntax ("message" ++ v ++ s)%string) with (@PErr syntax) by reflexivity.
    replace (p_import ("message" ++ v ++ s)%string) with (@PErr text) by reflexivity.
    replace (p_package ("message" ++ v ++ s)%string) with (@PErr text) by reflexivity.
    now rewrite E.
  - pose proof (enum_ok e u s H Ns) as E. destruct (enum_shape _ _ H) as [v ->].
    rewrite append_assoc in *.
    replace (p_syntax ("enum" ++ v ++ s)%string) with (@PErr syntax) by reflexivity.
    replace (p_import ("enum" ++ v ++ s)%string) with (@PErr text) by reflexivity.
    replace (p_package ("enum" ++ v ++ s)%string) with (@PErr text) by reflexivity.
    rewrite message_none by (cbn; tauto). now rewrite E.
  - pose proof (service_ok sv u s H) as E. destruct (service_shape _ _ H) as [v ->].
    rewrite append_assoc in *.
    replace (p_syntax ("service" ++ v ++ s)%string) with (@PErr syntax) by reflexivity.
    replace (p_import ("service" ++ v ++ s)%string) with (@PErr text) by reflexivity.
    replace (p_package ("service" ++ v ++ s)%string) with (@PErr text) by reflexivity.
    rewrite message_none by (cbn; tauto).
    replace (p_enumerator ("service" ++ v ++ s)%string) with (@PErr enumerator) by reflexivity.
    now rewrite E.
  - pose proof (extend_ok sx x u s H Ns) as E. destruct (extend_shape _ _ _ H) as [v ->].
    rewrite append_assoc in *.
    replace (p_syntax ("extend" ++ v ++ s)%string) with (@PErr syntax) by reflexivity.
    replace (p_import ("extend" ++ v ++ s)%string) with (@PErr text) by reflexivity.
    replace (p_package ("extend" ++ v ++ s)%string) with (@PErr text) by reflexivity.
    rewrite message_none by (cbn; tauto).
    replace (p_enumerator ("extend" ++ v ++ s)%string) with (@PErr enumerator) by reflexivity.
    replace (p_rpc_service ("extend" ++ v ++ s)%string)
      with (@PErr (text * list rpc_function)) by reflexivity.
    now rewrite E.
  - pose proof (ignored_ok u s H) as E. destruct (ignored_shape _ H) as [v ->].
    rewrite append_assoc in *.
    replace (p_syntax ("option" ++ v ++ s)%string) with (@PErr syntax) by reflexivity.
    replace (p_import ("option" ++ v ++ s)%string) with (@PErr text) by reflexivity.
    replace (p_package ("option" ++ v ++ s)%string) with (@PErr text) by reflexivity.
    rewrite message_none by (cbn; tauto).
    replace (p_enumerator ("option" ++ v ++ s)%string) with (@PErr enumerator) by reflexivity.
    replace (p_rpc_service ("option" ++ v ++ s)%string)
      with (@PErr (text * list rpc_function)) by reflexivity.
    replace (p_extend sx ("option" ++ v ++ s)%string)
      with (@PErr (text * list field)) by reflexivity.
    now rewrite E.
Qed.

Lemma file_fails : forall sx s, head (fun c => ~ start_char c) s ->
  p_event sx s = pvalue FIgnore br s /\ p_syntax s = PErr.
Proof.
  intros sx s H.
  assert (T : forall c t, start_char c -> tag (String c t) s = PErr).
  { intros c t Hc. apply tag_head. eapply head_impl; [|exact H]. intros d Hd ->. now apply Hd. }
  unfold p_event. cbn [alt]. unfold p_syntax, p_import, p_package, p_enumerator, p_rpc_service,
    p_extend, option_ignore. nf.
  rewrite !T by (left; unfold letter_char; cbn; lia). nf.
  rewrite message_eq. unfold message_body. nf.
  rewrite !T by (left; unfold letter_char; cbn; lia). nf.
  split; [|reflexivity]. now destruct (br s).
Qed.

Lemma break_not_start : forall g s, break g -> head (fun c => ~ start_char c) (g ++ s)%string.
Proof.
  intros g s [G N]. destruct G; [congruence| | |]; cbn [append head]; chars; cbn; lia.
Qed.

Lemma file_gap : forall sx g s, break g -> solid s -> p_event sx (g ++ s)%string = POk s FIgnore.
Proof.
  intros sx g s G S. destruct (file_fails sx (g ++ s)%string (break_not_start g s G)) as [-> _].
  nf. now rewrite br_gap.
Qed.

Lemma decls_no_semi : forall sx ds t, decls_text sx ds t -> no_semi t.
Proof.
  intros sx ds t [g G|g d u ds' ts G Hd _].
  - exists g, "". split; [exact G|]. split; [now rewrite append_nil_r|]. split; exact I.
  - exists g, (u ++ ts)%string. split; [exact G|]. split; [reflexivity|].
    destruct (decl_facts sx d u Hd) as [_ H]. destruct (H ts) as [H1 [H2 _]]. now split.
Qed.

Lemma decls_ok : forall sx ds t, decls_text sx ds t ->
  exists evs, many0 (p_event sx) t = POk "" evs
    /\ forall p, fold_left add_event evs p = fold_left add_event (map file_event ds) p.
Proof.
  intros sx ds t H. induction H as [g G|g d u ds ts G Hd Hts [evs [E K]]].
  - assert (E : many0 (p_event sx) "" = POk "" []).
    { apply many0_stop. destruct (file_fails sx "" I) as [-> _]. reflexivity. }
    rewrite <- (append_nil_r g).
    rewrite (gap_steps _ _ FIgnore (file_gap sx) g "" _ _ G I E).
    eexists. split; [reflexivity|]. intro p. now destruct g.
  - destruct (decl_facts sx d u Hd) as [N Hso].
    pose proof (decl_ok sx d u ts Hd (decls_no_semi sx ds ts Hts)) as Ed.
    pose proof (many0_step _ _ _ _ _ _ _ Ed (slen_grow u ts N) E) as Step.
    rewrite (gap_steps _ _ FIgnore (file_gap sx) g _ _ _ G (proj1 (Hso ts)) Step).
    eexists. split; [reflexivity|]. intro p. destruct g; cbn [fold_left map add_event]; now rewrite K.
Qed.

(* ---- files ---- *)

(** the last package statement counts *)
Definition last_package (ps : list text) : text := last ps "".

(** what a file stands for *)
Definition file_meaning (sx : syntax) (ds : list decl) : parsed :=
  mkParsed (mkDesc (last_package (decl_packages ds)) sx (decl_messages ds) (decl_enums ds) "")
           (decl_imports ds) (decl_extends ds) (map service_record (decl_services ds)).

Lemma fold_file : forall ds p,
  let p' := fold_left add_event (map file_event ds) p in
  p' = mkParsed
         (mkDesc (last (decl_packages ds) (d_package (p_desc p))) (d_syntax (p_desc p))
                 (d_messages (p_desc p) ++ decl_messages ds) (d_enums (p_desc p) ++ decl_enums ds)
                 (d_module (p_desc p)))
         (p_imports p ++ decl_imports ds) (p_extends p ++ decl_extends ds)
         (p_services p ++ map service_record (decl_services ds)).
Proof.
  induction ds as [|d ds IH]; intros [[k sx ms es md] is xs ss]; cbn zeta.
  - cbn. now rewrite !app_nil_r.
  - cbn [map fold_left]. cbn zeta in IH. rewrite IH. clear IH.
    destruct d; cbn; rewrite <- ?app_assoc; cbn; try reflexivity.
    destruct (decl_packages ds) as [|a l] eqn:E; unfold decl_packages in E; rewrite ?E; [reflexivity|].
    f_equal. f_equal. clear E. revert a. induction l as [|b l IHl]; intro a; [reflexivity|].
    apply IHl.
Qed.

Lemma anychars : forall s, exists l, many0 anychar s = POk "" l.
Proof.
  induction s as [|c s [l IH]]; [now exists []|]. exists (c :: l).
  apply (many0_step _ _ _ s); [reflexivity|cbn; lia|exact IH].
Qed.

Lemma syntax_empty : p_syntax "" = PErr.
Proof. reflexivity. Qed.

(** a declaration at the very start is found, unless nothing follows it and nom
    rejects the empty separator *)
Lemma scan_declared : forall check sx st t, syntax_text sx st -> (check = true -> t <> "") ->
  exists r, scan_syntax check (st ++ t)%string = POk r sx.
Proof.
  intros check sx st t H N. unfold scan_syntax, separated_list0. nf.
  rewrite (syntax_ok sx st t H). rewrite sep_loop_eq.
  destruct (anychars t) as [l ->].
  assert (C : check && negb (slen "" <? slen t)%nat = false).
  { destruct check; [|reflexivity]. destruct t; [now specialize (N eq_refl)|reflexivity]. }
  rewrite C. rewrite syntax_empty. now exists t.
Qed.

Lemma scan_none : forall check t, p_syntax t = PErr -> scan_syntax check t = POk t Proto2.
Proof. intros check t H. unfold scan_syntax, separated_list0. nf. now rewrite H. Qed.

Lemma syntax_text_facts : forall sx st s, syntax_text sx st ->
  st <> "" /\ solid (st ++ s)%string.
Proof. intros sx st s [g1 g2 g3 _ _ _]. split; [discriminate|lit]. Qed.

(** the events of a file with a syntax declaration, read with any syntax *)
Lemma declared_events : forall sc g sx st ds t, gap g -> syntax_text sx st -> decls_text sc ds t ->
  exists evs, many0 (p_event sc) (g ++ st ++ t)%string = POk "" evs
    /\ fold_left add_event evs empty_file = file_meaning sx ds.
Proof.
  intros sc g sx st ds t G Hs Hd. destruct (decls_ok sc ds t Hd) as [evs [E K]].
  assert (Es : p_event sc (st ++ t)%string = POk t (FSyntax sx)).
  { unfold p_event. cbn [alt]. nf. now rewrite (syntax_ok sx). }
  destruct (syntax_text_facts sx st t Hs) as [N So].
  pose proof (many0_step _ _ _ _ _ _ _ Es (slen_grow st t N) E) as Step.
  rewrite (gap_steps _ _ FIgnore (file_gap sc) g _ _ _ G So Step).
  eexists. split; [reflexivity|].
  assert (F : fold_left add_event (FSyntax sx :: evs) empty_file = file_meaning sx ds).
  { cbn [fold_left]. rewrite K. rewrite fold_file. reflexivity. }
  destruct g; [exact F|]. exact F.
Qed.

Lemma file_declared_ok : forall check g sx st ds t,
  gap g -> syntax_text sx st -> decls_text sx ds t ->
  (g = "" /\ (check = true -> t <> "") \/ g <> "" /\ sx = Proto2) ->
  p_file check (g ++ st ++ t)%string = POk "" (file_meaning sx ds).
Proof.
  intros check g sx st ds t G Hs Hd Hc.
  destruct (declared_events sx g sx st ds t G Hs Hd) as [evs [E K]].
  unfold p_file. destruct Hc as [[-> Ht]|[N ->]].
  - cbn [append] in *. destruct (scan_declared check sx st t Hs Ht) as [r ->].
    nf. now rewrite E, K.
  - rewrite scan_none.
    + nf. now rewrite E, K.
    + apply (file_fails Proto2). apply break_not_start. now split.
Qed.

Lemma file_plain_ok : forall check ds t, decls_text Proto2 ds t ->
  p_file check t = POk "" (file_meaning Proto2 ds).
Proof.
  intros check ds t Hd. destruct (decls_ok Proto2 ds t Hd) as [evs [E K]].
  unfold p_file. rewrite scan_none.
  - nf. rewrite E, K. rewrite fold_file. reflexivity.
  - destruct Hd as [g G|g d u ds ts G Hu _].
    + destruct g as [|c g]; [reflexivity|]. rewrite <- (append_nil_r (String c g)).
      apply (file_fails Proto2). apply break_not_start. split; [exact G|discriminate].
    + destruct g as [|c g].
      * cbn [append]. apply (decl_facts Proto2 d u Hu).
      * apply (file_fails Proto2). apply break_not_start. split; [exact G|discriminate].
Qed.

(** a proto3 declaration that is not at the start of the file is not seen by the
    scan: the file is read as proto2, and labelled proto3 *)
Lemma file_late_declaration : forall check g st ds t,
  break g -> syntax_text Proto3 st -> decls_text Proto2 ds t ->
  p_file check (g ++ st ++ t)%string = POk "" (file_meaning Proto3 ds).
Proof.
  intros check g st ds t G Hs Hd.
  destruct (declared_events Proto2 g Proto3 st ds t (proj1 G) Hs Hd) as [evs [E K]].
  unfold p_file. rewrite scan_none.
  - nf. now rewrite E, K.
  - apply (file_fails Proto2). now apply break_not_start.
Qed.
