(** Which schemas have generated files that are Rust, in terms of the descriptor
    as it is read: names, module names and default values. *)
From Coq Require Import String Ascii Arith ZArith Lia Bool.
From Verif Require Import Base Schema Keywords KeywordFacts Modules Passes Gen GenCheck Cycles CycleFacts BreakFacts IndexFacts Pipeline PassFacts.
From Verif Require Import Lifetime RustTypes Emit Uses Output OutputFacts Paths GenText.
From Verif Require Import RustLex RustAst RustParse RustParseFacts GenAst LexFacts GenAstFacts GenAstOk.
Import Schema StringSyntax.
Local Open Scope string_scope.
Local Open Scope list_scope.

(** ** The file of a descriptor *)

(** types.rs:2432-2493 [write_proto]: the passes before the names are escaped.
    The text needs both descriptors, because some of it is made from names that
    are escaped later (types.rs:2132-2152). *)
Definition before_escape (c : config) (d : file_descriptor) : gres file_descriptor :=
  match d_messages d, d_enums d with
  | nil, nil => GErr ErrEmptyRead
  | _, _ =>
    gbind (resolve_types d) (fun d1 =>
    gbind (break_cycles (c_error_cycle c) d1) (fun d2 =>
    gbind (sanity_checks d2) (fun _ =>
    set_defaults (drop_cows c d2))))
  end.
Definition after_escape (c : config) (d : file_descriptor) : file_descriptor := single_module c (sanitize_names d).
Lemma process_escape c d : process c d = gbind (before_escape c d) (fun d4 => GOk (after_escape c d4)).
Proof.
  unfold process, before_escape, after_escape.
  assert (K : gbind (resolve_types d) (fun d1 => gbind (break_cycles (c_error_cycle c) d1) (fun d2 => gbind (sanity_checks d2) (fun _ =>
    gbind (set_defaults (drop_cows c d2)) (fun d4 => GOk (single_module c (sanitize_names d4)))))) =
    gbind (gbind (resolve_types d) (fun d1 => gbind (break_cycles (c_error_cycle c) d1) (fun d2 => gbind (sanity_checks d2) (fun _ =>
    set_defaults (drop_cows c d2))))) (fun d4 => GOk (single_module c (sanitize_names d4)))).
  { destruct (resolve_types d) as [d1|e]; [|reflexivity]. cbn [gbind]. destruct (break_cycles (c_error_cycle c) d1) as [d2|e]; [|reflexivity].
    cbn [gbind]. now destruct (sanity_checks d2). }
  destruct (d_messages d); [destruct (d_enums d); [reflexivity|]|]; exact K.
Qed.
(** types.rs:2432-2493 [write_proto], for one file: the text that it writes, and
    the error that it ends with *)
Definition generated (g : gen_config) (d : file_descriptor) (filename : text) (services : nat) : text * option gen_error :=
  match before_escape (g_passes g) d with
  | GErr e => ("", Some e)
  | GOk d4 => write_file g (after_escape (g_passes g) d4) d4 filename services
  end.

(** ** Conditions *)

(** a keyword of Rust that is not in the list of keywords.rs *)
Definition missing (s : text) : bool := is_key s && negb (is_keyword s).
(** an identifier of protobuf that is made an identifier of Rust *)
Definition proto_name (s : text) : bool := ident s && negb (missing s).
(** a module: names with points between them *)
Definition module_ok (s : text) : bool := String.eqb s "" || forallb rust_name (split_on "." s).

(** the text of a number: Rust reads one number, or a minus and a number *)
Definition number_ok (s : text) : bool :=
  match scan LNone s with
  | ([], LNum _) => true
  | ([TSym m], LNum _) => String.eqb m "-"
  | _ => false
  end.
(** the text between quotes: every quote in it is after a backslash *)
Definition string_ok (k : bool) (s : text) : bool :=
  match scan (LStr k "") s with
  | ([], LStr _ _) => true
  | _ => false
  end.
Definition special_ok (s : text) : bool := existsb (String.eqb (map_chars lower s)) ["inf"; "-inf"; "nan"].
(** the text of a default value, as it is in the schema *)
Definition default_ok (t : field_type) (s : text) : bool :=
  match t with
  | TUint32 | TFixed32 | TUint64 | TFixed64 | TInt32 | TSint32 | TSfixed32 | TInt64 | TSint64 | TSfixed64 => number_ok s
  | TFloat | TDouble => special_ok s || number_ok s
  | TString | TStringCow => string_ok false s
  | TBytes | TBytesCow => string_ok true s
  | TBool => true
  | TEnum _ | TMessage _ | TMessageOrEnum _ | TMap _ _ => rust_name s
  end.
Definition schema_field (f : field) : bool :=
  proto_name (f_name f) && match f_default f with Some s => default_ok (f_typ f) s | None => true end.
Definition schema_oneof (o : oneof) : bool :=
  proto_name (o_name o) && module_ok (o_module o) && forallb schema_field (o_fields o).
(** the name of an enum and its first value are also written as they are *)
Definition schema_enum (e : enumerator) : bool :=
  rust_name (en_name e) && module_ok (en_module e) && forallb (fun f => proto_name (fst f)) (en_fields e)
  && match en_fields e with (v, _) :: _ => rust_name v | [] => true end.
Definition schema_message (m : message) : bool :=
  proto_name (m_name m) && module_ok (m_module m) && forallb schema_field (m_fields m) && forallb schema_oneof (m_oneofs m)
  && forallb schema_enum (m_enums m).
Definition schema_ok (d : file_descriptor) : bool :=
  forallb (fun x => schema_message (snd x)) (all_messages d) && forallb schema_enum (d_enums d).

(** the contents of an attribute: tokens without brackets, and a name at the end *)
Definition attr_ok (s : text) : bool :=
  match scan LNone s with
  | (t, LWord _) => forallb plain t && starts is_start s
  | _ => false
  end.
(** what [-C] and [-R] ask for *)
Definition config_ok (g : gen_config) : bool :=
  (String.eqb (join_with ", " (g_derive g)) "" || attr_ok (join_with ", " (g_derive g)))
  && match g_repr g with Some r => attr_ok r | None => true end.

(** ** Names *)
Lemma ident_no_dot s : ident s = true -> contains_char "." s = false.
Proof.
  intros H. apply ident_word in H. induction s as [|a s IH]; [reflexivity|]. cbn [all_chars contains_char] in *. apply andb_true_iff in H.
  destruct H as [A H]. rewrite (IH H), orb_false_r. every_char a.
Qed.
Lemma ident_snoc s r : ident s = true -> all_chars is_word r = true -> ident (s ++ r)%string = true.
Proof.
  intros H R. destruct s as [|a s]; [discriminate|]. cbn [ident append] in *. apply andb_true_iff in H. destruct H as [A H].
  now rewrite A, all_chars_app, H, R.
Qed.
Lemma escaped_name s : proto_name s = true -> rust_name (sanitize_keyword s) = true.
Proof.
  intros H. apply andb_true_iff in H. destruct H as [A H]. rewrite sanitize_keyword_one by now apply ident_no_dot. unfold sanitize_segment.
  unfold missing in H. unfold rust_name. destruct (is_keyword s).
  - rewrite ident_snoc by (exact A || reflexivity). now apply no_suffix.
  - rewrite andb_true_r in H. now rewrite A.
Qed.
Lemma module_path_names s imported package : module_ok s = true -> forallb rust_name (module_path s imported package) = true.
Proof.
  intros H. unfold module_path. apply forallb_forall. intros x I.
  assert (J : In x (filter (fun p => negb (String.eqb p "")) (split_on "." s))).
  { revert I. generalize (filter (fun p => negb (String.eqb p "")) (split_on "." s)).
    intros l I. rewrite <- (firstn_skipn (if String.eqb package "" && negb imported then 1 else 0)%nat l). apply in_or_app. now right. }
  apply filter_In in J. destruct J as [J N]. unfold module_ok in H. destruct (String.eqb_spec s "") as [->|D].
  - destruct J as [<-|[]]. discriminate N.
  - cbn [orb] in H. rewrite forallb_forall in H. auto.
Qed.

(** ** Default values *)
Lemma scan_num_word : forall h w, all_chars is_word h = true -> scan (LNum w) h = ([], LNum (w ++ h)%string).
Proof.
  induction h as [|a h IH]; intros w H; cbn [scan all_chars] in *; [now rewrite str_app_nil|].
  apply andb_true_iff in H. destruct H as [A H]. cbn [step]. rewrite A, (IH _ H). cbn [app]. now rewrite snoc_app.
Qed.
Lemma number_reads s suffix : number_ok s = true -> all_chars is_word suffix = true ->
  exists e, piece closer (s ++ suffix)%string (print_exp e) /\ operand 2 e.
Proof.
  intros H S. unfold number_ok in H. destruct (scan LNone s) as [t st] eqn:E.
  assert (L : exists w, st = LNum w /\ (t = [] \/ t = [TSym "-"])).
  { destruct t as [|x t]; [destruct st; try discriminate; eauto|]. destruct x as [| | | | |m]; try discriminate. destruct t; [|discriminate].
    destruct st; try discriminate. apply String.eqb_eq in H. subst m. eauto. }
  destruct L as (w & -> & T). pose proof (lexed_app _ _ _ _ _ _ _ E (scan_num_word suffix w S)) as Q. rewrite app_nil_r in Q.
  destruct T as [-> | ->].
  - exists (RELit (TNum (w ++ suffix)%string)). split; [|unfold operand; repeat split].
    exists [], (LNum (w ++ suffix)%string). repeat split; [exact Q|]. intros a A. now apply num_closer.
  - exists (REUn UNeg (RELit (TNum (w ++ suffix)%string))). split; [|unfold operand; repeat split].
    exists [TSym "-"], (LNum (w ++ suffix)%string). repeat split; [exact Q|]. intros a A. now apply num_closer.
Qed.
Lemma string_state : forall s k w st t k' w', scan st s = (t, LStr k' w') -> t = [] -> st = LStr k w \/ st = LEsc k w -> k' = k /\ w' = (w ++ s)%string.
Proof.
  induction s as [|a s IH]; intros k w st t k' w' E T St; cbn [scan] in E.
  - injection E as <- E'. subst st. rewrite str_app_nil. destruct St as [X|X]; [injection X; auto|discriminate].
  - destruct St as [-> | ->]; cbn [step] in E.
    + destruct (Ascii.eqb a quote); [destruct (scan LNone s); injection E as <- _; discriminate|].
      destruct (Ascii.eqb a "\"); [destruct (scan (LEsc k (snoc w a)) s) as [ts s2] eqn:F|destruct (scan (LStr k (snoc w a)) s) as [ts s2] eqn:F];
        injection E as <- ->; apply (IH k (snoc w a)) in F; auto; rewrite snoc_app in F; exact F.
    + destruct (scan (LStr k (snoc w a)) s) as [ts s2] eqn:F. injection E as <- ->. apply (IH k (snoc w a)) in F; auto. rewrite snoc_app in F. exact F.
Qed.
Lemma string_scan k s : string_ok k s = true -> lexed (LStr k "") s [] (LStr k s).
Proof.
  unfold string_ok, lexed. destruct (scan (LStr k "") s) as [t st] eqn:E. intros H. destruct t; [|discriminate]. destruct st; try discriminate.
  destruct (string_state s k "" _ _ _ _ E) as [-> ->]; auto.
Qed.
Lemma quoted_scan k s : string_ok k s = true -> lexed (LStr k "") (s ++ String (ascii_of_nat 34) "")%string [if k then TBStr s else TStr s] LNone.
Proof. intros H. rewrite <- (app_nil_l [_]). eapply lexed_app; [exact (string_scan k s H)|reflexivity]. Qed.
Lemma lexed_cons st a r t st1 t2 st2 : step st a = (t, st1) -> lexed st1 r t2 st2 -> lexed st (String a r) (t ++ t2) st2.
Proof. unfold lexed. intros S H. cbn [scan]. now rewrite S, H. Qed.
Lemma quoted_reads s : string_ok false s = true -> piece word_closer (quoted s) [TStr s].
Proof.
  intros H. exists [TStr s], LNone. split; [exact (lexed_cons LNone quote _ [] (LStr false "") _ _ eq_refl (quoted_scan false s H))|]. split; reflexivity.
Qed.
Lemma bytes_reads s : string_ok true s = true -> piece word_closer ("b" ++ quoted s)%string [TBStr s].
Proof.
  intros H. exists [TBStr s], LNone. split; [|split; reflexivity].
  exact (lexed_cons LNone "b" _ [] (LWord "b") _ _ eq_refl (lexed_cons (LWord "b") quote _ [] (LStr true "") _ _ eq_refl (quoted_scan true s H))).
Qed.
Lemma borrowed_reads q t : soft "(" q -> piece word_closer q [t] -> piece closer ("Cow::Borrowed(" ++ q ++ ")")%string
  [TWord "Cow"; TSym "::"; TWord "Borrowed"; TSym "("; t; TSym ")"].
Proof.
  intros S P. change [TWord "Cow"; TSym "::"; TWord "Borrowed"; TSym "("; t; TSym ")"] with
    ([TWord "Cow"; TSym "::"; TWord "Borrowed"] ++ [TSym "("; t] ++ [TSym ")"]).
  assert (Q : lexed LNone (q ++ ")")%string [t] (LSym ")")).
  { rewrite <- (app_nil_r [t]). eapply lexed_piece; [exact (piece_closer _ _ P)|reflexivity|reflexivity]. }
  eexists _, (LSym ")"). split; [|split].
  - eapply lexed_app; [reflexivity|]. apply lexed_sym; [exact S|exact Q].
  - reflexivity.
  - intros a A. every_char a.
Qed.
Lemma quote_step b : b <> "/"%char -> step (LSym b) quote = ([TSym (String b "")], start quote).
Proof.
  intros N. cbn [step]. destruct (Ascii.eqb_spec b "/") as [E|_]; [contradiction|]. cbn [andb].
  assert (G : glued b quote = false).
  { destruct (glued b quote) eqn:E; [|reflexivity]. unfold glued in E. apply existsb_exists in E. destruct E as (p & I & E).
    apply String.eqb_eq in E. subst p. repeat (destruct I as [I|I]; [discriminate|]). destruct I. }
  now rewrite G.
Qed.
Lemma float_reads ty s : ty = "f32" \/ ty = "f64" -> special_ok s || number_ok s = true ->
  exists e, piece closer (float_literal ty s) (print_exp e) /\ operand 2 e.
Proof.
  intros T H. unfold float_literal. cbv zeta.
  assert (K : forall x, In x ["INFINITY"; "NEG_INFINITY"; "NAN"] -> exists e, piece closer ("::core::" ++ ty ++ "::" ++ x)%string (print_exp e) /\ operand 2 e).
  { intros x I. exists (REPath true (spath ["core"; ty; x] [])). destruct T as [-> | ->]; repeat (destruct I as [<-|I] || destruct I);
    (split; [eexists _, (LWord _); split; [reflexivity|]; split; [reflexivity|]; intros a A; apply word_boundary; every_char a|unfold operand; repeat split]). }
  destruct (String.eqb_spec (map_chars lower s) "inf"); [apply (K "INFINITY"); cbn; auto|].
  destruct (String.eqb_spec (map_chars lower s) "-inf"); [apply (K "NEG_INFINITY"); cbn; auto|].
  destruct (String.eqb_spec (map_chars lower s) "nan"); [apply (K "NAN"); cbn; auto|].
  apply orb_true_iff in H. destruct H as [H|H].
  - unfold special_ok in H. apply existsb_exists in H. destruct H as (x & I & H). apply String.eqb_eq in H. subst x.
    destruct I as [I|[I|[I|[]]]]; congruence.
  - apply number_reads; [exact H|]. destruct T as [-> | ->]; reflexivity.
Qed.
Definition reads (t : field_type) (y : text) : Prop := exists e,
  piece (if is_non_cow_string_or_byte t then word_closer else closer) y (print_exp e) /\ operand (if is_non_cow_string_or_byte t then 0 else 2)%nat e.
Lemma path_reads l : forallb rust_name l = true -> l <> [] -> exists e, piece closer (path_text l) (print_exp e) /\ operand 2 e.
Proof.
  intros H N. exists (epath l). split.
  - apply piece_closer. rewrite print_epath. apply piece_path; [exact N|]. rewrite forallb_forall in *. intros x I. apply H in I.
    apply andb_true_iff in I. apply I.
  - unfold operand. split; [|repeat split]. apply epath_ok; [destruct l; [contradiction|reflexivity]|]. now apply segs_of.
Qed.

Lemma literal_reads d t s y : (forall q e, get_enum d q = Some e -> schema_enum e = true) -> default_ok t s = true ->
  default_literal d t s = GOk y -> reads t y.
Proof.
  intros En H L. unfold reads.
  destruct t; cbn [default_ok default_literal is_non_cow_string_or_byte] in *; try discriminate L;
    try (apply ok_inj in L; subst y; first
      [ apply number_reads; [exact H|reflexivity]
      | apply float_reads; [auto|exact H]
      | exists (RELit (TStr s)); split; [exact (quoted_reads s H)|unfold operand; repeat split]
      | exists (call (epath ["Cow"; "Borrowed"]) [RELit (TStr s)]); split;
        [apply borrowed_reads; [eexists _, _; split; [reflexivity|apply (quote_step "("); discriminate]|exact (quoted_reads s H)]|unfold operand; repeat split]
      | exact (path_reads [s] (andb_true_intro (conj H eq_refl)) ltac:(discriminate)) ]).
  - destruct (String.eqb_spec s "true") as [->|_]; [|destruct (String.eqb_spec s "false") as [->|_]; [|discriminate L]].
    + apply ok_inj in L. subst y. exists (REBool true). split; [apply piece_closer, (piece_ident "true" eq_refl)|unfold operand; repeat split].
    + apply ok_inj in L. subst y. exists (REBool false). split; [apply piece_closer, (piece_ident "false" eq_refl)|unfold operand; repeat split].
  - destruct (get_enum d e) as [en|] eqn:G; [|discriminate L]. apply ok_inj in L. subst y. rewrite modules_text.
    specialize (En _ _ G). unfold schema_enum in En. rewrite !andb_true_iff in En. destruct En as (((A & B) & _) & _).
    assert (Q : (path_text (module_path (en_module en) (en_imported en) (d_package d) ++ [en_name en]) ++ "::" ++ s)%string =
                path_text ((module_path (en_module en) (en_imported en) (d_package d) ++ [en_name en]) ++ [s])).
    { generalize (module_path (en_module en) (en_imported en) (d_package d)) as l. clear. induction l as [|x l IH]; [reflexivity|].
      change ((x :: l) ++ [en_name en]) with (x :: (l ++ [en_name en])). cbn [app].
      rewrite !path_text_cons by (intros E; destruct l; discriminate E). rewrite <- IH, !str_app_assoc. reflexivity. }
    refine (eq_ind_r (fun x => exists e, piece closer x (print_exp e) /\ operand 2 e) _ Q). apply path_reads; [|apply GenAstFacts.path_nonempty]. rewrite !forallb_app. cbn [forallb]. rewrite A, H, !andb_true_r.
    now apply module_path_names.
  - apply ok_inj in L. subst y. exists (call (epath ["Cow"; "Borrowed"]) [RELit (TBStr s)]). split; [|unfold operand; repeat split].
    apply (borrowed_reads ("b" ++ quoted s)%string); [eexists _, _; split; reflexivity|exact (bytes_reads s H)].
  - apply ok_inj in L. subst y. exists (RELit (TBStr s)). split; [exact (bytes_reads s H)|unfold operand; repeat split].
Qed.

(** ** Through the passes *)
(** what the passes before the names are escaped do to a field *)
Definition prepared (d : file_descriptor) (f f4 : field) : Prop :=
  f_name f4 = f_name f /\ forall s, f_default f4 = Some s ->
    exists y, f_default f = Some y /\ default_ok (f_typ f4) y = default_ok (f_typ f) y /\ default_literal d (f_typ f4) y = GOk s.
Lemma first_match_named fm fe l t : first_match fm fe l = Some t -> forall y, default_ok t y = rust_name y.
Proof.
  induction l as [|n l IH]; cbn [first_match]; [discriminate|].
  destruct (lookup fm n); [intros H; now injection H as <-|]. destruct (lookup fe n); [intros H; now injection H as <-|]. exact IH.
Qed.
Lemma resolve_name_default fm fe a b t t' : resolve_name fm fe a b t = GOk t' -> forall y, default_ok t' y = default_ok t y.
Proof.
  intros H y. destruct t; cbn [resolve_name] in H; try (injection H as <-; reflexivity).
  destruct (first_match fm fe _) as [x|] eqn:E; [|discriminate]. injection H as <-. rewrite (first_match_named _ _ _ _ E). reflexivity.
Qed.
Lemma resolve_type_default fm fe a b t t' : resolve_type fm fe a b t = GOk t' -> forall y, default_ok t' y = default_ok t y.
Proof.
  intros H y. destruct t; cbn [resolve_type] in H; try (exact (resolve_name_default _ _ _ _ _ _ H y)).
  apply gbind_ok in H. destruct H as (k & _ & H). apply gbind_ok in H. destruct H as (v & _ & H). injection H as <-. reflexivity.
Qed.
Lemma own_default t y : default_ok (PassFacts.own_type t) y = default_ok t y.
Proof. destruct t; reflexivity. Qed.

Record same_message (d : file_descriptor) (m m4 : message) : Prop := mkSame {
  sm_name : m_name m4 = m_name m;
  sm_module : m_module m4 = m_module m;
  sm_imported : m_imported m4 = m_imported m;
  sm_enums : m_enums m4 = m_enums m;
  sm_fields : Forall2 (prepared d) (m_fields m) (m_fields m4);
  sm_oneofs : Forall2 (fun o o4 => o_name o4 = o_name o /\ o_module o4 = o_module o /\ Forall2 (prepared d) (o_fields o) (o_fields o4))
                (m_oneofs m) (m_oneofs m4) }.
Lemma rel_same d m m4 (R : field -> field -> Prop) : (forall f f', R f f' -> prepared d f f') -> msg_rel R m m4 -> same_message d m m4.
Proof.
  intros H (A & B & C).
  assert (Q : forall l l', Forall2 R l l' -> Forall2 (prepared d) l l') by (induction 1; constructor; auto).
  constructor; [exact (f_equal m_name C)|exact (f_equal m_module C)|exact (f_equal m_imported C)|exact (f_equal m_enums C)|auto|].
  clear C. induction B as [|o o' l l' (E & F) G IH]; constructor; [|exact IH].
  split; [exact (f_equal o_name F)|]. split; [exact (f_equal o_module F)|auto].
Qed.
Lemma before_stages c d d4 : before_escape c d = GOk d4 -> exists d1 d2,
  resolve_types d = GOk d1 /\ break_cycles (c_error_cycle c) d1 = GOk d2 /\ set_defaults (drop_cows c d2) = GOk d4.
Proof.
  intros H. unfold before_escape in H.
  assert (K : gbind (resolve_types d) (fun d1 => gbind (break_cycles (c_error_cycle c) d1) (fun d2 => gbind (sanity_checks d2) (fun _ =>
    set_defaults (drop_cows c d2)))) = GOk d4) by (destruct (d_messages d); [destruct (d_enums d); [discriminate|]|]; exact H).
  apply gbind_ok in K. destruct K as (d1 & E1 & K). apply gbind_ok in K. destruct K as (d2 & E2 & K). apply gbind_ok in K. destruct K as (u & _ & K). eauto.
Qed.
Lemma before_message c d d4 : before_escape c d = GOk d4 ->
  (forall p, opt_rel (same_message d) (get_message d p) (get_message d4 p)) /\ d_enums d4 = d_enums d /\ d_package d4 = d_package d /\
  forall q, get_enum d4 q = get_enum d q.
Proof.
  intros H. apply before_stages in H. destruct H as (d1 & d2 & E1 & E2 & E4).
  pose proof (resolve_types_indexed d d1 E1) as I1.
  destruct (break_cycles_ok (c_error_cycle c) d1 I1) as (cs & _ & [(d2' & E2' & R2 & _)|(_ & names & E2' & _)]); [|congruence].
  rewrite E2 in E2'. injection E2' as <-.
  pose proof (drop_cows_rel c d2) as R3. pose proof (set_defaults_rel _ _ E4) as R4.
  assert (En : forall q, get_enum (drop_cows c d2) q = get_enum d q).
  { intros q. rewrite (get_enum_rel _ _ _ q R3), (get_enum_rel _ _ _ q R2). now apply get_enum_resolve. }
  assert (Pk : d_package (drop_cows c d2) = d_package d /\ d_enums (drop_cows c d2) = d_enums d).
  { destruct (desc_rel_syntax _ _ _ R3) as (_ & -> & ->). destruct (desc_rel_syntax _ _ _ R2) as (_ & -> & ->).
    apply resolve_types_ok in E1. destruct E1 as (_ & E1). split; [exact (f_equal d_package E1)|exact (f_equal d_enums E1)]. }
  destruct (desc_rel_syntax _ _ _ R4) as (_ & P1 & P2). destruct Pk as [Pk Pe].
  split; [|split; [congruence|split; [congruence|]]].
  2: { intros q. rewrite (get_enum_rel _ _ _ q R4). apply En. }
  intros p. pose proof (resolve_types_get d d1 p E1) as R1. rewrite get_assign in R1.
  destruct (get_message d p) as [m|]; cbn in R1; inversion R1 as [A B|m0 m1 M1 A B]; subst.
  2: { destruct R2 as (R2 & _). specialize (R2 p). rewrite <- B in R2. apply opt_rel_none in R2.
    destruct R3 as (R3 & _). specialize (R3 p). rewrite R2 in R3. apply opt_rel_none in R3.
    destruct R4 as (R4 & _). specialize (R4 p). rewrite R3 in R4. apply opt_rel_none in R4. rewrite R4. constructor. }
  symmetry in B. destruct (desc_rel_fwd _ _ _ _ _ R2 B) as (m2 & G2 & M2).
  destruct (desc_rel_fwd _ _ _ _ _ R3 G2) as (m3 & G3 & M3). destruct (desc_rel_fwd _ _ _ _ _ R4 G3) as (m4 & G4 & M4).
  rewrite G4. constructor. apply resolve_message_ok in M1. destruct M1 as (M1 & _).
  assert (S : same_message d (set_indices p m) m4).
  { pose proof (msg_rel_trans _ _ _ _ _ _ (fun x y z A B => ex_intro _ y (conj A B)) M3 M4) as M34.
    pose proof (msg_rel_trans _ _ _ _ _ _ (fun x y z A B => ex_intro _ y (conj A B)) M2 M34) as M24.
    pose proof (msg_rel_trans _ _ _ _ _ _ (fun x y z A B => ex_intro _ y (conj A B)) M1 M24) as M14.
    refine (rel_same d _ _ _ _ M14). clear - En Pk.
    intros f f4 (f1 & (t & T & ->) & (f2 & Ev & (f3 & -> & (s & -> & Hs)))). unfold sanitized in Hs.
    assert (N : f_name f2 = f_name f /\ f_typ f2 = t /\ f_default f2 = f_default f).
    { destruct Ev as [->|(j & Tj & _ & Rp & _ & ->)]; cbn; auto. }
    destruct N as (N1 & N2 & N3). split; [exact N1|]. cbn in Hs |- *. intros x ->. rewrite N3, N2 in Hs. rewrite N2.
    destruct (f_default f) as [y|]; [|discriminate]. destruct Hs as (z & Z & L). injection Z as <-. exists y. split; [reflexivity|]. split.
    - transitivity (default_ok t y); [|exact (resolve_type_default _ _ _ _ _ _ T y)]. destruct (c_dont_use_cow c); [apply own_default|reflexivity].
    - rewrite <- L. symmetry. now apply default_literal_same. }
  revert S. rewrite set_indices_eq. intros [S1 S2 S3 S4 S5 S6]. constructor; assumption.
Qed.

(** ** Good descriptors *)
Lemma schema_message_of d p m : schema_ok d = true -> get_message d p = Some m -> schema_message m = true.
Proof.
  intros H G. apply andb_true_iff in H. destruct H as [H _]. rewrite forallb_forall in H. apply (H (p, m)). now apply all_messages_get.
Qed.
Lemma schema_enum_of d q e : schema_ok d = true -> get_enum d q = Some e -> schema_enum e = true.
Proof.
  intros H G. unfold get_enum in G. destruct (e_msg q) as [|i r].
  - apply andb_true_iff in H. destruct H as [_ H]. rewrite forallb_forall in H. apply H. eapply nth_error_In, G.
  - destruct (get_message d (i :: r)) as [m|] eqn:E; [|discriminate]. apply (schema_message_of d) in E; [|exact H].
    unfold schema_message in E. apply andb_true_iff in E. destruct E as [_ E]. rewrite forallb_forall in E. apply E. eapply nth_error_In, G.
Qed.
Lemma split_plain s : forallb rust_name (split_on "." s) = true -> all_chars plain_char s = true.
Proof.
  intros H. assert (K : forallb (all_chars plain_char) (split_on "." s) = true).
  { rewrite forallb_forall in *. intros x I. apply H in I. apply andb_true_iff in I. now apply word_plain, ident_word. }
  clear H. revert K. induction s as [|a s IH]; cbn [split_on]; [reflexivity|]. cbn [all_chars]. destruct (Ascii.eqb_spec a ".") as [->|_].
  - cbn [forallb]. exact IH.
  - pose proof (split_on_nonempty "." s) as N. destruct (split_on "." s) as [|p ps]; [contradiction|]. cbn [forallb all_chars] in *.
    rewrite !andb_true_iff. intros ((A & B) & C). split; [exact A|]. apply IH. now rewrite B, C.
Qed.
Lemma module_plain s : module_ok s = true -> all_chars plain_char s = true.
Proof.
  unfold module_ok. intros H. apply orb_true_iff in H. destruct H as [H|H]; [apply String.eqb_eq in H; now subst s|now apply split_plain].
Qed.

Lemma tokens_lexed s t st : lexed LNone s t st -> ends_well st = true -> tokens_of s = t ++ flush st.
Proof. unfold lexed, tokens_of, lex. intros -> ->. reflexivity. Qed.
Lemma attr_good s : attr_ok s = true -> good_attr s.
Proof.
  intros H. unfold attr_ok in H. destruct (scan LNone s) as [t st] eqn:E. destruct st as [|w| | | | | | | | |]; try discriminate. apply andb_true_iff in H. destruct H as [P S].
  pose proof (tokens_lexed s t (LWord w) E eq_refl) as T. split; [|rewrite T, forallb_app, P; reflexivity]. split.
  - rewrite T. exists t, (LWord w). split; [exact E|]. split; [reflexivity|]. intros a A. apply word_boundary, closer_boundary. unfold word_closer. now rewrite A.
  - destruct s as [|a s]; [discriminate|]. exists a, s. split; [reflexivity|]. apply soft_start; [exact S|discriminate].
Qed.
Lemma starts_app C s r : starts C s = true -> starts C (s ++ r)%string = true.
Proof. now destruct s. Qed.
Lemma attr_word s x : attr_ok s = true -> all_chars is_word x = true -> attr_ok (s ++ x)%string = true.
Proof.
  intros H X. unfold attr_ok in *. destruct (scan LNone s) as [t st] eqn:E. destruct st as [|w| | | | | | | | |]; try discriminate.
  apply andb_true_iff in H. destruct H as [P S]. rewrite (lexed_app _ _ _ _ _ _ _ E (scan_word x w X)), app_nil_r, P. now apply starts_app.
Qed.
Lemma attr_more s : attr_ok s = true -> attr_ok (s ++ ", Debug, PartialEq, Clone")%string = true.
Proof.
  intros H. unfold attr_ok in *. destruct (scan LNone s) as [t st] eqn:E. destruct st as [|w| | | | | | | | |]; try discriminate.
  apply andb_true_iff in H. destruct H as [P S].
  assert (Q : lexed (LWord w) ", Debug, PartialEq, Clone" [TWord w; TSym ","; TWord "Debug"; TSym ","; TWord "PartialEq"; TSym ","] (LWord "Clone")) by reflexivity.
  rewrite (lexed_app _ _ _ _ _ _ _ E Q), forallb_app, P. cbn [andb forallb plain]. now apply starts_app.
Qed.
Lemma derive_good g d m : String.eqb (join_with ", " (g_derive g)) "" || attr_ok (join_with ", " (g_derive g)) = true ->
  good_attr (derive_text g d m ++ "Debug, PartialEq, Clone")%string.
Proof.
  intros H. apply attr_good. unfold derive_text. cbv zeta. revert H. generalize (join_with ", " (g_derive g)). intros s H.
  apply orb_true_iff in H. generalize (negb (message_must_generate_impl_default (d_syntax d) (g_passes g) m)). intros b. destruct H as [H|H].
  - apply String.eqb_eq in H. subst s. destruct b; reflexivity.
  - assert (K : forall x, attr_ok x = true -> attr_ok ((if negb (String.eqb x "") then x ++ ", " else x) ++ "Debug, PartialEq, Clone")%string = true).
    { intros x X. destruct (String.eqb_spec x "") as [->|N]; [reflexivity|]. cbn [negb]. rewrite str_app_assoc. exact (attr_more x X). }
    destruct b; apply K; [now apply attr_word|exact H].
Qed.

Section Good.
Variables (g : gen_config) (d d4 : file_descriptor).
Let c := g_passes g.
Hypothesis before : before_escape c d = GOk d4.
Hypothesis schema : schema_ok d = true.
Hypothesis derives_ok : String.eqb (join_with ", " (g_derive g)) "" || attr_ok (join_with ", " (g_derive g)) = true.
Let d' := after_escape c d4.
Lemma relations : (forall p, opt_rel (same_message d) (get_message d p) (get_message d4 p)) /\ d_enums d4 = d_enums d /\ d_package d4 = d_package d /\
  forall q, get_enum d4 q = get_enum d q.
Proof. exact (before_message _ _ _ before). Qed.
Lemma message4 p m4 : get_message d4 p = Some m4 -> exists m, get_message d p = Some m /\ same_message d m m4.
Proof. intros G. destruct relations as (R & _). specialize (R p). rewrite G in R. inversion R; subst. eauto. Qed.
Lemma enum4 q e : get_enum d4 q = Some e -> schema_enum e = true.
Proof. intros G. destruct relations as (_ & _ & _ & R). rewrite R in G. exact (schema_enum_of d q e schema G). Qed.
Lemma get_message_after p : get_message d' p = option_map msg_sanitize_names (get_message d4 p).
Proof. unfold d', after_escape. now rewrite get_single_module, get_sanitize_names. Qed.
Lemma get_enum_after q : get_enum d' q = option_map enum_sanitize_names (get_enum d4 q).
Proof.
  unfold get_enum. destruct (e_msg q) as [|i p].
  - unfold d', after_escape, single_module. destruct (c_single_module c); cbn; now rewrite nth_error_map.
  - rewrite get_message_after. destruct (get_message d4 (i :: p)) as [m|]; [|reflexivity]. cbn [option_map]. destruct m. cbn. now rewrite nth_error_map.
Qed.
Lemma rust_proto s : rust_name s = true -> proto_name s = true.
Proof.
  unfold rust_name, proto_name, ok_name, missing. rewrite !andb_true_iff. intros [A B]. split; [exact A|]. apply negb_true_iff in B. now rewrite B.
Qed.
Lemma names_message i m : get_message d' i = Some m -> forallb rust_name (message_path d' m) = true.
Proof.
  rewrite get_message_after. destruct (get_message d4 i) as [m4|] eqn:G; [|discriminate]. intros H; injection H as <-.
  destruct (message4 i m4 G) as (m & Gm & S). pose proof (schema_message_of d i m schema Gm) as K. unfold schema_message in K. rewrite !andb_true_iff in K.
  destruct K as ((((A & B) & _) & _) & _). unfold message_path. rewrite forallb_app. cbn [forallb].
  replace (m_module (msg_sanitize_names m4)) with (m_module m4) by now destruct m4.
  replace (m_name (msg_sanitize_names m4)) with (sanitize_keyword (m_name m4)) by now destruct m4.
  rewrite (sm_module _ _ _ S), (sm_name _ _ _ S), module_path_names, escaped_name by assumption. reflexivity.
Qed.
Lemma names_enum q e : get_enum d' q = Some e -> forallb rust_name (enum_path d' e) = true.
Proof.
  rewrite get_enum_after. destruct (get_enum d4 q) as [e4|] eqn:G; [|discriminate]. intros H; injection H as <-. pose proof (enum4 q e4 G) as K.
  unfold schema_enum in K. rewrite !andb_true_iff in K. destruct K as (((A & B) & _) & _). unfold enum_path. rewrite forallb_app. cbn [forallb].
  cbn [enum_sanitize_names en_module en_name en_imported]. rewrite module_path_names, escaped_name; auto. now apply rust_proto.
Qed.
Lemma names_value q e p : get_enum d4 q = Some e -> qualified_value e = Some p -> forallb rust_name p = true.
Proof.
  intros G Q. pose proof (enum4 q e G) as K. unfold schema_enum in K. rewrite !andb_true_iff in K. destruct K as (((A & B) & _) & V).
  unfold qualified_value in Q. destruct (en_fields e) as [|(v, x) l]; [discriminate|]. injection Q as <-. rewrite forallb_app. cbn [forallb]. rewrite A, V.
  unfold module_ok in B. destruct (String.eqb (en_module e) ""); [reflexivity|]. cbn [orb] in B. now rewrite B.
Qed.
Lemma field_good4 f f4 : schema_field f = true -> prepared d f f4 -> good_field (set_fname f4 (sanitize_keyword (f_name f4))).
Proof.
  intros H (N & L). unfold schema_field in H. apply andb_true_iff in H. destruct H as [A B]. split; [cbn; rewrite N; now apply escaped_name|].
  intros s D. cbn in D |- *. destruct (L s D) as (y & Y & O & Li). rewrite Y, <- O in B.
  exact (literal_reads d _ _ _ (fun q e => schema_enum_of d q e schema) B Li).
Qed.
Lemma enum_good4 e : schema_enum e = true -> good_enum (enum_sanitize_names e, e).
Proof.
  intros H. unfold schema_enum in H. rewrite !andb_true_iff in H. destruct H as (((A & B) & F) & V). cbn [fst snd]. unfold good_enum.
  cbn [fst snd enum_sanitize_names en_name en_fields]. split; [now apply escaped_name, rust_proto|]. split; [|split; [exact A|]].
  - intros f I. apply in_map_iff in I. destruct I as (x & <- & I). cbn [fst]. rewrite forallb_forall in F. now apply escaped_name, F.
  - intros v x l E. now rewrite E in V.
Qed.
Lemma combine_map {A B} (h : A -> B) l p : In p (combine (map h l) l) -> exists x, In x l /\ p = (h x, x).
Proof.
  induction l as [|x l IH]; cbn; [intros []|]. intros [<-|I]; [exists x; auto|]. destruct (IH I) as (y & Y & ->). exists y. auto.
Qed.
Lemma own_good4 p m4 : get_message d4 p = Some m4 -> own_good g d' (msg_sanitize_names m4).
Proof.
  intros G. destruct (message4 p m4 G) as (m & Gm & [S1 S2 S3 S4 S5 S6]). pose proof (schema_message_of d p m schema Gm) as K. unfold schema_message in K.
  rewrite !andb_true_iff in K. destruct K as ((((A & B) & F) & O) & E). rewrite forallb_forall in F, O.
  unfold own_good. destruct m4 as [name fields oneofs rnums rnames imported package messages enums module index] eqn:Em. rewrite <- Em.
  assert (P : m_name (msg_sanitize_names m4) = sanitize_keyword name /\
    m_fields (msg_sanitize_names m4) = map (fun f => set_fname f (sanitize_keyword (f_name f))) fields /\
    m_oneofs (msg_sanitize_names m4) = map oneof_sanitize_names oneofs /\ m_module (msg_sanitize_names m4) = module) by (rewrite Em; auto).
  destruct P as (-> & -> & -> & ->). cbn in S1, S2, S5, S6. repeat match goal with |- _ /\ _ => split end.
  - rewrite S1. now apply escaped_name.
  - intros f I. apply in_map_iff in I. destruct I as (f4 & <- & I). destruct (Forall2_in_r _ _ _ S5 f4 I) as (f0 & I0 & Pr). apply (field_good4 f0); auto.
  - intros o I. apply in_map_iff in I. destruct I as (o4 & <- & I). destruct (Forall2_in_r _ _ _ S6 o4 I) as (o0 & I0 & N & M & Pr).
    specialize (O o0 I0). unfold schema_oneof in O. rewrite !andb_true_iff in O. destruct O as ((O1 & O2) & O3). rewrite forallb_forall in O3.
    unfold good_oneof. cbn [oneof_sanitize_names o_name o_fields]. split; [rewrite N; now apply escaped_name|]. split.
    + unfold oneof_path. cbn [oneof_sanitize_names o_module o_imported o_name]. rewrite forallb_app, M, module_path_names by exact O2. cbn [forallb].
      unfold rust_name. rewrite oneof_key, N. assert (Q : ident (sanitize_keyword (o_name o0)) = true) by (pose proof (escaped_name _ O1) as Q; now apply andb_true_iff in Q).
      apply ident_word in Q. change (ident ("OneOf" ++ sanitize_keyword (o_name o0))%string) with (all_chars is_word (sanitize_keyword (o_name o0))). now rewrite Q.
    + intros f J. apply in_map_iff in J. destruct J as (f4 & <- & J). destruct (Forall2_in_r _ _ _ Pr f4 J) as (f0 & J0 & (Nf & _)). cbn. rewrite Nf.
      specialize (O3 f0 J0). unfold schema_field in O3. apply andb_true_iff in O3. now apply escaped_name.
  - rewrite S2. now apply module_plain.
  - now apply derive_good.
Qed.
Lemma message_good4 : forall m4 p, get_message d4 p = Some m4 -> good_message g d' (msg_sanitize_names m4) m4.
Proof.
  fix IH 1. intros m4 p G. pose proof (own_good4 p m4 G) as O.
  destruct (message4 p m4 G) as (m & Gm & [S1 S2 S3 S4 S5 S6]). pose proof (schema_message_of d p m schema Gm) as K. unfold schema_message in K.
  rewrite !andb_true_iff in K. destruct K as (_ & E).
  assert (C : forall k x, nth_error (m_messages m4) k = Some x -> get_message d4 (p ++ [k]) = Some x).
  { intros k x N. rewrite get_message_eq in G |- *. exact (get_in_child _ _ _ _ _ G N). }
  destruct m4 as [name fields oneofs rnums rnames imported package messages enums module index].
  cbn [msg_sanitize_names good_message m_enums m_messages] in *. split; [exact O|]. split.
  - intros q I. apply combine_map in I. destruct I as (x & I & ->). apply enum_good4. rewrite S4 in I. rewrite forallb_forall in E. auto.
  - clear - IH C. revert C. assert (Go : forall n, (forall k x, nth_error messages k = Some x -> get_message d4 (p ++ [(n + k)%nat]) = Some x) ->
      (fix go (l l0 : list message) {struct l} : Prop := match l, l0 with x :: l', y :: l0' => good_message g d' x y /\ go l' l0' | _, _ => True end)
        (map msg_sanitize_names messages) messages).
    { induction messages as [|x l IHl]; intros n H; [exact I|]. split.
      - apply (IH x (p ++ [(n + 0)%nat])). apply H. reflexivity.
      - apply (IHl (S n)). intros k y N. specialize (H (S k) y N). now rewrite <- plus_n_Sm in H. }
    intros C. exact (Go O C).
Qed.
Lemma generated_good filename services s : match g_repr g with Some r => attr_ok r | None => true end = true -> all_chars not_newline filename = true ->
  write_file g d' d4 filename services = (s, None) -> parse_rust s = Some (file_ast g d' d4).
Proof.
  intros Rp F W. refine (file_parses g d' d4 names_message names_enum names_value _ _ _ filename services s F W).
  - destruct (g_repr g) as [r|]; [now apply attr_good|exact I].
  - intros p I _. assert (E : d_enums d' = map enum_sanitize_names (d_enums d4)) by (unfold d', after_escape, single_module; now destruct (c_single_module c)).
    rewrite E in I. apply combine_map in I. destruct I as (e & I & ->). apply enum_good4.
    destruct relations as (_ & R & _). rewrite R in I. apply andb_true_iff in schema. destruct schema as [_ K]. rewrite forallb_forall in K. auto.
  - intros p I _. assert (E : d_messages d' = map msg_sanitize_names (d_messages d4)) by (unfold d', after_escape, single_module; now destruct (c_single_module c)).
    rewrite E in I. apply combine_map in I. destruct I as (m & I & ->). apply In_nth_error in I. destruct I as (k & I).
    apply (message_good4 m [k]). rewrite get_message_eq. cbn. now rewrite I.
Qed.
End Good.
