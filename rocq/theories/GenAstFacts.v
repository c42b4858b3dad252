(** The text of GenText.v is lexed as the trees of GenAst.v are printed. *)
From Coq Require Import String Ascii Arith Lia Bool ZArith.
From Verif Require Import Base Schema Keywords Modules Passes Gen GenCheck Lifetime RustTypes Emit Uses Output Paths GenText.
From Verif Require Import RustLex RustAst RustParse RustParseFacts GenAst LexFacts.
Import Schema StringSyntax.
Local Open Scope string_scope.
Local Open Scope list_scope.

(** ** Going through a text *)
Lemma lexed_eq : forall st s ts ts' st', lexed st s ts st' -> ts = ts' -> lexed st s ts' st'.
Proof. intros; subst; assumption. Qed.
Lemma lexed_end : forall st, lexed st "" [] st.
Proof. reflexivity. Qed.
Lemma lexed_quote : forall w r t st, lexed LNone r t st -> lexed (LStr false w) (String quote r) (TStr w :: t) st.
Proof. unfold lexed. intros w r t st H. cbn [scan step]. rewrite Ascii.eqb_refl, H. reflexivity. Qed.
Lemma lexed_const : forall st s r t1 st1 t2 st2, scan st s = (t1, st1) -> lexed st1 r t2 st2 -> lexed st (s ++ r)%string (t1 ++ t2) st2.
Proof. exact lexed_app. Qed.
Lemma lexed_last : forall st s t st', scan st s = (t, st') -> lexed st s t st'.
Proof. auto. Qed.

Ltac ident_tac := first [assumption | reflexivity].
Ltac piece_tac :=
  first [ eassumption
        | (apply piece_closer; eassumption)
        | (apply piece_ident; ident_tac)
        | (apply piece_closer, piece_ident; ident_tac)
        | (apply piece_nat; solve [eauto with nonneg])
        | apply piece_show ].
Ltac soft_tac := first [ assumption | (apply soft_ident; [discriminate | ident_tac]) | (apply soft_num; [discriminate | apply show_nonneg; eauto with nonneg])
                       | (eexists _, _; split; [reflexivity|reflexivity]) ].
Ltac lx_const st s r :=
  let v := eval vm_compute in (scan st s) in
  lazymatch v with (?t, ?st1) => eapply (lexed_const st s r t st1); [vm_cast_no_check (eq_refl (t, st1)) | ] end.
Fixpoint cut_word (s : text) : text * text :=
  match s with
  | String x s' => if is_word x then let '(p, q) := cut_word s' in (String x p, q) else ("", s)
  | EmptyString => ("", "")
  end.
Ltac lx_step :=
  lazymatch goal with
  | |- lexed _ "" _ _ => apply lexed_end
  | |- lexed ?st (append "" ?r) ?t ?st' => change (lexed st r t st')
  | |- lexed (LWord ?w) (append (String ?a ?s) ?r) _ _ =>
    let b := eval vm_compute in (boundary a) in
    lazymatch b with
    | true => apply lexed_flush; [reflexivity|]
    | false =>
      let n := eval vm_compute in
        (cut_word (String a s)) in
      lazymatch n with
      | (?p, "") => apply (lexed_word w p); [reflexivity|]
      | (?p, ?q) => change (append (String a s) r) with (append p (append q r)); apply (lexed_word w p); [reflexivity|]
      end
    end
  | |- lexed (LWord _) (String _ _) _ _ => apply lexed_flush; [reflexivity|]
  | |- lexed (LStr false ?w) (append (String quote ?s) ?r) _ _ => change (append (String quote s) r) with (String quote (append s r)); apply lexed_quote
  | |- lexed (LStr false ?w) (append (String "034"%char ?s) ?r) _ _ =>
    change (append (String "034"%char s) r) with (String quote (append s r)); apply lexed_quote
  | |- lexed (LStr false _) (append _ _) _ _ => apply lexed_str; [solve [reflexivity | assumption | (apply word_plain, ident_word; assumption)]|]
  | |- lexed LComment (append _ _) _ _ => apply lexed_comment; [solve [reflexivity | assumption]|]
  | |- lexed ?st (append (String ?a ?s) ?r) _ _ => lx_const st (String a s) r
  | |- lexed ?st (String ?a ?s) _ _ =>
    let v := eval vm_compute in (scan st (String a s)) in
    lazymatch v with (?t, ?st1) => apply (lexed_last st (String a s) t st1); vm_cast_no_check (eq_refl (t, st1)) end
  | |- lexed (LSym _) (append _ _) _ _ => apply lexed_sym; [soft_tac|]
  | |- lexed (LWord _) (append _ _) _ _ => apply lexed_word; [solve [reflexivity | assumption | (apply ident_word; assumption)]|]
  | |- lexed LNone (append _ _) _ _ =>
    first [ (eapply lexed_piece; [piece_tac | reflexivity | ])
          | (apply lexed_ident; [ident_tac|]) ]
  end.
Ltac lx_prep := unfold nl; change (ascii_of_nat 10) with "010"%char; rewrite ?str_app_assoc; cbn [fst snd].
Ltac lx := lx_prep; repeat lx_step.

Ltac lexes_with toks := eapply lexed_eq; [solve [lx] | toks].

(** [injection] would compute *)
Lemma ok_inj : forall A (x y : A), GOk x = GOk y -> x = y.
Proof. intros A x y H. now injection H. Qed.

(** ** Writers *)
Definition emits (o : out) (ts : list token) : Prop := snd o = None -> lexed LNone (fst o) ts LNone.

Lemma emits_then : forall a b t1 t2, emits a t1 -> (snd a = None -> emits b t2) -> emits (a ;;; b)%out (t1 ++ t2).
Proof.
  intros [s [e|]] b t1 t2 A B; unfold emits in *; cbn [andthen fst snd] in *; [discriminate|]. intros H. eapply lexed_app; auto.
Qed.
Lemma emits_nothing : emits nothing [].
Proof. intros _. reflexivity. Qed.
Lemma emits_all : forall A (f : A -> out) (p : A -> list token) l, (forall x, In x l -> emits (f x) (p x)) -> emits (write_all f l) (flat_map p l).
Proof.
  intros A f p l. induction l as [|x l IH]; intros H; [apply emits_nothing|]. cbn [write_all flat_map]. apply emits_then.
  - apply H. now left.
  - intros _. apply IH. intros y I. apply H. now right.
Qed.
Lemma emits_when : forall b o t, (b = true -> emits o t) -> emits (when b o) (if b then t else []).
Proof. intros [] o t H; [auto|apply emits_nothing]. Qed.
Lemma emits_if_of : forall x a b t1 t2, (x = GOk true -> emits a t1) -> (x = GOk false -> emits b t2) ->
  emits (if_of x a b) (if or_else x false then t1 else t2).
Proof. intros [[]|e] a b t1 t2 H1 H2; cbn [if_of or_else]; auto. intros H. discriminate. Qed.
Lemma emits_write : forall s ts, lexed LNone s ts LNone -> emits (write s) ts.
Proof. intros s ts H _. exact H. Qed.
Lemma emits_writeln : forall s ts, lexed LNone (s ++ nl)%string ts LNone -> emits (writeln s) ts.
Proof. intros s ts H _. exact H. Qed.
Lemma emits_of : forall x ts, (forall s, x = GOk s -> lexed LNone (s ++ nl)%string ts LNone) -> emits (writeln_of x) ts.
Proof. intros [s|e] ts H; [exact (emits_writeln s ts (H s eq_refl))|intros D; discriminate]. Qed.
Lemma emits_eq : forall o t t', emits o t -> t = t' -> emits o t'.
Proof. intros; subst; assumption. Qed.
Lemma emits_fail : forall s e ts, emits (s, Some e) ts.
Proof. intros s e ts H. discriminate. Qed.

(** ** Numbers *)
Lemma gen_tag_nonneg : forall n t p, (0 <= gen_tag n t p)%Z.
Proof.
  intros n t p. unfold gen_tag. apply Z.lor_nonneg. split.
  - unfold wrapU. apply Z.mod_pos_bound. reflexivity.
  - unfold wire_type_num, wire_type_num_non_packed. destruct p, t; lia.
Qed.
Lemma field_tag_nonneg : forall f, (0 <= field_tag f)%Z.
Proof. intros. apply gen_tag_nonneg. Qed.
Lemma sizeof_nonneg : forall v, (0 <= gen_sizeof_varint v)%Z.
Proof. intros v. unfold gen_sizeof_varint. repeat match goal with |- context [if ?b then _ else _] => destruct b end; lia. Qed.
#[export] Hint Resolve gen_tag_nonneg field_tag_nonneg sizeof_nonneg : nonneg.

(** ** Sums *)
Definition print_terms (l : list rexp) : list token := sep_by (sym "+") print_exp l.
Lemma print_sum : forall l, l <> [] -> print_exp (sum_of l) = print_terms l.
Proof.
  intros [|x [|y l]] N; [contradiction|reflexivity|]. cbn [sum_of print_exp]. unfold print_terms.
  change (sep_by (sym "+") print_exp (x :: y :: l)) with (print_exp x ++ sym "+" ++ sep_by (sym "+") print_exp (y :: l)). f_equal.
  clear N. revert y. induction l as [|z l IH]; intros y.
  - cbn. now rewrite app_nil_r.
  - change (flat_map (fun e => sym "+" ++ print_exp e) (y :: z :: l)) with ((sym "+" ++ print_exp y) ++ flat_map (fun e => sym "+" ++ print_exp e) (z :: l)).
    rewrite IH, <- app_assoc. reflexivity.
Qed.
Lemma terms_cons : forall x l, l <> [] -> print_terms (x :: l) = print_exp x ++ sym "+" ++ print_terms l.
Proof. intros x [|y l] N; [contradiction|reflexivity]. Qed.
Lemma terms_app : forall a b, a <> [] -> b <> [] -> print_terms (a ++ b) = print_terms a ++ sym "+" ++ print_terms b.
Proof.
  intros a b N M. induction a as [|x a IH]; [contradiction|]. destruct a as [|y a].
  - cbn [app]. rewrite terms_cons by exact M. reflexivity.
  - change ((x :: y :: a) ++ b) with (x :: ((y :: a) ++ b)). rewrite terms_cons by (destruct b; discriminate).
    rewrite IH by discriminate. rewrite (terms_cons x (y :: a)) by discriminate. now rewrite <- !app_assoc.
Qed.
Lemma size_terms_cons : forall t s, size_terms t s <> [].
Proof. intros [] s; discriminate. Qed.
Lemma print_post : forall e ops, print_exp (post e ops) = print_exp e ++ flat_map print_op ops.
Proof. intros e ops; destruct e; try reflexivity. cbn [post print_exp]. now rewrite flat_map_app, app_assoc. Qed.

(** ** Paths *)
Lemma path_text_cons : forall x l, l <> [] -> path_text (x :: l) = (x ++ "::" ++ path_text l)%string.
Proof. intros x [|y l] N; [contradiction|reflexivity]. Qed.
Lemma concat_nil : forall x (l : list text), String.concat "" (x :: l) = (x ++ String.concat "" l)%string.
Proof. intros x [|y l]; cbn; [now rewrite str_app_nil|reflexivity]. Qed.
Lemma modules_text : forall module imported package x rest,
  (get_modules module imported package ++ x ++ rest)%string = (path_text (module_path module imported package ++ [x]) ++ rest)%string.
Proof.
  intros module imported package x rest. unfold get_modules, module_path.
  generalize (skipn (if String.eqb package "" && negb imported then 1 else 0)%nat (filter (fun p => negb (String.eqb p "")) (split_on "." module))).
  intros l. induction l as [|y l IH]; [reflexivity|].
  cbn [map app]. rewrite concat_nil, path_text_cons by (destruct l; discriminate). rewrite !str_app_assoc, IH. reflexivity.
Qed.
Lemma print_tpath : forall l gs, l <> [] -> print_ty (tpath l gs) = print_names l ++ match gs with [] => [] | _ => sym "<" ++ comma_sep print_garg gs ++ sym ">" end.
Proof.
  intros l gs N. unfold tpath. cbn [print_ty app]. induction l as [|x l IH]; [contradiction|]. destruct l as [|y l].
  - cbn [spath sep_by print_tseg print_names]. destruct gs; reflexivity.
  - change (spath (x :: y :: l) gs) with (PSeg x [] :: spath (y :: l) gs).
    assert (E : exists s r, spath (y :: l) gs = s :: r) by (destruct l; eexists _, _; reflexivity). destruct E as (s & r & E).
    rewrite E in *. change (sep_by (sym "::") print_tseg (PSeg x [] :: s :: r)) with (word x ++ sym "::" ++ sep_by (sym "::") print_tseg (s :: r)).
    rewrite IH by discriminate. reflexivity.
Qed.
Lemma print_epath : forall l, print_exp (epath l) = print_names l.
Proof.
  intros l. unfold epath. cbn [print_exp print_path app]. unfold print_path. cbn [app]. induction l as [|x l IH]; [reflexivity|]. destruct l as [|y l].
  - cbn [spath sep_by print_eseg print_turbofish print_names]. now rewrite app_nil_r.
  - change (spath (x :: y :: l) []) with (PSeg x [] :: spath (y :: l) []).
    assert (E : exists s r, spath (y :: l) [] = s :: r) by (destruct l; eexists _, _; reflexivity). destruct E as (s & r & E).
    rewrite E in *. change (sep_by (sym "::") print_eseg (PSeg x [] :: s :: r)) with ((word x ++ []) ++ sym "::" ++ sep_by (sym "::") print_eseg (s :: r)).
    rewrite IH. reflexivity.
Qed.
Lemma print_names_snoc : forall l x, l <> [] -> print_names (l ++ [x]) = print_names l ++ [TSym "::"; TWord x].
Proof.
  intros l x N. induction l as [|y l IH]; [contradiction|]. destruct l as [|z l]; [reflexivity|].
  change ((y :: z :: l) ++ [x]) with (y :: z :: (l ++ [x])). change (print_names (y :: z :: l ++ [x])) with (word y ++ sym "::" ++ print_names ((z :: l) ++ [x])).
  rewrite IH by discriminate. reflexivity.
Qed.
Lemma path_nonempty : forall a (x : text), a ++ [x] <> [].
Proof. intros [|y a] x; discriminate. Qed.
Ltac print_cbn :=
  unfold some, fn, ok_unit, on_writer; unfold tvec, tbytes, tresult, tstatic_str;
  unfold call, method, self_field, msg_field, num, zero, str, closure, result, run, var, tname, tapp,
    bind;
  cbn [print_exp print_stmt print_arm print_init print_op print_ty print_tseg print_garg print_eseg print_path print_turbofish
       print_pat print_unop print_names spath sep_by comma_sep flat_map map fst snd lts lt_args].
Ltac toks := print_cbn; unfold comma_sep, print_path, print_turbofish; cbn [sep_by map flat_map print_eseg print_tseg print_garg];
  repeat (first [rewrite print_epath | rewrite print_tpath by (first [discriminate | apply path_nonempty])]; unfold comma_sep; cbn [flat_map sep_by print_garg print_ty]);
  unfold print_names, comma_sep; cbn [sep_by];
  norm; rewrite ?app_nil_r; try reflexivity.
Ltac lexes := lexes_with toks.

(** ** What is asked of a schema *)

(** an identifier that is no keyword *)
Definition rust_name (s : text) : bool := ident s && ok_name s.
Lemma rust_name_ident : forall s, rust_name s = true -> ident s = true.
Proof. intros s H. apply andb_true_iff in H. apply H. Qed.
Lemma rust_names_ident : forall l, forallb rust_name l = true -> forallb ident l = true.
Proof. intros l. rewrite !forallb_forall. intros H x I. apply rust_name_ident; auto. Qed.
Definition soft_all (s : text) : Prop := forall b, b <> "/"%char -> soft b s.
Lemma soft_all_ident : forall s, ident s = true -> soft_all s.
Proof. intros s H b N. now apply soft_ident. Qed.
Lemma soft_all_app : forall s r, soft_all s -> soft_all (s ++ r)%string.
Proof. intros s r H b N. apply soft_app; auto. Qed.
Ltac soft_tac ::= first [ assumption
  | (match goal with H : soft_all ?s |- soft _ ?s => apply H; discriminate end)
  | (apply soft_ident; [discriminate | ident_tac])
  | (apply soft_num; [discriminate | apply show_nonneg; eauto with nonneg])
  | (eexists _, _; split; [reflexivity|reflexivity]) ].

Lemma split_text : forall s, path_text (split_on "." s) = replace_char "." "::" s.
Proof.
  induction s as [|a s IH]; [reflexivity|]. cbn [split_on replace_char]. destruct (Ascii.eqb a ".").
  - rewrite path_text_cons by (destruct s; cbn; [discriminate|destruct (Ascii.eqb a0 "."), (split_on "." s); discriminate]). cbn [append]. now rewrite IH.
  - destruct (split_on "." s) as [|p l] eqn:E.
    + exfalso. destruct s; cbn in E; [discriminate|destruct (Ascii.eqb a0 "."); [discriminate|destruct (split_on "." s); discriminate]].
    + rewrite <- IH. destruct l; reflexivity.
Qed.
Lemma path_text_app : forall a b, a <> [] -> b <> [] -> path_text (a ++ b) = (path_text a ++ "::" ++ path_text b)%string.
Proof.
  intros a b N M. induction a as [|x a IH]; [contradiction|]. destruct a as [|y a].
  - cbn [app]. rewrite path_text_cons by exact M. reflexivity.
  - change ((x :: y :: a) ++ b) with (x :: ((y :: a) ++ b)). rewrite path_text_cons by discriminate.
    rewrite IH by discriminate. rewrite (path_text_cons x (y :: a)) by discriminate. now rewrite !str_app_assoc.
Qed.
Lemma split_on_cons : forall s, split_on "." s <> [].
Proof. intros [|a s]; cbn; [discriminate|]. destruct (Ascii.eqb a "."), (split_on "." s); discriminate. Qed.
Lemma qualified_text : forall e s, fully_qualified e = GOk s -> exists p, qualified_value e = Some p /\ s = path_text p /\ p <> [].
Proof.
  intros e s H. unfold fully_qualified, partially_qualified, fmt, gbind, qualified_value in *. destruct (en_fields e) as [|(v, x) l]; [discriminate|].
  injection H as <-. eexists. split; [reflexivity|]. destruct (String.eqb (en_module e) "").
  - split; [reflexivity|discriminate].
  - split; [|destruct (split_on "." (en_module e)); discriminate]. rewrite path_text_app; [|apply split_on_cons|discriminate]. now rewrite split_text.
Qed.

Section Facts.
Variable g : gen_config.
Let c : config := g_passes g.
Variable d d0 : file_descriptor.
Hypothesis message_names : forall i m, get_message d i = Some m -> forallb rust_name (message_path d m) = true.
Hypothesis enum_names : forall q e, get_enum d q = Some e -> forallb rust_name (enum_path d e) = true.
Hypothesis value_names : forall q e p, get_enum d0 q = Some e -> qualified_value e = Some p -> forallb rust_name p = true.

(** what is known of a path *)
Lemma path_facts : forall l, l <> [] -> forallb rust_name l = true -> piece word_closer (path_text l) (print_names l) /\ soft_all (path_text l).
Proof.
  intros l N H. apply rust_names_ident in H. split; [now apply piece_path|]. intros b B. now apply soft_path.
Qed.
Lemma message_path_facts : forall i m, get_message d i = Some m ->
  piece word_closer (path_text (message_path d m)) (print_names (message_path d m)) /\ soft_all (path_text (message_path d m)).
Proof. intros i m G. apply path_facts; [apply path_nonempty|eauto]. Qed.
Lemma enum_path_facts : forall i m, get_enum d i = Some m ->
  piece word_closer (path_text (enum_path d m)) (print_names (enum_path d m)) /\ soft_all (path_text (enum_path d m)).
Proof. intros i m G. apply path_facts; [apply path_nonempty|eauto]. Qed.
Lemma message_text : forall m rest, (modules_of_message d m ++ m_name m ++ rest)%string = (path_text (message_path d m) ++ rest)%string.
Proof. intros. apply modules_text. Qed.
Lemma enum_text : forall m, (modules_of_enum d m ++ en_name m)%string = path_text (enum_path d m).
Proof. intros m. rewrite <- (str_app_nil (path_text (enum_path d m))), <- (str_app_nil (en_name m)). apply modules_text. Qed.

Lemma word_ends : forall w a, word_closer a = true -> step (LWord w) a = ([TWord w], start a).
Proof. intros w a H. apply word_boundary, closer_boundary, H. Qed.
Lemma sym_ends : forall b a, closer a = true -> existsb (Ascii.eqb b) [">"; ")"; "?"; "}"; "]"]%char = true -> step (LSym b) a = ([TSym (String b "")], start a).
Proof.
  intros b a H B. cbn [existsb] in B. rewrite !orb_true_iff in B.
  repeat (destruct B as [B|B]; [apply Ascii.eqb_eq in B; subst b; clear -H; every_char a|]). discriminate.
Qed.
(** a text that ends with a symbol or a word *)
Lemma piece_sym : forall h t b ts, lexed LNone h t (LSym b) -> existsb (Ascii.eqb b) [">"; ")"; "?"; "}"; "]"]%char = true -> t ++ [TSym (String b "")] = ts -> piece closer h ts.
Proof. intros h t b ts A B <-. apply (piece_lexed closer h t (LSym b) A). intros a H. now apply sym_ends. Qed.
Lemma piece_word : forall h t w ts, lexed LNone h t (LWord w) -> t ++ [TWord w] = ts -> piece word_closer h ts.
Proof. intros h t w ts A <-. apply (piece_lexed word_closer h t (LWord w) A). intros a H. now apply word_ends. Qed.
Lemma piece_none : forall C h t, lexed LNone h t LNone -> piece C h t.
Proof. intros C h t A. rewrite <- (app_nil_r t). apply (piece_lexed C h t LNone A). reflexivity. Qed.

(** ** Types *)
Ltac end_piece := first [eapply piece_closer, piece_word; [solve [lx]|solve [toks]] | eapply piece_sym; [solve [lx]|reflexivity|solve [toks]]].
Ltac start_soft := intros ? ?; eexists _, _; split; [reflexivity|apply soft_start; [reflexivity|assumption]].
Lemma type_piece : forall t s, type_text g d t = GOk s -> piece closer s (print_ty (type_ast g d t)) /\ soft_all s.
Proof.
  induction t as [| | | | | | | q | | | | | | | | i | n | | | | k IHk v IHv]; intros s' H; cbn [type_text type_ast] in *;
    try (apply ok_inj in H; subst s'; split; [end_piece|start_soft]; fail).
  - destruct (get_enum d q) as [e|] eqn:G; [|discriminate]. apply ok_inj in H; subst s'. rewrite enum_text. destruct (enum_path_facts q e G) as [P S].
    split; [|exact S]. apply piece_closer. rewrite print_tpath by apply path_nonempty. now rewrite app_nil_r.
  - destruct (get_message d i) as [m|] eqn:G; [|discriminate]. destruct (message_path_facts i m G) as [P S]. fold c in H.
    unfold gbind in H. fold c. destruct (message_has_lifetime c d (lifetime_fuel d) [] m) as [lt|]; [|discriminate]. apply ok_inj in H; subst s'. cbn [or_else].
    rewrite message_text. rewrite print_tpath by apply path_nonempty. split; [|now apply soft_all_app]. destruct lt; cbn [lt_args].
    + eapply piece_sym; [solve [lx]|reflexivity|]. toks.
    + rewrite str_app_nil, app_nil_r. now apply piece_closer.
  - discriminate.
  - unfold gbind in H. destruct (type_text g d k) as [k'|]; [|discriminate]. destruct (type_text g d v) as [v'|]; [|discriminate]. apply ok_inj in H; subst s'.
    destruct (IHk _ eq_refl) as [Pk Sk], (IHv _ eq_refl) as [Pv Sv]. split; [|start_soft].
    eapply piece_sym; [solve [lx]|reflexivity|]. toks.
Qed.

(** ** Reading *)
Lemma read_piece : forall t val cow, read_texts d t = GOk (val, cow) ->
  piece closer cow (print_exp (read_exp d t)) /\ soft_all cow /\ piece closer val (print_exp (read_boxed_exp d t)) /\ soft_all val.
Proof.
  intros t val cow H.
  assert (K : forall a b, read_texts d t = GOk (a, b) -> a = val -> b = cow -> 
    piece closer b (print_exp (read_exp d t)) /\ soft_all b /\ piece closer a (print_exp (read_boxed_exp d t)) /\ soft_all a);
    [|exact (K val cow H eq_refl eq_refl)].
  intros a b K Ea Eb. subst a b. clear H. unfold read_texts, read_boxed_exp, read_exp in *.
  destruct t as [| | | | | | | q | | | | | | | | i | n | | | | k v]; try discriminate;
    try (apply ok_inj in K; apply pair_equal_spec in K; destruct K as [Ka Kb]; subst val cow;
         repeat match goal with |- _ /\ _ => split end; try start_soft; end_piece; fail).
  destruct (get_message d i) as [m|] eqn:G; [|discriminate]. destruct (message_path_facts i m G) as [P S].
  apply ok_inj in K. apply pair_equal_spec in K. destruct K as [Ka Kb]. subst val cow. rewrite message_text.
  repeat match goal with |- _ /\ _ => split end; try start_soft.
  all: eapply piece_sym; [solve [lx]|reflexivity|]; toks.
Qed.

(** ** Sizes *)
(** [s] is the text of the expression [e], wherever it is put *)
Definition hole (s : text) (e : rexp) : Prop := piece word_closer s (print_exp e) /\ soft "&" s /\ soft "(" s.
Lemma hole_var : forall x, ident x = true -> hole x (var x).
Proof.
  intros x H. split; [|split; apply soft_ident; try discriminate; exact H]. unfold var. rewrite print_epath. now apply piece_ident.
Qed.
Lemma hole_self : forall x, ident x = true -> hole ("self." ++ x)%string (self_field x []).
Proof.
  intros x H. split; [|split; (eexists _, _; split; [reflexivity|reflexivity])].
  assert (L : lexed LNone ("self." ++ x ++ "")%string [TWord "self"; TSym "."] (LWord x)).
  { eapply lexed_eq; [|].
    - eapply (lexed_const LNone "self."); [reflexivity|]. apply lexed_sym; [apply soft_ident; [discriminate|exact H]|].
      apply lexed_ident; [exact H|]. apply lexed_end.
    - reflexivity. }
  rewrite str_app_nil in L. eapply piece_word; [exact L|]. toks.
Qed.
Lemma hole_star : forall x, ident x = true -> hole ("*" ++ x)%string (REUn UDeref (var x)).
Proof.
  intros x H. split; [|split; (eexists _, _; split; [reflexivity|reflexivity])].
  assert (L : lexed LNone ("*" ++ x ++ "")%string [TSym "*"] (LWord x)).
  { eapply lexed_eq; [|].
    - eapply (lexed_const LNone "*"); [reflexivity|]. apply lexed_sym; [apply soft_ident; [discriminate|exact H]|].
      apply lexed_ident; [exact H|]. apply lexed_end.
    - reflexivity. }
  rewrite str_app_nil in L. eapply piece_word; [exact L|]. toks.
Qed.
(** types whose size does not depend on the value, or that ignore the text *)
Definition ignores (t : field_type) : bool := is_fixed_size t || type_is_map t.
Lemma size_piece : forall t s e z, size_text t s = GOk z -> (ignores t = false -> hole s e) ->
  piece closer z (print_terms (size_terms t e)) /\ soft "(" z.
Proof.
  induction t as [| | | | | | | q | | | | | | | | i | n | | | | k IHk v IHv]; intros s e z H Ho; cbn [size_text size_terms] in *;
    try discriminate;
    try (apply ok_inj in H; subst z; split; [apply piece_num; reflexivity|eexists _, _; split; reflexivity]; fail);
    try (destruct (Ho eq_refl) as (P & S1 & S2); apply ok_inj in H; subst z; split; [|eexists _, _; split; reflexivity];
         eapply piece_sym; [solve [lx]|reflexivity|]; unfold print_terms; toks; fail).
  - (* String *) destruct (Ho eq_refl) as (P & S1 & S2); apply ok_inj in H; subst z; split; [|eexists _, _; split; reflexivity].
    eapply piece_sym; [solve [lx]|reflexivity|]. unfold print_terms. toks. rewrite print_post. toks.
  - (* Vec *) destruct (Ho eq_refl) as (P & S1 & S2); apply ok_inj in H; subst z; split; [|eexists _, _; split; reflexivity].
    eapply piece_sym; [solve [lx]|reflexivity|]. unfold print_terms. toks. rewrite print_post. toks.
  - unfold gbind in H. destruct (size_text k "k") as [k'|] eqn:Ek; [|discriminate]. destruct (size_text v "v") as [v'|] eqn:Ev; [|discriminate].
    apply ok_inj in H; subst z. destruct (IHk "k" (var "k") k' Ek) as [Pk Sk]; [intros _; now apply hole_var|].
    destruct (IHv "v" (var "v") v' Ev) as [Pv Sv]; [intros _; now apply hole_var|]. split; [|eexists _, _; split; reflexivity].
    rewrite terms_cons by (destruct k; discriminate). rewrite terms_app by apply size_terms_cons.
    rewrite <- (str_app_assoc k'), <- (str_app_assoc "2 + "). rewrite !app_assoc. eapply piece_app; [|exact Pv].
    eapply lexed_eq; [solve [lx]|]. toks.
Qed.

(** ** Writing *)
Lemma write_piece : forall t s e boxed w, write_text t s boxed = GOk w ->
  (type_is_map t = false -> piece word_closer s (print_exp e) /\ soft "(" s /\ (need_to_dereference t = true -> soft "&" s)) ->
  piece closer w (tl (print_op (write_op t e boxed))) /\ soft_all w /\ print_op (write_op t e boxed) = TSym "." :: tl (print_op (write_op t e boxed)).
Proof.
  induction t as [| | | | | | | q | | | | | | | | i | n | | | | k IHk v IHv]; intros s e boxed w H Ho; cbn [write_text write_op] in *;
    try discriminate;
    try (destruct (Ho eq_refl) as (P & S1 & S2); try specialize (S2 eq_refl); apply ok_inj in H; subst w; repeat match goal with |- _ /\ _ => split end;
         [eapply piece_sym; [solve [lx]|reflexivity|]; toks|start_soft|reflexivity]; fail).
  - destruct (Ho eq_refl) as (P & S1 & _). destruct boxed; apply ok_inj in H; subst w; repeat match goal with |- _ /\ _ => split end;
      [eapply piece_sym; [solve [lx]|reflexivity|]; toks|start_soft|reflexivity|eapply piece_sym; [solve [lx]|reflexivity|]; toks|start_soft|reflexivity].
  - unfold gbind in H. destruct (size_text (TMap k v) "") as [z|] eqn:Ez; [|discriminate].
    destruct (write_text k "k" false) as [k'|] eqn:Ek; [|discriminate]. destruct (write_text v "v" false) as [v'|] eqn:Ev; [|discriminate].
    apply ok_inj in H; subst w. destruct (size_piece _ _ zero _ Ez) as [Pz Sz]; [discriminate|].
    destruct (hole_var "k" eq_refl) as (K1 & K2 & K3). destruct (hole_var "v" eq_refl) as (V1 & V2 & V3).
    destruct (IHk "k" (var "k") false k' Ek) as (Pk & Sk & Tk); [auto|]. destruct (IHv "v" (var "v") false v' Ev) as (Pv & Sv & Tv); [auto|].
    repeat match goal with |- _ /\ _ => split end; [|start_soft|reflexivity].
    eapply piece_sym; [solve [lx]|reflexivity|]. 
    unfold on_writer, closure, method, num. cbn [print_op print_exp flat_map comma_sep sep_by tl app]. rewrite Tk, Tv.
    rewrite print_sum by apply size_terms_cons. toks.
Qed.

(** ** Defaults *)
Lemma piece_number : forall h n, lexed LNone h [] (LNum n) -> piece closer h [TNum n].
Proof. intros h n H. apply (piece_lexed closer h [] (LNum n) H). intros a A. now apply num_closer. Qed.
Lemma singular_piece : forall t s, singular_default d d0 t = GOk s -> piece closer s (print_exp (singular_default_exp d d0 t)).
Proof.
  intros t s H. destruct t as [| | | | | | | q | | | | | | | | i | n | | | | k v]; cbn [singular_default singular_default_exp] in *; try discriminate;
    try (apply ok_inj in H; subst s; first [apply piece_number; reflexivity | end_piece]; fail).
  - destruct (get_enum d0 q) as [e|] eqn:G; [|discriminate]. destruct (qualified_text e s H) as (p & Q & -> & N). rewrite Q, print_epath.
    apply piece_closer, path_facts; eauto.
  - destruct (get_message d i) as [m|] eqn:G; [|discriminate]. apply ok_inj in H; subst s. destruct (message_path_facts i m G) as [P S].
    rewrite message_text. eapply piece_sym; [solve [lx]|reflexivity|].
    unfold call. cbn [print_exp flat_map print_op comma_sep sep_by]. rewrite print_epath, print_names_snoc by apply path_nonempty. norm. reflexivity.
Qed.

(** what is asked of a field: its name, and that its default is the text of an
    expression *)
Definition default_text_ok (f : field) : Prop :=
  forall s, f_default f = Some s -> piece (if is_non_cow_string_or_byte (f_typ f) then word_closer else closer) s (print_exp (exp_of s)).
Lemma default_piece : forall f s, default_text_ok f -> default_text g d d0 f = GOk s -> piece closer s (print_exp (default_exp g d d0 f)).
Proof.
  intros f s D H. unfold default_text, default_exp in *. unfold default_text_ok in D. fold c in H. fold c.
  destruct (generated_type_of (f_freq f)).
  - destruct (f_boxed f); [apply ok_inj in H; subst s; end_piece|].
    destruct (freq_is_optional (f_freq f)); [apply ok_inj in H; subst s; end_piece|].
    destruct (f_default f) as [x|]; [|now apply singular_piece].
    specialize (D x eq_refl).
    destruct (f_typ f); cbn [is_non_cow_string_or_byte] in D; apply ok_inj in H; subst s; try exact D;
      (rewrite print_post; eapply piece_sym; [solve [lx]|reflexivity|]; toks).
  - destruct (f_is_packed f && is_fixed_size (f_typ f) && negb (c_dont_use_cow c)); apply ok_inj in H; subst s; end_piece.
  - apply ok_inj in H; subst s. end_piece.
Qed.

(** ** Fields *)
Ltac emit1 :=
  lazymatch goal with
  | |- emits (if ?b then _ else _) _ => fail
  | |- emits nothing _ => apply emits_nothing
  | |- emits (write _) _ => apply emits_write
  | |- emits (writeln _) _ => apply emits_writeln
  | |- emits (_, Some _) _ => apply emits_fail
  | |- emits (andthen _ _) _ => eapply emits_then; [|intros _]
  end.
Ltac emitting := eapply emits_eq; [repeat emit1; solve [lx]|].

Lemma field_type_piece : forall f s, field_type_text g d f = GOk s -> piece closer s (print_ty (field_type_ast g d f)) /\ soft_all s.
Proof.
  intros f s H. unfold field_type_text, fmt, gbind in H. destruct (type_text g d (f_typ f)) as [t|] eqn:E; [|discriminate].
  destruct (type_piece _ _ E) as [P S]. apply ok_inj in H; subst s. unfold field_type_ast. fold c. cbv zeta.
  destruct (f_boxed f); [split; [eapply piece_sym; [solve [lx]|reflexivity|]; toks|start_soft]|].
  destruct (generated_type_of (f_freq f)).
  - destruct (freq_is_optional (f_freq f)); [split; [eapply piece_sym; [solve [lx]|reflexivity|]; toks|start_soft]|auto].
  - destruct (f_is_packed f && is_fixed_size (f_typ f) && negb (c_dont_use_cow c));
      (split; [eapply piece_sym; [solve [lx]|reflexivity|]; toks|start_soft]).
  - auto.
Qed.
Lemma const_type_piece : forall f s, const_type_text g d f = GOk s -> piece closer s (print_ty (const_type g d f)) /\ (is_cow (f_typ f) = true -> soft "&" s).
Proof.
  intros f s H. unfold const_type_text, const_type in *. destruct (f_typ f) eqn:E; cbn [is_cow];
    try (destruct (type_piece _ _ H) as [P S]; split; [exact P|intros _; apply S; discriminate]);
    apply ok_inj in H; subst s; split; try discriminate.
  - eapply piece_closer, piece_word; [solve [lx]|toks].
  - eapply piece_sym; [solve [lx]|reflexivity|toks].
Qed.

Lemma sum_tag : forall f e, print_exp (sum_of (tag_size f :: size_terms (f_typ f) e)) = print_exp (tag_size f) ++ sym "+" ++ print_exp (sum_of (size_terms (f_typ f) e)).
Proof. intros f e. rewrite !print_sum, terms_cons by first [apply size_terms_cons | discriminate]. reflexivity. Qed.

(** the summands, each after a plus *)
Definition print_plus (e : rexp) : list token := sym "+" ++ print_exp e.
Lemma plus_terms : forall l, l <> [] -> flat_map print_plus l = sym "+" ++ print_terms l.
Proof.
  intros l N. induction l as [|x l IH]; [contradiction|]. destruct l as [|y l].
  - cbn [flat_map print_plus]. unfold print_terms, print_plus. cbn [sep_by]. now rewrite app_nil_r.
  - change (flat_map print_plus (x :: y :: l)) with (print_plus x ++ flat_map print_plus (y :: l)). rewrite IH by discriminate.
    rewrite (terms_cons x) by discriminate. unfold print_plus. now rewrite <- app_assoc.
Qed.

Section Field.
Variable f : field.
Hypothesis name_ok : ident (f_name f) = true.
Hypothesis default_ok : default_text_ok f.

Lemma getter_emits : emits (write_getter g d f) (flat_map print_item (getter_items g d f)).
Proof.
  unfold write_getter, getter_items, const_name. destruct (negb (must_generate_getter g d f)); [apply emits_nothing|].
  cbn [flat_map]. unfold fn. cbn [print_item]. unfold print_fn. cbn [fn_pub fn_name fn_generics fn_self fn_params fn_ret fn_body].
  unfold print_block. cbn [flat_map].
  match goal with |- context [print_stmt (result ?b)] => set (body := b) end.
  match goal with |- emits (_ ;;; ?b ;;; _)%out _ => set (bt := b) end.
  set (rt := if is_cow (f_typ f) then RTRef None false (const_type g d f) else const_type g d f).
  assert (B : emits bt (print_exp body)).
  { subst bt body. destruct (f_typ f); cbn [is_cow negb]; apply emits_writeln; lexes. }
  assert (R : emits (writeln_of (gbind (const_type_text g d f) (fun t => GOk ("    pub fn get_" ++ f_name f ++ "(&self) -> " ++ (if is_cow (f_typ f) then ("&" ++ t)%string else t) ++ " {")%string)))
    ([TWord "pub"; TWord "fn"; TWord ("get_" ++ f_name f)%string; TSym "("; TSym "&"; TWord "self"; TSym ")"; TSym "->"] ++ print_ty rt ++ [TSym "{"])).
  { apply emits_of. intros s H. unfold gbind in H. destruct (const_type_text g d f) as [t|] eqn:E; [|discriminate]. apply ok_inj in H; subst s.
    destruct (const_type_piece f t E) as [P S]. subst rt. destruct (is_cow (f_typ f)).
    - specialize (S eq_refl). lexes.
    - lexes. }
  clearbody bt body rt. eapply emits_eq.
  { apply emits_then; [exact R|intros _]. apply emits_then; [exact B|intros _]. apply emits_writeln. lx. }
  unfold result. cbn [print_stmt print_pub print_generics print_params print_self comma_sep sep_by]. norm. rewrite ?app_nil_r. reflexivity.
Qed.
Lemma const_emits : emits (write_custom_default g d f) (flat_map print_item (const_items g d f)).
Proof.
  unfold write_custom_default, const_items, const_name. fold c. destruct (negb (can_write_default_const (d_syntax d) c f)) ; [apply emits_nothing|].
  apply emits_of. intros s H. unfold gbind in H. destruct (const_type_text g d f) as [t|] eqn:E; [|discriminate].
  destruct (f_default f) as [x|] eqn:D; [|discriminate]. apply ok_inj in H; subst s. destruct (const_type_piece f t E) as [P _].
  assert (Px : piece closer x (print_exp (exp_of x))).
  { generalize (default_ok x D). destruct (is_non_cow_string_or_byte (f_typ f)); [apply piece_closer|auto]. }
  cbn [flat_map print_item print_pub]. lexes.
Qed.
(** initializers, each with a comma *)
Definition print_init_comma (i : rinit) : list token := print_init i ++ sym ",".
Lemma init_emits : emits (write_field_default g d d0 f) (flat_map print_init_comma (field_inits g d d0 f)).
Proof.
  unfold write_field_default, field_inits, hidden. fold c. destruct (f_deprecated f && negb (c_add_deprecated_fields c)); [apply emits_nothing|].
  apply emits_of. intros s H. unfold fmt, gbind in H. destruct (default_text g d d0 f) as [t|] eqn:E; [|discriminate]. apply ok_inj in H; subst s.
  pose proof (default_piece f t default_ok E) as P. unfold print_init_comma. cbn [flat_map print_init]. lexes.
Qed.
Lemma field_emits : emits (write_field_definition g d f) (flat_map print_field (struct_fields g d f)).
Proof.
  unfold write_field_definition, struct_fields, hidden. fold c. destruct (f_deprecated f && negb (c_add_deprecated_fields c)); [apply emits_nothing|].
  eapply emits_eq.
  - apply emits_then; [apply emits_when; intros _; apply emits_writeln; lx|]. intros _. apply emits_of. intros s H. unfold fmt, gbind in H.
    destruct (field_type_text g d f) as [t|] eqn:E; [|discriminate]. apply ok_inj in H; subst s. destruct (field_type_piece f t E) as [P S]. lx.
  - cbn [flat_map]. unfold print_field, deprecated_attr. cbn [rf_attrs rf_pub RustAst.rf_name rf_type print_pub]. destruct (f_deprecated f); cbn [flat_map print_attr]; toks.
Qed.
Ltac leaf T := eapply emits_eq; [apply emits_then; [exact T|intros _; apply emits_writeln; solve [lx]]|cbn [flat_map print_arm]; solve [toks]].
Lemma match_emits : emits (write_field_match_tag g d f) (flat_map print_arm (read_arms g d f)).
Proof.
  unfold write_field_match_tag, read_arms, hidden, tag_pattern, read_closure. fold c.
  destruct (f_deprecated f && negb (c_add_deprecated_fields c)); [apply emits_nothing|].
  destruct (if freq_is_map (f_freq f) then GOk ("", "") else read_texts d (f_typ f)) as [(val, cow)|] eqn:R; [|apply emits_fail].
  assert (K : freq_is_map (f_freq f) = false ->
    piece closer cow (print_exp (read_exp d (f_typ f))) /\ soft_all cow /\ piece closer val (print_exp (read_boxed_exp d (f_typ f))) /\ soft_all val).
  { intros M. rewrite M in R. now apply read_piece. }
  assert (T : emits (write ("                Ok(" ++ show (field_tag f) ++ ") => ")%string)
                [TWord "Ok"; TSym "("; TNum (show (field_tag f)); TSym ")"; TSym "=>"]) by (apply emits_write; lexes).
  set (nm := f_name f) in *.
  destruct (f_boxed f).
  { destruct (freq_is_map (f_freq f)).
    - injection R as <- <-. leaf T.
    - destruct (K eq_refl) as (P1 & S1 & P2 & S2). leaf T. }
  unfold generated_type_of. destruct (f_freq f) eqn:F; cbn [freq_is_map freq_is_repeated freq_is_optional] in *;
    try (destruct (K eq_refl) as (P1 & S1 & P2 & S2); leaf T; fail);
    try (destruct (K eq_refl) as (P1 & S1 & P2 & S2); destruct (f_is_packed f); [destruct (is_fixed_size (f_typ f))|]; leaf T; fail).
  all: destruct (f_typ f) as [| | | | | | | q | | | | | | | | i | n | | | | k v] eqn:Ty;
    try (intros D; unfold andthen, write in D; cbn [fst snd] in D; discriminate).
  all: eapply emits_eq; [apply emits_then; [exact T|intros _]; apply emits_then; [apply emits_writeln; solve [lx]|intros _];
    apply emits_then; [apply emits_of; intros s H; unfold gbind in H; destruct (read_texts d k) as [(k1, k2)|] eqn:Rk; [|discriminate];
      destruct (read_texts d v) as [(v1, v2)|] eqn:Rv; [|discriminate]; apply ok_inj in H; subst s; cbn [snd];
      destruct (read_piece _ _ _ Rk) as (Pk & Sk & _ & _); destruct (read_piece _ _ _ Rv) as (Pv & Sv & _ & _); solve [lx]
    |intros _; apply emits_then; [apply emits_writeln; solve [lx]|intros _; apply emits_writeln; solve [lx]]] | ].
  all: cbn [flat_map print_arm]; toks.
Qed.
Lemma fixed_ignores : forall t, is_fixed_size t = false -> type_is_map t = false -> ignores t = false.
Proof. intros t A B. unfold ignores. now rewrite A, B. Qed.
Lemma size_addition_piece : forall s e z, size_addition_text f s = GOk z -> (type_is_map (f_typ f) = false -> hole s e) ->
  piece closer z (print_terms (size_addition_terms f e)).
Proof.
  intros s e z H Ho. unfold size_addition_text, fmt, gbind in H.
  destruct (size_text (f_typ f) (if is_fixed_size (f_typ f) then "" else s)) as [x|] eqn:E; [|discriminate]. apply ok_inj in H; subst z.
  destruct (size_piece _ _ e _ E) as [P S].
  { intros I. unfold ignores in I. apply orb_false_iff in I. destruct I as [I1 I2]. rewrite I1. auto. }
  unfold size_addition_terms, tag_size. rewrite terms_cons by apply size_terms_cons.
  rewrite <- str_app_assoc, app_assoc. eapply piece_app; [|exact P]. lexes.
Qed.
Lemma terms_addition : forall e, print_terms (size_addition_terms f e) = print_exp (sum_of (size_addition_terms f e)).
Proof. intros e. symmetry. apply print_sum. discriminate. Qed.
(** fields that are not given by the generator: an optional map *)
Definition regular : Prop := freq_is_map (f_freq f) = false -> type_is_map (f_typ f) = false.
Hypothesis regular_ok : regular.
Lemma never_both : generated_type_of (f_freq f) = SingularType -> negb (has_presence f) = true -> freq_is_optional (f_freq f) = true -> False.
Proof.
  intros G H O. unfold has_presence in H. unfold regular in regular_ok. destruct (f_freq f); cbn in *; try discriminate;
    specialize (regular_ok eq_refl); destruct (f_typ f); discriminate.
Qed.
Lemma singular_not_map : generated_type_of (f_freq f) = SingularType -> type_is_map (f_typ f) = false.
Proof. intros G. apply regular_ok. destruct (f_freq f); cbn in *; try reflexivity; discriminate. Qed.
Ltac of_text := apply emits_of; let s := fresh "s" in let H := fresh "H" in intros s H; unfold fmt, gbind in H;
  repeat match type of H with
         | match ?x with GOk _ => _ | GErr _ => _ end = _ => let E := fresh "E" in destruct x eqn:E; [|discriminate H]
         end; apply ok_inj in H; subst s.
Lemma wire_cases : forall t, wire_type_num_non_packed t = 1%Z \/ wire_type_num_non_packed t = 5%Z \/
  forall A (x y z : A), match wire_type_num_non_packed t with 1%Z => x | 5%Z => y | _ => z end = z.
Proof. intros []; cbn; auto. Qed.
Lemma size_emits : emits (write_field_get_size g d d0 f) (flat_map print_plus (field_size_terms g d d0 f)).
Proof.
  unfold write_field_get_size, field_size_terms, hidden. fold c.
  destruct (f_deprecated f && negb (c_add_deprecated_fields c)); [apply emits_nothing|].
  cbv zeta. set (nm := f_name f) in *.
  assert (T : emits (write "        + ") (sym "+")) by (apply emits_write; lexes).
  pose proof (hole_var "m" eq_refl) as Hm. pose proof (hole_self nm name_ok) as Hs.
  destruct (generated_type_of (f_freq f)) eqn:G.
  - (* singular *)
    assert (Goal1 : emits (writeln_of (
      gbind (default_text g d d0 f) (fun def =>
      gbind (size_addition_text f "m") (fun m_size =>
      gbind (size_addition_text f ("self." ++ nm)%string) (fun self_size =>
      GOk match negb (has_presence f), freq_is_optional (f_freq f) with
          | true, true => ("self." ++ nm ++ ".as_ref().map_or(0, |" ++ maybe_deref_m f ++ "| if m != " ++ def ++ " { " ++ m_size ++ " } else { 0 }")%string
          | true, false => ("if self." ++ nm ++ " == " ++ def ++ " { 0 } else { " ++ self_size ++ " }")%string
          | false, true => ("self." ++ nm ++ ".as_ref().map_or(0, |" ++ maybe_deref_m f ++ "| " ++ m_size ++ ")")%string
          | false, false => self_size
          end)))))
      (print_terms (if has_presence f then
        if freq_is_optional (f_freq f)
        then [self_field nm [method "as_ref" []; method "map_or" [zero; closure [option_pat f] (sum_of (size_addition_terms f (var "m")))]]]
        else size_addition_terms f (self_field nm [])
      else [REIf (RECmp true (self_field nm []) (default_exp g d d0 f)) [result zero] (Some [result (sum_of (size_addition_terms f (self_field nm [])))])]))).
    { of_text.
      assert (Pm : piece closer a0 (print_terms (size_addition_terms f (var "m")))) by (eapply size_addition_piece; eauto).
      assert (Ps : piece closer a1 (print_terms (size_addition_terms f (self_field nm [])))) by (eapply size_addition_piece; eauto).
      pose proof (default_piece f a default_ok E) as Pd.
      destruct (has_presence f) eqn:HP; cbn [negb]; destruct (freq_is_optional (f_freq f)) eqn:O.
      - rewrite terms_addition in Pm. unfold maybe_deref_m, option_pat. destruct (f_boxed f || negb (is_primitive (f_typ f))); unfold print_terms; lexes.
      - eapply lexed_eq; [lx|]. now rewrite app_nil_r.
      - exfalso. apply never_both; auto. now rewrite HP.
      - rewrite terms_addition in Ps. unfold print_terms. lexes. }
    eapply emits_eq; [apply emits_then; [exact T|intros _; exact Goal1]|].
    rewrite plus_terms; [reflexivity|]. destruct (has_presence f), (freq_is_optional (f_freq f)); discriminate.
  - (* repeated *)
    destruct (f_is_packed f).
    + destruct (wire_cases (f_typ f)) as [W|[W|W]]; [rewrite W; emitting; unfold print_plus; cbn [flat_map]; solve [toks]..|].
      rewrite !W. eapply emits_eq.
      { apply emits_then; [exact T|intros _]. apply emits_then; [apply emits_write; solve [lx]|intros _]. of_text.
        destruct (size_piece _ _ (var "s") _ E (fun _ => hole_var "s" eq_refl)) as [P S]. rewrite <- print_sum in P by apply size_terms_cons. solve [lx]. }
      unfold print_plus. cbn [flat_map]. toks.
    + destruct (wire_cases (f_typ f)) as [W|[W|W]]; [rewrite W; emitting; unfold print_plus; cbn [flat_map]; solve [toks]..|].
      rewrite !W. unfold deref_pat, maybe_ampersand. destruct (need_to_dereference (f_typ f)).
      all: eapply emits_eq;
        [ apply emits_then; [exact T|intros _]; of_text;
          destruct (size_piece _ _ (var "s") _ E (fun _ => hole_var "s" eq_refl)) as [P S]; rewrite <- print_sum in P by apply size_terms_cons; solve [lx] |];
        unfold print_plus; cbn [flat_map]; toks; rewrite sum_tag; solve [toks].
  - (* a map *)
    destruct (f_typ f) as [| | | | | | | q | | | | | | | | i | n | | | | k v] eqn:Ty;
      try (intros D; unfold andthen, write in D; cbn [fst snd] in D; discriminate).
    unfold deref_pat, maybe_ampersand. destruct (need_to_dereference k), (need_to_dereference v).
    all: eapply emits_eq;
      [ apply emits_then; [exact T|intros _]; of_text;
        destruct (size_piece _ _ zero _ E) as [P S]; [discriminate|]; rewrite <- print_sum in P by apply size_terms_cons; solve [lx] |];
      unfold print_plus; cbn [flat_map]; solve [toks].
Qed.
Lemma paren_ends : forall a, word_closer a = true -> step (LSym ")") a = ([TSym ")"], start a).
Proof. intros a H. every_char a. Qed.
Lemma unwrapping_piece : forall s e eq, hole s e ->
  piece word_closer (unwrapping_text f eq s) (print_exp (unwrapping_exp f eq e)) /\ soft "(" (unwrapping_text f eq s) /\
  (need_to_dereference (f_typ f) = true -> soft "&" (unwrapping_text f eq s)).
Proof.
  intros s e eq (P & S1 & S2). unfold unwrapping_text, unwrapping_exp.
  assert (B : exists x y, x = (if f_boxed f then ("*(" ++ s ++ ")")%string else s) /\ y = (if f_boxed f then REUn UDeref (REParen e) else e) /\
    piece word_closer x (print_exp y) /\ soft "(" x /\ soft "&" x).
  { destruct (f_boxed f); eexists _, _; (split; [reflexivity|split; [reflexivity|]]); [|auto].
    split; [|split; (eexists _, _; split; [reflexivity|reflexivity])].
    replace (print_exp (REUn UDeref (REParen e))) with (([TSym "*"; TSym "("] ++ print_exp e) ++ flush (LSym ")")) by toks.
    apply piece_lexed; [|exact paren_ends]. eapply lexed_eq; [solve [lx]|]. toks. }
  destruct B as (x & y & <- & <- & Px & Sx1 & Sx2).
  assert (A : piece word_closer ("&" ++ x)%string (print_exp (REUn URef y)) /\ soft "(" ("&" ++ x)%string).
  { split; [|eexists _, _; split; [reflexivity|reflexivity]].
    destruct (piece_after word_closer "&" x "" (print_exp y) Sx2) as (t & st & Z & Z1 & Z2); [now rewrite str_app_nil|]. rewrite str_app_nil in Z.
    exists t, st. split; [|split; [rewrite Z1; reflexivity|exact Z2]].
    exact (lexed_app LNone "&" x [] (LSym "&") t st eq_refl Z). }
  destruct A as [A1 A2].
  destruct (need_to_dereference (f_typ f)) eqn:N, (is_cow (f_typ f)) eqn:C, (is_non_cow_string_or_byte (f_typ f)) eqn:O, (freq_is_optional (f_freq f)), eq;
    cbn [negb andb orb]; try (exfalso; destruct (f_typ f); discriminate); repeat match goal with |- _ /\ _ => split end; auto; try discriminate.
Qed.
Lemma method_piece : forall s e z, write_method_text f (unwrapping_text f false s) = GOk z -> (type_is_map (f_typ f) = false -> hole s e) ->
  piece closer z (print_exp (write_method_exp f (unwrapping_exp f false e) [])).
Proof.
  intros s e z H Ho. unfold write_method_text, fmt, gbind in H.
  destruct (write_text (f_typ f) (unwrapping_text f false s) (f_boxed f)) as [x|] eqn:E; [|discriminate]. apply ok_inj in H; subst z.
  destruct (write_piece _ _ (unwrapping_exp f false e) _ _ E) as (P & S & Q).
  { intros M. apply unwrapping_piece. auto. }
  assert (S' : soft "." x) by (apply S; discriminate).
  eapply piece_sym; [solve [lx]|reflexivity|]. unfold write_method_exp, write_with_tag. toks. rewrite Q. toks.
Qed.
Lemma method_try : forall e, print_exp (write_method_exp f e [OTry]) = print_exp (write_method_exp f e []) ++ sym "?".
Proof. intros e. unfold write_method_exp, write_with_tag. toks. Qed.
Lemma write_emits : emits (write_field_write g d d0 f) (flat_map print_stmt (field_writes g d d0 f)).
Proof.
  unfold write_field_write, field_writes, hidden. fold c.
  destruct (f_deprecated f && negb (c_add_deprecated_fields c)); [apply emits_nothing|].
  cbv zeta. set (nm := f_name f) in *.
  assert (T : emits (write "        ") []) by (apply emits_write; lexes).
  pose proof (hole_var "m" eq_refl) as Hm. pose proof (hole_self nm name_ok) as Hs.
  destruct (generated_type_of (f_freq f)) eqn:G.
  - (* singular *)
    eapply emits_eq; [apply emits_then; [exact T|intros _]|exact (app_nil_l _)].
    of_text.
    assert (Pm : piece closer a0 (print_exp (write_method_exp f (unwrapping_exp f false (var "m")) []))) by (eapply method_piece; eauto).
    assert (Ps : piece closer a1 (print_exp (write_method_exp f (unwrapping_exp f false (self_field nm [])) []))) by (eapply method_piece; eauto).
    pose proof (default_piece f a default_ok E) as Pd.
    destruct (unwrapping_piece _ _ true Hs) as (Pe & _).
    destruct (has_presence f) eqn:HP; cbn [negb]; destruct (freq_is_optional (f_freq f)) eqn:O.
    + unfold maybe_deref_m, option_pat. destruct (f_boxed f || negb (is_primitive (f_typ f))); cbn [flat_map]; lexes.
    + cbn [flat_map]. unfold run. print_cbn. rewrite method_try. lexes.
    + exfalso. apply never_both; auto. now rewrite HP.
    + cbn [flat_map]. unfold run. print_cbn. rewrite method_try. lexes.
  - (* repeated *)
    eapply emits_eq; [apply emits_then; [exact T|intros _]|exact (app_nil_l _)].
    destruct (f_is_packed f).
    + destruct (is_fixed_size (f_typ f)); [apply emits_writeln; cbn [flat_map]; lexes|].
      of_text. destruct (write_piece _ _ (var "m") _ _ E) as (P & S & Q); [intros _; destruct Hm as (A1 & A2 & A3); auto|].
      destruct (size_piece _ _ (var "m") _ E0 (fun _ => Hm)) as [Pz Sz]. rewrite <- print_sum in Pz by apply size_terms_cons.
      assert (S' : soft "." a) by (apply S; discriminate).
      set (o := write_op (f_typ f) _ _) in *. eapply lexed_eq; [solve [lx]|]. cbn [flat_map]. toks. rewrite Q. toks.
    + of_text. destruct (write_piece _ _ (if need_to_dereference (f_typ f) then REUn UDeref (var "s") else var "s") _ _ E) as (P & S & Q).
      { intros _. destruct (hole_var "s" eq_refl) as (A1 & A2 & A3). destruct (hole_star "s" eq_refl) as (B1 & B2 & B3).
        destruct (need_to_dereference (f_typ f)); auto. }
      assert (S' : soft "." a) by (apply S; discriminate).
      set (o := write_op (f_typ f) _ _) in *. eapply lexed_eq; [solve [lx]|]. cbn [flat_map]. unfold write_with_tag. toks. rewrite Q. toks.
  - (* a map *)
    eapply emits_eq; [apply emits_then; [exact T|intros _]|exact (app_nil_l _)].
    destruct (f_typ f) as [| | | | | | | q | | | | | | | | i | n | | | | k v] eqn:Ty;
      try (intros D; cbn [snd] in D; discriminate).
    of_text. destruct (write_piece _ _ zero _ _ E) as (P & S & Q); [discriminate|].
    assert (S' : soft "." a) by (apply S; discriminate). set (o := write_op _ _ _) in *.
    unfold deref_pat, maybe_ampersand, write_with_tag. destruct (need_to_dereference k), (need_to_dereference v).
    all: eapply lexed_eq; [solve [lx]|]; cbn [flat_map]; toks; rewrite Q; toks.
Qed.
End Field.
Lemma flat_map_flat_map : forall A B C (f : A -> list B) (h : B -> list C) l, flat_map h (flat_map f l) = flat_map (fun x => flat_map h (f x)) l.
Proof. intros. induction l as [|x l IH]; [reflexivity|]. cbn [flat_map]. now rewrite flat_map_app, IH. Qed.
Lemma flat_map_map : forall A B C (f : A -> B) (h : B -> list C) l, flat_map h (map f l) = flat_map (fun x => h (f x)) l.
Proof. intros. induction l as [|x l IH]; [reflexivity|]. cbn [map flat_map]. now rewrite IH. Qed.
(** a field whose reading is given is no map without the map label *)
Lemma read_regular : forall f, snd (write_field_match_tag g d f) = None -> hidden g f = true \/ regular f.
Proof.
  intros f H. unfold write_field_match_tag in H. unfold hidden. fold c in H |- *.
  destruct (f_deprecated f && negb (c_add_deprecated_fields c)); [auto|]. right. intros M. rewrite M in H.
  destruct (f_typ f); try reflexivity. cbn in H. discriminate.
Qed.
Lemma size_emits' : forall f, ident (f_name f) = true -> default_text_ok f -> snd (write_field_match_tag g d f) = None ->
  emits (write_field_get_size g d d0 f) (flat_map print_plus (field_size_terms g d d0 f)).
Proof.
  intros f N D R. destruct (read_regular f R) as [H|H]; [|eapply size_emits; eauto].
  unfold write_field_get_size, field_size_terms. rewrite H. unfold hidden in H. fold c in H |- *. rewrite H. apply emits_nothing.
Qed.
Lemma write_emits' : forall f, ident (f_name f) = true -> default_text_ok f -> snd (write_field_match_tag g d f) = None ->
  emits (write_field_write g d d0 f) (flat_map print_stmt (field_writes g d d0 f)).
Proof.
  intros f N D R. destruct (read_regular f R) as [H|H]; [|eapply write_emits; eauto].
  unfold write_field_write, field_writes. rewrite H. unfold hidden in H. fold c in H |- *. rewrite H. apply emits_nothing.
Qed.

Ltac itoks :=
  unfold default_impl, fn, derives, idents, oneof_name; cbn [print_item flat_map lts lt_args]; unfold print_field, print_variant, print_fn, print_block, print_lts, print_params, print_generics, print_self;
  cbn [rf_attrs rf_pub rf_name rf_type rv_attrs rv_name rv_payload fn_pub fn_name fn_generics fn_self fn_params fn_ret fn_body flat_map print_attr print_pub fst snd map];
  print_cbn; repeat (first [rewrite print_epath | rewrite print_tpath by (first [discriminate | apply path_nonempty | assumption])]); unfold comma_sep; cbn [flat_map sep_by print_garg print_ty];
  try rewrite !print_names_snoc by (first [discriminate | apply path_nonempty | assumption]); toks.
Ltac emit2 := first [emit1 | lazymatch goal with |- emits (if_of _ _ _) _ => eapply emits_if_of; intros _ end].
Ltac emitting2 := eapply emits_eq; [repeat emit2; solve [lx]|].

(** ** Oneofs *)
Section Oneof.
Variable o : oneof.
Hypothesis o_name_ok : ident (o_name o) = true.
Hypothesis o_path_ok : forallb rust_name (oneof_path d o) = true.
Hypothesis o_fields_ok : forall f, In f (o_fields o) -> ident (f_name f) = true.
Lemma oneof_piece : piece word_closer (oneof_type d o) (print_names (oneof_path d o)).
Proof.
  replace (oneof_type d o) with (path_text (oneof_path d o)); [apply path_facts; [apply path_nonempty|exact o_path_ok]|].
  rewrite <- (str_app_nil (path_text _)). unfold oneof_path. rewrite <- modules_text. unfold oneof_type, modules_of_oneof. now rewrite str_app_nil.
Qed.
Lemma oneof_path_nonempty : oneof_path d o <> [].
Proof. apply path_nonempty. Qed.
Lemma shown_ok : forall f, In f (oneof_shown g o) -> ident (f_name f) = true.
Proof. intros f I. apply filter_In in I. now apply o_fields_ok. Qed.
Lemma oneof_init_emits : emits (write_oneof_default d o) (print_init (oneof_init d o) ++ sym ",").
Proof.
  pose proof oneof_piece as P. pose proof oneof_path_nonempty as NE. apply emits_writeln. unfold oneof_init. eapply lexed_eq; [solve [lx]|]. itoks.
Qed.
Lemma oneof_definition_emits : emits (write_oneof_message_definition g d o) (print_field (oneof_field g d o)).
Proof.
  pose proof oneof_piece as P. pose proof oneof_path_nonempty as NE. unfold write_oneof_message_definition, oneof_field, oneof_lt. fold c.
  emitting2. destruct (or_else _ _); itoks.
Qed.
Lemma oneof_read_emits : emits (write_oneof_match_tag g d o) (flat_map print_arm (oneof_read_arms g d o)).
Proof.
  pose proof oneof_piece as P. pose proof oneof_path_nonempty as NE. unfold write_oneof_match_tag, oneof_read_arms. rewrite flat_map_map. apply emits_all. intros f I.
  pose proof (shown_ok f I) as N.
  apply emits_of. intros s H. unfold gbind in H. destruct (read_texts d (f_typ f)) as [(val, cow)|] eqn:R; [|discriminate].
  destruct (read_piece _ _ _ R) as (P1 & S1 & P2 & S2). apply ok_inj in H; subst s. unfold tag_pattern.
  destruct (f_boxed f); (eapply lexed_eq; [solve [lx]|]); itoks.
Qed.

Lemma oneof_size_emits : emits (write_oneof_get_size g d o) (print_plus (oneof_size g d o)).
Proof.
  pose proof oneof_piece as P. pose proof oneof_path_nonempty as NE. unfold write_oneof_get_size, oneof_size.
  eapply emits_eq.
  - eapply emits_then; [apply emits_writeln; solve [lx]|intros _]. eapply emits_then; [|intros _; repeat emit2; solve [lx]].
    apply (emits_all _ _ (fun f => print_arm (
       if is_fixed_size (f_typ f)
       then RArm (oneof_pattern d o f RPWild) (sum_of (tag_size f :: size_terms (f_typ f) zero)) true
       else if need_to_dereference (f_typ f)
       then RArm (oneof_pattern d o f (bind "m")) (sum_of (tag_size f :: size_terms (f_typ f) (REUn UDeref (var "m")))) true
       else RArm (oneof_pattern d o f (RPBind true false "m")) (sum_of (tag_size f :: size_terms (f_typ f) (var "m"))) true))).
    intros f I. pose proof (shown_ok f I) as N. apply emits_of. intros s H. unfold fmt, gbind, oneof_pattern in *.
    destruct (is_fixed_size (f_typ f)) eqn:Fx; [|destruct (need_to_dereference (f_typ f))].
    + destruct (size_text (f_typ f) "") as [z|] eqn:E; [|discriminate]. apply ok_inj in H; subst s.
      destruct (size_piece _ _ zero _ E) as [Pz _]; [unfold ignores; rewrite Fx; discriminate|].
      rewrite <- print_sum in Pz by apply size_terms_cons.
      eapply lexed_eq; [solve [lx]|]. cbn [print_arm]. rewrite sum_tag. itoks.
    + destruct (size_text (f_typ f) "*m") as [z|] eqn:E; [|discriminate]. apply ok_inj in H; subst s.
      destruct (size_piece _ _ (REUn UDeref (var "m")) _ E (fun _ => hole_star "m" eq_refl)) as [Pz _]. 
      rewrite <- print_sum in Pz by apply size_terms_cons.
      eapply lexed_eq; [solve [lx]|]. cbn [print_arm]. rewrite sum_tag. itoks.
    + destruct (size_text (f_typ f) "m") as [z|] eqn:E; [|discriminate]. apply ok_inj in H; subst s.
      destruct (size_piece _ _ (var "m") _ E (fun _ => hole_var "m" eq_refl)) as [Pz _]. 
      rewrite <- print_sum in Pz by apply size_terms_cons.
      eapply lexed_eq; [solve [lx]|]. cbn [print_arm]. rewrite sum_tag. itoks.
  - unfold print_plus, oneof_none. print_cbn. rewrite flat_map_app, flat_map_map. cbn [flat_map]. itoks.
Qed.
Lemma oneof_write_emits : emits (write_oneof_write g d o) (print_stmt (oneof_write g d o)).
Proof.
  pose proof oneof_piece as P. pose proof oneof_path_nonempty as NE. unfold write_oneof_write, oneof_write.
  eapply emits_eq.
  - eapply emits_then; [apply emits_writeln; solve [lx]|intros _]. eapply emits_then; [|intros _; repeat emit2; solve [lx]].
    apply (emits_all _ _ (fun f => print_arm (
       RArm (oneof_pattern d o f (bind "m")) (REBlock [result (write_with_tag f
         (write_op (f_typ f) (if need_to_dereference (f_typ f) || f_boxed f then REUn UDeref (var "m") else var "m") (f_boxed f)) [OTry])]) true))).
    intros f I. pose proof (shown_ok f I) as N. apply emits_of. intros s H. unfold fmt, gbind, oneof_pattern in *.
    destruct (write_text _ _ _) as [w|] eqn:E; [|discriminate]. apply ok_inj in H; subst s.
    destruct (write_piece _ _ (if need_to_dereference (f_typ f) || f_boxed f then REUn UDeref (var "m") else var "m") _ _ E) as (Pw & S & Q).
    { intros _. destruct (hole_var "m" eq_refl) as (A1 & A2 & A3). destruct (hole_star "m" eq_refl) as (B1 & B2 & B3).
      destruct (need_to_dereference (f_typ f) || f_boxed f); auto. }
    assert (S' : soft "." w) by (apply S; discriminate). set (op := write_op _ _ _) in *. unfold write_with_tag.
    eapply lexed_eq; [solve [lx]|]. itoks. rewrite Q. toks.
  - unfold oneof_none. print_cbn. rewrite flat_map_app, flat_map_map. cbn [flat_map]. itoks.
Qed.
Lemma oneof_variant_emits : forall f, In f (o_fields o) ->
  emits (if f_deprecated f && negb (c_add_deprecated_fields c) then nothing else
    (when (f_deprecated f) (writeln "    #[deprecated]") ;;;
    writeln_of (fmt (type_text g d (f_typ f)) (fun t =>
      if f_boxed f then ("    " ++ f_name f ++ "(Box<" ++ t ++ ">),")%string else ("    " ++ f_name f ++ "(" ++ t ++ "),")%string)))%out)
  (flat_map print_variant (oneof_variant g d o f)).
Proof.
  intros f I. pose proof (o_fields_ok f I) as N. unfold oneof_variant, hidden. fold c.
  destruct (f_deprecated f && negb (c_add_deprecated_fields c)); [apply emits_nothing|].
  eapply emits_eq.
  - apply emits_then; [apply emits_when; intros _; apply emits_writeln; solve [lx]|intros _].
    apply (emits_of _ (TWord (f_name f) :: TSym "(" :: print_ty (if f_boxed f then tapp "Box" [GType (type_ast g d (f_typ f))] else type_ast g d (f_typ f)) ++ [TSym ")"; TSym ","])).
    intros s H. unfold fmt, gbind in H. destruct (type_text g d (f_typ f)) as [t|] eqn:E; [|discriminate]. apply ok_inj in H; subst s.
    destruct (type_piece _ _ E) as [P S].
    assert (S1 : soft "(" t) by (apply S; discriminate). assert (S2 : soft "<" t) by (apply S; discriminate).
    destruct (f_boxed f); (eapply lexed_eq; [solve [lx]|]); toks.
  - unfold deprecated_attr. cbn [flat_map]. unfold print_variant. cbn [rv_attrs rv_name rv_payload]. destruct (f_deprecated f); itoks.
Qed.
Lemma oneof_emits : emits (write_oneof g d o) (flat_map print_item (oneof_items g d o)).
Proof.
  unfold write_oneof, write_oneof_definition, write_oneof_impl_default, oneof_items, oneof_lt. fold c.
  eapply emits_eq.
  - apply emits_then; [apply emits_writeln; solve [lx]|intros _].
    apply emits_then; [|intros _; repeat emit2; solve [lx]].
    apply emits_then; [apply emits_writeln; solve [lx]|intros _].
    apply emits_then; [repeat emit2; solve [lx]|intros _].
    apply emits_then; [|intros _; repeat emit2; solve [lx]].
    apply emits_all. exact oneof_variant_emits.
  - cbn [flat_map]. destruct (or_else _ _); itoks; rewrite flat_map_app, flat_map_flat_map; itoks.
Qed.
End Oneof.

(** ** Enums *)
Section Enum.
Variables e e0 : enumerator.
Hypothesis e_name_ok : ident (en_name e) = true.
Hypothesis e_fields_ok : forall f, In f (en_fields e) -> ident (fst f) = true.
Hypothesis e0_ok : ident (en_name e0) = true /\ forall v x l, en_fields e0 = (v, x) :: l -> ident v = true.
Lemma signed : forall z, (if negative z then sym "-" else []) ++ [TNum (show (Z.abs z))] = num_tokens z.
Proof. intros z. unfold negative, num_tokens. destruct (z <? 0)%Z eqn:L; [rewrite Z.abs_neq by lia|rewrite Z.abs_eq by lia]; reflexivity. Qed.
Lemma enum_definition_emits : emits (write_enum_definition e) (print_item (enum_definition e)).
Proof.
  unfold write_enum_definition, enum_definition. eapply emits_eq.
  - repeat (apply emits_then; [apply emits_writeln; solve [lx]|intros _]). 
    apply emits_then; [|intros _; apply emits_writeln; solve [lx]].
    apply (emits_all _ _ (fun f => print_variant (mkRVariant [] (fst f) (VNum (negative (snd f)) (show (Z.abs (snd f))))))).
    intros f I. pose proof (e_fields_ok f I) as N. apply emits_writeln. eapply lexed_eq; [solve [lx]|].
    unfold print_variant. cbn [rv_attrs rv_name rv_payload flat_map]. rewrite <- signed. toks.
  - itoks. rewrite flat_map_map. toks.
Qed.
Lemma enum_default_emits : emits (write_enum_default e e0) (print_item (default_impl [] (tname (en_name e)) (enum_default_value e0))).
Proof.
  destruct e0_ok as [N0 F0]. unfold write_enum_default, partially_qualified, enum_default_value.
  destruct (en_fields e0) as [|(v, x) l] eqn:F.
  - intros H. cbn in H. discriminate.
  - assert (Nv : ident v = true) by (eapply F0; reflexivity).
    cbn [fmt gbind]. eapply emits_eq; [repeat emit1; [solve [lx]..| | |]; try solve [lx]; apply emits_of; intros s H; apply ok_inj in H; subst s; solve [lx]|]. itoks.
Qed.
Lemma enum_number_emits : emits (write_enum_from_i32 e) (print_item (from_impl e [] (tname "i32") "i"
     (map (fun f => RArm (RPNum (negative (snd f)) (show (Z.abs (snd f)))) (epath [en_name e; fst f]) true) (en_fields e)))).
Proof.
  unfold write_enum_from_i32, from_impl. eapply emits_eq.
  - repeat (apply emits_then; [apply emits_writeln; solve [lx]|intros _]). 
    apply emits_then; [|intros _; repeat emit1; solve [lx]].
    apply (emits_all _ _ (fun f => print_arm (RArm (RPNum (negative (snd f)) (show (Z.abs (snd f)))) (epath [en_name e; fst f]) true))).
    intros f I. pose proof (e_fields_ok f I) as N. apply emits_writeln. eapply lexed_eq; [solve [lx]|].
    print_cbn. rewrite signed. toks.
  - itoks. rewrite flat_map_app, flat_map_map. itoks.
Qed.
Lemma enum_text_emits : emits (write_enum_from_str e) (print_item (from_impl e ["a"] (RTRef (Some "a") false (tname "str")) "s"
     (map (fun f => RArm (RPStr (fst f)) (epath [en_name e; fst f]) true) (en_fields e)))).
Proof.
  unfold write_enum_from_str, from_impl. eapply emits_eq.
  - repeat (apply emits_then; [apply emits_writeln; solve [lx]|intros _]). 
    apply emits_then; [|intros _; repeat emit1; solve [lx]].
    apply (emits_all _ _ (fun f => print_arm (RArm (RPStr (fst f)) (epath [en_name e; fst f]) true))).
    intros f I. pose proof (e_fields_ok f I) as N. apply emits_writeln. unfold quoted.
    change (String (ascii_of_nat 34) (fst f ++ String (ascii_of_nat 34) "")%string) with (String quote "" ++ (fst f ++ String quote ""))%string.
    eapply lexed_eq; [solve [lx]|]. toks.
  - itoks. rewrite flat_map_app, flat_map_map. itoks.
Qed.
Lemma enum_emits : emits (write_enum e e0) (flat_map print_item (enum_items e e0)).
Proof.
  unfold write_enum, enum_items, enum_impls. eapply emits_eq.
  - apply emits_then; [apply emits_writeln; solve [lx]|intros _].
    apply emits_then; [apply enum_definition_emits|intros _].
    apply emits_then; [apply emits_writeln; solve [lx]|intros _].
    assert (A : emits match en_fields e with
      | [] => nothing
      | _ => (write_enum_default e e0 ;;; writeln "" ;;; write_enum_from_i32 e ;;; writeln "" ;;; write_enum_from_str e)%out end
      (flat_map print_item match en_fields e with [] => [] | _ => enum_impls e e0 end)).
    { pose proof enum_default_emits as A1. pose proof enum_number_emits as A2. pose proof enum_text_emits as A3. unfold enum_impls.
      destruct (en_fields e); [apply emits_nothing|]. eapply emits_eq.
      - apply emits_then; [exact A1|intros _]. apply emits_then; [apply emits_writeln; solve [lx]|intros _].
        apply emits_then; [exact A2|intros _]. apply emits_then; [apply emits_writeln; solve [lx]|intros _]. exact A3.
      - cbn [flat_map]. rewrite !app_nil_r. reflexivity. }
    exact A.
  - reflexivity.
Qed.
End Enum.

(** ** Messages *)
Definition field_ok (f : field) : Prop := ident (f_name f) = true /\ default_text_ok f.
Definition oneof_ok (o : oneof) : Prop :=
  ident (o_name o) = true /\ forallb rust_name (oneof_path d o) = true /\ forall f, In f (o_fields o) -> ident (f_name f) = true.
(** a text inside an attribute that the reader splits into its tokens *)
Definition attr_text (x : text) : Prop := piece closer x (tokens_of x) /\ soft "(" x.
Lemma emits_all_ok : forall A (f : A -> out) l, snd (write_all f l) = None -> forall x, In x l -> snd (f x) = None.
Proof.
  intros A f l. induction l as [|y l IH]; intros H x []; cbn [write_all] in H; unfold andthen in H;
    destruct (f y) as [s [e|]] eqn:E; cbn [snd] in H; try discriminate.
  - subst. now rewrite E.
  - apply IH; auto.
Qed.
Lemma print_sum_plus : forall x l, print_exp (sum_of (x :: l)) = print_exp x ++ flat_map print_plus l.
Proof.
  intros x [|y l]; rewrite print_sum by discriminate; [now rewrite app_nil_r|].
  rewrite plus_terms by discriminate. now rewrite terms_cons by discriminate.
Qed.
Lemma inits_commas : forall l, l <> [] -> comma_sep print_init l ++ sym "," = flat_map print_init_comma l.
Proof.
  intros l N. induction l as [|x l IH]; [contradiction|]. destruct l as [|y l]; [cbn; unfold print_init_comma; now rewrite app_nil_r|].
  change (comma_sep print_init (x :: y :: l)) with (print_init x ++ sym "," ++ comma_sep print_init (y :: l)).
  rewrite <- !app_assoc, IH by discriminate. cbn [flat_map]. unfold print_init_comma. now rewrite <- !app_assoc.
Qed.

Lemma each_emits : forall A B (f : A -> out) (p : A -> list B) (q : B -> list token) l, (forall x, In x l -> emits (f x) (flat_map q (p x))) ->
  emits (write_all f l) (flat_map q (flat_map p l)).
Proof. intros A B f p q l H. rewrite flat_map_flat_map. now apply emits_all. Qed.
Lemma map_emits : forall A B (f : A -> out) (p : A -> B) (q : B -> list token) l, (forall x, In x l -> emits (f x) (q (p x))) ->
  emits (write_all f l) (flat_map q (map p l)).
Proof. intros A B f p q l H. rewrite flat_map_map. now apply emits_all. Qed.
Lemma then_ok : forall a b, snd (a ;;; b)%out = None -> snd a = None /\ snd b = None.
Proof. intros [s [e|]] b H; cbn [andthen snd] in H; [discriminate|auto]. Qed.
Lemma emits_only : forall b o l, (b = true -> emits o (flat_map print_item l)) -> emits (when b o) (flat_map print_item (only b l)).
Proof. intros [] o l H; [auto|apply emits_nothing]. Qed.
Lemma emits_blank : forall o t, emits o t -> emits (o ;;; writeln "")%out t.
Proof. intros o t H. eapply emits_eq; [apply emits_then; [exact H|intros _; apply emits_writeln; solve [lx]]|]. now rewrite app_nil_r. Qed.

Section Message.
Variable m : message.
Hypothesis m_name_ok : ident (m_name m) = true.
Hypothesis m_fields_ok : forall f, In f (m_fields m) -> field_ok f.
Hypothesis m_oneofs_ok : forall o, In o (m_oneofs m) -> oneof_ok o.
Hypothesis m_module_ok : all_chars plain_char (m_module m) = true.
Hypothesis m_derive_ok : attr_text (derive_text g d m ++ "Debug, PartialEq, Clone")%string.
Hypothesis m_repr_ok : match g_repr g with Some r => attr_text r | None => True end.

Ltac mtoks := unfold inherent_impl, own_type, own_lt; cbn [print_item flat_map lts lt_args];
  try (match goal with |- context [or_else ?a ?b] => destruct (or_else a b) end); itoks.

Lemma consts_emits : emits (write_default_consts g d m) (flat_map print_item (consts_items g d m)).
Proof.
  unfold write_default_consts, consts_items. fold c. destruct (d_syntax d) eqn:Sx; [|apply emits_nothing].
  destruct (negb _); [apply emits_nothing|]. eapply emits_eq.
  - apply emits_then; [repeat emit2; solve [lx]|intros _]. apply emits_then; [|intros _; repeat emit2; solve [lx]].
    apply (each_emits _ _ _ (const_items g d) print_item). intros f I. destruct (m_fields_ok f I). eapply const_emits; eauto.
  - mtoks.
Qed.
Lemma getters_emits : emits (write_getters g d m) (flat_map print_item (getters_items g d m)).
Proof.
  unfold write_getters, getters_items. eapply emits_eq.
  - apply emits_then; [repeat emit2; solve [lx]|intros _]. apply emits_then; [|intros _; repeat emit2; solve [lx]].
    apply (each_emits _ _ _ (getter_items g d) print_item). intros f I. destruct (m_fields_ok f I). eapply getter_emits; eauto.
  - mtoks.
Qed.
Lemma derive_line : emits (writeln ("#[derive(" ++ derive_text g d m ++ "Debug, PartialEq, Clone)]")%string)
  (print_attr (derives (tokens_of (derive_text g d m ++ "Debug, PartialEq, Clone")%string))).
Proof.
  apply emits_writeln. change "Debug, PartialEq, Clone)]" with ("Debug, PartialEq, Clone" ++ ")]")%string. rewrite <- (str_app_assoc (derive_text g d m)).
  destruct m_derive_ok as [P S]. set (x := (derive_text g d m ++ _)%string) in *. clearbody x.
  eapply lexed_eq; [solve [lx]|]. itoks.
Qed.
Lemma repr_line : emits match g_repr g with Some r => writeln ("#[repr(" ++ r ++ ")]")%string | None => nothing end
  (flat_map print_attr match g_repr g with Some r => [RAttr "repr" (Some (tokens_of r))] | None => [] end).
Proof.
  destruct (g_repr g) as [r|]; [|apply emits_nothing]. destruct m_repr_ok as [P S]. apply emits_writeln. eapply lexed_eq; [solve [lx]|]. itoks.
Qed.
Lemma definition_emits : emits (write_definition g d m) (print_item (definition_item g d m)).
Proof.
  unfold write_definition, definition_item.
  assert (A : forall o t, emits o t -> emits (writeln "#[allow(clippy::derive_partial_eq_without_eq)]" ;;;
    writeln ("#[derive(" ++ derive_text g d m ++ "Debug, PartialEq, Clone)]")%string ;;;
    match g_repr g with Some r => writeln ("#[repr(" ++ r ++ ")]")%string | None => nothing end ;;; o)%out (flat_map print_attr (message_attrs g d m) ++ t)).
  { intros o t H. eapply emits_eq.
    - apply emits_then; [apply emits_writeln; solve [lx]|intros _]. apply emits_then; [exact derive_line|intros _]. apply emits_then; [exact repr_line|intros _; exact H].
    - unfold message_attrs. rewrite flat_map_app. cbn [flat_map]. itoks. }
  destruct (is_unit m).
  - eapply emits_eq; [apply A; apply emits_writeln; solve [lx]|]. itoks.
  - eapply emits_eq; [apply A|].
    + apply emits_then; [repeat emit2; solve [lx]|intros _]. apply emits_then; [|intros _; apply emits_then; [|intros _; repeat emit2; solve [lx]]].
      * apply (each_emits _ _ _ (struct_fields g d) print_field). intros f I. destruct (m_fields_ok f I). eapply field_emits; eauto.
      * apply (map_emits _ _ _ (oneof_field g d) print_field). intros o I. destruct (m_oneofs_ok o I) as (O1 & O2 & O3). eapply oneof_definition_emits; eauto.
    + cbn [print_item]. rewrite flat_map_app. mtoks.
Qed.
Lemma default_emits : emits (write_impl_default g d d0 m) (print_item (message_default g d d0 m)).
Proof.
  unfold write_impl_default, message_default. destruct (is_unit m); [eapply emits_eq; [repeat emit2; solve [lx]|itoks]|].
  set (inits := flat_map (field_inits g d d0) (m_fields m) ++ map (oneof_init d) (m_oneofs m)).
  eapply emits_eq.
  - apply emits_then; [repeat emit2; solve [lx]|intros _]. 
    repeat (apply emits_then; [apply emits_writeln; solve [lx]|intros _]).
    apply emits_then; [|intros _; apply emits_then; [|intros _; repeat emit2; solve [lx]]].
    + apply (each_emits _ _ _ (field_inits g d d0) print_init_comma). intros f I. destruct (m_fields_ok f I). eapply init_emits; eauto.
    + apply (map_emits _ _ _ (oneof_init d) print_init_comma). intros o I. destruct (m_oneofs_ok o I) as (O1 & O2 & O3). eapply oneof_init_emits; eauto.
  - assert (E : print_exp (REStruct [PSeg "Self" []] inits match inits with [] => false | _ => true end) =
      TWord "Self" :: TSym "{" :: flat_map print_init_comma inits ++ [TSym "}"]).
    { cbn [print_exp]. destruct inits as [|x l] eqn:I; [reflexivity|]. rewrite inits_commas by discriminate. reflexivity. }
    set (st := REStruct _ _ _) in *. clearbody st. unfold own_type, own_lt. 
    destruct (or_else _ _); itoks; rewrite E; unfold inits; rewrite flat_map_app; norm; reflexivity.
Qed.
Lemma info_emits : emits (write_impl_message_info g d m) (print_item (message_info g d m)).
Proof.
  unfold write_impl_message_info, message_info, path_const.
  eapply emits_eq.
  - apply emits_then; [repeat emit2; solve [lx]|intros _]. apply emits_then; [|intros _; repeat emit2; solve [lx]].
    apply emits_writeln.
    solve [lx].
  - mtoks; rewrite !str_app_assoc; reflexivity.
Qed.
Lemma fields_read : is_unit m = false -> snd (write_impl_message_read g d m) = None -> forall f, In f (m_fields m) -> snd (write_field_match_tag g d f) = None.
Proof.
  intros U H. unfold write_impl_message_read in H. rewrite U in H.
  do 4 (apply then_ok in H; destruct H as [_ H]). apply then_ok in H. destruct H as [H _]. now apply emits_all_ok.
Qed.
Lemma read_emits : emits (write_impl_message_read g d m) (print_item (message_read g d m)).
Proof.
  unfold write_impl_message_read, message_read, from_reader_fn, read_body. destruct (is_unit m); [eapply emits_eq; [repeat emit2; solve [lx]|itoks]|].
  eapply emits_eq.
  - apply emits_then; [repeat emit2; solve [lx]|intros _].
    repeat (apply emits_then; [apply emits_writeln; solve [lx]|intros _]).
    apply emits_then; [|intros _; apply emits_then; [|intros _; repeat emit2; solve [lx]]].
    + apply (each_emits _ _ _ (read_arms g d) print_arm). intros f I. destruct (m_fields_ok f I). eapply match_emits; eauto.
    + apply (each_emits _ _ _ (oneof_read_arms g d) print_arm). intros o I. destruct (m_oneofs_ok o I) as (O1 & O2 & O3). eapply oneof_read_emits; eauto.
  - unfold own_type, own_lt. destruct (or_else _ _); itoks; rewrite !flat_map_app; itoks.
Qed.
Hypothesis m_reads : snd (write_impl_message_read g d m) = None.
Lemma get_size_emits : is_unit m = false -> emits (write_get_size g d d0 m) (print_item (get_size_fn g d d0 m)).
Proof.
  intros U. unfold write_get_size, get_size_fn. eapply emits_eq.
  - repeat (apply emits_then; [apply emits_writeln; solve [lx]|intros _]).
    apply emits_then; [|intros _; apply emits_then; [|intros _; repeat emit2; solve [lx]]].
    + apply (each_emits _ _ _ (field_size_terms g d d0) print_plus). intros f I. destruct (m_fields_ok f I). apply size_emits'; auto. now apply fields_read.
    + apply (map_emits _ _ _ (oneof_size g d) print_plus). intros o I. destruct (m_oneofs_ok o I) as (O1 & O2 & O3). eapply oneof_size_emits; eauto.
  - unfold fn. cbn [print_item]. unfold print_fn, print_block. cbn [fn_pub fn_name fn_generics fn_self fn_params fn_ret fn_body flat_map].
    unfold result. cbn [print_stmt]. rewrite print_sum_plus, flat_map_app. itoks.
Qed.
Lemma write_message_emits : is_unit m = false -> emits (write_write_message g d d0 m) (print_item (write_message_fn g d d0 m)).
Proof.
  intros U. unfold write_write_message, write_message_fn. eapply emits_eq.
  - repeat (apply emits_then; [apply emits_writeln; solve [lx]|intros _]).
    apply emits_then; [|intros _; apply emits_then; [|intros _; repeat emit2; solve [lx]]].
    + apply (each_emits _ _ _ (field_writes g d d0) print_stmt). intros f I. destruct (m_fields_ok f I). apply write_emits'; auto. now apply fields_read.
    + apply (map_emits _ _ _ (oneof_write g d) print_stmt). intros o I. destruct (m_oneofs_ok o I) as (O1 & O2 & O3). eapply oneof_write_emits; eauto.
  - cbn [print_item]. unfold print_fn, print_block. cbn [fn_pub fn_name fn_generics fn_self fn_params fn_ret fn_body]. 
    rewrite !flat_map_app. cbn [flat_map]. itoks.
Qed.
Lemma write_impl_emits : emits (write_impl_message_write g d d0 m) (print_item (message_write_impl g d d0 m)).
Proof.
  unfold write_impl_message_write, message_write_impl. destruct (is_unit m) eqn:U; [eapply emits_eq; [repeat emit2; solve [lx]|itoks]|].
  pose proof (get_size_emits U) as G. pose proof (write_message_emits U) as W.
  set (a := get_size_fn g d d0 m) in *. set (b := write_message_fn g d d0 m) in *. clearbody a b.
  eapply emits_eq.
  - apply emits_then; [repeat emit2; solve [lx]|intros _]. apply emits_then; [exact G|intros _].
    apply emits_then; [apply emits_writeln; solve [lx]|intros _]. apply emits_then; [exact W|intros _]. repeat emit2; solve [lx].
  - mtoks.
Qed.
Ltac line := apply emits_then; [apply emits_writeln; solve [lx]|intros _].
Lemma try_from_emits : emits (write_impl_try_from m) (print_item (try_from_item m)).
Proof.
  unfold write_impl_try_from, lines, raw_end, try_from_item. cbn [write_all]. eapply emits_eq; [repeat emit2; solve [lx]|].
  unfold error_alias, let_mut. itoks.
Qed.
Lemma owned_emits : emits (write_impl_owned g m) (flat_map print_item (owned_items g m)).
Proof.
  unfold write_impl_owned, lines, raw_end. cbn [write_all]. eapply emits_eq.
  - apply emits_then; [repeat emit2; solve [lx]|intros _]. apply emits_then; [repeat emit2; solve [lx]|intros _]. apply emits_when. intros _. repeat emit2; solve [lx].
  - rewrite !str_app_assoc. unfold owned_items, path_const. generalize (m_name m), (m_module m). intros name module. clear.
    destruct (g_gen_info g); vm_compute; reflexivity.
Qed.

End Message.
Section Items.
Variable m : message.
Hypothesis m_name_ok : ident (m_name m) = true.
Hypothesis m_fields_ok : forall f, In f (m_fields m) -> field_ok f.
Hypothesis m_oneofs_ok : forall o, In o (m_oneofs m) -> oneof_ok o.
Hypothesis m_module_ok : all_chars plain_char (m_module m) = true.
Hypothesis m_derive_ok : attr_text (derive_text g d m ++ "Debug, PartialEq, Clone")%string.
Hypothesis m_repr_ok : match g_repr g with Some r => attr_text r | None => True end.
Lemma items_emits : emits (write_message_items g d d0 m) (flat_map print_item (message_items g d d0 m)).
Proof.
  unfold write_message_items, message_items. fold c. rewrite !flat_map_app.
  assert (B : emits (writeln "") []) by (apply emits_writeln; lexes).
  eapply emits_eq.
  - apply emits_then; [exact B|intros _].
    apply emits_then; [eapply definition_emits; eauto|intros _].
    apply emits_then; [exact B|intros _].
    apply emits_then; [apply emits_only; intros _; eapply emits_blank, consts_emits; eauto|intros _].
    apply emits_then; [apply emits_only; intros _; eapply emits_blank, getters_emits; eauto|intros _].
    apply emits_then; [apply emits_only; intros _; eapply emits_blank|intros _].
    { instantiate (1 := [message_default g d d0 m]). cbn [flat_map]. rewrite app_nil_r. eapply default_emits; eauto. }
    apply emits_then; [eapply read_emits; eauto|intros R].
    apply emits_then; [exact B|intros _].
    apply emits_then; [eapply write_impl_emits; eauto|intros _].
    apply emits_then; [apply emits_only; intros _; eapply emits_blank|intros _].
    { instantiate (1 := [message_info g d m]). cbn [flat_map]. rewrite app_nil_r. eapply info_emits; eauto. }
    apply (emits_only (g_owned g) _ (if or_else (message_has_lifetime c d (lifetime_fuel d) [] m) false then owned_items g m else [try_from_item m])).
    intros _. eapply emits_eq; [apply emits_then; [exact B|intros _]; apply emits_if_of; intros _|].
    { eapply owned_emits; eauto. }
    { eapply try_from_emits; eauto. }
    cbn [app]. destruct (or_else _ _); [reflexivity|]. cbn [flat_map]. now rewrite app_nil_r.
  - cbn [flat_map app]. rewrite ?app_nil_r. norm. reflexivity.
Qed.
End Items.

(** ** Nested messages *)
Definition enum_ok (p : enumerator * enumerator) : Prop :=
  ident (en_name (fst p)) = true /\ (forall f, In f (en_fields (fst p)) -> ident (fst f) = true) /\
  ident (en_name (snd p)) = true /\ forall v x l, en_fields (snd p) = (v, x) :: l -> ident v = true.
Definition own_ok (m : message) : Prop :=
  ident (m_name m) = true /\ (forall f, In f (m_fields m) -> field_ok f) /\ (forall o, In o (m_oneofs m) -> oneof_ok o) /\
  all_chars plain_char (m_module m) = true /\ attr_text (derive_text g d m ++ "Debug, PartialEq, Clone")%string.
Fixpoint message_ok (m m0 : message) {struct m} : Prop :=
  match m with
  | mkMessage _ _ _ _ _ _ _ messages enums _ _ =>
    own_ok m /\ (forall p, In p (combine enums (m_enums m0)) -> enum_ok p) /\
    (fix go (l l0 : list message) {struct l} : Prop :=
       match l, l0 with
       | x :: l', y :: l0' => message_ok x y /\ go l' l0'
       | _, _ => True
       end) messages (m_messages m0)
  end.
Hypothesis repr_ok : match g_repr g with Some r => attr_text r | None => True end.
Lemma common_emits : forall ms, emits (write_common_uses g d ms) (flat_map print_item (common_uses g d ms)).
Proof.
  intros ms. unfold write_common_uses, common_uses. fold c. rewrite !flat_map_app.
  apply emits_then.
  { apply emits_only. intros _. apply emits_writeln. eapply lexed_eq; [solve [lx]|reflexivity]. }
  intros _. apply emits_then.
  { destruct (negb (c_dont_use_cow c)); apply emits_only; intros _; [destruct (g_nostd g)|]; apply emits_writeln; (eapply lexed_eq; [solve [lx]|reflexivity]). }
  intros _. apply emits_then.
  { destruct (g_nostd g); [|apply emits_nothing]. cbn [when andb].
    eapply emits_eq; [apply emits_if_of; intros _; [repeat emit1; solve [lx]|apply emits_nothing]|].
    destruct (or_else _ _); reflexivity. }
  intros _. apply emits_only. intros _.
  destruct (g_hashbrown g); [|destruct (g_nostd g)]; (eapply emits_eq; [repeat emit1; solve [lx]|]); reflexivity.
Qed.
Lemma message_emits : forall m m0, message_ok m m0 -> emits (write_message_text g d d0 m m0) (flat_map print_item (message_ast g d d0 m m0)).
Proof.
  fix IH 1. intros m m0. 
  destruct m as [name fields oneofs rnums rnames imported package messages enums module index] eqn:Em.
  cbn [message_ok write_message_text message_ast]. rewrite <- Em. intros (O & En & Ms).
  destruct O as (O1 & O2 & O3 & O4 & O5).
  assert (I : emits (write_message_items g d d0 m) (flat_map print_item (message_items g d d0 m))) by (eapply items_emits; eauto).
  assert (N : emits ((fix go (l l0 : list message) {struct l} : out :=
          match l, l0 with
          | x :: l', y :: l0' => (write_message_text g d d0 x y ;;; go l' l0')%out
          | _, _ => nothing
          end) messages (m_messages m0)) (flat_map print_item ((fix go (l l0 : list message) {struct l} : list ritem_ :=
                 match l, l0 with
                 | x :: l', y :: l0' => message_ast g d d0 x y ++ go l' l0'
                 | _, _ => []
                 end) messages (m_messages m0)))).
  { clear - IH Ms. revert Ms. generalize (m_messages m0). induction messages as [|x l IHl]; intros l0 Ms; [apply emits_nothing|].
    destruct l0 as [|y l0]; [apply emits_nothing|]. destruct Ms as [M1 M2]. rewrite flat_map_app. apply emits_then; [apply IH; exact M1|intros _; apply IHl; exact M2]. }
  assert (E : emits (write_all (fun p => write_enum (fst p) (snd p)) (combine enums (m_enums m0)))
     (flat_map print_item (flat_map (fun p => enum_items (fst p) (snd p)) (combine enums (m_enums m0))))).
  { apply (each_emits _ _ _ (fun p => enum_items (fst p) (snd p)) print_item). intros p Ip. destruct (En p Ip) as (E1 & E2 & E3 & E4). eapply enum_emits; eauto. }
  assert (Oo : emits (write_all (write_oneof g d) oneofs) (flat_map print_item (flat_map (oneof_items g d) oneofs))).
  { apply (each_emits _ _ _ (oneof_items g d) print_item). intros o Io. destruct (O3 o) as (Q1 & Q2 & Q3); [now rewrite Em|]. eapply oneof_emits; eauto. }
  assert (Nm : m_name m = name) by now rewrite Em.
  assert (All : emits (writeln "" ;;; writeln ("pub mod mod_" ++ m_name m ++ " {")%string ;;;
      writeln "" ;;;
      write_common_uses g d messages ;;;
      when (match messages, oneofs with [], [] => false | _, _ => true end) (writeln "use super::*;") ;;;
      ((fix go (l l0 : list message) {struct l} : out :=
          match l, l0 with
          | x :: l', y :: l0' => write_message_text g d d0 x y ;;; go l' l0'
          | _, _ => nothing
          end) messages (m_messages m0)) ;;;
      write_all (fun p => write_enum (fst p) (snd p)) (combine enums (m_enums m0)) ;;;
      write_all (write_oneof g d) oneofs ;;;
      writeln "" ;;;
      writeln "}")%out 
     (flat_map print_item [RIMod ("mod_" ++ m_name m)%string
         (common_uses g d messages
          ++ only (match messages, oneofs with [], [] => false | _, _ => true end) [RIUse ["super"] UGlob]
          ++ ((fix go (l l0 : list message) {struct l} : list ritem_ :=
                 match l, l0 with
                 | x :: l', y :: l0' => message_ast g d d0 x y ++ go l' l0'
                 | _, _ => []
                 end) messages (m_messages m0))
          ++ flat_map (fun p => enum_items (fst p) (snd p)) (combine enums (m_enums m0))
          ++ flat_map (oneof_items g d) oneofs)])).
  { eapply emits_eq.
    - repeat (apply emits_then; [apply emits_writeln; solve [lx]|intros _]).
      apply emits_then; [apply common_emits|intros _].
      apply emits_then; [apply emits_only; intros _; instantiate (1 := [RIUse ["super"] UGlob]); apply emits_writeln; lexes|intros _].
      apply emits_then; [exact N|intros _]. apply emits_then; [exact E|intros _]. apply emits_then; [exact Oo|intros _].
      repeat emit1; solve [lx].
    - cbn [flat_map print_item]. rewrite !flat_map_app. norm. rewrite ?app_nil_r. reflexivity. }
  rewrite flat_map_app. apply emits_then; [exact I|intros _].
  destruct messages, enums, oneofs; first [exact All | apply emits_nothing].
Qed.

(** ** Files *)
Variable filename : text.
Hypothesis filename_ok : all_chars not_newline filename = true.
Hypothesis enums_ok : forall p, In p (combine (d_enums d) (d_enums d0)) -> en_imported (fst p) = false -> enum_ok p.
Hypothesis messages_ok : forall p, In p (combine (d_messages d) (d_messages d0)) -> m_imported (fst p) = false -> message_ok (fst p) (snd p).
Lemma headers_emit : emits (when (g_headers g) (write_headers g filename)) (flat_map print_inner (only (g_headers g) (header_attrs g))).
Proof.
  unfold write_headers, header_attrs. fold c. destruct (g_headers g); [|apply emits_nothing]. cbn [when only].
  eapply emits_eq.
  - repeat (apply emits_then; [apply emits_writeln; solve [lx]|intros _]).
    apply emits_then; [apply emits_when; intros _; apply emits_writeln; solve [lx]|intros _]. repeat emit1; solve [lx].
  - rewrite !flat_map_app. destruct (c_add_deprecated_fields c); reflexivity.
Qed.
Lemma uses_emit : emits (write_uses g d) (flat_map print_item (use_items g d)).
Proof.
  unfold write_uses, use_items. cbv zeta. destruct (forallb is_unit (d_messages d)).
  - eapply emits_eq; [apply emits_then; [apply emits_writeln; solve [lx]|intros _; apply emits_only; intros _; apply emits_writeln; eapply lexed_eq; [solve [lx]|]]|].
    + instantiate (1 := [RIUse ["core"; "convert"] (UList ["TryFrom"; "TryInto"])]). reflexivity.
    + reflexivity.
  - rewrite !flat_map_app. apply emits_then; [apply common_emits|intros _].
    apply emits_then; [apply emits_writeln; eapply lexed_eq; [solve [lx]|reflexivity]|intros _].
    apply emits_then; [apply emits_only; intros _; apply emits_writeln; eapply lexed_eq; [solve [lx]|reflexivity]|intros _].
    apply emits_writeln; eapply lexed_eq; [solve [lx]|reflexivity].
Qed.
Lemma super_lexed : forall n r t st, lexed LNone r t st -> lexed LNone (repeat_text n "super::" ++ r)%string (flat_map (fun x => word x ++ sym "::") (repeat "super" n) ++ t) st.
Proof.
  induction n as [|n IH]; intros r t st H; [exact H|]. cbn [repeat_text repeat flat_map]. rewrite str_app_assoc, <- app_assoc.
  eapply lexed_app; [|apply IH, H]. reflexivity.
Qed.
Lemma imports_emit : emits (write_imports d) (print_item (RIUse (repeat "super" (imports_depth (d_package d))) UGlob)).
Proof.
  unfold write_imports. apply emits_writeln. cbn [print_item print_leaf]. rewrite !str_app_assoc. unfold word at 1. cbn [app].
  change (TWord "use" :: flat_map (fun n => word n ++ sym "::") (repeat "super" (imports_depth (d_package d))) ++ sym "*" ++ sym ";")
    with ([TWord "use"] ++ (flat_map (fun n => word n ++ sym "::") (repeat "super" (imports_depth (d_package d))) ++ sym "*" ++ sym ";")).
  eapply lexed_app with (st1 := LNone); [reflexivity|]. apply super_lexed. eapply lexed_eq; [solve [lx]|]. reflexivity.
Qed.
Lemma enums_emit : emits (write_enums d d0) (flat_map print_item (flat_map (fun p => enum_definition (fst p) :: enum_impls (fst p) (snd p))
          (filter (fun p => negb (en_imported (fst p))) (combine (d_enums d) (d_enums d0))))).
Proof.
  unfold write_enums. apply (each_emits _ _ _ (fun p => enum_definition (fst p) :: enum_impls (fst p) (snd p)) print_item).
  intros (e, e0) I. apply filter_In in I. destruct I as [I J]. apply negb_true_iff in J. destruct (enums_ok _ I J) as (E1 & E2 & E3 & E4). cbn [fst snd] in *.
  assert (B : emits (writeln "") []) by (apply emits_writeln; lexes).
  unfold enum_impls. eapply emits_eq.
  - apply emits_then; [exact B|intros _]. apply emits_then; [eapply enum_definition_emits; eauto|intros _]. apply emits_then; [exact B|intros _].
    apply emits_then; [eapply enum_default_emits; eauto|intros _]. apply emits_then; [exact B|intros _].
    apply emits_then; [eapply enum_number_emits; eauto|intros _]. apply emits_then; [exact B|intros _]. eapply enum_text_emits; eauto.
  - cbn [flat_map app]. rewrite app_nil_r. reflexivity.
Qed.
Lemma messages_emit : emits (write_messages g d d0) (flat_map print_item (flat_map (fun p => message_ast g d d0 (fst p) (snd p))
          (filter (fun p => negb (m_imported (fst p))) (combine (d_messages d) (d_messages d0))))).
Proof.
  unfold write_messages. apply (each_emits _ _ _ (fun p => message_ast g d d0 (fst p) (snd p)) print_item).
  intros p I. apply filter_In in I. destruct I as [I J]. apply negb_true_iff in J. apply message_emits. auto.
Qed.
Lemma file_emits : forall services, emits (write_file g d d0 filename services) (print_file (file_ast g d d0)).
Proof.
  intros services. unfold write_file, print_file, file_ast. cbn [file_attrs file_items]. rewrite !flat_map_app.
  assert (B : emits (writeln "") []) by (apply emits_writeln; lexes).
  eapply emits_eq.
  - apply emits_then; [exact headers_emit|intros _]. apply emits_then; [exact B|intros _]. apply emits_then; [exact uses_emit|intros _].
    apply emits_then; [exact imports_emit|intros _]. apply emits_then; [exact enums_emit|intros _]. apply emits_then; [exact messages_emit|intros _].
    apply emits_then; [apply (emits_all _ _ (fun _ => [])); intros x _; exact B|intros _]. exact B.
  - cbn [flat_map app]. rewrite app_nil_r. assert (Z : flat_map (fun _ : unit => @nil token) (repeat tt services) = []) by (induction services; auto).
    rewrite Z, !app_nil_r. reflexivity.
Qed.
Theorem file_lex : forall services s, write_file g d d0 filename services = (s, None) -> lex s = Some (print_file (file_ast g d d0)).
Proof.
  intros services s H. pose proof (file_emits services) as L. unfold emits in L. rewrite H in L. specialize (L eq_refl). cbn [fst] in L.
  unfold lex. unfold lexed in L. rewrite L. cbn [ends_well flush]. now rewrite app_nil_r.
Qed.
End Facts.
