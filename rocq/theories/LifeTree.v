(** The lifetimes in the syntax trees of the generated code (GenAst.v). *)
From Coq Require Import String Ascii Arith ZArith Lia Bool.
From Verif Require Import Base Schema Keywords KeywordFacts Modules Passes Gen GenSpec GenCheck Cycles CycleFacts BreakFacts IndexFacts Pipeline PassFacts Props_Passes Props_Accepted Lifetime LifetimeFacts Props_Lifetime.
From Verif Require Import RustTypes Emit Uses Output OutputFacts Paths GenText.
From Verif Require Import RustLex RustAst RustParse RustParseFacts GenAst LexFacts GenAstFacts GenAstOk GenGood RustLife.
Import Schema StringSyntax.
Local Open Scope string_scope.
Local Open Scope list_scope.
Local Open Scope nat_scope.

(** ** Tokens *)
Lemma lives_app a b : lives (a ++ b) = lives a ++ lives b.
Proof. apply flat_map_app. Qed.
Lemma lives_word w l : lives (TWord w :: l) = lives l. Proof. reflexivity. Qed.
Lemma lives_num w l : lives (TNum w :: l) = lives l. Proof. reflexivity. Qed.
Lemma lives_str w l : lives (TStr w :: l) = lives l. Proof. reflexivity. Qed.
Lemma lives_bstr w l : lives (TBStr w :: l) = lives l. Proof. reflexivity. Qed.
Lemma lives_sym w l : lives (TSym w :: l) = lives l. Proof. reflexivity. Qed.
Lemma lives_life w l : lives (TLife w :: l) = w :: lives l. Proof. reflexivity. Qed.
Lemma lives_nil : lives [] = []. Proof. reflexivity. Qed.
Lemma lives_flat {A} (p : A -> list token) l : (forall x, In x l -> lives (p x) = []) -> lives (flat_map p l) = [].
Proof.
  induction l as [|x l IH]; intros H; [reflexivity|]. cbn [flat_map]. rewrite lives_app, (H x) by now left. cbn. apply IH. intros y I. apply H. now right.
Qed.
Lemma lives_sep {A} sep (p : A -> list token) l : lives sep = [] -> (forall x, In x l -> lives (p x) = []) -> lives (sep_by sep p l) = [].
Proof.
  intros S. induction l as [|x l IH]; intros H; [reflexivity|]. cbn [sep_by]. destruct l as [|y l]; [apply H; now left|].
  rewrite !lives_app, S, (H x) by now left. cbn [app]. apply IH. intros z I. apply H. now right.
Qed.
Lemma lives_sep_flat {A} sep (p : A -> list token) l : lives sep = [] -> lives (sep_by sep p l) = lives (flat_map p l).
Proof.
  intros S. induction l as [|x l IH]; [reflexivity|]. change (flat_map p (x :: l)) with (p x ++ flat_map p l). rewrite lives_app, <- IH.
  cbn [sep_by]. destruct l as [|y l]; [cbn; now rewrite app_nil_r|]. now rewrite !lives_app, S.
Qed.
Lemma in_sep {A} sep (p : A -> list token) l x : lives sep = [] -> In x (lives (sep_by sep p l)) <-> exists y, In y l /\ In x (lives (p y)).
Proof.
  intros S. induction l as [|y l IH]; [cbn; firstorder|]. cbn [sep_by]. destruct l as [|z l].
  - cbn. split; [eauto|]. intros (u & [<-|[]] & H). exact H.
  - rewrite !lives_app, !in_app_iff, S, IH. split.
    + intros [H|[[]|(u & I & H)]]; [exists y; split; [now left|exact H]|exists u; split; [now right|exact H]].
    + intros (u & [<-|I] & H); [now left|right; right; eauto].
Qed.
#[local] Hint Rewrite lives_app lives_word lives_num lives_str lives_bstr lives_sym lives_nil @app_nil_r : life.

Lemma lives_names l : lives (print_names l) = [].
Proof. apply lives_sep; [reflexivity|]. intros x _. reflexivity. Qed.
Lemma lives_epath l : lives (print_exp (epath l)) = [].
Proof. rewrite print_epath. apply lives_names. Qed.
Lemma lives_pat p : lives (print_pat p) = [].
Proof.
  revert p. fix IH 1. destruct p as [|r m x|p|l|path l|path|neg n|s]; cbn [print_pat]; autorewrite with life.
  - reflexivity.
  - destruct r, m; reflexivity.
  - unfold sym. autorewrite with life. apply IH.
  - unfold sym, comma_sep. autorewrite with life. apply lives_sep; [reflexivity|]. apply Forall_forall. induction l as [|y l IHl]; constructor; [apply IH|exact IHl].
  - rewrite lives_names. unfold sym, comma_sep. cbn [app]. autorewrite with life. apply lives_sep; [reflexivity|].
    apply Forall_forall. induction l as [|y l IHl]; constructor; [apply IH|exact IHl].
  - apply lives_names.
  - destruct neg; reflexivity.
  - reflexivity.
Qed.
Lemma lives_tpath l gs : lives (print_ty (tpath l gs)) = match l with [] => [] | _ => lives (flat_map print_garg gs) end.
Proof.
  unfold tpath. cbn [print_ty]. cbn [app]. induction l as [|x l IH]; [reflexivity|]. cbn [spath]. destruct l as [|y l].
  - cbn [sep_by print_tseg]. destruct gs as [|a gs]; [reflexivity|]. unfold sym, word, comma_sep. autorewrite with life.
    now rewrite lives_sep_flat.
  - rewrite <- IH. remember (spath (y :: l) gs) as q. destruct q as [|z q]; [destruct l; discriminate|]. cbn [sep_by print_tseg]. unfold sym, word. autorewrite with life. reflexivity.
Qed.
Lemma lives_turbofish gs : lives (print_turbofish gs) = lives (flat_map print_garg gs).
Proof.
  unfold print_turbofish. destruct gs as [|a gs]; [reflexivity|]. unfold sym, comma_sep. autorewrite with life. now rewrite lives_sep_flat.
Qed.

(** ** Expressions without lifetimes *)
Definition quiet (e : rexp) : Prop := lives (print_exp e) = [].
Definition quiet_op (o : rop) : Prop := lives (print_op o) = [].
Ltac hush :=
  unfold quiet, quiet_op, call, method, str, num, zero, ok_unit, closure, on_writer, self_field, msg_field, some, var, result, GenAst.run, print_block, braces, parens, sym, word, comma_sep, print_unop in *;
  repeat (cbn [print_exp print_stmt print_arm print_init print_op print_pat print_garg print_turbofish print_unop flat_map sep_by app lives];
          unfold sym, word, comma_sep, braces, parens;
          autorewrite with life; rewrite ?lives_epath, ?lives_pat, ?lives_names; repeat match goal with H : lives _ = [] |- _ => rewrite H end);
  try reflexivity.
Lemma quiet_post e ops : quiet e -> Forall quiet_op ops -> quiet (REPost e ops).
Proof.
  intros E O. unfold quiet. cbn [print_exp]. rewrite lives_app, E. cbn [app]. apply lives_flat. now apply Forall_forall.
Qed.
Lemma quiet_add e ops : quiet e -> Forall quiet_op ops -> quiet (post e ops).
Proof.
  intros E O. unfold post. destruct e; try (now apply quiet_post). unfold quiet in *. cbn [print_exp] in *. rewrite flat_map_app, !lives_app in *.
  apply app_eq_nil in E. destruct E as [-> ->]. cbn [app]. apply lives_flat. now apply Forall_forall.
Qed.
Lemma quiet_sum l : Forall quiet l -> quiet (sum_of l).
Proof.
  intros H. destruct H as [|x l Hx Hl]; [reflexivity|]. cbn [sum_of]. destruct l as [|y l]; [exact Hx|]. unfold quiet. cbn [print_exp].
  rewrite lives_app, Hx. cbn [app]. apply lives_flat. intros z I. rewrite Forall_forall in Hl. rewrite lives_app. now rewrite (Hl z I).
Qed.
Lemma quiet_call f args : quiet f -> Forall quiet args -> quiet (call f args).
Proof.
  intros F A. unfold call. apply quiet_post; [exact F|]. constructor; [|constructor]. unfold quiet_op. cbn [print_op]. unfold parens, sym, comma_sep.
  autorewrite with life. cbn [app]. apply lives_sep; [reflexivity|]. now apply Forall_forall.
Qed.
Lemma quiet_method f args : Forall quiet args -> quiet_op (method f args).
Proof.
  intros A. unfold quiet_op, method. cbn [print_op]. unfold parens, sym, word, comma_sep, print_turbofish. autorewrite with life. cbn [app].
  autorewrite with life. apply lives_sep; [reflexivity|]. now apply Forall_forall.
Qed.
Lemma quiet_closure ps e : quiet e -> quiet (closure ps e).
Proof.
  intros E. unfold quiet, closure. cbn [print_exp]. unfold sym, comma_sep. autorewrite with life. rewrite E, app_nil_r. apply lives_sep; [reflexivity|]. intros x _. apply lives_pat.
Qed.
Lemma quiet_var x : quiet (var x). Proof. apply lives_epath. Qed.
Lemma quiet_path l : quiet (epath l). Proof. apply lives_epath. Qed.
Lemma quiet_num z : quiet (num z). Proof. reflexivity. Qed.
Lemma quiet_un o e : quiet e -> quiet (REUn o e).
Proof. intros E. unfold quiet. cbn [print_exp]. rewrite lives_app, E. now destruct o. Qed.
Lemma quiet_paren e : quiet e -> quiet (REParen e).
Proof. intros E. hush. Qed.
Lemma quiet_field x : quiet_op (OField x). Proof. reflexivity. Qed.
Lemma quiet_try : quiet_op OTry. Proof. reflexivity. Qed.
Lemma quiet_self x ops : Forall quiet_op ops -> quiet (self_field x ops).
Proof. intros H. apply quiet_post; [apply quiet_var|]. constructor; [reflexivity|exact H]. Qed.
Lemma quiet_msg x ops : Forall quiet_op ops -> quiet (msg_field x ops).
Proof. intros H. apply quiet_post; [apply quiet_var|]. constructor; [reflexivity|exact H]. Qed.
Lemma quiet_if e b els : quiet e -> lives (flat_map print_stmt b) = [] -> match els with Some b' => lives (flat_map print_stmt b') = [] | None => True end -> quiet (REIf e b els).
Proof.
  intros E B L. unfold quiet. cbn [print_exp]. unfold braces, sym, word. autorewrite with life. rewrite E, B. destruct els; [|reflexivity].
  cbn [app]. unfold braces, sym, word. autorewrite with life. exact L.
Qed.
Lemma quiet_cmp q a b : quiet a -> quiet b -> quiet (RECmp q a b).
Proof. intros A B. unfold quiet. cbn [print_exp]. unfold sym. autorewrite with life. now rewrite A, B. Qed.
Lemma quiet_assign a b : quiet a -> quiet b -> quiet (REAssign a b).
Proof. intros A B. unfold quiet. cbn [print_exp]. unfold sym. autorewrite with life. now rewrite A, B. Qed.
Lemma quiet_mul a b : quiet a -> quiet b -> quiet (REMul a b).
Proof. intros A B. unfold quiet. cbn [print_exp]. unfold sym. autorewrite with life. now rewrite A, B. Qed.
Lemma quiet_plus e l : quiet e -> Forall quiet l -> quiet (RESum e l).
Proof.
  intros E L. unfold quiet. cbn [print_exp]. rewrite lives_app, E. cbn [app]. apply lives_flat. intros z I. rewrite Forall_forall in L. rewrite lives_app. now rewrite (L z I).
Qed.
Lemma quiet_match e arms : quiet e -> lives (flat_map print_arm arms) = [] -> quiet (REMatch e arms).
Proof. intros E A. unfold quiet. cbn [print_exp]. unfold braces, sym, word. autorewrite with life. now rewrite E, A. Qed.
Lemma quiet_for p e b : quiet e -> lives (flat_map print_stmt b) = [] -> quiet (REFor p e b).
Proof. intros E B. unfold quiet. cbn [print_exp]. unfold braces, sym, word. autorewrite with life. now rewrite lives_pat, E, B. Qed.
Lemma quiet_while e b : quiet e -> lives (flat_map print_stmt b) = [] -> quiet (REWhile e b).
Proof. intros E B. unfold quiet. cbn [print_exp]. unfold braces, sym, word. autorewrite with life. now rewrite E, B. Qed.
Lemma quiet_cast e x : quiet e -> quiet (RECast e (tname x)).
Proof. intros E. unfold quiet. cbn [print_exp]. unfold word. rewrite !lives_app, E. reflexivity. Qed.
Lemma quiet_block b : lives (flat_map print_stmt b) = [] -> quiet (REBlock b).
Proof. intros B. unfold quiet. cbn [print_exp]. unfold braces, sym. autorewrite with life. exact B. Qed.
Lemma quiet_result e : quiet e -> lives (flat_map print_stmt [result e]) = [].
Proof. intros E. cbn [flat_map result print_stmt]. autorewrite with life. now rewrite E. Qed.
Lemma quiet_run e : quiet e -> lives (flat_map print_stmt [GenAst.run e]) = [].
Proof. intros E. cbn [flat_map GenAst.run print_stmt]. unfold sym. autorewrite with life. now rewrite E. Qed.
Lemma quiet_arm p e b : quiet e -> lives (print_arm (RArm p e b)) = [].
Proof. intros E. cbn [print_arm]. unfold sym. autorewrite with life. rewrite lives_pat, E. now destruct b. Qed.
Lemma quiet_lit_num n : quiet (RELit (TNum n)). Proof. reflexivity. Qed.
Lemma quiet_lit_str n : quiet (RELit (TStr n)). Proof. reflexivity. Qed.
Lemma quiet_lit_bstr n : quiet (RELit (TBStr n)). Proof. reflexivity. Qed.
Lemma quiet_bool b : quiet (REBool b). Proof. reflexivity. Qed.
Lemma quiet_ok : quiet ok_unit. Proof. reflexivity. Qed.
Lemma quiet_sum_usize : quiet_op sum_usize. Proof. reflexivity. Qed.
#[local] Hint Resolve quiet_post quiet_add quiet_sum quiet_call quiet_method quiet_closure quiet_var quiet_path quiet_num quiet_un quiet_paren quiet_field quiet_try
  quiet_self quiet_msg quiet_if quiet_cmp quiet_assign quiet_mul quiet_plus quiet_match quiet_for quiet_while quiet_cast quiet_block quiet_result quiet_run quiet_arm
  quiet_lit_num quiet_lit_str quiet_lit_bstr quiet_bool quiet_ok quiet_sum_usize Forall_nil Forall_cons I : life.
Ltac still := eauto 40 with life.

Section Expressions.
Variable g : gen_config.
Let c : config := g_passes g.
Variables d d0 : file_descriptor.

Lemma quiet_read_op t : quiet_op (method ("read_" ++ proto_type t)%string [var "bytes"]). Proof. still. Qed.
Lemma quiet_read t : quiet (read_exp d t).
Proof.
  unfold read_exp. apply quiet_post; [still|]. destruct t; repeat constructor; still.
  destruct (get_message d m) as [x|]; repeat constructor; still. unfold quiet_op. cbn [print_op]. unfold parens, sym, word. autorewrite with life.
  rewrite lives_turbofish. cbn [flat_map print_garg app]. autorewrite with life. rewrite lives_tpath. destruct (message_path d x); reflexivity.
Qed.
Lemma quiet_read_boxed t : quiet (read_boxed_exp d t).
Proof. unfold read_boxed_exp. destruct t; first [exact (quiet_read _) | still]. Qed.
Lemma quiet_size t : forall s, quiet s -> Forall quiet (size_terms t s).
Proof.
  induction t; intros s H; cbn [size_terms]; repeat constructor; unfold zero; still.
  - apply Forall_app. split; [apply IHt1|apply IHt2]; still.
Qed.
Lemma quiet_write t : forall s b, quiet s -> quiet_op (write_op t s b).
Proof.
  induction t; intros s b H; cbn [write_op]; still.
  - destruct b; still.
  - apply quiet_method. repeat apply Forall_cons; try apply Forall_nil; still.
    + apply quiet_sum. apply (quiet_size (TMap t1 t2)). reflexivity.
    + apply quiet_closure, quiet_post; [still|]. constructor; [|constructor]. apply IHt1. still.
    + apply quiet_closure, quiet_post; [still|]. constructor; [|constructor]. apply IHt2. still.
Qed.

Lemma quiet_singular t : quiet (singular_default_exp d d0 t).
Proof.
  destruct t; cbn [singular_default_exp]; try reflexivity; still.
  - destruct (get_enum d0 e) as [x|]; [|reflexivity]. destruct (qualified_value x); [still|reflexivity].
  - destruct (get_message d m) as [x|]; [|reflexivity]. still.
Qed.

(** a field whose default value names no lifetime *)
Definition quiet_default (f : field) : Prop := forall s, f_default f = Some s -> quiet (exp_of s).
Section Field.
Variable f : field.
Hypothesis Q : quiet_default f.

Lemma quiet_default_exp : quiet (default_exp g d d0 f).
Proof.
  unfold default_exp. destruct (generated_type_of (f_freq f)).
  - destruct (f_boxed f); [still|]. destruct (freq_is_optional (f_freq f)); [still|]. unfold quiet_default in Q. destruct (f_default f) as [s|]; [|apply quiet_singular].
    specialize (Q s eq_refl). destruct (f_typ f); try exact Q; still.
  - destruct (f_is_packed f && is_fixed_size (f_typ f) && negb (c_dont_use_cow (g_passes g))); still.
  - still.
Qed.
Lemma quiet_tag_size : quiet (tag_size f). Proof. reflexivity. Qed.
Lemma quiet_addition s : quiet s -> Forall quiet (size_addition_terms f s).
Proof. intros H. constructor; [reflexivity|now apply quiet_size]. Qed.
Lemma quiet_unwrap b s : quiet s -> quiet (unwrapping_exp f b s).
Proof.
  intros H. unfold unwrapping_exp.
  destruct (f_boxed f), (negb (need_to_dereference (f_typ f)) && negb (is_cow (f_typ f)) && negb (freq_is_optional (f_freq f)) && negb (is_non_cow_string_or_byte (f_typ f))),
    (negb b), (is_cow (f_typ f) || is_non_cow_string_or_byte (f_typ f)); still.
Qed.
Lemma quiet_with_tag o ops : quiet_op o -> Forall quiet_op ops -> quiet (write_with_tag f o ops).
Proof. intros O P. unfold write_with_tag, on_writer. apply quiet_post; [still|]. constructor; [|exact P]. apply quiet_method. still. Qed.
Lemma quiet_write_method s ops : quiet s -> Forall quiet_op ops -> quiet (write_method_exp f s ops).
Proof. intros S P. apply quiet_with_tag; [now apply quiet_write|exact P]. Qed.
Lemma quiet_init : lives (flat_map print_init (field_inits g d d0 f)) = [].
Proof.
  unfold field_inits. destruct (hidden g f); [reflexivity|]. cbn [flat_map print_init]. unfold sym, word. cbn [app]. autorewrite with life.
  apply quiet_default_exp.
Qed.
Lemma quiet_sizes : Forall quiet (field_size_terms g d d0 f).
Proof.
  unfold field_size_terms. destruct (hidden g f); [constructor|].
  pose proof quiet_default_exp as D.
  destruct (generated_type_of (f_freq f)).
  - destruct (has_presence f).
    + destruct (freq_is_optional (f_freq f)); [|apply quiet_addition; still]. constructor; [|constructor]. apply quiet_self.
      repeat constructor. apply quiet_method. repeat constructor. apply quiet_closure, quiet_sum, quiet_addition. still.
    + constructor; [|constructor]. apply quiet_if; [still|reflexivity|]. apply quiet_result, quiet_sum, quiet_addition. still.
  - destruct (f_is_packed f).
    + constructor; [|constructor]. apply quiet_if; [still|reflexivity|]. apply quiet_result. apply quiet_plus; [reflexivity|]. constructor; [|constructor].
      apply quiet_call; [still|]. constructor; [|constructor].
      assert (X : quiet (self_field (f_name f) [method "iter" []; method "map" [closure [RPRef (bind "s")] (sum_of (size_terms (f_typ f) (var "s")))]; sum_usize])).
      { apply quiet_self. constructor; [still|]. constructor; [|still]. apply quiet_method. constructor; [|constructor]. apply quiet_closure, quiet_sum, quiet_size. still. }
      destruct (wire_type_num_non_packed (f_typ f)) as [|[[|[]|]|[]|]|]; first [exact X|still].
    + constructor; [|constructor].
      assert (X : quiet (self_field (f_name f) [method "iter" []; method "map" [closure [deref_pat (f_typ f) "s"] (sum_of (tag_size f :: size_terms (f_typ f) (var "s")))]; sum_usize])).
      { apply quiet_self. constructor; [still|]. constructor; [|still]. apply quiet_method. constructor; [|constructor]. apply quiet_closure, quiet_sum.
        constructor; [reflexivity|]. apply quiet_size. still. }
      assert (Y : forall n, quiet (REMul (REParen (RESum (tag_size f) [RELit (TNum n)])) (self_field (f_name f) [method "len" []]))).
      { intros n. apply quiet_mul; [apply quiet_paren, quiet_plus; [reflexivity|still]|still]. }
      destruct (wire_type_num_non_packed (f_typ f)) as [|[[|[]|]|[]|]|]; first [exact X|apply Y].
  - destruct (f_typ f) as [| | | | | | | q | | | | | | | | i | n | | | | k v] eqn:T; try constructor; [|constructor]. apply quiet_self. constructor; [still|]. constructor; [|still].
    apply quiet_method. constructor; [|constructor]. apply quiet_closure, quiet_plus; [reflexivity|]. constructor; [|constructor]. apply quiet_call; [still|].
    constructor; [|constructor]. apply quiet_sum. apply (quiet_size (TMap k v)). reflexivity.
Qed.
Lemma quiet_writes : lives (flat_map print_stmt (field_writes g d d0 f)) = [].
Proof.
  unfold field_writes. destruct (hidden g f); [reflexivity|]. pose proof quiet_default_exp as D.
  destruct (generated_type_of (f_freq f)).
  - destruct (has_presence f).
    + destruct (freq_is_optional (f_freq f)).
      * apply quiet_run, quiet_self. constructor; [still|]. constructor; [|still]. apply quiet_method. constructor; [still|]. constructor; [|constructor].
        apply quiet_closure, quiet_write_method; [|constructor]. apply quiet_unwrap. still.
      * apply quiet_run, quiet_write_method; [|still]. apply quiet_unwrap. still.
    + apply quiet_result, quiet_if; [|apply quiet_run, quiet_write_method; [|still]; apply quiet_unwrap; still|exact Logic.I].
      apply quiet_cmp; [|exact D]. apply quiet_unwrap. still.
  - destruct (f_is_packed f); [destruct (is_fixed_size (f_typ f))|].
    + apply quiet_run. still.
    + apply quiet_run, quiet_post; [still|]. constructor; [|still]. apply quiet_method. repeat apply Forall_cons; try apply Forall_nil; [still|still| |].
      * apply quiet_closure, quiet_post; [still|]. constructor; [|constructor]. apply quiet_write. still.
      * apply quiet_un, quiet_closure, quiet_sum, quiet_size. still.
    + apply quiet_result, quiet_for; [still|]. apply quiet_run, quiet_with_tag; [|still]. apply quiet_write. destruct (need_to_dereference (f_typ f)); still.
  - destruct (f_typ f) as [| | | | | | | q | | | | | | | | i | n | | | | k v] eqn:T; try reflexivity. apply quiet_result, quiet_for; [still|].
    apply quiet_run, quiet_with_tag; [|still]. apply (quiet_write (TMap k v)). reflexivity.
Qed.
Lemma quiet_read_closure t : quiet (read_closure d t).
Proof. apply quiet_closure, quiet_call; [still|]. constructor; [apply quiet_read|constructor]. Qed.
Lemma quiet_reads : lives (flat_map print_arm (read_arms g d f)) = [].
Proof.
  assert (A : forall p e b, quiet e -> lives (flat_map print_arm [RArm p e b]) = []).
  { intros p e b E. cbn [flat_map]. rewrite lives_app. now rewrite quiet_arm. }
  pose proof (quiet_read (f_typ f)) as R. pose proof (quiet_read_boxed (f_typ f)) as B.
  unfold read_arms, some. destruct (hidden g f); [reflexivity|]. destruct (f_boxed f).
  - apply A, quiet_assign; [still|]. apply quiet_call; [still|]. constructor; [|constructor]. apply quiet_call; [still|].
    destruct (freq_is_map (f_freq f)); still.
  - destruct (generated_type_of (f_freq f)).
    + destruct (freq_is_optional (f_freq f)); apply A, quiet_assign; still.
    + destruct (f_is_packed f); [destruct (is_fixed_size (f_typ f))|].
      * apply A, quiet_assign; still.
      * apply A, quiet_assign; [still|]. apply quiet_post; [still|]. constructor; [|still]. apply quiet_method. constructor; [still|]. constructor; [apply quiet_read_closure|constructor].
      * apply A, quiet_msg. constructor; [|constructor]. apply quiet_method. still.
    + destruct (f_typ f) as [| | | | | | | q | | | | | | | | i | n | | | | k v] eqn:T; try reflexivity. apply A, quiet_block.
      match goal with |- lives (flat_map print_stmt [?a; ?b]) = [] => change (flat_map print_stmt [a; b]) with (print_stmt a ++ flat_map print_stmt [b]) end.
      rewrite lives_app, quiet_run by still. rewrite app_nil_r. cbn [print_stmt]. unfold sym, word. rewrite !lives_app, lives_pat.
      assert (X : quiet (REPost (var "r") [method "read_map" [var "bytes"; read_closure d k; read_closure d v]; OTry])).
      { apply quiet_post; [still|]. constructor; [|still]. apply quiet_method. repeat apply Forall_cons; try apply Forall_nil; [still|apply quiet_read_closure|apply quiet_read_closure]. }
      unfold quiet in X. rewrite X. reflexivity.
Qed.
End Field.

Section Oneof.
Variable o : oneof.
Lemma quiet_oneof_reads : lives (flat_map print_arm (oneof_read_arms g d o)) = [].
Proof.
  apply lives_flat. intros x I. unfold oneof_read_arms in I. apply in_map_iff in I. destruct I as (f & <- & _). apply quiet_arm, quiet_assign; [still|].
  apply quiet_call; [still|]. constructor; [|constructor]. pose proof (quiet_read (f_typ f)). pose proof (quiet_read_boxed (f_typ f)). destruct (f_boxed f); still.
Qed.
Lemma quiet_oneof_size : quiet (oneof_size g d o).
Proof.
  unfold oneof_size. apply quiet_match; [still|]. rewrite flat_map_app, lives_app. cbn [flat_map]. rewrite lives_app, quiet_arm by reflexivity.
  cbn [app lives flat_map]. rewrite app_nil_r. apply lives_flat. intros x I. apply in_map_iff in I. destruct I as (f & <- & _).
  assert (X : forall s, quiet s -> quiet (sum_of (tag_size f :: size_terms (f_typ f) s))).
  { intros s S. apply quiet_sum. constructor; [reflexivity|now apply quiet_size]. }
  destruct (is_fixed_size (f_typ f)); [apply quiet_arm, X; reflexivity|]. destruct (need_to_dereference (f_typ f)); apply quiet_arm, X; still.
Qed.
Lemma quiet_oneof_write : lives (print_stmt (oneof_write g d o)) = [].
Proof.
  unfold oneof_write, result. cbn [print_stmt]. rewrite app_nil_r. apply quiet_match; [still|]. rewrite flat_map_app, lives_app. cbn [flat_map].
  rewrite lives_app, quiet_arm by reflexivity. cbn [app lives flat_map]. rewrite app_nil_r. apply lives_flat. intros x I. apply in_map_iff in I. destruct I as (f & <- & _).
  apply quiet_arm, quiet_block, quiet_result, quiet_with_tag; [|still]. apply quiet_write. destruct (need_to_dereference (f_typ f) || f_boxed f); still.
Qed.
End Oneof.
End Expressions.

(** ** Types *)

(** the only name is ['a], and it is there if and only if [b] *)
Definition only_a (b : bool) (l : list text) : Prop := (forall x, In x l -> x = "a") /\ (In "a" l <-> b = true).
Lemma only_none : only_a false [].
Proof. split; [intros x []|split; [intros []|discriminate]]. Qed.
Lemma only_args b : only_a b (lives (flat_map print_garg (lt_args b))).
Proof.
  destruct b; cbn; [|exact only_none]. split; [intros x [<-|[]]; reflexivity|]. split; [reflexivity|]. intros _. now left.
Qed.
Lemma only_app b1 b2 l1 l2 : only_a b1 l1 -> only_a b2 l2 -> only_a (b1 || b2) (l1 ++ l2).
Proof.
  intros (A1 & B1) (A2 & B2). split.
  - intros x I. apply in_app_iff in I. destruct I; auto.
  - rewrite in_app_iff, B1, B2, orb_true_iff. reflexivity.
Qed.
Lemma lives_tapp x gs : lives (print_ty (tapp x gs)) = lives (flat_map print_garg gs).
Proof. apply (lives_tpath [x]). Qed.
Lemma lives_wrap x t : lives (print_ty (tapp x [GType t])) = lives (print_ty t).
Proof. rewrite lives_tapp. cbn [flat_map print_garg]. now rewrite app_nil_r. Qed.
Lemma elided_tpath l gs : existsb elided_arg gs = false -> elided (tpath l gs) = false.
Proof.
  intros H. unfold tpath. cbn [elided]. induction l as [|x l IH]; [reflexivity|]. cbn [spath]. destruct l as [|y l]; cbn [existsb elided_seg]; [now rewrite H|exact IH].
Qed.
Lemma elided_lt b : existsb elided_arg (lt_args b) = false. Proof. now destruct b. Qed.
Definition is_type (b : bool) (t : rty_) : Prop := only_a b (lives (print_ty t)) /\ elided t = false.
Lemma is_type_name x : is_type false (tname x).
Proof. split; [exact only_none|reflexivity]. Qed.
Lemma is_type_path l b : l <> [] -> is_type b (tpath l (lt_args b)).
Proof.
  intros N. split; [|apply elided_tpath, elided_lt]. rewrite lives_tpath. destruct l; [contradiction|]. apply only_args.
Qed.
Lemma is_type_wrap b x t : is_type b t -> is_type b (tapp x [GType t]).
Proof. intros (A & B). split; [now rewrite lives_wrap|]. apply elided_tpath. cbn. now rewrite B. Qed.

Section Types.
Variable g : gen_config.
Let c : config := g_passes g.
Variables d d0 : file_descriptor.

Lemma path_some (p : list text) x : p ++ [x] <> []. Proof. destruct p; discriminate. Qed.
Lemma type_is t : forall r, rust_type c d t = GOk r -> is_type (mentions r) (type_ast g d t).
Proof.
  induction t; intros r E; cbn [rust_type type_ast] in *; try (injection E as <-; apply is_type_name); try discriminate E.
  - injection E as <-. cbn [mentions]. destruct (get_enum d e) as [x|]; [apply (is_type_path _ false), path_some|split; [exact only_none|reflexivity]].
  - injection E as <-. split; [|reflexivity]. split; [intros x [<-|[]]; reflexivity|]. split; [reflexivity|]. intros _. now left.
  - injection E as <-. split; [|reflexivity]. split; [intros x [<-|[]]; reflexivity|]. split; [reflexivity|]. intros _. now left.
  - injection E as <-. apply is_type_wrap, is_type_name.
  - unfold index_has_lifetime in E. destruct (get_message d m) as [x|]; [|discriminate E]. fold c.
    destruct (message_has_lifetime c d (lifetime_fuel d) [] x) as [b|]; [|discriminate E]. cbn in E. injection E as <-. cbn [or_else mentions]. apply is_type_path, path_some.
  - apply gbind_ok in E. destruct E as (k & E1 & E). apply gbind_ok in E. destruct E as (v & E2 & E). injection E as <-. cbn [mentions].
    destruct (IHt1 k E1) as (A1 & B1). destruct (IHt2 v E2) as (A2 & B2). split.
    + rewrite lives_tapp. cbn [flat_map print_garg]. rewrite app_nil_r, lives_app. now apply only_app.
    + apply elided_tpath. cbn [existsb elided_arg]. now rewrite B1, B2.
Qed.
Lemma field_type_is f r : field_rty c d f = GOk r -> is_type (mentions r) (field_type_ast g d f).
Proof.
  intros E. unfold field_rty in E. apply gbind_ok in E. destruct E as (t & Et & E). injection E as <-. pose proof (type_is _ _ Et) as T.
  unfold field_type_ast. fold c. destruct (f_boxed f); [now apply is_type_wrap, is_type_wrap|]. destruct (generated_type_of (f_freq f)).
  - destruct (freq_is_optional (f_freq f)); [now apply is_type_wrap|exact T].
  - destruct (f_is_packed f && is_fixed_size (f_typ f) && negb (c_dont_use_cow c)); [|now apply is_type_wrap]. destruct T as ((A & _) & B). split.
    + rewrite lives_tapp. cbn [flat_map print_garg]. rewrite app_nil_r, lives_app. cbn [lives flat_map app mentions]. split.
      * intros x [<-|I]; [reflexivity|]. now apply A.
      * split; [reflexivity|]. intros _. now left.
    + apply elided_tpath. cbn [existsb elided_arg]. now rewrite B.
  - exact T.
Qed.
Lemma fresh_lts b : fresh [] (lts b).
Proof.
  destruct b; (split; [repeat constructor; intros []|]); cbn; [|intros y []]. intros y [<-|[]]. repeat split; try discriminate. intros [].
Qed.
Lemma known_only b b' l : only_a b l -> (b = true -> b' = true) -> known (lts b') l.
Proof. intros (A & B) H x I. left. pose proof (A x I) as ->. apply B in I. rewrite (H I). now left. Qed.
Lemma known_nil scope l : l = [] -> known scope l.
Proof. intros -> x []. Qed.
Lemma data_is b ts rs : Forall2 (fun t r => is_type (mentions r) t) ts rs -> b = existsb mentions rs -> data_lives (lts b) ts.
Proof.
  intros F ->. split; [apply fresh_lts|]. split.
  - intros t I. destruct (Forall2_in_l _ _ _ F t I) as (r & J & (A & B)). split; [|exact B]. apply (known_only _ _ _ A). intros M. apply existsb_exists. eauto.
  - intros x I. destruct (existsb mentions rs) eqn:E; [|destruct I]. destruct I as [<-|[]]. apply existsb_exists in E. destruct E as (r & J & M).
    destruct (Forall2_in_r _ _ _ F r J) as (t & I & ((_ & A) & _)). exists t. split; [exact I|]. now apply A.
Qed.
End Types.

(** ** Items *)
Definition items_live (scope : list text) (l : list ritem_) : Prop := forall i, In i l -> item_lives scope i.
Lemma items_cons scope i l : item_lives scope i -> items_live scope l -> items_live scope (i :: l).
Proof. intros A B x [<-|I]; auto. Qed.
Lemma items_nil scope : items_live scope []. Proof. intros x []. Qed.
Lemma items_app scope l1 l2 : items_live scope l1 -> items_live scope l2 -> items_live scope (l1 ++ l2).
Proof. intros A B x I. apply in_app_iff in I. destruct I; auto. Qed.
Lemma items_only scope b l : items_live scope l -> items_live scope (only b l).
Proof. intros A. destruct b; [exact A|apply items_nil]. Qed.
Lemma items_flat {A} scope (h : A -> list ritem_) l : (forall x, In x l -> items_live scope (h x)) -> items_live scope (flat_map h l).
Proof. intros H i I. apply in_flat_map in I. destruct I as (x & I & J). exact (H x I i J). Qed.
Lemma go_items scope items : items_live scope items ->
  (fix go (l : list ritem_) : Prop := match l with [] => True | x :: l' => item_lives scope x /\ go l' end) items.
Proof. induction items as [|i l IH]; intros H; [exact Logic.I|]. split; [apply H; now left|]. apply IH. intros x I. apply H. now right. Qed.
Lemma mod_lives scope n items : items_live [] items -> item_lives scope (RIMod n items).
Proof. intros H. cbn [item_lives]. now apply go_items. Qed.
Lemma fresh_nil scope : fresh scope []. Proof. split; [constructor|intros x []]. Qed.
Lemma fresh_a : fresh [] ["a"]. Proof. exact (fresh_lts true). Qed.
(** an [impl] without parameters *)
Lemma impl_plain scope attrs trait t items : known [] (match trait with Some tr => lives (print_ty tr) | None => [] end ++ lives (print_ty t)) ->
  items_live [] items -> item_lives scope (RIImpl attrs [] trait t items).
Proof.
  intros K H. cbn [item_lives]. split; [apply fresh_nil|]. split; [exact K|]. split; [intros x []|]. now apply go_items.
Qed.
(** an [impl] with the parameter of its type *)
Lemma impl_own scope attrs b trait x items : match trait with Some tr => lives (print_ty tr) | None => [] end = [] ->
  items_live (lts b) items -> item_lives scope (RIImpl attrs (lts b) trait (tapp x (lt_args b)) items).
Proof.
  intros K H. cbn [item_lives]. split; [apply fresh_lts|]. rewrite K, lives_tapp. cbn [app]. destruct (only_args b) as [A B]. split; [|split].
  - intros y I. left. pose proof (A y I) as ->. apply B in I. rewrite I. now left.
  - intros y I. destruct b; [|destruct I]. destruct I as [<-|[]]. now apply B.
  - now apply go_items.
Qed.
(** a function without parameters of its own *)
Lemma fn_plain scope pub name self params ret body : known scope (lives (print_params self params)) -> known scope (lives (print_ty ret)) ->
  (elided ret = true -> takes_self_ref self = true) -> lives (flat_map print_stmt body) = [] -> item_lives scope (fn pub name self params ret body).
Proof.
  intros P R E B. unfold fn. cbn [item_lives]. unfold fn_lives. cbn [fn_generics fn_self fn_params fn_ret fn_body generic_lives flat_map app].
  split; [apply fresh_nil|]. split; [exact P|]. split; [split; [exact R|exact E]|]. apply known_nil. unfold print_block, braces, sym. autorewrite with life. exact B.
Qed.
Ltac each := repeat match goal with |- items_live _ [] => apply items_nil | |- items_live _ (_ :: _) => apply items_cons end.
Ltac names := let x := fresh "x" in let I := fresh "I" in intros x I; cbn in I; repeat (destruct I as [<-|I] || destruct I); cbn; auto 6.

Lemma const_path_lives scope m : item_lives scope (path_const m).
Proof. cbn [item_lives path_const]. split; [names|now apply known_nil]. Qed.
Lemma error_lives scope : item_lives scope error_alias. Proof. split; reflexivity. Qed.
Lemma default_lives scope generics t e : fresh [] generics -> known generics (lives (print_ty t)) -> (forall x, In x generics -> In x (lives (print_ty t))) -> quiet e ->
  item_lives scope (default_impl generics t e).
Proof.
  intros F K U Q. unfold default_impl. cbn [item_lives]. split; [exact F|]. split; [exact K|]. split; [exact U|]. apply (go_items generics [_]).
  intros i [<-|[]]. apply fn_plain; [now apply known_nil|now apply known_nil|discriminate|]. now apply quiet_result.
Qed.
Lemma default_own scope b x e : quiet e -> item_lives scope (default_impl (lts b) (tapp x (lt_args b)) e).
Proof.
  intros Q. apply impl_own; [reflexivity|]. intros i [<-|[]]. apply fn_plain; [now apply known_nil|now apply known_nil|discriminate|]. now apply quiet_result.
Qed.

(** *** Enums *)
Lemma enum_definition_lives e : item_lives [] (enum_definition e).
Proof.
  unfold enum_definition. cbn [item_lives]. assert (T : flat_map variant_types (map (fun f : text * Z => mkRVariant [] (fst f) (VNum (negative (snd f)) (show (Z.abs (snd f))))) (en_fields e)) = []).
  { induction (en_fields e) as [|x l IH]; [reflexivity|exact IH]. }
  rewrite T. exact (data_is false [] [] (Forall2_nil _) eq_refl).
Qed.
Lemma enum_impls_lives e e0 : items_live [] (enum_impls e e0).
Proof.
  assert (B : forall x arms, lives (flat_map print_arm arms) = [] ->
    lives (flat_map print_stmt [result (REMatch (var x) (arms ++ [RArm RPWild (call (epath ["Self"; "default"]) []) true]))]) = []).
  { intros x arms A. apply quiet_result, quiet_match; [still|]. now rewrite flat_map_app, lives_app, A. }
  unfold enum_impls. each.
  - apply (default_own [] false). unfold enum_default_value. destruct (en_fields e0) as [|(v, z) l]; [reflexivity|still].
  - apply impl_plain; [names|]. intros i [<-|[]]. apply fn_plain; [names|names|discriminate|]. apply B, lives_flat. intros x I. apply in_map_iff in I.
    destruct I as (f & <- & _). apply quiet_arm. still.
  - cbn [item_lives from_impl]. split; [exact fresh_a|]. split; [names|]. split; [names|]. apply (go_items ["a"] [_]).
    intros i [<-|[]]. apply fn_plain; [names|names|discriminate|]. apply B, lives_flat. intros x I. apply in_map_iff in I.
    destruct I as (f & <- & _). apply quiet_arm. still.
Qed.
Lemma enum_items_live e e0 : items_live [] (enum_items e e0).
Proof. apply items_cons; [apply enum_definition_lives|]. destruct (en_fields e); [apply items_nil|apply enum_impls_lives]. Qed.

(** *** Owned structs *)
Lemma owned_live g m : items_live [] (owned_items g m).
Proof.
  unfold owned_items. cbv zeta. apply items_app.
  - each.
    + cbn [item_lives map rf_type]. split; [apply fresh_nil|]. split; [|intros x []]. intros t I. cbn in I. repeat (destruct I as [<-|I] || destruct I); (split; [names|reflexivity]).
    + apply impl_plain; [names|]. intros i [<-|[]]. unfold fn. cbn [item_lives]. unfold fn_lives.
      cbn [fn_generics fn_self fn_params fn_ret fn_body generic_lives flat_map app]. split; [apply fresh_nil|]. split; [names|]. split; [split; [names|discriminate]|]. names.
    + cbn [item_lives map rf_type]. split; [apply fresh_nil|]. split; [|intros x []]. intros t I. cbn in I. repeat (destruct I as [<-|I] || destruct I); (split; [names|reflexivity]).
    + apply impl_plain; [names|]. each.
      * apply fn_plain; [names|names|reflexivity|reflexivity].
      * cbn [item_lives]. unfold fn_lives. cbn [fn_generics fn_self fn_params fn_ret fn_body generic_lives flat_map app].
        split; [exact fresh_a|]. split; [names|]. split; [split; [names|reflexivity]|]. names.
      * cbn [item_lives]. unfold fn_lives. cbn [fn_generics fn_self fn_params fn_ret fn_body generic_lives flat_map app].
        split; [exact fresh_a|]. split; [names|]. split; [split; [names|reflexivity]|]. names.
    + apply impl_plain; [names|]. intros i [<-|[]]. apply fn_plain; [names|names|reflexivity|reflexivity].
    + apply impl_plain; [names|]. each; [apply error_lives|]. apply fn_plain; [names|names|discriminate|reflexivity].
    + apply impl_plain; [names|]. each; [apply error_lives|]. apply fn_plain; [names|names|discriminate|reflexivity].
    + apply impl_plain; [names|]. intros i [<-|[]]. apply fn_plain; [names|names|discriminate|reflexivity].
  - apply items_only. intros i [<-|[]]. apply impl_plain; [names|]. intros i [<-|[]]. apply const_path_lives.
Qed.
Lemma try_from_lives m : item_lives [] (try_from_item m).
Proof.
  apply impl_plain; [names|]. each; [apply error_lives|]. apply fn_plain; [names|names|discriminate|reflexivity].
Qed.

(** *** Messages *)
Definition lives_right (c : config) (d : file_descriptor) (m : message) : Prop :=
  (exists it, message_item c d m = GOk it /\ it_declares it = existsb mentions (it_types it)) /\
  forall o, In o (m_oneofs m) -> exists it, oneof_item c d o = GOk it /\ it_declares it = existsb mentions (it_types it).

Lemma map_number {A B} (h : A -> B) l : forall n, map (fun q => h (snd q)) (number_from n l) = map h l.
Proof. induction l as [|x l IH]; intros n; [reflexivity|]. cbn [number_from map snd]. now rewrite IH. Qed.
Lemma Forall2_map_l {A B C} (P : A -> B -> Prop) (Q : C -> B -> Prop) (h : A -> C) l l' : (forall x y, P x y -> Q (h x) y) -> Forall2 P l l' -> Forall2 Q (map h l) l'.
Proof. intros H F. induction F; constructor; auto. Qed.

Section Message.
Variable g : gen_config.
Let c : config := g_passes g.
Variables d d0 : file_descriptor.
Variable m : message.
Hypothesis right : lives_right c d m.
Hypothesis quiet_fields : forall f, In f (m_fields m) -> quiet_default f.

Lemma hidden_visible f : hidden g f = negb (visible c f).
Proof. unfold hidden, visible. now rewrite negb_involutive. Qed.
Lemma struct_types : map rf_type (flat_map (struct_fields g d) (m_fields m)) = map (field_type_ast g d) (visible_fields c m).
Proof.
  clear right quiet_fields. unfold visible_fields. induction (m_fields m) as [|f l IH]; [reflexivity|]. cbn [flat_map filter]. rewrite map_app, IH. unfold struct_fields. rewrite hidden_visible.
  destruct (visible c f); reflexivity.
Qed.
Lemma unit_own : is_unit m = true -> own_lt g d m = false.
Proof.
  intros U. unfold own_lt, own_lifetime. fold c. unfold lifetime_fuel. destruct m as [name fields oneofs rn rns imp pk ms es md ix]. cbn in U.
  destruct fields; [|discriminate]. destruct oneofs; [|discriminate]. cbn [message_has_lifetime all_fields m_fields m_oneofs flat_map app gany].
  match goal with |- context [if ?b then _ else _] => destruct b end; reflexivity.
Qed.
Lemma parts : is_unit m = false -> exists ts os, Forall2 (fun f r => field_rty c d f = GOk r) (visible_fields c m) ts /\
  Forall2 (fun o r => exists k, oneof_has_lifetime c d o = GOk (mentions r) /\ r = ROneof k (mentions r)) (m_oneofs m) os /\
  own_lt g d m = existsb mentions (ts ++ os).
Proof.
  intros U. destruct right as ((it & E & D) & _). unfold message_item in E. rewrite U in E. apply gbind_ok in E. destruct E as (b & Eb & E).
  apply gbind_ok in E. destruct E as (ts & Ets & E). apply gbind_ok in E. destruct E as (os & Eos & E). injection E as <-. cbn in D. exists ts, os.
  apply gmap_ok in Ets. apply gmap_ok in Eos. split; [exact Ets|]. split.
  - assert (F : Forall2 (fun (o : oneof) r => exists k, oneof_has_lifetime c d o = GOk (mentions r) /\ r = ROneof k (mentions r))
      (map snd (number_from 0 (m_oneofs m))) os).
    { refine (Forall2_map_l _ _ snd _ _ _ Eos). intros (k, o) r H. apply gbind_ok in H. destruct H as (lt & H & X). injection X as <-. cbn. eauto. }
    rewrite (map_number (fun o => o)), map_id in F. exact F.
  - unfold own_lt, own_lifetime. fold c. rewrite Eb. exact D.
Qed.
Lemma definition_lives : item_lives [] (definition_item g d m).
Proof.
  unfold definition_item. destruct (is_unit m) eqn:U; cbn [item_lives].
  - exact (data_is false [] [] (Forall2_nil _) eq_refl).
  - destruct (parts U) as (ts & os & F & O & ->). apply (data_is _ _ (ts ++ os)); [|reflexivity]. rewrite map_app, struct_types. apply Forall2_app.
    + refine (Forall2_map_l _ _ _ _ _ _ F). intros f r. apply field_type_is.
    + rewrite map_map. refine (Forall2_map_l _ _ _ _ _ _ O). intros o r (k & E & _). cbn [oneof_field rf_type]. unfold oneof_lt. fold c. rewrite E. apply is_type_path, path_some.
Qed.
(** the type of a field that is written *)
Lemma own_type_known f : In f (m_fields m) -> hidden g f = false -> known (lts (own_lt g d m)) (lives (print_ty (type_ast g d (f_typ f)))) /\
  elided (type_ast g d (f_typ f)) = false.
Proof.
  intros I V. rewrite hidden_visible in V. apply negb_false_iff in V.
  assert (U : is_unit m = false) by (destruct m as [name [|f0 fs] oneofs rn rns imp pk ms es md ix]; [destruct I|reflexivity]).
  destruct (parts U) as (ts & os & F & _ & ->). destruct (Forall2_in_l _ _ _ F f) as (r & J & E); [apply filter_In; auto|].
  unfold field_rty in E. apply gbind_ok in E. destruct E as (t & Et & E). injection E as E. destruct (type_is g d _ _ Et) as (A & B). split; [|exact B].
  apply (known_only _ _ _ A). intros M. apply existsb_exists. exists r. split; [apply in_app_iff; now left|]. subst r.
  destruct (f_boxed f); [exact M|]. destruct (generated_type_of (f_freq f)); [destruct (freq_is_optional (f_freq f)); exact M| |exact M].
  destruct (f_is_packed f && is_fixed_size (f_typ f) && negb (c_dont_use_cow c)); [reflexivity|exact M].
Qed.
Lemma const_known f : In f (m_fields m) -> hidden g f = false -> known (lts (own_lt g d m)) (lives (print_ty (const_type g d f))).
Proof.
  intros I V. unfold const_type. pose proof (proj1 (own_type_known f I V)) as K. destruct (f_typ f); try exact K; now apply known_nil.
Qed.
Lemma consts_live : items_live [] (consts_items g d m).
Proof.
  unfold consts_items. destruct (d_syntax d); [|apply items_nil]. fold c. destruct (negb (existsb (can_write_default_const Proto2 c) (m_fields m))); [apply items_nil|].
  intros i [<-|[]]. apply impl_own; [reflexivity|]. apply items_flat. intros f I i J. unfold const_items in J. fold c in J.
  destruct (can_write_default_const (d_syntax d) c f) eqn:W; [|destruct J]. cbn [negb] in J.
  assert (V : hidden g f = false).
  { unfold can_write_default_const in W. apply negb_true_iff in W. rewrite !orb_false_iff in W. exact (proj2 (proj1 W)). }
  destruct (f_default f) as [s|] eqn:D; [|destruct J]. destruct J as [<-|[]]. cbn [item_lives]. split; [now apply const_known|].
  apply known_nil. exact (quiet_fields f I s D).
Qed.
Lemma getters_live : items_live [] (getters_items g d m).
Proof.
  intros i [<-|[]]. apply impl_own; [reflexivity|]. apply items_flat. intros f I i J. unfold getter_items in J.
  destruct (must_generate_getter g d f) eqn:W; [|destruct J]. cbn [negb] in J. destruct J as [<-|[]].
  assert (V : hidden g f = false).
  { unfold must_generate_getter, must_generate_const, has_valid_visible_custom_default in W. rewrite !andb_true_iff in W. rewrite hidden_visible. fold c in W.
    destruct W as ((((((W & _) & _) & _) & _) & _) & _). unfold visible. destruct (c_add_deprecated_fields c), (f_deprecated f); try reflexivity; discriminate W. }
  pose proof (const_known f I V) as K. apply fn_plain.
  - now apply known_nil.
  - destruct (is_cow (f_typ f)); exact K.
  - reflexivity.
  - apply quiet_result. destruct (f_typ f); cbn [is_cow negb]; still.
Qed.
Lemma inits_quiet : forall i, In i (flat_map (field_inits g d d0) (m_fields m) ++ map (oneof_init d) (m_oneofs m)) -> lives (print_init i) = [].
Proof.
  intros i I. apply in_app_iff in I. destruct I as [I|I].
  - apply in_flat_map in I. destruct I as (f & I & J). unfold field_inits in J. destruct (hidden g f); [destruct J|]. destruct J as [<-|[]].
    cbn [print_init]. unfold sym, word. cbn [app]. autorewrite with life. apply quiet_default_exp. now apply quiet_fields.
  - apply in_map_iff in I. destruct I as (o & <- & _). unfold oneof_init. cbn [print_init]. unfold sym, word. cbn [app]. autorewrite with life. apply lives_epath.
Qed.
Lemma message_default_lives : item_lives [] (message_default g d d0 m).
Proof.
  unfold message_default. cbv zeta. destruct (is_unit m).
  - apply (default_own [] false (m_name m)). reflexivity.
  - apply default_own. unfold quiet. cbn [print_exp]. unfold braces, sym, comma_sep. rewrite !lives_app.
    rewrite (lives_sep (sym ",") print_init _ eq_refl inits_quiet). cbn [app].
    destruct (flat_map (field_inits g d d0) (m_fields m) ++ map (oneof_init d) (m_oneofs m)); reflexivity.
Qed.
Lemma read_body_quiet arms : lives (flat_map print_arm arms) = [] -> lives (flat_map print_stmt (read_body arms)) = [].
Proof.
  intros A. unfold read_body.
  match goal with |- lives (flat_map print_stmt [?x; ?y; ?z]) = [] => change (flat_map print_stmt [x; y; z]) with (print_stmt x ++ print_stmt y ++ flat_map print_stmt [z]) end.
  rewrite !lives_app. rewrite (quiet_result (call (var "Ok") [var "msg"])) by still. rewrite app_nil_r.
  cbn [print_stmt result]. rewrite app_nil_r. match goal with |- _ ++ ?x = [] => assert (W : x = []); [|now rewrite W] end.
  apply quiet_while; [still|]. apply quiet_result, quiet_match; [still|]. now rewrite flat_map_app, lives_app, A.
Qed.
Lemma message_read_lives : item_lives [] (message_read g d m).
Proof.
  unfold message_read. cbn [item_lives]. split; [exact fresh_a|].
  assert (H : lives (print_ty (tapp "MessageRead" [GLife "a"])) = ["a"]) by reflexivity. rewrite H. split; [|split; [intros x [<-|[]]; now left|]].
  - intros x [<-|I]; [left; now left|]. left. left. destruct (is_unit m); [destruct I|]. unfold own_type in I. rewrite lives_tapp in I. symmetry.
    exact (proj1 (only_args _) x I).
  - apply (go_items ["a"] [_]). intros i [<-|[]]. destruct (is_unit m).
    + apply fn_plain; [names|names|discriminate|reflexivity].
    + apply fn_plain; [names|names|discriminate|]. apply read_body_quiet. rewrite flat_map_app, lives_app.
      assert (A : lives (flat_map print_arm (flat_map (read_arms g d) (m_fields m))) = []).
      { apply lives_flat. intros x I. apply in_flat_map in I. destruct I as (f & I & J). pose proof (quiet_reads g d f) as R. revert R J. clear.
        generalize (read_arms g d f). induction l as [|y l IH]; intros R J; [destruct J|]. cbn [flat_map] in R. rewrite lives_app in R. apply app_eq_nil in R.
        destruct J as [<-|J]; [apply R|]. apply IH; [apply R|exact J]. }
      rewrite A. cbn [app]. apply lives_flat. intros x I. apply in_flat_map in I. destruct I as (o & I & J). pose proof (quiet_oneof_reads g d o) as R. revert R J. clear.
        generalize (oneof_read_arms g d o). induction l as [|y l IH]; intros R J; [destruct J|]. cbn [flat_map] in R. rewrite lives_app in R. apply app_eq_nil in R.
        destruct J as [<-|J]; [apply R|]. apply IH; [apply R|exact J].
Qed.
Lemma message_write_lives : item_lives [] (message_write_impl g d d0 m).
Proof.
  unfold message_write_impl. destruct (is_unit m).
  - apply impl_plain; [names|apply items_nil].
  - apply impl_own; [reflexivity|]. each.
    + apply fn_plain; [now apply known_nil|now apply known_nil|discriminate|]. apply quiet_result, quiet_sum. constructor; [reflexivity|]. apply Forall_app. split.
      * apply Forall_forall. intros e I. apply in_flat_map in I. destruct I as (f & I & J). pose proof (quiet_sizes g d d0 f (quiet_fields f I)) as S.
        rewrite Forall_forall in S. auto.
      * apply Forall_forall. intros e I. apply in_map_iff in I. destruct I as (o & <- & _). apply quiet_oneof_size.
    + cbn [item_lives write_message_fn]. unfold fn_lives. cbn [fn_generics fn_self fn_params fn_ret fn_body generic_lives flat_map app].
      split; [apply fresh_nil|]. split; [now apply known_nil|]. split; [split; [now apply known_nil|discriminate]|]. apply known_nil.
      unfold print_block, braces, sym. autorewrite with life. rewrite !flat_map_app, !lives_app. cbn [flat_map print_stmt result app].
      assert (A : lives (flat_map print_stmt (flat_map (field_writes g d d0) (m_fields m))) = []).
      { apply lives_flat. intros x I. apply in_flat_map in I. destruct I as (f & I & J). pose proof (quiet_writes g d d0 f (quiet_fields f I)) as R. revert R J. clear.
        generalize (field_writes g d d0 f). induction l as [|y l IH]; intros R J; [destruct J|]. cbn [flat_map] in R. rewrite lives_app in R. apply app_eq_nil in R.
        destruct J as [<-|J]; [apply R|]. apply IH; [apply R|exact J]. }
      rewrite A. rewrite (lives_flat print_stmt); [reflexivity|]. intros x I. apply in_map_iff in I. destruct I as (o & <- & _). apply quiet_oneof_write.
Qed.
Lemma message_items_live : items_live [] (message_items g d d0 m).
Proof.
  unfold message_items. repeat apply items_app.
  - each. apply definition_lives.
  - apply items_only, consts_live.
  - apply items_only, getters_live.
  - apply items_only. each. apply message_default_lives.
  - each; [apply message_read_lives|apply message_write_lives].
  - apply items_only. each. apply impl_own; [reflexivity|]. each. apply const_path_lives.
  - apply items_only. destruct (or_else (message_has_lifetime (g_passes g) d (lifetime_fuel d) [] m) false); [apply owned_live|]. each. apply try_from_lives.
Qed.
Lemma oneof_items_live o : In o (m_oneofs m) -> items_live [] (oneof_items g d o).
Proof.
  intros I. unfold oneof_items. each.
  - cbn [item_lives]. rewrite flat_map_app. cbn [flat_map variant_types rv_payload app]. rewrite app_nil_r.
    destruct right as (_ & R). destruct (R o I) as (it & E & D). unfold oneof_item in E. apply gbind_ok in E. destruct E as (b & Eb & E).
    apply gbind_ok in E. destruct E as (ts & Ets & E). injection E as <-. cbn in D. unfold oneof_lt. fold c. rewrite Eb. cbn [or_else].
    apply (data_is _ _ ts); [|exact D]. apply gmap_ok in Ets.
    assert (T : flat_map variant_types (flat_map (oneof_variant g d o) (o_fields o)) =
      map (fun f => if f_boxed f then tapp "Box" [GType (type_ast g d (f_typ f))] else type_ast g d (f_typ f)) (filter (visible c) (o_fields o))).
    { clear. induction (o_fields o) as [|f l IH]; [reflexivity|]. cbn [flat_map filter]. rewrite flat_map_app, IH. unfold oneof_variant. rewrite hidden_visible.
      destruct (visible c f); reflexivity. }
    rewrite T. refine (Forall2_map_l _ _ _ _ _ _ Ets). intros f r H. apply gbind_ok in H. destruct H as (t & Et & H). injection H as <-.
    pose proof (type_is g d _ _ Et) as X. destruct (f_boxed f); [apply is_type_wrap|]; exact X.
  - apply default_own. still.
Qed.
End Message.
