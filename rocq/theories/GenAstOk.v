(** The syntax trees of GenAst.v obey the rules of RustParseFacts.v, so that they
    are what the parser makes of their tokens. *)
From Coq Require Import String Ascii Arith ZArith Lia Bool.
From Verif Require Import Base Schema Keywords Modules Passes Gen GenCheck Lifetime RustTypes Emit Uses Output Paths GenText.
From Verif Require Import RustLex RustAst RustParse RustParseFacts GenAst LexFacts GenAstFacts.
Import Schema StringSyntax.
Local Open Scope string_scope.
Local Open Scope list_scope.
Local Open Scope nat_scope.

(** ** Names *)
Lemma name_of : forall x, rust_name x = true -> ok_name x = true.
Proof. intros x H. apply andb_true_iff in H. apply H. Qed.
Lemma seg_of : forall x, rust_name x = true -> is_seg x = true.
Proof. intros x H. apply name_seg, name_of, H. Qed.
Lemma segs_of : forall l, forallb rust_name l = true -> forallb is_seg l = true.
Proof. intros l. rewrite !forallb_forall. intros H x I. apply seg_of; auto. Qed.
Ltac no_key := intros; unfold ok_name, is_key; cbn; reflexivity.
Lemma mod_name : forall x, ok_name ("mod_" ++ x)%string = true.
Proof. no_key. Qed.
Lemma oneof_key : forall x, ok_name ("OneOf" ++ x)%string = true.
Proof. no_key. Qed.
Lemma get_name : forall x, ok_name ("get_" ++ x)%string = true.
Proof. no_key. Qed.
Lemma default_key : forall x, ok_name ("DEFAULT_" ++ x)%string = true.
Proof. no_key. Qed.
Fixpoint has_suffix (s k : text) : bool := String.eqb s k || match k with String _ k' => has_suffix s k' | EmptyString => false end.
Lemma suffix_of : forall x s, has_suffix s (x ++ s)%string = true.
Proof.
  induction x as [|a x IH]; intros s; cbn [append].
  - destruct s; cbn [has_suffix]; now rewrite String.eqb_refl.
  - cbn [has_suffix]. now rewrite IH, orb_true_r.
Qed.
Lemma no_suffix : forall x s, existsb (has_suffix s) keywords = false -> ok_name (x ++ s)%string = true.
Proof.
  intros x s H. unfold ok_name. apply negb_true_iff. destruct (is_key (x ++ s)%string) eqn:E; [|reflexivity]. exfalso. unfold is_key in E.
  apply existsb_exists in E. destruct E as (k & I & E). apply String.eqb_eq in E. subst k.
  assert (T : existsb (has_suffix s) keywords = true); [|congruence]. apply existsb_exists. eexists. split; [exact I|apply suffix_of].
Qed.
Lemma owned_name : forall x, ok_name (x ++ "Owned")%string = true.
Proof. intros x. now apply no_suffix. Qed.
Lemma inner_name : forall x, ok_name (x ++ "OwnedInner")%string = true.
Proof. intros x. now apply no_suffix. Qed.

(** ** Expressions *)
(** an operand: what can stand in a comparison and as a condition *)
Definition operand (k : nat) (e : rexp) : Prop :=
  ok_exp e = true /\ (lev e <=? k) = true /\ open e = false /\ exposed e = false /\ block_like (leftmost e) = false.
Definition default_reads (f : field) : Prop :=
  forall s, f_default f = Some s -> exists e,
    piece (if is_non_cow_string_or_byte (f_typ f) then word_closer else closer) s (print_exp e) /\
    operand (if is_non_cow_string_or_byte (f_typ f) then 0 else 2) e.
Lemma exp_of_is : forall C s e, C " "%char = true -> piece C s (print_exp e) -> ok_exp e = true -> exposed e = false -> exp_of s = e.
Proof.
  intros C s e K (t & st & A & B & D) O X. unfold exp_of, tokens_of, lex. rewrite A.
  assert (W : ends_well st = true).
  { specialize (D " "%char K). destruct st; try reflexivity; cbn in D; discriminate D. }
  rewrite W, B. rewrite <- (app_nil_r (print_exp e)) at 2. rewrite pexp_ok; [reflexivity|exact O|exact X|reflexivity|lia].
Qed.
Lemma reads_text : forall f, default_reads f -> default_text_ok f.
Proof.
  intros f H s E. destruct (H s E) as (e & P & O & _ & _ & X & _).
  assert (Q : exp_of s = e) by (eapply exp_of_is; [|exact P|exact O|exact X]; destruct (is_non_cow_string_or_byte (f_typ f)); reflexivity).
  now rewrite Q.
Qed.
Lemma reads_exp : forall f s, default_reads f -> f_default f = Some s -> operand (if is_non_cow_string_or_byte (f_typ f) then 0 else 2) (exp_of s).
Proof.
  intros f s H E. destruct (H s E) as (e & P & O). pose proof O as (O1 & _ & _ & X & _).
  assert (Q : exp_of s = e) by (eapply exp_of_is; [|exact P|exact O1|exact X]; destruct (is_non_cow_string_or_byte (f_typ f)); reflexivity).
  now rewrite Q.
Qed.

(** summands *)
Definition summand (e : rexp) : bool := ok_exp e && (lev e <=? 4) && negb (open e).
Lemma sum_ok : forall e l, summand e = true -> forallb summand l = true -> ok_exp (sum_of (e :: l)) = true.
Proof.
  intros e l H L. unfold summand in H. apply andb_true_iff in H. destruct H as [H H3]. apply andb_true_iff in H. destruct H as [H1 H2].
  destruct l as [|x l]; [exact H1|]. cbn [sum_of ok_exp]. rewrite H1, H2, H3. exact L.
Qed.
Lemma sum_left : forall e l, leftmost (sum_of (e :: l)) = leftmost e.
Proof. intros e [|x l]; reflexivity. Qed.

(** ** Lists *)
Lemma all_flat : forall A B (p : B -> bool) (f : A -> list B) l, (forall x, In x l -> forallb p (f x) = true) -> forallb p (flat_map f l) = true.
Proof.
  intros A B p f l. induction l as [|x l IH]; intros H; [reflexivity|]. cbn [flat_map]. rewrite forallb_app, H by now left.
  apply IH. intros y I. apply H. now right.
Qed.
Lemma all_map : forall A B (p : B -> bool) (f : A -> B) l, (forall x, In x l -> p (f x) = true) -> forallb p (map f l) = true.
Proof. intros A B p f l H. apply forallb_forall. intros y I. apply in_map_iff in I. destruct I as (x & <- & I). auto. Qed.
(** a statement that can stand anywhere *)
Definition closed_stmt (s : rstmt) : bool :=
  match s with
  | RSLet _ _ => true
  | RSExpr e semi => block_like e || (negb (block_like (leftmost e)) && semi)
  end.
Lemma ends_app : forall l r, forallb closed_stmt l = true -> ok_ends r = true -> ok_ends (l ++ r) = true.
Proof.
  induction l as [|s l IH]; intros r H R; [exact R|]. cbn [forallb app] in *. apply andb_true_iff in H. destruct H as [A B].
  destruct s as [p e|e semi]; cbn [ok_ends closed_stmt] in *; [auto|]. rewrite (IH r B R), andb_true_r.
  destruct (block_like e); [reflexivity|]. cbn [orb] in *. apply andb_true_iff in A. destruct A as [A1 A2]. now rewrite A1, A2.
Qed.
(** an arm that can stand anywhere *)
Definition closed_arm (a : rarm) : bool := match a with RArm _ e comma => is_block e || (negb (is_block (leftmost e)) && comma) end.
Lemma commas_app : forall l r, forallb closed_arm l = true -> ok_commas r = true -> ok_commas (l ++ r) = true.
Proof.
  induction l as [|s l IH]; intros r H R; [exact R|]. cbn [forallb app] in *. apply andb_true_iff in H. destruct H as [A B].
  destruct s as [p e comma]; cbn [ok_commas closed_arm] in *. rewrite (IH r B R), andb_true_r.
  destruct (is_block e); [reflexivity|]. cbn [orb] in *. apply andb_true_iff in A. destruct A as [A1 A2]. now rewrite A1, A2.
Qed.
Lemma ops_app : forall l f gs a, ok_ops l = true -> ok_ops (l ++ [OMethod f gs a]) = true.
Proof.
  induction l as [|o l IH]; intros f gs a H; [reflexivity|]. destruct o; cbn [app ok_ops] in *; auto.
  destruct l as [|o l]; [reflexivity|]. cbn [app] in *. apply andb_true_iff in H. destruct H as [A B]. rewrite A. exact (IH f gs a B).
Qed.
(** a method of an operand *)
Lemma post_ok : forall e f, ok_exp e = true -> (lev e <=? 1) = true -> open e = false -> ok_name f = true ->
  ok_exp (post e [method f []]) = true /\ lev (post e [method f []]) = 1 /\ open (post e [method f []]) = false /\
  exposed (post e [method f []]) = exposed e /\ leftmost (post e [method f []]) = leftmost e.
Proof.
  intros e f O L P N.
  assert (S : forall a ops, ok_exp a = true -> (lev a =? 0) = true -> open a = false -> ok_ops ops = true -> forallb ok_op ops = true ->
    ok_exp (REPost a (ops ++ [method f []])) = true).
  { clear - N. intros a ops O L P Q R. cbn [ok_exp]. rewrite O, L, P, forallb_app, R. unfold method. rewrite ops_app by exact Q.
    cbn [forallb ok_op]. rewrite N. destruct ops; reflexivity. }
  assert (T : forall a, ok_exp a = true -> (lev a =? 0) = true -> open a = false -> ok_exp (REPost a [method f []]) = true).
  { intros a A B C. now apply (S a []). }
  destruct e; try discriminate L; try discriminate P; cbn [post leftmost exposed open lev];
    repeat match goal with |- _ /\ _ => split end; try reflexivity; try (apply T; auto; fail).
  cbn [ok_exp] in O. repeat match goal with H : _ && _ = true |- _ => apply andb_true_iff in H; destruct H end.
  apply S; auto. now apply negb_true_iff.
Qed.

(** ** Paths *)
Lemma spath_ok : forall l gs, forallb is_seg l = true -> forallb ok_garg gs = true -> forallb ok_tseg (spath l gs) = true.
Proof.
  induction l as [|x l IH]; intros gs H G; [reflexivity|]. cbn [forallb] in H. apply andb_true_iff in H. destruct H as [A B].
  cbn [spath]. destruct l as [|y l]; [cbn [forallb ok_tseg]; now rewrite A, G|]. cbn [forallb ok_tseg]. rewrite A. exact (IH gs B G).
Qed.
Lemma spath_nonempty : forall l gs, nonempty (spath l gs) = nonempty l.
Proof. intros [|x [|y l]] gs; reflexivity. Qed.
Lemma tpath_ok : forall l gs, nonempty l = true -> forallb is_seg l = true -> forallb ok_garg gs = true -> ok_ty (tpath l gs) = true.
Proof. intros l gs N S G. cbn [tpath ok_ty]. now rewrite spath_nonempty, N, spath_ok. Qed.
Lemma epath_ok : forall l, nonempty l = true -> forallb is_seg l = true -> ok_exp (epath l) = true.
Proof. intros l N S. cbn [epath ok_exp]. unfold ok_path. now rewrite spath_nonempty, N, spath_ok. Qed.
Lemma call_ok : forall l args, ok_exp (epath l) = true -> forallb ok_exp args = true -> ok_exp (call (epath l) args) = true.
Proof. intros l args A B. unfold call. cbn [ok_exp lev open nonempty ok_ops forallb ok_op epath] in *. rewrite A, B. reflexivity. Qed.
Lemma lt_args_ok : forall b, forallb ok_garg (lt_args b) = true.
Proof. intros []; reflexivity. Qed.
Lemma nonempty_snoc : forall A (l : list A) x, nonempty (l ++ [x]) = true.
Proof. intros A [|y l] x; reflexivity. Qed.
Lemma not_one_snoc : forall A (l : list A) x, nonempty l = true -> not_one (l ++ [x]) = true.
Proof. intros A [|y [|z l]] x H; [discriminate| |]; reflexivity. Qed.

(** ** The tactic *)
Ltac and_split := repeat (apply andb_true_intro; split).
Ltac lookup := repeat match goal with H : ?x = true |- context [?x] => rewrite H end.
Ltac ok_cbn := cbn -[is_key is_seg ok_name append show gen_tag gen_sizeof_varint field_tag proto_type].
Ltac ok_leaf := solve [assumption | reflexivity | auto].
Ltac okt := ok_cbn; and_split; try ok_leaf.
Lemma proto_name : forall p t, ok_name (String "r" (String "e" (String "a" (String "d" (String "_" (p ++ proto_type t)))))) = true.
Proof. no_key. Qed.
Lemma write_name : forall t, ok_name (String "w" (String "r" (String "i" (String "t" (String "e" (String "_" (proto_type t))))))) = true.
Proof. no_key. Qed.
Lemma read_name : forall t, ok_name ("read_" ++ proto_type t)%string = true.
Proof. no_key. Qed.
Lemma write_name' : forall t, ok_name ("write_" ++ proto_type t)%string = true.
Proof. no_key. Qed.

(** [s] is a place for what is sized or written *)
Definition place (t : field_type) (s : rexp) : Prop :=
  ok_exp s = true /\ (lev s <=? 2) = true /\ open s = false /\ (is_non_cow_string_or_byte t = true -> (lev s <=? 1) = true).
Lemma var_place : forall t x, is_seg x = true -> place t (var x).
Proof. intros t x H. unfold place. repeat match goal with |- _ /\ _ => split end; try reflexivity. ok_cbn. unfold ok_path. ok_cbn. now rewrite H. Qed.
Lemma size_terms_ok : forall t s, place t s -> forallb summand (size_terms t s) = true.
Proof.
  induction t; intros s (A & B & D & F); cbn [size_terms]; try reflexivity;
    try (unfold summand; ok_cbn; rewrite ?A, ?B, ?D; reflexivity).
  - unfold summand. destruct (post_ok s "len") as (P1 & P2 & P3 & _); auto. revert P1 P2 P3. generalize (post s [method "len" []]).
    intros e P1 P2 P3. ok_cbn. now rewrite P1.
  - unfold summand. destruct (post_ok s "len") as (P1 & P2 & P3 & _); auto. revert P1 P2 P3. generalize (post s [method "len" []]).
    intros e P1 P2 P3. ok_cbn. now rewrite P1.
  - cbn [forallb]. rewrite forallb_app, IHt1, IHt2; [reflexivity|now apply var_place..].
Qed.
Lemma size_terms_cons : forall t s, exists e l, size_terms t s = e :: l.
Proof. destruct t; intros s; cbn [size_terms]; eexists _, _; reflexivity. Qed.
Lemma size_sum_ok : forall t s, place t s -> ok_exp (sum_of (size_terms t s)) = true.
Proof.
  intros t s P. pose proof (size_terms_ok t s P) as Q. destruct (size_terms_cons t s) as (e & l & E). rewrite E in *.
  cbn [forallb] in Q. apply andb_true_iff in Q. now apply sum_ok.
Qed.
Lemma write_op_ok : forall t s b, ok_exp s = true -> (lev s <=? 2) = true -> open s = false -> ok_op (write_op t s b) = true.
Proof.
  induction t; intros s b A B D; cbn [write_op]; try reflexivity;
    try (ok_cbn; rewrite ?A, ?B, ?D; reflexivity).
  - ok_cbn. destruct b; ok_cbn; now rewrite A.
  - cbn [method ok_op forallb ok_garg]. rewrite size_sum_ok.
    + cbn [num ok_exp is_lit on_writer closure nonempty forallb bind ok_pat]. 
      cbn [lev open ok_ops var epath spath forallb ok_op]. unfold ok_path. cbn [nonempty forallb ok_tseg].
      rewrite IHt1, IHt2 by reflexivity. destruct (write_op t1 (var "k") false), (write_op t2 (var "v") false); reflexivity.
    + unfold place. repeat match goal with |- _ /\ _ => split end; try reflexivity.
Qed.
Lemma op_alone : forall o, ok_ops [o] = true.
Proof. intros []; reflexivity. Qed.

Section Ok.
Variable g : gen_config.
Let c : config := g_passes g.
Variable d d0 : file_descriptor.
Hypothesis message_names : forall i m, get_message d i = Some m -> forallb rust_name (message_path d m) = true.
Hypothesis enum_names : forall q e, get_enum d q = Some e -> forallb rust_name (enum_path d e) = true.
Hypothesis value_names : forall q e p, get_enum d0 q = Some e -> qualified_value e = Some p -> forallb rust_name p = true.

Lemma type_ok : forall t, ok_ty (type_ast g d t) = true.
Proof.
  induction t; cbn [type_ast]; try reflexivity.
  - match goal with |- context [get_enum d ?i] => destruct (get_enum d i) as [x|] eqn:E end; [|reflexivity]. apply tpath_ok.
    + apply nonempty_snoc.
    + apply segs_of. eauto.
    + reflexivity.
  - match goal with |- context [get_message d ?i] => destruct (get_message d i) as [x|] eqn:E end; [|reflexivity]. apply tpath_ok.
    + apply nonempty_snoc.
    + apply segs_of. eauto.
    + apply lt_args_ok.
  - apply tpath_ok; try reflexivity. cbn [forallb ok_garg]. now rewrite IHt1, IHt2.
Qed.
Lemma read_ok : forall t, ok_exp (read_exp d t) = true.
Proof.
  intros t. unfold read_exp. destruct t; try reflexivity.
  match goal with |- context [get_message d ?i] => destruct (get_message d i) as [x|] eqn:E end; [|reflexivity]. cbn [ok_exp]. cbn [lev open nonempty ok_ops forallb ok_op ok_garg].
  rewrite tpath_ok; [reflexivity|apply nonempty_snoc|apply segs_of; eauto|reflexivity].
Qed.
Lemma read_boxed_ok : forall t, ok_exp (read_boxed_exp d t) = true.
Proof. intros t. destruct t; try reflexivity; exact (read_ok _). Qed.
Lemma singular_default_ok : forall t, operand 2 (singular_default_exp d d0 t).
Proof.
  intros t. unfold operand. destruct t; cbn [singular_default_exp];
    try (repeat match goal with |- _ /\ _ => split end; reflexivity).
  - match goal with |- context [get_enum d0 ?i] => destruct (get_enum d0 i) as [x|] eqn:E end; [|repeat match goal with |- _ /\ _ => split end; reflexivity].
    destruct (qualified_value x) as [p|] eqn:V; [|repeat match goal with |- _ /\ _ => split end; reflexivity].
    repeat match goal with |- _ /\ _ => split end; try reflexivity. apply epath_ok; [|apply segs_of; eauto].
    unfold qualified_value in V. destruct (en_fields x) as [|(v, z) l]; [discriminate|]. injection V as <-.
    destruct (if String.eqb (en_module x) "" then [] else split_on "." (en_module x)); reflexivity.
  - match goal with |- context [get_message d ?i] => destruct (get_message d i) as [x|] eqn:E end; repeat match goal with |- _ /\ _ => split end; try reflexivity.
    unfold call. cbn [ok_exp lev open nonempty ok_ops forallb ok_op epath].
    unfold ok_path. rewrite spath_nonempty, nonempty_snoc, spath_ok; [reflexivity| |reflexivity].
    rewrite forallb_app, segs_of; [reflexivity|]. eauto.
Qed.

Section Field.
Variable f : field.
Hypothesis name_ok : ok_name (f_name f) = true.
Hypothesis default_ok : default_reads f.
Lemma field_seg : is_seg (f_name f) = true.
Proof. apply name_seg, name_ok. Qed.
Lemma const_type_ok : ok_ty (const_type g d f) = true.
Proof. unfold const_type. pose proof (type_ok (f_typ f)). destruct (f_typ f); auto. Qed.
Lemma const_seg : is_seg (const_name f) = true.
Proof. apply name_seg, default_key. Qed.
Lemma getter_ok : forallb ok_item (getter_items g d f) = true.
Proof.
  unfold getter_items. destruct (negb (must_generate_getter g d f)); [reflexivity|]. cbv zeta.
  pose proof const_type_ok as T. pose proof const_seg as S. pose proof (get_name (f_name f)) as N.
  cbn [forallb ok_item fn]. rewrite andb_true_r. unfold ok_fn. cbn [fn_name fn_generics fn_params fn_ret fn_body]. rewrite N.
  replace (match (if is_cow (f_typ f) then RTRef None false (const_type g d f) else const_type g d f) with t => ok_ty t end) with true
    by (destruct (is_cow (f_typ f)); cbn [ok_ty]; now rewrite T).
  unfold ok_block. cbn [forallb result ok_ends]. 
  destruct (f_typ f); cbn [is_cow negb]; ok_cbn; unfold ok_path; ok_cbn; rewrite ?name_ok, ?S; reflexivity.
Qed.
Lemma const_ok : forallb ok_item (const_items g d f) = true.
Proof.
  unfold const_items. destruct (negb _); [reflexivity|]. destruct (f_default f) as [s|] eqn:E; [|reflexivity].
  cbn [forallb ok_item]. rewrite const_type_ok. unfold const_name. rewrite default_key.
  destruct (reads_exp f s default_ok E) as [O _]. now rewrite O.
Qed.
Lemma default_exp_ok : operand 2 (default_exp g d d0 f).
Proof.
  unfold default_exp. destruct (generated_type_of (f_freq f)).
  - destruct (f_boxed f); [repeat split|]. destruct (freq_is_optional (f_freq f)); [repeat split|].
    destruct (f_default f) as [s|] eqn:E; [|apply singular_default_ok].
    pose proof (reads_exp f s default_ok E) as (A & B & D & X & F).
    destruct (f_typ f); cbn [is_non_cow_string_or_byte] in B; unfold operand; auto 10.
    + destruct (post_ok (exp_of s) "to_string") as (P1 & P2 & P3 & P4 & P5); auto. { destruct (lev (exp_of s)); [reflexivity|discriminate B]. }
      rewrite P1, P2, P3, P4, P5. repeat split; auto.
    + destruct (post_ok (exp_of s) "to_vec") as (P1 & P2 & P3 & P4 & P5); auto. { destruct (lev (exp_of s)); [reflexivity|discriminate B]. }
      rewrite P1, P2, P3, P4, P5. repeat split; auto.
  - destruct (f_is_packed f && is_fixed_size (f_typ f) && negb (c_dont_use_cow (g_passes g))); repeat split.
  - repeat split.
Qed.
Lemma inits_ok : forallb ok_init (field_inits g d d0 f) = true.
Proof.
  unfold field_inits. destruct (hidden g f); [reflexivity|]. cbn [forallb ok_init]. rewrite name_ok.
  destruct default_exp_ok as [O _]. now rewrite O.
Qed.
Lemma field_type_ok : ok_ty (field_type_ast g d f) = true.
Proof.
  unfold field_type_ast. pose proof (type_ok (f_typ f)) as T. revert T. generalize (type_ast g d (f_typ f)). intros t T.
  destruct (f_boxed f); [ok_cbn; now rewrite T|]. destruct (generated_type_of (f_freq f)); [|destruct (f_is_packed f && is_fixed_size (f_typ f) && negb (c_dont_use_cow (g_passes g)))|exact T].
  - destruct (freq_is_optional (f_freq f)); [ok_cbn; now rewrite T|exact T].
  - ok_cbn; now rewrite T.
  - ok_cbn; now rewrite T.
Qed.
Lemma deprecated_ok : forallb ok_attr (deprecated_attr f) = true.
Proof. unfold deprecated_attr. now destruct (f_deprecated f). Qed.
Lemma struct_fields_ok : forallb ok_field (struct_fields g d f) = true.
Proof.
  unfold struct_fields. destruct (hidden g f); [reflexivity|]. cbn [forallb]. unfold ok_field. cbn [rf_attrs rf_name rf_type].
  now rewrite deprecated_ok, name_ok, field_type_ok.
Qed.
Lemma closure_ok : forall t, ok_exp (read_closure d t) = true.
Proof. intros t. unfold read_closure. pose proof (read_ok t) as R. revert R. generalize (read_exp d t). intros e R. ok_cbn. now rewrite R. Qed.
Lemma msg_field_ok : forall x ops, ok_name x = true -> forallb ok_op ops = true -> ok_ops (OField x :: ops) = true -> ok_exp (msg_field x ops) = true.
Proof. intros x ops N O P. unfold msg_field. cbn [ok_exp forallb ok_op nonempty lev]. rewrite P, N, O. reflexivity. Qed.
Lemma self_field_ok : forall x ops, ok_name x = true -> forallb ok_op ops = true -> ok_ops (OField x :: ops) = true -> ok_exp (self_field x ops) = true.
Proof. intros x ops N O P. unfold self_field. cbn [ok_exp forallb ok_op nonempty lev]. rewrite P, N, O. reflexivity. Qed.
Lemma read_arms_ok : forallb ok_arm (read_arms g d f) = true /\ forallb closed_arm (read_arms g d f) = true.
Proof.
  unfold read_arms. destruct (hidden g f); [split; reflexivity|]. cbv zeta.
  pose proof (read_ok (f_typ f)) as R. pose proof (read_boxed_ok (f_typ f)) as B.
  assert (M : ok_exp (msg_field (f_name f) []) = true) by now apply msg_field_ok.
  assert (A : forall e, ok_exp e = true -> forallb ok_arm [RArm (tag_pattern f) (REAssign (msg_field (f_name f) []) e) true] = true /\
    forallb closed_arm [RArm (tag_pattern f) (REAssign (msg_field (f_name f) []) e) true] = true).
  { intros e E. cbn [forallb ok_arm ok_exp]. rewrite E, M. split; reflexivity. }
  destruct (f_boxed f).
  { apply A. destruct (freq_is_map (f_freq f)); [reflexivity|]. revert B. generalize (read_boxed_exp d (f_typ f)). intros e B. ok_cbn. now rewrite B. }
  destruct (generated_type_of (f_freq f)).
  - destruct (freq_is_optional (f_freq f)); apply A; [|exact R]. revert R. generalize (read_exp d (f_typ f)). intros e R. ok_cbn. now rewrite R.
  - destruct (f_is_packed f); [destruct (is_fixed_size (f_typ f)); apply A|].
    + reflexivity.
    + pose proof (closure_ok (f_typ f)) as K. revert K. generalize (read_closure d (f_typ f)). intros e K. ok_cbn. now rewrite K.
    + cbn [forallb ok_arm closed_arm]. rewrite msg_field_ok; auto. cbn [method forallb ok_op]. now rewrite R.
  - destruct (f_typ f); try (split; reflexivity). split; [|reflexivity]. cbn [forallb ok_arm].
    match goal with |- context [read_closure d ?k] => pose proof (closure_ok k) as K1; revert K1; generalize (read_closure d k); intros e1 K1 end.
    match goal with |- context [read_closure d ?k] => pose proof (closure_ok k) as K2; revert K2; generalize (read_closure d k); intros e2 K2 end.
    ok_cbn. rewrite K1, K2, name_ok. reflexivity.
Qed.
Lemma self_place : forall t, place t (self_field (f_name f) []).
Proof. intros t. unfold place. rewrite self_field_ok; auto. Qed.
Lemma addition_ok : forall s, place (f_typ f) s -> forallb summand (size_addition_terms f s) = true.
Proof. intros s P. unfold size_addition_terms. cbn [forallb]. now rewrite size_terms_ok. Qed.
Lemma addition_sum_ok : forall s, place (f_typ f) s -> ok_exp (sum_of (size_addition_terms f s)) = true.
Proof. intros s P. apply sum_ok; [reflexivity|]. now apply size_terms_ok. Qed.
Lemma option_pat_ok : ok_pat (option_pat f) = true.
Proof. unfold option_pat. now destruct (f_boxed f || negb (is_primitive (f_typ f))). Qed.
Lemma deref_pat_ok : forall t x, ok_name x = true -> ok_pat (deref_pat t x) = true.
Proof. intros t x H. unfold deref_pat. now destruct (need_to_dereference t). Qed.
Lemma self_summand : forall ops, forallb ok_op ops = true -> ok_ops (OField (f_name f) :: ops) = true -> summand (self_field (f_name f) ops) = true.
Proof. intros ops O P. unfold summand. now rewrite self_field_ok. Qed.
Lemma if_summand : forall e b b', ok_exp e = true -> exposed e = false -> ok_block b = true -> ok_block b' = true -> summand (REIf e b (Some b')) = true.
Proof. intros e b b' A B D F. unfold summand. cbn [ok_exp lev open]. rewrite A, B. unfold ok_block in *. now rewrite D, F. Qed.
Lemma result_ok : forall e, ok_exp e = true -> block_like (leftmost e) = false -> ok_block [result e] = true.
Proof. intros e A B. unfold ok_block. cbn [forallb result ok_stmt ok_ends]. rewrite A, B. now destruct (block_like e). Qed.
Lemma run_ok : forall e, ok_exp e = true -> block_like (leftmost e) = false -> ok_block [run e] = true.
Proof. intros e A B. unfold ok_block. cbn [forallb run ok_stmt ok_ends]. rewrite A, B. now destruct (block_like e). Qed.
Lemma field_size_ok : forallb summand (field_size_terms g d d0 f) = true.
Proof.
  unfold field_size_terms. destruct (hidden g f); [reflexivity|]. cbv zeta.
  pose proof default_exp_ok as (D1 & D2 & D3 & D4 & D5).
  destruct (generated_type_of (f_freq f)).
  - destruct (has_presence f); [destruct (freq_is_optional (f_freq f))|].
    + cbn [forallb]. rewrite self_summand; [reflexivity| |reflexivity]. cbn [method forallb ok_op closure ok_exp nonempty].
      rewrite option_pat_ok, addition_sum_ok; [reflexivity|now apply var_place].
    + apply addition_ok, self_place.
    + cbn [forallb]. rewrite if_summand; [reflexivity| | | |].
      * cbn [ok_exp]. rewrite self_field_ok, D1; auto. cbn [self_field lev open Nat.leb negb andb].
        revert D2. destruct (lev (default_exp g d d0 f)) as [|[|[|n]]]; [reflexivity..|discriminate].
      * exact D4.
      * reflexivity.
      * apply result_ok; [apply addition_sum_ok, self_place|]. unfold size_addition_terms. now rewrite sum_left.
  - destruct (f_is_packed f).
    + cbn [forallb]. rewrite if_summand; [reflexivity| |reflexivity|reflexivity|].
      * now apply self_field_ok.
      * apply result_ok; [|reflexivity].
        assert (Q : ok_exp (match wire_type_num_non_packed (f_typ f) with
                | 1%Z => REMul (self_field (f_name f) [method "len" []]) (RELit (TNum "8"))
                | 5%Z => REMul (self_field (f_name f) [method "len" []]) (RELit (TNum "4"))
                | _ => self_field (f_name f) [method "iter" []; method "map" [closure [RPRef (bind "s")] (sum_of (size_terms (f_typ f) (var "s")))]; sum_usize]
                end) = true).
        { assert (V : place (f_typ f) (var "s")) by now apply var_place. pose proof (size_sum_ok _ _ V) as W. revert W.
          generalize (sum_of (size_terms (f_typ f) (var "s"))). intros e W.
          destruct (wire_type_num_non_packed (f_typ f)) as [|[[?|[?|?|]|]|?|]|?]; ok_cbn; rewrite ?name_ok, ?W; reflexivity. }
        revert Q. generalize (match wire_type_num_non_packed (f_typ f) with
                | 1%Z => REMul (self_field (f_name f) [method "len" []]) (RELit (TNum "8"))
                | 5%Z => REMul (self_field (f_name f) [method "len" []]) (RELit (TNum "4"))
                | _ => self_field (f_name f) [method "iter" []; method "map" [closure [RPRef (bind "s")] (sum_of (size_terms (f_typ f) (var "s")))]; sum_usize]
                end). intros e Q. ok_cbn. now rewrite Q.
    + assert (V : place (f_typ f) (var "s")) by now apply var_place. pose proof (size_terms_ok _ _ V) as W.
      assert (W2 : ok_exp (sum_of (tag_size f :: size_terms (f_typ f) (var "s"))) = true) by now apply sum_ok. revert W2.
      generalize (sum_of (tag_size f :: size_terms (f_typ f) (var "s"))). intros e W2. pose proof (deref_pat_ok (f_typ f) "s" eq_refl) as R.
      revert R. generalize (deref_pat (f_typ f) "s"). intros p R. unfold summand. cbn [forallb].
      destruct (wire_type_num_non_packed (f_typ f)) as [|[[?|[?|?|]|]|?|]|?]; ok_cbn; rewrite ?name_ok, ?W2, ?R; reflexivity.
  - destruct (f_typ f) as [| | | | | | | | | | | | | | | | | | | |k v]; try reflexivity.
    assert (W : ok_exp (sum_of (size_terms (TMap k v) zero)) = true). { apply size_sum_ok. unfold place. repeat split. }
    revert W. generalize (sum_of (size_terms (TMap k v) zero)). intros e W.
    pose proof (deref_pat_ok k "k" eq_refl) as R1. revert R1. generalize (deref_pat k "k"). intros p1 R1.
    pose proof (deref_pat_ok v "v" eq_refl) as R2. revert R2. generalize (deref_pat v "v"). intros p2 R2.
    unfold summand. cbn [forallb]. ok_cbn. rewrite name_ok, R1, R2, W. reflexivity.
Qed.

Lemma unwrapping_ok : forall b s, ok_exp s = true -> (lev s <=? 2) = true -> open s = false -> exposed s = false -> block_like (leftmost s) = false ->
  operand 2 (unwrapping_exp f b s).
Proof.
  intros b s A B D X L. unfold unwrapping_exp. cbv zeta.
  assert (Q : operand 2 (if f_boxed f then REUn UDeref (REParen s) else s)).
  { unfold operand. destruct (f_boxed f); [|auto 6]. cbn [ok_exp lev open exposed leftmost block_like]. rewrite A. repeat split. }
  revert Q. generalize (if f_boxed f then REUn UDeref (REParen s) else s). intros e Q.
  assert (R : forall e, operand 2 e -> operand 2 (REUn URef e)).
  { clear. unfold operand. intros e (A & B & D & X & L). cbn [ok_exp lev open exposed leftmost block_like]. rewrite A, B, D, X. repeat split. }
  destruct (negb (need_to_dereference (f_typ f)) && negb (is_cow (f_typ f)) && negb (freq_is_optional (f_freq f)) && negb (is_non_cow_string_or_byte (f_typ f)));
    (destruct (negb b); [destruct (is_cow (f_typ f) || is_non_cow_string_or_byte (f_typ f))|]); auto.
Qed.
Lemma with_tag_ok : forall o ops, ok_op o = true -> forallb ok_op ops = true -> ok_ops ops = true -> ok_exp (write_with_tag f o ops) = true.
Proof.
  intros o ops A B D. unfold write_with_tag.
  pose proof (op_alone o) as Q. cbn [ok_ops] in Q. ok_cbn. rewrite Q, A, B. destruct ops; cbn [ok_ops] in *; rewrite ?D; reflexivity.
Qed.
Lemma write_method_ok : forall s ops, operand 2 s -> forallb ok_op ops = true -> ok_ops ops = true -> ok_exp (write_method_exp f s ops) = true.
Proof. intros s ops (A & B & D & _) O P. apply with_tag_ok; auto. now apply write_op_ok. Qed.
Lemma field_writes_ok : forallb ok_stmt (field_writes g d d0 f) = true /\ forallb closed_stmt (field_writes g d d0 f) = true.
Proof.
  unfold field_writes. destruct (hidden g f); [split; reflexivity|]. cbv zeta.
  pose proof default_exp_ok as (D1 & D2 & D3 & D4 & D5).
  assert (Self : operand 2 (unwrapping_exp f false (self_field (f_name f) []))) by (apply unwrapping_ok; try reflexivity; now apply self_field_ok).
  destruct (generated_type_of (f_freq f)).
  - destruct (has_presence f); [destruct (freq_is_optional (f_freq f))|]; (split; [|reflexivity]); cbn [forallb run result ok_stmt].
    + rewrite self_field_ok; [reflexivity|exact name_ok| |reflexivity]. cbn [method forallb ok_op closure ok_exp nonempty].
      rewrite option_pat_ok, write_method_ok; [reflexivity|now apply unwrapping_ok|reflexivity..].
    + rewrite write_method_ok; auto.
    + rewrite andb_true_r. cbn [ok_exp].
      destruct (unwrapping_ok true (self_field (f_name f) [])) as (U1 & U2 & U3 & U4 & U5); try reflexivity; [now apply self_field_ok|].
      rewrite U1, U3, D1. cbn [exposed forallb ok_stmt ok_ends run]. rewrite U4, D4, write_method_ok by auto.
      assert (V : forall n, (n <=? 2) = true -> (n <=? 5) = true) by (intros [|[|[|n]]]; [reflexivity..|discriminate]).
      rewrite (V _ U2), (V _ D2). reflexivity.
  - destruct (f_is_packed f); [destruct (is_fixed_size (f_typ f))|]; (split; [|reflexivity]); cbn [forallb run result ok_stmt]; rewrite andb_true_r.
    + ok_cbn. rewrite name_ok. reflexivity.
    + assert (V : place (f_typ f) (var "m")) by now apply var_place. pose proof (size_sum_ok _ _ V) as W. revert W.
      generalize (sum_of (size_terms (f_typ f) (var "m"))). intros e W.
      assert (P : ok_op (write_op (f_typ f) (var "m") (f_boxed f)) = true) by now apply write_op_ok. revert P.
      generalize (write_op (f_typ f) (var "m") (f_boxed f)). intros o P. pose proof (op_alone o) as Q. cbn [ok_ops] in Q. ok_cbn. rewrite name_ok, Q, P, W. reflexivity.
    + assert (P : ok_exp (write_with_tag f (write_op (f_typ f) (if need_to_dereference (f_typ f) then REUn UDeref (var "s") else var "s") (f_boxed f)) [OTry]) = true).
      { apply with_tag_ok; auto. apply write_op_ok; now destruct (need_to_dereference (f_typ f)). }
      revert P. unfold write_with_tag. generalize [method "write_with_tag"
        [num (field_tag f); on_writer (write_op (f_typ f) (if need_to_dereference (f_typ f) then REUn UDeref (var "s") else var "s") (f_boxed f))]; OTry].
      intros ops P. cbn [ok_exp] in P |- *. cbn [forallb ok_stmt run ok_ends]. rewrite self_field_ok by auto. cbn -[is_key is_seg ok_name] in P. ok_cbn. rewrite P. reflexivity.
  - destruct (f_typ f) as [| | | | | | | | | | | | | | | | | | | |k v]; try (split; reflexivity). split; [|reflexivity].
    cbn [forallb result run ok_stmt ok_exp ok_ends]. rewrite self_field_ok by auto. rewrite with_tag_ok; [|apply write_op_ok; reflexivity|reflexivity..].
    cbn [ok_pat forallb not_one]. rewrite !deref_pat_ok by reflexivity. reflexivity.
Qed.
End Field.

Section Oneof.
Variable o : oneof.
Hypothesis o_name_ok : ok_name (o_name o) = true.
Hypothesis o_path_ok : forallb rust_name (oneof_path d o) = true.
Hypothesis o_fields_ok : forall f, In f (o_fields o) -> ok_name (f_name f) = true.
Lemma path_nonempty : nonempty (oneof_path d o) = true.
Proof. apply nonempty_snoc. Qed.
Lemma path_segs : forall x, is_seg x = true -> forallb is_seg (oneof_path d o ++ [x]) = true.
Proof. intros x H. rewrite forallb_app, segs_of by exact o_path_ok. cbn [forallb]. now rewrite H. Qed.
Lemma oneof_init_ok : ok_init (oneof_init d o) = true.
Proof. unfold oneof_init. cbn [ok_init]. rewrite o_name_ok. apply epath_ok; [apply nonempty_snoc|now apply path_segs]. Qed.
Lemma variants_ok : forallb ok_variant (flat_map (oneof_variant g d o) (o_fields o)) = true.
Proof.
  apply all_flat. intros f I. unfold oneof_variant. destruct (hidden g f); [reflexivity|]. cbn [forallb]. unfold ok_variant.
  cbn [rv_attrs rv_name rv_payload]. rewrite deprecated_ok, o_fields_ok by exact I. pose proof (type_ok (f_typ f)) as T.
  destruct (f_boxed f); [|now rewrite T]. revert T. generalize (type_ast g d (f_typ f)). intros t T. ok_cbn. now rewrite T.
Qed.
Lemma lifetimes_ok : forall x b, is_seg x = true -> ok_ty (tapp x (lt_args b)) = true.
Proof. intros x b H. apply tpath_ok; [reflexivity|cbn [forallb]; now rewrite H|apply lt_args_ok]. Qed.
Lemma default_impl_ok : forall l t e, ok_ty t = true -> ok_exp e = true -> block_like (leftmost e) = false -> ok_item (default_impl l t e) = true.
Proof.
  intros l t e T E B. unfold default_impl. cbn [ok_item forallb fn ok_ty tname tpath spath ok_tseg]. rewrite T. unfold ok_fn.
  cbn [fn_name fn_generics fn_params fn_ret fn_body forallb]. rewrite result_ok by assumption. reflexivity.
Qed.
Lemma oneof_items_ok : forallb ok_item (oneof_items g d o) = true.
Proof.
  unfold oneof_items. cbn [forallb]. unfold oneof_name. pose proof (oneof_key (o_name o)) as K. pose proof (name_seg _ K) as S.
  rewrite default_impl_ok; [|now apply lifetimes_ok|apply epath_ok; [reflexivity|cbn [forallb]; now rewrite S]|reflexivity].
  cbn [ok_item]. rewrite forallb_app, variants_ok, K. reflexivity.
Qed.
Lemma oneof_field_ok : ok_field (oneof_field g d o) = true.
Proof.
  unfold oneof_field, ok_field. cbn [rf_attrs rf_name rf_type]. rewrite o_name_ok.
  apply tpath_ok; [apply path_nonempty|apply segs_of, o_path_ok|apply lt_args_ok].
Qed.
Lemma shown_ok : forall f, In f (oneof_shown g o) -> ok_name (f_name f) = true.
Proof. intros f I. unfold oneof_shown in I. apply filter_In in I. now apply o_fields_ok. Qed.
Lemma oneof_read_arms_ok : forallb ok_arm (oneof_read_arms g d o) = true /\ forallb closed_arm (oneof_read_arms g d o) = true.
Proof.
  unfold oneof_read_arms. split; apply all_map; intros f I; [|reflexivity]. pose proof (shown_ok f I) as N. cbn [ok_arm ok_exp].
  rewrite msg_field_ok by auto. 
  assert (P : ok_exp (epath (oneof_path d o ++ [f_name f])) = true) by (apply epath_ok; [apply nonempty_snoc|apply path_segs, name_seg, N]).
  assert (V : ok_exp (if f_boxed f then call (epath ["Box"; "new"]) [read_boxed_exp d (f_typ f)] else read_exp d (f_typ f)) = true).
  { destruct (f_boxed f); [|apply read_ok]. pose proof (read_boxed_ok (f_typ f)) as B. revert B. generalize (read_boxed_exp d (f_typ f)).
    intros e B. ok_cbn. now rewrite B. }
  rewrite call_ok; [reflexivity|exact P|cbn [forallb]; now rewrite V].
Qed.
Lemma pattern_ok : forall f p, In f (oneof_shown g o) -> ok_pat p = true -> ok_pat (oneof_pattern d o f p) = true.
Proof.
  intros f p I P. unfold oneof_pattern. cbn [ok_pat]. rewrite nonempty_snoc, path_segs by (apply name_seg, shown_ok, I). cbn [forallb]. now rewrite P.
Qed.
Lemma none_ok : ok_pat (oneof_none d o) = true.
Proof. unfold oneof_none. cbn [ok_pat]. rewrite nonempty_snoc, path_segs, not_one_snoc; auto. apply path_nonempty. Qed.
Lemma oneof_size_ok : summand (oneof_size g d o) = true.
Proof.
  unfold oneof_size, summand. cbn [ok_exp lev open exposed negb]. rewrite self_field_ok by auto.
  rewrite forallb_app, commas_app; [|clear|reflexivity].
  - cbn [forallb ok_arm]. rewrite none_ok. rewrite all_map; [reflexivity|]. intros f I.
    destruct (is_fixed_size (f_typ f)) eqn:F; [|destruct (need_to_dereference (f_typ f)) eqn:N]; cbn [ok_arm]; rewrite pattern_ok by auto.
    + apply sum_ok; [reflexivity|]. apply size_terms_ok. unfold place. repeat split.
    + apply sum_ok; [reflexivity|]. apply size_terms_ok. unfold place. repeat split. revert N. now destruct (f_typ f).
    + apply sum_ok; [reflexivity|]. apply size_terms_ok, var_place. reflexivity.
  - apply all_map. intros f _. destruct (is_fixed_size (f_typ f)); [|destruct (need_to_dereference (f_typ f))]; cbn [closed_arm]; rewrite sum_left; cbn;
      now rewrite orb_true_r.
Qed.
Lemma oneof_write_ok : ok_stmt (oneof_write g d o) = true /\ closed_stmt (oneof_write g d o) = true.
Proof.
  split; [|reflexivity]. unfold oneof_write, result. cbn [ok_stmt ok_exp lev exposed negb]. rewrite self_field_ok by auto.
  rewrite forallb_app, commas_app; [|apply all_map; reflexivity|reflexivity].
  cbn [forallb ok_arm]. rewrite none_ok, all_map; [reflexivity|]. intros f I. cbn [ok_arm]. rewrite pattern_ok by auto.
  pose proof (result_ok (write_with_tag f (write_op (f_typ f) (if need_to_dereference (f_typ f) || f_boxed f then REUn UDeref (var "m") else var "m") (f_boxed f)) [OTry])) as R.
  apply R; [|reflexivity]. apply with_tag_ok; auto. apply write_op_ok; now destruct (need_to_dereference (f_typ f) || f_boxed f).
Qed.
End Oneof.

Section Enum.
Variables e e0 : enumerator.
Hypothesis e_name_ok : ok_name (en_name e) = true.
Hypothesis e_fields_ok : forall f, In f (en_fields e) -> ok_name (fst f) = true.
Hypothesis e0_ok : ok_name (en_name e0) = true /\ forall v x l, en_fields e0 = (v, x) :: l -> ok_name v = true.
Lemma enum_definition_ok : ok_item (enum_definition e) = true.
Proof.
  unfold enum_definition. cbn [ok_item]. rewrite e_name_ok, all_map; [reflexivity|]. intros f I. unfold ok_variant. cbn [rv_attrs rv_name rv_payload forallb].
  now rewrite e_fields_ok.
Qed.
Lemma name_type : ok_ty (tname (en_name e)) = true.
Proof. apply tpath_ok; [reflexivity| |reflexivity]. cbn [forallb]. now rewrite name_seg. Qed.
Lemma from_impl_ok : forall l t x arms, ok_ty t = true -> ok_name x = true -> forallb ok_arm arms = true -> forallb closed_arm arms = true ->
  ok_item (from_impl e l t x arms) = true.
Proof.
  intros l t x arms T X A B. unfold from_impl. cbn [ok_item forallb fn]. rewrite name_type. unfold ok_fn.
  cbn [fn_name fn_generics fn_params fn_ret fn_body forallb]. unfold ok_param. cbn [fst snd bind]. rewrite T, X.
  assert (M : ok_block [result (REMatch (var x) (arms ++ [RArm RPWild (call (epath ["Self"; "default"]) []) true]))] = true).
  { unfold ok_block. cbn [forallb result ok_stmt ok_ends block_like orb ok_exp exposed var epath]. fold (epath [x]).
    rewrite forallb_app, A, commas_app by auto. unfold ok_path. cbn [spath nonempty forallb ok_tseg]. rewrite name_seg by exact X. reflexivity. }
  rewrite M. unfold tapp. rewrite tpath_ok; try reflexivity. cbn [forallb ok_garg]. now rewrite T.
Qed.
Lemma value_path : forall f, In f (en_fields e) -> ok_exp (epath [en_name e; fst f]) = true.
Proof. intros f I. apply epath_ok; [reflexivity|]. cbn [forallb]. now rewrite !name_seg by auto. Qed.
Lemma enum_impls_ok : forallb ok_item (enum_impls e e0) = true.
Proof.
  unfold enum_impls. cbv zeta. cbn [forallb].
  rewrite !from_impl_ok; try reflexivity; try (apply all_map; intros f I; cbn [ok_arm ok_pat]; now rewrite ?value_path).
  rewrite default_impl_ok; [reflexivity|apply name_type| |].
  - unfold enum_default_value. destruct e0_ok as [N V]. destruct (en_fields e0) as [|(v, x) l] eqn:E; [reflexivity|].
    apply epath_ok; [reflexivity|]. cbn [forallb]. rewrite !name_seg; eauto.
  - unfold enum_default_value. destruct (en_fields e0) as [|(v, x) l]; reflexivity.
Qed.
Lemma enum_items_ok : forallb ok_item (enum_items e e0) = true.
Proof.
  unfold enum_items. cbn [forallb]. rewrite enum_definition_ok. pose proof enum_impls_ok as H. destruct (en_fields e); [reflexivity|exact H].
Qed.
End Enum.

(** ** Messages *)
Definition good_field (f : field) : Prop := rust_name (f_name f) = true /\ default_reads f.
Definition good_oneof (o : oneof) : Prop :=
  rust_name (o_name o) = true /\ forallb rust_name (oneof_path d o) = true /\ forall f, In f (o_fields o) -> rust_name (f_name f) = true.
Definition good_attr (x : text) : Prop := attr_text x /\ forallb plain (tokens_of x) = true.
Definition good_enum (p : enumerator * enumerator) : Prop :=
  rust_name (en_name (fst p)) = true /\ (forall f, In f (en_fields (fst p)) -> rust_name (fst f) = true) /\
  rust_name (en_name (snd p)) = true /\ forall v x l, en_fields (snd p) = (v, x) :: l -> rust_name v = true.
Definition own_good (m : message) : Prop :=
  rust_name (m_name m) = true /\ (forall f, In f (m_fields m) -> good_field f) /\ (forall o, In o (m_oneofs m) -> good_oneof o) /\
  all_chars plain_char (m_module m) = true /\ good_attr (derive_text g d m ++ "Debug, PartialEq, Clone")%string.
Fixpoint good_message (m m0 : message) {struct m} : Prop :=
  match m with
  | mkMessage _ _ _ _ _ _ _ messages enums _ _ =>
    own_good m /\ (forall p, In p (combine enums (m_enums m0)) -> good_enum p) /\
    (fix go (l l0 : list message) {struct l} : Prop :=
       match l, l0 with
       | x :: l', y :: l0' => good_message x y /\ go l' l0'
       | _, _ => True
       end) messages (m_messages m0)
  end.
Lemma ident_of : forall x, rust_name x = true -> ident x = true.
Proof. intros x H. apply andb_true_iff in H. apply H. Qed.
Hint Resolve ident_of name_of reads_text : core.
Lemma field_good : forall f, good_field f -> field_ok f.
Proof. intros f [A B]. split; auto. Qed.
Lemma oneof_good : forall o, good_oneof o -> oneof_ok d o.
Proof. intros o (A & B & D). split; [|split]; auto. Qed.
Lemma enum_good : forall p, good_enum p -> enum_ok p.
Proof. intros p (A & B & D & E). split; [|split; [|split]]; eauto. Qed.
Lemma own_is_good : forall m, own_good m -> own_ok g d m.
Proof.
  intros m (A & B & D & E & F). unfold own_ok. repeat match goal with |- _ /\ _ => split end; auto.
  - intros f I. now apply field_good, B.
  - intros o I. now apply oneof_good, D.
  - apply F.
Qed.
Lemma message_good : forall m m0, good_message m m0 -> message_ok g d m m0.
Proof.
  fix IH 1. intros m m0. destruct m as [name fields oneofs rnums rnames imported package messages enums module index].
  cbn [good_message message_ok]. intros (O & En & Ms). split; [now apply own_is_good|]. split; [intros p I; now apply enum_good, En|].
  clear - IH Ms. revert Ms. generalize (m_messages m0). induction messages as [|x l IHl]; intros l0 Ms; [exact I|].
  destruct l0 as [|y l0]; [exact I|]. destruct Ms as [M1 M2]. split; [apply IH, M1|apply IHl, M2].
Qed.

Section Message.
Variable m : message.
Hypothesis m_name_ok : ok_name (m_name m) = true.
Hypothesis m_fields_ok : forall f, In f (m_fields m) -> good_field f.
Hypothesis m_oneofs_ok : forall o, In o (m_oneofs m) -> good_oneof o.
Hypothesis m_derive_ok : forallb plain (tokens_of (derive_text g d m ++ "Debug, PartialEq, Clone")%string) = true.
Hypothesis m_repr_ok : match g_repr g with Some r => forallb plain (tokens_of r) = true | None => True end.
Lemma own_type_ok : ok_ty (own_type g d m) = true.
Proof. apply lifetimes_ok. now apply name_seg. Qed.
Lemma plain_type_ok : ok_ty (tname (m_name m)) = true.
Proof. apply tpath_ok; [reflexivity| |reflexivity]. cbn [forallb]. now rewrite name_seg. Qed.
Lemma inherent_ok : forall items, forallb ok_item items = true -> ok_item (inherent_impl g d m items) = true.
Proof. intros items H. unfold inherent_impl. cbn [ok_item forallb]. now rewrite own_type_ok, H. Qed.
Lemma field_name_ok : forall f, In f (m_fields m) -> ok_name (f_name f) = true.
Proof. intros f I. destruct (m_fields_ok f I) as [A _]. auto. Qed.
Lemma field_reads_ok : forall f, In f (m_fields m) -> default_reads f.
Proof. intros f I. now destruct (m_fields_ok f I). Qed.
Hint Resolve field_name_ok field_reads_ok : core.
Lemma consts_ok : forallb ok_item (consts_items g d m) = true.
Proof.
  unfold consts_items. destruct (d_syntax d); [|reflexivity]. destruct (negb _); [reflexivity|]. cbn [forallb].
  rewrite inherent_ok; [reflexivity|]. apply all_flat. intros f I. apply const_ok; auto.
Qed.
Lemma getters_ok : forallb ok_item (getters_items g d m) = true.
Proof. unfold getters_items. cbn [forallb]. rewrite inherent_ok; [reflexivity|]. apply all_flat. intros f I. apply getter_ok; auto. Qed.
Lemma attrs_ok : forallb ok_attr (message_attrs g d m) = true.
Proof.
  unfold message_attrs. rewrite forallb_app. cbn [forallb derives ok_attr]. rewrite m_derive_ok.
  destruct (g_repr g) as [r|]; [|reflexivity]. cbn [forallb ok_attr]. now rewrite m_repr_ok.
Qed.
Lemma definition_ok : ok_item (definition_item g d m) = true.
Proof.
  unfold definition_item. destruct (is_unit m); cbn [ok_item]; rewrite attrs_ok, m_name_ok; [reflexivity|]. rewrite forallb_app, all_flat, all_map; [reflexivity| |].
  - intros o I. destruct (m_oneofs_ok o I) as (A & B & D). apply oneof_field_ok; auto.
  - intros f I. apply struct_fields_ok; auto.
Qed.
Lemma message_default_ok : ok_item (message_default g d d0 m) = true.
Proof.
  unfold message_default. cbv zeta. destruct (is_unit m); [apply default_impl_ok; [apply plain_type_ok|reflexivity|reflexivity]|].
  apply default_impl_ok; [apply own_type_ok| |reflexivity]. cbn [ok_exp].
  rewrite forallb_app, all_flat, all_map.
  - destruct (flat_map (field_inits g d d0) (m_fields m) ++ map (oneof_init d) (m_oneofs m)); reflexivity.
  - intros o I. destruct (m_oneofs_ok o I) as (A & B & D). apply oneof_init_ok; auto.
  - intros f I. apply inits_ok; auto.
Qed.
Lemma info_ok : ok_item (message_info g d m) = true.
Proof. unfold message_info. cbn [ok_item forallb]. now rewrite own_type_ok. Qed.
Lemma message_read_ok : ok_item (message_read g d m) = true.
Proof.
  unfold message_read. cbn [ok_item forallb].
  assert (T : ok_ty (if is_unit m then tname (m_name m) else own_type g d m) = true) by (destruct (is_unit m); [apply plain_type_ok|apply own_type_ok]).
  rewrite T. destruct (is_unit m); [reflexivity|].
  assert (A : forallb ok_arm (flat_map (read_arms g d) (m_fields m) ++ flat_map (oneof_read_arms g d) (m_oneofs m)) = true /\
              forallb closed_arm (flat_map (read_arms g d) (m_fields m) ++ flat_map (oneof_read_arms g d) (m_oneofs m)) = true).
  { rewrite !forallb_app. rewrite !all_flat; [split; reflexivity|..]; intros x I.
    all: first [destruct (m_oneofs_ok x I) as (A & B & D); apply oneof_read_arms_ok; auto | apply read_arms_ok; auto]. }
  revert A. generalize (flat_map (read_arms g d) (m_fields m) ++ flat_map (oneof_read_arms g d) (m_oneofs m)). intros arms [A B].
  unfold from_reader_fn, fn. cbn [ok_item]. unfold ok_fn. cbn [fn_name fn_generics fn_params fn_ret fn_body].
  assert (R : ok_block (read_body arms) = true).
  { unfold ok_block, read_body. cbn [forallb ok_stmt result run ok_exp]. rewrite forallb_app, A, commas_app by auto. reflexivity. }
  rewrite R. reflexivity.
Qed.
Lemma get_size_ok : ok_item (get_size_fn g d d0 m) = true.
Proof.
  unfold get_size_fn, fn. cbn [ok_item]. unfold ok_fn. cbn [fn_name fn_generics fn_params fn_ret fn_body].
  rewrite result_ok; [reflexivity| |now rewrite sum_left]. apply sum_ok; [reflexivity|]. rewrite forallb_app, all_flat, all_map; [reflexivity| |].
  - intros o I. destruct (m_oneofs_ok o I) as (A & B & D). apply oneof_size_ok; auto.
  - intros f I. apply field_size_ok; auto.
Qed.
Lemma write_message_ok : ok_item (write_message_fn g d d0 m) = true.
Proof.
  unfold write_message_fn. cbn [ok_item]. unfold ok_fn. cbn [fn_name fn_generics fn_params fn_ret fn_body].
  assert (A : forallb ok_stmt (flat_map (field_writes g d d0) (m_fields m) ++ map (oneof_write g d) (m_oneofs m)) = true /\
              forallb closed_stmt (flat_map (field_writes g d d0) (m_fields m) ++ map (oneof_write g d) (m_oneofs m)) = true).
  { rewrite !forallb_app, !all_flat, !all_map; [split; reflexivity|..]; intros x I.
    all: first [destruct (m_oneofs_ok x I) as (A & B & D); apply oneof_write_ok; auto | apply field_writes_ok; auto]. }
  rewrite app_assoc. revert A. generalize (flat_map (field_writes g d d0) (m_fields m) ++ map (oneof_write g d) (m_oneofs m)). intros l [A B].
  assert (R : ok_block (l ++ [result ok_unit]) = true). { unfold ok_block. rewrite forallb_app, A, ends_app by auto. reflexivity. }
  rewrite R. reflexivity.
Qed.
Lemma write_impl_ok : ok_item (message_write_impl g d d0 m) = true.
Proof.
  unfold message_write_impl. destruct (is_unit m); cbn [ok_item forallb]; [now rewrite plain_type_ok|].
  now rewrite own_type_ok, get_size_ok, write_message_ok.
Qed.
Lemma owned_ok : forallb ok_item (owned_items g m) = true.
Proof.
  unfold owned_items. cbv zeta. pose proof (inner_name (m_name m)) as I. pose proof (owned_name (m_name m)) as O. pose proof m_name_ok as N.
  pose proof (name_seg _ I) as I'. pose proof (name_seg _ O) as O'. pose proof (name_seg _ N) as N'.
  revert I O I' O' N N'. unfold path_const. generalize (m_module m ++ "." ++ m_name m)%string.
  generalize (m_name m ++ "OwnedInner")%string (m_name m ++ "Owned")%string (m_name m). intros path inner owned name I O I' O' N N'.
  rewrite forallb_app. apply andb_true_intro. split; [|destruct (g_gen_info g); [|reflexivity]; ok_cbn; rewrite O'; reflexivity].
  unfold only. clear - I O I' O' N N'.
  ok_cbn. unfold ok_fn, ok_block, ok_param, ok_field. ok_cbn. unfold ok_path. ok_cbn. rewrite ?I, ?O, ?I', ?O', ?N, ?N'. reflexivity.
Qed.
Lemma try_from_ok : ok_item (try_from_item m) = true.
Proof.
  unfold try_from_item. pose proof (name_seg _ m_name_ok) as N. revert N. generalize (m_name m). intros name N.
  ok_cbn. unfold ok_fn, ok_block. ok_cbn. unfold ok_path. ok_cbn. rewrite ?N. reflexivity.
Qed.
Lemma all_only : forall A (p : A -> bool) b l, forallb p l = true -> forallb p (only b l) = true.
Proof. intros A p [] l H; auto. Qed.
Lemma message_items_ok : forallb ok_item (message_items g d d0 m) = true.
Proof.
  unfold message_items. rewrite !forallb_app. cbn [forallb]. rewrite definition_ok, message_read_ok, write_impl_ok.
  rewrite !all_only; try reflexivity.
  - destruct (or_else _ _); [apply owned_ok|cbn [forallb]; now rewrite try_from_ok].
  - cbn [forallb]. now rewrite info_ok.
  - cbn [forallb]. now rewrite message_default_ok.
  - apply getters_ok.
  - apply consts_ok.
Qed.
End Message.
Lemma common_ok : forall ms, forallb ok_item (common_uses g d ms) = true.
Proof.
  intros ms. unfold common_uses. rewrite !forallb_app. rewrite !all_only; try reflexivity.
  - destruct (negb (c_dont_use_cow (g_passes g))); rewrite all_only; try reflexivity; now destruct (g_nostd g).
  - destruct (g_hashbrown g); [|destruct (g_nostd g)]; reflexivity.
Qed.
Hypothesis repr_ok : match g_repr g with Some r => good_attr r | None => True end.
Lemma message_ast_ok : forall m m0, good_message m m0 -> forallb ok_item (message_ast g d d0 m m0) = true.
Proof.
  fix IH 1. intros m m0. destruct m as [name fields oneofs rnums rnames imported package messages enums module index] eqn:Em.
  cbn [good_message message_ast]. rewrite <- Em. intros ((O1 & O2 & O3 & O4 & O5) & En & Ms).
  rewrite forallb_app, message_items_ok; auto.
  2: { apply O5. }
  2: { destruct (g_repr g); [apply repr_ok|exact I]. }
  assert (N : forallb ok_item ((fix go (l l0 : list message) {struct l} : list ritem_ :=
                 match l, l0 with
                 | x :: l', y :: l0' => message_ast g d d0 x y ++ go l' l0'
                 | _, _ => []
                 end) messages (m_messages m0)) = true).
  { clear - IH Ms. revert Ms. generalize (m_messages m0). induction messages as [|x l IHl]; intros l0 Ms; [reflexivity|].
    destruct l0 as [|y l0]; [reflexivity|]. destruct Ms as [M1 M2]. rewrite forallb_app, (IH x y M1). apply IHl. exact M2. }
  assert (E : forallb ok_item (flat_map (fun p => enum_items (fst p) (snd p)) (combine enums (m_enums m0))) = true).
  { apply all_flat. intros p Ip. destruct (En p Ip) as (E1 & E2 & E3 & E4). apply enum_items_ok; eauto. }
  assert (Oo : forallb ok_item (flat_map (oneof_items g d) oneofs) = true).
  { apply all_flat. intros o Io. destruct (O3 o) as (Q1 & Q2 & Q3); [now rewrite Em|]. apply oneof_items_ok; auto. }
  assert (All : forallb ok_item [RIMod ("mod_" ++ m_name m)%string
         (common_uses g d messages
          ++ only (match messages, oneofs with [], [] => false | _, _ => true end) [RIUse ["super"] UGlob]
          ++ ((fix go (l l0 : list message) {struct l} : list ritem_ :=
                 match l, l0 with
                 | x :: l', y :: l0' => message_ast g d d0 x y ++ go l' l0'
                 | _, _ => []
                 end) messages (m_messages m0))
          ++ flat_map (fun p => enum_items (fst p) (snd p)) (combine enums (m_enums m0))
          ++ flat_map (oneof_items g d) oneofs)] = true).
  { cbn [forallb ok_item]. rewrite mod_name, !forallb_app, common_ok, N, E, Oo, all_only; reflexivity. }
  cbn [andb]. destruct messages, enums, oneofs; first [exact All | reflexivity].
Qed.

(** ** Files *)
Hypothesis enums_good : forall p, In p (combine (d_enums d) (d_enums d0)) -> en_imported (fst p) = false -> good_enum p.
Hypothesis messages_good : forall p, In p (combine (d_messages d) (d_messages d0)) -> m_imported (fst p) = false -> good_message (fst p) (snd p).
Lemma supers : forall n, forallb is_seg (repeat "super" n) = true.
Proof. induction n as [|n IH]; [reflexivity|]. cbn [repeat forallb]. now rewrite IH. Qed.
Lemma file_ok : ok_file (file_ast g d d0) = true.
Proof.
  unfold ok_file, file_ast. cbn [file_attrs file_items]. rewrite !forallb_app. cbn [forallb ok_item ok_leaf]. rewrite supers.
  apply andb_true_intro. split.
  - apply all_only. unfold header_attrs. rewrite !forallb_app, all_only; reflexivity.
  - and_split; try reflexivity.
    + unfold use_items. cbv zeta. destruct (forallb is_unit (d_messages d)).
      * cbn [forallb]. rewrite all_only; reflexivity.
      * rewrite !forallb_app, common_ok, all_only; reflexivity.
    + apply all_flat. intros p I. apply filter_In in I. destruct I as [I J]. apply negb_true_iff in J. destruct (enums_good p I J) as (E1 & E2 & E3 & E4).
      cbn [forallb]. rewrite enum_definition_ok, enum_impls_ok; eauto.
    + apply all_flat. intros p I. apply filter_In in I. destruct I as [I J]. apply negb_true_iff in J. apply message_ast_ok. auto.
Qed.
Theorem file_parses : forall filename services s, all_chars not_newline filename = true ->
  write_file g d d0 filename services = (s, None) -> parse_rust s = Some (file_ast g d d0).
Proof.
  intros filename services s F H. unfold parse_rust. erewrite file_lex; eauto.
  - apply parse_print, file_ok.
  - destruct (g_repr g); [apply repr_ok|exact I].
  - intros p I J. apply enum_good; auto.
  - intros p I J. apply message_good; auto.
Qed.
End Ok.
