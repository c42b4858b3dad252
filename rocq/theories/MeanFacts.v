(** Lemmas for C80: evaluation of the generated expressions. *)
From Coq Require Import String Ascii Arith ZArith Lia Bool.
From Coq Require Import DecimalString DecimalPos Decimal.
From Verif Require Import Base Reader PackedFixed Writer Sizeofs Spec Schema Keywords Modules Passes Gen GenSem GenSpec GenCheck.
From Verif Require Import RustTypes Emit Literals Output Paths GenText RustLex RustAst RustParse GenAst RustSem Meaning.
Import Schema StringSyntax.
Local Open Scope string_scope.
Local Open Scope list_scope.
Local Open Scope Z_scope.

(** ** Numbers *)
Lemma digits_acc : forall u acc, digits_from 10 (Z.pos acc) (NilEmpty.string_of_uint u) = Z.pos (Pos.of_uint_acc u acc).
Proof.
  induction u; intros acc; cbn [NilEmpty.string_of_uint digits_from Pos.of_uint_acc]; [reflexivity|..];
    (rewrite <- IHu; f_equal; match goal with |- context [digit ?a] => let x := eval vm_compute in (digit a) in change (digit a) with x end; cbv match; lia).
Qed.
Lemma digits_uint : forall u, digits 10 (NilEmpty.string_of_uint u) = Z.of_N (Pos.of_uint u).
Proof.
  unfold digits. induction u; [reflexivity|exact IHu|..]; cbn [NilEmpty.string_of_uint digits_from Pos.of_uint Z.of_N];
    rewrite <- digits_acc; f_equal.
Qed.
Lemma run_digits : forall u, run_of (is_digit 10) (NilEmpty.string_of_uint u) = (NilEmpty.string_of_uint u, ""%string).
Proof. induction u; [reflexivity|..]; cbn [NilEmpty.string_of_uint run_of]; rewrite IHu; reflexivity. Qed.
Lemma number_uint : forall u, u <> Nil -> rust_number (NilEmpty.string_of_uint u) = Some (NInt (Z.of_N (Pos.of_uint u)) "").
Proof.
  intros u N. assert (D : decimal (NilEmpty.string_of_uint u) = Some (NInt (Z.of_N (Pos.of_uint u)) "")).
  { unfold decimal. rewrite run_digits, digits_uint. destruct u; [contradiction|..]; reflexivity. }
  rewrite <- D. unfold rust_number. destruct u as [|u|u|u|u|u|u|u|u|u|u]; [contradiction|..]; destruct u; reflexivity.
Qed.
Lemma number_show : forall z, 0 <= z -> rust_number (show z) = Some (NInt z "").
Proof.
  intros z H. destruct z as [|p|p]; [reflexivity| |lia]. unfold show. cbn [Z.to_int NilZero.string_of_int].
  pose proof (Unsigned.of_to p) as O. pose proof (Unsigned.to_uint_nonnil p) as N. change (Z.pos p) with (Z.of_N (N.pos p)). rewrite <- O.
  unfold NilZero.string_of_uint. destruct (Pos.to_uint p) eqn:E; [contradiction|..]; rewrite <- E; apply number_uint; rewrite E; discriminate.
Qed.
Lemma pattern_show : forall z, 0 <= z -> pattern_number false (show z) = Some z.
Proof. intros z H. unfold pattern_number. now rewrite number_show. Qed.
Lemma pattern_signed : forall z, pattern_number (negative z) (show (Z.abs z)) = Some z.
Proof.
  intros z. unfold pattern_number. rewrite number_show by lia. unfold negative. destruct (Z.ltb_spec z 0); f_equal; lia.
Qed.
Lemma gen_tag_nonneg : forall n ty b, 0 <= gen_tag n ty b.
Proof.
  intros n ty b. unfold gen_tag. apply Z.lor_nonneg. split; [apply Z.mod_pos_bound; reflexivity|].
  unfold wire_type_num. destruct b; [discriminate|]. destruct ty; discriminate.
Qed.
Lemma size_nonneg : forall z, 0 <= gen_sizeof_varint z.
Proof. intros z. unfold gen_sizeof_varint. repeat (destruct (_ <=? _); [discriminate|]). discriminate. Qed.

(** ** Evaluation *)
Section Ev.
Variables (t : target) (names : scope -> list text -> option rtype) (w : world) (here : scope) (fuel : nat).
Notation ev := (eval t names w here fuel).

(** evaluation without effects *)
Definition yields (env : list (text * rv)) (e : rexp) (x : rv) : Prop := forall s, s_env s = env -> ev None e s = Go x s.

Lemma ev_var : forall h x v s, assoc x (s_env s) = Some v -> ev h (var x) s = Go v s.
Proof. intros h x v s H. cbn. now rewrite H. Qed.
Lemma yields_var : forall env x v, assoc x env = Some v -> yields env (var x) v.
Proof. intros env x v H s <-. now apply ev_var. Qed.
Lemma ev_num : forall h z s, 0 <= z -> ev h (num z) s = Go (XInt z) s.
Proof.
  intros h z s H. change (ev h (num z) s) with (@of_option rv (match rust_number (show z) with
    | Some (NInt z suffix) => Some (XInt z)
    | Some (NFloat m e suffix) =>
      if String.eqb suffix "f32" then float_value false m e
      else if String.eqb suffix "f64" then float_value true m e
      else match h with Some YF32 => float_value false m e | Some YF64 => float_value true m e | _ => None end
    | None => None
    end) s). now rewrite number_show.
Qed.
Lemma yields_num : forall env z, 0 <= z -> yields env (num z) (XInt z).
Proof. intros env z H s _. now apply ev_num. Qed.
Lemma yields_zero : forall env, yields env zero (XInt 0).
Proof. intros env s _. reflexivity. Qed.

(** a struct in a variable *)
Lemma ev_field : forall h x i fs f v s, assoc x (s_env s) = Some (XStruct i fs) -> assoc f fs = Some v ->
  forall ops, ev h (REPost (var x) (OField f :: ops)) s = operate t names w here fuel ev h ops (Some (x, Some f)) v s.
Proof.
  intros h x i fs f v s A B ops.
  change (ev h (REPost (var x) (OField f :: ops)) s) with
    (seq (ev None (var x)) (fun x0 => operate t names w here fuel ev h (OField f :: ops) (Some (x, None)) x0) s).
  unfold seq at 1. rewrite (ev_var None x _ s A).
  change (operate t names w here fuel ev h (OField f :: ops) (Some (x, None)) (XStruct i fs) s) with
    (seq (of_option (assoc f fs)) (fun y => operate t names w here fuel ev h ops (Some (x, Some f)) y) s).
  unfold seq. now rewrite B.
Qed.

(** *** Sums *)
Inductive adds (env : list (text * rv)) : list rexp -> Z -> Prop :=
| adds_nil : adds env [] 0
| adds_cons : forall e l a b, yields env e (XInt a) -> adds env l b -> adds env (e :: l) (a + b).
Lemma adds_one : forall env e z, yields env e (XInt z) -> adds env [e] z.
Proof. intros env e z H. replace z with (z + 0) by lia. now repeat constructor. Qed.
Lemma adds_app : forall env l r a b, adds env l a -> adds env r b -> adds env (l ++ r) (a + b).
Proof.
  intros env l r a b H R. induction H as [|e l x y E H IH]; [exact R|]. cbn. rewrite <- Z.add_assoc. now constructor.
Qed.
Lemma adds_up : forall env l z, adds env l z -> forall a s, s_env s = env -> sum_up ev l (XInt a) s = Go (XInt (a + z)) s.
Proof.
  intros env l z H. induction H as [|e l x y E H IH]; intros a s Q; cbn; unfold seq, go.
  - now rewrite Z.add_0_r.
  - rewrite (E s Q). cbn. rewrite (IH _ s Q). do 2 f_equal. lia.
Qed.
Lemma yields_sum : forall env l z, adds env l z -> yields env (sum_of l) (XInt z).
Proof.
  intros env l z H. destruct H as [|e l a b E H]; [apply yields_zero|]. destruct l as [|e' l].
  - inversion H; subst. rewrite Z.add_0_r. exact E.
  - intros s Q. cbn [sum_of]. change (ev None (RESum e (e' :: l)) s) with (seq (ev None e) (sum_up ev (e' :: l)) s).
    unfold seq. rewrite (E s Q). apply (adds_up env); assumption.
Qed.
Lemma yields_resum : forall env e l z, adds env (e :: l) z -> yields env (RESum e l) (XInt z).
Proof.
  intros env e l z H. inversion H as [|? ? a b E R]; subst. intros s Q. cbn. unfold seq. rewrite (E s Q). now apply (adds_up env).
Qed.

(** *** Closures *)
Lemma closure_pure : forall ps xs bs env e a, pats matches ps xs = Some bs -> yields (bs ++ env) e a ->
  forall s, s_env s = env -> in_closure ps xs (ev None e) s = Go a s.
Proof.
  intros ps xs bs env e a P H s Q. unfold in_closure, with_args. rewrite P. unfold scoped. rewrite H; [|cbn; now rewrite Q]. cbn.
  rewrite skipn_app, skipn_all, Nat.sub_diag. cbn. now destruct s.
Qed.

(** *** Operators *)
Lemma yields_same : forall env o e x, match o with UNot | UNeg => false | _ => true end = true -> yields env e x -> yields env (REUn o e) x.
Proof. intros env o e x O H s Q. destruct o; try discriminate; exact (H s Q). Qed.
Lemma yields_paren : forall env e x, yields env e x -> yields env (REParen e) x.
Proof. intros env e x H. exact H. Qed.
Lemma yields_cast : forall env e u x y, yields env e x -> cast u x = Some y -> yields env (RECast e u) y.
Proof. intros env e u x y H C s Q. change (ev None (RECast e u) s) with (seq (ev None e) (fun x => of_option (cast u x)) s). unfold seq. now rewrite (H s Q), C. Qed.
Lemma yields_mul : forall env a b x y, yields env a (XInt x) -> yields env b (XInt y) -> yields env (REMul a b) (XInt (x * y)).
Proof.
  intros env a b x y A B s Q. change (ev None (REMul a b) s) with (seq (ev None a) (fun x => seq (ev None b) (fun y => of_option (mul x y))) s).
  unfold seq. now rewrite (A s Q), (B s Q).
Qed.
Lemma yields_sizeof : forall env f a x r, fkind_of [f] = FSize -> yields env a x -> sizeof_call f x = Some r -> yields env (call (var f) [a]) r.
Proof.
  intros env f a x r K A F s Q.
  change (ev None (call (var f) [a]) s) with
    (seq (call_path names w here ev None [PSeg f []] [a]) (fun x => operate t names w here fuel ev None [] None x) s).
  unfold call_path. change (map seg_name [PSeg f []]) with [f]. rewrite K. cbv iota. unfold seq. rewrite (A s Q). change (last_of [f]) with f.
  rewrite F. reflexivity.
Qed.

(** *** Methods *)
Lemma ev_post_method : forall e h m gs args rest s,
  ev h (REPost e (OMethod m gs args :: rest)) s =
  seq (ev None e) (fun x => operate t names w here fuel ev h (OMethod m gs args :: rest) (place_of e) x) s.
Proof. intros e h m gs args rest s. destruct e; try reflexivity. destruct lead; reflexivity. Qed.
Lemma operate_method : forall h m gs args rest p x s,
  operate t names w here fuel ev h (OMethod m gs args :: rest) p x s =
  seq (call_method t names w here fuel ev (match rest with [OTry] => h | _ => None end) p x m gs args)
      (fun y => operate t names w here fuel ev h rest None y) s.
Proof. reflexivity. Qed.
Lemma call_plain : forall h p x m gs s, mkind_of m = MOther ->
  call_method t names w here fuel ev h p x m gs [] s = of_option (plain_method w m x) s.
Proof. intros h p x m gs s K. unfold call_method. rewrite K. destruct x; reflexivity. Qed.
Lemma yields_method : forall env e m x y, yields env e x -> mkind_of m = MOther -> plain_method w m x = Some y ->
  yields env (REPost e [method m []]) y.
Proof.
  intros env e m x y E K P s Q. unfold method. rewrite ev_post_method. unfold seq. rewrite (E s Q). rewrite operate_method. unfold seq.
  rewrite call_plain by exact K. rewrite P. reflexivity.
Qed.
(** a method after other methods or fields *)
Lemma yields_method_after : forall env e ops m x y, (forall s, s_env s = env -> exists p, ev None (REPost e (ops ++ [method m []])) s =
    operate t names w here fuel ev None [method m []] p x s) -> mkind_of m = MOther -> plain_method w m x = Some y ->
  yields env (REPost e (ops ++ [method m []])) y.
Proof.
  intros env e ops m x y E K P s Q. destruct (E s Q) as (p & ->). unfold method. rewrite operate_method. unfold seq.
  rewrite call_plain by exact K. rewrite P. reflexivity.
Qed.

Lemma ev_self_default : forall h s, ev h (call (epath ["Self"; "default"]) []) s = of_option (self_default w here) s.
Proof.
  intros h s. change (ev h (call (epath ["Self"; "default"]) []) s) with (seq (of_option (self_default w here)) (fun x => go x) s).
  unfold seq. now destruct (self_default w here).
Qed.

(** an expression, alone and before [.len()] *)
Record shows (env : list (text * rv)) (e : rexp) (x : rv) : Prop := mkShows {
  sh_here : yields env e x;
  sh_len : forall b, x = XBytes b -> yields env (post e [method "len" []]) (XInt (zlen b)) }.
Lemma shows_var : forall env x v, assoc x env = Some v -> shows env (var x) v.
Proof.
  intros env x v H. split; [now apply yields_var|]. intros b ->. cbn [post var epath].
  apply yields_method with (x := XBytes b); [now apply yields_var|reflexivity|reflexivity].
Qed.
Lemma shows_field : forall env x i fs f v, assoc x env = Some (XStruct i fs) -> assoc f fs = Some v ->
  shows env (REPost (var x) [OField f]) v.
Proof.
  intros env x i fs f v A B. split.
  - intros s <-. now rewrite (ev_field None x i fs f v s A B).
  - intros b ->. cbn [post app]. apply (yields_method_after env (var x) [OField f] "len" (XBytes b)); [|reflexivity|reflexivity].
    intros s <-. exists (Some (x, Some f)). cbn [app]. now rewrite (ev_field None x i fs f (XBytes b) s A B).
Qed.
Lemma shows_same : forall env e x, (forall b, x <> XBytes b) -> yields env e x -> shows env e x.
Proof. intros env e x N H. split; [exact H|]. intros b E. now apply N in E. Qed.
End Ev.

(** ** Values *)
Section Values.
Variables (d : file_descriptor) (c : config) (lit : field_type -> text -> option value).
Variables (t : target) (names : scope -> list text -> option rtype) (w : world) (here : scope) (fuel : nat).
Notation ev := (eval t names w here fuel).
Notation emb := (rust_value d c).

(** the world knows the size of the messages in [v] *)
Definition sized (ty : field_type) (v : value) : Prop :=
  forall j ss, ty = TMessage j -> v = VMsg ss -> w_size w j (emb ty v) = Some (message_size d c lit j ss).
Lemma emb_message : forall j m ss, get_message d j = Some m -> emb (TMessage j) (VMsg ss) = rust_struct d c j m ss.
Proof.
  intros j m ss G. cbn. rewrite G. reflexivity.
Qed.
Lemma size_of_message : forall j ss, value_size d c lit (ZMessage j) (VMsg ss) = sizeof_len (message_size d c lit j ss).
Proof. reflexivity. Qed.

Lemma size_value : forall env ty e v, match ty with TMap _ _ => False | _ => True end -> val_ok d c ty v -> sized ty v ->
  shows t names w here fuel env e (emb ty v) ->
  adds t names w here fuel env (size_terms ty e) (value_size d c lit (size_fn ty) v).
Proof.
  intros env ty e v M V S H. destruct H as [H L].
  assert (P : yields t names w here fuel env (REUn UDeref (REParen (REUn URef e))) (emb ty v)).
  { apply yields_same; [reflexivity|]. apply yields_paren, yields_same; [reflexivity|exact H]. }
  assert (A : forall z, int_of (emb ty v) = Some z ->
    adds t names w here fuel env [call (var "sizeof_varint") [RECast (REUn UDeref (REParen (REUn URef e))) (tname "u64")]] (sizeof_varint (wrapU 64 z))).
  { intros z I. apply adds_one. eapply yields_sizeof with (x := XInt (wrapU 64 z)); [reflexivity| |reflexivity]. eapply yields_cast; [exact P|]. unfold cast. rewrite I. reflexivity. }
  assert (B : forall b, emb ty v = XBytes b -> adds t names w here fuel env [call (var "sizeof_len") [post e [method "len" []]]] (sizeof_len (zlen b))).
  { intros b E. apply adds_one. eapply yields_sizeof with (x := XInt (zlen b)); [reflexivity|apply (L b E)|reflexivity]. }
  assert (C : forall b, emb ty v = XBytes b -> adds t names w here fuel env [call (var "sizeof_len") [REPost (REParen (REUn URef e)) [method "len" []]]] (sizeof_len (zlen b))).
  { intros b E. apply adds_one. eapply yields_sizeof with (x := XInt (zlen b)); [reflexivity| |reflexivity]. eapply yields_method with (x := XBytes b); [|reflexivity|reflexivity].
    apply yields_paren, yields_same; [reflexivity|]. rewrite <- E. exact H. }
  assert (F : forall n z, rust_number n = Some (NInt z "") -> adds t names w here fuel env [RELit (TNum n)] z).
  { intros n z N. apply adds_one. intros s Q. change (eval t names w here fuel None (RELit (TNum n)) s) with (@of_option rv (literal None (TNum n)) s).
    unfold literal. now rewrite N. }
  destruct ty; try contradiction; destruct v as [z|b|b|ss]; cbn [val_ok] in V; try contradiction; try discriminate;
    cbn [size_terms size_fn value_size rust_value] in *;
    try (apply (A z); reflexivity); try (apply (B b); reflexivity); try (apply (C b); reflexivity); try (apply F; reflexivity).
  - (* sint32 *) apply adds_one. eapply yields_sizeof; [reflexivity|exact P|reflexivity].
  - apply adds_one. eapply yields_sizeof; [reflexivity|exact P|reflexivity].
  - (* bool *) specialize (A _ eq_refl). destruct b; exact A.
  - (* message *) change (adds t names w here fuel env [call (var "sizeof_len") [REPost (REParen e) [method "get_size" []]]] (sizeof_len (message_size d c lit m ss))).
    apply adds_one. eapply yields_sizeof with (x := XInt (message_size d c lit m ss)); [reflexivity| |reflexivity]. eapply yields_method; [apply yields_paren; exact H|reflexivity|].
    unfold plain_method. cbn [String.eqb]. destruct (get_message d m) as [x|] eqn:G; [|contradiction]. specialize (S m ss eq_refl eq_refl).
    rewrite (emb_message m x ss G) in S. exact (f_equal (option_map XInt) S).
Qed.

(** the world knows what the messages in [v] write *)
Definition writable (ty : field_type) (v : value) : Prop :=
  forall j ss, ty = TMessage j -> v = VMsg ss -> w_write w j (emb ty v) = Some (message_write d c lit j ss).
Lemma call_writer : forall env h p m a x q s, mkind_of m = MOther -> yields t names w here fuel env a x -> write_call m x = Some q -> s_env s = env ->
  operate t names w here fuel ev h [method m [a]] p XWriter s = Go (XWrite q) s.
Proof.
  intros env h p m a x q s K A C Q. unfold method. rewrite operate_method. unfold call_method. rewrite K. cbv iota. unfold seq. rewrite (A s Q), C. reflexivity.
Qed.
Lemma call_write_message : forall env h p a i fs n q s, yields t names w here fuel env a (XStruct i fs) ->
  w_size w i (XStruct i fs) = Some n -> w_write w i (XStruct i fs) = Some q -> s_env s = env ->
  operate t names w here fuel ev h [method "write_message" [a]] p XWriter s = Go (XWrite (write_message n q)) s.
Proof.
  intros env h p a i fs n q s A N W Q. unfold method. rewrite operate_method. unfold call_method. change (mkind_of "write_message") with MWriteMessage.
  cbv iota. unfold seq. rewrite (A s Q), N, W. reflexivity.
Qed.
Lemma write_of_message : forall j ss, value_write d c lit (WMessage j) (VMsg ss) = write_message (message_size d c lit j ss) (message_write d c lit j ss).
Proof. reflexivity. Qed.
Lemma write_value : forall env ty e b v, match ty with TMap _ _ => False | _ => True end -> val_ok d c ty v -> sized ty v -> writable ty v ->
  yields t names w here fuel env e (emb ty v) ->
  forall h p s, s_env s = env ->
    operate t names w here fuel ev h [write_op ty e b] p XWriter s = Go (XWrite (value_write d c lit (write_fn ty) v)) s.
Proof.
  intros env ty e b v M V S W H h p s Q.
  assert (P : yields t names w here fuel env (REUn UDeref (REUn URef e)) (emb ty v)).
  { apply yields_same; [reflexivity|]. apply yields_same; [reflexivity|exact H]. }
  destruct ty; try contradiction; destruct v as [z|x|x|ss]; cbn [val_ok] in V; try contradiction; try discriminate;
    cbn [write_op write_fn value_write write_scalar rust_value proto_type append] in *;
    try (eapply call_writer; [reflexivity|exact P|reflexivity|exact Q]); try (eapply call_writer; [reflexivity|exact H|reflexivity|exact Q]).
  - (* enum *) eapply call_writer with (x := XInt (wrapS 32 z)); [reflexivity| |reflexivity|exact Q]. eapply yields_cast; [exact P|reflexivity].
  - (* message *)
    change (operate t names w here fuel ev h [method "write_message" [if b then REUn URef (REUn UDeref (REParen e)) else e]] p XWriter s =
      Go (XWrite (write_message (message_size d c lit m ss) (message_write d c lit m ss))) s).
    specialize (S m ss eq_refl eq_refl). specialize (W m ss eq_refl eq_refl). destruct (get_message d m) as [x|] eqn:G; [|contradiction].
    rewrite (emb_message m x ss G) in S, W. unfold rust_struct in S, W.
    apply (call_write_message env h p _ m (rust_slots d c (named_slots c x) ss)); [|exact S|exact W|exact Q].
    destruct b; [|exact H]. apply yields_same; [reflexivity|]. apply yields_same; [reflexivity|exact H].
Qed.
End Values.

(** ** Paths *)
Lemma seg_spath : forall p gs, map seg_name (spath p gs) = p.
Proof. induction p as [|x p IH]; intros gs; [reflexivity|]. destruct p as [|y p]; [reflexivity|]. change (map seg_name (spath (x :: y :: p) gs)) with (x :: map seg_name (spath (y :: p) gs)). now rewrite IH. Qed.
Lemma last_snoc : forall p x, last_of (p ++ [x]) = x.
Proof. intros p x. unfold last_of. apply last_last. Qed.
Lemma removelast_snoc : forall (p : list text) x, removelast (p ++ [x]) = p.
Proof. intros p x. rewrite removelast_app by discriminate. apply app_nil_r. Qed.
Lemma path_eqb_snoc : forall p x a b, String.eqb x b = false -> path_eqb (p ++ [x]) [a; b] = false.
Proof.
  intros p x a b H. destruct p as [|y [|z [|u p]]]; cbn; rewrite ?H, ?Bool.andb_false_r; reflexivity.
Qed.
Lemma path_eqb_one : forall p x a, p <> [] -> path_eqb (p ++ [x]) [a] = false.
Proof. intros p x a N. destruct p as [|y [|z p]]; [contradiction|..]; cbn; apply Bool.andb_false_r. Qed.
Lemma fkind_default : forall p, p <> [] -> p <> ["Self"] -> fkind_of (p ++ ["default"]) = FOther.
Proof.
  intros p N S. unfold fkind_of. rewrite !path_eqb_one by exact N. rewrite !path_eqb_snoc by reflexivity.
  destruct (path_eqb (p ++ ["default"]) ["Self"; "default"]) eqn:E.
  - exfalso. apply S. destruct p as [|y [|z [|u p]]]; cbn in E; try contradiction; try discriminate.
    + rewrite Bool.andb_true_r in E. apply String.eqb_eq in E. now subst.
    + rewrite !Bool.andb_false_r in E. discriminate.
    + rewrite !Bool.andb_false_r in E. discriminate.
  - destruct p as [|y [|z p]]; [contradiction|reflexivity|reflexivity].
Qed.
Definition one_of (n : text) : bool := match n with String a (String b _) => (Ascii.eqb a "O" && Ascii.eqb b "n")%bool | _ => false end.
Lemma fkind_variant : forall p n x, one_of n = true -> fkind_of (p ++ [n] ++ [x]) = FOther.
Proof.
  intros p n x H. assert (N : forall a, one_of a = false -> String.eqb n a = false).
  { intros a A. apply String.eqb_neq. intros ->. congruence. }
  assert (T : forall a b, one_of a = false -> path_eqb (p ++ [n] ++ [x]) [a; b] = false).
  { intros a b A. destruct p as [|y [|z [|u p]]]; cbn; rewrite ?(N a A), ?Bool.andb_false_r; reflexivity. }
  assert (O : forall a, path_eqb (p ++ [n] ++ [x]) [a] = false).
  { intros a. destruct p as [|y [|z p]]; cbn; apply Bool.andb_false_r. }
  unfold fkind_of. rewrite !O, !T by reflexivity. destruct p as [|y [|z p]]; reflexivity.
Qed.
Lemma nodup_right : forall {A} (l r : list A), NoDup (l ++ r) -> NoDup r.
Proof. intros A l r. induction l as [|x l IH]; [auto|]. cbn. intros H. inversion H; subst. now apply IH. Qed.
Lemma assoc_in : forall {A} (l : list (text * A)) x a, NoDup (map fst l) -> In (x, a) l -> assoc x l = Some a.
Proof.
  intros A l x a. induction l as [|(y, b) l IH]; intros N I; [contradiction|]. inversion N as [|? ? N1 N2]; subst. cbn. destruct I as [E|I].
  - injection E as -> ->. now rewrite String.eqb_refl.
  - destruct (String.eqb_spec x y) as [->|]; [|now apply IH]. exfalso. apply N1. apply in_map_iff. now exists (y, a).
Qed.

(** Where [-C] is used, the generator writes [Default] for each message itself
    (types.rs:1585-1597: [Default] is added to the derives without a separator). *)
Definition default_kept (g : gen_config) (d : file_descriptor) : Prop :=
  join_with ", " (g_derive g) = "" \/
  forall i m, get_message d i = Some m -> message_must_generate_impl_default (d_syntax d) (g_passes g) m = true.

Section Program.
Variable g : gen_config.
Variables d d0 : file_descriptor.
Variable t : target.
Variable names : scope -> list text -> option rtype.
Variable lit : field_type -> text -> option value.
Let c : config := g_passes g.
Hypothesis Names : names_ok d d0 names.
Hypothesis Plain : plain_names g d.
Hypothesis Schema : schema_wf d c lit.
Hypothesis Consts : constants_ok g d d0 t names lit.
Hypothesis Derive : default_kept g d.
Let prog := generated_program g d d0.
Notation emb := (rust_value d c).

(** *** Definitions *)
Lemma numbers_enum : forall q e, get_enum d q = Some e -> numbers_of prog q = en_fields e.
Proof.
  intros q e G. destruct (no_value _ _ _ Names q e G) as (e0 & v & z & l & r & p & E & G0 & _). unfold numbers_of. cbn [p_enum prog generated_program].
  rewrite G, G0. unfold the_enum, enum_items, enum_definition. cbn [first or_nil].
  clear E. induction (en_fields e) as [|(n, x) fs IH]; [reflexivity|]. cbn [map flat_map rv_payload fst snd]. rewrite pattern_signed. cbn [app rv_name]. f_equal. exact IH.
Qed.

(** the scopes of the code of the message [i] *)
Definition of_message (i : midx) (m : message) (here : scope) : Prop :=
  here = InMsg i \/ exists o, In o (m_oneofs m) /\ here = InOneof i (o_name o).
Lemma path_type : forall i m here p gs y, of_message i m here -> own_name p -> p <> [] -> names here p = Some y ->
  type_of names here (tpath p gs) = Some y.
Proof.
  intros i m here p gs y H O N E. unfold tpath. destruct p as [|a [|b p]]; [contradiction| |].
  - destruct O as (A & B & _). cbn [spath]. unfold type_of. rewrite A, B. exact E.
  - assert (X : type_of names here (RTPath false (spath (a :: b :: p) gs)) = names here (map seg_name (spath (a :: b :: p) gs))) by (destruct p; reflexivity).
    rewrite X. now rewrite seg_spath.
Qed.
Lemma message_path_nonempty : forall m, message_path d m <> [].
Proof. intros m. unfold message_path. intros H. apply app_eq_nil in H. now destruct H. Qed.
Lemma enum_path_nonempty : forall e, enum_path d e <> [].
Proof. intros m. unfold enum_path. intros H. apply app_eq_nil in H. now destruct H. Qed.
Definition full_typ_ok (ty : field_type) : Prop :=
  match ty with TMap k v => key_ok k /\ typ_ok d v | _ => typ_ok d ty end.
Lemma simple_type : forall i m here ty, get_message d i = Some m -> of_message i m here -> typ_ok d ty ->
  type_of names here (type_ast g d ty) = Some (rust_type_of ty).
Proof.
  intros i m here ty G H T. destruct ty; try contradiction; try reflexivity; cbn [type_ast rust_type_of typ_ok] in *.
  - destruct (get_enum d e) as [x|] eqn:X; [|contradiction]. destruct (no_enum _ _ _ Names i m e x G X) as (A & B & C).
    apply (path_type i m); [exact H|exact A|apply enum_path_nonempty|]. destruct H as [->|(o & I & ->)]; [exact B|now apply C].
  - destruct (get_message d m0) as [x|] eqn:X; [|contradiction]. destruct (no_message _ _ _ Names i m m0 x G X) as (A & B & C).
    apply (path_type i m); [exact H|exact A|apply message_path_nonempty|]. destruct H as [->|(o & I & ->)]; [exact B|now apply C].
Qed.
Lemma full_type : forall i m here ty, get_message d i = Some m -> of_message i m here -> full_typ_ok ty ->
  type_of names here (type_ast g d ty) = Some (rust_type_of ty).
Proof.
  intros i m here ty G H T. destruct ty; try (apply (simple_type i m); assumption). destruct T as (K & V).
  assert (K' : typ_ok d ty1) by (destruct ty1; try contradiction; exact I).
  cbn [type_ast rust_type_of]. change (option_map2 YMap (type_of names here (type_ast g d ty1)) (type_of names here (type_ast g d ty2)) = Some (YMap (rust_type_of ty1) (rust_type_of ty2))).
  rewrite (simple_type i m here ty1 G H K'), (simple_type i m here ty2 G H V). reflexivity.
Qed.
Lemma visible_shown : forall f, hidden g f = negb (visible c f).
Proof. intros f. unfold hidden, visible. fold c. now rewrite Bool.negb_involutive. Qed.
Lemma field_facts : forall i m f, get_message d i = Some m -> In f (visible_fields c m) -> field_ok d c lit f.
Proof.
  intros i m f G I. destruct (Schema i m G) as [D _ _]. rewrite Forall_forall in D. apply (D (SdField f)). unfold descs. apply in_app_iff. left.
  now apply in_map.
Qed.
Lemma variant_facts : forall i m o f, get_message d i = Some m -> In o (m_oneofs m) -> In f (oneof_variants c o) -> typ_ok d (f_typ f).
Proof.
  intros i m o f G O I. destruct (Schema i m G) as [D _ _]. rewrite Forall_forall in D.
  assert (X : desc_ok d c lit (SdOneof (oneof_variants c o))).
  { apply D. unfold descs. apply in_app_iff. right. apply in_map_iff. now exists o. }
  cbn in X. rewrite Forall_forall in X. now apply X.
Qed.
Lemma field_typ : forall f, field_ok d c lit f -> full_typ_ok (f_typ f).
Proof.
  intros f (_ & T & _). destruct (freq_is_map (f_freq f)).
  - destruct (f_typ f); try contradiction. exact T.
  - destruct (f_typ f); try exact T. contradiction.
Qed.
Lemma field_type : forall i m f, get_message d i = Some m -> In f (visible_fields c m) ->
  type_of names (InMsg i) (field_type_ast g d f) = Some (field_rtype c f).
Proof.
  intros i m f G I. pose proof (field_typ f (field_facts i m f G I)) as T. pose proof (full_type i m (InMsg i) (f_typ f) G (or_introl eq_refl) T) as E.
  unfold field_type_ast, field_rtype. fold c. destruct (f_boxed f).
  - change (option_map YOption (option_map YBox (type_of names (InMsg i) (type_ast g d (f_typ f)))) = Some (YOption (YBox (rust_type_of (f_typ f))))). now rewrite E.
  - destruct (generated_type_of (f_freq f)).
    + destruct (freq_is_optional (f_freq f)); [|exact E].
      change (option_map YOption (type_of names (InMsg i) (type_ast g d (f_typ f))) = Some (YOption (rust_type_of (f_typ f)))). now rewrite E.
    + destruct (f_is_packed f && is_fixed_size (f_typ f) && negb (c_dont_use_cow c))%bool.
      * change (option_map YPacked (type_of names (InMsg i) (type_ast g d (f_typ f))) = Some (YPacked (rust_type_of (f_typ f)))). now rewrite E.
      * change (option_map YVec (type_of names (InMsg i) (type_ast g d (f_typ f))) = Some (YVec (rust_type_of (f_typ f)))). now rewrite E.
    + exact E.
Qed.
Lemma the_struct_of : forall i m, get_message d i = Some m -> the_struct (p_struct prog i) =
  Some (message_attrs g d m, if is_unit m then [] else flat_map (struct_fields g d) (m_fields m) ++ map (oneof_field g d) (m_oneofs m)).
Proof.
  intros i m G. cbn [p_struct prog generated_program]. rewrite G. unfold message_items, definition_item, the_struct. now destruct (is_unit m).
Qed.
Lemma unit_empty : forall m, is_unit m = true -> m_fields m = [] /\ m_oneofs m = [].
Proof. intros m. destruct m; cbn. destruct m_fields; [|discriminate]. destruct m_oneofs; [|discriminate]. auto. Qed.
Lemma fields_env : forall i m, get_message d i = Some m -> fields_of names prog i = struct_env c m.
Proof.
  intros i m G. unfold fields_of. rewrite (the_struct_of i m G). unfold struct_env, visible_fields. destruct (is_unit m) eqn:U.
  - destruct (unit_empty m U) as (-> & ->). reflexivity.
  - rewrite flat_map_app. f_equal.
    + assert (X : forall f, In f (filter (visible c) (m_fields m)) -> type_of names (InMsg i) (field_type_ast g d f) = Some (field_rtype c f))
        by (intros f I; now apply (field_type i m)).
      induction (m_fields m) as [|f l IH]; [reflexivity|]. cbn [flat_map filter] in *. unfold struct_fields. rewrite visible_shown.
      destruct (visible c f) eqn:V; cbn [negb app map flat_map rf_type rf_name]; [|now apply IH].
      rewrite X by now left. cbn [app]. f_equal. apply IH. intros x I. apply X. now right.
    + assert (X : forall o, In o (m_oneofs m) -> type_of names (InMsg i) (rf_type (oneof_field g d o)) = Some (YOneof (o_name o))).
      { intros o I. destruct (no_oneof _ _ _ Names i m o G I) as (A & B & _).
        apply (path_type i m); [now left|exact A| |exact B]. unfold oneof_path. intros H. apply app_eq_nil in H. now destruct H. }
      induction (m_oneofs m) as [|o l IH]; [reflexivity|]. cbn [map flat_map]. rewrite X by now left. cbn [rf_name oneof_field app]. f_equal.
      apply IH. intros x I. apply X. now right.
Qed.
Lemma oneof_found : forall i m o, get_message d i = Some m -> In o (m_oneofs m) ->
  find (fun x => String.eqb (o_name o) (o_name x)) (m_oneofs m) = Some o.
Proof.
  intros i m o G I. pose proof (pn_fields _ _ Plain i m G) as N. fold c in N. unfold named_slots in N. rewrite map_app, !map_map in N. cbn [fst] in N.
  apply nodup_right in N. induction (m_oneofs m) as [|x l IH]; [contradiction|]. cbn [map] in N. inversion N as [|? ? N1 N2]; subst.
  cbn [find]. destruct I as [->|I]; [now rewrite String.eqb_refl|]. destruct (String.eqb_spec (o_name o) (o_name x)) as [E|]; [|now apply IH].
  exfalso. apply N1. rewrite <- E. now apply (in_map o_name).
Qed.
Lemma shown_variants : forall o, oneof_shown g o = oneof_variants c o.
Proof.
  intros o. unfold oneof_shown, oneof_variants. apply filter_ext. intros f. unfold visible. fold c. now destruct (f_deprecated f), (c_add_deprecated_fields c).
Qed.
Lemma variants_env : forall i m o, get_message d i = Some m -> In o (m_oneofs m) ->
  variants_of names prog i (o_name o) = map (fun f => (f_name f, Some (variant_rtype f))) (oneof_variants c o) ++ [("None", None)].
Proof.
  intros i m o G I. unfold variants_of. cbn [p_oneof prog generated_program]. rewrite G, (oneof_found i m o G I).
  unfold oneof_items, the_enum. cbn [first or_nil]. rewrite flat_map_app. f_equal.
  assert (X : forall f, In f (filter (visible c) (o_fields o)) ->
    type_of names (InOneof i (o_name o)) (if f_boxed f then tapp "Box" [GType (type_ast g d (f_typ f))] else type_ast g d (f_typ f)) = Some (variant_rtype f)).
  { intros f F. pose proof (simple_type i m (InOneof i (o_name o)) (f_typ f) G (or_intror (ex_intro _ o (conj I eq_refl))) (variant_facts i m o f G I F)) as T.
    unfold variant_rtype. destruct (f_boxed f); [|exact T].
    change (option_map YBox (type_of names (InOneof i (o_name o)) (type_ast g d (f_typ f))) = Some (YBox (rust_type_of (f_typ f)))). now rewrite T. }
  unfold oneof_variants. induction (o_fields o) as [|f l IH]; [reflexivity|]. cbn [flat_map filter] in *. unfold oneof_variant. rewrite visible_shown.
  destruct (visible c f) eqn:V; cbn [negb app map flat_map rv_payload rv_name]; [|now apply IH].
  rewrite X by now left. cbn [app]. f_equal. apply IH. intros x J. apply X. now right.
Qed.

(** *** Enums *)
Lemma path_in_enum : forall q e w fuel h v z s, get_enum d q = Some e -> w_numbers w = numbers_of prog -> In (v, z) (en_fields e) ->
  eval t names w (InEnum q) fuel h (epath [en_name e; v]) s = Go (XEnum q z) s.
Proof.
  intros q e w fuel h v z s G N I.
  destruct (no_own_enum _ _ _ Names q e G) as ((_ & _ & Ns) & Ne).
  change (eval t names w (InEnum q) fuel h (epath [en_name e; v]) s) with (@of_option rv
    (match (if String.eqb (en_name e) "Self" then Some None else None) with
     | Some o => o
     | None => match names (InEnum q) [en_name e] with Some (YEnum q) => option_map (XEnum q) (assoc v (w_numbers w q)) | _ => None end
     end) s).
  apply String.eqb_neq in Ns. rewrite Ns, Ne, N, (numbers_enum q e G), (assoc_in _ v z (pn_values _ _ Plain q e G) I). reflexivity.
Qed.
Lemma enum_impls_of : forall q e, get_enum d q = Some e -> exists e0 v z l r,
  en_fields e = (v, z) :: l /\ en_fields e0 = (v, z) :: r /\ en_name e0 = en_name e /\ p_enum prog q = enum_definition e :: enum_impls e e0.
Proof.
  intros q e G. destruct (no_value _ _ _ Names q e G) as (e0 & v & z & l & r & p & E & G0 & Nm & E0 & _). exists e0, v, z, l, r.
  repeat match goal with |- _ /\ _ => split end; auto. cbn [p_enum prog generated_program]. rewrite G, G0. unfold enum_items. now rewrite E.
Qed.
Lemma enum_default_is : forall q e, get_enum d q = Some e -> enum_default_of t names prog q = Some (XEnum q (enum_default d q)).
Proof.
  intros q e G. destruct (enum_impls_of q e G) as (e0 & v & z & l & r & E & E0 & Nm & P). unfold enum_default_of. rewrite P.
  change (method_of "Default" "default" false (enum_definition e :: enum_impls e e0)) with
    (Some (mkRFn false "default" [] NoSelf [] (Some (tname "Self")) [result (enum_default_value e0)])).
  unfold enum_default. rewrite G, E. unfold enum_default_value. rewrite E0, Nm.
  change (result_of (eval t names (nothing t names prog) (InEnum q) 0 None (epath [en_name e; v]) (mkSt [] [] [] (mkR 0 0))) = Some (XEnum q z)).
  rewrite (path_in_enum q e (nothing t names prog) 0 None v z _ G eq_refl); [reflexivity|]. rewrite E. now left.
Qed.
Lemma enum_from_is : forall q e z, get_enum d q = Some e -> enum_from_of t names prog q z = Some (XEnum q (enum_from_i32 d q z)).
Proof.
  intros q e z G. destruct (enum_impls_of q e G) as (e0 & v & zz & l & r & E & E0 & Nm & P). unfold enum_from_of. rewrite P.
  change (method_of "From" "from" true (enum_definition e :: enum_impls e e0)) with
    (Some (mkRFn false "from" [] NoSelf [(bind "i", tname "i32")] (Some (tname "Self"))
      [result (REMatch (var "i") (map (fun f => RArm (RPNum (negative (snd f)) (show (Z.abs (snd f)))) (epath [en_name e; fst f]) true) (en_fields e)
          ++ [RArm RPWild (call (epath ["Self"; "default"]) []) true]))])).
  set (w := world_of _ _ _ _ _ _ _ _).
  set (arms := map _ (en_fields e) ++ _).
  change (result_of (arms_of (eval t names w (InEnum q) 0) None (XInt z) arms (mkSt [("i", XInt z)] [] [] (mkR 0 0))) = Some (XEnum q (enum_from_i32 d q z))).
  unfold enum_from_i32. rewrite G.
  assert (X : forall fs, incl fs (en_fields e) ->
    arms_of (eval t names w (InEnum q) 0) None (XInt z)
      (map (fun f => RArm (RPNum (negative (snd f)) (show (Z.abs (snd f)))) (epath [en_name e; fst f]) true) fs
          ++ [RArm RPWild (call (epath ["Self"; "default"]) []) true]) (mkSt [("i", XInt z)] [] [] (mkR 0 0)) =
    Go (XEnum q match find (fun '(_, y) => z =? y) fs with Some (_, y) => y | None => enum_default d q end) (mkSt [("i", XInt z)] [] [] (mkR 0 0))).
  { induction fs as [|(n, y) fs IH]; intros I.
    - cbn [map app find].
      cbn [arms_of matches]. unfold scoped. rewrite ev_self_default. change (self_default w (InEnum q)) with (enum_default_of t names prog q).
      rewrite (enum_default_is q e G). reflexivity.
    - cbn [map app find fst snd]. cbn [arms_of]. cbn [matches]. rewrite pattern_signed. destruct (z =? y).
      + unfold scoped. rewrite (path_in_enum q e w 0 None n y _ G eq_refl); [reflexivity|]. apply I. now left.
      + apply IH. intros x J. apply I. now right. }
  unfold arms. rewrite X by apply incl_refl. reflexivity.
Qed.

(** *** Defaults *)
Section Defaults.
Variables (i : midx) (m : message).
Hypothesis G : get_message d i = Some m.
Variable w : world.
Variable fuel : nat.
Variable dm : midx -> option (list slot).
Hypothesis WN : w_numbers w = numbers_of prog.
Hypothesis WV : w_variants w = variants_of names prog.
Hypothesis WD : forall j x ss, get_message d j = Some x -> dm j = Some ss -> w_default w (YMsg j) = Some (rust_struct d c j x ss).
Notation ev := (eval t names w (InMsg i) fuel).

Lemma ev_path : forall h p s, (2 <= length p)%nat -> own_name (removelast p) -> ev h (epath p) s =
  of_option (match variant_type names w (InMsg i) p with
             | Some None => Some (XVariant (last_of p) None)
             | Some (Some _) => None
             | None => enum_value names w (InMsg i) p
             end) s.
Proof.
  intros h p s L Ow. unfold epath. change (ev h (REPath false (spath p [])) s) with (of_option (path_value names w (InMsg i) h false (map seg_name (spath p [])) s) s).
  rewrite seg_spath. destruct p as [|a [|b p]]; [exfalso; clear - L; cbn in L; lia|exfalso; clear - L; cbn in L; lia|].
  unfold path_value, own_const. destruct p as [|b' p]; [|reflexivity]. destruct Ow as (_ & _ & Ow). apply String.eqb_neq in Ow. now rewrite Ow.
Qed.
Lemma ev_call_path : forall h p args s, ev h (call (epath p) args) s = seq (call_path names w (InMsg i) ev h (spath p []) args) (fun x => go x) s.
Proof. reflexivity. Qed.
Lemma seq_go : forall {A} (f : st -> res A) s, seq f (fun x => go x) s = f s.
Proof. intros A f s. unfold seq, go. now destruct (f s). Qed.

Lemma zero_value : forall ty v h s, typ_ok d ty -> type_default d dm ty = Some v -> ev h (singular_default_exp d d0 ty) s = Go (emb ty v) s.
Proof.
  intros ty v h s T V. destruct ty; try contradiction; try discriminate; try (injection V as <-; reflexivity).
  - (* enum *) cbn [type_default] in V. injection V as <-. cbn [typ_ok] in T. destruct (get_enum d e) as [x|] eqn:X; [|contradiction].
    destruct (no_value _ _ _ Names e x X) as (e0 & v & z & l & r & p & E & G0 & _ & E0 & Qv & Ow & Pn).
    cbn [singular_default_exp]. rewrite G0, Qv. assert (L : (2 <= length (p ++ [v]))%nat).
    { unfold qualified_value in Qv. rewrite E0 in Qv. injection Qv as Qv. rewrite <- Qv, app_length. cbn. lia. }
    rewrite (ev_path h _ s L) by now rewrite removelast_snoc. unfold variant_type, enum_value. rewrite removelast_snoc, last_snoc, (Pn i m G), WN, (numbers_enum e x X), E. cbn [assoc].
    rewrite String.eqb_refl. unfold enum_default. rewrite X, E. reflexivity.
  - (* message *) cbn [type_default] in V. destruct (dm m0) as [ss|] eqn:Dm; [|discriminate]. injection V as <-. cbn [typ_ok] in T.
    destruct (get_message d m0) as [x|] eqn:X; [|contradiction]. cbn [singular_default_exp]. rewrite X.
    destruct (no_message _ _ _ Names i m m0 x G X) as (Ow & P & _). rewrite ev_call_path, seq_go. unfold call_path. rewrite seg_spath, fkind_default.
    + cbv iota. rewrite last_snoc, removelast_snoc, P. cbn [String.eqb Ascii.eqb Bool.eqb]. rewrite (WD m0 x ss X Dm), (emb_message d c m0 x ss X). reflexivity.
    + apply message_path_nonempty.
    + intros E. rewrite E in Ow. destruct Ow as (_ & _ & Ow). now apply Ow.
Qed.
Lemma default_slot : forall f sl h s, In f (visible_fields c m) -> dexpr_slot d lit dm (get_field_default c f) = Some sl ->
  assoc "None" (s_env s) = None ->
  (forall x, h = Some x -> x = field_rtype c f) -> (generated_type_of (f_freq f) = ArrayLikeType -> h <> None) ->
  ev h (default_exp g d d0 f) s = Go (rust_slot d c (get_type c f) sl) s.
Proof.
  intros f sl h s I D N H1 H2. pose proof (field_facts i m f G I) as (F1 & F2 & F3 & F4).
  unfold default_exp, get_field_default, get_type in *. fold c.
  assert (Nv : ev h (var "None") s = Go (XOpt None) s) by (cbn; now rewrite N).
  destruct (f_boxed f) eqn:B.
  - unfold generated_type_of in *. assert (O := F1 eq_refl). destruct (f_freq f); try discriminate; cbn in D; injection D as <-; exact Nv.
  - destruct (generated_type_of (f_freq f)) eqn:GT.
    + destruct (freq_is_optional (f_freq f)) eqn:O; [cbn in D; injection D as <-; exact Nv|].
      destruct (f_default f) as [x|] eqn:Df.
      * cbn [dexpr_slot] in D. destruct (lit (f_typ f) x) as [v|] eqn:Lt; [|discriminate]. injection D as <-.
        exact (proj1 (Consts i m f x v G I Df Lt w fuel h s WN WV)).
      * assert (T : typ_ok d (f_typ f)).
        { unfold generated_type_of in GT. destruct (freq_is_map (f_freq f)); [discriminate|exact F2]. }
        destruct (f_typ f) eqn:Ty; try contradiction; cbn [dexpr_slot] in D;
          (match type of D with option_map SlOne ?z = _ => destruct z as [v|] eqn:V; [|discriminate] end; injection D as <-;
           cbn [rust_slot]; now apply zero_value).
    + destruct (f_is_packed f && is_fixed_size (f_typ f) && negb (c_dont_use_cow c))%bool eqn:P.
      * cbn in D. injection D as <-. destruct h as [x|]; [|exfalso; now apply H2]. rewrite (H1 x eq_refl). unfold field_rtype. rewrite B, GT, P.
        apply Bool.andb_true_iff in P. destruct P as (P & _). apply Bool.andb_true_iff in P. destruct P as (_ & P).
        destruct (f_typ f); try discriminate P; reflexivity.
      * cbn in D. injection D as <-. reflexivity.
    + cbn in D. injection D as <-. unfold generated_type_of in GT. destruct (freq_is_map (f_freq f)); [|destruct (freq_is_repeated (f_freq f)); discriminate].
      destruct (f_typ f); try contradiction. reflexivity.
Qed.
End Defaults.

(** *** [Default] of structs *)
Lemma first_app : forall {A B} (f : A -> option B) l r, first f (l ++ r) = match first f l with Some y => Some y | None => first f r end.
Proof. intros A B f l r. induction l as [|x l IH]; [reflexivity|]. cbn. now destruct (f x). Qed.
Lemma impl_app : forall n b l r, the_impl n b (l ++ r) = match the_impl n b l with Some y => Some y | None => the_impl n b r end.
Proof. intros. apply first_app. Qed.
Lemma impl_consts : forall n b m, the_impl n b (consts_items g d m) = None.
Proof. intros n b m. unfold consts_items. destruct (d_syntax d); [|reflexivity]. now destruct (negb _). Qed.
Lemma impl_before : forall n b m,
  the_impl n b ([definition_item g d m] ++ only (existsb (must_generate_const (d_syntax d) c) (m_fields m)) (consts_items g d m)
    ++ only (existsb (must_generate_getter g d) (m_fields m) && g_getters g) (getters_items g d m)) = None.
Proof.
  intros n b m. rewrite !impl_app. assert (D : the_impl n b [definition_item g d m] = None) by (unfold definition_item; now destruct (is_unit m)).
  rewrite D. destruct (existsb _ _); cbn [only]; [rewrite impl_consts|]; now destruct (_ && _)%bool.
Qed.
Lemma items_split : forall m, message_items g d d0 m =
  ([definition_item g d m] ++ only (existsb (must_generate_const (d_syntax d) c) (m_fields m)) (consts_items g d m)
    ++ only (existsb (must_generate_getter g d) (m_fields m) && g_getters g) (getters_items g d m)) ++
  only (message_must_generate_impl_default (d_syntax d) c m) [GenAst.message_default g d d0 m]
  ++ [message_read g d m; message_write_impl g d d0 m]
  ++ only (g_gen_info g) [message_info g d m]
  ++ only (g_owned g) (if or_else (Lifetime.message_has_lifetime c d (Lifetime.lifetime_fuel d) [] m) false then owned_items g m else [try_from_item m]).
Proof. intros m. unfold message_items. fold c. now rewrite <- !app_assoc. Qed.
Lemma default_fn_of : forall i m, get_message d i = Some m ->
  method_of "Default" "default" false (p_struct prog i) =
  if message_must_generate_impl_default (d_syntax d) c m
  then Some (mkRFn false "default" [] NoSelf [] (Some (tname "Self"))
    [result (if is_unit m then REStruct [PSeg "Self" []] [] false
             else let inits := flat_map (field_inits g d d0) (m_fields m) ++ map (oneof_init d) (m_oneofs m) in
                  REStruct [PSeg "Self" []] inits match inits with [] => false | _ => true end)])
  else None.
Proof.
  intros i m G. cbn [p_struct prog generated_program]. rewrite G. unfold method_of. rewrite items_split, impl_app, impl_before.
  destruct (message_must_generate_impl_default (d_syntax d) c m); cbn [only app].
  - unfold GenAst.message_default. now destruct (is_unit m).
  - unfold message_read, message_write_impl. destruct (is_unit m), (g_gen_info g), (g_owned g), (or_else _ _); cbn [only]; try reflexivity;
      unfold owned_items; destruct (g_gen_info g); reflexivity.
Qed.
Lemma derived_default : forall i m, get_message d i = Some m -> message_must_generate_impl_default (d_syntax d) c m = false -> derives_default (message_attrs g d m) = true.
Proof.
  intros i m G H. destruct Derive as [D|D].
  - unfold message_attrs, derive_text. fold c. rewrite D, H. reflexivity.
  - pose proof (D i m G) as X. fold c in X. congruence.
Qed.
Lemma default_of_type : forall msg i m y dm ty v, get_message d i = Some m ->
  (forall j x ss, get_message d j = Some x -> dm j = Some ss -> msg j = Some (rust_struct d c j x ss)) ->
  y = rust_type_of ty -> typ_ok d ty -> type_default d dm ty = Some v ->
  default_type t names prog msg i y = Some (emb ty v).
Proof.
  intros msg i m y dm ty v G M -> T V. destruct ty; try contradiction; try discriminate; cbn [type_default] in V; try (injection V as <-; reflexivity).
  - injection V as <-. cbn [typ_ok] in T. destruct (get_enum d e) as [x|] eqn:X; [|contradiction]. exact (enum_default_is e x X).
  - destruct (dm m0) as [ss|] eqn:D; [|discriminate]. injection V as <-. cbn [typ_ok] in T. destruct (get_message d m0) as [x|] eqn:X; [|contradiction].
    rewrite (emb_message d c m0 x ss X). exact (M m0 x ss X D).
Qed.
Lemma oneof_default_is : forall i m o, get_message d i = Some m -> In o (m_oneofs m) ->
  oneof_default_of t names prog i (o_name o) = Some (XVariant "None" None).
Proof.
  intros i m o G I. unfold oneof_default_of. cbn [p_oneof prog generated_program]. rewrite G, (oneof_found i m o G I).
  change (method_of "Default" "default" false (oneof_items g d o)) with
    (Some (mkRFn false "default" [] NoSelf [] (Some (tname "Self")) [result (epath [oneof_name o; "None"])])).
  destruct (no_oneof _ _ _ Names i m o G I) as (_ & _ & B).
  change (result_of (of_option (match (match names (InOneof i (o_name o)) [oneof_name o] with
      | Some (YOneof x) => assoc "None" (variants_of names prog i x) | _ => None end) with
    | Some None => Some (XVariant "None" None)
    | Some (Some _) => None
    | None => enum_value names (nothing t names prog) (InOneof i (o_name o)) [oneof_name o; "None"]
    end) (mkSt [] [] [] (mkR 0 0))) = Some (XVariant "None" None)).
  rewrite B, (variants_env i m o G I).
  assert (X : assoc "None" (map (fun f => (f_name f, Some (variant_rtype f))) (oneof_variants c o) ++ [("None", None)]) = Some None).
  { pose proof (pn_variants _ _ Plain i m o G I) as N. fold c in N. inversion N as [|? ? N1 _]; subst. clear - N1.
    induction (oneof_variants c o) as [|f l IH]; [reflexivity|]. cbn [map app assoc]. destruct (String.eqb_spec "None" (f_name f)) as [E|_].
    - exfalso. apply N1. left. now rewrite E.
    - apply IH. intros J. apply N1. now right. }
  rewrite X. reflexivity.
Qed.
Lemma all_some_app : forall {A B} (f : A -> option B) l r x, all_some (map f (l ++ r)) = Some x ->
  exists y z, x = y ++ z /\ all_some (map f l) = Some y /\ all_some (map f r) = Some z.
Proof.
  intros A B f l r. induction l as [|a l IH]; intros x H.
  - exists [], x. now repeat split.
  - cbn [app map all_some] in H. destruct (f a) as [b|] eqn:F; [|discriminate]. destruct (all_some (map f (l ++ r))) as [q|] eqn:Q; [|discriminate].
    injection H as <-. destruct (IH q eq_refl) as (y & z & -> & Y & Z). exists (b :: y), z. split; [reflexivity|]. split; [|exact Z].
    cbn [map all_some]. now rewrite F, Y.
Qed.
Lemma rust_slots_app : forall l1 l2 s1 s2, length l1 = length s1 ->
  rust_slots d c (l1 ++ l2) (s1 ++ s2) = rust_slots d c l1 s1 ++ rust_slots d c l2 s2.
Proof.
  induction l1 as [|(n, y) l1 IH]; intros l2 [|x s1] s2 L; try discriminate; [reflexivity|]. cbn. rewrite IH; [reflexivity|]. now injection L.
Qed.
Lemma all_some_length : forall {A} (l : list (option A)) r, all_some l = Some r -> length l = length r.
Proof.
  induction l as [|[a|] l IH]; intros r H; cbn in H; try discriminate; [injection H as <-; reflexivity|].
  destruct (all_some l) as [q|]; [|discriminate]. injection H as <-. cbn. now rewrite (IH q eq_refl).
Qed.
Lemma slots_names : forall m, map fst (struct_env c m) = map fst (named_slots c m).
Proof. intros m. unfold struct_env, named_slots. now rewrite !map_app, !map_map. Qed.
Lemma hint_of : forall i m f y, get_message d i = Some m -> In (f, y) (struct_env c m) -> assoc f (fields_of names prog i) = Some y.
Proof. intros i m f y G I. rewrite (fields_env i m G). apply assoc_in; [|exact I]. rewrite slots_names. exact (pn_fields _ _ Plain i m G). Qed.
Lemma shown_inits : forall m, flat_map (field_inits g d d0) (m_fields m) = map (fun f => RInit (f_name f) (Some (default_exp g d d0 f))) (visible_fields c m).
Proof.
  intros m. unfold visible_fields. induction (m_fields m) as [|f l IH]; [reflexivity|]. cbn [flat_map filter]. rewrite IH. unfold field_inits, hidden, visible. fold c.
  now destruct (f_deprecated f && negb (c_add_deprecated_fields c))%bool.
Qed.
Lemma none_of_oneof : forall i m o w fuel h s, get_message d i = Some m -> In o (m_oneofs m) -> w_variants w = variants_of names prog ->
  eval t names w (InMsg i) fuel h (epath (oneof_path d o ++ ["None"])) s = Go (XVariant "None" None) s.
Proof.
  intros i m o w fuel h s G I WV. destruct (no_oneof _ _ _ Names i m o G I) as (Ow & B & _).
  rewrite ev_path.
  - unfold variant_type. rewrite last_snoc, removelast_snoc, B, WV, (variants_env i m o G I).
    assert (X : assoc "None" (map (fun f => (f_name f, Some (variant_rtype f))) (oneof_variants c o) ++ [("None", None)]) = Some None).
    { pose proof (pn_variants _ _ Plain i m o G I) as N. fold c in N. inversion N as [|? ? N1 _]; subst. clear - N1.
      induction (oneof_variants c o) as [|f l IH]; [reflexivity|]. cbn [map app assoc]. destruct (String.eqb_spec "None" (f_name f)) as [E|_].
      - exfalso. apply N1. left. now rewrite E.
      - apply IH. intros J. apply N1. now right. }
    rewrite X. reflexivity.
  - rewrite app_length. unfold oneof_path. rewrite app_length. cbn. lia.
  - rewrite removelast_snoc. exact Ow.
Qed.
Lemma explicit_slots : forall i m w fuel dm s fs ss, get_message d i = Some m -> incl fs (visible_fields c m) ->
  w_numbers w = numbers_of prog -> w_variants w = variants_of names prog -> w_fields w = fields_of names prog ->
  (forall j x ss, get_message d j = Some x -> dm j = Some ss -> w_default w (YMsg j) = Some (rust_struct d c j x ss)) ->
  assoc "None" (s_env s) = None ->
  all_some (map (init_slot d lit dm) (map (fun f => IExpr (get_field_default c f)) fs)) = Some ss ->
  forall rest, inits (eval t names w (InMsg i) fuel) (w_fields w i) (map (fun f => RInit (f_name f) (Some (default_exp g d d0 f))) fs ++ rest) s =
  seq (inits (eval t names w (InMsg i) fuel) (w_fields w i) rest) (fun r => go (rust_slots d c (map (fun f => (f_name f, get_type c f)) fs) ss ++ r)) s.
Proof.
  intros i m w fuel dm s fs ss G I WN WV WF WD En. revert ss. induction fs as [|f fs IH]; intros ss H rest.
  - cbn in H. injection H as <-. cbn [map app rust_slots]. unfold seq, go. now destruct (inits _ _ rest s).
  - cbn [map all_some init_slot] in H. destruct (dexpr_slot d lit dm (get_field_default c f)) as [sl|] eqn:S; [|discriminate].
    destruct (all_some _) as [q|] eqn:Q; [|discriminate]. injection H as <-.
    assert (If : In f (visible_fields c m)) by (apply I; now left).
    cbn [map app inits rust_slots]. unfold seq at 1.
    assert (Hh : assoc (f_name f) (w_fields w i) = Some (field_rtype c f)).
    { rewrite WF. apply (hint_of i m _ _ G). unfold struct_env. apply in_app_iff. left. apply in_map_iff. now exists f. }
    rewrite (default_slot i m G w fuel dm WN WV WD f sl (assoc (f_name f) (w_fields w i)) s If S En).
    + specialize (IH (fun x J => I x (or_intror J)) q eq_refl rest). unfold seq at 1.
      change ((fix run (l : list rinit) : st -> res (list (text * rv)) :=
          match l with
          | [] => go []
          | RInit f0 (Some e) :: rest0 => seq (eval t names w (InMsg i) fuel (assoc f0 (w_fields w i)) e) (fun x => seq (run rest0) (fun r => go ((f0, x) :: r)))
          | RInit _ None :: _ => stuck
          end) (map (fun f0 : field => RInit (f_name f0) (Some (default_exp g d d0 f0))) fs ++ rest) s)
       with (inits (eval t names w (InMsg i) fuel) (w_fields w i) (map (fun f0 : field => RInit (f_name f0) (Some (default_exp g d d0 f0))) fs ++ rest) s).
      rewrite IH. unfold seq, go. now destruct (inits _ _ rest s).
    + intros x E. rewrite Hh in E. now injection E.
    + rewrite Hh. discriminate.
Qed.
Lemma explicit_oneofs : forall i m w fuel s os, get_message d i = Some m -> incl os (m_oneofs m) -> w_variants w = variants_of names prog ->
  inits (eval t names w (InMsg i) fuel) (w_fields w i) (map (oneof_init d) os) s =
  Go (rust_slots d c (map (fun o => (o_name o, TyOneof (oneof_variants c o))) os) (map (fun _ => SlOneofNone) os)) s.
Proof.
  intros i m w fuel s os G I WV. induction os as [|o os IH]; [reflexivity|].
  cbn [map inits oneof_init]. unfold seq at 1. rewrite (none_of_oneof i m o w fuel _ s G (I o (or_introl eq_refl)) WV).
  specialize (IH (fun x J => I x (or_intror J))). unfold seq. cbn [inits] in IH.
  match goal with |- match ?a s with _ => _ end = _ => change (a s) with (inits (eval t names w (InMsg i) fuel) (w_fields w i) (map (oneof_init d) os) s) end.
  unfold inits in *. rewrite IH. reflexivity.
Qed.
Lemma oneofs_init : forall dm os ss, all_some (map (init_slot d lit dm) (map (fun _ : oneof => IOneofNone) os)) = Some ss -> ss = map (fun _ => SlOneofNone) os.
Proof.
  intros dm. induction os as [|o os IH]; intros ss H; [now injection H as <-|]. cbn [map all_some init_slot] in H.
  destruct (all_some _) as [q|] eqn:Q; [|discriminate]. injection H as <-. cbn. now rewrite (IH q eq_refl).
Qed.
Lemma explicit_default : forall i m w fuel dm s ss, get_message d i = Some m ->
  w_numbers w = numbers_of prog -> w_variants w = variants_of names prog -> w_fields w = fields_of names prog ->
  (forall j x ss, get_message d j = Some x -> dm j = Some ss -> w_default w (YMsg j) = Some (rust_struct d c j x ss)) ->
  assoc "None" (s_env s) = None ->
  all_some (map (init_slot d lit dm) (map (fun f => IExpr (get_field_default c f)) (visible_fields c m) ++ map (fun _ => IOneofNone) (m_oneofs m))) = Some ss ->
  inits (eval t names w (InMsg i) fuel) (w_fields w i) (flat_map (field_inits g d d0) (m_fields m) ++ map (oneof_init d) (m_oneofs m)) s =
  Go (rust_slots d c (named_slots c m) ss) s.
Proof.
  intros i m w fuel dm s ss G WN WV WF WD En H. destruct (all_some_app _ _ _ _ H) as (y & z & -> & Y & Z).
  apply oneofs_init in Z. subst z. rewrite shown_inits.
  rewrite (explicit_slots i m w fuel dm s _ y G (incl_refl _) WN WV WF WD En Y). unfold seq.
  rewrite (explicit_oneofs i m w fuel s _ G (incl_refl _) WV). unfold go, named_slots. rewrite rust_slots_app; [reflexivity|].
  apply all_some_length in Y. now rewrite !map_length in *.
Qed.
Lemma derived_field : forall msg i m dm f sl, get_message d i = Some m -> In f (visible_fields c m) ->
  (forall j x ss, get_message d j = Some x -> dm j = Some ss -> msg j = Some (rust_struct d c j x ss)) ->
  derived_slot d dm (get_type c f) = Some sl -> default_type t names prog msg i (field_rtype c f) = Some (rust_slot d c (get_type c f) sl).
Proof.
  intros msg i m dm f sl G I M H. pose proof (field_facts i m f G I) as (F1 & F2 & F3 & F4). unfold get_type, field_rtype in *.
  destruct (f_boxed f); [cbn in H; now injection H as <-|]. destruct (generated_type_of (f_freq f)) eqn:GT.
  - destruct (freq_is_optional (f_freq f)); [cbn in H; now injection H as <-|]. cbn [derived_slot] in H.
    destruct (type_default d dm (f_typ f)) as [v|] eqn:V; [|discriminate]. injection H as <-. cbn [rust_slot].
    apply (default_of_type msg i m _ dm (f_typ f) v G M eq_refl); [|exact V]. unfold generated_type_of in GT.
    destruct (freq_is_map (f_freq f)); [discriminate|exact F2].
  - destruct (f_is_packed f && is_fixed_size (f_typ f) && negb (c_dont_use_cow c))%bool eqn:P.
    + cbn in H. injection H as <-. apply Bool.andb_true_iff in P. destruct P as (P & _). apply Bool.andb_true_iff in P. destruct P as (_ & P).
      destruct (f_typ f); try discriminate P; reflexivity.
    + cbn in H. injection H as <-. destruct (f_typ f); reflexivity.
  - unfold generated_type_of in GT. destruct (freq_is_map (f_freq f)); [|destruct (freq_is_repeated (f_freq f)); discriminate].
    destruct (f_typ f); try contradiction. cbn in H. injection H as <-. reflexivity.
Qed.
Lemma derived_fields : forall msg i m dm, get_message d i = Some m ->
  (forall j x ss, get_message d j = Some x -> dm j = Some ss -> msg j = Some (rust_struct d c j x ss)) ->
  forall l : list (text * slot_type * rtype),
  Forall (fun '(n, ty, y) => forall sl, derived_slot d dm ty = Some sl -> default_type t names prog msg i y = Some (rust_slot d c ty sl)) l ->
  forall ss, all_some (map (init_slot d lit dm) (map IDerived (map (fun x => snd (fst x)) l))) = Some ss ->
  default_fields t names prog msg i (map (fun x => (fst (fst x), snd x)) l) = Some (rust_slots d c (map fst l) ss).
Proof.
  intros msg i m dm G M l F. induction F as [|((n, ty), y) l A F IH]; intros ss H; [cbn in H; injection H as <-; reflexivity|].
  cbn [map all_some init_slot fst snd] in H. destruct (derived_slot d dm ty) as [sl|] eqn:D; [|discriminate].
  destruct (all_some _) as [q|] eqn:Q; [|discriminate]. injection H as <-. cbn [map default_fields fst snd rust_slots].
  now rewrite (A sl eq_refl), (IH q eq_refl).
Qed.
Theorem struct_default_is : forall n i m ss, get_message d i = Some m -> default_msg d c lit n i = Some ss ->
  struct_default t names prog n i = Some (rust_struct d c i m ss).
Proof.
  induction n as [|n IH]; intros i m ss G H; [discriminate|]. cbn [default_msg] in H. rewrite G in H. cbn [struct_default].
  rewrite (default_fn_of i m G). unfold default_inits in H.
  assert (M : forall j x ss, get_message d j = Some x -> default_msg d c lit n j = Some ss -> struct_default t names prog n j = Some (rust_struct d c j x ss))
    by (intros j x s0 X S; now apply IH).
  destruct (message_must_generate_impl_default (d_syntax d) c m) eqn:Mg.
  - set (w := world_of _ _ _ _ _ _ _ _). set (ii := flat_map (field_inits g d d0) (m_fields m) ++ map (oneof_init d) (m_oneofs m)).
    assert (X : inits (eval t names w (InMsg i) O) (w_fields w i) (if is_unit m then [] else ii) (mkSt [] [] [] (mkR 0 0)) =
      Go (rust_slots d c (named_slots c m) ss) (mkSt [] [] [] (mkR 0 0))).
    { replace (if is_unit m then [] else ii) with ii.
      - apply (explicit_default i m w O (default_msg d c lit n) _ ss G); try reflexivity; assumption.
      - unfold ii. destruct (is_unit m) eqn:U; [|reflexivity]. now destruct (unit_empty m U) as (-> & ->). }
    unfold pure_fn, call_fn, params. cbn [fn_self fn_params fn_body map pats result].
    transitivity (result_of (seq (inits (eval t names w (InMsg i) O) (w_fields w i) (if is_unit m then [] else ii)) (fun l => go (XStruct i l)) (mkSt [] [] [] (mkR 0 0)))).
    + now destruct (is_unit m).
    + unfold seq. rewrite X. reflexivity.
  - rewrite (the_struct_of i m G), (derived_default i m G Mg), (fields_env i m G).
    set (l := map (fun f => (f_name f, get_type c f, field_rtype c f)) (visible_fields c m)
      ++ map (fun o => (o_name o, TyOneof (oneof_variants c o), YOneof (o_name o))) (m_oneofs m)).
    assert (E1 : struct_env c m = map (fun x => (fst (fst x), snd x)) l) by (unfold struct_env, l; now rewrite map_app, !map_map).
    assert (E2 : named_slots c m = map fst l) by (unfold named_slots, l; now rewrite map_app, !map_map).
    assert (E3 : struct_def c m = map (fun x => snd (fst x)) l) by (unfold struct_def, l; now rewrite map_app, !map_map).
    rewrite E1, (derived_fields (struct_default t names prog n) i m (default_msg d c lit n) G M l) with (ss := ss).
    + unfold rust_struct. rewrite E2. reflexivity.
    + unfold l. apply Forall_app. split; apply Forall_forall; intros x J; apply in_map_iff in J; destruct J as (f & <- & J).
      * intros sl. now apply (derived_field (struct_default t names prog n) i m (default_msg d c lit n)).
      * intros sl S. cbn in S. injection S as <-. exact (oneof_default_is i m f G J).
    + now rewrite <- E3.
Qed.
End Program.
