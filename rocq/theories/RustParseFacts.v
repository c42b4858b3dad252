(** Printing and parsing are inverse: a syntax tree that obeys the rules below
    is what the parser of RustParse.v makes of the tokens it is printed as. *)
From Coq Require Import String Ascii Arith Lia Bool.
From Verif Require Import Base Schema RustLex RustAst RustParse.
Import Schema StringSyntax.
Local Open Scope string_scope.
Local Open Scope list_scope.
Local Open Scope nat_scope.

(** ** Which trees are printed faithfully *)

Definition ok_name (s : text) : bool := negb (is_key s).
Definition nonempty {A} (l : list A) : bool := match l with [] => false | _ => true end.
Definition not_one {A} (l : list A) : bool := match l with [_] => false | _ => true end.

Fixpoint ok_ty (t : rty_) : bool :=
  match t with
  | RTPath _ p => nonempty p && forallb ok_tseg p
  | RTRef _ _ t | RTSlice t => ok_ty t
  | RTTuple l => not_one l && forallb ok_ty l
  | RTInfer => true
  end
with ok_tseg (s : pseg) : bool := match s with PSeg n gs => is_seg n && forallb ok_garg gs end
with ok_garg (a : garg) : bool := match a with GLife _ => true | GType t => ok_ty t end.
Definition ok_path (p : list pseg) : bool := nonempty p && forallb ok_tseg p.

Fixpoint ok_pat (p : rpat) : bool :=
  match p with
  | RPBind _ _ x => ok_name x
  | RPRef p => ok_pat p
  | RPTuple l => not_one l && forallb ok_pat l
  | RPCon path l => nonempty path && forallb is_seg path && forallb ok_pat l
  | RPPath path => nonempty path && not_one path && forallb is_seg path
  | RPWild | RPNum _ _ | RPStr _ => true
  end.

(** the level of the grammar that an expression belongs to *)
Definition lev (e : rexp) : nat :=
  match e with
  | REPost _ _ => 1 | REUn _ _ => 2 | RECast _ _ => 3 | REMul _ _ => 4 | RESum _ _ => 5 | RECmp _ _ _ => 6 | REAssign _ _ => 7
  | _ => 0
  end.
(** the end of the expression takes in all that can follow (a sum is not
    allowed to) *)
Fixpoint open (e : rexp) : bool :=
  match e with
  | REClosure _ _ | REReturn _ => true
  | REUn _ e => open e
  | REMul _ b | RECmp _ _ b | REAssign _ b => open b
  | _ => false
  end.
(** the first operand *)
Fixpoint leftmost (e : rexp) : rexp :=
  match e with
  | REPost e _ | RECast e _ | REMul e _ | RESum e _ | RECmp _ e _ | REAssign e _ => leftmost e
  | _ => e
  end.
(** expressions that are statements without a semicolon *)
Definition block_like (e : rexp) : bool :=
  match e with
  | REBlock _ | REUnsafe _ | REIf _ _ _ | REMatch _ _ | REFor _ _ _ | REWhile _ _ => true
  | _ => false
  end.
Definition is_block (e : rexp) : bool := match e with REBlock _ => true | _ => false end.
(** there is a struct literal that is not in brackets *)
Fixpoint exposed (e : rexp) : bool :=
  match e with
  | REStruct _ _ _ => true
  | REClosure _ e | REReturn e | REPost e _ | REUn _ e | RECast e _ => exposed e
  | REMul a b | RECmp _ a b | REAssign a b => exposed a || exposed b
  | RESum e es => exposed e || existsb exposed es
  | _ => false
  end.
Definition is_open_call (o : rop) : bool := match o with OCall _ => true | _ => false end.
(** [a.f(x)] is a call of a method *)
Fixpoint ok_ops (l : list rop) : bool :=
  match l with
  | OField _ :: ((o :: _) as l') => negb (is_open_call o) && ok_ops l'
  | _ :: l' => ok_ops l'
  | [] => true
  end.
(** a statement that is not like a block has a semicolon or is the last *)
Fixpoint ok_ends (b : list rstmt) : bool :=
  match b with
  | [] => true
  | RSLet _ _ :: b' => ok_ends b'
  | RSExpr e semi :: b' =>
    (block_like e || (negb (block_like (leftmost e)) && (semi || negb (nonempty b')))) && ok_ends b'
  end.
Fixpoint ok_commas (l : list rarm) : bool :=
  match l with
  | [] => true
  | RArm _ e comma :: l' =>
    (is_block e || (negb (is_block (leftmost e)) && (comma || negb (nonempty l')))) && ok_commas l'
  end.
Definition is_lit (t : token) : bool := match t with TNum _ | TStr _ | TBStr _ => true | _ => false end.

Fixpoint ok_exp (e : rexp) : bool :=
  match e with
  | RELit t => is_lit t
  | REBool _ => true
  | REPath _ p => ok_path p
  | REParen e => ok_exp e
  | RETuple l => not_one l && forallb ok_exp l
  | REBlock b | REUnsafe b => forallb ok_stmt b && ok_ends b
  | REIf e b els => ok_exp e && negb (exposed e) && (forallb ok_stmt b && ok_ends b)
                    && match els with Some b' => forallb ok_stmt b' && ok_ends b' | None => true end
  | REMatch e arms => ok_exp e && negb (exposed e) && (forallb ok_arm arms && ok_commas arms)
  | REFor p e b => ok_pat p && ok_exp e && negb (exposed e) && (forallb ok_stmt b && ok_ends b)
  | REWhile e b => ok_exp e && negb (exposed e) && (forallb ok_stmt b && ok_ends b)
  | REClosure ps body => nonempty ps && forallb ok_pat ps && ok_exp body
  | REReturn e => ok_exp e
  | REStruct p fs trailing => ok_path p && forallb ok_init fs && (nonempty fs || negb trailing)
  | REPost e ops => ok_exp e && (lev e =? 0) && negb (open e) && nonempty ops && ok_ops ops && forallb ok_op ops
  | REUn _ e => ok_exp e && (lev e <=? 2)
  | RECast e t => ok_exp e && (lev e <=? 2) && negb (open e) && ok_ty t
  | REMul a b => ok_exp a && (lev a <=? 3) && negb (open a) && ok_exp b && (lev b <=? 3)
  | RESum e es => ok_exp e && (lev e <=? 4) && negb (open e) && nonempty es
                  && forallb (fun x => ok_exp x && (lev x <=? 4) && negb (open x)) es
  | RECmp _ a b => ok_exp a && (lev a <=? 5) && negb (open a) && ok_exp b && (lev b <=? 5)
  | REAssign a b => ok_exp a && (lev a <=? 6) && negb (open a) && ok_exp b
  end
with ok_stmt (s : rstmt) : bool :=
  match s with
  | RSLet p e => ok_pat p && ok_exp e
  | RSExpr e _ => ok_exp e
  end
with ok_arm (a : rarm) : bool := match a with RArm p e _ => ok_pat p && ok_exp e end
with ok_init (i : rinit) : bool :=
  match i with RInit f e => ok_name f && match e with Some e => ok_exp e | None => true end end
with ok_op (o : rop) : bool :=
  match o with
  | OField f => ok_name f
  | OMethod f gs args => ok_name f && forallb ok_garg gs && forallb ok_exp args
  | OCall args => forallb ok_exp args
  | OTry => true
  end.

(** ** Tokens *)
Ltac fold_eat s t r :=
  lazymatch t with
  | TSym ?x => let b := eval vm_compute in (String.eqb x s) in
               lazymatch b with
               | true => change (eat s (t :: r)) with (Some r)
               | false => change (eat s (t :: r)) with (@None (list token))
               end
  | TWord _ => change (eat s (t :: r)) with (@None (list token))
  | TNum _ => change (eat s (t :: r)) with (@None (list token))
  | TStr _ => change (eat s (t :: r)) with (@None (list token))
  | TBStr _ => change (eat s (t :: r)) with (@None (list token))
  | TLife _ => change (eat s (t :: r)) with (@None (list token))
  end.
Ltac fold_word s t r :=
  lazymatch t with
  | TWord ?x => let b := eval vm_compute in (String.eqb x s) in
               lazymatch b with
               | true => change (eat_word s (t :: r)) with (Some r)
               | false => change (eat_word s (t :: r)) with (@None (list token))
               end
  | TSym _ => change (eat_word s (t :: r)) with (@None (list token))
  | TNum _ => change (eat_word s (t :: r)) with (@None (list token))
  | TStr _ => change (eat_word s (t :: r)) with (@None (list token))
  | TBStr _ => change (eat_word s (t :: r)) with (@None (list token))
  | TLife _ => change (eat_word s (t :: r)) with (@None (list token))
  end.
Ltac eats :=
  repeat (match goal with
          | |- context [eat ?s (?t :: ?r)] => progress fold_eat s t r
          | |- context [eat_word ?s (?t :: ?r)] => progress fold_word s t r
          end; cbv iota beta).
Ltac norm := unfold braces, parens; unfold sym, word; repeat (repeat rewrite <- app_assoc; progress cbn [app]); repeat rewrite <- app_assoc.
Ltac strs := repeat match goal with
  | |- context [String.eqb ?a ?b] => let v := eval vm_compute in (String.eqb a b) in
     lazymatch v with true => change (String.eqb a b) with true | false => change (String.eqb a b) with false end
  end; cbv iota beta.
Ltac split_and := repeat match goal with
  | H : _ && _ = true |- _ => apply andb_true_iff in H; destruct H
  | H : negb _ = true |- _ => apply negb_true_iff in H
  | H : (_ <=? _) = true |- _ => apply Nat.leb_le in H
  | H : (_ =? _) = true |- _ => apply Nat.eqb_eq in H
  end.

Lemma eqb_false : forall (s k : text) (P : text -> bool), P s = true -> P k = false -> String.eqb s k = false.
Proof. intros s k P H K. apply String.eqb_neq. intros ->. congruence. Qed.
Lemma name_is : forall x r, ok_name x = true -> name (TWord x :: r) = Some (x, r).
Proof. intros x r H. unfold ok_name in H. apply negb_true_iff in H. cbn [name]. now rewrite H. Qed.
Lemma name_seg : forall x, ok_name x = true -> is_seg x = true.
Proof. intros x H. unfold ok_name in H. unfold is_seg. now rewrite H. Qed.

Ltac side := first [assumption | reflexivity | (unfold sym, word in *; repeat (rewrite ?app_length in *; cbn [length app] in *); lia)].

(** ** Types *)
Definition tstop (rest : list token) : bool :=
  match rest with TSym x :: _ => negb (String.eqb x "<" || String.eqb x "::") | _ => true end.
Lemma tstop_eat : forall rest, tstop rest = true -> eat "<" rest = None /\ eat "::" rest = None.
Proof.
  intros [|[]] H; try (split; reflexivity). cbn [tstop] in H. apply negb_true_iff, orb_false_iff in H. destruct H as [A B].
  cbn [eat]. rewrite A, B. split; reflexivity.
Qed.

(** what follows the first element *)
Definition more {A} (sep : list token) (p : A -> list token) (l : list A) : list token :=
  match l with [] => [] | _ => sep ++ sep_by sep p l end.
Lemma sep_cons : forall {A} sep (p : A -> list token) x l,
  sep_by sep p (x :: l) = p x ++ more sep p l.
Proof. intros A sep p x [|y l]; cbn; [now rewrite app_nil_r|reflexivity]. Qed.

Lemma head_seg : forall s, exists r, print_tseg s = TWord (match s with PSeg n _ => n end) :: r.
Proof. intros [n [|g gs]]; eexists; reflexivity. Qed.
(** a type begins with none of the closing symbols *)
Definition thead (ts : list token) : bool :=
  match ts with
  | TSym x :: _ => existsb (String.eqb x) ["&"; "["; "("; "::"]
  | TWord w :: _ => negb (String.eqb w "mut") && negb (String.eqb w "self")
  | _ => false
  end.
Lemma head_ty : forall t rest, ok_ty t = true ->
  match print_ty t ++ rest with
  | TSym x :: _ => existsb (String.eqb x) ["&"; "["; "("; "::"] = true
  | TWord w :: _ => w = "_" \/ is_seg w = true
  | _ => False
  end.
Proof.
  intros t rest H. destruct t as [lead p| | | |]; cbn [print_ty ok_ty] in *; try reflexivity; [|now left].
  split_and. destruct p as [|[n gs] p]; [discriminate|]. destruct lead; [reflexivity|]. cbn [app]. rewrite sep_cons.
  destruct (head_seg (PSeg n gs)) as [r ->]. cbn [app]. right. cbn in H0. now split_and.
Qed.
Lemma ty_length : forall t, ok_ty t = true -> 1 <= length (print_ty t).
Proof. intros t H. pose proof (head_ty t [] H) as K. rewrite app_nil_r in K. destruct (print_ty t); [contradiction|cbn; lia]. Qed.

Lemma types_parse : forall n,
  (forall t rest, ok_ty t = true -> tstop rest = true -> 20 * length (print_ty t) + 3 <= n -> pty n (print_ty t ++ rest) = Some (t, rest)) /\
  (forall p rest, nonempty p = true -> forallb ok_tseg p = true -> tstop rest = true -> 20 * length (sep_by (sym "::") print_tseg p) + 2 <= n ->
     ptpath n (sep_by (sym "::") print_tseg p ++ rest) = Some (p, rest)) /\
  (forall l rest, nonempty l = true -> forallb ok_garg l = true -> 20 * length (comma_sep print_garg l) + 4 <= n ->
     pgargs n (comma_sep print_garg l ++ TSym ">" :: rest) = Some (l, rest)) /\
  (forall l rest, forallb ok_ty l = true -> 20 * length (comma_sep print_ty l) + 4 <= n ->
     ptys n (comma_sep print_ty l ++ TSym ")" :: rest) = Some (l, rest)).
Proof.
  induction n as [|n (IT & IP & IG & IL)]; [repeat match goal with |- _ /\ _ => split end; intros; lia|].
  repeat match goal with |- _ /\ _ => split end.
  - intros t rest H S L. destruct t as [lead p|lt mut t|t|l|].
    + cbn [print_ty ok_ty] in *. split_and. destruct lead.
      * norm. cbn [pty]. strs. rewrite IP by side. reflexivity.
      * cbn [app] in *. destruct p as [|[w gs] p]; [discriminate|].
        assert (Q : exists r, sep_by (sym "::") print_tseg (PSeg w gs :: p) ++ rest = TWord w :: r).
        { rewrite sep_cons. destruct (head_seg (PSeg w gs)) as [r ->]. eexists; reflexivity. }
        destruct Q as [r Q]. cbn [pty]. rewrite Q. cbn in H0. split_and.
        rewrite (eqb_false w "_" is_seg) by (auto; reflexivity). rewrite <- Q. rewrite IP; auto.
        -- cbn. now rewrite H0, H2, H1.
        -- lia.
    + cbn [print_ty ok_ty] in *. norm. cbn [pty]. strs. pose proof (head_ty t rest H) as K.
      assert (Q : forall b, maybe_life ((if b : bool then [TWord "mut"] else []) ++ print_ty t ++ rest) = (None, (if b then [TWord "mut"] else []) ++ print_ty t ++ rest)).
      { intros []; [reflexivity|]. cbn [app]. destruct (print_ty t ++ rest) as [|[]]; try contradiction; reflexivity. }
      assert (Q2 : maybe_word "mut" ((if mut then [TWord "mut"] else []) ++ print_ty t ++ rest) = (mut, print_ty t ++ rest)).
      { destruct mut; [reflexivity|]. cbn [app]. destruct (print_ty t ++ rest) as [|[]]; try contradiction; [|reflexivity].
        unfold maybe_word. cbn [eat_word]. destruct K as [-> |K]; [reflexivity|]. now rewrite (eqb_false s "mut" is_seg). }
      assert (LL : 20 * length (print_ty t) + 3 <= n).
      { rewrite !app_length in L. cbn [sym length] in L. lia. }
      destruct lt as [a|].
      * cbn [app maybe_life]. rewrite Q2, IT; auto.
      * cbn [app]. rewrite Q, Q2, IT; auto.
    + cbn [print_ty ok_ty] in *. norm. cbn [pty]. strs. rewrite IT by side. eats. reflexivity.
    + cbn [print_ty ok_ty] in *. split_and. norm. cbn [pty]. strs. rewrite IL by side.
      destruct l as [|x [|y l]]; [reflexivity|discriminate|reflexivity].
    + reflexivity.
  - intros p rest N H S L. destruct (tstop_eat _ S) as [S1 S2]. destruct p as [|[w gs] p]; [discriminate|]. rewrite sep_cons in *.
    cbn [forallb ok_tseg] in H. split_and.
    assert (Q : forall r, (more (sym "::") print_tseg p) ++ rest = r ->
        20 * length (more (sym "::") print_tseg p) + 2 <= n ->
        match eat "::" r with
        | Some r2 => let! (p, r3) := ptpath n r2 in Some (PSeg w gs :: p, r3)
        | None => Some ([PSeg w gs], r)
        end = Some (PSeg w gs :: p, rest)).
    { intros r <- LL. destruct p as [|s p]; [cbn [app more]; now rewrite S2|]. cbn [more] in *. norm. eats. rewrite IP; auto. rewrite app_length in LL. lia. }
    destruct gs as [|g gs].
    + cbn [print_tseg]. norm. cbn [ptpath]. rewrite H.
      assert (E1 : eat "<" (more (sym "::") print_tseg p ++ rest) = None).
      { destruct p; [exact S1|reflexivity]. }
      unfold sym in *. rewrite E1. apply Q; auto. cbn [print_tseg word app length] in L. lia.
    + cbn [print_tseg] in *. norm. cbn [ptpath]. rewrite H. eats. rewrite !app_length in L. cbn [word sym length] in L.
      rewrite IG; auto; [|lia]. apply Q; auto. unfold sym in *. lia.
  - intros l rest N H L. unfold comma_sep in *. destruct l as [|a l]; [discriminate|]. rewrite sep_cons in *. cbn [forallb] in H. split_and.
    assert (Q : forall r, (more (sym ",") print_garg l) ++ TSym ">" :: rest = r ->
        20 * length (more (sym ",") print_garg l) <= n ->
        match eat "," r with
        | Some r1 => let! (l, r2) := pgargs n r1 in Some (a :: l, r2)
        | None => let! r1 := eat ">" r in Some ([a], r1)
        end = Some (a :: l, rest)).
    { intros r <- LL. destruct l as [|b l]; [cbn [app more]; eats; reflexivity|]. cbn [more] in *. norm. eats. rewrite IG; auto. rewrite app_length in LL. cbn [sym length] in LL. lia. }
    norm. rewrite app_length in L. cbn [pgargs]. destruct a as [s|t].
    + cbn [print_garg app length] in *. apply Q; auto. unfold sym in *. lia.
    + cbn [print_garg ok_garg] in *.
      assert (E : pty n (print_ty t ++ more (sym ",") print_garg l ++ TSym ">" :: rest)
                  = Some (t, more (sym ",") print_garg l ++ TSym ">" :: rest)).
      { apply IT; auto; [destruct l; reflexivity|lia]. }
      pose proof (head_ty t (more (sym ",") print_garg l ++ TSym ">" :: rest) H) as K.
      pose proof (ty_length t H). unfold sym in *.
      destruct (print_ty t ++ _) as [|[]] eqn:X; try contradiction; rewrite E; apply Q; auto; lia.
  - intros l rest H L. unfold comma_sep in *. destruct l as [|t l]; [cbn [app sep_by ptys]; eats; reflexivity|]. rewrite sep_cons in *. cbn [forallb] in H. split_and.
    norm. rewrite app_length in L. cbn [ptys].
    assert (E : pty n (print_ty t ++ more (sym ",") print_ty l ++ TSym ")" :: rest)
                = Some (t, more (sym ",") print_ty l ++ TSym ")" :: rest)).
    { apply IT; auto; [destruct l; reflexivity|lia]. }
    pose proof (head_ty t (more (sym ",") print_ty l ++ TSym ")" :: rest) H) as K.
    pose proof (ty_length t H) as T. unfold sym in *.
    assert (E1 : eat ")" (print_ty t ++ more [TSym ","] print_ty l ++ TSym ")" :: rest) = None).
    { destruct (print_ty t ++ _) as [|[]]; try contradiction; try reflexivity. cbn [eat]. cbn [existsb] in K.
      rewrite !orb_true_iff, !String.eqb_eq in K. decompose [or] K; try discriminate; subst; reflexivity. }
    rewrite E1, E. destruct l as [|b l]; [cbn [app more]; eats; reflexivity|]. cbn [more app] in *. eats. rewrite IL; auto.
    cbn [length] in L. lia.
Qed.
Definition pty_ok n := proj1 (types_parse n).
Definition ptpath_ok n := proj1 (proj2 (types_parse n)).
Definition pgargs_ok n := proj1 (proj2 (proj2 (types_parse n))).

(** ** Patterns *)
Definition pstop (rest : list token) : bool :=
  match rest with TSym x :: _ => negb (String.eqb x "(" || String.eqb x "::") | _ => true end.
Lemma pstop_eat : forall rest, pstop rest = true -> eat "(" rest = None /\ eat "::" rest = None.
Proof.
  intros [|[]] H; try (split; reflexivity). cbn [pstop] in H. apply negb_true_iff, orb_false_iff in H. destruct H as [A B].
  cbn [eat]. rewrite A, B. split; reflexivity.
Qed.
Lemma more_length : forall {A} sep (p : A -> list token) x l, length sep = 1 -> length (more sep p (x :: l)) = S (length (sep_by sep p (x :: l))).
Proof. intros. cbn [more]. rewrite app_length. lia. Qed.

Lemma pnames_ok : forall n p rest, nonempty p = true -> forallb is_seg p = true -> eat "::" rest = None ->
  20 * length (print_names p) + 1 <= n -> pnames n (print_names p ++ rest) = Some (p, rest).
Proof.
  unfold print_names. induction n as [|n IH]; intros p rest N H S L; [lia|].
  destruct p as [|w p]; [discriminate|]. rewrite sep_cons in *. cbn [forallb] in H. split_and. norm. cbn [pnames]. rewrite H.
  destruct p as [|v p]; [cbn [more app]; now rewrite S|]. cbn [more] in *. norm. eats. rewrite IH by side. reflexivity.
Qed.
Lemma head_names : forall p rest, nonempty p = true -> exists r, print_names p ++ rest = TWord (hd "" p) :: r.
Proof. intros [|w p] rest H; [discriminate|]. unfold print_names. rewrite sep_cons. eexists; reflexivity. Qed.
Lemma head_pat : forall p rest, ok_pat p = true ->
  match print_pat p ++ rest with
  | TSym x :: _ => x = "&" \/ x = "(" \/ x = "-"
  | TWord _ :: _ | TNum _ :: _ | TStr _ :: _ => True
  | _ => False
  end.
Proof.
  intros p rest H. destruct p as [ |[] [] x| | |path l|path|[] n| ]; cbn [print_pat ok_pat] in *; try exact I; try (cbn; tauto).
  - norm. split_and. destruct (head_names path (TSym "(" :: comma_sep print_pat l ++ TSym ")" :: rest)) as [r ->]; auto.
  - split_and. destruct (head_names path rest) as [r ->]; auto.
Qed.
Lemma pat_length : forall t, ok_pat t = true -> 1 <= length (print_pat t).
Proof. intros t H. pose proof (head_pat t [] H) as K. rewrite app_nil_r in K. destruct (print_pat t); [contradiction|cbn; lia]. Qed.

Lemma pats_parse : forall n,
  (forall p rest, ok_pat p = true -> pstop rest = true -> 20 * length (print_pat p) + 3 <= n -> ppat n (print_pat p ++ rest) = Some (p, rest)) /\
  (forall l rest, forallb ok_pat l = true -> 20 * length (comma_sep print_pat l) + 4 <= n ->
     ppats n (comma_sep print_pat l ++ TSym ")" :: rest) = Some (l, rest)).
Proof.
  induction n as [|n (IT & IL)]; [split; intros; lia|]. split.
  - intros p rest H S L. destruct (pstop_eat _ S) as [S1 S2]. destruct p as [ |r m x|p|l|path l|path|neg k|s]; cbn [print_pat ok_pat] in *; norm.
    + reflexivity.
    + destruct r; [destruct m; norm; cbn [ppat]; strs|destruct m; norm; cbn [ppat]; strs].
      * unfold maybe_word. eats. now rewrite name_is.
      * unfold maybe_word. cbn [eat_word]. rewrite (eqb_false x "mut" ok_name) by side. now rewrite name_is.
      * now rewrite name_is.
      * rewrite !(eqb_false x _ ok_name) by side.
        assert (E : pnames n (TWord x :: rest) = Some ([x], rest)).
        { apply (pnames_ok n [x] rest); auto; [|cbn in *; lia]. cbn. now rewrite (name_seg x H). }
        rewrite E, S1. unfold ok_name in H. apply negb_true_iff in H. now rewrite H.
    + cbn [ppat]. strs. rewrite IT by side. reflexivity.
    + split_and. cbn [ppat]. strs. rewrite IL by side. destruct l as [|? [|? ?]]; [reflexivity|discriminate|reflexivity].
    + split_and. destruct (head_names path (TSym "(" :: comma_sep print_pat l ++ TSym ")" :: rest) H) as [r R].
      rewrite R. cbn [ppat].
      assert (G : is_seg (hd "" path) = true). { destruct path; [discriminate|]. cbn in H1. now split_and. }
      rewrite !(eqb_false (hd "" path) _ is_seg) by side. rewrite <- R.
      rewrite pnames_ok by side. eats. rewrite IL by side. reflexivity.
    + split_and. destruct (head_names path rest H) as [r R].
      rewrite R. cbn [ppat].
      assert (G : is_seg (hd "" path) = true). { destruct path; [discriminate|]. cbn in H0. now split_and. }
      rewrite !(eqb_false (hd "" path) _ is_seg) by side. rewrite <- R.
      rewrite pnames_ok by side. rewrite S1. destruct path as [|? [|? ?]]; [discriminate|discriminate|reflexivity].
    + destruct neg; norm; reflexivity.
    + reflexivity.
  - intros l rest H L. unfold comma_sep in *. destruct l as [|t l]; [cbn [app sep_by ppats]; eats; reflexivity|]. rewrite sep_cons in *. cbn [forallb] in H. split_and.
    norm. rewrite app_length in L. cbn [ppats]. fold (sym ",").
    pose proof (head_pat t (more (sym ",") print_pat l ++ TSym ")" :: rest) H) as K.
    assert (E1 : eat ")" (print_pat t ++ more (sym ",") print_pat l ++ TSym ")" :: rest) = None).
    { destruct (print_pat t ++ _) as [|[]]; try contradiction; try reflexivity. destruct K as [-> |[-> | ->]]; reflexivity. }
    rewrite E1, IT by (side || (destruct l; reflexivity)). pose proof (pat_length t H).
    destruct l as [|b l]; [cbn [app more]; eats; reflexivity|]. cbn [more] in *. norm. eats. rewrite IL by side. reflexivity.
Qed.
Definition ppat_ok n := proj1 (pats_parse n).
Lemma pparams_ok : forall n l rest, nonempty l = true -> forallb ok_pat l = true -> 20 * length (comma_sep print_pat l) + 4 <= n ->
  pparams n (comma_sep print_pat l ++ TSym "|" :: rest) = Some (l, rest).
Proof.
  unfold comma_sep. induction n as [|n IH]; intros l rest N H L; [lia|]. destruct l as [|t l]; [discriminate|]. rewrite sep_cons in *. cbn [forallb] in H. split_and.
  norm. rewrite app_length in L. cbn [pparams]. fold (sym ","). rewrite ppat_ok by (side || (destruct l; reflexivity)). pose proof (pat_length t H).
  destruct l as [|b l]; [cbn [app more]; eats; reflexivity|]. cbn [more] in *. norm. eats. rewrite IH by side. reflexivity.
Qed.

(** ** Expressions *)

(** the first token of [rest] does not continue an expression of level [L] *)
Definition stops (ns : bool) (L : nat) (rest : list token) : bool :=
  match rest with
  | TSym x :: _ =>
    negb (existsb (String.eqb x)
      (["::"; "<"] ++ (if ns then [] else ["{"]) ++ (if 1 <=? L then ["."; "?"; "("] else []) ++ (if 4 <=? L then ["*"] else [])
       ++ (if 5 <=? L then ["+"] else []) ++ (if 6 <=? L then ["=="; "!="] else []) ++ (if 7 <=? L then ["="] else [])))
  | TWord w :: _ => negb (String.eqb w "else") && negb ((3 <=? L) && String.eqb w "as")
  | _ => true
  end.
Lemma stops_less : forall ns L K rest, stops ns L rest = true -> K <= L -> stops ns K rest = true.
Proof.
  intros ns L K [|[]] H LE; try reflexivity; cbn [stops] in *.
  - apply andb_true_iff in H. destruct H as [A B]. rewrite A. apply negb_true_iff in B. apply negb_true_iff.
    destruct (3 <=? K) eqn:E; [|reflexivity]. apply Nat.leb_le in E. assert (G : (3 <=? L) = true) by (apply Nat.leb_le; lia). now rewrite G in B.
  - apply negb_true_iff in H. apply negb_true_iff. rewrite !existsb_app, !orb_false_iff in *.
    assert (G : forall k (l : list text), existsb (String.eqb s) (if k <=? L then l else []) = false -> existsb (String.eqb s) (if k <=? K then l else []) = false).
    { intros k ll X. destruct (k <=? K) eqn:E; [|reflexivity]. apply Nat.leb_le in E. assert (Y : (k <=? L) = true) by (apply Nat.leb_le; lia). now rewrite Y in X. }
    intuition.
Qed.
(** [s] is one of the symbols that continue an expression of level [L] *)
Lemma stops_sym : forall ns L rest s, stops ns L rest = true ->
  existsb (String.eqb s)
      (["::"; "<"] ++ (if ns then [] else ["{"]) ++ (if 1 <=? L then ["."; "?"; "("] else []) ++ (if 4 <=? L then ["*"] else [])
       ++ (if 5 <=? L then ["+"] else []) ++ (if 6 <=? L then ["=="; "!="] else []) ++ (if 7 <=? L then ["="] else [])) = true -> eat s rest = None.
Proof.
  intros ns L [|[]] x H E; try reflexivity. cbn [stops eat] in *. apply negb_true_iff in H.
  destruct (String.eqb s x) eqn:X; [|reflexivity]. apply String.eqb_eq in X. congruence.
Qed.
Lemma stops_else : forall ns L rest, stops ns L rest = true -> eat_word "else" rest = None.
Proof. intros ns L [|[]] H; try reflexivity. cbn [stops eat_word] in *. apply andb_true_iff in H. destruct H as [H _]. apply negb_true_iff in H. now rewrite H. Qed.
Lemma stops_as : forall ns L rest, stops ns L rest = true -> 3 <= L -> eat_word "as" rest = None.
Proof.
  intros ns L [|[]] H LE; try reflexivity. cbn [stops eat_word] in *. apply andb_true_iff in H. destruct H as [_ H]. apply negb_true_iff in H.
  apply Nat.leb_le in LE. rewrite LE in H. cbn in H. now rewrite H.
Qed.
Lemma stops_type : forall ns L rest, stops ns L rest = true -> tstop rest = true.
Proof.
  intros ns L [|[]] H; try reflexivity. cbn [stops tstop] in *. apply negb_true_iff in H. apply negb_true_iff. rewrite existsb_app, orb_false_iff in H. destruct H as [H _].
  cbn [existsb] in H. rewrite !orb_false_iff in H. destruct H as (A & B & _). now rewrite A, B.
Qed.

Lemma pepath_ok : forall n p rest, nonempty p = true -> forallb ok_tseg p = true -> eat "::" rest = None ->
  20 * length (sep_by (sym "::") print_eseg p) + 1 <= n -> pepath n (sep_by (sym "::") print_eseg p ++ rest) = Some (p, rest).
Proof.
  induction n as [|n IH]; intros p rest N H S L; [lia|].
  destruct p as [|[w gs] p]; [discriminate|]. rewrite sep_cons in *. cbn [forallb ok_tseg] in H. split_and. cbn [print_eseg] in *. unfold print_turbofish in *.
  destruct gs as [|g gs].
  - norm. cbn [pepath]. rewrite H. destruct p as [|[v gv] p]; [cbn [more app]; now rewrite S|]. cbn [more] in *. norm. eats.
    assert (E : eat "<" (sep_by [TSym "::"] print_eseg (PSeg v gv :: p) ++ rest) = None) by (rewrite sep_cons; reflexivity).
    rewrite E. fold (sym "::"). rewrite IH by side. reflexivity.
  - norm. cbn [pepath]. rewrite H. eats. rewrite pgargs_ok by side. fold (sym "::").
    destruct p as [|v p]; [cbn [more app]; now rewrite S|]. cbn [more] in *. norm. eats. rewrite IH by side. reflexivity.
Qed.
Lemma head_epath : forall p rest, nonempty p = true -> exists r, sep_by (sym "::") print_eseg p ++ rest = TWord (match p with PSeg w _ :: _ => w | [] => "" end) :: r.
Proof. intros [|[w gs] p] rest H; [discriminate|]. rewrite sep_cons. eexists; reflexivity. Qed.

(** how an expression begins *)
Definition begins (ts : list token) : bool :=
  match ts with
  | TSym x :: _ => existsb (String.eqb x) ["("; "{"; "|"; "::"; "-"; "!"; "*"; "&"]
  | TWord w :: _ => is_seg w || existsb (String.eqb w) ["true"; "false"; "if"; "match"; "for"; "while"; "unsafe"; "return"]
  | TNum _ :: _ | TStr _ :: _ | TBStr _ :: _ => true
  | _ => false
  end.
Lemma begins_app : forall ts rest, begins ts = true -> begins (ts ++ rest) = true.
Proof. intros [|t ts] rest H; [discriminate|exact H]. Qed.
Lemma print_begins : forall e, ok_exp e = true -> begins (print_exp e) = true.
Proof.
  induction e; intros H; cbn [ok_exp print_exp] in *; split_and; try (apply begins_app; auto; fail); try reflexivity.
  - destruct t; try discriminate; reflexivity.
  - destruct b; reflexivity.
  - unfold print_path. destruct lead; [reflexivity|]. cbn [app]. unfold ok_path in H. split_and. destruct p as [|[w gs] p]; [discriminate|].
    rewrite sep_cons. cbn in *. split_and. now rewrite H0.
  - unfold print_path. cbn [app]. unfold ok_path in H. split_and. destruct p as [|[w gs] p]; [discriminate|].
    rewrite sep_cons. cbn in *. split_and. now rewrite H2.
  - destruct o; reflexivity.
Qed.
Lemma begins_sym : forall ts s, begins ts = true -> existsb (String.eqb s) ["("; "{"; "|"; "::"; "-"; "!"; "*"; "&"] = false -> eat s ts = None.
Proof.
  intros [|[]] x H E; try reflexivity. cbn [begins eat] in *. destruct (String.eqb s x) eqn:X; [|reflexivity]. apply String.eqb_eq in X. congruence.
Qed.
Lemma begins_word : forall ts s, begins ts = true -> is_seg s || existsb (String.eqb s) ["true"; "false"; "if"; "match"; "for"; "while"; "unsafe"; "return"] = false ->
  eat_word s ts = None.
Proof.
  intros [|[]] x H E; try reflexivity. cbn [begins eat_word] in *. destruct (String.eqb s x) eqn:X; [|reflexivity]. apply String.eqb_eq in X. congruence.
Qed.
Lemma exp_length : forall e, ok_exp e = true -> 1 <= length (print_exp e).
Proof. intros e H. apply print_begins in H. destruct (print_exp e); [discriminate|cbn; lia]. Qed.

(** the first operand decides how the expression begins *)
Lemma prefix_app : forall (a x b : list token), (exists r, a = b ++ r) -> exists r, a ++ x = b ++ r.
Proof. intros a x b [r ->]. exists (r ++ x). now rewrite app_assoc. Qed.
Lemma leftmost_prefix : forall e, exists r, print_exp e = print_exp (leftmost e) ++ r.
Proof.
  induction e; try (exists []; cbn [leftmost]; now rewrite app_nil_r); cbn [leftmost print_exp]; now apply prefix_app.
Qed.
Lemma leftmost_ok : forall e, ok_exp e = true -> ok_exp (leftmost e) = true.
Proof. induction e; intros H; cbn [leftmost]; auto; cbn [ok_exp] in H; split_and; auto. Qed.
Lemma leftmost_shape : forall e, match leftmost e with
  | REPost _ _ | RECast _ _ | REMul _ _ | RESum _ _ | RECmp _ _ _ | REAssign _ _ => False | _ => True end.
Proof. induction e; cbn [leftmost]; auto. Qed.
Lemma block_begins : forall e rest, block_like e = true -> block_start (print_exp e ++ rest) = true.
Proof. intros e rest H. destruct e; try discriminate; reflexivity. Qed.
Lemma not_block_begins : forall e rest, ok_exp e = true -> block_like (leftmost e) = false -> block_start (print_exp e ++ rest) = false.
Proof.
  intros e rest H B. destruct (leftmost_prefix e) as [r ->]. rewrite <- app_assoc. generalize (r ++ rest). clear rest. intros rest.
  pose proof (leftmost_shape e) as S. apply leftmost_ok in H. destruct (leftmost e); try discriminate; try contradiction; try reflexivity; cbn [ok_exp print_exp] in *.
  - destruct t; try discriminate; reflexivity.
  - destruct b; reflexivity.
  - unfold print_path. destruct lead; [reflexivity|]. cbn [app]. unfold ok_path in H. split_and. destruct (head_epath p rest H) as [q ->]. destruct p as [|[w gs] p]; [discriminate|].
    cbn in H0. split_and. cbn [block_start existsb]. rewrite !(eqb_false w _ is_seg) by side. reflexivity.
  - unfold print_path. cbn [app]. split_and. rewrite <- app_assoc. unfold ok_path in H. split_and.
    match goal with |- block_start (_ ++ ?x) = _ => destruct (head_epath p x H) as [q ->] end. destruct p as [|[w gs] p]; [discriminate|].
    cbn in H2. split_and. cbn [block_start existsb]. rewrite !(eqb_false w _ is_seg) by side. reflexivity.
  - destruct o; reflexivity.
Qed.
Lemma not_brace_begins : forall e rest, ok_exp e = true -> is_block (leftmost e) = false -> eat "{" (print_exp e ++ rest) = None.
Proof.
  intros e rest H B. destruct (block_like (leftmost e)) eqn:K.
  - destruct (leftmost_prefix e) as [r ->]. rewrite <- app_assoc. destruct (leftmost e); try discriminate; reflexivity.
  - pose proof (not_block_begins e rest H K) as Q. destruct (print_exp e ++ rest) as [|[]]; try reflexivity. cbn [block_start eat] in *. now rewrite Q.
Qed.

(** What is to be shown at each fuel *)
Definition parses (L : nat) (p : nat -> bool -> list token -> presult rexp) (n : nat) : Prop :=
  forall e rest ns, ok_exp e = true -> lev e <= L -> ns && exposed e = false -> stops ns (if open e then 7 else L) rest = true ->
    20 * length (print_exp e) + 5 + L <= n -> p n ns (print_exp e ++ rest) = Some (e, rest).
Definition prim_parses (n : nat) : Prop :=
  forall e rest ns, ok_exp e = true -> lev e = 0 -> ns && exposed e = false ->
    (if block_like e then eat_word "else" rest = None else stops ns (if open e then 7 else 0) rest = true) ->
    20 * length (print_exp e) + 5 <= n -> pprim n ns (print_exp e ++ rest) = Some (e, rest).
Definition sums_parse (n : nat) : Prop :=
  forall es rest ns, forallb (fun x => ok_exp x && (lev x <=? 4) && negb (open x)) es = true -> ns && existsb exposed es = false ->
    stops ns 5 rest = true -> 20 * length (flat_map (fun x => sym "+" ++ print_exp x) es) + 1 <= n ->
    psums n ns (flat_map (fun x => sym "+" ++ print_exp x) es ++ rest) = Some (es, rest).
Definition ops_parse (n : nat) : Prop :=
  forall ops rest ns, ok_ops ops = true -> forallb ok_op ops = true -> stops ns 1 rest = true ->
    20 * length (flat_map print_op ops) + 1 <= n -> pops n (flat_map print_op ops ++ rest) = Some (ops, rest).
Definition args_parse (n : nat) : Prop :=
  forall l rest, forallb ok_exp l = true -> 20 * length (comma_sep print_exp l) + 13 <= n ->
    pargs n (comma_sep print_exp l ++ TSym ")" :: rest) = Some (l, rest).
Definition block_parses (n : nat) : Prop :=
  forall b rest, forallb ok_stmt b = true -> ok_ends b = true -> 20 * length (flat_map print_stmt b) + 13 <= n ->
    pblock n (flat_map print_stmt b ++ TSym "}" :: rest) = Some (b, rest).
Definition arms_parse (n : nat) : Prop :=
  forall l rest, forallb ok_arm l = true -> ok_commas l = true -> 20 * length (flat_map print_arm l) + 13 <= n ->
    parms n (flat_map print_arm l ++ TSym "}" :: rest) = Some (l, rest).
Definition inits_parse (n : nat) : Prop :=
  forall l (trailing : bool) rest, forallb ok_init l = true -> nonempty l || negb trailing = true ->
    20 * length (comma_sep print_init l) + 13 <= n ->
    pinits n (comma_sep print_init l ++ (if trailing then sym "," else []) ++ TSym "}" :: rest) = Some (l, trailing, rest).

Lemma exposed_left : forall ns a b, ns && (a || b) = false -> ns && a = false /\ ns && b = false.
Proof. intros [] [] []; auto. Qed.
Lemma stops_of : forall ns (b : bool) K L rest, stops ns (if b then 7 else L) rest = true -> K <= L -> L <= 7 -> stops ns (if b then 7 else K) rest = true.
Proof. intros ns [] K L rest H A B; [exact H|now apply (stops_less ns L)]. Qed.
Lemma stops_at : forall ns (b : bool) K L rest, stops ns (if b then 7 else L) rest = true -> K <= L -> L <= 7 -> stops ns K rest = true.
Proof. intros ns [] K L rest H A B; eapply stops_less; eauto; lia. Qed.
Ltac stop_sym := match goal with
  | S : stops ?ns ?L ?rest = true |- eat ?s ?rest = None => apply (stops_sym ns L rest s S); destruct ns; reflexivity
  end.

Lemma lev_top : forall e, lev e <= 7.
Proof. destruct e; cbn; lia. Qed.
Lemma step_exp : forall n, parses 6 pcmp n -> parses 7 pexp n -> parses 7 pexp (S n).
Proof.
  intros n IC IE e rest ns H L X S F. cbn [pexp].
  destruct (Nat.eq_dec (lev e) 7) as [E|E].
  - destruct e; try discriminate. cbn [print_exp ok_exp exposed open] in *. apply exposed_left in X. destruct X as [X1 X2]. split_and. norm.
    rewrite (IC e1) by (side || (replace (open e1) with false; destruct ns; reflexivity)). eats. rewrite IE; auto.
    + apply lev_top.
    + rewrite !app_length in F. cbn [sym length] in F. pose proof (exp_length e1 H). lia.
  - rewrite IC; auto; [|lia|eapply stops_of; [eassumption|lia|lia]|lia].
    assert (S7 : stops ns 7 rest = true) by (eapply stops_at; [eassumption|lia|lia]). assert (Q : eat "=" rest = None) by stop_sym. now rewrite Q.
Qed.
Lemma step_cmp : forall n, parses 5 padd n -> parses 6 pcmp (S n).
Proof.
  intros n IC e rest ns H L X S F. cbn [pcmp].
  destruct (Nat.eq_dec (lev e) 6) as [E|E].
  - destruct e; try discriminate. cbn [print_exp ok_exp exposed open] in *. apply exposed_left in X. destruct X as [X1 X2]. split_and. norm.
    pose proof (exp_length e1 H). rewrite !app_length in F. cbn [sym length] in F.
    rewrite (IC e1) by (lia || side || (replace (open e1) with false; destruct ns, eq; reflexivity)).
    destruct eq; eats; (rewrite IC; [reflexivity| | | | |]; auto; [eapply stops_of; [eassumption|lia|lia]|lia]).
  - rewrite IC; auto; [|lia|eapply stops_of; [eassumption|lia|lia]|lia].
    assert (S7 : stops ns 6 rest = true) by (eapply stops_at; [eassumption|lia|lia]).
    assert (Q : eat "==" rest = None) by stop_sym. assert (Q2 : eat "!=" rest = None) by stop_sym. now rewrite Q, Q2.
Qed.
Lemma step_add : forall n, parses 4 pmul n -> sums_parse n -> parses 5 padd (S n).
Proof.
  intros n IC IS e rest ns H L X S F. cbn [padd].
  destruct (Nat.eq_dec (lev e) 5) as [E|E].
  - destruct e; try discriminate. cbn [print_exp ok_exp exposed open] in *. apply exposed_left in X. destruct X as [X1 X2]. split_and.
    rewrite <- app_assoc. pose proof (exp_length e H). rewrite !app_length in F.
    destruct es as [|x es]; [discriminate|].
    rewrite (IC e); auto; [|replace (open e) with false; destruct ns; reflexivity|lia].
    rewrite IS; auto. lia.
  - pose proof (exp_length e H). rewrite IC; auto; [|lia|eapply stops_of; [eassumption|lia|lia]|lia].
    assert (S7 : stops ns 5 rest = true) by (eapply stops_at; [eassumption|lia|lia]).
    assert (Q : psums n ns rest = Some ([], rest)) by (apply (IS [] rest ns); auto; [now destruct ns|cbn; lia]). now rewrite Q.
Qed.
Lemma step_sums : forall n, parses 4 pmul n -> sums_parse n -> sums_parse (S n).
Proof.
  intros n IC IS es rest ns H X S F. cbn [psums]. destruct es as [|x es].
  - cbn [flat_map app]. assert (Q : eat "+" rest = None) by stop_sym. now rewrite Q.
  - cbn [forallb existsb flat_map] in *. apply exposed_left in X. destruct X as [X1 X2]. split_and. norm. eats.
    fold (sym "+"). rewrite !app_length in F. cbn [sym length] in F.
    rewrite IC; auto.
    + rewrite IS; auto. unfold sym in *. lia.
    + match goal with Q : open x = false |- _ => rewrite Q end. destruct es; [cbn [flat_map app]; now apply (stops_less ns 5); [|lia]|destruct ns; reflexivity].
    + lia.
Qed.
Lemma step_mul : forall n, parses 3 pcast n -> parses 4 pmul (S n).
Proof.
  intros n IC e rest ns H L X S F. cbn [pmul].
  destruct (Nat.eq_dec (lev e) 4) as [E|E].
  - destruct e; try discriminate. cbn [print_exp ok_exp exposed open] in *. apply exposed_left in X. destruct X as [X1 X2]. split_and. norm.
    pose proof (exp_length e1 H). rewrite !app_length in F. cbn [sym length] in F.
    rewrite (IC e1) by (lia || side || (replace (open e1) with false; destruct ns; reflexivity)).
    eats; (rewrite IC; [reflexivity| | | | |]; auto; [eapply stops_of; [eassumption|lia|lia]|lia]).
  - rewrite IC; auto; [|lia|eapply stops_of; [eassumption|lia|lia]|lia].
    assert (S7 : stops ns 4 rest = true) by (eapply stops_at; [eassumption|lia|lia]).
    assert (Q : eat "*" rest = None) by stop_sym. now rewrite Q.
Qed.
Lemma step_cast : forall n, parses 2 pun n -> parses 3 pcast (S n).
Proof.
  intros n IC e rest ns H L X S F. cbn [pcast].
  destruct (Nat.eq_dec (lev e) 3) as [E|E].
  - destruct e; try discriminate. cbn [print_exp ok_exp exposed open] in *. split_and. norm.
    pose proof (exp_length e H). rewrite !app_length in F. cbn [word length] in F.
    rewrite (IC e) by (lia || side || (replace (open e) with false; destruct ns; reflexivity)).
    eats. rewrite pty_ok by (assumption || lia || now apply (stops_type ns 3)). reflexivity.
  - rewrite IC; auto; [|lia|eapply stops_of; [eassumption|lia|lia]|lia].
    assert (S7 : stops ns 3 rest = true) by (eapply stops_at; [eassumption|lia|lia]).
    rewrite (stops_as ns 3); auto.
Qed.
Lemma step_un : forall n, parses 1 ppost n -> parses 2 pun n -> parses 2 pun (S n).
Proof.
  intros n IP IC e rest ns H L X S F. cbn [pun].
  destruct (Nat.eq_dec (lev e) 2) as [E|E].
  - destruct e; try discriminate. cbn [print_exp ok_exp exposed open] in *. split_and.
    pose proof (exp_length e H). rewrite !app_length in F.
    destruct o; cbn [print_unop] in *; unfold sym, word in *; cbn [length app] in F; norm; eats; try (rewrite IC by (assumption || lia); reflexivity).
    + assert (Q : maybe_word "mut" (print_exp e ++ rest) = (false, print_exp e ++ rest)).
      { unfold maybe_word. rewrite (begins_word _ "mut"); auto. now apply begins_app, print_begins. }
      rewrite Q, IC by (assumption || lia). reflexivity.
    + unfold maybe_word. eats. rewrite IC by (assumption || lia). reflexivity.
  - assert (B : forall s, existsb (String.eqb s) ["-"; "!"; "*"; "&"] = true -> eat s (print_exp e ++ rest) = None).
    { intros s Hs. assert (G : lev e = 0 \/ exists e0 ops, e = REPost e0 ops).
      { destruct e; cbn [lev] in *; try (left; reflexivity); try lia. right; eauto. }
      assert (G0 : forall a r, ok_exp a = true -> lev a = 0 -> eat s (print_exp a ++ r) = None).
      { clear - Hs. intros a r H G. cbn [existsb] in Hs. rewrite !orb_true_iff, !String.eqb_eq in Hs.
        assert (K : forall w r, eat s (TWord w :: r) = None) by reflexivity.
        destruct a; try discriminate; cbn [print_exp ok_exp] in *; norm; try apply K; try (decompose [or] Hs; try discriminate; subst; reflexivity).
        - destruct t; try discriminate; reflexivity.
        - unfold print_path. unfold ok_path in H. split_and. destruct lead; norm; [decompose [or] Hs; try discriminate; subst; reflexivity|].
          fold (sym "::"). destruct (head_epath p r H) as [q ->]. reflexivity.
        - unfold ok_path in H. split_and. unfold print_path. norm. fold (sym "::").
          match goal with |- eat _ (_ ++ ?x) = _ => destruct (head_epath p x H) as [q ->] end. reflexivity. }
      destruct G as [G|(e0 & ops & ->)]; [now apply G0|]. cbn [print_exp ok_exp] in *. split_and. rewrite <- app_assoc. now apply G0. }
    rewrite !B by reflexivity. rewrite IP; auto; [lia|eapply stops_of; [eassumption|lia|lia]|lia].
Qed.
Lemma step_post : forall n, prim_parses n -> ops_parse n -> parses 1 ppost (S n).
Proof.
  intros n IP IO e rest ns H L X S F. cbn [ppost].
  destruct (Nat.eq_dec (lev e) 1) as [E|E].
  - destruct e; try discriminate. cbn [print_exp ok_exp exposed open] in *. split_and. rewrite <- app_assoc.
    pose proof (exp_length e H). rewrite !app_length in F. destruct ops as [|o ops]; [discriminate|].
    rewrite IP; auto; [|destruct (block_like e); [destruct o; reflexivity|]|lia].
    + rewrite (IO _ rest ns); auto. lia.
    + replace (open e) with false. destruct o, ns; reflexivity.
  - pose proof (exp_length e H). rewrite IP; auto; try lia.
    + assert (Q : pops n rest = Some ([], rest)) by (apply (IO [] rest ns); auto; [eapply stops_at; [eassumption|lia|lia]|cbn; lia]). now rewrite Q.
    + destruct (block_like e); [eapply stops_else; eauto|eapply stops_of; [eassumption|lia|lia]].
Qed.
Lemma print_method : forall f gs args, print_op (OMethod f gs args) = TSym "." :: TWord f :: print_turbofish gs ++ TSym "(" :: comma_sep print_exp args ++ [TSym ")"].
Proof. intros. cbn [print_op]. norm. reflexivity. Qed.
Lemma step_ops : forall n, args_parse n -> ops_parse n -> ops_parse (S n).
Proof.
  intros n IA IO ops rest ns H K S F. cbn [pops].
  assert (D : eat "." rest = None) by stop_sym. assert (Q : eat "?" rest = None) by stop_sym. assert (C : eat "(" rest = None) by stop_sym.
  assert (P : eat "::" rest = None) by stop_sym.
  destruct ops as [|o ops]; [cbn [flat_map app]; now rewrite D, Q, C|].
  cbn [flat_map forallb] in *. split_and. rewrite app_length in F.
  destruct o as [f|f gs args|args|].
  - cbn [print_op ok_op] in *. norm. eats. rewrite name_is by assumption.
    assert (G : eat "::" (flat_map print_op ops ++ rest) = None /\ eat "(" (flat_map print_op ops ++ rest) = None).
    { destruct ops as [|[] ops]; [now split|split; reflexivity..|cbn in H; discriminate|split; reflexivity]. }
    destruct G as [-> ->]. cbn [length app sym word] in F.
    rewrite (IO ops rest ns); auto; [|lia]. cbn [ok_ops] in H. destruct ops; auto. now split_and.
  - rewrite print_method in *. cbn [ok_op] in *. split_and. norm. eats. rewrite name_is by assumption.
    cbn [length] in F. rewrite !app_length in F. cbn [length] in F. rewrite !app_length in F. cbn [length] in F. unfold print_turbofish in *.
    destruct gs as [|g gs].
    + norm. eats. rewrite IA by (assumption || (cbn [length] in F; lia)). rewrite (IO ops rest ns); auto. cbn [length] in F. lia.
    + norm. eats. rewrite !app_length in F. cbn [sym length] in F. rewrite pgargs_ok by side. cbv iota beta. eats. rewrite IA by (assumption || lia).
      rewrite (IO ops rest ns); auto. lia.
  - cbn [print_op ok_op] in *. norm. eats. unfold parens in F. rewrite !app_length in F. cbn [sym length] in F.
    rewrite IA by (assumption || lia). rewrite (IO ops rest ns); auto. lia.
  - cbn [print_op ok_op] in *. norm. eats. cbn [sym length] in F. rewrite (IO ops rest ns); auto. lia.
Qed.
Lemma stop_close : forall ns (b : bool) s r, existsb (String.eqb s) [")"; "}"; ","; ";"; "]"; "=>"] = true -> stops ns (if b then 7 else 7) (TSym s :: r) = true.
Proof.
  intros ns b s r H. cbn [existsb] in H. rewrite !orb_true_iff, !String.eqb_eq in H.
  decompose [or] H; try discriminate; subst; destruct ns, b; reflexivity.
Qed.
Ltac by_exp := first [assumption | apply lev_top | reflexivity | lia | now apply stop_close].
Lemma step_args : forall n, parses 7 pexp n -> args_parse n -> args_parse (S n).
Proof.
  intros n IE IA l rest H L. unfold comma_sep in *. destruct l as [|t l]; [cbn [app sep_by pargs]; eats; reflexivity|]. rewrite sep_cons in *. cbn [forallb] in H. split_and.
  norm. rewrite app_length in L. cbn [pargs]. fold (sym ","). pose proof (exp_length t H).
  rewrite (begins_sym _ ")") by (reflexivity || now apply begins_app, print_begins).
  rewrite IE; auto; [|apply lev_top|destruct l; now apply stop_close|lia].
  destruct l as [|b l]; [cbn [app more]; eats; reflexivity|]. cbn [more] in *. norm. eats. fold (sym ","). fold (comma_sep print_exp (b :: l)).
  rewrite IA; [reflexivity|assumption|]. unfold comma_sep, sym in *. cbn [app length] in L. lia.
Qed.
Lemma step_inits : forall n, parses 7 pexp n -> inits_parse n -> inits_parse (S n).
Proof.
  intros n IE II l trailing rest H T L. unfold comma_sep in *. destruct l as [|[f e] l].
  { destruct trailing; [discriminate|]. cbn [app sep_by pinits]. eats. reflexivity. }
  rewrite sep_cons in *. cbn [forallb ok_init] in H. split_and.
  assert (Q : forall r, more (sym ",") print_init l ++ (if trailing then [TSym ","] else []) ++ TSym "}" :: rest = r ->
     20 * length (more (sym ",") print_init l) <= n ->
     match eat "," r with
      | Some r2 => match eat "}" r2 with
                   | Some r3 => Some ([RInit f e], true, r3)
                   | None => let! (l, trailing, r3) := pinits n r2 in Some (RInit f e :: l, trailing, r3)
                   end
      | None => let! r2 := eat "}" r in Some ([RInit f e], false, r2)
      end = Some (RInit f e :: l, trailing, rest)).
  { intros r <- G. destruct l as [|i l]; [destruct trailing; cbn [more app]; eats; reflexivity|]. cbn [more] in *. norm. eats. fold (sym ",").
    assert (Q : forall r, eat "}" (sep_by (sym ",") print_init (i :: l) ++ r) = None).
    { intros r. rewrite sep_cons, <- app_assoc. destruct i as [x [y|]]; reflexivity. }
    rewrite Q. fold (comma_sep print_init (i :: l)). rewrite (II (i :: l) trailing rest); auto. rewrite app_length in G. cbn [sym length] in G. unfold comma_sep. lia. }
  rewrite app_length in L. destruct e as [e|]; cbn [print_init] in *; norm; cbn [pinits]; eats; rewrite name_is by assumption.
  - eats. fold (sym ","). repeat (cbn [length app sym word] in L; rewrite ?app_length in L). pose proof (exp_length e H1).
    match goal with |- context [pexp n false (print_exp e ++ ?r)] => rewrite (IE e r); auto end.
    + apply Q; [reflexivity|]. unfold sym in *. lia.
    + apply lev_top.
    + destruct l; [destruct trailing; cbn [more app]|]; now apply stop_close.
    + unfold sym in *. lia.
  - fold (sym ","). assert (E : eat ":" (more (sym ",") print_init l ++ (if trailing then [TSym ","] else []) ++ TSym "}" :: rest) = None).
    { destruct l, trailing; reflexivity. }
    unfold sym in *. rewrite E. apply Q; [reflexivity|]. cbn [word length] in L. lia.
Qed.
Lemma block_else : forall b rest, forallb ok_stmt b = true -> eat_word "else" (flat_map print_stmt b ++ TSym "}" :: rest) = None.
Proof.
  intros [|[p e|e semi] b] rest H; try reflexivity. cbn [flat_map print_stmt forallb ok_stmt] in *. split_and. rewrite <- !app_assoc.
  apply begins_word; [|reflexivity]. now apply begins_app, print_begins.
Qed.
Lemma step_block : forall n, parses 7 pexp n -> prim_parses n -> block_parses n -> block_parses (S n).
Proof.
  intros n IE IP IB b rest H K L. cbn [pblock]. destruct b as [|[p e|e semi] b].
  - cbn [flat_map app]. eats. reflexivity.
  - cbn [flat_map print_stmt forallb ok_stmt ok_ends] in *. split_and. norm. eats. repeat (rewrite ?app_length in L; cbn [word sym length] in L).
    pose proof (exp_length e H1). pose proof (pat_length p H).
    rewrite ppat_ok by (reflexivity || assumption || lia). eats.
    rewrite IE by by_exp. eats. rewrite IB by (assumption || lia). reflexivity.
  - cbn [flat_map print_stmt forallb ok_stmt ok_ends] in *. split_and. rewrite <- !app_assoc. rewrite !app_length in L.
    pose proof (print_begins e H) as B. pose proof (exp_length e H).
    rewrite (begins_sym _ "}") by (reflexivity || now apply begins_app).
    rewrite (begins_word _ "let") by (reflexivity || now apply begins_app).
    destruct (block_like e) eqn:BL.
    + rewrite block_begins by assumption. rewrite IP; auto.
      * destruct semi; norm; eats.
        -- rewrite IB by (assumption || lia). reflexivity.
        -- assert (Q : eat ";" (flat_map print_stmt b ++ TSym "}" :: rest) = None).
           { destruct b as [|[p2 e2|e2 s2] b2]; try reflexivity. cbn [flat_map print_stmt forallb ok_stmt] in *. split_and. rewrite <- !app_assoc.
             apply begins_sym; [|reflexivity]. now apply begins_app, print_begins. }
           rewrite Q, IB by (assumption || lia). reflexivity.
      * destruct e; try discriminate; reflexivity.
      * rewrite BL. destruct semi; [reflexivity|]. cbn [app]. now apply block_else.
      * lia.
    + cbn [orb] in H0. split_and. rewrite not_block_begins by assumption.
      destruct semi.
      * norm. rewrite IE by by_exp. eats. rewrite IB by (assumption || lia). reflexivity.
      * destruct b; [|discriminate]. cbn [flat_map app]. rewrite IE by by_exp. eats. reflexivity.
Qed.
Lemma step_arms : forall n, parses 7 pexp n -> block_parses n -> arms_parse n -> arms_parse (S n).
Proof.
  intros n IE IB IA l rest H K L. cbn [parms]. destruct l as [|[p e comma] l]; [cbn [flat_map app]; eats; reflexivity|].
  cbn [flat_map print_arm forallb ok_arm ok_commas] in *. split_and. repeat (rewrite ?app_length in L; cbn [word sym length] in L).
  pose proof (pat_length p H). pose proof (exp_length e H3). norm.
  assert (P0 : forall r, eat "}" (print_pat p ++ r) = None).
  { intros r. pose proof (head_pat p r H) as Q. destruct (print_pat p ++ r) as [|[]]; try contradiction; try reflexivity. destruct Q as [-> |[-> | ->]]; reflexivity. }
  rewrite P0, ppat_ok by (reflexivity || assumption || lia). eats.
  assert (C0 : eat "," (flat_map print_arm l ++ TSym "}" :: rest) = None).
  { destruct l as [|[p2 e2 c2] l2]; [reflexivity|]. cbn [flat_map print_arm forallb ok_arm] in *. split_and. rewrite <- !app_assoc.
    match goal with |- eat _ (print_pat p2 ++ ?r) = _ => pose proof (head_pat p2 r ltac:(assumption)) as Q; destruct (print_pat p2 ++ r) as [|[]]; try contradiction; try reflexivity end.
    destruct Q as [-> |[-> | ->]]; reflexivity. }
  destruct (is_block e) eqn:BL.
  - destruct e; try discriminate. cbn [print_exp ok_exp] in *. split_and. unfold braces in L. rewrite !app_length in L. cbn [sym length] in L. norm. eats.
    rewrite IB by (assumption || lia). destruct comma; norm; eats.
    + rewrite IA by (assumption || lia). reflexivity.
    + rewrite C0, IA by (assumption || lia). reflexivity.
  - cbn [orb] in H0. split_and. rewrite not_brace_begins by assumption. destruct comma; norm.
    + rewrite IE by by_exp. eats. rewrite IA by (assumption || lia). reflexivity.
    + destruct l; [|discriminate]. cbn [flat_map app]. rewrite IE by by_exp. eats. reflexivity.
Qed.
Lemma stop_brace : forall (b : bool) r, stops true (if b then 7 else 7) (TSym "{" :: r) = true.
Proof. intros [] r; reflexivity. Qed.
Ltac by_head := first [assumption | apply lev_top | reflexivity | lia | apply stop_brace].
Lemma step_prim : forall n, parses 7 pexp n -> args_parse n -> block_parses n -> arms_parse n -> inits_parse n -> prim_parses (S n).
Proof.
  intros n IE IA IB IM II e rest ns H L X S F. cbn [pprim].
  destruct e; try discriminate L; cbn [print_exp ok_exp exposed open block_like] in *; split_and.
  - destruct t; try discriminate; reflexivity.
  - destruct b; reflexivity.
  - unfold print_path in *. unfold ok_path in H. split_and. assert (P : eat "::" rest = None) by stop_sym.
    rewrite app_length in F. destruct lead.
    + norm. strs. fold (sym "::"). cbn [sym length] in F. rewrite pepath_ok by (assumption || lia). reflexivity.
    + cbn [app]. destruct (head_epath p rest H) as [r R]. rewrite R.
      assert (G : is_seg (match p with PSeg w _ :: _ => w | [] => "" end) = true).
      { destruct p as [|[w gs] p]; [discriminate|]. cbn in H0. now split_and. }
      rewrite G, <- R. cbn [length] in F. rewrite pepath_ok by (assumption || lia).
      destruct ns; [reflexivity|]. assert (B : eat "{" rest = None) by stop_sym. now rewrite B.
  - unfold parens in *. repeat (rewrite ?app_length in F; cbn [sym length] in F). norm. strs. 
    rewrite (begins_sym _ ")") by (reflexivity || now apply begins_app, print_begins).
    rewrite IE by by_exp. eats. reflexivity.
  - unfold parens in *. repeat (rewrite ?app_length in F; cbn [sym length] in F). norm. strs.
    destruct l as [|a [|b l]]; [cbn [comma_sep sep_by app]; eats; reflexivity|discriminate|].
    unfold comma_sep in *. rewrite sep_cons in *. cbn [more] in *. rewrite <- !app_assoc. cbn [forallb] in *. split_and.
    rewrite !app_length in F. cbn [sym length] in F. pose proof (exp_length a H0).
    rewrite (begins_sym _ ")") by (reflexivity || now apply begins_app, print_begins).
    rewrite IE by by_exp. norm. eats. fold (sym ","). fold (comma_sep print_exp (b :: l)).
    rewrite IA; [reflexivity| |unfold comma_sep; lia]. cbn [forallb]. now rewrite H1, H2.
  - unfold braces in *. rewrite !app_length in F; cbn [sym length] in F. norm. strs. rewrite IB by (assumption || lia). reflexivity.
  - unfold braces in *. rewrite !app_length in F; cbn [word sym length] in F. norm. cbn [is_seg]. change (is_seg "unsafe") with false. strs. eats. rewrite IB by (assumption || lia). reflexivity.
  - pose proof (exp_length e H). unfold braces in *. repeat (rewrite ?app_length in F; cbn [word sym length] in F). norm. change (is_seg "if") with false. strs.
    rewrite IE by by_head. eats. rewrite IB by (assumption || lia). destruct els as [b'|].
    + unfold sym, word in F. repeat (cbn [app length] in F; rewrite ?app_length in F). split_and. norm. eats. rewrite IB by (assumption || lia). reflexivity.
    + cbn [app]. now rewrite S.
  - pose proof (exp_length e H). unfold braces in *. repeat (rewrite ?app_length in F; cbn [word sym length] in F). norm. change (is_seg "match") with false. strs.
    rewrite IE by by_head. eats. rewrite IM by (assumption || lia). reflexivity.
  - pose proof (exp_length e ltac:(assumption)). pose proof (pat_length p ltac:(assumption)).
    unfold braces in *. repeat (rewrite ?app_length in F; cbn [word sym length] in F). norm. change (is_seg "for") with false. strs.
    rewrite ppat_ok by (assumption || reflexivity || lia). eats.
    rewrite IE by by_head. eats. rewrite IB by (assumption || lia). reflexivity.
  - pose proof (exp_length e H). unfold braces in *. repeat (rewrite ?app_length in F; cbn [word sym length] in F). norm. change (is_seg "while") with false. strs.
    rewrite IE by by_head. eats. rewrite IB by (assumption || lia). reflexivity.
  - pose proof (exp_length e ltac:(assumption)). repeat (rewrite ?app_length in F; cbn [word sym length] in F). norm. strs.
    rewrite pparams_ok by (assumption || lia). rewrite IE; auto; [apply lev_top|now destruct (open e)|lia].
  - pose proof (exp_length e ltac:(assumption)). repeat (rewrite ?app_length in F; cbn [word sym length] in F). norm. change (is_seg "return") with false. strs.
    rewrite IE; auto; [apply lev_top|now destruct (open e)|lia].
  - destruct ns; [discriminate|]. unfold print_path, ok_path in *. split_and. unfold braces in *. cbn [app] in *.
    repeat (rewrite ?app_length in F; cbn [word sym length] in F). rewrite <- !app_assoc.
    match goal with |- context [sep_by _ _ p ++ ?x] => destruct (head_epath p x ltac:(assumption)) as [r R]; rewrite R end.
    assert (G : is_seg (match p with PSeg w _ :: _ => w | [] => "" end) = true).
    { destruct p as [|[w gs] p]; [discriminate|]. cbn in H2. now split_and. }
    rewrite G, <- R. rewrite pepath_ok by (assumption || reflexivity || lia). cbn [sym app]. eats.
    rewrite II by (assumption || lia). reflexivity.
Qed.

Lemma expressions_parse : forall n,
  parses 7 pexp n /\ parses 6 pcmp n /\ parses 5 padd n /\ sums_parse n /\ parses 4 pmul n /\ parses 3 pcast n /\ parses 2 pun n /\ parses 1 ppost n /\
  prim_parses n /\ ops_parse n /\ args_parse n /\ block_parses n /\ arms_parse n /\ inits_parse n.
Proof.
  induction n as [|n (I7 & I6 & I5 & IS & I4 & I3 & I2 & I1 & I0 & IO & IA & IB & IM & II)].
  - repeat match goal with |- _ /\ _ => split end; intro; intros; lia.
  - repeat match goal with |- _ /\ _ => split end.
    + now apply step_exp. + now apply step_cmp. + now apply step_add. + now apply step_sums. + now apply step_mul. + now apply step_cast.
    + now apply step_un. + now apply step_post. + now apply step_prim. + now apply step_ops. + now apply step_args. + now apply step_block.
    + now apply step_arms. + now apply step_inits.
Qed.
Lemma pexp_ok : forall n e rest ns, ok_exp e = true -> ns && exposed e = false -> stops ns 7 rest = true ->
  20 * length (print_exp e) + 12 <= n -> pexp n ns (print_exp e ++ rest) = Some (e, rest).
Proof. intros n e rest ns H X S L. apply (proj1 (expressions_parse n)); auto; [apply lev_top|now destruct (open e)|lia]. Qed.
Lemma pblock_ok : forall n, block_parses n.
Proof. intros n. pose proof (expressions_parse n). tauto. Qed.

(** ** Items *)
Definition plain (t : token) : bool := match t with TSym x => negb (existsb (String.eqb x) [")"; "("; "["; "]"; "{"; "}"]) | _ => true end.
Definition ok_attr (a : rattr) : bool := match a with RAttr n args => ok_name n && match args with Some l => forallb plain l | None => true end end.
Definition ok_field (f : rfield) : bool := forallb ok_attr (rf_attrs f) && ok_name (rf_name f) && ok_ty (rf_type f).
Definition ok_variant (v : rvariant) : bool :=
  forallb ok_attr (rv_attrs v) && ok_name (rv_name v) && match rv_payload v with VOne t => ok_ty t | _ => true end.
Definition ok_generic (p : rgeneric) : bool := match p with GpLife _ => true | GpBound n b => ok_name n && ok_name b end.
Definition ok_param (p : rpat * rty_) : bool :=
  match fst p with RPWild => true | RPBind false _ x => ok_name x | _ => false end && ok_ty (snd p).
Definition ok_block (b : list rstmt) : bool := forallb ok_stmt b && ok_ends b.
Definition ok_fn (f : rfn) : bool :=
  ok_name (fn_name f) && forallb ok_generic (fn_generics f) && forallb ok_param (fn_params f)
  && match fn_ret f with Some t => ok_ty t | None => true end && ok_block (fn_body f).
Definition ok_leaf (u : ruse) : bool :=
  match u with UGlob => true | UName n => ok_name n | UList l => nonempty l && forallb ok_name l end.
Fixpoint ok_item (i : ritem_) : bool :=
  match i with
  | RIUse path leaf => forallb is_seg path && ok_leaf leaf
  | RIAlias n ps t => ok_name n && forallb ok_name ps && ok_ty t
  | RIConst _ n t e => ok_name n && ok_ty t && ok_exp e
  | RIFn f => ok_fn f
  | RIStruct attrs _ n _ fs => forallb ok_attr attrs && ok_name n && forallb ok_field fs
  | RIEnum attrs n _ vs => forallb ok_attr attrs && ok_name n && forallb ok_variant vs
  | RIImpl attrs _ trait t items =>
    forallb ok_attr attrs && match trait with Some tr => ok_ty tr | None => true end && ok_ty t && forallb ok_item items
  | RIMod n items => ok_name n && forallb ok_item items
  end.
Definition ok_file (f : rfile) : bool := forallb ok_attr (file_attrs f) && forallb ok_item (file_items f).

Lemma attr_args_ok : forall l rest, forallb plain l = true -> pattr_args (l ++ TSym ")" :: rest) = Some (l, rest).
Proof.
  induction l as [|t l IH]; intros rest H; [reflexivity|]. cbn [forallb app] in *. split_and.
  destruct t; cbn [pattr_args]; try (rewrite IH by assumption; reflexivity).
  cbn [plain] in H. apply negb_true_iff in H. cbn [existsb] in H. apply orb_false_iff in H. destruct H as [A B]. rewrite A. cbn [existsb]. rewrite B.
  rewrite IH by assumption. reflexivity.
Qed.
Lemma pattr_ok : forall a rest, ok_attr a = true ->
  pattr (TSym "[" :: match a with RAttr n None => word n | RAttr n (Some ts) => word n ++ parens ts end ++ TSym "]" :: rest) = Some (a, rest).
Proof.
  intros [n [l|]] rest H; cbn [ok_attr] in H; split_and; unfold pattr; norm; eats; rewrite name_is by assumption; eats; [|reflexivity].
  rewrite attr_args_ok by assumption. eats. reflexivity.
Qed.
Lemma pattrs_ok : forall n l rest, forallb ok_attr l = true -> eat "#" rest = None -> length (flat_map print_attr l) + 1 <= n ->
  pattrs n (flat_map print_attr l ++ rest) = Some (l, rest).
Proof.
  induction n as [|n IH]; intros l rest H S L; [lia|]. destruct l as [|a l]; [cbn [flat_map app pattrs]; now rewrite S|].
  cbn [flat_map forallb] in *. split_and. rewrite app_length in L.
  assert (E : forall r, print_attr a ++ r = TSym "#" :: TSym "[" :: match a with RAttr n None => word n | RAttr n (Some ts) => word n ++ parens ts end ++ TSym "]" :: r).
  { intros r. destruct a as [x [y|]]; cbn [print_attr]; norm; reflexivity. }
  rewrite <- app_assoc, E. cbn [pattrs]. eats. rewrite pattr_ok by assumption. rewrite IH; auto.
  specialize (E []). rewrite app_nil_r in E. rewrite E in L. cbn [length] in L. lia.
Qed.
Lemma pinners_ok : forall n l rest, forallb ok_attr l = true -> (eat "#" rest = None \/ exists r, rest = TSym "#" :: r /\ eat "!" r = None) ->
  length (flat_map print_inner l) + 1 <= n ->
  pinners n (flat_map print_inner l ++ rest) = Some (l, rest).
Proof.
  induction n as [|n IH]; intros l rest H S L; [lia|]. destruct l as [|a l].
  { cbn [flat_map app pinners]. destruct S as [S|(r & -> & S)]; [now rewrite S|]. eats. now rewrite S. }
  cbn [flat_map forallb] in *. split_and. rewrite app_length in L.
  assert (E : forall r, print_inner a ++ r = TSym "#" :: TSym "!" :: TSym "[" :: match a with RAttr n None => word n | RAttr n (Some ts) => word n ++ parens ts end ++ TSym "]" :: r).
  { intros r. destruct a as [x [y|]]; cbn [print_inner]; norm; reflexivity. }
  rewrite <- app_assoc, E. cbn [pinners]. eats. rewrite pattr_ok by assumption. rewrite IH; auto.
  specialize (E []). rewrite app_nil_r in E. rewrite E in L. cbn [length] in L. lia.
Qed.
Lemma pcommas_ok : forall A (p : list token -> presult A) (q : A -> list token) (ok : A -> bool) close,
  (forall x rest, ok x = true -> p (q x ++ rest) = Some (x, rest)) -> eat "," (TSym close :: []) = None ->
  forall n l rest, nonempty l = true -> forallb ok l = true -> (forall x, ok x = true -> 1 <= length (q x)) -> length (comma_sep q l) + 1 <= n ->
  pcommas p close n (comma_sep q l ++ TSym close :: rest) = Some (l, rest).
Proof.
  intros A p q ok close P C. unfold comma_sep. induction n as [|n IH]; intros l rest N H G L; [lia|]. destruct l as [|x l]; [discriminate|].
  rewrite sep_cons in *. cbn [forallb] in H. split_and. rewrite <- app_assoc. cbn [pcommas]. rewrite P by assumption. rewrite app_length in L. pose proof (G x ltac:(assumption)).
  assert (C2 : forall r, eat "," (TSym close :: r) = None). { intros r. cbn [eat] in *. destruct (String.eqb close ","); [discriminate|reflexivity]. }
  destruct l as [|b l].
  - cbn [more app]. rewrite C2. cbn [eat]. rewrite String.eqb_refl. reflexivity.
  - cbn [more] in *. norm. eats. fold (sym ","). rewrite IH; auto. rewrite app_length in L. cbn [sym length] in L. lia.
Qed.
Lemma plts_ok : forall n l rest, eat "<" rest = None -> length (print_lts l) <= n -> plts n (print_lts l ++ rest) = Some (l, rest).
Proof.
  intros n l rest S L. unfold plts, print_lts in *. destruct l as [|a l]; [cbn [app]; now rewrite S|]. norm. eats.
  repeat (rewrite ?app_length in L; cbn [sym length] in L).
  apply (pcommas_ok _ _ _ (fun _ => true)); auto; try lia. clear. induction l; auto.
Qed.
Lemma head_attrs : forall l rest, eat "}" rest = None -> eat "}" (flat_map print_attr l ++ rest) = None.
Proof. intros [|[n [y|]] l] rest H; [exact H|reflexivity..]. Qed.
Lemma print_field_is : forall a p f t, print_field (mkRField a p f t) =
  flat_map print_attr a ++ print_pub p ++ word f ++ sym ":" ++ print_ty t ++ sym ",".
Proof. reflexivity. Qed.
Lemma print_variant_is : forall a v p, print_variant (mkRVariant a v p) =
  flat_map print_attr a ++ word v ++ match p with VUnit => [] | VOne t => sym "(" ++ print_ty t ++ sym ")" | VNum neg n => sym "=" ++ (if neg then sym "-" else []) ++ [TNum n] end ++ sym ",".
Proof. reflexivity. Qed.
Lemma pfields_ok : forall n l rest, forallb ok_field l = true -> 20 * length (flat_map print_field l) + 10 <= n ->
  pfields n (flat_map print_field l ++ TSym "}" :: rest) = Some (l, rest).
Proof.
  induction n as [|n IH]; intros l rest H L; [lia|]. destruct l as [|[attrs pub f t] l]; [cbn [flat_map app pfields]; eats; reflexivity|].
  cbn [flat_map forallb] in *. apply andb_true_iff in H. destruct H as [H0 H]. unfold ok_field in H0. rewrite print_field_is in *. cbn [rf_attrs rf_name rf_type rf_pub] in *. split_and.
  repeat (rewrite ?app_length in L; cbn [sym word length] in L). pose proof (ty_length t ltac:(assumption)).
  norm. cbn [pfields].
  assert (K : forall r, maybe_word "pub" (print_pub pub ++ TWord f :: r) = (pub, TWord f :: r)).
  { intros r. destruct pub; [reflexivity|]. unfold maybe_word. cbn [print_pub app eat_word]. now rewrite (eqb_false f "pub" ok_name) by side. }
  rewrite head_attrs by (destruct pub; reflexivity). rewrite pattrs_ok by (assumption || lia || (destruct pub; reflexivity)).
  rewrite K, name_is by assumption. eats. rewrite pty_ok by (assumption || reflexivity || lia). eats. rewrite IH by (assumption || lia). reflexivity.
Qed.
Lemma pvariants_ok : forall n l rest, forallb ok_variant l = true -> 20 * length (flat_map print_variant l) + 10 <= n ->
  pvariants n (flat_map print_variant l ++ TSym "}" :: rest) = Some (l, rest).
Proof.
  induction n as [|n IH]; intros l rest H L; [lia|]. destruct l as [|[attrs v pl] l]; [cbn [flat_map app pvariants]; eats; reflexivity|].
  cbn [flat_map forallb] in *. apply andb_true_iff in H. destruct H as [H0 H]. unfold ok_variant in H0. rewrite print_variant_is in *. cbn [rv_attrs rv_name rv_payload] in *. split_and.
  repeat (rewrite ?app_length in L; cbn [sym word length] in L).
  norm. cbn [pvariants]. rewrite head_attrs by reflexivity. rewrite pattrs_ok by (assumption || lia || reflexivity). rewrite name_is by assumption.
  destruct pl as [|t|neg m].
  - norm. eats. rewrite IH by (assumption || lia). reflexivity.
  - repeat (rewrite ?app_length in L; cbn [sym word length] in L). norm. eats. rewrite pty_ok by (assumption || reflexivity || lia). eats. rewrite IH by (assumption || lia). reflexivity.
  - destruct neg; norm; eats; rewrite IH by (assumption || lia); reflexivity.
Qed.
Lemma pgeneric_ok : forall p rest, ok_generic p = true -> pgeneric (print_generic p ++ rest) = Some (p, rest).
Proof.
  intros [s|x b] rest H; cbn [ok_generic print_generic] in *; [reflexivity|]. split_and. norm. unfold pgeneric. rewrite name_is by assumption. eats. now rewrite name_is.
Qed.
Lemma pgenerics_ok : forall n l rest, forallb ok_generic l = true -> eat "<" rest = None -> length (print_generics l) <= n ->
  pgenerics n (print_generics l ++ rest) = Some (l, rest).
Proof.
  intros n l rest H S L. unfold pgenerics, print_generics in *. destruct l as [|a l]; [cbn [app]; now rewrite S|]. norm. eats.
  repeat (rewrite ?app_length in L; cbn [sym length] in L).
  apply (pcommas_ok _ _ _ ok_generic); auto; try lia; [intros; now apply pgeneric_ok|]. intros [|] _; cbn; lia.
Qed.
Lemma param_pat : forall p, ok_param p = true -> ok_pat (fst p) = true.
Proof. intros [[] t] H; unfold ok_param in H; cbn [fst snd ok_pat] in *; try discriminate; try reflexivity. destruct by_ref; [discriminate|]. now split_and. Qed.
Lemma param_head : forall p, ok_param p = true -> exists w r, print_param p = TWord w :: r /\ w <> "self".
Proof.
  intros [[] t] H; unfold ok_param in H; cbn [fst snd] in H; try discriminate; unfold print_param; cbn [fst snd print_pat].
  - eexists _, _; split; [reflexivity|discriminate].
  - destruct by_ref; [discriminate|]. split_and. destruct mut; eexists _, _; (split; [reflexivity|]); [discriminate|]. intros ->. discriminate.
Qed.
Lemma pfnparams_ok : forall n l rest, forallb ok_param l = true -> 20 * length (comma_sep print_param l) + 10 <= n ->
  pfnparams n (comma_sep print_param l ++ TSym ")" :: rest) = Some (l, rest).
Proof.
  unfold comma_sep. induction n as [|n IH]; intros l rest H L; [lia|]. destruct l as [|[p t] l]; [cbn [sep_by app pfnparams]; eats; reflexivity|].
  rewrite sep_cons in *. cbn [forallb] in H. split_and. pose proof (param_pat _ H) as P. destruct (param_head _ H) as (w & r & E & _).
  assert (Q : forall x, eat ")" ((print_param (p, t) ++ x)) = None) by (intros x; rewrite E; reflexivity).
  rewrite <- app_assoc. cbn [pfnparams]. rewrite Q. rewrite app_length in L. change (print_param (p, t)) with (print_pat p ++ sym ":" ++ print_ty t) in *. unfold ok_param in H. cbn [fst snd] in *. split_and.
  repeat (rewrite ?app_length in L; cbn [sym word length] in L). pose proof (ty_length t ltac:(assumption)). pose proof (pat_length p ltac:(assumption)). norm.
  rewrite ppat_ok by (assumption || reflexivity || lia). eats. fold (sym ",").
  rewrite pty_ok by (assumption || (destruct l; reflexivity) || lia).
  destruct l as [|b l]; [cbn [app more]; eats; reflexivity|]. cbn [more] in *. norm. eats. fold (sym ","). rewrite IH; auto.
  unfold sym in *. cbn [app length] in L. lia.
Qed.
Definition self_sep (s : rself) (l : list (rpat * rty_)) : list token :=
  match s, l with NoSelf, _ => [] | _, [] => [] | _, _ => sym "," end.
Lemma print_params_is : forall s l, print_params s l = parens (print_self s ++ self_sep s l ++ comma_sep print_param l).
Proof. reflexivity. Qed.
Lemma pself_ok : forall s l rest, forallb ok_param l = true ->
  pself (print_self s ++ self_sep s l ++ comma_sep print_param l ++ TSym ")" :: rest)
  = (s, comma_sep print_param l ++ TSym ")" :: rest).
Proof.
  intros s l rest H. unfold comma_sep. destruct s as [| |lt mut].
  - cbn [print_self self_sep app]. destruct l as [|p l]; [reflexivity|]. rewrite sep_cons, <- app_assoc. cbn [forallb] in H. split_and.
    destruct (param_head p H) as (w & r & -> & N). cbn [app]. unfold pself. cbn [eat_word eat]. apply String.eqb_neq in N. now rewrite N.
  - destruct l as [|p l]; reflexivity.
  - destruct lt, mut, l; reflexivity.
Qed.
Lemma pfn_ok : forall n f rest, ok_fn f = true -> 20 * length (print_fn f) <= n ->
  match print_fn f ++ rest with
  | TWord w :: r => if String.eqb w "pub" then fn_pub f = true /\ exists r', r = TWord "fn" :: r' /\ pfn n true r' = Some (f, rest)
                    else fn_pub f = false /\ w = "fn" /\ pfn n false r = Some (f, rest)
  | _ => False
  end.
Proof.
  intros n [pub f gs self ps ret body] rest H L. unfold print_fn, ok_fn, ok_block in *. cbn [fn_pub fn_name fn_generics fn_self fn_params fn_ret fn_body] in *. split_and.
  rewrite print_params_is in *. unfold print_block, parens, braces in *. repeat (rewrite ?app_length in L; cbn [sym word length] in L).
  assert (E : forall b, pfn n b (TWord f :: print_generics gs ++ parens (print_self self ++ self_sep self ps ++ comma_sep print_param ps)
      ++ match ret with Some t => sym "->" ++ print_ty t | None => [] end ++ braces (flat_map print_stmt body) ++ rest) = Some (mkRFn b f gs self ps ret body, rest)).
  { intros b. unfold pfn. rewrite name_is by assumption. rewrite pgenerics_ok by (assumption || reflexivity || lia). norm. eats.
    rewrite pself_ok by assumption. rewrite pfnparams_ok by (assumption || lia).
    destruct ret as [t|].
    - rewrite app_length in L. cbn [sym length] in L. cbn [sym app]. eats. rewrite pty_ok by (assumption || reflexivity || lia). eats. rewrite pblock_ok by (assumption || lia). reflexivity.
    - cbn [sym app]. eats. rewrite pblock_ok by (assumption || lia). reflexivity. }
  destruct pub; cbn [print_pub word app]; strs.
  - split; [reflexivity|]. eexists. split; [reflexivity|]. specialize (E true). unfold parens, braces in E. rewrite <- !app_assoc in *. cbn [app] in *. exact E.
  - split; [reflexivity|]. split; [reflexivity|]. specialize (E false). unfold parens, braces in E. rewrite <- !app_assoc in *. cbn [app] in *. exact E.
Qed.
Definition use_seg (n : text) : list token := word n ++ sym "::".
Lemma puse_ok : forall n path u rest, forallb is_seg path = true -> ok_leaf u = true ->
  length (flat_map use_seg path ++ print_leaf u) + 1 <= n ->
  puse n (flat_map use_seg path ++ print_leaf u ++ TSym ";" :: rest) = Some ((path, u), rest).
Proof.
  induction n as [|n IH]; intros path u rest H K L; [lia|]. destruct path as [|w path].
  - cbn [flat_map app] in *. destruct u as [|x|l]; cbn [print_leaf ok_leaf] in *; split_and; norm; cbn [puse].
    + eats. reflexivity.
    + eats. rewrite (name_seg x) by assumption. eats. unfold ok_name in K. apply negb_true_iff in K. now rewrite K.
    + eats. unfold braces in L. rewrite !app_length in L. cbn [sym length] in L. 
      fold word. assert (P : pcommas name "}" n (comma_sep word l ++ TSym "}" :: TSym ";" :: rest) = Some (l, TSym ";" :: rest)).
      { apply (pcommas_ok _ name word ok_name "}"); auto; [intros; now apply name_is|lia]. }
      unfold word in *. rewrite P. eats. reflexivity.
  - cbn [flat_map forallb] in *. split_and. change (use_seg w) with [TWord w; TSym "::"] in *. norm. cbn [puse]. eats. rewrite H. eats. rewrite IH; auto.
    cbn [app length] in L. lia.
Qed.

(** an item begins with none of the closing symbols *)
Lemma head_item : forall i rest, ok_item i = true ->
  match print_item i ++ rest with TSym x :: _ => x = "#" | TWord w :: _ => True | _ => False end.
Proof.
  intros i rest H.
  assert (A : forall l (t : token) r r', (forall x, t <> TSym x) -> (exists w, t = TWord w) ->
     match (flat_map print_attr l ++ t :: r) ++ r' with TSym x :: _ => x = "#" | TWord w :: _ => True | _ => False end).
  { intros [|[n [y|]] l] t r r' _ [w ->]; [exact I|reflexivity|reflexivity]. }
  destruct i as [| |[] ? ? ?|f|attrs pub n lts fs|attrs n lts vs|attrs lts trait t items|]; cbn [print_item]; try exact I.
  - destruct f as [[] ? ? ? ? ? ?]; exact I.
  - destruct pub; apply A; try discriminate; eauto.
  - apply A; try discriminate; eauto.
  - apply A; try discriminate; eauto.
Qed.
Lemma item_length : forall i, ok_item i = true -> 1 <= length (print_item i).
Proof. intros i H. pose proof (head_item i [] H) as K. rewrite app_nil_r in K. destruct (print_item i); [contradiction|cbn; lia]. Qed.

Lemma items_parse : forall n,
  (forall l rest, forallb ok_item l = true -> (rest = [] \/ exists r, rest = TSym "}" :: r) -> 20 * length (flat_map print_item l) + 21 <= n ->
     pitems n (flat_map print_item l ++ rest) = Some (l, rest)) /\
  (forall i rest, ok_item i = true -> 20 * length (print_item i) + 20 <= n -> pitem n (print_item i ++ rest) = Some (i, rest)).
Proof.
  induction n as [|n (IL & II)]; [split; intros; lia|]. split.
  - intros l rest H S L. destruct l as [|i l].
    { cbn [flat_map app pitems]. destruct S as [-> |(r & ->)]; [reflexivity|]. eats. reflexivity. }
    cbn [flat_map forallb] in *. split_and. rewrite <- app_assoc. rewrite app_length in L. pose proof (item_length i H).
    pose proof (head_item i (flat_map print_item l ++ rest) H) as K. pose proof (II i (flat_map print_item l ++ rest) H ltac:(lia)) as E.
    cbn [pitems]. destruct (print_item i ++ flat_map print_item l ++ rest) as [|t ts] eqn:X; [contradiction|].
    assert (B : eat "}" (t :: ts) = None). { destruct t; try contradiction; [reflexivity|]. rewrite K. reflexivity. }
    rewrite B, E, IL by (assumption || lia). reflexivity.
  - intros i rest H L.
    assert (NA : forall w r, eat "#" (TWord w :: r) = None) by reflexivity.
    assert (P0 : forall r b w, String.eqb w "pub" = false -> maybe_word "pub" (print_pub b ++ TWord w :: r) = (b, TWord w :: r)).
    { intros r [] w W; [reflexivity|]. unfold maybe_word. cbn [print_pub app eat_word]. now rewrite W. }
    assert (P1 : forall r w, String.eqb w "pub" = false -> maybe_word "pub" (TWord w :: r) = (false, TWord w :: r)) by (intros r w W; apply (P0 r false w W)).
    assert (PA : forall w r, pattrs n (TWord w :: r) = Some ([], TWord w :: r)) by (intros; apply (pattrs_ok n []); auto; cbn; lia).
    assert (PB : forall b w r, pattrs n (print_pub b ++ TWord w :: r) = Some ([], print_pub b ++ TWord w :: r)) by (intros [] w r; apply PA).
    assert (MP : forall r, maybe_word "pub" (TWord "pub" :: r) = (true, r)) by reflexivity.
    destruct i as [path leaf|x ps t|pub x t e|f|attrs pub x lts fs|attrs x lts vs|attrs lts trait t items|x items]; cbn [print_item ok_item] in *; split_and.
    + change (flat_map (fun n => word n ++ sym "::") path) with (flat_map use_seg path) in *. norm. cbn [pitem]. rewrite PA, P1 by reflexivity. strs.
      assert (E : puse n (flat_map use_seg path ++ print_leaf leaf ++ TSym ";" :: rest) = Some ((path, leaf), rest)).
      { apply puse_ok; auto. repeat (rewrite ?app_length in L; cbn [sym word length] in L). rewrite app_length. lia. }
      rewrite E. reflexivity.
    + norm. cbn [pitem]. rewrite PA, P1 by reflexivity. strs. rewrite name_is by assumption.
      repeat (rewrite ?app_length in L; cbn [sym word length] in L).
      assert (E : match ps with [] => [] | _ => sym "<" ++ comma_sep word ps ++ sym ">" end ++ TSym "=" :: print_ty t ++ TSym ";" :: rest =
                  match ps with [] => TSym "=" :: print_ty t ++ TSym ";" :: rest | _ => TSym "<" :: comma_sep word ps ++ TSym ">" :: TSym "=" :: print_ty t ++ TSym ";" :: rest end).
      { destruct ps; norm; reflexivity. }
      unfold sym, word in E. cbn [app] in E. rewrite E. clear E. destruct ps as [|a ps].
      * eats. rewrite pty_ok by (assumption || reflexivity || lia). eats. reflexivity.
      * eats. fold word. assert (P : forall r, pcommas name ">" n (comma_sep word (a :: ps) ++ TSym ">" :: r) = Some (a :: ps, r)).
        { intros r. apply (pcommas_ok _ name word ok_name ">"); auto; [intros; now apply name_is|]. repeat (rewrite ?app_length in L; cbn [sym word length] in L). lia. }
        unfold word in P. rewrite P. eats. rewrite pty_ok by (assumption || reflexivity || lia). eats. reflexivity.
    + norm. cbn [pitem]. rewrite PB, P0 by reflexivity. strs. repeat (rewrite ?app_length in L; cbn [sym word length] in L).
      rewrite name_is by assumption. eats. rewrite pty_ok by (assumption || reflexivity || lia). eats. rewrite pexp_ok by (assumption || reflexivity || lia). eats. reflexivity.
    + pose proof (pfn_ok n f rest H ltac:(lia)) as K. cbn [pitem]. destruct (print_fn f ++ rest) as [|[w| | | | |] r]; try contradiction.
      destruct (String.eqb w "pub") eqn:W.
      * apply String.eqb_eq in W. subst. destruct K as (_ & r' & -> & K). rewrite PA, MP. strs. rewrite K. reflexivity.
      * destruct K as (_ & -> & K). rewrite PA, P1 by reflexivity. strs. rewrite K. reflexivity.
    + unfold braces in L. repeat (rewrite ?app_length in L; cbn [sym word length] in L). norm. cbn [pitem].
      rewrite pattrs_ok by (assumption || (destruct pub; reflexivity) || lia). rewrite P0 by reflexivity. strs. rewrite name_is by assumption.
      rewrite plts_ok by (reflexivity || lia). eats. rewrite pfields_ok by (assumption || lia). reflexivity.
    + unfold braces in L. repeat (rewrite ?app_length in L; cbn [sym word length] in L). norm. cbn [pitem].
      rewrite pattrs_ok by (assumption || reflexivity || lia). rewrite MP. strs. rewrite name_is by assumption.
      rewrite plts_ok by (reflexivity || lia). eats. rewrite pvariants_ok by (assumption || lia). reflexivity.
    + unfold braces in L. repeat (rewrite ?app_length in L; cbn [sym word length] in L). norm. cbn [pitem].
      rewrite pattrs_ok by (assumption || reflexivity || lia). rewrite P1 by reflexivity. strs.
      assert (TL : forall t r, ok_ty t = true -> eat "<" (print_ty t ++ r) = None).
      { intros t0 r G. pose proof (head_ty t0 r G) as K. destruct (print_ty t0 ++ r) as [|[]]; try contradiction; [reflexivity|]. cbn [existsb] in K.
        rewrite !orb_true_iff, !String.eqb_eq in K. decompose [or] K; try discriminate; subst; reflexivity. }
      destruct trait as [tr|].
      * rewrite app_length in L. cbn [word length] in L. norm. rewrite plts_ok by (apply TL || lia; assumption).
        rewrite pty_ok by (assumption || reflexivity || lia). eats. rewrite pty_ok by (assumption || reflexivity || lia). eats.
        rewrite IL by (assumption || (right; eauto) || lia). eats. reflexivity.
      * norm. rewrite plts_ok by (apply TL || lia; assumption).
        rewrite pty_ok by (assumption || reflexivity || lia). eats. 
        rewrite IL by (assumption || (right; eauto) || lia). eats. reflexivity.
    + unfold braces in L. repeat (rewrite ?app_length in L; cbn [sym word length] in L). norm. cbn [pitem]. rewrite PA, MP. strs. rewrite name_is by assumption.
      eats. rewrite IL by (assumption || (right; eauto) || lia). eats. reflexivity.
Qed.

(** the theorem: what is printed is parsed back *)
Theorem parse_print : forall f, ok_file f = true -> parse_file (print_file f) = Some f.
Proof.
  intros [attrs items] H. unfold ok_file, print_file, parse_file in *. cbn [file_attrs file_items] in *. split_and.
  set (n := 100 * S (length (flat_map print_inner attrs ++ flat_map print_item items))).
  assert (N : length (flat_map print_inner attrs) + 1 <= n /\ 20 * length (flat_map print_item items) + 21 <= n).
  { unfold n. rewrite app_length. lia. }
  rewrite pinners_ok; [|assumption| |tauto].
  - pose proof (proj1 (items_parse n) items [] H0 ltac:(auto) (proj2 N)) as E. rewrite app_nil_r in E. rewrite E. reflexivity.
  - destruct items as [|i items]; [now left|]. cbn [flat_map forallb] in *. split_and. pose proof (head_item i (flat_map print_item items) ltac:(assumption)) as K.
    destruct (print_item i ++ flat_map print_item items) as [|[] r] eqn:X; try contradiction; [now left|]. right. subst.
    destruct i as [| |[] ? ? ?|f|attrs' pub n' lts fs|attrs' n' lts vs|attrs' lts trait t items'|]; cbn [print_item] in X; try discriminate.
    + destruct f as [[] ? ? ? ? ? ?]; discriminate.
    + destruct attrs' as [|[a [y|]] attrs']; [destruct pub; discriminate|..]; injection X as <-; eexists; split; reflexivity.
    + destruct attrs' as [|[a [y|]] attrs']; [discriminate|..]; injection X as <-; eexists; split; reflexivity.
    + destruct attrs' as [|[a [y|]] attrs']; [discriminate|..]; injection X as <-; eexists; split; reflexivity.
Qed.
