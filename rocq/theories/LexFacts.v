(** Reading a text token by token: how the lexer of RustLex.v goes through a
    text that is put together from pieces. *)
From Coq Require Import String Ascii Arith Lia Bool ZArith DecimalString DecimalZ Decimal.
From Verif Require Import Base Schema Keywords Modules Output GenText.
From Verif Require Import RustLex RustAst RustParseFacts.
Import Schema StringSyntax.
Local Open Scope string_scope.
Local Open Scope list_scope.

Definition lexed (st : lstate) (s : text) (ts : list token) (st' : lstate) : Prop := scan st s = (ts, st').

Lemma str_app_assoc : forall a b e : text, ((a ++ b) ++ e)%string = (a ++ b ++ e)%string.
Proof. induction a as [|x a IH]; intros; cbn; [reflexivity|now rewrite IH]. Qed.
Lemma str_app_nil : forall a : text, (a ++ "")%string = a.
Proof. induction a as [|x a IH]; cbn; [reflexivity|now rewrite IH]. Qed.
Lemma lexed_app : forall st s r t1 st1 t2 st2,
  lexed st s t1 st1 -> lexed st1 r t2 st2 -> lexed st (s ++ r)%string (t1 ++ t2) st2.
Proof.
  unfold lexed. intros st s. revert st. induction s as [|a s IH]; intros st r t1 st1 t2 st2 H1 H2; cbn [append scan] in *.
  - injection H1 as <- <-. exact H2.
  - destruct (step st a) as [t s1]. destruct (scan s1 s) as [ts s2] eqn:E. injection H1 as <- <-.
    rewrite (IH _ _ _ _ _ _ E H2). now rewrite app_assoc.
Qed.
Lemma lexed_nil : lexed LNone "" [] LNone.
Proof. reflexivity. Qed.

(** ** Pieces *)

(** the first character of a text *)
Definition starts (C : ascii -> bool) (s : text) : bool := match s with String a _ => C a | EmptyString => false end.
(** [h] is these tokens, if a character in [C] follows *)
Definition piece (C : ascii -> bool) (h : text) (ts : list token) : Prop :=
  exists t st, scan LNone h = (t, st) /\ t ++ flush st = ts /\ forall a, C a = true -> step st a = (flush st, start a).
(** [h] does not stick to the symbol [b] *)
Definition soft (b : ascii) (h : text) : Prop := exists a r, h = String a r /\ step (LSym b) a = ([TSym (String b "")], start a).

Definition closer (a : ascii) : bool := existsb (Ascii.eqb a) [" "; ","; ";"; ")"; ">"; "?"; "}"; "("; "]"; "010"]%char.
Definition word_closer (a : ascii) : bool := closer a || existsb (Ascii.eqb a) ["."; ":"; "<"]%char.

Lemma piece_weaken : forall (C C' : ascii -> bool) h ts, (forall a, C' a = true -> C a = true) -> piece C h ts -> piece C' h ts.
Proof. intros C C' h ts I (t & st & A & B & D). exists t, st. repeat split; auto. Qed.
Lemma piece_closer : forall h ts, piece word_closer h ts -> piece closer h ts.
Proof. intros h ts. apply piece_weaken. unfold word_closer. intros a ->. reflexivity. Qed.

Lemma lexed_after : forall C st a r t2 st2, C a = true -> step st a = (flush st, start a) ->
  lexed LNone (String a r) t2 st2 -> lexed st (String a r) (flush st ++ t2) st2.
Proof.
  unfold lexed. intros C st a r t2 st2 _ S H. cbn [scan] in *. cbn [step] in H. rewrite S.
  destruct (scan (start a) r) as [ts s2]. injection H as <- <-. reflexivity.
Qed.
Lemma lexed_piece : forall C h ts r t2 st2, piece C h ts -> starts C r = true -> lexed LNone r t2 st2 ->
  lexed LNone (h ++ r)%string (ts ++ t2) st2.
Proof.
  intros C h ts [|a r] t2 st2 (t & st & A & <- & D) S H; [discriminate|]. cbn [starts] in S.
  rewrite <- app_assoc. eapply lexed_app; [exact A|]. eapply lexed_after; eauto.
Qed.
Lemma lexed_sym : forall b h r t2 st2, soft b h -> lexed LNone (h ++ r)%string t2 st2 -> lexed (LSym b) (h ++ r)%string (TSym (String b "") :: t2) st2.
Proof.
  unfold lexed. intros b h r t2 st2 (a & s & -> & S) H. cbn [append scan] in *. rewrite S. cbn [step] in H.
  destruct (scan (start a) (s ++ r)%string) as [ts s2]. injection H as <- <-. reflexivity.
Qed.
Lemma soft_app : forall b h r, soft b h -> soft b (h ++ r)%string.
Proof. intros b h r (a & s & -> & S). exists a, (s ++ r)%string. split; [reflexivity|exact S]. Qed.

(** ** Pieces made of others *)
Lemma piece_lexed : forall C h t st, lexed LNone h t st -> (forall a, C a = true -> step st a = (flush st, start a)) -> piece C h (t ++ flush st).
Proof. intros C h t st A D. exists t, st. auto. Qed.
Lemma piece_app : forall C s t h ts, lexed LNone s t LNone -> piece C h ts -> piece C (s ++ h)%string (t ++ ts).
Proof.
  intros C s t h ts H (t' & st & A & <- & D). exists (t ++ t'), st. split; [exact (lexed_app _ _ _ _ _ _ _ H A)|]. split; [now rewrite app_assoc|exact D].
Qed.
Lemma piece_after : forall C b h r ts, soft b h -> piece C (h ++ r)%string ts ->
  exists t st, scan (LSym b) (h ++ r)%string = (t, st) /\ t ++ flush st = TSym (String b "") :: ts /\ forall a, C a = true -> step st a = (flush st, start a).
Proof.
  intros C b h r ts So (t & st & A & <- & D). exists (TSym (String b "") :: t), st. split; [|split; [reflexivity|exact D]].
  exact (lexed_sym b h r t st So A).
Qed.
Lemma piece_nil : forall C, piece C "" [].
Proof. intros C. exists [], LNone. repeat split. Qed.

(** ** Words *)
Fixpoint all_chars (P : ascii -> bool) (s : text) : bool :=
  match s with EmptyString => true | String a s' => P a && all_chars P s' end.
Definition ident (s : text) : bool := match s with String a s' => is_start a && all_chars is_word s' | EmptyString => false end.
Lemma all_chars_app : forall P a b, all_chars P (a ++ b)%string = all_chars P a && all_chars P b.
Proof. induction a as [|x a IH]; intros b; cbn; [reflexivity|]. now rewrite IH, andb_assoc. Qed.
Lemma ident_word : forall s, ident s = true -> all_chars is_word s = true.
Proof. intros [|a s] H; [discriminate|]. cbn in *. apply andb_true_iff in H. destruct H as [A ->]. unfold is_word. now rewrite A. Qed.
Lemma snoc_app : forall w a s, (snoc w a ++ s)%string = (w ++ String a s)%string.
Proof. intros. unfold snoc. rewrite str_app_assoc. reflexivity. Qed.
Lemma scan_word : forall h w, all_chars is_word h = true -> scan (LWord w) h = ([], LWord (w ++ h)%string).
Proof.
  induction h as [|a h IH]; intros w H; cbn [scan all_chars] in *; [now rewrite str_app_nil|].
  apply andb_true_iff in H. destruct H as [A H]. cbn [step]. rewrite A, (IH _ H). cbn [app]. now rewrite snoc_app.
Qed.
(** facts about all characters are checked one by one *)
Ltac every_char a := destruct a as [[] [] [] [] [] [] [] []]; try reflexivity; try discriminate.
Lemma start_not_blank : forall a, is_start a = true -> start a = LWord (String a "").
Proof. intros a H. every_char a. Qed.
Lemma scan_ident : forall h, ident h = true -> scan LNone h = ([], LWord h).
Proof.
  intros [|a h] H; [discriminate|]. cbn [ident] in H. apply andb_true_iff in H. destruct H as [A H].
  cbn [scan step]. rewrite (start_not_blank _ A). now rewrite (scan_word h _ H).
Qed.
Lemma not_glued : forall a b, is_word a = true -> glued b a = false.
Proof.
  intros a b H. destruct (glued b a) eqn:E; [|reflexivity]. unfold glued in E. apply existsb_exists in E. destruct E as (p & I & E).
  apply String.eqb_eq in E. subst p.
  repeat (destruct I as [I|I]; [injection I as <- <-; discriminate|]). destruct I.
Qed.
Lemma start_is_word : forall a, is_start a = true -> is_word a = true.
Proof. intros a H. unfold is_word. now rewrite H. Qed.
Lemma num_is_word : forall a, is_num a = true -> is_word a = true.
Proof. intros a H. unfold is_word. now rewrite H, orb_true_r. Qed.
Lemma soft_start : forall a, is_start a = true -> forall b, b <> "/"%char -> step (LSym b) a = ([TSym (String b "")], start a).
Proof.
  intros a H b N. cbn [step]. destruct (Ascii.eqb_spec b "/") as [E|_]; [contradiction|]. cbn [andb].
  now rewrite (not_glued a b (start_is_word a H)).
Qed.
Lemma soft_ident : forall b h, b <> "/"%char -> ident h = true -> soft b h.
Proof.
  intros b [|a h] N H; [discriminate|]. cbn in H. apply andb_true_iff in H. destruct H as [A _]. exists a, h. split; [reflexivity|].
  now apply soft_start.
Qed.
Definition boundary (a : ascii) : bool := negb (is_word a) && negb (Ascii.eqb a quote) && negb (Ascii.eqb a "'") && negb (Ascii.eqb a "#").
Lemma word_boundary : forall w a, boundary a = true -> step (LWord w) a = ([TWord w], start a).
Proof.
  intros w a H. unfold boundary in H. rewrite !andb_true_iff, !negb_true_iff in H. destruct H as [[[A B] D] F].
  cbn [step]. now rewrite A, B, D, F.
Qed.
Lemma lexed_flush : forall w r t st, starts boundary r = true -> lexed LNone r t st -> lexed (LWord w) r (TWord w :: t) st.
Proof.
  intros w [|a r] t st S H; [discriminate|]. cbn [starts] in S. exact (lexed_after boundary (LWord w) a r t st S (word_boundary w a S) H).
Qed.
(** a word after a word *)
Lemma lexed_word : forall w h r t st, all_chars is_word h = true -> lexed (LWord (w ++ h)%string) r t st -> lexed (LWord w) (h ++ r)%string t st.
Proof. intros w h r t st A H. rewrite <- (app_nil_l t). eapply lexed_app; [exact (scan_word h w A)|exact H]. Qed.
Lemma lexed_ident : forall h r t st, ident h = true -> lexed (LWord h) r t st -> lexed LNone (h ++ r)%string t st.
Proof. intros h r t st A H. rewrite <- (app_nil_l t). eapply lexed_app; [exact (scan_ident h A)|exact H]. Qed.
Lemma closer_boundary : forall a, word_closer a = true -> boundary a = true.
Proof. intros a H. every_char a. Qed.
Lemma piece_ident : forall h, ident h = true -> piece word_closer h [TWord h].
Proof.
  intros h H. exists [], (LWord h). split; [exact (scan_ident h H)|]. split; [reflexivity|].
  intros a A. apply word_boundary, closer_boundary, A.
Qed.

(** ** Paths *)
Fixpoint path_text (l : list text) : text :=
  match l with
  | [] => ""
  | x :: l' => match l' with [] => x | _ => (x ++ "::" ++ path_text l')%string end
  end.
Lemma piece_path : forall l, l <> [] -> forallb ident l = true -> piece word_closer (path_text l) (print_names l).
Proof.
  induction l as [|x l IH]; intros N H; [contradiction|]. cbn [forallb] in H. apply andb_true_iff in H. destruct H as [A H].
  destruct l as [|y l]; [exact (piece_ident x A)|].
  change (path_text (x :: y :: l)) with (x ++ "::" ++ path_text (y :: l))%string.
  change (print_names (x :: y :: l)) with ([TWord x] ++ [TSym "::"] ++ print_names (y :: l)).
  rewrite <- str_app_assoc, app_assoc. eapply piece_app; [|apply IH; [discriminate|exact H]].
  eapply (lexed_piece word_closer); [exact (piece_ident x A)|reflexivity|reflexivity].
Qed.
Lemma soft_path : forall b l, b <> "/"%char -> l <> [] -> forallb ident l = true -> soft b (path_text l).
Proof.
  intros b [|x l] N E H; [contradiction|]. cbn [forallb] in H. apply andb_true_iff in H. destruct H as [A _].
  destruct l; [now apply soft_ident|]. cbn [path_text]. apply soft_app. now apply soft_ident.
Qed.

(** ** Numbers *)
Definition digit_ok (s : text) : bool := match s with String a s' => is_num a && all_chars is_num s' | EmptyString => false end.
Lemma scan_num : forall h w, all_chars is_num h = true -> scan (LNum w) h = ([], LNum (w ++ h)%string).
Proof.
  induction h as [|a h IH]; intros w H; cbn [scan all_chars] in *; [now rewrite str_app_nil|].
  apply andb_true_iff in H. destruct H as [A H]. cbn [step]. unfold is_word. rewrite A, orb_true_r, (IH _ H). cbn [app]. now rewrite snoc_app.
Qed.
Lemma start_num : forall a, is_num a = true -> start a = LNum (String a "").
Proof. intros a H. every_char a. Qed.
Lemma num_closer : forall n a, closer a = true -> step (LNum n) a = ([TNum n], start a).
Proof.
  intros n a H. cbn [step].
  assert (E : is_word a = false /\ Ascii.eqb a "." = false /\ (Ascii.eqb a "-" || Ascii.eqb a "+") = false).
  { every_char a; repeat split; reflexivity. }
  destruct E as (-> & -> & ->). reflexivity.
Qed.
Lemma piece_num : forall n, digit_ok n = true -> piece closer n [TNum n].
Proof.
  intros n H. exists [], (LNum n). split; [|split; [reflexivity|intros a A; now apply num_closer]].
  destruct n as [|a n]; [discriminate|]. cbn in H. apply andb_true_iff in H. destruct H as [A H].
  cbn [scan step]. rewrite (start_num _ A), (scan_num _ _ H). reflexivity.
Qed.
Lemma soft_num : forall b n, b <> "/"%char -> digit_ok n = true -> soft b n.
Proof.
  intros b [|a n] N H; [discriminate|]. cbn in H. apply andb_true_iff in H. destruct H as [A _]. exists a, n. split; [reflexivity|].
  cbn [step]. destruct (Ascii.eqb_spec b "/") as [E|_]; [contradiction|]. cbn [andb].
  now rewrite (not_glued a b (num_is_word a A)).
Qed.

Lemma digits_all : forall u, all_chars is_num (NilEmpty.string_of_uint u) = true.
Proof. induction u; cbn; auto. Qed.
Lemma digits_ok : forall u, digit_ok (NilZero.string_of_uint u) = true.
Proof. intros []; cbn; try reflexivity; apply digits_all. Qed.
Lemma show_nonneg : forall z, (0 <= z)%Z -> digit_ok (show z) = true.
Proof.
  intros z H. unfold show. destruct z as [|p|p]; cbn [Z.to_int]; [reflexivity| |lia].
  cbn [NilZero.string_of_int]. apply digits_ok.
Qed.
Lemma show_neg : forall z, (z < 0)%Z -> show z = String "-" (show (Z.abs z)).
Proof. intros z H. destruct z as [|p|p]; try lia. reflexivity. Qed.
Definition num_tokens (z : Z) : list token := if (z <? 0)%Z then [TSym "-"; TNum (show (Z.abs z))] else [TNum (show (Z.abs z))].
Lemma piece_show : forall z, piece closer (show z) (num_tokens z).
Proof.
  intros z. unfold num_tokens. destruct (Z.ltb_spec z 0) as [N|N].
  - rewrite (show_neg z N). assert (D : digit_ok (show (Z.abs z)) = true) by (apply show_nonneg; lia).
    destruct (piece_after closer "-" (show (Z.abs z)) "" [TNum (show (Z.abs z))]) as (t & st & A & B & C).
    { apply soft_num; [discriminate|exact D]. }
    { rewrite str_app_nil. now apply piece_num. }
    rewrite str_app_nil in A. exists t, st. split; [|split; [exact B|exact C]].
    change (scan LNone (String "-" (show (Z.abs z)))) with (let '(ts, s2) := scan (LSym "-") (show (Z.abs z)) in (ts, s2)). rewrite A. reflexivity.
  - rewrite Z.abs_eq by lia. apply piece_num, show_nonneg. lia.
Qed.
Lemma piece_nat : forall z, (0 <= z)%Z -> piece closer (show z) [TNum (show z)].
Proof. intros z H. apply piece_num, show_nonneg, H. Qed.

(** ** Strings *)
(** no quote, backslash *)
Definition plain_char (a : ascii) : bool := negb (Ascii.eqb a quote) && negb (Ascii.eqb a "\").
Lemma scan_str : forall k s w, all_chars plain_char s = true -> scan (LStr k w) s = ([], LStr k (w ++ s)%string).
Proof.
  induction s as [|a s IH]; intros w H; cbn [scan all_chars] in *; [now rewrite str_app_nil|].
  apply andb_true_iff in H. destruct H as [A H]. unfold plain_char in A. rewrite andb_true_iff, !negb_true_iff in A. destruct A as [A B].
  cbn [step]. rewrite A, B, (IH _ H). cbn [app]. now rewrite snoc_app.
Qed.
Lemma lexed_str : forall k w h r t st, all_chars plain_char h = true -> lexed (LStr k (w ++ h)%string) r t st -> lexed (LStr k w) (h ++ r)%string t st.
Proof. intros k w h r t st A H. rewrite <- (app_nil_l t). eapply lexed_app; [exact (scan_str k h w A)|exact H]. Qed.
Lemma word_plain : forall s, all_chars is_word s = true -> all_chars plain_char s = true.
Proof.
  induction s as [|a s IH]; cbn; [reflexivity|]. rewrite !andb_true_iff. intros [A B]. split; [|auto]. every_char a.
Qed.

(** ** Comments *)
Definition not_newline (a : ascii) : bool := negb (Ascii.eqb a "010").
Lemma lexed_comment : forall h r t st, all_chars not_newline h = true -> lexed LComment r t st -> lexed LComment (h ++ r)%string t st.
Proof.
  intros h r t st A H. rewrite <- (app_nil_l t). eapply lexed_app; [|exact H]. unfold lexed. clear H. induction h as [|a h IH]; [reflexivity|].
  cbn [all_chars] in A. apply andb_true_iff in A. destruct A as [A B]. cbn [scan step]. unfold not_newline in A. apply negb_true_iff in A.
  rewrite A, (IH B). reflexivity.
Qed.
