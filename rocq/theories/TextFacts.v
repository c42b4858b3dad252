(** The parser of Parser.v on the texts of ProtoText.v. *)
From Coq Require Import String Ascii Arith Lia.
From Verif Require Import Base Schema Modules Parser ParserFacts ProtoText.
Import StringSyntax.
Local Open Scope string_scope.
Local Open Scope list_scope.

(* ---- characters ---- *)

(** the first character, if any, satisfies [P] *)
Definition head (P : ascii -> Prop) (s : text) : Prop :=
  match s with EmptyString => True | String c _ => P c end.

Definition solid_char (c : ascii) : Prop := ~ blank_char c /\ c <> "/"%char.
Definition name_char (c : ascii) : Prop := word_char c \/ c = "."%char.

Lemma between_iff : forall a b c, between a b c = true <-> (a <= nat_of_ascii c <= b)%nat.
Proof.
  intros a b c. unfold between, code. rewrite andb_true_iff, !Nat.leb_le. lia.
Qed.

Lemma is_alpha_iff : forall c, is_alpha c = true <-> letter_char c.
Proof.
  intro c. unfold is_alpha, letter_char. rewrite orb_true_iff, !between_iff. lia.
Qed.

Lemma is_digit_iff : forall c, is_digit c = true <-> digit_char c.
Proof. intro c. apply between_iff. Qed.

Lemma is_alphanumeric_iff : forall c,
  is_alphanumeric c = true <-> letter_char c \/ digit_char c.
Proof.
  intro c. unfold is_alphanumeric, letter_char, digit_char.
  rewrite !orb_true_iff, !andb_true_iff, !Nat.leb_le. lia.
Qed.

Lemma is_multispace_iff : forall c, is_multispace c = true <-> blank_char c.
Proof.
  intro c. unfold is_multispace, blank_char, code. cbn [In].
  rewrite !orb_true_iff, !Nat.eqb_eq. lia.
Qed.

Lemma is_whitespace_iff : forall c, is_whitespace c = true <-> trimmed_char c.
Proof.
  intro c. unfold is_whitespace, trimmed_char.
  rewrite orb_true_iff, between_iff. unfold code. rewrite Nat.eqb_eq. reflexivity.
Qed.

Lemma code_eq : forall c d, nat_of_ascii c = nat_of_ascii d -> c = d.
Proof.
  intros c d H. rewrite <- (ascii_nat_embedding c), <- (ascii_nat_embedding d). now f_equal.
Qed.

(** two characters with different codes *)
Ltac char_neq :=
  let E := fresh in intro E; apply (f_equal nat_of_ascii) in E;
  repeat match type of E with context [nat_of_ascii (Ascii ?a ?b ?c ?d ?e ?f ?g ?h)] =>
    let v := eval compute in (nat_of_ascii (Ascii a b c d e f g h)) in
    change (nat_of_ascii (Ascii a b c d e f g h)) with v in E end;
  lia.

Lemma us_code : forall c, c = "_"%char <-> nat_of_ascii c = 95%nat.
Proof. intro c. split; [now intros ->|]. intro H. now apply code_eq. Qed.
Lemma dot_code : forall c, c = "."%char <-> nat_of_ascii c = 46%nat.
Proof. intro c. split; [now intros ->|]. intro H. now apply code_eq. Qed.
Lemma slash_code : forall c, c = "/"%char <-> nat_of_ascii c = 47%nat.
Proof. intro c. split; [now intros ->|]. intro H. now apply code_eq. Qed.

Ltac chars :=
  unfold name_char, solid_char, word_char, start_char, letter_char, digit_char, blank_char in *;
  cbn [In] in *;
  rewrite ?us_code, ?dot_code, ?slash_code in *.

Lemma name_solid : forall c, name_char c -> solid_char c.
Proof. intros c H. chars. lia. Qed.

Lemma start_word : forall c, start_char c -> word_char c.
Proof. intros c H. now left. Qed.

(* ---- tag, take_until ---- *)

Lemma prefix_app : forall t s, String.prefix t (t ++ s)%string = true.
Proof.
  induction t as [|c t IH]; intro s; [destruct s; reflexivity|]. cbn.
  destruct (ascii_dec c c); [apply IH|congruence].
Qed.

Lemma prefix_true : forall t s, String.prefix t s = true -> exists b, s = (t ++ b)%string.
Proof.
  induction t as [|c t IH]; intros s H; [now exists s|].
  destruct s as [|d s]; [discriminate|]. cbn in H.
  destruct (ascii_dec c d) as [->|]; [|discriminate].
  destruct (IH s H) as [b ->]. now exists b.
Qed.

Lemma drop_app : forall t s, drop (slen t) (t ++ s)%string = s.
Proof. induction t as [|c t IH]; intro s; cbn; [reflexivity|apply IH]. Qed.

Lemma take_app : forall t s, take (slen t) (t ++ s)%string = t.
Proof. induction t as [|c t IH]; intro s; cbn; [now destruct s|]. now rewrite IH. Qed.

Lemma tag_ok : forall t s, tag t (t ++ s)%string = POk s t.
Proof. intros t s. unfold tag. now rewrite prefix_app, drop_app. Qed.

Lemma prefix_cons : forall c t d s,
  String.prefix (String c t) (String d s) = true <-> c = d /\ String.prefix t s = true.
Proof.
  intros c t d s. cbn. destruct (ascii_dec c d) as [->|N]; [tauto|].
  split; [discriminate|]. intros [E _]. congruence.
Qed.

(** [tag] fails when the first characters differ *)
Lemma tag_head : forall c t s, head (fun d => d <> c) s -> tag (String c t) s = PErr.
Proof.
  intros c t [|d s] H; [reflexivity|]. unfold tag.
  destruct (String.prefix (String c t) (String d s)) eqn:E; [|reflexivity].
  apply prefix_cons in E. destruct E as [-> _]. now elim H.
Qed.

Lemma find_str_char : forall c t s, ~ occurs (String c "") t ->
  find_str (String c "") (t ++ String c s)%string = Some (slen t).
Proof.
  induction t as [|d t IH]; intros s H.
  - cbn. destruct (ascii_dec c c); [destruct s; reflexivity|congruence].
  - change ((String d t ++ String c s)%string) with (String d (t ++ String c s)%string).
    cbn [find_str].
    destruct (String.prefix (String c "") (String d (t ++ String c s)%string)) eqn:E.
    + apply prefix_cons in E. destruct E as [-> _]. elim H. exists "", t. reflexivity.
    + rewrite IH; [reflexivity|]. intros [a [b ->]]. apply H. now exists (String d a), b.
Qed.

Lemma find_str_two : forall c1 c2 t s, c1 <> c2 -> ~ occurs (String c1 (String c2 "")) t ->
  find_str (String c1 (String c2 "")) (t ++ String c1 (String c2 s))%string = Some (slen t).
Proof.
  induction t as [|d t IH]; intros s N H.
  - cbn. destruct (ascii_dec c1 c1); [|congruence]. destruct (ascii_dec c2 c2); [|congruence].
    destruct s; reflexivity.
  - change ((String d t ++ String c1 (String c2 s))%string)
      with (String d (t ++ String c1 (String c2 s))%string).
    cbn [find_str].
    destruct (String.prefix (String c1 (String c2 "")) (String d (t ++ String c1 (String c2 s))%string)) eqn:E.
    + apply prefix_cons in E. destruct E as [-> E].
      destruct t as [|e t].
      * cbn [append] in E. apply prefix_cons in E. destruct E as [E _]. congruence.
      * cbn [append] in E. apply prefix_cons in E. destruct E as [-> _].
        elim H. exists "", t. reflexivity.
    + rewrite IH; [reflexivity|exact N|]. intros [a [b ->]]. apply H. now exists (String d a), b.
Qed.

Lemma take_until_char : forall c t s, ~ occurs (String c "") t ->
  take_until (String c "") (t ++ String c "" ++ s)%string = POk (String c "" ++ s)%string t.
Proof.
  intros c t s H. change (String c "" ++ s)%string with (String c s). unfold take_until. rewrite find_str_char by exact H.
  now rewrite drop_app, take_app.
Qed.

Lemma take_until_two : forall c1 c2 t s, c1 <> c2 -> ~ occurs (String c1 (String c2 "")) t ->
  take_until (String c1 (String c2 "")) (t ++ String c1 (String c2 "") ++ s)%string
  = POk (String c1 (String c2 "") ++ s)%string t.
Proof.
  intros c1 c2 t s N H.
  change (String c1 (String c2 "") ++ s)%string with (String c1 (String c2 s)). unfold take_until. rewrite find_str_two by assumption.
  now rewrite drop_app, take_app.
Qed.

Lemma slice_app : forall t s, slice 0 (slen (t ++ s)%string - slen s) (t ++ s)%string = t.
Proof.
  intros t s. unfold slice. rewrite slen_append.
  replace (slen t + slen s - slen s - 0)%nat with (slen t) by lia.
  induction t as [|c t IH]; cbn; [now destruct s|]. now rewrite IH.
Qed.

Lemma recognize_ok : forall A (p : parser A) t s a,
  p (t ++ s)%string = POk s a -> recognize p (t ++ s)%string = POk s t.
Proof. intros A p t s a H. unfold recognize. rewrite H. now rewrite slice_app. Qed.

(* ---- classes of characters ---- *)

Lemma span_all : forall (f : ascii -> bool) t s,
  all (fun c => f c = true) t -> head (fun c => f c = false) s ->
  span f (t ++ s)%string = (t, s).
Proof.
  intros f t s H Hs. induction H as [|c t Hc _ IH].
  - destruct s as [|d s]; [reflexivity|]. cbn [append span]. cbn [head] in Hs. now rewrite Hs.
  - cbn [append span]. now rewrite Hc, IH.
Qed.

Lemma span_head : forall (f : ascii -> bool) s, head (fun c => f c = false) s -> span f s = ("", s).
Proof. intros f s H. exact (span_all f "" s (all_nil _) H). Qed.

Lemma all_impl : forall (P Q : ascii -> Prop) t, (forall c, P c -> Q c) -> all P t -> all Q t.
Proof. intros P Q t H A. induction A; constructor; auto. Qed.

Lemma all_app : forall P a b, all P a -> all P b -> all P (a ++ b)%string.
Proof. intros P a b Ha Hb. induction Ha; cbn; [exact Hb|]. now constructor. Qed.

Lemma head_impl : forall (P Q : ascii -> Prop) s, (forall c, P c -> Q c) -> head P s -> head Q s.
Proof. intros P Q [|c s] H A; [exact I|]. now apply H. Qed.

Lemma head_app : forall P t s, t <> "" -> head P t -> head P (t ++ s)%string.
Proof. intros P [|c t] s N H; [congruence|exact H]. Qed.

Lemma chars1_ok : forall f t s, t <> "" -> all (fun c => f c = true) t ->
  head (fun c => f c = false) s -> chars1 f (t ++ s)%string = POk s t.
Proof.
  intros f t s N H Hs. unfold chars1. rewrite span_all by assumption.
  destruct t; [congruence|reflexivity].
Qed.

Lemma chars1_err : forall f s, head (fun c => f c = false) s -> chars1 f s = PErr.
Proof. intros f s H. unfold chars1. now rewrite span_head. Qed.

Lemma not_true_false : forall b, b <> true -> b = false.
Proof. intros [|] H; congruence. Qed.

(* ---- gaps ---- *)

Definition solid : text -> Prop := head solid_char.

Definition br_unit : parser unit := alt [pvalue tt multispace1; comment; block_comment].

Lemma unit_fail : forall s, solid s -> br_unit s = PErr.
Proof.
  intros s H. unfold br_unit. cbn [alt]. unfold pvalue, pmap at 1, pbind at 1, multispace1.
  rewrite chars1_err.
  2: { eapply head_impl; [|exact H]. intros c [Hb _]. apply not_true_false.
       now rewrite is_multispace_iff. }
  assert (Hs : head (fun d => d <> "/"%char) s).
  { eapply head_impl; [|exact H]. now intros c [_ Hc]. }
  unfold comment, block_comment, pvalue, pmap, pair, pbind.
  now rewrite !tag_head by exact Hs.
Qed.

Lemma gap_span : forall g s, gap g -> solid s ->
  exists w g', g = (w ++ g')%string /\ span is_multispace (g ++ s)%string = (w, (g' ++ s)%string)
    /\ gap g' /\ (head blank_char g -> g <> "" -> w <> "").
Proof.
  intros g s Hg Hs. induction Hg as [|c g Hc Hg IH|t g Ht Hg IH|t g Ht Hg IH].
  - exists "", "". split; [reflexivity|]. split; [|split; [constructor|congruence]].
    apply span_head. eapply head_impl; [|exact Hs]. intros c [Hb _]. apply not_true_false.
    now rewrite is_multispace_iff.
  - destruct IH as [w [g' [E1 [E2 [E3 _]]]]]. exists (String c w), g'.
    split; [cbn; now rewrite E1 at 1|]. split; [|split; [exact E3|discriminate]].
    cbn [append span]. rewrite (proj2 (is_multispace_iff c) Hc). now rewrite E2.
  - exists "", ("//" ++ t ++ line_feed ++ g)%string. split; [reflexivity|].
    split; [reflexivity|]. split; [now constructor|]. intro H. exfalso.
    cbn in H. unfold blank_char in H. cbn in H. lia.
  - exists "", ("/*" ++ t ++ "*/" ++ g)%string. split; [reflexivity|].
    split; [reflexivity|]. split; [now constructor|]. intro H. exfalso.
    cbn in H. unfold blank_char in H. cbn in H. lia.
Qed.

Lemma blank_lf : blank_char (ascii_of_nat 10).
Proof. unfold blank_char. cbn. tauto. Qed.

Lemma append_eq_nil : forall a b : text, (a ++ b)%string = "" -> a = "" /\ b = "".
Proof. intros [|c a] b H; cbn in H; [now split|discriminate]. Qed.

Lemma unit_step : forall g s, gap g -> g <> "" -> solid s ->
  exists g', gap g' /\ (slen g' < slen g)%nat
    /\ br_unit (g ++ s)%string = POk (g' ++ s)%string tt.
Proof.
  intros g s Hg N Hs. inversion Hg as [E|c g0 Hc Hg0 E|t g0 Ht Hg0 E|t g0 Ht Hg0 E].
  - congruence.
  - destruct (gap_span g s Hg Hs) as [w [g' [E1 [E2 [E3 E4]]]]].
    exists g'. assert (w <> "") as Nw. { apply E4; [|exact N]. rewrite <- E. exact Hc. }
    split; [exact E3|]. split.
    { rewrite E, E1, slen_append. destruct w; [congruence|]. cbn. lia. }
    rewrite E. unfold br_unit. cbn [alt]. unfold pvalue, pmap at 1, pbind at 1, multispace1, chars1.
    rewrite E2. destruct w; [congruence|reflexivity].
  - exists (String (ascii_of_nat 10) g0). split; [constructor; [apply blank_lf|exact Hg0]|].
    split. { cbn. rewrite slen_append. cbn. lia. }
    unfold br_unit. cbn [alt].
    replace (pvalue tt multispace1 (("//" ++ t ++ line_feed ++ g0) ++ s)%string) with (@PErr unit)
      by reflexivity.
    unfold comment, pvalue, pmap, pair, pbind.
    rewrite !append_assoc. rewrite tag_ok. unfold not_line_ending.
    rewrite span_all.
    + reflexivity.
    + eapply all_impl; [|exact Ht]. intros c [H1 H2]. unfold code.
      apply Nat.eqb_neq in H1, H2. now rewrite H1, H2.
    + reflexivity.
  - exists g0. split; [exact Hg0|]. split. { cbn. rewrite slen_append. cbn. lia. }
    unfold br_unit. cbn [alt].
    replace (pvalue tt multispace1 (("/*" ++ t ++ "*/" ++ g0) ++ s)%string) with (@PErr unit)
      by reflexivity.
    replace (comment (("/*" ++ t ++ "*/" ++ g0) ++ s)%string) with (@PErr unit) by reflexivity.
    unfold block_comment, pvalue, pmap, pair, pbind.
    rewrite !append_assoc. rewrite tag_ok.
    rewrite (take_until_two "*" "/" t (g0 ++ s)%string); [|discriminate|exact Ht].
    now rewrite tag_ok.
Qed.

Lemma units_gap : forall n g s, (slen g <= n)%nat -> gap g -> solid s ->
  exists l, many0 br_unit (g ++ s)%string = POk s l.
Proof.
  induction n as [|n IH]; intros g s L Hg Hs.
  - destruct g; [|cbn in L; lia]. exists []. rewrite many0_eq. cbn [append].
    now rewrite unit_fail.
  - destruct (string_dec g "") as [->|N].
    + exists []. rewrite many0_eq. cbn [append]. now rewrite unit_fail.
    + destruct (unit_step g s Hg N Hs) as [g' [Hg' [L' E]]].
      destruct (IH g' s) as [l El]; [lia|exact Hg'|exact Hs|].
      exists (tt :: l). rewrite many0_eq, E, El.
      replace (slen (g' ++ s)%string <? slen (g ++ s)%string)%nat with true; [reflexivity|].
      symmetry. apply Nat.ltb_lt. rewrite !slen_append. lia.
Qed.

Lemma br_gap : forall g s, break g -> solid s -> br (g ++ s)%string = POk s tt.
Proof.
  intros g s [Hg N] Hs. destruct (unit_step g s Hg N Hs) as [g' [Hg' [L' E]]].
  destruct (units_gap (slen g') g' s (le_n _) Hg' Hs) as [l El].
  unfold br. change (alt [pvalue tt multispace1; comment; block_comment]) with br_unit.
  unfold pvalue, many1, pmap, pbind. now rewrite E, El.
Qed.

Lemma br_fail : forall s, solid s -> br s = PErr.
Proof.
  intros s H. unfold br. change (alt [pvalue tt multispace1; comment; block_comment]) with br_unit.
  unfold pvalue, many1, pmap, pbind. now rewrite unit_fail.
Qed.

Definition gapv (g : text) : list unit := match g with EmptyString => [] | _ => [tt] end.

Lemma br0_solid : forall s, solid s -> many0 br s = POk s [].
Proof. intros s H. rewrite many0_eq. now rewrite br_fail. Qed.

Lemma br0 : forall g s, gap g -> solid s -> many0 br (g ++ s)%string = POk s (gapv g).
Proof.
  intros g s Hg Hs. destruct g as [|c g]; [now apply br0_solid|].
  rewrite many0_eq, br_gap by (try split; try assumption; discriminate).
  rewrite br0_solid by exact Hs.
  replace (slen s <? slen (String c g ++ s)%string)%nat with true; [reflexivity|].
  symmetry. apply Nat.ltb_lt. rewrite slen_append. cbn. lia.
Qed.

Lemma br1 : forall g s, break g -> solid s -> many1 br (g ++ s)%string = POk s [tt].
Proof.
  intros g s Hg Hs. unfold many1, pmap, pbind. rewrite br_gap by assumption.
  now rewrite br0_solid.
Qed.

Lemma br1_fail : forall s, solid s -> many1 br s = PErr.
Proof. intros s H. unfold many1, pbind. now rewrite br_fail. Qed.

(** what may come first in a gap followed by [s] *)
Lemma gap_head : forall (P : ascii -> Prop) g s, gap g ->
  (forall c, blank_char c -> P c) -> P "/"%char -> head P s -> head P (g ++ s)%string.
Proof.
  intros P g s Hg Hb Hc Hs. destruct Hg; cbn; auto.
Qed.

(* ---- names ---- *)

Definition stop : text -> Prop := head (fun c => ~ word_char c).
Definition stop_name : text -> Prop := head (fun c => ~ name_char c).

Lemma stop_gap : forall g s, gap g -> stop s -> stop (g ++ s)%string.
Proof.
  intros g s Hg Hs. apply gap_head; [exact Hg| | |exact Hs]; intros; chars; cbn; lia.
Qed.

Lemma stop_name_gap : forall g s, gap g -> stop_name s -> stop_name (g ++ s)%string.
Proof.
  intros g s Hg Hs. apply gap_head; [exact Hg| | |exact Hs]; intros; chars; cbn; lia.
Qed.

Lemma stop_name_stop : forall s, stop_name s -> stop s.
Proof. intros s H. eapply head_impl; [|exact H]. intros c N W. apply N. now left. Qed.

Definition word_piece : parser text := alt [alphanumeric1; tag "_"].

Lemma word_piece_fail : forall s, stop s -> word_piece s = PErr.
Proof.
  intros s H. unfold word_piece. cbn [alt]. unfold alphanumeric1. rewrite chars1_err.
  - rewrite tag_head; [reflexivity|]. eapply head_impl; [|exact H].
    intros c N ->. apply N. chars. cbn. lia.
  - eapply head_impl; [|exact H]. intros c N. apply not_true_false.
    rewrite is_alphanumeric_iff. intro A. apply N. chars. tauto.
Qed.

(** the longest prefix of a class *)
Lemma all_span : forall (f : ascii -> bool) P t, all P t ->
  exists u v, t = (u ++ v)%string /\ all (fun c => f c = true) u /\ all P v
    /\ head (fun c => f c = false) v.
Proof.
  intros f P t H. induction H as [|c t Hc Ht IH].
  - exists "", "". repeat split; constructor.
  - destruct (f c) eqn:E.
    + destruct IH as [u [v [E1 [Hu [Hv Hh]]]]]. exists (String c u), v.
      split; [cbn; now rewrite E1|]. split; [now constructor|]. now split.
    + exists "", (String c t). split; [reflexivity|]. split; [constructor|].
      split; [now constructor|exact E].
Qed.

Lemma word_pieces : forall n t s, (slen t <= n)%nat -> all word_char t -> stop s ->
  exists l, many0 word_piece (t ++ s)%string = POk s l.
Proof.
  induction n as [|n IH]; intros t s L Ht Hs.
  - destruct t; [|cbn in L; lia]. exists []. rewrite many0_eq. cbn [append].
    now rewrite word_piece_fail.
  - destruct t as [|c t].
    { exists []. rewrite many0_eq. cbn [append]. now rewrite word_piece_fail. }
    assert (H : exists v x, all word_char v /\ (slen v < slen (String c t))%nat
              /\ word_piece (String c t ++ s)%string = POk (v ++ s)%string x).
    { destruct (is_alphanumeric c) eqn:E.
      - destruct (all_span is_alphanumeric _ _ Ht) as [u [v [E1 [Hu [Hv Hh]]]]].
        assert (u <> "") as Nu.
        { intros ->. cbn in E1. rewrite <- E1 in Hh. cbn in Hh. congruence. }
        exists v, u. split; [exact Hv|]. split.
        { rewrite E1, slen_append. destruct u; [congruence|]. cbn. lia. }
        unfold word_piece. cbn [alt]. unfold alphanumeric1.
        rewrite E1, append_assoc. rewrite chars1_ok; [reflexivity|exact Nu|exact Hu|].
        destruct v as [|d v]; [|exact Hh].
        cbn [append]. eapply head_impl; [|exact Hs]. intros d N. apply not_true_false.
        rewrite is_alphanumeric_iff. intro A. apply N. chars. tauto.
      - inversion Ht as [|c' t' Hc Ht']; subst.
        assert (c = "_"%char) as ->.
        { destruct Hc as [[Hc|Hc]|Hc]; [|exact Hc|]; exfalso;
            assert (is_alphanumeric c = true) by (apply is_alphanumeric_iff; tauto); congruence. }
        exists t, "_". split; [exact Ht'|]. split; [cbn; lia|].
        unfold word_piece. cbn [alt]. unfold alphanumeric1.
        rewrite chars1_err by reflexivity.
        change (String "_" t ++ s)%string with ("_" ++ (t ++ s))%string. now rewrite tag_ok. }
    destruct H as [v [x [Hv [Lv E]]]].
    destruct (IH v s) as [l El]; [lia|exact Hv|exact Hs|].
    exists (x :: l). rewrite many0_eq, E, El.
    replace (slen (v ++ s)%string <? slen (String c t ++ s)%string)%nat with true; [reflexivity|].
    symmetry. apply Nat.ltb_lt. rewrite !slen_append. lia.
Qed.

Lemma word_ok : forall t s, ident t -> stop s -> word (t ++ s)%string = POk s t.
Proof.
  intros t s Ht Hs. inversion Ht as [c u Hc Hu E].
  unfold word. fold word_piece.
  assert (H : exists v x, all word_char v
            /\ alt [alpha1; tag "_"] (String c u ++ s)%string = POk (v ++ s)%string x).
  { destruct (is_alpha c) eqn:Ea.
    - assert (Hcu : all word_char (String c u)) by (constructor; [now left|exact Hu]).
      destruct (all_span is_alpha _ _ Hcu) as [a [v [E1 [Ha [Hv Hh]]]]].
      assert (a <> "") as Na.
      { intros ->. cbn in E1. rewrite <- E1 in Hh. cbn in Hh. congruence. }
      exists v, a. split; [exact Hv|]. cbn [alt]. unfold alpha1.
      rewrite E1, append_assoc. rewrite chars1_ok; [reflexivity|exact Na|exact Ha|].
      destruct v as [|d v]; [|exact Hh].
      cbn [append]. eapply head_impl; [|exact Hs]. intros d N. apply not_true_false.
      rewrite is_alpha_iff. intro A. apply N. chars. tauto.
    - assert (c = "_"%char) as ->.
      { destruct Hc as [Hc|Hc]; [|exact Hc]. apply is_alpha_iff in Hc. congruence. }
      exists u, "_". split; [exact Hu|]. cbn [alt]. unfold alpha1.
      rewrite chars1_err by reflexivity.
      change (String "_" u ++ s)%string with ("_" ++ (u ++ s))%string. now rewrite tag_ok. }
  destruct H as [v [x [Hv Ex]]].
  destruct (word_pieces (slen v) v s (le_n _) Hv Hs) as [l El].
  apply (recognize_ok _ _ _ _ (x, l)). unfold pair, pbind. now rewrite Ex, El.
Qed.

Lemma word_fail : forall s, head (fun c => ~ start_char c) s -> word s = PErr.
Proof.
  intros s H. unfold word, recognize, pair, pbind. cbn [alt]. unfold alpha1.
  rewrite chars1_err.
  - rewrite tag_head; [reflexivity|]. eapply head_impl; [|exact H].
    intros c N ->. apply N. now right.
  - eapply head_impl; [|exact H]. intros c N. apply not_true_false.
    rewrite is_alpha_iff. intro A. apply N. now left.
Qed.

(** the first character of an identifier, a path, a type name *)
Lemma ident_head : forall t, ident t -> t <> "" /\ head start_char t.
Proof. intros t H. inversion H. split; [discriminate|assumption]. Qed.

Lemma path_head : forall t, path t -> t <> "" /\ head start_char t.
Proof.
  intros t H. destruct H as [t H|t p H _]; destruct (ident_head t H) as [N Hh].
  - now split.
  - split; [|now apply head_app]. destruct t; [congruence|discriminate].
Qed.

Lemma type_name_head : forall t, type_name t ->
  t <> "" /\ head (fun c => start_char c \/ c = "."%char) t.
Proof.
  intros t [p H|p H].
  - destruct (path_head p H) as [N Hh]. split; [exact N|].
    eapply head_impl; [|exact Hh]. tauto.
  - split; [discriminate|]. cbn. now right.
Qed.

Lemma path_chars : forall t, path t -> all name_char t.
Proof.
  intros t H. induction H as [t H|t p H _ IH].
  - destruct H as [c t Hc Ht]. constructor; [now left; left|].
    eapply all_impl; [|exact Ht]. now left.
  - apply all_app.
    + destruct H as [c t Hc Ht]. constructor; [now left; left|].
      eapply all_impl; [|exact Ht]. now left.
    + cbn. constructor; [now right|exact IH].
Qed.

Lemma type_name_chars : forall t, type_name t -> all name_char t.
Proof.
  intros t [p H|p H]; [now apply path_chars|]. cbn. constructor; [now right|now apply path_chars].
Qed.

Lemma dots_ok : forall p s, path p -> stop_name s ->
  exists l, separated_list1 (tag ".") word (p ++ s)%string = POk s l.
Proof.
  intros p s Hp Hs. induction Hp as [t Ht|t p Ht Hp [l IH]].
  - exists [t]. unfold separated_list1, pmap, pbind.
    rewrite word_ok by (try exact Ht; now apply stop_name_stop).
    rewrite sep_loop_eq. rewrite tag_head; [reflexivity|].
    eapply head_impl; [|exact Hs]. intros c N ->. apply N. now right.
  - unfold separated_list1, pmap, pbind in *. rewrite !append_assoc.
    rewrite word_ok; [|exact Ht|cbn; chars; cbn; lia].
    destruct (word (p ++ s)%string) as [r a| | |] eqn:Ew; try discriminate.
    destruct (sep_loop true (S (slen r)) (tag ".") word r) as [r2 l2| | |] eqn:El; try discriminate.
    injection IH as -> <-. exists (t :: a :: l2).
    rewrite sep_loop_eq, tag_ok, Ew.
    pose proof (consumes_le _ _ _ _ _ c_word Ew) as L.
    replace (true && negb (slen (p ++ s)%string <? slen ("." ++ p ++ s)%string)%nat) with false.
    2: { symmetry. cbn [andb]. apply negb_false_iff, Nat.ltb_lt. cbn. lia. }
    replace (slen r <? slen ("." ++ p ++ s)%string)%nat with true.
    2: { symmetry. apply Nat.ltb_lt. cbn. lia. }
    now rewrite El.
Qed.

Lemma ends_with_dot_app : forall a c b,
  ends_with_dot (a ++ String c b)%string = ends_with_dot (String c b).
Proof.
  induction a as [|x a IH]; intros c b; [reflexivity|].
  rewrite <- (IH c b). unfold ends_with_dot. cbn [append].
  destruct (a ++ String c b)%string as [|y z] eqn:E; [destruct a; discriminate|].
  cbn [slen String.length]. rewrite !Nat.sub_succ, !Nat.sub_0_r. reflexivity.
Qed.

Lemma word_not_dot : forall c, word_char c -> c <> "."%char.
Proof. intros c H. chars. lia. Qed.

Lemma ends_with_dot_word : forall c t, word_char c -> all word_char t ->
  ends_with_dot (String c t) = false.
Proof.
  intros c t Hc Ht. revert c Hc. induction Ht as [|d t Hd Ht IH]; intros c Hc.
  - unfold ends_with_dot. cbn. destruct (Ascii.eqb_spec c "."); [|reflexivity].
    exfalso. now apply (word_not_dot c Hc).
  - change (String c (String d t)) with ((String c "") ++ String d t)%string.
    rewrite ends_with_dot_app. now apply IH.
Qed.

Lemma path_no_dot_end : forall p, path p -> ends_with_dot p = false.
Proof.
  intros p H. induction H as [t H|t p H Hp IH].
  - destruct H as [c t Hc Ht]. apply ends_with_dot_word; [now left|exact Ht].
  - destruct (path_head p Hp) as [N _]. destruct p as [|c p]; [congruence|].
    rewrite <- append_assoc. rewrite ends_with_dot_app. exact IH.
Qed.

Lemma contains_cons : forall p c s,
  contains_str p (String c s) = String.prefix p (String c s) || contains_str p s.
Proof.
  intros p c s. unfold contains_str. cbn [find_str].
  destruct (String.prefix p (String c s)); [reflexivity|].
  destruct (find_str p s); reflexivity.
Qed.

Lemma no_dots_word : forall t s, all word_char t -> contains_str ".." (t ++ s)%string = contains_str ".." s.
Proof.
  intros t s H. induction H as [|c t Hc _ IH]; [reflexivity|].
  cbn [append]. rewrite contains_cons, IH.
  destruct (String.prefix ".." (String c (t ++ s)%string)) eqn:E; [|reflexivity].
  apply prefix_cons in E. destruct E as [<- _]. exfalso. now apply (word_not_dot _ Hc).
Qed.

Lemma no_dots_dot : forall s, head (fun c => c <> "."%char) s ->
  contains_str ".." (String "." s) = contains_str ".." s.
Proof.
  intros s H. rewrite contains_cons.
  destruct (String.prefix ".." (String "." s)) eqn:E; [|reflexivity].
  apply prefix_cons in E. destruct E as [_ E]. destruct s as [|c s]; [discriminate|].
  apply prefix_cons in E. destruct E as [<- _]. now elim H.
Qed.

Lemma start_not_dot : forall c, start_char c -> c <> "."%char.
Proof. intros c H. apply word_not_dot. now left. Qed.

Lemma path_no_dots : forall p, path p -> contains_str ".." p = false.
Proof.
  intros p H. induction H as [t H|t p H Hp IH].
  - destruct H as [c t Hc Ht].
    rewrite <- (append_nil_r (String c t)). rewrite no_dots_word; [reflexivity|].
    constructor; [now left|exact Ht].
  - destruct H as [c t Hc Ht]. rewrite no_dots_word by (constructor; [now left|exact Ht]).
    cbn [append]. rewrite no_dots_dot; [exact IH|].
    eapply head_impl; [|exact (proj2 (path_head p Hp))]. apply start_not_dot.
Qed.

Lemma qualifiable_ok : forall t s, type_name t -> stop_name s ->
  qualifiable_name (t ++ s)%string = POk s t.
Proof.
  intros t s Ht Hs. unfold qualifiable_name, verify.
  assert (H : recognize (pair (opt (tag ".")) (separated_list1 (tag ".") word)) (t ++ s)%string
              = POk s t).
  { destruct Ht as [p Hp|p Hp]; destruct (dots_ok p s Hp Hs) as [l El].
    - apply (recognize_ok _ _ _ _ (None, l)). unfold pair, pbind, opt.
      destruct (path_head p Hp) as [N Hh].
      rewrite tag_head.
      2: { apply head_app; [exact N|]. eapply head_impl; [|exact Hh]. apply start_not_dot. }
      now rewrite El.
    - apply (recognize_ok _ _ _ _ (Some ".", l)). unfold pair, pbind, opt.
      rewrite append_assoc, tag_ok. now rewrite El. }
  unfold pbind. rewrite H.
  replace (ends_with_dot t) with false; [replace (contains_str ".." t) with false; [reflexivity|]|];
    symmetry.
  - destruct Ht as [p Hp|p Hp]; [now apply path_no_dots|].
    cbn [append]. rewrite no_dots_dot; [now apply path_no_dots|].
    eapply head_impl; [|exact (proj2 (path_head p Hp))]. apply start_not_dot.
  - destruct Ht as [p Hp|p Hp]; [now apply path_no_dot_end|].
    destruct (path_head p Hp) as [N _]. destruct p as [|c p]; [congruence|].
    rewrite ends_with_dot_app. now apply path_no_dot_end.
Qed.

Lemma qualifiable_fail : forall s, head (fun c => ~ start_char c /\ c <> "."%char) s ->
  qualifiable_name s = PErr.
Proof.
  intros s H. unfold qualifiable_name, verify, recognize, pair, pbind, opt.
  rewrite tag_head by (eapply head_impl; [|exact H]; now intros c [_ N]).
  unfold separated_list1, pmap, pbind.
  rewrite word_fail by (eapply head_impl; [|exact H]; now intros c [N _]). reflexivity.
Qed.
