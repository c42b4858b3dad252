(** The parser on the texts of oneofs, enums, statements and messages
    (ProtoText.v). *)
From Coq Require Import String Ascii Arith Lia.
From Verif Require Import Base Schema Modules Parser ParserFacts ProtoText TextFacts FieldText.
Import StringSyntax.
Local Open Scope string_scope.
Local Open Scope list_scope.

(* ---- repetition ---- *)

Lemma many0_step : forall A (p : parser A) s r a r' l, p s = POk r a -> (slen r < slen s)%nat ->
  many0 p r = POk r' l -> many0 p s = POk r' (a :: l).
Proof.
  intros A p s r a r' l E L H. rewrite many0_eq, E.
  now rewrite (proj2 (Nat.ltb_lt _ _) L), H.
Qed.

Lemma many0_stop : forall A (p : parser A) s, p s = PErr -> many0 p s = POk s [].
Proof. intros A p s E. now rewrite many0_eq, E. Qed.

Lemma many1_step : forall A (p : parser A) s r a r' l, p s = POk r a ->
  many0 p r = POk r' l -> many1 p s = POk r' (a :: l).
Proof. intros A p s r a r' l E H. unfold many1. nf. now rewrite E, H. Qed.

Lemma slen_grow : forall t s, t <> "" -> (slen s < slen (t ++ s)%string)%nat.
Proof. intros [|c t] s H; [congruence|]. cbn. rewrite slen_append. lia. Qed.

(** elements with gaps around them *)
Definition spaced {A} (p : parser A) : parser A := delimited (many0 br) p (many0 br).

Lemma fields_ok : forall (ft : field -> text -> Prop) (p : parser field),
  (forall f t, ft f t -> t <> "" /\ (forall s, solid (t ++ s)%string)
    /\ forall s, p (t ++ s)%string = POk s f) ->
  forall fs ts, fields_text ft fs ts ->
  forall s, solid s -> p s = PErr ->
  exists g0 r, gap g0 /\ ts = (g0 ++ r)%string /\ solid (r ++ s)%string
    /\ forall g, gap g ->
       many1 (spaced p) (g ++ r ++ s)%string = POk s fs
       /\ many0 (spaced p) (g ++ r ++ s)%string = POk s fs.
Proof.
  intros ft p Hp fs ts H. induction H as [g1 f t g2 G1 Hf G2|g1 f t fs ts G1 Hf _ IH];
    intros s Ss Sp; destruct (Hp f t Hf) as [N [So Ok]].
  - exists g1, (t ++ g2)%string. split; [exact G1|]. split; [reflexivity|].
    rewrite append_assoc. split; [apply So|]. intros g G.
    assert (E : spaced p (g ++ t ++ g2 ++ s)%string = POk s f).
    { unfold spaced. nf. rewrite br0; [|exact G|apply So]. nf. rewrite Ok; nf.
      rewrite br0 by assumption. reflexivity. }
    assert (F : many0 (spaced p) s = POk s []).
    { apply many0_stop. unfold spaced. nf. rewrite br0_solid by exact Ss. nf. now rewrite Sp. }
    split; [now apply (many1_step _ _ _ s)|]. apply (many0_step _ _ _ s); [exact E| |exact F].
    rewrite !slen_append. destruct t; [congruence|cbn; lia].
  - destruct (IH s Ss Sp) as [g0 [r [G0 [-> [Sr IHr]]]]].
    exists g1, (t ++ g0 ++ r)%string. split; [exact G1|]. split; [reflexivity|].
    rewrite !append_assoc. split; [apply So|]. intros g G.
    assert (E : spaced p (g ++ t ++ g0 ++ r ++ s)%string = POk (r ++ s)%string f).
    { unfold spaced. nf. rewrite br0; [|exact G|apply So]. nf. rewrite Ok; nf.
      rewrite br0 by assumption. reflexivity. }
    destruct (IHr "" gap_nil) as [_ F]. cbn [append] in F.
    split; [now apply (many1_step _ _ _ (r ++ s)%string)|].
    apply (many0_step _ _ _ (r ++ s)%string); [exact E| |exact F].
    rewrite !slen_append. destruct t; [congruence|cbn; lia].
Qed.

Lemma close_field_fails : forall sx ff s, field_generic sx ff ("}" ++ s)%string = PErr.
Proof.
  intros sx ff s. apply field_fails_head. cbn. split; [|discriminate].
  chars. cbn. lia.
Qed.

Lemma field_text_facts : forall sx pr f t, field_text sx pr f t ->
  t <> "" /\ forall s, solid (t ++ s)%string.
Proof.
  intros sx pr f t H. destruct (field_text_head sx pr f t H) as [N Hh].
  split; [exact N|]. intro s. apply head_app; [exact N|].
  eapply head_impl; [|exact Hh]. intros c Hc. chars. lia.
Qed.

(* ---- oneofs ---- *)

Lemma oneof_ok : forall sx o t s, oneof_text sx o t -> p_one_of sx (t ++ s)%string = POk s o.
Proof.
  intros sx o t s [g1 name g2 fs b G1 Hn G2 Hf]. unfold p_one_of. nf. rewrite !append_assoc.
  rewrite tag_ok; nf. rewrite br1; [|exact G1|now apply solid_word]. nf.
  rewrite word_ok; [|exact Hn|apply stop_gap; [exact G2|lit]]. nf.
  rewrite br0; [|exact G2|lit]. nf. rewrite tag_ok; nf.
  destruct (fields_ok (member_text sx) (oneof_message_field sx)) with (fs := fs) (ts := b)
    (s := ("}" ++ s)%string) as [g0 [r [G0 [-> [Sr H]]]]].
  - intros f ft Hft. destruct (field_text_facts _ _ _ _ Hft) as [N So].
    split; [exact N|]. split; [exact So|]. intro s0. now apply member_ok.
  - exact Hf.
  - lit.
  - apply close_field_fails.
  - rewrite append_assoc. destruct (H g0 G0) as [E _].
    unfold spaced, delimited, preceded, terminated, pbind, pret in E. rewrite E; nf.
    rewrite tag_ok; nf. reflexivity.
Qed.

(* ---- option statements ---- *)

Lemma option_ignore_ok : forall g c t s, break g -> ~ blank_char c -> c <> "/"%char ->
  ~ occurs ";" (String c t) ->
  option_ignore ("option" ++ g ++ String c t ++ ";" ++ s)%string = POk s tt.
Proof.
  intros g c t s G B N O. unfold option_ignore. nf. rewrite tag_ok; nf.
  rewrite br1; [|exact G|split; assumption]. nf.
  rewrite (take_until_char ";") by exact O. nf. rewrite tag_ok; nf. reflexivity.
Qed.

Lemma ignored_ok : forall t s, ignored_option t -> option_ignore (t ++ s)%string = POk s tt.
Proof.
  intros t s [g c u G B N _ O]. rewrite !append_assoc. now apply option_ignore_ok.
Qed.

Lemma message_option_ok : forall t s, message_option t -> option_ignore (t ++ s)%string = POk s tt.
Proof.
  intros t s [g u G O|g k g2 g3 c u G Hk G2 G3 D B N O]; rewrite !append_assoc.
  - change ("(" ++ u ++ ";" ++ s)%string with (String "(" u ++ ";" ++ s)%string.
    apply option_ignore_ok; [exact G| |discriminate|].
    + unfold blank_char. cbn. lia.
    + intros [a [b E]]. destruct a as [|x a]; [discriminate|]. cbn in E. injection E as _ E.
      apply O. now exists a, b.
  - inversion Hk as [d w Hd Hw E]. subst k.
    replace (String d w ++ g2 ++ "=" ++ g3 ++ String c u ++ ";" ++ s)%string
      with (String d (w ++ g2 ++ "=" ++ g3 ++ String c u) ++ ";" ++ s)%string
      by (repeat (cbn [append]; rewrite ?append_assoc); reflexivity).
    apply option_ignore_ok; [exact G| | |exact O].
    + chars. lia.
    + chars. lia.
Qed.

(* ---- reserved statements ---- *)

Lemma comma_ok : forall g1 g2 s, gap g1 -> gap g2 -> solid s ->
  comma (g1 ++ "," ++ g2 ++ s)%string = POk s tt.
Proof.
  intros g1 g2 s G1 G2 S. unfold comma. nf. rewrite br0; [|exact G1|lit]. nf.
  rewrite tag_ok; nf. now rewrite br0.
Qed.

Lemma comma_fail : forall g s, gap g -> comma (g ++ ";" ++ s)%string = PErr.
Proof.
  intros g s G. unfold comma. nf. rewrite br0; [|exact G|lit]. nf.
  now rewrite tag_head by (cbn; discriminate).
Qed.

(** the text after an element of a list *)
Definition list_end (s : text) : Prop :=
  exists g u, gap g /\ (s = (g ++ "," ++ u)%string \/ s = (g ++ ";" ++ u)%string).

Lemma comma_list_ok : forall A (f : A -> text -> Prop) (p : parser A),
  (forall a t, f a t -> t <> "" /\ (forall s, solid (t ++ s)%string)
    /\ forall s, list_end s -> p (t ++ s)%string = POk s a) ->
  forall l t, comma_list f l t ->
  (t <> "" /\ forall s, solid (t ++ s)%string)
  /\ forall g s, gap g ->
  separated_list1 comma p (t ++ g ++ ";" ++ s)%string = POk (g ++ ";" ++ s)%string l.
Proof.
  intros A f p Hp l t H. induction H as [a t Ha|a t g1 g2 l u Ha G1 G2 Hl [[Nu Su] IH]].
  - destruct (Hp a t Ha) as [N [So Ok]]. split; [now split|]. intros g s G.
    unfold separated_list1. nf. rewrite Ok by (exists g, s; auto). rewrite sep_loop_eq.
    now rewrite comma_fail.
  - destruct (Hp a t Ha) as [N [So Ok]].
    split; [split; [destruct t; [congruence|discriminate]|]|].
    { intro s. rewrite append_assoc. apply So. }
    intros g s G. unfold separated_list1. nf. rewrite !append_assoc.
    rewrite Ok by (exists g1; eexists; split; [exact G1|left; reflexivity]). nf.
    rewrite sep_loop_eq. rewrite comma_ok by (try assumption; apply Su).
    assert (L1 : (slen (u ++ g ++ ";" ++ s)%string < slen (g1 ++ "," ++ g2 ++ u ++ g ++ ";" ++ s)%string)%nat).
    { rewrite !slen_append. cbn. lia. }
    rewrite (proj2 (Nat.ltb_lt _ _) L1). cbn [negb andb].
    specialize (IH g s G). unfold separated_list1, pmap, pbind, pret in IH.
    destruct (p (u ++ g ++ ";" ++ s)%string) as [r x| | |] eqn:E; try discriminate.
    assert (L2 : (slen r <= slen (u ++ g ++ ";" ++ s)%string)%nat).
    { destruct Hl as [a' t' Ha'|a' t' g1' g2' l' u' Ha' G1' G2' Hl'];
        destruct (Hp a' t' Ha') as [_ [_ Ok']].
      - rewrite Ok' in E by (exists g, s; auto). injection E as <- _. rewrite (slen_append t'). cbn [append]. lia.
      - rewrite !append_assoc in E.
        rewrite Ok' in E by (exists g1'; eexists; split; [exact G1'|left; reflexivity]).
        injection E as <- _. repeat (cbn [append String.length]; rewrite ?slen_append). lia. }
    rewrite (proj2 (Nat.ltb_lt _ _) (Nat.le_lt_trans _ _ _ L2 L1)).
    destruct (sep_loop true (S (slen r)) comma p r) as [r2 l2| | |]; try discriminate.
    injection IH as -> <-. reflexivity.
Qed.

Lemma range_ok : forall l t, range_text l t ->
  t <> "" /\ (forall s, solid (t ++ s)%string)
  /\ forall s, list_end s ->
     alt [num_range; pmap integer (fun i => [i])] (t ++ s)%string = POk s l.
Proof.
  intros l t [n u Hn|a at_ g1 g2 b bt l' Ha G1 G2 Hb Hr].
  - destruct (number_head n u Hn) as [N _]. split; [exact N|].
    split; [intro s; now apply (solid_number n)|]. intros s [g [v [G Hs]]].
    assert (D : no_digit s) by (destruct Hs as [-> | ->]; apply no_digit_gap; try exact G; lit).
    cbn [alt]. unfold num_range. nf. rewrite (integer_ok n u s Hn D). nf.
    assert (F : forall (x : text), x = "," \/ x = ";" -> forall v,
      match many1 br (g ++ x ++ v)%string with
      | POk r _ => tag "to" r = PErr | PErr => True | _ => False end).
    { intros x Hx v0. destruct g as [|c g'].
      - rewrite br1_fail; [exact I|]. destruct Hx as [-> | ->]; lit.
      - rewrite br1; [|split; [exact G|discriminate]|destruct Hx as [-> | ->]; lit].
        apply tag_head. destruct Hx as [-> | ->]; cbn; discriminate. }
    destruct Hs as [-> | ->].
    + specialize (F "," (or_introl eq_refl) v).
      destruct (many1 br (g ++ "," ++ v)%string) as [r x| | |]; nf; try contradiction;
        [rewrite F; nf|]; reflexivity.
    + specialize (F ";" (or_intror eq_refl) v).
      destruct (many1 br (g ++ ";" ++ v)%string) as [r x| | |]; nf; try contradiction;
        [rewrite F; nf|]; reflexivity.
  - destruct (number_head a at_ Ha) as [N _].
    split; [destruct at_; [congruence|discriminate]|].
    split; [intro s; rewrite append_assoc; now apply (solid_number a)|].
    intros s [g [v [G Hs]]].
    assert (D : no_digit s) by (destruct Hs as [-> | ->]; apply no_digit_gap; try exact G; lit).
    cbn [alt]. unfold num_range. nf. rewrite !append_assoc.
    rewrite (integer_ok a at_); [|exact Ha|apply no_digit_gap; [apply G1|lit]]. nf.
    rewrite br1; [|exact G1|lit]. nf. rewrite tag_ok; nf.
    rewrite br1; [|exact G2|now apply (solid_number b)]. nf.
    rewrite (integer_ok b bt s Hb D). nf. unfold in_range in Hr. now rewrite Hr.
Qed.

Lemma reserved_nums_ok : forall l t s, reserved_nums_text l t ->
  reserved_nums (t ++ s)%string = POk s l.
Proof.
  intros l t s [g1 ls u g2 G1 Hl G2].
  destruct (comma_list_ok _ range_text _ range_ok ls u Hl) as [[Nu Su] E].
  unfold reserved_nums. nf. rewrite !append_assoc. rewrite tag_ok; nf.
  rewrite br1; [|exact G1|apply Su]. nf. rewrite E by exact G2. nf.
  rewrite br0; [|exact G2|lit]. nf. rewrite tag_ok; nf. reflexivity.
Qed.

Lemma quoted_ok : forall a t, quoted a t ->
  t <> "" /\ (forall s, solid (t ++ s)%string)
  /\ forall s, list_end s -> p_string (t ++ s)%string = POk s a.
Proof.
  intros a t H. split; [destruct H as [_ ->]; discriminate|].
  split; [intro s; now apply (solid_quoted a)|]. intros s _. now apply string_ok.
Qed.

Lemma comma_quoted_head : forall l t, comma_list quoted l t -> exists u, t = (dq ++ u)%string.
Proof.
  intros l t [a t' [_ ->]|a t' g1 g2 l' u [_ ->] _ _ _]; [now eexists|].
  rewrite !append_assoc. now eexists.
Qed.

Lemma reserved_names_ok : forall l t s, reserved_names_text l t ->
  reserved_nums (t ++ s)%string = PErr /\ reserved_names (t ++ s)%string = POk s l.
Proof.
  intros l t s [g1 l' u g2 G1 Hl G2].
  destruct (comma_list_ok _ quoted _ quoted_ok l' u Hl) as [[Nu Su] E].
  split.
  - unfold reserved_nums. nf. rewrite !append_assoc. rewrite tag_ok; nf.
    rewrite br1; [|exact G1|apply Su]. nf.
    destruct (comma_quoted_head l' u Hl) as [v ->].
    unfold separated_list1, num_range. cbn [alt]. nf.
    rewrite !integer_fail; [reflexivity|unfold dq; lit].
  - unfold reserved_names. nf. rewrite !append_assoc. rewrite tag_ok; nf.
    rewrite br1; [|exact G1|apply Su]. nf. rewrite E by exact G2. nf.
    rewrite br0; [|exact G2|lit]. nf. rewrite tag_ok; nf. reflexivity.
Qed.

(* ---- extension ranges ---- *)

Lemma digit_not_trimmed : forall c, digit_char c -> ~ trimmed_char c.
Proof. intros c H B. unfold digit_char, trimmed_char in *. lia. Qed.

Lemma trim_word : forall t w, t <> "" -> all (fun c => ~ trimmed_char c) t -> all trimmed_char w ->
  trim (t ++ w)%string = t.
Proof.
  intros t w N A W. unfold trim. rewrite span_head.
  - cbn [snd].
    assert (E : exists u c, t = (u ++ String c "")%string /\ ~ trimmed_char c).
    { clear W. induction A as [|c t Hc A IH]; [congruence|].
      destruct t as [|d t]; [now exists "", c|].
      destruct IH as [u [e [E He]]]; [discriminate|]. exists (String c u), e.
      split; [|exact He]. cbn [append]. now rewrite <- E. }
    destruct E as [u [c [-> Hc]]]. rewrite append_assoc. cbn [append]. now apply trim_end_ok.
  - destruct A as [|c t Hc _]; [congruence|]. cbn. apply not_true_false.
    now rewrite is_whitespace_iff.
Qed.

Lemma all_chars_digits : forall t, all digit_char t -> all_chars is_digit t = true.
Proof.
  intros t H. induction H as [|c t Hc _ IH]; [reflexivity|]. cbn.
  now rewrite IH, (proj2 (is_digit_iff c) Hc).
Qed.

Lemma parse_i32_number : forall n t, number n t -> parse_i32 t = Some n.
Proof.
  intros n t [H L]. destruct (decimal_facts n t H) as [N [A [V P]]].
  destruct A as [|c t Hc A]; [congruence|]. unfold parse_i32.
  assert (F : forall d, (nat_of_ascii d < 48)%nat -> Ascii.eqb c d = false).
  { intros d Hd. apply Ascii.eqb_neq. intros ->. unfold digit_char in Hc. lia. }
  rewrite !F by (cbn; lia).
  rewrite all_chars_digits by now constructor.
  rewrite V. unfold max_i32, i32_max in *.
  rewrite (proj2 (Z.leb_le n _) L).
  now rewrite (proj2 (Z.leb_le (-2147483648) n)) by lia.
Qed.

Lemma not_max : forall n t, number n t -> String.eqb t "max" = false.
Proof.
  intros n t H. apply String.eqb_neq. intros ->. destruct (number_head n _ H) as [_ Hh].
  cbn in Hh. unfold digit_char in Hh. cbn in Hh. lia.
Qed.

Lemma all_and_occurs : forall c e, all (fun d => d <> c) e -> ~ occurs (String c "") e.
Proof. exact all_not_occurs. Qed.

Lemma extensions_ok : forall t s, extensions_text t -> exists e, p_extensions (t ++ s)%string = POk s e.
Proof.
  intros t s [g1 n u g2 g3 e w G1 Hn G2 G3 He W].
  unfold p_extensions. nf. rewrite !append_assoc. rewrite tag_ok; nf.
  rewrite br1; [|exact G1|now apply (solid_number n)]. nf.
  rewrite (integer_ok n u); [|exact Hn|apply no_digit_gap; [exact G2|lit]]. nf.
  rewrite br0; [|exact G2|lit]. nf. rewrite tag_ok; nf.
  assert (Wt : all trimmed_char w) by (eapply all_impl; [|exact W]; apply blank_trimmed).
  assert (Wn : ~ occurs ";" w).
  { apply all_not_occurs. eapply all_impl; [|exact W]. intros c B ->.
    unfold blank_char in B. cbn in B. lia. }
  destruct He as [|m et Hm].
  - rewrite br1; [|exact G3|lit]. nf.
    rewrite <- (append_assoc "max" w). rewrite (take_until_char ";").
    2: { apply occurs_app_not; [|exact Wn]. apply all_not_occurs.
         repeat (apply all_cons; [discriminate|]). apply all_nil. }
    nf. rewrite tag_ok; nf. rewrite trim_word; [|discriminate| |exact Wt].
    2: { repeat (apply all_cons; [unfold trimmed_char; cbn; lia|]). apply all_nil. }
    cbn [String.eqb]. eexists. reflexivity.
  - rewrite br1; [|exact G3|now apply (solid_number m)]. nf.
    destruct (decimal_facts m et (proj1 Hm)) as [N [A _]].
    rewrite <- (append_assoc et w). rewrite (take_until_char ";").
    2: { apply occurs_app_not; [|exact Wn]. apply all_not_occurs.
         eapply all_impl; [|exact A]. intros c Hc ->. unfold digit_char in Hc. cbn in Hc. lia. }
    nf. rewrite tag_ok; nf. rewrite trim_word; [|exact N| |exact Wt].
    2: { eapply all_impl; [|exact A]. apply digit_not_trimmed. }
    rewrite (not_max m) by exact Hm. rewrite (parse_i32_number m) by exact Hm.
    eexists. reflexivity.
Qed.

(* ---- enums ---- *)

Lemma hex_code : forall d, (d <= 15)%nat ->
  is_hex_digit (ascii_of_nat (if (d <=? 9)%nat then 48 + d else 87 + d)) = true
  /\ digit_value (ascii_of_nat (if (d <=? 9)%nat then 48 + d else 87 + d)) = Z.of_nat d.
Proof.
  intros d H. do 16 (destruct d as [|d]; [split; reflexivity|]). lia.
Qed.

Lemma hex_facts : forall n t, hex_digits n t ->
  t <> "" /\ all (fun c => is_hex_digit c = true) t /\ radix_value 16 0 t = n.
Proof.
  intros n t H. induction H as [d Hd|n t d _ [N [A V]] Hd];
    destruct (hex_code d Hd) as [Hh Hv]; unfold hex_text in *.
  - split; [discriminate|]. split; [constructor; [exact Hh|constructor]|].
    cbn [radix_value]. rewrite Hv. lia.
  - split; [destruct t; [congruence|discriminate]|]. split.
    { apply all_app; [exact A|]. constructor; [exact Hh|constructor]. }
    rewrite radix_value_app, V. cbn [radix_value]. rewrite Hv. lia.
Qed.

(** what may follow the number of an enum value *)
Definition value_stop : text -> Prop := head (fun c => ~ word_char c).

Lemma enum_number_ok : forall n t s, enum_number n t -> value_stop s ->
  alt [hex_integer; integer] (t ++ s)%string = POk s n.
Proof.
  intros n t s [m u Hm|m u Hm L] Hs; cbn [alt].
  - assert (D : no_digit s) by (eapply head_impl; [|exact Hs]; intros c Hc; chars; lia).
    assert (F : hex_integer (u ++ s)%string = PErr).
    { destruct (decimal_facts m u (proj1 Hm)) as [N [A _]].
      unfold hex_integer. nf. unfold tag.
      destruct (String.prefix "0x" (u ++ s)%string) eqn:E; [|reflexivity]. exfalso.
      destruct A as [|c u Hc A]; [congruence|]. cbn [append] in E. apply prefix_cons in E.
      destruct E as [_ E]. destruct A as [|d u Hd A].
      - cbn [append] in E. destruct s as [|d s]; [discriminate|]. apply prefix_cons in E.
        destruct E as [<- _]. apply Hs. chars. cbn. lia.
      - cbn [append] in E. apply prefix_cons in E. destruct E as [<- _].
        unfold digit_char in Hd. cbn in Hd. lia. }
    rewrite F. now rewrite (integer_ok m u).
  - destruct (hex_facts m u Hm) as [N [A V]]. unfold hex_integer. nf.
    rewrite append_assoc. rewrite tag_ok; nf. unfold hex_digit1.
    rewrite chars1_ok; [|exact N|exact A|].
    + nf. unfold parse_digits. rewrite V. unfold max_i32, i32_max in *.
      now rewrite (proj2 (Z.leb_le _ _) L).
    + eapply head_impl; [|exact Hs]. intros c Hc. apply not_true_false. unfold is_hex_digit.
      rewrite !orb_true_iff, !between_iff, is_digit_iff. chars. lia.
Qed.

Lemma enum_number_head : forall n t s, enum_number n t -> solid (t ++ s)%string.
Proof.
  intros n t s [m u Hm|m u Hm L]; [now apply (solid_number m)|]. rewrite append_assoc. lit.
Qed.

Lemma spaces_ok : forall w s, all blank_char w -> head (fun c => ~ blank_char c) s ->
  exists l, many0 multispace1 (w ++ s)%string = POk s l.
Proof.
  intros w s W H.
  assert (F : many0 multispace1 s = POk s []).
  { apply many0_stop. unfold multispace1. apply chars1_err. eapply head_impl; [|exact H].
    intros c Hc. apply not_true_false. now rewrite is_multispace_iff. }
  destruct w as [|c w]; [now exists []|]. exists [String c w].
  apply (many0_step _ _ _ s); [|now apply slen_grow|exact F].
  unfold multispace1. apply chars1_ok; [discriminate| |].
  - eapply all_impl; [|exact W]. intros d Hd. now apply is_multispace_iff.
  - eapply head_impl; [|exact H]. intros d Hd. apply not_true_false. now rewrite is_multispace_iff.
Qed.

Definition value_end : parser (list unit) := many0 (alt [br; enum_deprecated]).

Lemma value_end_stop : forall s, value_end (";" ++ s)%string = POk (";" ++ s)%string [].
Proof.
  intro s. apply many0_stop. cbn [alt]. rewrite br_fail by lit. reflexivity.
Qed.

Lemma value_end_gap : forall g u r l, gap g -> solid u -> value_end u = POk r l ->
  exists l', value_end (g ++ u)%string = POk r l'.
Proof.
  intros g u r l G S E. destruct g as [|c g]; [now exists l|]. exists (tt :: l).
  apply (many0_step _ _ _ u); [|now apply slen_grow|exact E].
  cbn [alt]. rewrite br_gap; [reflexivity| |exact S]. split; [exact G|discriminate].
Qed.

Ltac spaces W :=
  match goal with |- context [many0 multispace1 (?w ++ ?u)%string] =>
    let l := fresh in let E := fresh in
    destruct (spaces_ok w u W) as [l E]; [|rewrite E; nf] end.

Lemma value_option_ok : forall o s, value_option o ->
  solid (o ++ ";" ++ s)%string
  /\ exists l, value_end (o ++ ";" ++ s)%string = POk (";" ++ s)%string l.
Proof.
  intros o s [|w1 w2 w3 b w4 g W1 W2 W3 Hb W4 G].
  - split; [lit|]. eexists. apply value_end_stop.
  - split; [lit|]. rewrite !append_assoc.
    destruct (value_end_gap g (";" ++ s)%string _ _ G ltac:(lit) (value_end_stop s)) as [l El].
    exists (tt :: l). apply (many0_step _ _ _ (g ++ ";" ++ s)%string); [| |exact El].
    + cbn [alt]. rewrite br_fail by lit. unfold enum_deprecated. nf.
      rewrite tag_ok; nf.
      spaces W1.
      { lit. }
      rewrite tag_ok; nf.
      spaces W2.
      { lit. }
      rewrite tag_ok; nf.
      spaces W3.
      { destruct (ident_head b Hb) as [Nb Hh]. apply head_app; [exact Nb|].
        eapply head_impl; [|exact Hh]. intros c Hc. chars. lia. }
      rewrite word_ok; [|exact Hb|].
      2: { destruct W4; [lit|]. cbn. chars. lia. }
      nf.
      spaces W4.
      { lit. }
      rewrite tag_ok; nf. reflexivity.
    + rewrite !slen_append. cbn. lia.
Qed.

Lemma enum_value_ok : forall v t s, enum_value_text v t -> enum_field (t ++ s)%string = POk s v.
Proof.
  intros v t s [name g1 g2 n u g3 o Hn G1 G2 Hu G3 Ho].
  unfold enum_field. nf. rewrite !append_assoc.
  rewrite word_ok; [|exact Hn|apply stop_gap; [exact G1|lit]]. nf.
  rewrite br0; [|exact G1|lit]. nf. rewrite tag_ok; nf.
  rewrite br0; [|exact G2|now apply (enum_number_head n)]. nf.
  destruct (value_option_ok o s Ho) as [So [l El]].
  rewrite (enum_number_ok n u); [|exact Hu|].
  2: { apply stop_gap; [exact G3|]. destruct Ho; lit. }
  nf. destruct (value_end_gap g3 _ _ _ G3 So El) as [l' El'].
  unfold value_end in El'. rewrite El'; nf. rewrite tag_ok; nf. reflexivity.
Qed.

Lemma enum_gap : forall g s, break g -> solid s -> enum_event (g ++ s)%string = POk s None.
Proof.
  intros g s G S. unfold enum_event. cbn [alt].
  assert (H : head (fun c => ~ start_char c) (g ++ s)%string).
  { destruct G as [G N]. destruct G; [congruence| | |]; cbn [append head]; chars; cbn; lia. }
  assert (F : enum_field (g ++ s)%string = PErr).
  { unfold enum_field. nf. now rewrite word_fail. }
  assert (F2 : option_ignore (g ++ s)%string = PErr).
  { unfold option_ignore. nf. rewrite tag_head; [reflexivity|].
    eapply head_impl; [|exact H]. intros c Hc ->. apply Hc. left. unfold letter_char. cbn. lia. }
  nf. rewrite F, F2; nf. now rewrite br_gap.
Qed.

Lemma enum_close : forall s, enum_event ("}" ++ s)%string = PErr.
Proof.
  intro s. unfold enum_event. cbn [alt].
  assert (F : enum_field ("}" ++ s)%string = PErr).
  { unfold enum_field. nf. rewrite word_fail; [reflexivity|]. cbn. chars. cbn. lia. }
  nf. rewrite F; nf. unfold option_ignore; nf. rewrite tag_head by (cbn; discriminate). nf.
  rewrite br_fail by lit. reflexivity.
Qed.

Lemma ignored_head : forall t, ignored_option t -> exists u, t = ("option" ++ u)%string.
Proof. intros t [g c u _ _ _ _ _]. now eexists. Qed.

Lemma ignored_not_value : forall t s, ignored_option t -> enum_field (t ++ s)%string = PErr.
Proof.
  intros t s [g c u G B N E O]. rewrite !append_assoc. unfold enum_field. nf.
  rewrite word_ok.
  - nf. rewrite br0; [|apply G|split; assumption]. nf. now rewrite tag_head.
  - constructor; [left; unfold letter_char; cbn; lia|all_lit].
  - destruct G as [G Ng]. destruct G; [congruence| | |]; unfold stop; cbn [append head]; chars; cbn; lia.
Qed.

Lemma solid_close : forall s, solid ("}" ++ s)%string.
Proof. intro s. lit. Qed.

Lemma gap_steps : forall A (p : parser A) (x : A),
  (forall g s, break g -> solid s -> p (g ++ s)%string = POk s x) ->
  forall g u r l, gap g -> solid u -> many0 p u = POk r l ->
  many0 p (g ++ u)%string = POk r (match g with EmptyString => l | _ => x :: l end).
Proof.
  intros A p x H g u r l G S E. destruct g as [|c g]; [exact E|].
  apply (many0_step _ _ _ u); [|now apply slen_grow|exact E].
  apply H; [split; [exact G|discriminate]|exact S].
Qed.

Lemma enum_body_ok : forall vs b, enum_body vs b -> forall s,
  exists evs, many0 enum_event (b ++ "}" ++ s)%string = POk ("}" ++ s)%string evs
    /\ keep_some evs = vs.
Proof.
  intros vs b H. induction H as [g G|g v t vs ts G Hv _ IH|g t vs ts G Ho _ IH]; intro s.
  - pose proof (many0_stop _ _ _ (enum_close s)) as E.
    rewrite (gap_steps _ _ None enum_gap g _ _ _ G (solid_close s) E).
    eexists. split; [reflexivity|]. now destruct g.
  - destruct (IH s) as [evs [E K]]. rewrite !append_assoc.
    assert (Step : many0 enum_event (t ++ ts ++ "}" ++ s)%string
      = POk ("}" ++ s)%string (Some v :: evs)).
    { apply (many0_step _ _ _ (ts ++ "}" ++ s)%string); [| |exact E].
      - unfold enum_event. cbn [alt]. nf. now rewrite (enum_value_ok v t).
      - apply slen_grow. destruct Hv as [name g1 g2 n u g3 o Hn _ _ _ _ _].
        destruct (ident_head name Hn) as [N _]. destruct name; [congruence|discriminate]. }
    assert (St : solid (t ++ ts ++ "}" ++ s)%string).
    { destruct Hv as [name g1 g2 n u g3 o Hn _ _ _ _ _]. rewrite append_assoc. now apply solid_word. }
    rewrite (gap_steps _ _ None enum_gap g _ _ _ G St Step).
    eexists. split; [reflexivity|]. unfold keep_some in *. destruct g; cbn [flat_map app]; now rewrite K.
  - destruct (IH s) as [evs [E K]]. rewrite !append_assoc.
    assert (Step : many0 enum_event (t ++ ts ++ "}" ++ s)%string
      = POk ("}" ++ s)%string (None :: evs)).
    { apply (many0_step _ _ _ (ts ++ "}" ++ s)%string); [| |exact E].
      - unfold enum_event. cbn [alt]. nf. rewrite ignored_not_value by exact Ho.
        now rewrite ignored_ok.
      - apply slen_grow. destruct (ignored_head t Ho) as [u ->]. discriminate. }
    assert (St : solid (t ++ ts ++ "}" ++ s)%string).
    { destruct (ignored_head t Ho) as [u ->]. lit. }
    rewrite (gap_steps _ _ None enum_gap g _ _ _ G St Step).
    eexists. split; [reflexivity|]. unfold keep_some in *. destruct g; cbn [flat_map app]; now rewrite K.
Qed.

(** text that does not go on with a semicolon *)
Definition no_semi (s : text) : Prop :=
  exists g u, gap g /\ s = (g ++ u)%string /\ solid u /\ head (fun c => c <> ";"%char) u.

Lemma semi_ok : forall t s, optional_semi t -> no_semi s ->
  exists o, opt (pair (many0 br) (tag ";")) (t ++ s)%string = POk s o.
Proof.
  intros t s [|g G] [g' [u [G' [-> [Su Hu]]]]]; unfold opt, pair, pbind.
  - cbn [append]. rewrite br0 by assumption. rewrite tag_head by exact Hu. now eexists.
  - rewrite append_assoc. rewrite br0; [|exact G|lit]. rewrite tag_ok. now eexists.
Qed.

Lemma enum_ok : forall e t s, enum_text e t -> no_semi s -> p_enumerator (t ++ s)%string = POk s e.
Proof.
  intros e t s [g1 name g2 vs b sm G1 Hn G2 Hb Hs] Ns.
  destruct (semi_ok sm s Hs Ns) as [o Eo]. unfold opt, pair, pbind in Eo.
  unfold p_enumerator. nf. rewrite !append_assoc. rewrite tag_ok; nf.
  rewrite br1; [|exact G1|now apply solid_word]. nf.
  rewrite word_ok; [|exact Hn|apply stop_gap; [exact G2|lit]]. nf.
  rewrite br0; [|exact G2|lit]. nf. rewrite tag_ok; nf.
  destruct (enum_body_ok vs b Hb (sm ++ s)%string) as [evs [E K]].
  rewrite E; nf. rewrite tag_ok; nf. unfold pret in Eo. rewrite Eo; nf. now rewrite K.
Qed.

(* ---- the events of a message ---- *)

Definition event_of (i : item) : message_event :=
  match i with
  | IField f => EvField f
  | IMessage m => EvMessage m
  | IEnum e => EvEnum e
  | IOneof o => EvOneof o
  | IReservedNums l => EvReservedNums l
  | IReservedNames l => EvReservedNames l
  | INothing => EvIgnore
  end.

Definition same_event (e1 e2 : message_event) : Prop :=
  forall m, add_message_event m e1 = add_message_event m e2.

Lemma break_stop : forall g s, break g -> stop_name (g ++ s)%string.
Proof.
  intros g s [G N]. destruct G; [congruence| | |]; unfold stop_name; cbn [append head]; chars; cbn; lia.
Qed.

Lemma field_first : forall sx pr f t, field_text sx pr f t ->
  exists k u, t = (k ++ u)%string /\ all name_char k /\ k <> "reserved"
    /\ forall s, stop (u ++ s)%string.
Proof.
  intros sx pr f t H.
  destruct H as [l lt ty tt g1 name g2 g3 n nt o ot Hl Ht Hw G1 Hn G2 G3 Hnum Ho].
  destruct Hl as [|l g N G].
  - cbn [append]. specialize (Hw eq_refl). destruct Ht as [ty k H|k [H _]|k v kt vt h1 h2 h3 h4 h5 _ _ H1 _ _ _ _].
    + eexists k, _. split; [reflexivity|]. split.
      { eapply all_impl; [|exact (scalar_words ty k H)]. now left. }
      split; [intros ->; apply Hw; cbn; tauto|]. intro s. rewrite append_assoc.
      apply stop_name_stop. now apply break_stop.
    + eexists k, _. split; [reflexivity|]. split; [now apply type_name_chars|].
      split; [intros ->; apply Hw; cbn; tauto|]. intro s. rewrite append_assoc.
      apply stop_name_stop. now apply break_stop.
    + eexists "map", _. split; [rewrite !append_assoc; reflexivity|].
      split; [all_lit|]. split; [discriminate|]. intro s. rewrite !append_assoc.
      apply stop_gap; [exact H1|lit].
  - eexists (label_word l), _. split; [rewrite !append_assoc; reflexivity|].
    split; [destruct l; [congruence|..]; all_lit|].
    split; [destruct l; discriminate|]. intro s. rewrite append_assoc.
    apply stop_name_stop. now apply break_stop.
Qed.

Lemma reserved_fail : forall k u, all name_char k -> k <> "reserved" -> stop u ->
  reserved_nums (k ++ u)%string = PErr /\ reserved_names (k ++ u)%string = PErr.
Proof.
  intros k u Hk N Hu.
  assert (E : pair (tag "reserved") (many1 br) (k ++ u)%string = PErr).
  { apply keyword_fails; try assumption. all_lit. }
  unfold reserved_nums, reserved_names, delimited, preceded, pmap.
  unfold pbind at 1 2. unfold pbind at 2. now rewrite E.
Qed.

Lemma plain_keyword : forall k, In k ["message"; "enum"; "oneof"; "extensions"; "option"] ->
  plain_name k.
Proof.
  intros k H. split; [|split].
  - apply name_rel, path_one. cbn [In] in H.
    repeat (destruct H as [H|H];
      [subst k; constructor; [left; unfold letter_char; cbn; lia|all_lit]|]). destruct H.
  - intros ty s Hs [b E]. unfold scalar_type in Hs. cbn [In] in H, Hs.
    repeat (destruct H as [H|H];
      [subst k; repeat (destruct Hs as [Hs|Hs]; [injection Hs as <- _; discriminate|]); destruct Hs|]).
    destruct H.
  - cbn [In] in H. intros ->. repeat (destruct H as [H|H]; [discriminate|]). destruct H.
Qed.

(** a statement that begins with a keyword and a name is not a field *)
Lemma statement_not_field : forall sx k g name g2 c s,
  In k ["message"; "enum"; "oneof"; "extensions"; "option"] ->
  break g -> ident name -> gap g2 -> solid_char c -> ~ word_char c -> c <> "="%char ->
  message_field sx (k ++ g ++ name ++ g2 ++ String c s)%string = PErr.
Proof.
  intros sx k g name g2 c s Hk G Hn G2 S W N. unfold message_field.
  apply field_fails; [now apply plain_keyword| |exact G|now apply solid_word|].
  - intro B. cbn [In] in Hk, B.
    repeat (destruct Hk as [Hk|Hk];
      [subst k; repeat (destruct B as [B|B]; [discriminate|]); destruct B|]). destruct Hk.
  - nf. rewrite word_ok; [|exact Hn|apply stop_gap; [exact G2|exact W]]. nf.
    now rewrite equals_fail.
Qed.

Lemma event_fails : forall sx s, head (fun c => ~ start_char c /\ c <> "."%char) s -> solid s ->
  p_message_event sx (p_message sx) s = PErr.
Proof.
  intros sx s H S. unfold p_message_event.
  assert (T : forall c t, start_char c -> tag (String c t) s = PErr).
  { intros c t Hc. apply tag_head. eapply head_impl; [|exact H]. intros d [Hd _] ->. now apply Hd. }
  cbn [alt]. unfold reserved_nums, reserved_names, message_field, p_enumerator, p_one_of,
    p_extensions, option_ignore. nf.
  rewrite !T by (left; unfold letter_char; cbn; lia). nf.
  rewrite field_fails_head by exact H. nf.
  rewrite message_eq. unfold message_body. nf.
  rewrite !T by (left; unfold letter_char; cbn; lia). nf.
  now rewrite br_fail.
Qed.

Lemma event_gap : forall sx g s, break g -> solid s ->
  p_message_event sx (p_message sx) (g ++ s)%string = POk s EvIgnore.
Proof.
  intros sx g s G S.
  assert (H : head (fun c => ~ start_char c /\ c <> "."%char) (g ++ s)%string).
  { destruct G as [G N]. destruct G; [congruence| | |]; cbn [append head]; chars; cbn; lia. }
  unfold p_message_event.
  assert (T : forall c t, start_char c -> tag (String c t) (g ++ s)%string = PErr).
  { intros c t Hc. apply tag_head. eapply head_impl; [|exact H]. intros d [Hd _] ->. now apply Hd. }
  cbn [alt]. unfold reserved_nums, reserved_names, message_field, p_enumerator, p_one_of,
    p_extensions, option_ignore. nf.
  rewrite !T by (left; unfold letter_char; cbn; lia). nf.
  rewrite field_fails_head by exact H. nf.
  rewrite message_eq. unfold message_body. nf.
  rewrite !T by (left; unfold letter_char; cbn; lia). nf.
  now rewrite br_gap.
Qed.

(** a keyword does not begin a text that begins with another keyword *)
Ltac other_keyword :=
  repeat match goal with
  | |- context [tag ?k (?k2 ++ ?s)%string] =>
    replace (tag k (k2 ++ s)%string) with (@PErr text) by reflexivity
  end.

Lemma message_other : forall sx k s, In k ["enum"; "oneof"; "extensions"; "option"] ->
  p_message sx (k ++ s)%string = PErr.
Proof.
  intros sx k s H. rewrite message_eq. unfold message_body. nf. cbn [In] in H.
  repeat (destruct H as [H|H]; [subst k; reflexivity|]). destruct H.
Qed.

Lemma enumerator_other : forall k s, In k ["oneof"; "extensions"; "option"] ->
  p_enumerator (k ++ s)%string = PErr.
Proof.
  intros k s H. cbn [In] in H.
  repeat (destruct H as [H|H]; [subst k; reflexivity|]). destruct H.
Qed.

Lemma oneof_other : forall sx k s, In k ["extensions"; "option"] ->
  p_one_of sx (k ++ s)%string = PErr.
Proof.
  intros sx k s H. cbn [In] in H.
  repeat (destruct H as [H|H]; [subst k; reflexivity|]). destruct H.
Qed.

Lemma extensions_other : forall s, p_extensions ("option" ++ s)%string = PErr.
Proof. intro s. reflexivity. Qed.

Lemma reserved_other : forall k s, In k ["message"; "enum"; "oneof"; "extensions"; "option"] ->
  reserved_nums (k ++ s)%string = PErr /\ reserved_names (k ++ s)%string = PErr.
Proof.
  intros k s H. cbn [In] in H.
  repeat (destruct H as [H|H]; [subst k; split; reflexivity|]). destruct H.
Qed.

Lemma message_option_not_field : forall sx t s, message_option t ->
  message_field sx (t ++ s)%string = PErr.
Proof.
  intros sx t s [g u G O|g k g2 g3 c u G Hk G2 G3 D B N O]; rewrite !append_assoc;
    unfold message_field; apply field_fails.
  - apply plain_keyword. cbn. tauto.
  - cbn. intros [H|[H|[H|[]]]]; discriminate.
  - exact G.
  - lit.
  - nf. rewrite word_fail; [reflexivity|]. cbn. chars. cbn. lia.
  - apply plain_keyword. cbn. tauto.
  - cbn. intros [H|[H|[H|[]]]]; discriminate.
  - exact G.
  - now apply solid_word.
  - nf. rewrite word_ok; [|exact Hk|apply stop_gap; [exact G2|lit]]. nf.
    rewrite equals_ok; [|exact G2|exact G3|split; assumption]. nf. cbn [alt].
    rewrite integer_fail by exact D.
    unfold hex_integer. nf. rewrite tag_head; [reflexivity|]. cbn. intros ->.
    apply D. unfold digit_char. cbn. lia.
Qed.

Lemma extensions_not_field : forall sx t s, extensions_text t ->
  message_field sx (t ++ s)%string = PErr.
Proof.
  intros sx t s [g1 n u g2 g3 e w G1 Hn G2 G3 He W]. rewrite !append_assoc.
  unfold message_field. apply field_fails.
  - apply plain_keyword. cbn. tauto.
  - cbn. intros [H|[H|[H|[]]]]; discriminate.
  - exact G1.
  - now apply (solid_number n).
  - nf. rewrite word_fail; [reflexivity|]. destruct (number_head n u Hn) as [N Hh].
    apply head_app; [exact N|]. eapply head_impl; [|exact Hh]. intros c Hc. chars. lia.
Qed.

Lemma option_shape : forall t, message_option t -> exists u, t = ("option" ++ u)%string.
Proof. intros t [g u _ _|g k g2 g3 c u _ _ _ _ _ _ _ _]; now eexists. Qed.
Lemma extensions_shape : forall t, extensions_text t -> exists u, t = ("extensions" ++ u)%string.
Proof. intros t [g1 n u g2 g3 e w _ _ _ _ _ _]. now eexists. Qed.
Lemma enum_shape : forall e t, enum_text e t -> exists u, t = ("enum" ++ u)%string.
Proof. intros e t [g1 name g2 vs b sm _ _ _ _ _]. now eexists. Qed.
Lemma oneof_shape : forall sx o t, oneof_text sx o t -> exists u, t = ("oneof" ++ u)%string.
Proof. intros sx o t [g1 name g2 fs b _ _ _ _]. now eexists. Qed.
Lemma message_shape : forall sx m t, message_text sx m t -> exists u, t = ("message" ++ u)%string.
Proof. intros sx m t [g1 name g2 is b sm nums names _ _ _ _ _ _ _]. now eexists. Qed.
Lemma nums_shape : forall l t, reserved_nums_text l t -> exists u, t = ("reserved" ++ u)%string.
Proof. intros l t [g1 ls u g2 _ _ _]. now eexists. Qed.
Lemma names_shape : forall l t, reserved_names_text l t -> exists u, t = ("reserved" ++ u)%string.
Proof. intros l t [g1 ls u g2 _ _ _]. now eexists. Qed.

Lemma item_facts : forall sx i t, item_text sx i t ->
  t <> "" /\ forall s, solid (t ++ s)%string /\ head (fun c => c <> ";"%char) (t ++ s)%string.
Proof.
  intros sx i t H.
  assert (L : forall k u, t = (k ++ u)%string -> k <> "" -> head letter_char k ->
    t <> "" /\ forall s, solid (t ++ s)%string /\ head (fun c => c <> ";"%char) (t ++ s)%string).
  { intros k u -> N Hk. destruct k as [|c k]; [congruence|]. split; [discriminate|].
    intro s. cbn in *. split; [chars; lia|]. intros ->. unfold letter_char in Hk. cbn in Hk. lia. }
  assert (F : forall c, letter_char c -> head letter_char (String c "")) by (intros; assumption).
  destruct H as [f t H|m t H|e t H|o t H|l t H|l t H|t H|t H].
  - destruct (field_text_head _ _ _ _ H) as [N Hh]. split; [exact N|]. intro s.
    split; (apply head_app; [exact N|]); (eapply head_impl; [|exact Hh]);
      intros c Hc; [chars; lia|].
    intros ->. chars. cbn in Hc. lia.
  - destruct (message_shape _ _ _ H) as [u E]. apply (L "message" u E); [discriminate|].
    cbn. unfold letter_char. cbn. lia.
  - destruct (enum_shape _ _ H) as [u E]. apply (L "enum" u E); [discriminate|].
    cbn. unfold letter_char. cbn. lia.
  - destruct (oneof_shape _ _ _ H) as [u E]. apply (L "oneof" u E); [discriminate|].
    cbn. unfold letter_char. cbn. lia.
  - destruct (nums_shape _ _ H) as [u E]. apply (L "reserved" u E); [discriminate|].
    cbn. unfold letter_char. cbn. lia.
  - destruct (names_shape _ _ H) as [u E]. apply (L "reserved" u E); [discriminate|].
    cbn. unfold letter_char. cbn. lia.
  - destruct (option_shape _ H) as [u E]. apply (L "option" u E); [discriminate|].
    cbn. unfold letter_char. cbn. lia.
  - destruct (extensions_shape _ H) as [u E]. apply (L "extensions" u E); [discriminate|].
    cbn. unfold letter_char. cbn. lia.
Qed.

Lemma items_no_semi : forall sx is b s, message_items sx is b -> no_semi (b ++ "}" ++ s)%string.
Proof.
  intros sx is b s [g G|g i t is' ts G Hi _].
  - exists g, ("}" ++ s)%string. split; [exact G|]. split; [reflexivity|].
    split; [lit|cbn; discriminate].
  - exists g, (t ++ ts ++ "}" ++ s)%string. split; [exact G|].
    rewrite !append_assoc. split; [reflexivity|]. apply (proj2 (item_facts sx i t Hi)).
Qed.

(* ---- what the loop over the events builds ---- *)

Lemma fold_events : forall l m,
  let m' := fold_left add_message_event (map event_of l) m in
  m_name m' = m_name m /\ m_fields m' = m_fields m ++ item_fields l
  /\ m_oneofs m' = m_oneofs m ++ item_oneofs l
  /\ m_messages m' = m_messages m ++ item_messages l
  /\ m_enums m' = m_enums m ++ item_enums l
  /\ m_reserved_nums m' = fold_left (fun _ r => Some r) (item_nums l) (m_reserved_nums m)
  /\ m_reserved_names m' = fold_left (fun _ r => Some r) (item_names l) (m_reserved_names m)
  /\ m_imported m' = m_imported m /\ m_package m' = m_package m /\ m_module m' = m_module m
  /\ m_index m' = m_index m.
Proof.
  induction l as [|i l IH]; intro m; cbn zeta.
  - cbn. rewrite !app_nil_r. tauto.
  - cbn [map fold_left].
    destruct (IH (add_message_event m (event_of i)))
      as [E1 [E2 [E3 [E4 [E5 [E6 [E7 [E8 [E9 [E10 E11]]]]]]]]]].
    cbn zeta in *. rewrite E1, E2, E3, E4, E5, E6, E7, E8, E9, E10, E11.
    destruct i; cbn; rewrite <- ?app_assoc; cbn; tauto.
Qed.

Lemma built_message : forall name is nums names,
  at_most_one (item_nums is) nums -> at_most_one (item_names is) names ->
  fold_left add_message_event (map event_of is) (new_message name)
  = mkMessage name (item_fields is) (item_oneofs is) nums names false ""
              (item_messages is) (item_enums is) "" [].
Proof.
  intros name is nums names H1 H2.
  destruct (fold_events is (new_message name))
    as [E1 [E2 [E3 [E4 [E5 [E6 [E7 [E8 [E9 [E10 E11]]]]]]]]]]. cbn zeta in *.
  destruct (fold_left add_message_event (map event_of is) (new_message name)).
  cbn in *. subst.
  f_equal.
  - destruct nums; cbn in H1; now rewrite H1.
  - destruct names; cbn in H2; now rewrite H2.
Qed.

Lemma close_head : forall s, head (fun c => ~ start_char c /\ c <> "."%char) ("}" ++ s)%string.
Proof. intro s. cbn. split; [chars; cbn; lia|discriminate]. Qed.

Scheme message_text_mind := Minimality for message_text Sort Prop
  with message_items_mind := Minimality for message_items Sort Prop
  with item_text_mind := Minimality for item_text Sort Prop.
Combined Scheme message_mutual from message_text_mind, message_items_mind, item_text_mind.

Lemma messages_ok : forall sx,
  (forall m t, message_text sx m t -> forall s, no_semi s -> p_message sx (t ++ s)%string = POk s m)
  /\ (forall is b, message_items sx is b -> forall s, exists evs,
       many0 (p_message_event sx (p_message sx)) (b ++ "}" ++ s)%string = POk ("}" ++ s)%string evs
       /\ forall m, fold_left add_message_event evs m
                    = fold_left add_message_event (map event_of is) m)
  /\ (forall i t, item_text sx i t -> forall s, no_semi s -> exists ev,
       p_message_event sx (p_message sx) (t ++ s)%string = POk s ev
       /\ same_event ev (event_of i)).
Proof.
  intro sx. apply message_mutual.
  - intros g1 name g2 is b sm nums names G1 Hn G2 Hb IH Hs N1 N2 s Ns.
    destruct (semi_ok sm s Hs Ns) as [o Eo]. unfold opt, pair, pbind, pret in Eo.
    rewrite message_eq. unfold message_body. nf. rewrite !append_assoc. rewrite tag_ok; nf.
    rewrite br1; [|exact G1|now apply solid_word]. nf.
    rewrite word_ok; [|exact Hn|apply stop_gap; [exact G2|lit]]. nf.
    rewrite br0; [|exact G2|lit]. nf. rewrite tag_ok; nf.
    destruct (IH (sm ++ s)%string) as [evs [E K]].
    rewrite E; nf. rewrite tag_ok; nf. rewrite Eo; nf.
    rewrite K. now rewrite (built_message name is nums names N1 N2).
  - intros g G s.
    pose proof (many0_stop _ (p_message_event sx (p_message sx)) ("}" ++ s)%string) as E.
    rewrite (gap_steps _ _ EvIgnore (event_gap sx) g _ _ _ G (solid_close s)
      (E (event_fails sx _ (close_head s) (solid_close s)))).
    eexists. split; [reflexivity|]. intro m. now destruct g.
  - intros g i t is ts G Hi IHi Hts IH s.
    destruct (IH s) as [evs [E K]]. rewrite !append_assoc.
    destruct (item_facts sx i t Hi) as [N Hso].
    destruct (IHi (ts ++ "}" ++ s)%string (items_no_semi sx is ts s Hts)) as [ev [Ei Ke]].
    pose proof (many0_step _ _ _ _ _ _ _ Ei (slen_grow t _ N) E) as Step.
    rewrite (gap_steps _ _ EvIgnore (event_gap sx) g _ _ _ G (proj1 (Hso _)) Step).
    eexists. split; [reflexivity|]. intro m. destruct g; cbn [fold_left map]; rewrite K.
    + now rewrite Ke.
    + cbn [add_message_event]. now rewrite Ke.
  - intros f t H s _. exists (EvField f). split; [|intro m; reflexivity].
    unfold p_message_event. cbn [alt]. nf.
    destruct (field_first _ _ _ _ H) as [k [u [-> [Hk [Nk Hu]]]]].
    rewrite append_assoc.
    destruct (reserved_fail k (u ++ s)%string Hk Nk (Hu s)) as [-> ->].
    rewrite <- append_assoc. now rewrite (message_field_ok sx f).
  - intros m t H IH s Ns. exists (EvMessage m). split; [|intro; reflexivity].
    specialize (IH s Ns). unfold p_message_event. cbn [alt]. nf.
    assert (F : message_field sx (t ++ s)%string = PErr
      /\ reserved_nums (t ++ s)%string = PErr /\ reserved_names (t ++ s)%string = PErr).
    { destruct H as [g1 name g2 is b sm nums names G1 Hn G2 _ _ _ _]. rewrite !append_assoc.
      split; [|apply reserved_other; cbn; tauto].
      apply statement_not_field; try assumption; try (cbn; tauto); try discriminate;
        chars; cbn; lia. }
    destruct F as [-> [-> ->]]. now rewrite IH.
  - intros e t H s Ns. exists (EvEnum e). split; [|intro; reflexivity].
    unfold p_message_event. cbn [alt]. nf.
    assert (F : message_field sx (t ++ s)%string = PErr
      /\ reserved_nums (t ++ s)%string = PErr /\ reserved_names (t ++ s)%string = PErr
      /\ p_message sx (t ++ s)%string = PErr).
    { destruct H as [g1 name g2 vs b sm G1 Hn G2 _ _]. rewrite !append_assoc.
      split; [|].
      - apply statement_not_field; try assumption; try (cbn; tauto); try discriminate;
          chars; cbn; lia.
      - pose proof (reserved_other "enum") as R.
        split; [apply R; cbn; tauto|]. split; [apply R; cbn; tauto|].
        apply message_other. cbn. tauto. }
    destruct F as [-> [-> [-> ->]]]. now rewrite (enum_ok e).
  - intros o t H s Ns. exists (EvOneof o). split; [|intro; reflexivity].
    unfold p_message_event. cbn [alt]. nf.
    assert (F : message_field sx (t ++ s)%string = PErr
      /\ reserved_nums (t ++ s)%string = PErr /\ reserved_names (t ++ s)%string = PErr
      /\ p_message sx (t ++ s)%string = PErr /\ p_enumerator (t ++ s)%string = PErr).
    { destruct H as [g1 name g2 fs b G1 Hn G2 _]. rewrite !append_assoc.
      split; [|].
      - apply statement_not_field; try assumption; try (cbn; tauto); try discriminate;
          chars; cbn; lia.
      - pose proof (reserved_other "oneof") as R.
        split; [apply R; cbn; tauto|]. split; [apply R; cbn; tauto|].
        split; [apply message_other; cbn; tauto|apply enumerator_other; cbn; tauto]. }
    destruct F as [-> [-> [-> [-> ->]]]]. now rewrite (oneof_ok sx o).
  - intros l t H s _. exists (EvReservedNums l). split; [|intro; reflexivity].
    unfold p_message_event. cbn [alt]. nf. now rewrite (reserved_nums_ok l t).
  - intros l t H s _. exists (EvReservedNames l). split; [|intro; reflexivity].
    unfold p_message_event. cbn [alt]. nf. now destruct (reserved_names_ok l t s H) as [-> ->].
  - intros t H s _. exists EvIgnore. split; [|intro; reflexivity].
    unfold p_message_event. cbn [alt]. nf.
    pose proof (message_option_not_field sx t s H) as F.
    pose proof (message_option_ok t s H) as E.
    destruct (option_shape t H) as [u ->]. rewrite append_assoc in *.
    destruct (reserved_other "option" (u ++ s)%string) as [-> ->]; [cbn; tauto|].
    rewrite F, message_other by (cbn; tauto).
    rewrite enumerator_other by (cbn; tauto). rewrite oneof_other by (cbn; tauto).
    rewrite extensions_other. now rewrite E.
  - intros t H s _. destruct (extensions_ok t s H) as [e E].
    exists (EvExtensions e). split; [|intro; reflexivity].
    unfold p_message_event. cbn [alt]. nf.
    pose proof (extensions_not_field sx t s H) as F.
    destruct (extensions_shape t H) as [u ->]. rewrite append_assoc in *.
    destruct (reserved_other "extensions" (u ++ s)%string) as [-> ->]; [cbn; tauto|].
    rewrite F, message_other by (cbn; tauto).
    rewrite enumerator_other by (cbn; tauto). rewrite oneof_other by (cbn; tauto).
    now rewrite E.
Qed.

Lemma message_ok : forall sx m t s, message_text sx m t -> no_semi s ->
  p_message sx (t ++ s)%string = POk s m.
Proof. intros sx m t s H Ns. now apply messages_ok. Qed.
