(** The parser on the texts of fields (ProtoText.v). *)
From Coq Require Import String Ascii Arith Lia.
From Verif Require Import Base Schema Modules Parser ParserFacts ProtoText TextFacts.
Import StringSyntax.
Local Open Scope string_scope.
Local Open Scope list_scope.

(* ---- numbers ---- *)

Lemma radix_value_app : forall r a b acc,
  radix_value r acc (a ++ b)%string = radix_value r (radix_value r acc a) b.
Proof. induction a as [|c a IH]; intros b acc; cbn; [reflexivity|]. apply IH. Qed.

Lemma digit_code : forall d, (d <= 9)%nat -> nat_of_ascii (ascii_of_nat (48 + d)) = (48 + d)%nat.
Proof. intros d H. apply nat_ascii_embedding. lia. Qed.

Lemma digit_char_text : forall d, (d <= 9)%nat -> digit_char (ascii_of_nat (48 + d)).
Proof. intros d H. unfold digit_char. rewrite digit_code by exact H. lia. Qed.

Lemma digit_value_text : forall d, (d <= 9)%nat -> digit_value (ascii_of_nat (48 + d)) = Z.of_nat d.
Proof.
  intros d H. unfold digit_value.
  rewrite (proj2 (is_digit_iff _) (digit_char_text d H)). unfold code.
  rewrite digit_code by exact H. lia.
Qed.

Lemma decimal_facts : forall n t, decimal n t ->
  t <> "" /\ all digit_char t /\ radix_value 10 0 t = n /\ (0 <= n)%Z.
Proof.
  intros n t H. induction H as [d Hd|n t d Hn [N [A [V P]]] Hp Hd].
  - unfold digit_text. split; [discriminate|]. split.
    { constructor; [now apply digit_char_text|constructor]. }
    cbn [radix_value]. rewrite digit_value_text by exact Hd. lia.
  - split; [destruct t; [congruence|discriminate]|]. split.
    { apply all_app; [exact A|]. constructor; [now apply digit_char_text|constructor]. }
    rewrite radix_value_app, V. unfold digit_text. cbn [radix_value].
    rewrite digit_value_text by exact Hd. lia.
Qed.

Definition no_digit : text -> Prop := head (fun c => ~ digit_char c).

Lemma digits_ok : forall t s, t <> "" -> all digit_char t -> no_digit s ->
  digit1 (t ++ s)%string = POk s t.
Proof.
  intros t s N A H. unfold digit1. apply chars1_ok; [exact N| |].
  - eapply all_impl; [|exact A]. intros c Hc. now apply is_digit_iff.
  - eapply head_impl; [|exact H]. intros c Hc. apply not_true_false. now rewrite is_digit_iff.
Qed.

Lemma integer_ok : forall n t s, number n t -> no_digit s -> integer (t ++ s)%string = POk s n.
Proof.
  intros n t s [H L] Hs. destruct (decimal_facts n t H) as [N [A [V P]]].
  unfold integer, map_res, pbind. rewrite digits_ok by assumption.
  unfold parse_digits. rewrite V. unfold max_i32, i32_max in *.
  now rewrite (proj2 (Z.leb_le _ _) L).
Qed.

Lemma integer_fail : forall s, no_digit s -> integer s = PErr.
Proof.
  intros s H. unfold integer, map_res, pbind, digit1. rewrite chars1_err; [reflexivity|].
  eapply head_impl; [|exact H]. intros c Hc. apply not_true_false. now rewrite is_digit_iff.
Qed.

Lemma number_head : forall n t, number n t -> t <> "" /\ head digit_char t.
Proof.
  intros n t [H _]. destruct (decimal_facts n t H) as [N [A _]]. split; [exact N|].
  destruct A; [congruence|assumption].
Qed.

Lemma no_digit_gap : forall g s, gap g -> no_digit s -> no_digit (g ++ s)%string.
Proof.
  intros g s Hg Hs. apply gap_head; [exact Hg| | |exact Hs]; intros; chars; cbn; lia.
Qed.

(** one step of the combinators that sequence parsers *)
Ltac nf :=
  cbv beta iota delta
    [pmap pvalue map_res delimited preceded terminated separated_pair pair pbind pret verify opt].

(** every character of a literal *)
Ltac all_lit :=
  repeat (apply all_cons; [unfold name_char, word_char, start_char, letter_char, digit_char; cbn; lia|]);
  apply all_nil.

(** the head of a text that begins with a literal *)
Ltac lit :=
  unfold solid, stop, stop_name, no_digit; cbn [append head]; chars; cbn; try lia.

Lemma solid_word : forall t s, ident t -> solid (t ++ s)%string.
Proof.
  intros t s H. destruct (ident_head t H) as [N Hh]. apply head_app; [exact N|].
  eapply head_impl; [|exact Hh]. intros c Hc. apply name_solid. now left; left.
Qed.

Lemma solid_number : forall n t s, number n t -> solid (t ++ s)%string.
Proof.
  intros n t s H. destruct (number_head n t H) as [N Hh]. apply head_app; [exact N|].
  eapply head_impl; [|exact Hh]. intros c Hc. chars. lia.
Qed.

Lemma solid_name : forall t s, type_name t -> solid (t ++ s)%string.
Proof.
  intros t s H. destruct (type_name_head t H) as [N Hh]. apply head_app; [exact N|].
  eapply head_impl; [|exact Hh]. intros c Hc. chars. lia.
Qed.

Lemma equals_ok : forall g1 g2 s, gap g1 -> gap g2 -> solid s ->
  equals (g1 ++ "=" ++ g2 ++ s)%string = POk s "=".
Proof.
  intros g1 g2 s H1 H2 Hs. unfold equals, delimited, preceded, terminated, pbind.
  rewrite br0; [|exact H1|lit]. rewrite tag_ok. rewrite br0 by assumption. reflexivity.
Qed.

(** ... and when something else than an equals sign comes *)
Lemma equals_fail : forall g s, gap g -> solid s -> head (fun c => c <> "="%char) s ->
  equals (g ++ s)%string = PErr.
Proof.
  intros g s Hg Hs Hn. unfold equals, delimited, preceded, terminated, pbind.
  rewrite br0 by assumption. now rewrite tag_head.
Qed.

(* ---- strings ---- *)

Lemma string_ok : forall v t s, quoted v t -> p_string (t ++ s)%string = POk s v.
Proof.
  intros v t s [N ->]. unfold p_string, delimited, preceded, terminated, pbind.
  change quote with dq. rewrite !append_assoc, tag_ok.
  unfold dq at 1 2. rewrite take_until_char by exact N. fold dq. now rewrite tag_ok.
Qed.

Lemma string_fail : forall s, head (fun c => c <> ascii_of_nat 34) s -> p_string s = PErr.
Proof.
  intros s H. unfold p_string, delimited, preceded, terminated, pbind.
  unfold quote, dquote. now rewrite tag_head.
Qed.

Lemma solid_quoted : forall v t s, quoted v t -> solid (t ++ s)%string.
Proof. intros v t s [_ ->]. cbn [append dq head solid]. unfold solid, head. lit. Qed.

(* ---- keywords in front of other text ---- *)

(** a word that is a prefix of a text followed by something that is not part of
    a word is a prefix of the text *)
Lemma prefix_stop : forall k t s, all word_char k -> stop s ->
  String.prefix k (t ++ s)%string = true -> String.prefix k t = true.
Proof.
  intros k t s Hk. revert t. induction Hk as [|c k Hc _ IH]; intros t Hs H; [now destruct t|].
  destruct t as [|d t].
  - destruct s as [|e s]; [discriminate|]. cbn [append] in H. apply prefix_cons in H.
    destruct H as [<- _]. now elim Hs.
  - cbn [append] in H. apply prefix_cons in H. destruct H as [-> H].
    apply prefix_cons. split; [reflexivity|]. now apply IH.
Qed.

Lemma all_app_inv : forall P a b, all P (a ++ b)%string -> all P a /\ all P b.
Proof.
  induction a as [|c a IH]; intros b H; cbn in H; [split; [constructor|exact H]|].
  inversion H as [|c' t' Hc Ht]; subst. destruct (IH b Ht) as [Ha Hb].
  split; [now constructor|exact Hb].
Qed.

(** a keyword and a gap do not begin a text that begins with another name *)
Lemma keyword_fails : forall k t s, all word_char k -> all name_char t -> t <> k -> stop s ->
  pair (tag k) (many1 br) (t ++ s)%string = PErr.
Proof.
  intros k t s Hk Ht N Hs. unfold pair, pbind. unfold tag.
  destruct (String.prefix k (t ++ s)%string) eqn:E; [|reflexivity].
  apply prefix_stop in E; [|exact Hk|exact Hs].
  apply prefix_true in E. destruct E as [b ->]. rewrite append_assoc, drop_app.
  apply all_app_inv in Ht. destruct Ht as [_ Hb].
  destruct Hb as [|c b Hc Hb]; [now rewrite append_nil_r in N|].
  rewrite br1_fail; [reflexivity|]. cbn. now apply name_solid.
Qed.

Lemma label_fails : forall t s, all name_char t -> stop s ->
  ~ In t ["optional"; "repeated"; "required"] ->
  terminated p_frequency (many1 br) (t ++ s)%string = PErr.
Proof.
  intros t s Ht Hs N.
  assert (H : forall k, all word_char k -> t <> k ->
    tag k (t ++ s)%string = PErr
    \/ exists r, tag k (t ++ s)%string = POk r k /\ many1 br r = PErr).
  { intros k Hk Nk. pose proof (keyword_fails k t s Hk Ht Nk Hs) as F.
    unfold pair, pbind in F. unfold tag in *.
    destruct (String.prefix k (t ++ s)%string); [|now left]. right.
    eexists. split; [reflexivity|].
    destruct (many1 br (drop (slen k) (t ++ s)%string)); [discriminate|reflexivity|discriminate..]. }
  unfold terminated, p_frequency, pvalue, pmap, pbind. cbn [alt].
  assert (W : forall k, In k ["optional"; "repeated"; "required"] -> all word_char k).
  { intros k Hk. cbn in Hk.
    destruct Hk as [<-|[<-|[<-|[]]]]; all_lit. }
  cbn [In] in N.
  destruct (H "optional") as [E|[r [E F]]]; [apply W; cbn; tauto|intros ->; apply N; auto| |]; rewrite E.
  2: { unfold pret. cbv beta iota. now rewrite F. }
  destruct (H "repeated") as [E2|[r [E2 F]]]; [apply W; cbn; tauto|intros ->; apply N; auto| |]; rewrite E2.
  2: { unfold pret. cbv beta iota. now rewrite F. }
  destruct (H "required") as [E3|[r [E3 F]]]; [apply W; cbn; tauto|intros ->; apply N; auto| |]; rewrite E3.
  2: { unfold pret. cbv beta iota. now rewrite F. }
  reflexivity.
Qed.

(* ---- types ---- *)

Lemma scalar_words : forall t k, scalar_type t k -> all word_char k.
Proof.
  intros t k H. unfold scalar_type in H. cbn [In] in H.
  repeat (destruct H as [H|H];
    [injection H as <- _; all_lit|]).
  destruct H.
Qed.

Lemma scalar_parsed : forall ft t k s, scalar_type t k ->
  field_type_body ft (k ++ s)%string = POk s t.
Proof.
  intros ft t k s H. unfold scalar_type in H. cbn [In] in H.
  repeat (destruct H as [H|H]; [injection H as <- <-; destruct s; reflexivity|]).
  destruct H.
Qed.

(** the table of the model and the table of the specification agree *)
Lemma scalars_scalar : forall k t, In (k, t) scalars -> scalar_type t k.
Proof.
  intros k t H. unfold scalars in H. unfold scalar_type. cbn [In] in *.
  repeat (destruct H as [H|H]; [injection H as <- <-; tauto|]). destruct H.
Qed.

Lemma alt_skip : forall A (ps qs : list (parser A)) s,
  Forall (fun p => p s = PErr) ps -> alt (ps ++ qs) s = alt qs s.
Proof.
  intros A ps qs s H. induction H as [|p ps Hp _ IH]; [reflexivity|].
  cbn [app alt]. now rewrite Hp.
Qed.

Lemma scalars_fail : forall s, (forall k t, In (k, t) scalars -> String.prefix k s = false) ->
  Forall (fun p => p s = PErr) (map (fun '(k, t) => pvalue t (tag k)) scalars).
Proof.
  intros s H. apply Forall_forall. intros p Hp. apply in_map_iff in Hp.
  destruct Hp as [[k t] [<- Hin]]. unfold pvalue, pmap, pbind, tag. now rewrite (H k t Hin).
Qed.

Lemma map_fails : forall ft t s, all name_char t -> t <> "map" -> stop s ->
  map_field ft (t ++ s)%string = PErr.
Proof.
  intros ft t s Ht N Hs. unfold map_field, delimited, preceded, pair, pbind.
  unfold tag at 1. destruct (String.prefix "map" (t ++ s)%string) eqn:E; [|reflexivity].
  apply prefix_stop in E; [|all_lit|exact Hs].
  apply prefix_true in E. destruct E as [b ->]. rewrite append_assoc, drop_app.
  apply all_app_inv in Ht. destruct Ht as [_ Hb].
  destruct Hb as [|c b Hc Hb]; [now rewrite append_nil_r in N|].
  rewrite br0_solid by (cbn; now apply name_solid).
  rewrite tag_head; [reflexivity|]. cbn. intros ->. chars. cbn in Hc. lia.
Qed.

Lemma name_parsed : forall ft t s, plain_name t -> stop_name s ->
  field_type_body ft (t ++ s)%string = POk s (TMessageOrEnum t).
Proof.
  intros ft t s [Ht [Hk Nm]] Hs. pose proof (stop_name_stop s Hs) as Hst.
  unfold field_type_body. rewrite alt_skip.
  - cbn [alt]. unfold pmap, pbind.
    rewrite map_fails by (try assumption; now apply type_name_chars).
    now rewrite qualifiable_ok.
  - apply scalars_fail. intros k ty Hin. apply not_true_false. intro E.
    apply scalars_scalar in Hin. apply prefix_stop in E; [|now apply (scalar_words ty)|exact Hst].
    apply prefix_true in E. now apply (Hk ty k Hin).
Qed.

(** text that may follow a type *)
Lemma type_text_head : forall ty t, type_text ty t ->
  t <> "" /\ head (fun c => start_char c \/ c = "."%char) t.
Proof.
  intros ty t H. destruct H as [ty k H|t [H _]|k v kt vt g1 g2 g3 g4 g5].
  - unfold scalar_type in H. cbn [In] in H.
    repeat (destruct H as [H|H];
      [injection H as <- _; split; [discriminate|cbn; left; left; unfold letter_char; cbn; lia]|]).
    destruct H.
  - now apply type_name_head.
  - split; [discriminate|]. cbn. left. left. unfold letter_char. cbn. lia.
Qed.

Lemma solid_type : forall ty t s, type_text ty t -> solid (t ++ s)%string.
Proof.
  intros ty t s H. destruct (type_text_head ty t H) as [N Hh]. apply head_app; [exact N|].
  eapply head_impl; [|exact Hh]. intros c Hc. chars. lia.
Qed.

Lemma map_keyword : forall ft s, field_type_body ft ("map" ++ s)%string
  = alt [pmap (map_field ft) (fun '(k, v) => TMap k v); pmap qualifiable_name TMessageOrEnum]
        ("map" ++ s)%string.
Proof.
  intros ft s. unfold field_type_body. apply alt_skip. apply scalars_fail.
  intros k t H. unfold scalars in H. cbn [In] in H.
  repeat (destruct H as [H|H]; [injection H as <- _; reflexivity|]). destruct H.
Qed.

Lemma type_ok : forall ty t, type_text ty t -> forall s, stop_name s ->
  p_field_type (t ++ s)%string = POk s ty.
Proof.
  intros ty t H. induction H as [ty k H|t H|k v kt vt g1 g2 g3 g4 g5 Hk IHk Hv IHv G1 G2 G3 G4 G5];
    intros s Hs; rewrite field_type_eq.
  - now apply scalar_parsed.
  - now apply name_parsed.
  - rewrite !append_assoc. rewrite map_keyword. cbn [alt].
    unfold map_field. nf.
    rewrite tag_ok; nf. rewrite br0; [|exact G1|lit]. nf. rewrite tag_ok; nf.
    rewrite br0; [|exact G2|now apply (solid_type k)]. nf.
    rewrite IHk by (apply stop_name_gap; [exact G3|lit]). nf.
    rewrite br0; [|exact G3|lit]. nf. rewrite tag_ok; nf.
    rewrite br0; [|exact G4|now apply (solid_type v)]. nf.
    rewrite IHv by (apply stop_name_gap; [exact G5|lit]). nf.
    rewrite br0; [|exact G5|lit]. nf. rewrite tag_ok; nf. reflexivity.
Qed.

(* ---- options ---- *)

Lemma trim_end_blank : forall w, all trimmed_char w -> trim_end w = "".
Proof.
  intros w H. induction H as [|c w Hc _ IH]; [reflexivity|]. cbn [trim_end]. rewrite IH.
  now rewrite (proj2 (is_whitespace_iff c) Hc).
Qed.

Lemma trim_end_ok : forall u c w, ~ trimmed_char c -> all trimmed_char w ->
  trim_end (u ++ String c w)%string = (u ++ String c "")%string.
Proof.
  intros u c w Hc Hw. induction u as [|d u IH]; cbn [append trim_end].
  - rewrite trim_end_blank by exact Hw.
    destruct (is_whitespace c) eqn:E; [|reflexivity]. now apply is_whitespace_iff in E.
  - rewrite IH. destruct (u ++ String c "")%string eqn:E; [destruct u; discriminate|reflexivity].
Qed.

Lemma trim_ok : forall v w, value_text v -> all trimmed_char w -> trim (v ++ w)%string = v.
Proof.
  intros v w [[c [u [E [Hc _]]]] [[u' [d [E' Hd]]] _]] Hw. unfold trim.
  rewrite span_head.
  - cbn [snd]. rewrite E'. rewrite append_assoc. cbn [append]. now apply trim_end_ok.
  - rewrite E. cbn. apply not_true_false. now rewrite is_whitespace_iff.
Qed.

Lemma blank_trimmed : forall c, blank_char c -> trimmed_char c.
Proof. intros c H. unfold blank_char, trimmed_char in *. cbn in H. lia. Qed.

Lemma occurs_app_not : forall c a b, ~ occurs (String c "") a -> ~ occurs (String c "") b ->
  ~ occurs (String c "") (a ++ b)%string.
Proof.
  intros c a b Ha Hb [x [y E]]. revert x E. induction a as [|d a IH]; intros x E.
  - apply Hb. now exists x, y.
  - destruct x as [|e x].
    + cbn in E. injection E as -> _. apply Ha. now exists "", a.
    + cbn in E. injection E as -> E. apply (IH) with (x := x); [|exact E].
      intros [p [q ->]]. apply Ha. now exists (String e p), q.
Qed.

Lemma all_not_occurs : forall c t, all (fun d => d <> c) t -> ~ occurs (String c "") t.
Proof.
  intros c t H. induction H as [|d t Hd _ IH]; intros [x [y E]]; [destruct x; discriminate|].
  destruct x as [|e x]; cbn in E; injection E as E1 E2; [congruence|].
  apply IH. now exists x, y.
Qed.

Lemma blank_no_bracket : forall w, all blank_char w -> ~ occurs "]" w.
Proof.
  intros w H. apply all_not_occurs. eapply all_impl; [|exact H].
  intros c Hc ->. unfold blank_char in Hc. cbn in Hc. lia.
Qed.

Lemma value_solid : forall v s, value_text v -> solid (v ++ s)%string.
Proof.
  intros v s [[c [u [-> [Hc Hn]]]] _]. cbn. split; [|exact Hn].
  intro B. now apply Hc, blank_trimmed.
Qed.

Lemma key_val_ok : forall k v t s, key_value k v t -> ident k -> value_text v ->
  key_val (t ++ s)%string = POk s (k, v).
Proof.
  intros k v t s [g1 [g2 [g3 [w [G1 [G2 [G3 [W ->]]]]]]]] Hk Hv.
  unfold key_val. nf. rewrite !append_assoc. rewrite tag_ok; nf.
  rewrite br0; [|exact G1|now apply solid_word]. nf.
  rewrite word_ok; [|exact Hk|apply stop_gap; [exact G2|lit]]. nf.
  rewrite equals_ok; [|exact G2|exact G3|now apply value_solid]. nf.
  rewrite <- append_assoc.
  rewrite (take_until_char "]").
  2: { apply occurs_app_not; [exact (proj2 (proj2 Hv))|now apply blank_no_bracket]. }
  nf. rewrite trim_ok; [|exact Hv|eapply all_impl; [|exact W]; apply blank_trimmed].
  rewrite tag_ok; nf. reflexivity.
Qed.

Lemma key_val_fail : forall s, head (fun c => c <> "["%char) s -> key_val s = PErr.
Proof. intros s H. unfold key_val. nf. now rewrite tag_head. Qed.

Lemma bool_value : forall b, value_text (bool_word b).
Proof.
  intros [|]; cbn [bool_word].
  - split; [exists "t"%char, "rue"; split; [reflexivity|]; split; [unfold trimmed_char; cbn; lia|discriminate]|].
    split; [exists "tru", "e"%char; split; [reflexivity|unfold trimmed_char; cbn; lia]|].
    apply all_not_occurs. repeat (apply all_cons; [discriminate|]). apply all_nil.
  - split; [exists "f"%char, "alse"; split; [reflexivity|]; split; [unfold trimmed_char; cbn; lia|discriminate]|].
    split; [exists "fals", "e"%char; split; [reflexivity|unfold trimmed_char; cbn; lia]|].
    apply all_not_occurs. repeat (apply all_cons; [discriminate|]). apply all_nil.
Qed.

(** the key and the value an option stands for *)
Inductive option_kv (sx : syntax) (ty : field_type) : field_option -> list (text * text) -> Prop :=
| kv_none : option_kv sx ty ONone []
| kv_packed b : option_kv sx ty (OPacked b) [("packed", bool_word b)]
| kv_deprecated b : option_kv sx ty (ODeprecated b) [("deprecated", bool_word b)]
| kv_default d v : default_text sx ty d v -> option_kv sx ty (ODefault d) [("default", v)]
| kv_other k v : k <> "packed" -> k <> "deprecated" -> k <> "default" ->
    option_kv sx ty (OOther k v) [(k, v)].

Lemma option_ok : forall sx ty o t, option_text sx ty o t ->
  exists kv, option_kv sx ty o [kv] /\ forall s, key_val (t ++ s)%string = POk s kv.
Proof.
  intros sx ty o t H. destruct H as [b t H|b t H|d v t D V H|k v t K N1 N2 N3 V H].
  - exists ("packed", bool_word b). split; [constructor|]. intro s.
    apply key_val_ok; [exact H| |apply bool_value]. constructor; [left; unfold letter_char; cbn; lia|all_lit].
  - exists ("deprecated", bool_word b). split; [constructor|]. intro s.
    apply key_val_ok; [exact H| |apply bool_value]. constructor; [left; unfold letter_char; cbn; lia|all_lit].
  - exists ("default", v). split; [now constructor|]. intro s.
    apply key_val_ok; [exact H| |exact V]. constructor; [left; unfold letter_char; cbn; lia|all_lit].
  - exists (k, v). split; [now constructor|]. intro s. now apply key_val_ok.
Qed.

Definition field_end : parser (list (text * text)) :=
  delimited (many0 br) (many0 key_val) (pair (many0 br) (tag ";")).

Lemma option_text_head : forall sx ty o t, option_text sx ty o t -> exists u, t = String "[" u.
Proof.
  intros sx ty o t H.
  destruct H as [b t H|b t H|d v t D V H|k v t K N1 N2 N3 V H];
    destruct H as [g1 [g2 [g3 [w [_ [_ [_ [_ ->]]]]]]]]; eexists; reflexivity.
Qed.

Lemma tail_ok : forall sx ty o t s, field_tail sx ty o t ->
  exists kvs, option_kv sx ty o kvs /\ field_end (t ++ s)%string = POk s kvs.
Proof.
  intros sx ty o t s H. destruct H as [g G|o g1 t g2 G1 H G2].
  - exists []. split; [constructor|]. unfold field_end. nf. rewrite append_assoc.
    rewrite br0; [|exact G|lit]. nf.
    rewrite many0_eq, key_val_fail by (cbn; discriminate). nf.
    rewrite br0_solid by lit. nf. rewrite tag_ok; nf. reflexivity.
  - destruct (option_ok sx ty o t H) as [kv [Hkv E]]. exists [kv]. split; [exact Hkv|].
    destruct (option_text_head sx ty o t H) as [u Eu].
    unfold field_end. nf. rewrite !append_assoc.
    rewrite br0; [|exact G1|rewrite Eu; lit]. nf.
    rewrite many0_eq, E.
    replace (slen (g2 ++ ";" ++ s)%string <? slen (t ++ g2 ++ ";" ++ s)%string)%nat with true.
    2: { symmetry. apply Nat.ltb_lt. rewrite (slen_append t), Eu. cbn. lia. }
    rewrite many0_eq, key_val_fail.
    2: { apply gap_head; [exact G2| | |]; try discriminate.
         - intros c B ->. unfold blank_char in B. cbn in B. lia. }
    nf. rewrite br0; [|exact G2|lit]. nf. rewrite tag_ok; nf. reflexivity.
Qed.

(* ---- fields ---- *)

Definition token_of (l : label) : option freq_token :=
  match l with
  | LNone => None | LOptional => Some TokOptional
  | LRepeated => Some TokRepeated | LRequired => Some TokRequired
  end.

Lemma label_ok : forall l lt ty tt s, label_text l lt -> type_text ty tt ->
  (l = LNone -> ~ In tt statement_words) -> stop_name s ->
  opt (terminated p_frequency (many1 br)) (lt ++ tt ++ s)%string
  = POk (tt ++ s)%string (token_of l).
Proof.
  intros l lt ty tt s Hl Ht Hw Hs. destruct Hl as [|l g N G].
  - cbn [append token_of]. unfold opt. specialize (Hw eq_refl).
    replace (terminated p_frequency (many1 br) (tt ++ s)%string) with (@PErr freq_token);
      [reflexivity|].
    symmetry. pose proof (stop_name_stop s Hs) as Hst.
    destruct Ht as [ty k H|t [H _]|k v kt vt g1 g2 g3 g4 g5].
    + apply label_fails; [|exact Hst|].
      * eapply all_impl; [|exact (scalar_words ty k H)]. now left.
      * intro B. apply Hw. unfold statement_words. cbn in *. tauto.
    + apply label_fails; [now apply type_name_chars|exact Hst|].
      intro B. apply Hw. unfold statement_words. cbn in *. tauto.
    + reflexivity.
  - unfold opt. rewrite append_assoc.
    assert (So : solid (tt ++ s)%string) by now apply (solid_type ty).
    unfold p_frequency. cbn [alt].
    destruct l; [congruence|cbn [label_word token_of]; nf..].
    + rewrite tag_ok; nf. now rewrite br1.
    + replace (tag "optional" ("repeated" ++ g ++ tt ++ s)%string) with (@PErr text) by reflexivity.
      nf. rewrite tag_ok; nf. now rewrite br1.
    + replace (tag "optional" ("required" ++ g ++ tt ++ s)%string) with (@PErr text) by reflexivity.
      replace (tag "repeated" ("required" ++ g ++ tt ++ s)%string) with (@PErr text) by reflexivity.
      nf. rewrite tag_ok; nf. now rewrite br1.
Qed.

Lemma alt_integer : forall n t s, number n t -> no_digit s ->
  alt [integer; hex_integer] (t ++ s)%string = POk s n.
Proof. intros n t s H Hs. cbn [alt]. now rewrite (integer_ok n t s). Qed.

Lemma default_ok : forall sx ty o kvs, option_kv sx ty o kvs ->
  default_check sx ty kvs = COk (option_default o).
Proof.
  intros sx ty o kvs H. destruct H as [|b|b|d v D|k v N1 N2 N3]; try reflexivity.
  - cbn [option_default]. unfold default_check. cbn [lookup_key find fst snd option_map String.eqb].
    unfold lookup_key. cbn [find fst]. rewrite String.eqb_refl. cbn [option_map snd].
    unfold default_text in D.
    destruct sx; [|now rewrite D].
    assert (Q : forall q, (q = dq \/ q = sq) -> ~ occurs q d ->
       delimited (tag q) (take_until q) (tag q) (q ++ d ++ q)%string = POk "" d).
    { intros q Hq Nq. nf. rewrite tag_ok; nf.
      rewrite <- (append_nil_r q) at 2.
      destruct Hq as [-> | ->]; unfold dq, sq in *; rewrite take_until_char by exact Nq; nf;
        rewrite tag_ok; reflexivity. }
    destruct ty; try (now rewrite D); cbn [alt].
    + destruct D as [[Nd ->]|[Nd ->]].
      * change quote with dq. now rewrite Q by tauto.
      * change quote with dq. change squote with sq.
        replace (delimited (tag dq) (take_until dq) (tag dq) (sq ++ d ++ sq)%string)
          with (@PErr text) by reflexivity.
        now rewrite Q by tauto.
    + destruct D as [[Nd ->]|[Nd ->]].
      * change quote with dq. now rewrite Q by tauto.
      * change quote with dq. change squote with sq.
        replace (delimited (tag dq) (take_until dq) (tag dq) (sq ++ d ++ sq)%string)
          with (@PErr text) by reflexivity.
        now rewrite Q by tauto.
  - unfold default_check, lookup_key. cbn [find fst].
    rewrite (proj2 (String.eqb_neq k "default") N3). reflexivity.
Qed.

Lemma flags_ok : forall sx ty o kvs, option_kv sx ty o kvs ->
  bool_option "packed" kvs = COk (option_packed o)
  /\ exists d, bool_option "deprecated" kvs = COk d
     /\ match d with Some b => b | None => false end = option_deprecated o.
Proof.
  intros sx ty o kvs H. destruct H as [|b|b|d v D|k v N1 N2 N3].
  - split; [reflexivity|]. now exists None.
  - split; [destruct b; reflexivity|]. now exists None.
  - split; [reflexivity|]. exists (Some b). split; [destruct b; reflexivity|reflexivity].
  - split; [reflexivity|]. now exists None.
  - unfold bool_option, lookup_key. cbn [find fst].
    rewrite (proj2 (String.eqb_neq k "packed") N1), (proj2 (String.eqb_neq k "deprecated") N2).
    split; [reflexivity|]. now exists None.
Qed.

Lemma build_ok : forall sx ff ty o kvs tok name n, option_kv sx ty o kvs ->
  build_field sx ff (tok, (ty, ((name, n), kvs)))
  = COk (mkField name (ff sx ty tok) ty n (option_default o) (option_packed o) false
                 (option_deprecated o)).
Proof.
  intros sx ff ty o kvs tok name n H. unfold build_field.
  rewrite (default_ok sx ty o kvs H). destruct (flags_ok sx ty o kvs H) as [-> [d [-> E]]].
  now rewrite E.
Qed.

Lemma field_tail_head : forall sx ty o t s, field_tail sx ty o t -> no_digit (t ++ s)%string.
Proof.
  intros sx ty o t s H. destruct H as [g G|o g1 t g2 G1 H G2]; rewrite !append_assoc.
  - apply no_digit_gap; [exact G|lit].
  - apply no_digit_gap; [exact G1|]. destruct (option_text_head sx ty o t H) as [u ->]. lit.
Qed.

(** a field is read as what it stands for *)
Lemma field_ok : forall sx ff pr f t, (forall ty l, ff sx ty (token_of l) = pr ty l) ->
  field_text sx pr f t -> forall s, field_generic sx ff (t ++ s)%string = POk s f.
Proof.
  intros sx ff pr f t Hff H s.
  destruct H as [l lt ty tt g1 name g2 g3 n nt o ot Hl Ht Hw G1 Hn G2 G3 Hnum Ho].
  unfold field_generic. nf. rewrite !append_assoc.
  assert (S1 : stop_name (g1 ++ name ++ g2 ++ "=" ++ g3 ++ nt ++ ot ++ s)%string).
  { destruct G1 as [G1 N1]. destruct G1; [congruence| | |]; unfold stop_name; cbn [append head];
      chars; cbn; lia. }
  pose proof (label_ok l lt ty tt _ Hl Ht Hw S1) as El. unfold opt, terminated, pbind, pret in El.
  rewrite El; nf.
  rewrite (type_ok ty tt Ht) by exact S1. nf.
  rewrite br1; [|exact G1|now apply solid_word]. nf.
  rewrite word_ok; [|exact Hn|apply stop_gap; [exact G2|lit]]. nf.
  rewrite equals_ok; [|exact G2|exact G3|now apply (solid_number n)]. nf.
  rewrite (alt_integer n) by (try exact Hnum; now apply (field_tail_head sx ty o)). nf.
  destruct (tail_ok sx ty o ot s Ho) as [kvs [Hkv E]]. unfold field_end in E.
  unfold delimited, preceded, terminated, pair, pbind, pret in E. rewrite E; nf.
  rewrite (build_ok sx ff ty o kvs _ name n Hkv). now rewrite Hff.
Qed.

Lemma message_field_ok : forall sx f t s, message_field_text sx f t ->
  message_field sx (t ++ s)%string = POk s f.
Proof.
  intros sx f t s H. unfold message_field.
  apply (field_ok sx frequency_of (presence sx) f t); [|exact H].
  intros ty l. unfold frequency_of, presence. destruct sx, ty, l; reflexivity.
Qed.

Lemma member_ok : forall sx f t s, member_text sx f t ->
  oneof_message_field sx (t ++ s)%string = POk s f.
Proof.
  intros sx f t s H. unfold oneof_message_field.
  apply (field_ok sx oneof_frequency (fun _ _ => member_presence sx) f t); [|exact H].
  intros ty l. unfold oneof_frequency, member_presence. now destruct sx.
Qed.

(** a field does not begin with a blank *)
Lemma field_text_head : forall sx pr f t, field_text sx pr f t ->
  t <> "" /\ head (fun c => start_char c \/ c = "."%char) t.
Proof.
  intros sx pr f t H.
  destruct H as [l lt ty tt g1 name g2 g3 n nt o ot Hl Ht Hw G1 Hn G2 G3 Hnum Ho].
  destruct Hl as [|l g N G].
  - cbn [append]. destruct (type_text_head ty tt Ht) as [N Hh].
    split; [destruct tt; [congruence|discriminate]|now apply head_app].
  - destruct l; [congruence|..]; (split; [discriminate|]); cbn; left; left; unfold letter_char; cbn; lia.
Qed.

(** text that begins with a name but is not a field *)
Lemma field_fails : forall sx ff k g s, plain_name k -> ~ In k ["optional"; "repeated"; "required"] ->
  break g -> solid s ->
  separated_pair word equals (alt [integer; hex_integer]) s = PErr ->
  field_generic sx ff (k ++ g ++ s)%string = PErr.
Proof.
  intros sx ff k g s Hk Nk G Hs E. unfold field_generic.
  assert (S1 : stop_name (g ++ s)%string).
  { destruct G as [G1 N1]. destruct G1; [congruence| | |]; unfold stop_name; cbn [append head];
      chars; cbn; lia. }
  pose proof (label_fails k (g ++ s)%string (type_name_chars k (proj1 Hk)) (stop_name_stop _ S1) Nk) as El.
  unfold map_res. unfold pair at 1. unfold opt, pbind. rewrite El; nf.
  rewrite (type_ok _ k (tt_name k Hk)) by exact S1. nf.
  rewrite br1 by assumption. nf.
  unfold separated_pair, preceded, pbind, pret in E.
  destruct (word s) as [r w| | |]; nf; try discriminate; [|reflexivity].
  destruct (equals r) as [r2 w2| | |]; nf; try discriminate; [|reflexivity].
  destruct (alt [integer; hex_integer] r2); nf; try discriminate. reflexivity.
Qed.

Lemma field_fails_head : forall sx ff s, head (fun c => ~ start_char c /\ c <> "."%char) s ->
  field_generic sx ff s = PErr.
Proof.
  intros sx ff s H. unfold field_generic. nf. unfold p_frequency. cbn [alt].
  assert (T : forall c t, start_char c -> tag (String c t) s = PErr).
  { intros c t Hc. apply tag_head. eapply head_impl; [|exact H]. intros d [Hd _] ->. now apply Hd. }
  nf. rewrite !T by (left; unfold letter_char; cbn; lia). nf.
  rewrite field_type_eq. unfold field_type_body. rewrite alt_skip.
  - cbn [alt]. unfold map_field. nf. rewrite T by (left; unfold letter_char; cbn; lia).
    now rewrite qualifiable_fail.
  - apply scalars_fail. intros k t Hin. apply scalars_scalar in Hin.
    apply not_true_false. intro E. apply prefix_true in E. destruct E as [b ->].
    destruct (type_text_head t k (tt_scalar t k Hin)) as [N Hh].
    destruct k as [|c k]; [congruence|]. cbn in *. destruct Hh; tauto.
Qed.
