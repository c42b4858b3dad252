(** What the parser returns, for every text: names, numbers, types and presence
    of whatever it reads are well formed. *)
From Coq Require Import String Ascii Arith Lia.
From Verif Require Import Base Schema Modules Parser ParserFacts ProtoText TextFacts FieldText.
Import StringSyntax.
Local Open Scope string_scope.
Local Open Scope list_scope.

(* ---- the specification ---- *)

(** types as they are written *)
Inductive parsed_type : field_type -> Prop :=
| pt_scalar t k : scalar_type t k -> parsed_type t
| pt_name n : type_name n -> parsed_type (TMessageOrEnum n)
| pt_map k v : parsed_type k -> parsed_type v -> parsed_type (TMap k v).

Definition in_i32 (n : Z) : Prop := (0 <= n <= i32_max)%Z.

Record parsed_field (pr : field_type -> frequency -> Prop) (f : field) : Prop := mkPF {
  pf_name : ident (f_name f);
  pf_type : parsed_type (f_typ f);
  pf_number : in_i32 (f_number f);
  pf_unboxed : f_boxed f = false;
  pf_freq : pr (f_typ f) (f_freq f) }.

Definition field_presence (sx : syntax) (t : field_type) (fr : frequency) : Prop :=
  exists l, fr = presence sx t l.
Definition oneof_presence (sx : syntax) (_ : field_type) (fr : frequency) : Prop :=
  fr = member_presence sx.

Record parsed_oneof (sx : syntax) (o : oneof) : Prop := mkPO {
  po_name : ident (o_name o);
  po_fields : Forall (parsed_field (oneof_presence sx)) (o_fields o);
  po_nonempty : o_fields o <> [];
  po_fresh : o_package o = "" /\ o_module o = "" /\ o_imported o = false }.

Record parsed_enum (e : enumerator) : Prop := mkPE {
  pe_name : ident (en_name e);
  pe_values : Forall (fun v => ident (fst v) /\ in_i32 (snd v)) (en_fields e);
  pe_fresh : en_package e = "" /\ en_module e = "" /\ en_imported e = false }.

Inductive parsed_message (sx : syntax) : message -> Prop :=
| parsed_message_intro name fs os nums names ms es :
    ident name ->
    Forall (parsed_field (field_presence sx)) fs ->
    Forall (parsed_oneof sx) os ->
    (forall l, nums = Some l -> Forall in_i32 l) ->
    (forall l, names = Some l -> Forall (fun n => ~ occurs dq n) l) ->
    Forall (parsed_message sx) ms ->
    Forall parsed_enum es ->
    parsed_message sx (mkMessage name fs os nums names false "" ms es "" []).

(* ---- consumed text ---- *)

Definition eats {A} (p : parser A) (P : text -> Prop) : Prop :=
  forall s r a, p s = POk r a -> exists t, s = (t ++ r)%string /\ P t.

Lemma append_cancel : forall a b c : text, (a ++ c)%string = (b ++ c)%string -> a = b.
Proof.
  intros a b c. revert b. induction a as [|x a IH]; intros [|y b] H.
  - reflexivity.
  - apply (f_equal String.length) in H. cbn in H. rewrite slen_append in H. lia.
  - apply (f_equal String.length) in H. cbn in H. rewrite slen_append in H. lia.
  - cbn in H. injection H as -> H. f_equal. now apply IH.
Qed.

Lemma recognized : forall A (p : parser A) P s r t, eats p P ->
  recognize p s = POk r t -> P t /\ s = (t ++ r)%string.
Proof.
  intros A p P s r t H E. unfold recognize in E. destruct (p s) as [r1 a| | |] eqn:Ep; try discriminate.
  injection E as <- <-. destruct (H s r1 a Ep) as [t [-> Ht]]. now rewrite slice_app.
Qed.

Lemma e_tag : forall t, eats (tag t) (fun u => u = t).
Proof.
  intros t s r a H. unfold tag in H. destruct (String.prefix t s) eqn:E; [|discriminate].
  injection H as <- <-. apply prefix_true in E. destruct E as [b ->].
  exists t. now rewrite drop_app.
Qed.

Lemma span_sound : forall f s u r, span f s = (u, r) ->
  s = (u ++ r)%string /\ all (fun c => f c = true) u.
Proof.
  intros f. induction s as [|c s IH]; intros u r H; cbn in H.
  - injection H as <- <-. split; [reflexivity|constructor].
  - destruct (f c) eqn:Ec.
    + destruct (span f s) as [u' r']. injection H as <- <-. destruct (IH u' r' eq_refl) as [-> A].
      split; [reflexivity|now constructor].
    + injection H as <- <-. split; [reflexivity|constructor].
Qed.

Lemma chars1_sound : forall f s r t, chars1 f s = POk r t ->
  s = (t ++ r)%string /\ t <> "" /\ all (fun c => f c = true) t.
Proof.
  intros f s r t H. unfold chars1 in H. destruct (span f s) as [u r'] eqn:E.
  apply span_sound in E. destruct E as [-> A]. destruct u; [discriminate|].
  injection H as <- <-. split; [reflexivity|]. split; [discriminate|exact A].
Qed.

Lemma e_many0 : forall A (p : parser A) (P : text -> Prop), eats p P -> P "" ->
  (forall a b, P a -> P b -> P (a ++ b)%string) -> eats (many0 p) P.
Proof.
  intros A p P H P0 Pa s. unfold many0. generalize (S (slen s)). intros n. revert s.
  induction n as [|n IH]; intros s r a E; [discriminate|].
  cbn [many0_fuel] in E. destruct (p s) as [r1 x| | |] eqn:Ep; try discriminate.
  - destruct (slen r1 <? slen s)%nat; [|discriminate].
    destruct (many0_fuel n p r1) as [r2 l| | |] eqn:Em; try discriminate.
    injection E as <- <-. destruct (H s r1 x Ep) as [t [-> Ht]].
    destruct (IH r1 r2 l Em) as [t2 [-> Ht2]]. exists (t ++ t2)%string.
    rewrite append_assoc. auto.
  - injection E as <- <-. now exists "".
Qed.

Lemma word_sound : forall s r t, word s = POk r t -> ident t /\ s = (t ++ r)%string.
Proof.
  intros s r t H. unfold word in H. apply (recognized _ _ ident) in H; [exact H|]. clear.
  intros s r a H. unfold pair, pbind, pret in H.
  destruct (alt [alpha1; tag "_"] s) as [r1 x| | |] eqn:E1; try discriminate.
  destruct (many0 (alt [alphanumeric1; tag "_"]) r1) as [r2 y| | |] eqn:E2; try discriminate.
  injection H as <- <-.
  assert (H1 : exists c u, s = (String c u ++ r1)%string /\ start_char c /\ all word_char u).
  { cbn [alt] in E1. destruct (alpha1 s) as [r3 z| | |] eqn:Ea; try discriminate.
    - injection E1 as <- <-. unfold alpha1 in Ea. apply chars1_sound in Ea.
      destruct Ea as [-> [N A]]. destruct A as [|c u Hc A]; [congruence|]. exists c, u.
      split; [reflexivity|]. split; [left; now apply is_alpha_iff|].
      eapply all_impl; [|exact A]. intros d Hd. left. left. now apply is_alpha_iff.
    - destruct (tag "_" s) as [r3 z| | |] eqn:Et; try discriminate. injection E1 as <- <-.
      apply e_tag in Et. destruct Et as [t [-> ->]]. exists "_"%char, "".
      split; [reflexivity|]. split; [now right|constructor]. }
  destruct H1 as [c [u [-> [Hc Hu]]]].
  assert (H2 : eats (many0 (alt [alphanumeric1; tag "_"])) (all word_char)).
  { apply e_many0; [|constructor|apply all_app]. intros s0 r0 a0 E0. cbn [alt] in E0.
    destruct (alphanumeric1 s0) as [r3 z| | |] eqn:Ea; try discriminate.
    - injection E0 as <- <-. unfold alphanumeric1 in Ea. apply chars1_sound in Ea.
      destruct Ea as [-> [_ A]]. exists z. split; [reflexivity|].
      eapply all_impl; [|exact A]. intros d Hd. apply is_alphanumeric_iff in Hd.
      chars. tauto.
    - destruct (tag "_" s0) as [r3 z| | |] eqn:Et; try discriminate. injection E0 as <- <-.
      apply e_tag in Et. destruct Et as [t [-> ->]]. exists "_". split; [reflexivity|]. apply all_cons; [left; now right|apply all_nil]. }
  apply H2 in E2. destruct E2 as [v [-> Hv]]. exists (String c (u ++ v)).
  split; [cbn; now rewrite append_assoc|]. constructor; [exact Hc|now apply all_app].
Qed.

Lemma dots_sound : forall n s r l, sep_loop true n (tag ".") word s = POk r l ->
  exists t, s = (t ++ r)%string /\ (t = "" \/ exists q, t = ("." ++ q)%string /\ path q).
Proof.
  induction n as [|n IH]; intros s r l E; [discriminate|]. cbn [sep_loop] in E.
  destruct (tag "." s) as [r1 x| | |] eqn:Et; try discriminate.
  2: { injection E as <- <-. exists "". auto. }
  destruct (true && _); [discriminate|].
  destruct (word r1) as [r2 y| | |] eqn:Ew; try discriminate.
  2: { injection E as <- <-. exists "". auto. }
  destruct (slen r2 <? slen s)%nat; [|discriminate].
  destruct (sep_loop true n (tag ".") word r2) as [r3 z| | |] eqn:El; try discriminate.
  injection E as <- <-. apply e_tag in Et. destruct Et as [d [-> ->]].
  apply word_sound in Ew. destruct Ew as [Hy ->].
  destruct (IH r2 r3 z El) as [t [-> Ht]].
  exists ("." ++ y ++ t)%string. split; [cbn [append]; now rewrite append_assoc|].
  right. exists (y ++ t)%string. split; [reflexivity|].
  destruct Ht as [->|[q [-> Hq]]]; [rewrite append_nil_r; now apply path_one|].
  now apply path_more.
Qed.

Lemma qualifiable_sound : forall s r t, qualifiable_name s = POk r t -> type_name t /\ s = (t ++ r)%string.
Proof.
  intros s r t H. unfold qualifiable_name, verify, pbind in H.
  destruct (recognize _ s) as [r1 t1| | |] eqn:E; try discriminate.
  destruct (negb _ && negb _); [|discriminate]. injection H as <- <-.
  apply (recognized _ _ type_name) in E; [exact E|]. clear.
  intros s r a H. unfold pair, separated_list1, pmap, pbind, pret in H.
  destruct (opt (tag ".") s) as [r1 x| | |] eqn:Eo; try discriminate.
  destruct (word r1) as [r2 y| | |] eqn:Ew; try discriminate.
  destruct (sep_loop true (S (slen r2)) (tag ".") word r2) as [r3 z| | |] eqn:El; try discriminate.
  injection H as <- <-. apply word_sound in Ew. destruct Ew as [Hy ->].
  destruct (dots_sound _ _ _ _ El) as [t [-> Ht]].
  assert (Hp : path (y ++ t)%string).
  { destruct Ht as [->|[q [-> Hq]]]; [rewrite append_nil_r; now apply path_one|].
    now apply path_more. }
  unfold opt in Eo. destruct (tag "." s) as [r4 w| | |] eqn:Et; try discriminate.
  - injection Eo as -> _. apply e_tag in Et. destruct Et as [d [-> ->]].
    exists ("." ++ y ++ t)%string.
    split; [cbn [append]; now rewrite append_assoc|now apply name_abs].
  - injection Eo as -> _. exists (y ++ t)%string.
    split; [now rewrite append_assoc|now apply name_rel].
Qed.

(* ---- results ---- *)

Definition post {A} (p : parser A) (Q : A -> Prop) : Prop := forall s r a, p s = POk r a -> Q a.
Definition any {A} (_ : A) : Prop := True.

Lemma o_any : forall A (p : parser A), post p any.
Proof. intros A p s r a _. exact I. Qed.
Lemma o_weak : forall A (p : parser A) (Q R : A -> Prop), (forall a, Q a -> R a) -> post p Q -> post p R.
Proof. intros A p Q R H Hp s r a E. apply H. now apply (Hp s r). Qed.
Lemma o_pret : forall A (a : A) (Q : A -> Prop), Q a -> post (pret a) Q.
Proof. intros A a Q H s r b E. injection E as _ <-. exact H. Qed.
Lemma o_pbind : forall A B (p : parser A) (k : A -> parser B) Q R, post p Q ->
  (forall a, Q a -> post (k a) R) -> post (pbind p k) R.
Proof.
  intros A B p k Q R Hp Hk s r b E. unfold pbind in E.
  destruct (p s) as [r1 a| | |] eqn:E1; try discriminate. exact (Hk a (Hp s r1 a E1) r1 r b E).
Qed.
Lemma o_pmap : forall A B (p : parser A) (f : A -> B) Q, post p (fun a => Q (f a)) -> post (pmap p f) Q.
Proof. intros A B p f Q H. unfold pmap. eapply o_pbind; [exact H|]. intros a Ha. now apply o_pret. Qed.
Lemma o_pvalue : forall A B (p : parser A) (b : B) (Q : B -> Prop), Q b -> post (pvalue b p) Q.
Proof. intros A B p b Q H. unfold pvalue. apply o_pmap. intros s r a _. exact H. Qed.
Lemma o_map_res : forall A B (p : parser A) (f : A -> cres B) (Q : A -> Prop) (R : B -> Prop), post p Q ->
  (forall a b, Q a -> f a = COk b -> R b) -> post (map_res p f) R.
Proof.
  intros A B p f Q R Hp Hf. unfold map_res. eapply o_pbind; [exact Hp|].
  intros a Ha s r b E. destruct (f a) as [b'| |] eqn:Ef; try discriminate.
  injection E as _ <-. exact (Hf a b' Ha Ef).
Qed.
Lemma o_alt : forall A (ps : list (parser A)) Q, Forall (fun p => post p Q) ps -> post (alt ps) Q.
Proof.
  intros A ps Q H. induction H as [|p ps Hp _ IH]; intros s r a E; [discriminate|]. cbn in E.
  destruct (p s) as [r1 a1| | |] eqn:E1; try discriminate.
  - injection E as <- <-. exact (Hp s r1 a1 E1).
  - exact (IH s r a E).
Qed.
Lemma o_pair : forall A B (p : parser A) (q : parser B) Q R, post p Q -> post q R ->
  post (pair p q) (fun x => Q (fst x) /\ R (snd x)).
Proof.
  intros A B p q Q R Hp Hq. unfold pair. eapply o_pbind; [exact Hp|]. intros a Ha.
  eapply o_pbind; [exact Hq|]. intros b Hb. apply o_pret. now split.
Qed.
Lemma o_preceded : forall A B (p : parser A) (q : parser B) R, post q R -> post (preceded p q) R.
Proof. intros A B p q R H. unfold preceded. eapply o_pbind; [apply o_any|]. intros a _. exact H. Qed.
Lemma o_terminated : forall A B (p : parser A) (q : parser B) Q, post p Q -> post (terminated p q) Q.
Proof.
  intros A B p q Q H. unfold terminated. eapply o_pbind; [exact H|]. intros a Ha.
  eapply o_pbind; [apply o_any|]. intros b _. now apply o_pret.
Qed.
Lemma o_delimited : forall A B C (p : parser A) (q : parser B) (r : parser C) Q, post q Q ->
  post (delimited p q r) Q.
Proof. intros. unfold delimited. apply o_preceded. now apply o_terminated. Qed.
Lemma o_separated_pair : forall A B C (p : parser A) (q : parser B) (r : parser C) Q R,
  post p Q -> post r R -> post (separated_pair p q r) (fun x => Q (fst x) /\ R (snd x)).
Proof.
  intros A B C p q r Q R Hp Hr. unfold separated_pair. eapply o_pbind; [exact Hp|]. intros a Ha.
  apply o_preceded. eapply o_pbind; [exact Hr|]. intros b Hb. apply o_pret. now split.
Qed.
Lemma o_many0 : forall A (p : parser A) Q, post p Q -> post (many0 p) (Forall Q).
Proof.
  intros A p Q H s. unfold many0. generalize (S (slen s)). intro n. revert s.
  induction n as [|n IH]; intros s r l E; [discriminate|]. cbn [many0_fuel] in E.
  destruct (p s) as [r1 a| | |] eqn:Ep; try discriminate.
  - destruct (slen r1 <? slen s)%nat; [|discriminate].
    destruct (many0_fuel n p r1) as [r2 l'| | |] eqn:Em; try discriminate.
    injection E as _ <-. constructor; [exact (H s r1 a Ep)|exact (IH r1 r2 l' Em)].
  - injection E as _ <-. constructor.
Qed.
Lemma o_many1 : forall A (p : parser A) Q, post p Q ->
  post (many1 p) (fun l => Forall Q l /\ l <> []).
Proof.
  intros A p Q H. unfold many1. eapply o_pbind; [exact H|]. intros a Ha. apply o_pmap.
  eapply o_weak; [|apply o_many0; exact H]. intros l Hl. split; [now constructor|discriminate].
Qed.
Lemma o_sep : forall A B ck (sep : parser B) (p : parser A) Q, post p Q ->
  forall n, post (sep_loop ck n sep p) (Forall Q).
Proof.
  intros A B ck sep p Q H. induction n as [|n IH]; intros s r l E; [discriminate|]. cbn [sep_loop] in E.
  destruct (sep s) as [r0 b| | |]; try discriminate.
  - destruct (ck && _); [discriminate|]. destruct (p r0) as [r1 a| | |] eqn:Ep; try discriminate.
    + destruct (slen r1 <? slen s)%nat; [|discriminate].
      destruct (sep_loop ck n sep p r1) as [r2 l'| | |] eqn:Em; try discriminate.
      injection E as _ <-. constructor; [exact (H r0 r1 a Ep)|exact (IH r1 r2 l' Em)].
    + injection E as _ <-. constructor.
  - injection E as _ <-. constructor.
Qed.
Lemma o_separated_list1 : forall A B (sep : parser B) (p : parser A) Q, post p Q ->
  post (separated_list1 sep p) (Forall Q).
Proof.
  intros A B sep p Q H. unfold separated_list1. eapply o_pbind; [exact H|]. intros a Ha.
  apply o_pmap. intros s r l E. constructor; [exact Ha|]. exact (o_sep _ _ _ _ _ Q H _ s r l E).
Qed.

Ltac each := repeat apply Forall_cons; try apply Forall_nil.

Lemma o_word : post word ident.
Proof. intros s r a E. now apply word_sound in E. Qed.
Lemma o_name : post qualifiable_name type_name.
Proof. intros s r a E. now apply qualifiable_sound in E. Qed.

Lemma digit_value_nonneg : forall c, is_hex_digit c = true -> (0 <= digit_value c)%Z.
Proof.
  intros c H. unfold is_hex_digit in H. unfold digit_value. rewrite !orb_true_iff in H.
  destruct (is_digit c) eqn:E1; [apply is_digit_iff in E1; unfold digit_char, code in *; lia|].
  destruct (between 65 70 c) eqn:E2; [apply between_iff in E2; unfold code; lia|].
  destruct H as [[H|H]|H]; try discriminate. apply between_iff in H. unfold code. lia.
Qed.

Lemma radix_nonneg : forall r t acc, (0 <= r)%Z -> (0 <= acc)%Z ->
  all (fun c => is_hex_digit c = true) t -> (0 <= radix_value r acc t)%Z.
Proof.
  intros r t acc Hr Ha H. revert acc Ha. induction H as [|c t Hc _ IH]; intros acc Ha; [exact Ha|].
  cbn. apply IH. pose proof (digit_value_nonneg c Hc). nia.
Qed.

Lemma o_digits : forall (f : ascii -> bool) r, (forall c, f c = true -> is_hex_digit c = true) -> (0 <= r)%Z ->
  post (map_res (chars1 f) (parse_digits r)) in_i32.
Proof.
  intros f r Hf Hr. eapply o_map_res with (Q := all (fun c => is_hex_digit c = true)).
  - intros s r0 a E. apply chars1_sound in E. destruct E as [_ [_ A]].
    eapply all_impl; [|exact A]. exact Hf.
  - intros a b Ha E. unfold parse_digits in E.
    destruct (radix_value r 0 a <=? max_i32)%Z eqn:L; [|discriminate]. injection E as <-.
    apply Z.leb_le in L. split; [|exact L]. apply radix_nonneg; [exact Hr|lia|exact Ha].
Qed.

Lemma o_integer : post integer in_i32.
Proof.
  apply o_digits; [|lia]. intros c H. unfold is_hex_digit. now rewrite H.
Qed.
Lemma o_hex_integer : post hex_integer in_i32.
Proof. apply o_preceded. apply o_digits; [auto|lia]. Qed.

Lemma find_str_sound : forall p s i, find_str p s = Some i ->
  forall c, p = String c "" -> ~ occurs p (take i s).
Proof.
  intros p s. induction s as [|d s IH]; intros i E c ->; cbn [find_str] in E.
  - cbn in E. discriminate.
  - destruct (String.prefix (String c "") (String d s)) eqn:P.
    + injection E as <-. cbn. intros [a [b H]]. destruct a; discriminate.
    + destruct (find_str (String c "") s) as [j|] eqn:Ej; [|discriminate]. injection E as <-.
      cbn [take]. intros [a [b H]]. destruct a as [|x a].
      * cbn in H. injection H as -> _. assert (X : String.prefix (String c "") (String c s) = true).
        { apply prefix_cons. split; [reflexivity|now destruct s]. }
        congruence.
      * cbn in H. injection H as -> H. apply (IH j eq_refl c eq_refl). now exists a, b.
Qed.

Lemma o_take_until : forall c, post (take_until (String c "")) (fun t => ~ occurs (String c "") t).
Proof.
  intros c s r a E. unfold take_until in E. destruct (find_str (String c "") s) as [i|] eqn:Ef; [|discriminate].
  injection E as _ <-. exact (find_str_sound _ _ _ Ef c eq_refl).
Qed.

Lemma o_string : post p_string (fun s => ~ occurs dq s).
Proof. apply o_delimited. apply (o_take_until dquote). Qed.

(* ---- parser.rs ---- *)

Lemma o_type_body : forall ft, post ft parsed_type -> post (field_type_body ft) parsed_type.
Proof.
  intros ft H. unfold field_type_body. apply o_alt. apply Forall_app. split.
  - apply Forall_forall. intros p Hp. apply in_map_iff in Hp. destruct Hp as [[k t] [<- Hin]].
    apply o_pvalue. apply (pt_scalar t k). now apply scalars_scalar.
  - each.
    + apply o_pmap. unfold map_field. apply o_delimited.
      eapply o_weak; [|apply o_separated_pair; exact H]. intros [k v] [Hk Hv]. now constructor.
    + apply o_pmap. eapply o_weak; [|exact o_name]. intros n Hn. now constructor.
Qed.

Lemma o_type : post p_field_type parsed_type.
Proof.
  assert (H : forall n, post (p_field_type_fuel n) parsed_type).
  { induction n as [|n IH]; [intros s r a E; discriminate|].
    change (p_field_type_fuel (S n)) with (field_type_body (p_field_type_fuel n)).
    now apply o_type_body. }
  intros s r a E. exact (H _ s r a E).
Qed.

Lemma o_field : forall sx ff (pr : field_type -> frequency -> Prop),
  (forall t tok, pr t (ff sx t tok)) -> post (field_generic sx ff) (parsed_field pr).
Proof.
  intros sx ff pr Hf. unfold field_generic.
  eapply o_map_res.
  - apply o_pair; [apply o_any|]. apply o_pair; [apply o_terminated; exact o_type|].
    apply o_pair; [|apply o_any]. apply o_separated_pair; [exact o_word|].
    apply o_alt. each; [exact o_integer|exact o_hex_integer].
  - intros [tok [t [[name n] kvs]]] f [_ [Ht [[Hw Hn] _]]] E. cbn [fst snd] in *.
    unfold build_field in E.
    destruct (default_check sx t kvs); try discriminate.
    destruct (bool_option "packed" kvs); try discriminate.
    destruct (bool_option "deprecated" kvs); try discriminate.
    injection E as <-. constructor; cbn; auto.
Qed.

Lemma o_message_field : forall sx, post (message_field sx) (parsed_field (field_presence sx)).
Proof.
  intro sx. apply o_field. intros t tok. unfold field_presence, frequency_of, presence.
  destruct tok as [[| |]|].
  - exists LOptional. destruct sx, t; reflexivity.
  - exists LRepeated. destruct sx, t; reflexivity.
  - exists LRequired. destruct sx, t; reflexivity.
  - exists LNone. destruct sx, t; reflexivity.
Qed.

Lemma o_member : forall sx, post (oneof_message_field sx) (parsed_field (oneof_presence sx)).
Proof.
  intro sx. apply o_field. intros t tok. unfold oneof_presence, oneof_frequency, member_presence.
  now destruct sx.
Qed.

Lemma o_one_of : forall sx, post (p_one_of sx) (parsed_oneof sx).
Proof.
  intro sx. unfold p_one_of. apply o_pmap.
  eapply o_weak; [|apply o_pair; [apply o_preceded; exact o_word|
    apply o_delimited; apply o_many1; apply o_delimited; apply o_member]].
  intros [name fs] [Hn [Hf N]]. cbn [fst snd] in *. constructor; cbn; auto.
Qed.

Lemma o_enumerator : post p_enumerator parsed_enum.
Proof.
  unfold p_enumerator. apply o_pmap. apply o_terminated.
  eapply o_weak; [|apply o_pair; [apply o_delimited; exact o_word|]].
  2: { apply o_delimited. apply o_many0 with
         (Q := fun v => match v with Some v => ident (fst v) /\ in_i32 (snd v) | None => True end).
       unfold enum_event. apply o_alt. each.
       - apply o_pmap. unfold enum_field. apply o_terminated.
         apply o_separated_pair; [exact o_word|]. apply o_alt.
         each; [exact o_hex_integer|exact o_integer].
       - now apply o_pvalue.
       - now apply o_pvalue. }
  intros [name evs] [Hn Hv]. cbn [fst snd] in *. constructor; cbn; auto.
  induction Hv as [|[v|] l Hx _ IH]; cbn; [constructor| |exact IH]. now constructor.
Qed.

Lemma range_in : forall a b, in_i32 a -> in_i32 b -> Forall in_i32 (range_incl a b).
Proof.
  intros a b [Ha _] [_ Hb]. apply Forall_forall. intros n H. unfold range_incl in H.
  apply in_map_iff in H. destruct H as [i [<- Hi]]. apply in_seq in Hi.
  unfold in_i32. lia.
Qed.

Lemma o_reserved_nums : post reserved_nums (Forall in_i32).
Proof.
  unfold reserved_nums. apply o_pmap. apply o_delimited.
  eapply o_weak; [|apply o_separated_list1 with (Q := Forall in_i32)].
  - intros l H. apply Forall_concat. exact H.
  - apply o_alt. each.
    + unfold num_range. apply o_pmap.
      eapply o_weak; [|apply o_separated_pair; exact o_integer].
      intros [a b] [Ha Hb]. now apply range_in.
    + apply o_pmap. eapply o_weak; [|exact o_integer]. intros n Hn. now constructor.
Qed.

Lemma o_reserved_names : post reserved_names (Forall (fun n => ~ occurs dq n)).
Proof. unfold reserved_names. apply o_delimited. apply o_separated_list1. exact o_string. Qed.

Definition parsed_event (sx : syntax) (e : message_event) : Prop :=
  match e with
  | EvMessage m => parsed_message sx m
  | EvEnum e => parsed_enum e
  | EvField f => parsed_field (field_presence sx) f
  | EvReservedNums l => Forall in_i32 l
  | EvReservedNames l => Forall (fun n => ~ occurs dq n) l
  | EvOneof o => parsed_oneof sx o
  | EvExtensions _ => True
  | EvIgnore => True
  end.

Lemma o_message_event : forall sx pm, post pm (parsed_message sx) ->
  post (p_message_event sx pm) (parsed_event sx).
Proof.
  intros sx pm H. unfold p_message_event. apply o_alt.
  repeat (apply Forall_cons || apply Forall_nil); try (apply o_pmap); try (apply o_pvalue; exact I);
    cbn [parsed_event].
  - exact o_reserved_nums.
  - exact o_reserved_names.
  - apply o_message_field.
  - exact H.
  - exact o_enumerator.
  - apply o_one_of.
  - intros s r a _. exact I.
Qed.

Lemma add_event_parsed : forall sx m e, parsed_message sx m -> parsed_event sx e ->
  parsed_message sx (add_message_event m e).
Proof.
  intros sx m e H He. destruct H as [name fs os nums names ms es Hn Hf Ho Hr Hs Hm He'].
  destruct e; cbn [add_message_event m_name m_fields m_oneofs m_reserved_nums m_reserved_names
    m_imported m_package m_messages m_enums m_module m_index parsed_event] in *;
    constructor; auto.
  - apply Forall_app. auto.
  - apply Forall_app. auto.
  - apply Forall_app. auto.
  - intros l0 E. injection E as <-. exact He.
  - intros l0 E. injection E as <-. exact He.
  - apply Forall_app. auto.
Qed.

Lemma o_message : forall sx, post (p_message sx) (parsed_message sx).
Proof.
  intro sx.
  assert (H : forall n, post (p_message_fuel n sx) (parsed_message sx)).
  { induction n as [|n IH]; [intros s r a E; discriminate|]. cbn [p_message_fuel].
    apply o_pmap. apply o_terminated.
    eapply o_weak; [|apply o_pair; [apply o_delimited; exact o_word|
      apply o_delimited; apply o_many0; apply o_message_event; exact IH]].
    intros [name evs] [Hn Hv]. cbn [fst snd] in *.
    assert (G : forall m, parsed_message sx m -> parsed_message sx (fold_left add_message_event evs m)).
    { induction Hv as [|e l He _ IHl]; intros m Hm; [exact Hm|]. cbn [fold_left].
      apply IHl. now apply add_event_parsed. }
    apply G. constructor; auto; discriminate. }
  intros s r a E. exact (H _ s r a E).
Qed.

Record parsed_file (sx : syntax) (p : parsed) : Prop := mkPFile {
  pfile_messages : Forall (parsed_message sx) (d_messages (p_desc p));
  pfile_enums : Forall parsed_enum (d_enums (p_desc p));
  pfile_package : d_package (p_desc p) = "" \/ type_name (d_package (p_desc p));
  pfile_module : d_module (p_desc p) = "";
  pfile_extends : Forall (fun x => type_name (fst x)
                          /\ Forall (parsed_field (field_presence sx)) (snd x)) (p_extends p);
  pfile_services : Forall (fun s => ident (fst s)
                     /\ Forall (fun r => ident (rf_name r) /\ ident (rf_arg r) /\ ident (rf_ret r)) (snd s))
                          (p_services p);
  pfile_imports : Forall (fun i => ~ occurs dq i) (p_imports p) }.

Definition parsed_decl (sx : syntax) (e : event) : Prop :=
  match e with
  | FSyntax _ => True
  | FImport i => ~ occurs dq i
  | FPackage p => type_name p
  | FMessage m => parsed_message sx m
  | FEnum e => parsed_enum e
  | FService s => ident (fst s)
      /\ Forall (fun r => ident (rf_name r) /\ ident (rf_arg r) /\ ident (rf_ret r)) (snd s)
  | FExtend x => type_name (fst x) /\ Forall (parsed_field (field_presence sx)) (snd x)
  | FIgnore => True
  end.

Lemma o_event : forall sx, post (p_event sx) (parsed_decl sx).
Proof.
  intro sx. unfold p_event. apply o_alt.
  repeat (apply Forall_cons || apply Forall_nil); try (apply o_pmap); try (apply o_pvalue; exact I);
    cbn [parsed_decl].
  - intros s r a _. exact I.
  - apply o_delimited. exact o_string.
  - apply o_delimited. exact o_name.
  - apply o_message.
  - exact o_enumerator.
  - unfold p_rpc_service. apply o_pair; [apply o_delimited; exact o_word|].
    apply o_delimited. apply o_many0. apply o_delimited. unfold p_rpc_function. apply o_pmap.
    eapply o_weak; [|apply o_pair; [apply o_delimited; exact o_word|
      apply o_pair; [apply o_delimited; exact o_word|
      apply o_pair; [apply o_delimited; exact o_word|apply o_any]]]].
    intros [a [b [c u]]] [Ha [Hb [Hc _]]]. cbn in *. auto.
  - unfold p_extend. apply o_terminated. eapply o_weak; [|apply o_pair;
      [apply o_delimited; exact o_name|
       apply o_delimited; apply o_many1; apply o_delimited; apply o_message_field]].
    intros [n fs] [Hn [Hf _]]. now split.
Qed.

Lemma add_decl_parsed : forall sx p e, parsed_file sx p -> parsed_decl sx e ->
  parsed_file sx (add_event p e).
Proof.
  intros sx p e [H1 H2 H3 H4 H5 H6 H7] He.
  destruct e; cbn [add_event parsed_decl] in *; constructor;
    cbn [p_desc p_imports p_extends p_services d_messages d_enums d_package d_module]; auto;
    apply Forall_app; auto.
Qed.

Lemma o_file : forall check s r p, p_file check s = POk r p ->
  exists r' sx, scan_syntax check s = POk r' sx /\ parsed_file sx p.
Proof.
  intros check s r p E. unfold p_file in E.
  destruct (scan_syntax check s) as [r' sx| | |] eqn:Es; try discriminate.
  exists r', sx. split; [reflexivity|]. revert r p E. generalize s. apply o_pmap.
  eapply o_weak; [|apply o_many0; apply o_event]. intros evs H.
  assert (G : forall q, parsed_file sx q -> parsed_file sx (fold_left add_event evs q)).
  { induction H as [|e l He _ IH]; intros q Hq; [exact Hq|]. cbn [fold_left].
    apply IH. now apply add_decl_parsed. }
  apply G. constructor; cbn; auto.
Qed.
