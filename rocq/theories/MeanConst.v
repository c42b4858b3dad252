(** Lemmas for C80: the constants of [default] options have the values of
    RustLit.v. *)
From Coq Require Import String Ascii Arith ZArith Lia Bool.
From Verif Require Import Base Reader PackedFixed Writer Sizeofs Utf8 Spec Schema Keywords Modules Passes Parser Import Gen GenSem GenSpec GenCheck Cycles CycleFacts
  BreakFacts IndexFacts Pipeline PassFacts AcceptFacts.
From Verif Require Import RustTypes Emit Literals LiteralFacts Floats Output Paths GenText RustLex RustAst RustParse RustParseFacts GenAst LexFacts GenAstFacts GenAstOk GenGood.
From Verif Require Import RustLit RustSem Meaning MeanFacts.
Import Schema StringSyntax.
Local Open Scope string_scope.
Local Open Scope list_scope.
Local Open Scope Z_scope.

(** ** Numbers *)

(** what has been read of a number *)
Lemma num_state : forall s st u t w, st = LNum u \/ st = LNumDot u -> scan st s = (t, LNum w) ->
  t = [] /\ w = ((match st with LNumDot _ => snoc u "." | _ => u end) ++ s)%string \/ exists n r, t = TNum n :: r.
Proof.
  induction s as [|a s IH]; intros st u t w St E; cbn [scan] in E.
  - injection E as <- ->. destruct St as [H|H]; [injection H as <-|discriminate H]. left. now rewrite str_app_nil.
  - destruct (step st a) as [t1 st1] eqn:S. destruct (scan st1 s) as [t2 st2] eqn:E2. injection E as <- ->.
    destruct St as [-> | ->]; cbn [step] in S.
    + destruct (is_word a).
      { injection S as <- <-. destruct (IH _ (snoc u a) _ _ (or_introl eq_refl) E2) as [(-> & ->)|H]; [left|now right]. split; [reflexivity|apply snoc_app]. }
      destruct (Ascii.eqb_spec a ".") as [->|_].
      { injection S as <- <-. destruct (IH _ u _ _ (or_intror eq_refl) E2) as [(-> & ->)|H]; [left|now right]. split; [reflexivity|apply snoc_app]. }
      destruct ((Ascii.eqb a "-" || Ascii.eqb a "+") && open_exponent u)%bool.
      { injection S as <- <-. destruct (IH _ (snoc u a) _ _ (or_introl eq_refl) E2) as [(-> & ->)|H]; [left|now right]. split; [reflexivity|apply snoc_app]. }
      injection S as <- <-. right. cbn. eauto.
    + destruct (is_num a).
      { injection S as <- <-. destruct (IH _ (snoc (snoc u ".") a) _ _ (or_introl eq_refl) E2) as [(-> & ->)|H]; [left|now right]. split; [reflexivity|apply snoc_app]. }
      destruct (is_start a); [injection S as <- <-; right; cbn; eauto|]. destruct (Ascii.eqb a "."); injection S as <- <-; right; cbn; eauto.
Qed.
Lemma digit_num : forall a, is_digit 10 a = true -> is_num a = true.
Proof. intros a. destruct a as [[] [] [] [] [] [] [] []]; vm_compute; congruence. Qed.
Lemma number_start : forall s k, rust_number s = Some k -> exists a r, s = String a r /\ is_num a = true.
Proof.
  intros s k H. assert (D : forall x, decimal x = Some k -> exists a r, x = String a r /\ is_num a = true).
  { intros x E. unfold decimal in E. destruct x as [|a x]; [discriminate|]. exists a, x. split; [reflexivity|]. cbn [run_of] in E.
    destruct (is_digit 10 a) eqn:A; [now apply digit_num|]. discriminate E. }
  unfold rust_number in H. destruct s as [|a [|b r]]; [now apply D in H|now apply D in H|].
  destruct (Z.eqb_spec (code a) 48) as [A|_]; [|cbn [andb] in H; now apply D in H].
  exists a, (String b r). split; [reflexivity|]. clear - A. revert A. every_char a.
Qed.
Lemma start_num : forall a, is_num a = true -> start a = LNum (String a "").
Proof. intros a. every_char a. Qed.
Lemma num_not_dash : forall a, is_num a = true -> (code a =? 45) = false.
Proof. intros a. every_char a. Qed.

Definition unsigned_text (y : text) : bool * text :=
  match y with String a r => if code a =? 45 then (true, r) else (false, y) | EmptyString => (false, y) end.
Lemma number_exp : forall s suffix neg r k, number_ok s = true -> all_chars is_word suffix = true ->
  unsigned_text (s ++ suffix)%string = (neg, r) -> rust_number r = Some k ->
  exp_of (s ++ suffix)%string = if neg then REUn UNeg (RELit (TNum r)) else RELit (TNum r).
Proof.
  intros s suffix neg r k H S U N.
  assert (C : forall e, piece closer (s ++ suffix)%string (print_exp e) -> ok_exp e = true -> exposed e = false -> exp_of (s ++ suffix)%string = e).
  { intros e. now apply exp_of_is. }
  unfold number_ok in H. destruct (scan LNone s) as [t st] eqn:E.
  assert (L : exists w, st = LNum w /\ (t = [] \/ t = [TSym "-"])).
  { destruct t as [|x t]; [destruct st; try discriminate; eauto|]. destruct x as [| | | | |m]; try discriminate. destruct t; [|discriminate].
    destruct st; try discriminate. apply String.eqb_eq in H. subst m. eauto. }
  destruct L as (w & -> & T). clear H. pose proof (lexed_app _ _ _ _ _ _ _ E (scan_num_word suffix w S)) as Q. rewrite app_nil_r in Q.
  destruct s as [|a s]; [injection E as <- E; discriminate E|]. cbn [append unsigned_text] in U.
  destruct (number_start r k N) as (b & r' & -> & B).
  destruct (Z.eqb_spec (code a) 45) as [A|A].
  - injection U as <- U. assert (a = "-"%char) as -> by (clear - A; revert A; every_char a).
    destruct s as [|b' s]; [discriminate E|]. injection U as -> U.
    cbn [scan] in E. change (step LNone "-") with (@nil token, LSym "-") in E. cbv iota beta in E. cbn [scan] in E.
    assert (St : step (LSym "-") b = ([TSym "-"], LNum (String b ""))) by (clear - B; revert B; every_char b).
    rewrite St in E. destruct (scan (LNum (String b "")) s) as [t2 st2] eqn:E2. injection E as <- ->.
    destruct (num_state s _ (String b "") t2 w (or_introl eq_refl) E2) as [(-> & ->)|(n & x & ->)]; [|now destruct T].
    rewrite <- U. apply C; [|reflexivity|reflexivity].
    exists [TSym "-"], (LNum (String b s ++ suffix)%string). repeat split; [exact Q|]. intros x X. now apply num_closer.
  - injection U as <- U1 U2. subst b. cbn [scan] in E. change (step LNone a) with (@nil token, start a) in E. rewrite (start_num a B) in E. cbv iota beta in E.
    destruct (scan (LNum (String a "")) s) as [t2 st2] eqn:E2. injection E as <- ->. cbn [app] in *.
    destruct (num_state s _ (String a "") t2 w (or_introl eq_refl) E2) as [(-> & ->)|(n & x & ->)]; [|destruct T; discriminate].
    rewrite <- U2. change (String a (s ++ suffix)%string) with (String a s ++ suffix)%string. apply C; [|reflexivity|reflexivity].
    exists [], (LNum (String a s ++ suffix)%string). repeat split; [exact Q|]. intros x X. now apply num_closer.
Qed.

(** a floating point number ends with its suffix; before it there are no letters
    but the e of the exponent *)
Definition in_float (a : ascii) : bool := is_digit 10 a || (code a =? 46) || (code a =? 101) || (code a =? 69) || (code a =? 45) || (code a =? 43).
Lemma run_in : forall p s x r, run_of p s = (x, r) -> s = (x ++ r)%string /\ all_chars p x = true.
Proof.
  intros p. induction s as [|a s IH]; intros x r H; cbn [run_of] in H; [injection H as <- <-; auto|].
  destruct (p a) eqn:A; [|injection H as <- <-; auto]. destruct (run_of p s) as (x', r') eqn:E. injection H as <- <-.
  destruct (IH _ _ eq_refl) as (-> & B). split; [reflexivity|]. cbn [all_chars]. now rewrite A, B.
Qed.
Lemma digits_in : forall x, all_chars (is_digit 10) x = true -> all_chars in_float x = true.
Proof.
  induction x as [|a x IH]; [reflexivity|]. cbn [all_chars]. intros H. apply andb_true_iff in H. destruct H as (A & H). rewrite (IH H). unfold in_float. now rewrite A.
Qed.
Lemma exponent_in : forall s e r, exponent s = Some (e, r) -> exists x, s = (x ++ r)%string /\ all_chars in_float x = true.
Proof.
  intros s e r H. unfold exponent in H. destruct s as [|a s]; [injection H as _ <-; exists ""; auto|].
  destruct ((code a =? 101) || (code a =? 69))%bool eqn:A; [|injection H as _ <-; exists ""; auto].
  assert (A' : in_float a = true) by (unfold in_float; apply orb_true_iff in A; destruct A as [-> | ->]; rewrite ?orb_true_r; reflexivity).
  destruct (match s with String b r' => if code b =? 45 then (true, r') else if code b =? 43 then (false, r') else (false, s) | EmptyString => (false, s) end) as (neg, r1) eqn:B.
  assert (P : exists p, s = (p ++ r1)%string /\ all_chars in_float p = true).
  { destruct s as [|b s]; [injection B as _ <-; exists ""; auto|]. destruct (code b =? 45) eqn:X.
    - injection B as _ <-. exists (String b ""). split; [reflexivity|]. cbn. unfold in_float. now rewrite X, !orb_true_r.
    - destruct (code b =? 43) eqn:Y; injection B as _ <-; [|exists ""; auto]. exists (String b ""). split; [reflexivity|]. cbn. unfold in_float. now rewrite Y, !orb_true_r. }
  destruct P as (p & -> & P). destruct (run_of (is_digit 10) r1) as (ds, r2) eqn:R. destruct (empty ds); [discriminate|]. injection H as _ <-.
  destruct (run_in _ _ _ _ R) as (-> & D). exists (String a (p ++ ds)%string). split; [cbn; now rewrite str_app_assoc|].
  cbn [all_chars]. rewrite A', all_chars_app, P. cbn. now apply digits_in.
Qed.
Lemma float_in : forall s m e suf, rust_number s = Some (NFloat m e suf) -> exists p, s = (p ++ suf)%string /\ all_chars in_float p = true.
Proof.
  intros s m e suf H.
  assert (W : forall ds fs r, with_exponent ds fs r = Some (NFloat m e suf) -> exists x, r = (x ++ suf)%string /\ all_chars in_float x = true).
  { intros ds fs r W. unfold with_exponent in W. destruct (exponent r) as [(x, y)|] eqn:X; [|discriminate]. destruct (_ || _); [|discriminate].
    injection W as _ _ ->. now apply exponent_in in X. }
  assert (D : forall x, decimal x = Some (NFloat m e suf) -> exists p, x = (p ++ suf)%string /\ all_chars in_float p = true).
  { intros x D. unfold decimal in D. destruct (run_of (is_digit 10) x) as (ds, r) eqn:R. destruct (run_in _ _ _ _ R) as (-> & Dg). apply digits_in in Dg.
    destruct (empty ds); [discriminate|]. destruct r as [|a r']; [discriminate|]. destruct (code a =? 46) eqn:A.
    - assert (A' : in_float a = true) by (unfold in_float; now rewrite A, !orb_true_r).
      destruct (run_of (is_digit 10) r') as (fs, r2) eqn:R2. destruct (run_in _ _ _ _ R2) as (-> & D2). apply digits_in in D2. destruct (empty fs) eqn:Ef.
      + destruct (empty (fs ++ r2)%string) eqn:Er; [|discriminate]. injection D as _ _ <-. exists (ds ++ String a (fs ++ r2))%string.
        rewrite str_app_nil. split; [reflexivity|]. destruct (fs ++ r2)%string; [|discriminate]. rewrite all_chars_app, Dg. cbn. now rewrite A'.
      + destruct (W _ _ _ D) as (x & -> & X). exists (ds ++ String a (fs ++ x))%string. split; [now rewrite !str_app_assoc; cbn; rewrite str_app_assoc|].
        rewrite all_chars_app, Dg. cbn. now rewrite A', all_chars_app, D2, X.
    - destruct ((code a =? 101) || (code a =? 69))%bool.
      + destruct (W _ _ _ D) as (x & -> & X). exists (ds ++ x)%string. split; [now rewrite str_app_assoc|]. now rewrite all_chars_app, Dg, X.
      + destruct (is_int_suffix _); [discriminate|]. destruct (is_float_suffix _); [|discriminate]. injection D as _ _ <-. exists ds. split; [reflexivity|exact Dg]. }
  assert (B : forall base x, based base x <> Some (NFloat m e suf)).
  { intros base x B. unfold based in B. destruct (run_of (is_digit base) x) as (ds, r). destruct (empty ds); [discriminate|].
    destruct (empty r || is_int_suffix r); discriminate. }
  unfold rust_number in H. destruct s as [|a [|b r]]; try (apply D; exact H).
  destruct ((code a =? 48) && (code b =? 120)); [now apply B in H|].
  destruct ((code a =? 48) && (code b =? 111)); [now apply B in H|].
  destruct ((code a =? 48) && (code b =? 98)); [now apply B in H|]. apply D; exact H.
Qed.
(** so that a text with the suffix of a type has that suffix *)
Lemma float_suffix : forall s ty m e suf, ty = "f32" \/ ty = "f64" -> rust_number (s ++ ty)%string = Some (NFloat m e suf) -> empty suf = false.
Proof.
  intros s ty m e suf T H. destruct suf; [|reflexivity]. exfalso. apply float_in in H. destruct H as (p & E & P). rewrite str_app_nil in E. subst p.
  rewrite all_chars_app in P. apply andb_true_iff in P. destruct P as (_ & P). destruct T as [-> | ->]; discriminate P.
Qed.

(** ** Evaluation *)
Section Eval.
Variables (t : target) (names : scope -> list text -> option rtype) (w : world) (here : scope) (fuel : nat).
Notation ev := (eval t names w here fuel).

Lemma bits_range : forall (double : bool) m e b, 0 <= m ->
  (let '(eb, mb) := if double then (11, 52) else (8, 23) in decimal_bits eb mb m e) = Some b -> 0 <= b < sign_bit double.
Proof.
  intros double m e b M H. destruct double.
  - pose proof (decimal_bits_finite 11 52 m e b ltac:(lia) M H) as A. pose proof (infinity_range 11 52 ltac:(lia) ltac:(lia)) as B. cbn [sign_bit].
    change (2 ^ (11 + 52)) with (2 ^ 63) in B. lia.
  - pose proof (decimal_bits_finite 8 23 m e b ltac:(lia) M H) as A. pose proof (infinity_range 8 23 ltac:(lia) ltac:(lia)) as B. cbn [sign_bit].
    change (2 ^ (8 + 23)) with (2 ^ 31) in B. lia.
Qed.
Lemma int_evaluates : forall s suffix name lo hi k z h st, number_ok s = true -> all_chars is_word suffix = true ->
  rust_int name lo hi (s ++ suffix)%string = Some k -> k = CInt z -> ev h (exp_of (s ++ suffix)%string) st = Go (XInt z) st.
Proof.
  intros s suffix name lo hi k z h st Ok W H ->. unfold rust_int in H. fold (unsigned_text (s ++ suffix)%string) in H.
  destruct (unsigned_text (s ++ suffix)%string) as (neg, r) eqn:U. destruct (rust_number r) as [[x suf|]|] eqn:N; try discriminate.
  rewrite (number_exp s suffix neg r _ Ok W U N). cbv zeta in H. destruct (_ && _)%bool; [|discriminate]. injection H as <-.
  destruct neg.
  - change (ev h (REUn UNeg (RELit (TNum r))) st) with ((do x <- of_option (literal h (TNum r)); of_option (negate x)) st).
    unfold literal. rewrite N. reflexivity.
  - change (ev h (RELit (TNum r)) st) with (of_option (literal h (TNum r)) st). unfold literal. rewrite N. reflexivity.
Qed.
Lemma float_evaluates : forall (double : bool) name s k v h st, name = (if double then "f64" else "f32") ->
  special_ok s || number_ok s = true -> rust_float name (float_literal name s) = Some k ->
  constant_value (if double then TDouble else TFloat) k = Some (VZ v) ->
  ev h (exp_of (float_literal name s)) st = Go (XFloat double v) st.
Proof.
  intros double name s k v h st Nm Ok H V.
  assert (Tn : name = "f32" \/ name = "f64") by (destruct double; auto).
  assert (K1 : exp_of ("::core::" ++ name ++ "::INFINITY")%string = REPath true (spath ["core"; name; "INFINITY"] [])) by (destruct Tn as [-> | ->]; reflexivity).
  assert (K2 : exp_of ("::core::" ++ name ++ "::NEG_INFINITY")%string = REPath true (spath ["core"; name; "NEG_INFINITY"] [])) by (destruct Tn as [-> | ->]; reflexivity).
  assert (K3 : exp_of ("::core::" ++ name ++ "::NAN")%string = REPath true (spath ["core"; name; "NAN"] [])) by (destruct Tn as [-> | ->]; reflexivity).
  unfold float_literal in *. cbv zeta in *.
  assert (P : forall x, ev h (REPath true (spath ["core"; name; x] [])) st = of_option (float_constant double x) st).
  { intros x. subst name. destruct double; reflexivity. }
  destruct (String.eqb_spec (map_chars lower s) "inf").
  { rewrite K1, P. clear K1 K2 K3 P. subst name. destruct double; cbn in H; injection H as <-; cbn in V; injection V as <-; reflexivity. }
  destruct (String.eqb_spec (map_chars lower s) "-inf").
  { rewrite K2, P. clear K1 K2 K3 P. subst name. destruct double; cbn in H; injection H as <-; cbn in V; injection V as <-; reflexivity. }
  destruct (String.eqb_spec (map_chars lower s) "nan").
  { rewrite K3, P. clear K1 K2 K3 P. subst name. destruct double; cbn in H; injection H as <-; cbn in V; injection V as <-; reflexivity. }
  assert (Ok' : number_ok s = true).
  { apply orb_true_iff in Ok. destruct Ok as [Ok|Ok]; [|exact Ok]. unfold special_ok in Ok. apply existsb_exists in Ok. destruct Ok as (x & I & X). apply String.eqb_eq in X. subst x.
    destruct I as [I|[I|[I|[]]]]; congruence. }
  assert (W : all_chars is_word name = true) by (destruct Tn as [-> | ->]; reflexivity).
  clear K1 K2 K3 P Ok n n0 n1.
  assert (F : (let '(neg, r) := unsigned_text (s ++ name)%string in
    match rust_number r with
    | Some (NFloat m e suffix) => if empty suffix || String.eqb suffix name then Some (CFloat neg m e) else None
    | _ => None
    end) = Some k).
  { unfold rust_float in H. destruct (String.eqb_spec (s ++ name)%string ("::core::" ++ name ++ "::INFINITY")%string) as [E|_].
    { exfalso. clear - E Ok'. destruct s as [|a s]; [discriminate Ok'|]. injection E as -> E. unfold number_ok in Ok'. cbn [scan] in Ok'.
      change (step LNone ":") with (@nil token, LSym ":") in Ok'. destruct s as [|b s]; [discriminate Ok'|]. injection E as -> E. cbn [scan] in Ok'.
      change (step (LSym ":") ":") with ([TSym "::"], LNone) in Ok'. cbv iota beta in Ok'. destruct (scan LNone s) as [t2 [| | | | | | | | | |]] ; cbn in Ok'; try discriminate; destruct t2; discriminate. }
    destruct (String.eqb_spec (s ++ name)%string ("::core::" ++ name ++ "::NEG_INFINITY")%string) as [E|_].
    { exfalso. clear - E Ok'. destruct s as [|a s]; [discriminate Ok'|]. injection E as -> E. unfold number_ok in Ok'. cbn [scan] in Ok'.
      change (step LNone ":") with (@nil token, LSym ":") in Ok'. destruct s as [|b s]; [discriminate Ok'|]. injection E as -> E. cbn [scan] in Ok'.
      change (step (LSym ":") ":") with ([TSym "::"], LNone) in Ok'. cbv iota beta in Ok'. destruct (scan LNone s) as [t2 [| | | | | | | | | |]] ; cbn in Ok'; try discriminate; destruct t2; discriminate. }
    destruct (String.eqb_spec (s ++ name)%string ("::core::" ++ name ++ "::NAN")%string) as [E|_].
    { exfalso. clear - E Ok'. destruct s as [|a s]; [discriminate Ok'|]. injection E as -> E. unfold number_ok in Ok'. cbn [scan] in Ok'.
      change (step LNone ":") with (@nil token, LSym ":") in Ok'. destruct s as [|b s]; [discriminate Ok'|]. injection E as -> E. cbn [scan] in Ok'.
      change (step (LSym ":") ":") with ([TSym "::"], LNone) in Ok'. cbv iota beta in Ok'. destruct (scan LNone s) as [t2 [| | | | | | | | | |]] ; cbn in Ok'; try discriminate; destruct t2; discriminate. }
    exact H. }
  clear H. destruct (unsigned_text (s ++ name)%string) as (neg, r) eqn:U. destruct (rust_number r) as [[|m e suf]|] eqn:N; try discriminate.
  destruct (empty suf || String.eqb suf name)%bool eqn:Sf; [|discriminate]. injection F as <-.
  rewrite (number_exp s name neg r _ Ok' W U N).
  assert (S : suf = name).
  { apply orb_true_iff in Sf. destruct Sf as [Sf|Sf]; [exfalso|now apply String.eqb_eq]. 
    assert (R : exists s', r = (s' ++ name)%string).
    { destruct s as [|a s]; [discriminate Ok'|]. cbn [append unsigned_text] in U. destruct (code a =? 45); injection U as _ <-; [exists s; reflexivity|exists (String a s); reflexivity]. }
    destruct R as (s' & ->). now rewrite (float_suffix s' name m e suf Tn N) in Sf. }
  assert (L : forall h', literal h' (TNum r) = float_value double m e).
  { intros h'. unfold literal. rewrite N, S, Nm. destruct double; reflexivity. }
  assert (M := rust_number_float _ _ _ _ N).
  unfold constant_value in V. 
  assert (Fm : format (if double then TDouble else TFloat) = if double then (11, 52) else (8, 23)) by (destruct double; reflexivity). rewrite Fm in V.
  assert (B : exists b, (let '(eb, mb) := if double then (11, 52) else (8, 23) in decimal_bits eb mb m e) = Some b /\ v = if neg then sign_bit double + b else b).
  { destruct double; cbv iota beta in V |- *; match type of V with option_map _ ?x = _ => destruct x as [b|] end; try discriminate V; injection V as <-; exists b; split; auto; destruct neg; reflexivity. }
  destruct B as (b & B & ->).
  assert (Fv : float_value double m e = Some (XFloat double b)).
  { unfold float_value. destruct double; cbv iota beta in B |- *; now rewrite B. }
  pose proof (bits_range double m e b M B) as Rg. destruct neg.
  - change (ev h (REUn UNeg (RELit (TNum r))) st) with ((do x <- of_option (literal h (TNum r)); of_option (negate x)) st).
    unfold literal in L |- *. rewrite L, Fv. cbn [of_option seq go negate]. rewrite Z.mod_small by lia. now rewrite Z.add_comm.
  - change (ev h (RELit (TNum r)) st) with (of_option (literal h (TNum r)) st). unfold literal in L |- *. now rewrite L, Fv.
Qed.
Lemma str_evaluates : forall s l h st, rust_str (Passes.quoted s) = Some l -> utf8_valid (map byte_of_ascii l) = true ->
  ev h (RELit (TStr s)) st = Go (XBytes (map byte_of_ascii l)) st.
Proof.
  intros s l h st H U. change (ev h (RELit (TStr s)) st) with (of_option (literal h (TStr s)) st). unfold literal, quoted.
  unfold rust_str, Passes.quoted in H. change (Ascii.eqb (ascii_of_nat 34) quotation) with true in H. cbv iota in H. change (ascii_of_nat 34) with quotation in H.
  rewrite H. unfold eight_bits. now rewrite U.
Qed.
Lemma bytes_evaluate : forall s l h st, rust_bytes ("b" ++ Passes.quoted s)%string = Some l ->
  ev h (RELit (TBStr s)) st = Go (XBytes (map byte_of_ascii l)) st.
Proof.
  intros s l h st H. change (ev h (RELit (TBStr s)) st) with (of_option (literal h (TBStr s)) st). unfold literal, quoted.
  change (rust_bytes ("b" ++ Passes.quoted s)%string) with (rust_chars true (s ++ String quotation "")%string) in H. rewrite H. reflexivity.
Qed.
Lemma post_evaluates : forall k m b h st, m = "to_string" \/ m = "to_vec" -> (forall h', ev h' (RELit k) st = Go (XBytes b) st) ->
  ev h (post (RELit k) [method m []]) st = Go (XBytes b) st.
Proof.
  intros k m b h st M H. unfold post. change (ev h (REPost (RELit k) [method m []]) st) with
    ((do x <- ev None (RELit k); operate t names w here fuel ev h [method m []] (place_of (RELit k)) x) st).
  unfold seq at 1. rewrite H. destruct M as [-> | ->]; reflexivity.
Qed.
Lemma cow_evaluates : forall k b h st, (forall h', ev h' (RELit k) st = Go (XBytes b) st) ->
  ev h (call (epath ["Cow"; "Borrowed"]) [RELit k]) st = Go (XBytes b) st.
Proof.
  intros k b h st H.
  change (ev h (call (epath ["Cow"; "Borrowed"]) [RELit k]) st) with
    ((do x <- (do y <- ev None (RELit k); match y with XBytes _ => go y | _ => stuck end); go x) st). unfold seq. now rewrite H.
Qed.
End Eval.

(** ** The theorem *)
Lemma path_exp : forall l, forallb rust_name l = true -> l <> [] -> exp_of (path_text l) = epath l.
Proof.
  intros l H N. apply (exp_of_is closer); [reflexivity| | |reflexivity].
  - apply piece_closer. rewrite print_epath. apply piece_path; [exact N|]. rewrite forallb_forall in *. intros x I. apply H in I.
    apply andb_true_iff in I. apply I.
  - apply epath_ok; [destruct l; [contradiction|reflexivity]|]. now apply segs_of.
Qed.
Lemma path_snoc : forall l x y, (path_text (l ++ [x]) ++ "::" ++ y)%string = path_text ((l ++ [x]) ++ [y]).
Proof.
  intros l x y. induction l as [|z l IH]; [reflexivity|]. change ((z :: l) ++ [x]) with (z :: (l ++ [x])). cbn [app].
  rewrite !path_text_cons by (intros E; destruct l; discriminate E). rewrite <- IH, !str_app_assoc. reflexivity.
Qed.

Section Constants.
Variables (g : gen_config) (d d4 : file_descriptor).
Let c := g_passes g.
Hypothesis before : before_escape c d = GOk d4.
Hypothesis schema : schema_ok d = true.
Let d' := after_escape c d4.
Variables (t : target) (names : scope -> list text -> option rtype).
Hypothesis Names : names_ok d' d4 names.
Hypothesis Plain : plain_names g d'.

Lemma enum_values : forall q e v z, get_enum d' q = Some e -> In (v, z) (en_fields e) -> rust_name v = true.
Proof.
  intros q e v z G I. unfold d' in G. rewrite (get_enum_after g) in G. destruct (get_enum d4 q) as [e4|] eqn:E; [|discriminate]. injection G as <-.
  pose proof (enum4 g d d4 before schema q e4 E) as K. unfold schema_enum in K. rewrite !andb_true_iff in K. destruct K as ((_ & K) & _).
  change (en_fields (enum_sanitize_names e4)) with (map (fun p : text * Z => (sanitize_keyword (fst p), snd p)) (en_fields e4)) in I.
  apply in_map_iff in I. destruct I as ((v0, z0) & E0 & I). injection E0 as <- _. rewrite forallb_forall in K. apply escaped_name. exact (K _ I).
Qed.
Lemma default_texts : forall i m f s, get_message d' i = Some m -> In f (m_fields m) -> f_default f = Some s ->
  exists y, default_ok (f_typ f) y = true /\ default_literal d (f_typ f) y = GOk s.
Proof.
  intros i m f s G I D. unfold d' in G. rewrite (get_message_after g) in G. destruct (get_message d4 i) as [m4|] eqn:G4; [|discriminate]. injection G as <-.
  destruct (message4 g d d4 before i m4 G4) as (m & Gm & S). pose proof (schema_message_of d i m schema Gm) as K. unfold schema_message in K.
  rewrite !andb_true_iff in K. destruct K as ((((_ & _) & F) & _) & _). rewrite forallb_forall in F.
  assert (E : m_fields (msg_sanitize_names m4) = map (fun f => set_fname f (sanitize_keyword (f_name f))) (m_fields m4)) by now destruct m4.
  rewrite E in I. apply in_map_iff in I. destruct I as (f4 & <- & I). destruct (Forall2_in_r _ _ _ (sm_fields _ _ _ S) f4 I) as (f0 & I0 & (_ & Pr)).
  cbn in D |- *. destruct (Pr s D) as (y & Y & O & L). exists y. split; [|exact L]. specialize (F f0 I0). unfold schema_field in F. rewrite Y in F.
  apply andb_true_iff in F. rewrite O. apply F.
Qed.

Theorem constants_are : constants_ok g d' d4 t names (rust_lit d').
Proof.
  intros i m f s v G I D L w fuel h st WN _. apply filter_In in I. destruct I as (I & _).
  destruct (default_texts i m f s G I D) as (y & Ok & Dl).
  assert (Int : forall name lo hi suffix, all_chars is_word suffix = true -> s = (y ++ suffix)%string -> number_ok y = true ->
    match rust_int name lo hi s with Some k => constant_value (f_typ f) k | None => None end = Some v ->
    (forall z, rust_value d' c (f_typ f) (VZ z) = XInt z) -> (forall z, constant_value (f_typ f) (CInt z) = Some (VZ z)) ->
    eval t names w (InMsg i) fuel h (exp_of s) st = Go (rust_value d' c (f_typ f) v) st).
  { intros name lo hi suffix W E N X R C. destruct (rust_int name lo hi s) as [k|] eqn:K; [|discriminate]. destruct (rust_int_of _ _ _ _ _ K) as (z & -> & _).
    rewrite C in X. injection X as <-. rewrite R. rewrite E in K |- *. exact (int_evaluates t names w (InMsg i) fuel y suffix name lo hi _ z h st N W K eq_refl). }
  assert (Fl : forall (double : bool) name, name = (if double then "f64" else "f32") -> s = float_literal name y -> special_ok y || number_ok y = true ->
    match rust_float name s with Some k => constant_value (if double then TDouble else TFloat) k | None => None end = Some v ->
    exists z, v = VZ z /\ eval t names w (InMsg i) fuel h (exp_of s) st = Go (XFloat double z) st).
  { intros double name E Es N X. destruct (rust_float name s) as [k|] eqn:K; [|discriminate].
    assert (Z : exists z, v = VZ z).
    { destruct (rust_float_of _ _ _ K) as [->|[(neg & ->)|(neg & a & b & -> & _)]]; unfold constant_value in X;
        destruct double; cbn -[decimal_bits Z.pow Z.add infinity with_sign] in X;
        try (injection X as <-; eauto); match type of X with option_map _ ?q = _ => destruct q as [b0|] end; try discriminate X; injection X as <-; eauto. }
    destruct Z as (z & ->). exists z. split; [reflexivity|]. rewrite Es in K |- *. exact (float_evaluates t names w (InMsg i) fuel double name y k z h st E N K X). }
  destruct (f_typ f) eqn:Ty; cbn [default_ok default_literal with_suffix] in *; try discriminate Dl; try (apply ok_inj in Dl; subst s);
    try discriminate L;
    try match goal with |- ?a /\ ?a => cut a; [intros X; split; exact X|] end;
    try (refine (Int _ _ _ _ _ eq_refl Ok L (fun _ => eq_refl) (fun _ => eq_refl)); reflexivity);
    try (destruct (Fl false "f32" eq_refl eq_refl Ok L) as (z & -> & E); exact E);
    try (destruct (Fl true "f64" eq_refl eq_refl Ok L) as (z & -> & E); exact E).
  - destruct (String.eqb_spec y "true") as [->|_]; [|destruct (String.eqb_spec y "false") as [->|_]; [|discriminate Dl]];
      apply ok_inj in Dl; subst s; injection L as <-; reflexivity.
  - unfold rust_lit in L. destruct (get_enum d' e) as [en|] eqn:Ge; [|discriminate].
    destruct (find _ (en_fields en)) as [(vn, z)|] eqn:Fd; [|discriminate]. destruct (_ && _)%bool; [|discriminate]. injection L as <-.
    apply find_some in Fd. destruct Fd as (Iv & Es). apply String.eqb_eq in Es. cbn [fst] in Es. unfold value_path in Es.
    rewrite modules_text in Es. fold (enum_path d' en) in Es.
    assert (Es' : s = path_text (enum_path d' en ++ [vn])).
    { etransitivity; [exact Es|]. unfold enum_path. apply path_snoc. }
    rewrite Es'. pose proof (names_enum g d d4 before schema e en Ge) as Ne. pose proof (enum_values e en vn z Ge Iv) as Nv.
    rewrite path_exp.
    + destruct (no_enum _ _ _ Names i m e en G Ge) as (Ow & P & _).
      assert (Le : (2 <= length (enum_path d' en ++ [vn]))%nat).
      { unfold enum_path. rewrite !app_length. cbn. clear. lia. }
      rewrite (ev_path t names i w fuel h _ st Le) by (rewrite removelast_snoc; exact Ow). unfold variant_type, enum_value. rewrite removelast_snoc, last_snoc, P, WN.
      rewrite (numbers_enum g d' d4 names Names e en Ge), (assoc_in _ vn z (pn_values _ _ Plain e en Ge) Iv). reflexivity.
    + rewrite forallb_app. cbn [forallb]. rewrite Nv, !andb_true_r. exact Ne.
    + unfold enum_path. destruct (module_path _ _ _); discriminate.
  - assert (E : exp_of ("Cow::Borrowed(" ++ Passes.quoted y ++ ")")%string = call (epath ["Cow"; "Borrowed"]) [RELit (TStr y)]).
    { apply (exp_of_is closer); [reflexivity| |reflexivity|reflexivity].
      apply borrowed_reads; [eexists _, _; split; [reflexivity|apply (quote_step "("); discriminate]|exact (quoted_reads y Ok)]. }
    rewrite E. unfold rust_lit in L. cbn [Props_Literals.constant_type rust_type_of rust_constant] in L. rewrite cow_argument_app in L.
    destruct (rust_str (Passes.quoted y)) as [l|] eqn:R; [|discriminate]. cbn in L. destruct (utf8_valid _) eqn:U; [|discriminate]. injection L as <-.
    apply cow_evaluates. intros h'. exact (str_evaluates t names w (InMsg i) fuel y l h' st R U).
  - assert (E : exp_of ("Cow::Borrowed(b" ++ Passes.quoted y ++ ")")%string = call (epath ["Cow"; "Borrowed"]) [RELit (TBStr y)]).
    { apply (exp_of_is closer); [reflexivity| |reflexivity|reflexivity].
      apply (borrowed_reads ("b" ++ Passes.quoted y)%string); [eexists _, _; split; reflexivity|exact (bytes_reads y Ok)]. }
    rewrite E. unfold rust_lit in L. cbn [Props_Literals.constant_type rust_type_of rust_constant] in L.
    change ("Cow::Borrowed(b" ++ Passes.quoted y ++ ")")%string with ("Cow::Borrowed(" ++ ("b" ++ Passes.quoted y) ++ ")")%string in L. rewrite cow_argument_app in L.
    destruct (rust_bytes ("b" ++ Passes.quoted y)%string) as [l|] eqn:R; [|discriminate]. injection L as <-.
    apply cow_evaluates. intros h'. exact (bytes_evaluate t names w (InMsg i) fuel y l h' st R).
  - rewrite (exp_of_is word_closer (Passes.quoted y) (RELit (TStr y)) eq_refl (quoted_reads y Ok) eq_refl eq_refl).
    unfold rust_lit in L. cbn [Props_Literals.constant_type rust_type_of rust_constant] in L.
    destruct (rust_str (Passes.quoted y)) as [l|] eqn:R; [|discriminate]. cbn in L. destruct (utf8_valid _) eqn:U; [|discriminate]. injection L as <-.
    split; [apply post_evaluates; [auto|]; intros h'|]; exact (str_evaluates t names w (InMsg i) fuel y l _ st R U).
  - rewrite (exp_of_is word_closer ("b" ++ Passes.quoted y)%string (RELit (TBStr y)) eq_refl (bytes_reads y Ok) eq_refl eq_refl).
    unfold rust_lit in L. cbn [Props_Literals.constant_type rust_type_of rust_constant] in L.
    destruct (rust_bytes ("b" ++ Passes.quoted y)%string) as [l|] eqn:R; [|discriminate]. injection L as <-.
    split; [apply post_evaluates; [auto|]; intros h'|]; exact (bytes_evaluate t names w (InMsg i) fuel y l _ st R).
Qed.
End Constants.
