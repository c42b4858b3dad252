(** Literals that both languages read alike. *)
From Coq Require Import String Ascii Arith ZArith Lia.
From Verif Require Import Base Schema Modules Passes Parser ParserFacts ProtoText TextFacts RustTypes Emit Literals.
Import Schema StringSyntax.
Local Open Scope string_scope.
Local Open Scope list_scope.
Local Open Scope Z_scope.

(** ** The literals for which the generator's text is right *)

(** a decimal number without leading zeros, or a hexadecimal one with [0x] *)
Definition portable_int (s : text) : bool :=
  match s with
  | String a (String b _) => negb (code a =? 48) || (code b =? 120)
  | _ => true
  end.
(** decimal digits on both sides of the point; no leading zeros in a number
    without point and exponent *)
Definition portable_float (s : text) : bool :=
  let (ds, r) := run_of (is_digit 10) s in
  negb (empty ds) &&
  match r with
  | EmptyString => match s with String a (String _ _) => negb (code a =? 48) | _ => true end
  | String a r' => if code a =? 46 then negb (empty (fst (run_of (is_digit 10) r'))) else negb ((code a =? 120) || (code a =? 88))
  end.
(** no quotation marks; the only escapes are those of newline, carriage return,
    tab, backslash, the quotation mark that does not delimit the literal, and
    two hexadecimal digits *)
Fixpoint portable_chars (bytes : bool) (q : ascii) (s : text) : bool :=
  match s with
  | EmptyString => true
  | String a r =>
    if Ascii.eqb a backslash then
      match r with
      | EmptyString => false
      | String b r' =>
        if code b =? 120 then
          match r' with
          | String h (String h' r2) => is_digit 16 h && is_digit 16 h' && (bytes || (digit_or_0 h <? 8)) && portable_chars bytes q r2
          | _ => false
          end
        else existsb (Z.eqb (code b)) [110; 114; 116; 92; 39; 34] && negb (Ascii.eqb b q) && portable_chars bytes q r'
      end
    else negb (Ascii.eqb a q) && negb (Ascii.eqb a quotation) && negb (code a =? 13) && negb (bytes && (128 <=? code a)) && portable_chars bytes q r
  end.
(** a single literal *)
Definition portable_string (bytes : bool) (s : text) : bool :=
  match s with
  | String q r =>
    (Ascii.eqb q quotation || Ascii.eqb q "'") &&
    match until_quote q r with Some (body, EmptyString) => portable_chars bytes q body | _ => false end
  | EmptyString => false
  end.
Definition unsign (s : text) : text := match s with String a r => if code a =? 45 then r else s | EmptyString => s end.
Definition portable (t : field_type) (s : text) : bool :=
  match t with
  | TBool => true
  | TFloat | TDouble => String.eqb s "inf" || String.eqb s "-inf" || String.eqb s "nan" || portable_float (unsign s)
  | TStringCow | TString => portable_string false s
  | TBytesCow | TBytes => portable_string true s
  | _ => portable_int (unsign s)
  end.

(** ** Lexing with a suffix *)
Lemma run_of_app p s t : (forall a r, t = String a r -> p a = false) ->
  run_of p (s ++ t)%string = (fst (run_of p s), (snd (run_of p s) ++ t)%string).
Proof.
  intros H. induction s as [|a s IH]; cbn [append run_of].
  - destruct t as [|a t]; [reflexivity|]. cbn. now rewrite (H a t eq_refl).
  - destruct (p a) eqn:E; [|reflexivity]. rewrite IH. now destruct (run_of p s).
Qed.
Lemma run_of_split p s : s = (fst (run_of p s) ++ snd (run_of p s))%string.
Proof. induction s as [|a s IH]; cbn; [reflexivity|]. destruct (p a); [|reflexivity]. destruct (run_of p s). cbn in *. now rewrite <- IH. Qed.
Lemma all_digits_run base s : all_digits base s = true -> run_of (is_digit base) s = (s, "").
Proof.
  unfold all_digits. pose proof (run_of_split (is_digit base) s) as E. destruct (run_of (is_digit base) s) as (x, y). cbn in *.
  destruct y; [|discriminate]. intros _. now rewrite E, append_nil_r.
Qed.

Lemma run_of_stop p s x b r : run_of p s = (x, String b r) -> p b = false.
Proof.
  revert x. induction s as [|a s IH]; intros x; cbn; [discriminate|]. destruct (p a) eqn:E.
  - destruct (run_of p s) as (u, v). intros H. injection H as <- ->. now apply (IH u).
  - intros H. now injection H as <- <- <-.
Qed.
Lemma not_all_digits s b r : is_digit 10 b = false -> all_digits 8 (s ++ String b r)%string = false.
Proof.
  intros Hb. assert (H8 : is_digit 8 b = false) by (unfold is_digit in *; destruct (digit b); [lia|reflexivity]).
  unfold all_digits. induction s as [|a s IH]; cbn; [now rewrite H8|]. destruct (is_digit 8 a); [|reflexivity].
  destruct (run_of (is_digit 8) (s ++ String b r)%string). exact IH.
Qed.

Definition int_suffix (t : field_type) : text :=
  match t with
  | TInt32 | TSint32 | TSfixed32 => "i32" | TInt64 | TSint64 | TSfixed64 => "i64"
  | TUint32 | TFixed32 => "u32" | TUint64 | TFixed64 => "u64" | _ => "" end.

Lemma int_number suf s z : In suf ["i32"; "i64"; "u32"; "u64"] -> portable_int s = true -> proto_magnitude s = Some (MInt z) ->
  rust_number (s ++ suf)%string = Some (NInt z suf).
Proof.
  intros Hs P M.
  assert (Sb : forall base, (base <=? 16) = true -> forall a r, suf = String a r -> is_digit base a = false).
  { intros base Hb a r E. apply Z.leb_le in Hb. destruct Hs as [<-|[<-|[<-|[<-|[]]]]]; injection E as <- <-; unfold is_digit; cbn; try reflexivity; apply Z.ltb_ge; lia. }
  assert (Si : is_int_suffix suf = true) by (destruct Hs as [<-|[<-|[<-|[<-|[]]]]]; reflexivity).
  assert (Se : exists b r, suf = String b r /\ (code b =? 120) = false /\ (code b =? 111) = false /\ (code b =? 98) = false
             /\ (code b =? 46) = false /\ (code b =? 101) = false /\ (code b =? 69) = false).
  { destruct Hs as [<-|[<-|[<-|[<-|[]]]]]; eexists; eexists; repeat split; reflexivity. }
  assert (D : forall u, empty u = false -> all_digits 10 u = true -> decimal (u ++ suf)%string = Some (NInt (digits 10 u) suf)).
  { intros u Hu A. unfold decimal. rewrite run_of_app by now apply Sb. rewrite (all_digits_run _ _ A). cbn [fst snd append]. rewrite Hu.
    destruct Se as (b & r & E & _ & _ & _ & E1 & E2 & E3). rewrite E, E1, E2, E3, <- E, Si. reflexivity. }
  unfold proto_magnitude in M.
  destruct (String.eqb s "inf"); [discriminate|]. destruct (String.eqb s "nan"); [discriminate|].
  destruct s as [|a r]; [discriminate|].
  assert (Nf : proto_float (String a r) <> Some (MInt z)).
  { unfold proto_float. destruct (run_of (is_digit 10) (String a r)) as (ds, [|b r']); [discriminate|].
    destruct (code b =? 46).
    - destruct (run_of (is_digit 10) r') as (fs, r2). destruct (empty ds && empty fs); [discriminate|]. destruct (exponent r2) as [(e, [|])|]; discriminate.
    - destruct (empty ds); [discriminate|]. destruct (exponent (String b r')) as [(e, [|])|]; discriminate. }
  destruct (code a =? 48) eqn:Ea.
  - destruct r as [|b r'].
    + injection M as <-. destruct Se as (b & r & E & X1 & X2 & X3 & X). rewrite E. cbn [append rust_number]. rewrite X1, X2, X3, !Bool.andb_false_r.
      rewrite <- E. change (String a suf) with (String a "" ++ suf)%string. rewrite D.
      * unfold digits. cbn [digits_from]. unfold digit. apply Z.eqb_eq in Ea. rewrite Ea. reflexivity.
      * reflexivity.
      * unfold all_digits. cbn. unfold is_digit, digit. apply Z.eqb_eq in Ea. rewrite Ea. reflexivity.
    + cbn [portable_int] in P. rewrite Ea in P. cbn in P. rewrite P in M. cbn [orb andb] in M.
      destruct (negb (empty r') && all_digits 16 r') eqn:Hx.
      * injection M as <-. cbn [append rust_number]. rewrite Ea, P. cbn [andb]. apply andb_prop in Hx. destruct Hx as (Hn & Hx). unfold based.
        rewrite run_of_app by now apply Sb. rewrite (all_digits_run _ _ Hx). cbn [fst snd append]. apply Bool.negb_true_iff in Hn.
        rewrite Hn, Si, Bool.orb_true_r. reflexivity.
      * destruct (all_digits 8 (String b r')) eqn:A8; [|contradiction]. exfalso. unfold all_digits in A8. cbn in A8.
        assert (X : is_digit 8 b = false) by (unfold is_digit, digit; apply Z.eqb_eq in P; rewrite P; reflexivity). rewrite X in A8. discriminate.
  - destruct (all_digits 10 (String a r)) eqn:A; [|contradiction]. injection M as <-.
    assert (R : rust_number (String a r ++ suf)%string = decimal (String a r ++ suf)%string).
    { cbn [append]. unfold rust_number. rewrite Ea. cbn. destruct (r ++ suf)%string; reflexivity. }
    rewrite R. now apply D.
Qed.

Lemma unsign_number s neg m : proto_number s = Some (neg, m) ->
  proto_magnitude (unsign s) = Some m /\
  forall t, match (s ++ t)%string with
            | String a r => if code a =? 45 then (true, r) else (false, (s ++ t)%string)
            | EmptyString => (false, (s ++ t)%string)
            end = (neg, (unsign s ++ t)%string).
Proof.
  unfold proto_number, unsign. destruct s as [|a r]; [discriminate|]. cbn [append].
  destruct (code a =? 45); intros H.
  - destruct (proto_magnitude r) as [x|]; [|discriminate]. injection H as <- <-. split; reflexivity.
  - destruct (proto_magnitude (String a r)) as [x|]; [|discriminate]. injection H as <- <-. split; reflexivity.
Qed.

Lemma int_literal t s lo hi k : int_range t = Some (lo, hi) -> proto_constant t s = Some k -> portable_int (unsign s) = true ->
  rust_int (int_suffix t) lo hi (s ++ int_suffix t)%string = Some k.
Proof.
  intros R C P.
  assert (Hs : In (int_suffix t) ["i32"; "i64"; "u32"; "u64"]) by (destruct t; try discriminate R; cbn; tauto).
  assert (U : (lo =? 0) = unsigned t) by (destruct t; try discriminate R; injection R as <- <-; reflexivity).
  assert (C' : match proto_number s with
               | Some (neg, MInt z) => let v := if neg then - z else z in
                 if (lo <=? v) && (v <=? hi) && negb (neg && unsigned t) then Some (CInt v) else None
               | _ => None
               end = Some k) by (destruct t; try discriminate R; cbn [proto_constant] in C; rewrite R in C; exact C).
  clear C. destruct (proto_number s) as [(neg, [z|m e| |])|] eqn:N; try discriminate.
  destruct (unsign_number s neg _ N) as (M & S). unfold rust_int. rewrite S.
  rewrite (int_number _ _ z Hs P M), String.eqb_refl, Bool.orb_true_r, U. cbn [andb]. exact C'.
Qed.

(** *** Floats *)
Lemma exponent_app s e suf : In suf ["f32"; "f64"] -> exponent s = Some (e, "") -> exponent (s ++ suf)%string = Some (e, suf).
Proof.
  intros Hs. assert (Sb : forall a r, suf = String a r -> is_digit 10 a = false).
  { intros a r E. destruct Hs as [<-|[<-|[]]]; injection E as <- <-; reflexivity. }
  unfold exponent. destruct s as [|a r].
  - intros X. injection X as <-. cbn [append]. destruct Hs as [<-|[<-|[]]]; reflexivity.
  - cbn [append]. destruct ((code a =? 101) || (code a =? 69)); [|discriminate].
    set (sgn := match r with String b r' => _ | EmptyString => _ end).
    assert (Q : forall neg r1, sgn = (neg, r1) -> r1 <> "" ->
       match (r ++ suf)%string with
       | String b r' => if code b =? 45 then (true, r') else if code b =? 43 then (false, r') else (false, (r ++ suf)%string)
       | EmptyString => (false, (r ++ suf)%string)
       end = (neg, (r1 ++ suf)%string)).
    { intros neg r1 E Hn. unfold sgn in E. destruct r as [|b r']; [injection E as <- <-; congruence|]. cbn [append].
      destruct (code b =? 45); [now injection E as <- <-|]. destruct (code b =? 43); now injection E as <- <-. }
    destruct sgn as (neg, r1). intros H.
    destruct (run_of (is_digit 10) r1) as (ds, r2) eqn:Er. destruct (empty ds) eqn:Ed; [discriminate|]. injection H as <- ->.
    rewrite (Q neg r1 eq_refl) by (intros ->; cbn in Er; injection Er as <-; discriminate).
    rewrite run_of_app by exact Sb. rewrite Er. cbn [fst snd append]. rewrite Ed. reflexivity.
Qed.

Lemma lower_digit a : is_digit 10 a = true -> lower a <> "i"%char /\ lower a <> "n"%char.
Proof.
  unfold is_digit, digit, lower, code. intros H.
  assert (X : (48 <= nat_of_ascii a <= 57)%nat).
  { destruct ((48 <=? Z.of_nat (nat_of_ascii a)) && (Z.of_nat (nat_of_ascii a) <=? 57)) eqn:E; [apply andb_prop in E; destruct E; lia|].
    destruct ((97 <=? Z.of_nat (nat_of_ascii a)) && (Z.of_nat (nat_of_ascii a) <=? 102)) eqn:E1; [apply andb_prop in E1; destruct E1; lia|].
    destruct ((65 <=? Z.of_nat (nat_of_ascii a)) && (Z.of_nat (nat_of_ascii a) <=? 70)) eqn:E2; [apply andb_prop in E2; destruct E2; lia|]. discriminate. }
  destruct ((65 <=? nat_of_ascii a)%nat && (nat_of_ascii a <=? 90)%nat) eqn:E; [apply andb_prop in E; destruct E as (E & _); apply Nat.leb_le in E; lia|].
  split; intros ->; cbn in X; lia.
Qed.

Lemma float_number suf s m : In suf ["f32"; "f64"] -> portable_float s = true -> proto_magnitude s = Some m ->
  exists x e, rust_number (s ++ suf)%string = Some (NFloat x e suf) /\
  (m = MInt x /\ e = 0 \/ m = MFloat x e).
Proof.
  intros Hs P M.
  assert (Sb : forall a r, suf = String a r -> is_digit 10 a = false).
  { intros a r E. destruct Hs as [<-|[<-|[]]]; injection E as <- <-; reflexivity. }
  assert (Sf : is_float_suffix suf = true) by (destruct Hs as [<-|[<-|[]]]; reflexivity).
  assert (Si : is_int_suffix suf = false) by (destruct Hs as [<-|[<-|[]]]; reflexivity).
  assert (Se : exists b r, suf = String b r /\ (code b =? 120) = false /\ (code b =? 111) = false /\ (code b =? 98) = false
             /\ (code b =? 46) = false /\ (code b =? 101) = false /\ (code b =? 69) = false).
  { destruct Hs as [<-|[<-|[]]]; eexists; eexists; repeat split; reflexivity. }
  assert (D : forall x e, decimal (s ++ suf)%string = Some (NFloat x e suf) -> rust_number (s ++ suf)%string = Some (NFloat x e suf)).
  { intros x e Hd. unfold rust_number. destruct (s ++ suf)%string as [|a [|b r]] eqn:E; try exact Hd.
    assert (K : (code a =? 48) = true -> (code b =? 120) = false /\ (code b =? 111) = false /\ (code b =? 98) = false).
    { intros Ha. unfold decimal in Hd. cbn [run_of] in Hd.
      assert (Da : is_digit 10 a = true) by (unfold is_digit, digit; apply Z.eqb_eq in Ha; rewrite Ha; reflexivity). rewrite Da in Hd.
      destruct (is_digit 10 b) eqn:Db.
      - repeat split; apply Z.eqb_neq; intros X; unfold is_digit, digit in Db; rewrite X in Db; discriminate.
      - cbn [fst snd empty] in Hd. repeat split; apply Z.eqb_neq; intros X; rewrite X in Hd; cbn in Hd;
          assert (B : b = ascii_of_nat (Z.to_nat (code b))) by (unfold code; rewrite Nat2Z.id, ascii_nat_embedding; reflexivity);
          rewrite X in B; cbn in B; subst b; cbn in Hd; try discriminate;
          repeat match type of Hd with context [String.eqb ?u ?v] => destruct (String.eqb u v) eqn:?; [cbn in *; try discriminate|] end; discriminate. }
    destruct (code a =? 48); [|exact Hd]. destruct (K eq_refl) as (-> & -> & ->). exact Hd. }
  unfold portable_float in P. destruct (run_of (is_digit 10) s) as (ds, r) eqn:Er.
  apply andb_prop in P. destruct P as (Pd & P). apply Bool.negb_true_iff in Pd.
  assert (Es : s = (ds ++ r)%string) by (rewrite (run_of_split (is_digit 10) s) at 1; now rewrite Er).
  destruct r as [|b r'].
  - (* an integer *)
    rewrite append_nil_r in Es. subst ds.
    assert (Hd : decimal (s ++ suf)%string = Some (NFloat (digits 10 s) 0 suf)).
    { unfold decimal. rewrite run_of_app by exact Sb. rewrite Er. cbn [fst snd append]. rewrite Pd.
      destruct Se as (b & r & E & _ & _ & _ & E1 & E2 & E3). rewrite E, E1, E2, E3, <- E, Si, Sf. reflexivity. }
    exists (digits 10 s), 0. split; [now apply D|]. left. split; [|reflexivity].
    unfold proto_magnitude in M. destruct s as [|a r]; [discriminate|].
    assert (Da : is_digit 10 a = true) by (cbn in Er; destruct (is_digit 10 a); [reflexivity|discriminate]).
    assert (Ni : String.eqb (String a r) "inf" = false /\ String.eqb (String a r) "nan" = false).
    { split; apply String.eqb_neq; intros X; injection X as -> _; discriminate. }
    destruct Ni as (Ni & Nn). rewrite Ni, Nn in M. destruct (code a =? 48) eqn:Ea.
    + destruct r; [|discriminate]. injection M as <-. f_equal. unfold digits. cbn. unfold digit. apply Z.eqb_eq in Ea. rewrite Ea. reflexivity.
    + assert (A : all_digits 10 (String a r) = true) by (unfold all_digits; rewrite Er; reflexivity). rewrite A in M. now injection M as <-.
  - (* a float *)
    assert (Nb : is_digit 10 b = false) by (apply (run_of_stop _ _ _ _ _ Er)).
    assert (Hm : proto_float s = Some m).
    { destruct ds as [|a ds]; [discriminate|].
      assert (Da : is_digit 10 a = true) by (subst s; cbn in Er; destruct (is_digit 10 a); [reflexivity|discriminate]).
      subst s. cbn [append] in *. unfold proto_magnitude in M.
      assert (Ni : String.eqb (String a (ds ++ String b r')) "inf" = false /\ String.eqb (String a (ds ++ String b r')) "nan" = false).
      { split; apply String.eqb_neq; intros X; injection X as -> _; discriminate. }
      destruct Ni as (Ni & Nn). rewrite Ni, Nn in M.
      assert (A : all_digits 10 (String a (ds ++ String b r')) = false) by (unfold all_digits; rewrite Er; reflexivity).
      assert (A8 : all_digits 8 (ds ++ String b r')%string = false) by (apply not_all_digits; exact Nb).
      rewrite A, A8 in M. destruct (code a =? 48) eqn:Ea; [|exact M].
      assert (X : exists c u, (ds ++ String b r')%string = String c u /\ (code c =? 120) = false /\ (code c =? 88) = false).
      { destruct ds as [|c ds]; [exists b, r'|exists c, (ds ++ String b r')%string]; (split; [reflexivity|]).
        - destruct (code b =? 46) eqn:Eb; [apply Z.eqb_eq in Eb; rewrite Eb; split; reflexivity|].
          apply Bool.negb_true_iff, Bool.orb_false_iff in P. exact P.
        - assert (Dc : is_digit 10 c = true).
          { cbn in Er. rewrite Da in Er. destruct (is_digit 10 c); [reflexivity|]. discriminate. }
          split; apply Z.eqb_neq; intros X; unfold is_digit, digit in Dc; rewrite X in Dc; discriminate. }
      destruct X as (c & u & Eu & X1 & X2). rewrite Eu in M. rewrite X1, X2 in M. cbn [orb andb] in M. rewrite <- Eu in M. exact M. }
    unfold proto_float in Hm. rewrite Er in Hm.
    assert (Dec : decimal (s ++ suf)%string =
      if code b =? 46 then
        let (fs, r2) := run_of (is_digit 10) (r' ++ suf)%string in
        if empty fs then (if empty (r' ++ suf)%string then Some (NFloat (digits 10 ds) 0 "") else None) else with_exponent ds fs r2
      else if (code b =? 101) || (code b =? 69) then with_exponent ds "" (String b r' ++ suf)%string
      else if is_int_suffix (String b r' ++ suf)%string then Some (NInt (digits 10 ds) (String b r' ++ suf)%string)
      else if is_float_suffix (String b r' ++ suf)%string then Some (NFloat (digits 10 ds) 0 (String b r' ++ suf)%string) else None).
    { unfold decimal. rewrite run_of_app by exact Sb. rewrite Er. cbn [fst snd]. rewrite Pd. reflexivity. }
    destruct (code b =? 46) eqn:Eb.
    + rewrite run_of_app in Dec by exact Sb. destruct (run_of (is_digit 10) r') as (fs, r2) eqn:Ef. cbn [fst snd] in *.
      apply Bool.negb_true_iff in P. rewrite P in Dec. rewrite P, Bool.andb_false_r in Hm.
      destruct (exponent r2) as [(e, [|])|] eqn:Ee; try discriminate. injection Hm as <-.
      exists (digits 10 (ds ++ fs)%string), (e - text_length fs). split; [|right; reflexivity]. apply D. rewrite Dec. unfold with_exponent.
      rewrite (exponent_app _ _ _ Hs Ee), Sf, Bool.orb_true_r. reflexivity.
    + rewrite Pd in Hm. destruct (exponent (String b r')) as [(e, [|])|] eqn:Ee; try discriminate. injection Hm as <-.
      assert (Ex : (code b =? 101) || (code b =? 69) = true).
      { unfold exponent in Ee. destruct ((code b =? 101) || (code b =? 69)); [reflexivity|discriminate]. }
      exists (digits 10 ds), e. split; [|right; reflexivity]. apply D. rewrite Dec, Ex. unfold with_exponent.
      rewrite (exponent_app _ _ _ Hs Ee), Sf, Bool.orb_true_r, append_nil_r. cbn [text_length]. now rewrite Z.sub_0_r.
Qed.

Lemma lower_digit_dash a : is_digit 10 a = true -> lower a <> "-"%char.
Proof. destruct a as [[] [] [] [] [] [] [] []]; vm_compute; intros H E; (discriminate H || discriminate E). Qed.

Lemma float_literal_number ty s k : In ty ["f32"; "f64"] -> portable_float (unsign s) = true ->
  (match proto_number s with
   | Some (neg, MInt z) => Some (CFloat neg z 0)
   | Some (neg, MFloat m e) => Some (CFloat neg m e)
   | Some (neg, MInf) => Some (CInf neg)
   | Some (_, MNan) => Some CNan
   | None => None
   end) = Some k ->
  rust_float ty (float_literal ty s) = Some k.
Proof.
  intros Hs P C. destruct (proto_number s) as [(neg, m)|] eqn:N; [|discriminate].
  destruct (unsign_number _ _ _ N) as (M & U).
  destruct (float_number ty _ m Hs P M) as (x & e & R & Hm).
  assert (Hk : k = CFloat neg x e) by (destruct Hm as [(-> & ->)| ->]; now injection C as <-).
  assert (Hd : exists a r, unsign s = String a r /\ is_digit 10 a = true).
  { unfold portable_float in P. destruct (unsign s) as [|a r]; [discriminate|]. exists a, r. split; [reflexivity|].
    cbn in P. destruct (is_digit 10 a); [reflexivity|discriminate]. }
  destruct Hd as (a & r & Eu & Da). destruct (lower_digit a Da) as (Li & Ln).
  assert (Lm : lower "-" = "-"%char) by reflexivity.
  assert (Hc : forall b, code b =? 45 = true -> b = "-"%char).
  { intros b Hb. apply Z.eqb_eq in Hb. unfold code in Hb. rewrite <- (ascii_nat_embedding b). now replace (nat_of_ascii b) with 45%nat by lia. }
  assert (Ns : float_literal ty s = (s ++ ty)%string /\ exists c u, (s ++ ty)%string = String c u /\ c <> ":"%char).
  { unfold unsign in Eu. destruct s as [|b s']; [discriminate|]. destruct (code b =? 45) eqn:Eb.
    - rewrite (Hc b Eb) in *. subst s'. unfold float_literal. cbn [map_chars]. rewrite Lm. split; [|eexists; eexists; split; [reflexivity|discriminate]].
      cbn [String.eqb]. rewrite !(proj2 (Ascii.eqb_neq _ _)) by (congruence || discriminate). cbn.
      destruct (Ascii.eqb (lower a) "i") eqn:E; [apply Ascii.eqb_eq in E; contradiction|]. reflexivity.
    - injection Eu as -> ->. unfold float_literal. cbn [map_chars]. split.
      + cbn [String.eqb].
        destruct (Ascii.eqb (lower a) "i") eqn:E; [apply Ascii.eqb_eq in E; contradiction|].
        destruct (Ascii.eqb (lower a) "n") eqn:E1; [apply Ascii.eqb_eq in E1; contradiction|].
        destruct (Ascii.eqb (lower a) "-") eqn:E2; [|reflexivity]. exfalso. apply Ascii.eqb_eq in E2.
        now apply (lower_digit_dash a Da).
      + eexists; eexists; split; [reflexivity|]. intros ->. discriminate. }
  destruct Ns as (-> & c & u & Ec & Nc). unfold rust_float. rewrite U.
  assert (Q : forall v, String.eqb (s ++ ty)%string (String ":" v) = false) by (intros v; rewrite Ec; apply String.eqb_neq; congruence).
  cbn [append]. rewrite !Q, R, String.eqb_refl, Bool.orb_true_r, Hk. reflexivity.
Qed.

(** *** Strings *)
Lemma until_quote_app q s b r : until_quote q s = Some (b, r) -> s = (b ++ String q r)%string.
Proof.
  revert b r. assert (H : forall n s, (String.length s <= n)%nat -> forall b r, until_quote q s = Some (b, r) -> s = (b ++ String q r)%string).
  2: now apply (H (String.length s)).
  clear s. induction n as [|n IH]; intros [|a s] Hn b r; cbn in Hn; try lia; cbn [until_quote]; try discriminate.
  destruct (Ascii.eqb a q) eqn:E. { apply Ascii.eqb_eq in E. subst a. intros X. now injection X as <- <-. }
  destruct (Ascii.eqb a backslash).
  - destruct s as [|c s]; [discriminate|]. cbn in Hn. destruct (until_quote q s) as [(x, y)|] eqn:U; [|discriminate].
    intros X. injection X as <- <-. cbn. f_equal. f_equal. apply IH; [lia|exact U].
  - destruct (until_quote q s) as [(x, y)|] eqn:U; [|discriminate]. intros X. injection X as <- <-. cbn. f_equal. apply IH; [lia|exact U].
Qed.

Lemma not_occurs_cons c a s : a <> c -> ~ occurs (String c "") s -> ~ occurs (String c "") (String a s).
Proof.
  intros Hn H (u & v & E). destruct u as [|x u]; cbn in E.
  - injection E as -> _. congruence.
  - injection E as _ E. apply H. exists u, v. exact E.
Qed.
Lemma not_occurs_nil c : ~ occurs (String c "") "".
Proof. intros ([|x u] & v & E); discriminate. Qed.
Lemma digit_not_quote q h : q = quotation \/ q = "'"%char -> is_digit 16 h = true -> h <> q.
Proof. intros [-> | ->] H ->; discriminate. Qed.

Lemma portable_chars_ok bytes q : q = quotation \/ q = "'"%char -> forall n s, (String.length s <= n)%nat -> portable_chars bytes q s = true ->
  (forall l, proto_chars s = Some l -> rust_chars bytes (s ++ String quotation "")%string = Some l) /\
  ~ occurs (String q "") s.
Proof.
  intros Hq. induction n as [|n IH]; intros [|a s] Hn; cbn in Hn; try lia.
  1,2: intros _; split; [intros l X; injection X as <-; reflexivity|apply not_occurs_nil].
  cbn [portable_chars proto_chars append rust_chars].
  destruct (Ascii.eqb a backslash) eqn:Eb.
  - apply Ascii.eqb_eq in Eb. subst a.
    assert (Nq : backslash <> q) by (destruct Hq; subst q; discriminate).
    replace (Ascii.eqb backslash quotation) with false by reflexivity.
    destruct s as [|b s]; [discriminate|]. cbn [append]. cbn in Hn.
    destruct (code b =? 120) eqn:Ex.
    + destruct s as [|h [|h' s]]; try discriminate. cbn [append orb]. cbn in Hn. intros P.
      apply andb_prop in P. destruct P as (P & Ps). destruct (IH s) as (I1 & I2); [lia|exact Ps|].
      pose proof P as P'. apply andb_prop in P'. destruct P' as (P' & _). apply andb_prop in P'. destruct P' as (Ph & Ph'). split.
      * intros l. rewrite P, Ph, Ph'. destruct (proto_chars s); [|discriminate]. intros X. injection X as <-. now rewrite (I1 _ eq_refl).
      * assert (Bq : b <> q). { apply Z.eqb_eq in Ex. intros ->. destruct Hq; subst q; discriminate. }
        repeat (apply not_occurs_cons; [assumption || now apply digit_not_quote|]). exact I2.
    + intros P. apply andb_prop in P. destruct P as (P & Ps). apply andb_prop in P. destruct P as (P & Pq).
      destruct (IH s) as (I1 & I2); [lia|exact Ps|]. apply Bool.negb_true_iff, Ascii.eqb_neq in Pq. split.
      * intros l. cbn [existsb] in P. unfold simple_escape.
        repeat (apply Bool.orb_prop in P; destruct P as [P|P]); try discriminate; apply Z.eqb_eq in P;
          (assert (D8 : is_digit 8 b = false) by (unfold is_digit, digit; rewrite P; reflexivity));
          rewrite D8, P; cbn [Z.eqb Pos.eqb orb];
          (destruct (proto_chars s); [|intros X; discriminate X]); cbn [option_map]; intros X; injection X as <-;
          rewrite (I1 _ eq_refl); reflexivity.
      * now apply not_occurs_cons; [|apply not_occurs_cons].
  - intros P. apply andb_prop in P. destruct P as (P & Ps). apply andb_prop in P. destruct P as (P & P4). apply andb_prop in P. destruct P as (P & P3).
    apply andb_prop in P. destruct P as (P1 & P2). apply Bool.negb_true_iff in P1, P2, P3, P4.
    destruct (IH s) as (I1 & I2); [lia|exact Ps|]. split.
    + intros l. rewrite P2, P3, P4. cbn [orb]. destruct ((code a =? 0) || (code a =? 10)); [discriminate|].
      destruct (proto_chars s); [|discriminate]. intros X. injection X as <-. now rewrite (I1 _ eq_refl).
    + apply not_occurs_cons; [now apply Ascii.eqb_neq|exact I2].
Qed.

(** a portable string: what the parser keeps of it, and its value *)
Lemma string_literal bytes s l t : portable_string bytes s = true -> proto_string (String.length s) s = Some l ->
  t = TStringCow \/ t = TBytesCow ->
  exists body, rust_chars bytes (body ++ String quotation "")%string = Some l /\
  forall kvs, lookup_key "default" kvs = Some s -> default_check Proto2 t kvs = COk (Some body).
Proof.
  intros P C T. destruct s as [|q r]; [discriminate|]. cbn [portable_string] in P. cbn [String.length proto_string] in C.
  apply andb_prop in P. destruct P as (Pq & P). rewrite Pq in C.
  destruct (until_quote q r) as [(body, [|])|] eqn:U; try discriminate.
  cbn [run_of snd empty] in C. destruct (proto_chars body) as [l'|] eqn:Ec; [|discriminate]. injection C as <-. rewrite app_nil_r.
  assert (Hq : q = quotation \/ q = "'"%char) by (apply Bool.orb_prop in Pq; destruct Pq as [X|X]; apply Ascii.eqb_eq in X; tauto).
  destruct (portable_chars_ok bytes q Hq _ body (le_n _) P) as (I1 & I2).
  exists body. split; [now apply I1|]. intros kvs K. unfold default_check. rewrite K. apply until_quote_app in U. subst r.
  assert (D : delimited (tag (String q "")) (take_until (String q "")) (tag (String q "")) (String q (body ++ String q "")%string) = POk "" body).
  { change (String q (body ++ String q ""))%string with (String q "" ++ (body ++ String q "" ++ ""))%string.
    unfold delimited, preceded, terminated, pbind. rewrite tag_ok, take_until_char by exact I2. rewrite tag_ok. reflexivity. }
  assert (A : alt [delimited (tag quote) (take_until quote) (tag quote); delimited (tag squote) (take_until squote) (tag squote)]
                  (String q (body ++ String q "")%string) = POk "" body).
  { destruct Hq as [-> | ->].
    - cbn [alt]. change quote with (String quotation ""). rewrite D. reflexivity.
    - cbn [alt]. change squote with (String "'" ""). rewrite D.
      replace (delimited (tag quote) (take_until quote) (tag quote) _) with (@PErr text); [reflexivity|].
      unfold delimited, preceded, pbind, quote. rewrite tag_head; [reflexivity|]. cbn. discriminate. }
  destruct T as [-> | ->]; rewrite A; reflexivity.
Qed.

Lemma before_paren_app s : before_paren (s ++ ")")%string = Some s.
Proof. induction s as [|a s IH]; [reflexivity|]. cbn. destruct (s ++ ")")%string eqn:E; [destruct s; discriminate|]. cbn [empty]. now rewrite IH. Qed.
Lemma cow_argument_app s : cow_argument ("Cow::Borrowed(" ++ s ++ ")")%string = Some s.
Proof. unfold cow_argument. cbn [append strip]. cbn. apply before_paren_app. Qed.
