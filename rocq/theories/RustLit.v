(** The values of the default options in the compiled program: what the abstract
    function [lit] of GenSem.v is. *)
From Coq Require Import String Ascii Arith ZArith Lia.
From Verif Require Import Base Utf8 Utf8Facts Spec Schema Modules Passes Parser ParserFacts ProtoText TextFacts RustTypes Emit Literals LiteralFacts Floats.
From Verif Require Import Keywords GenCheck Cycles CycleFacts BreakFacts IndexFacts Pipeline PassFacts AcceptFacts PlaceFacts Gen GenSem GenSpec
  GenType Props_Passes Props_Accepted Props_TypeCheck Props_Literals.
Import Schema StringSyntax.
Local Open Scope string_scope.
Local Open Scope list_scope.
Local Open Scope Z_scope.

(** ** Specification: the value of type [t] that a constant stands for *)

(** exponent and mantissa bits *)
Definition format (t : field_type) : Z * Z := match t with TFloat => (8, 23) | _ => (11, 52) end.
Definition with_sign (eb mb : Z) (neg : bool) (b : Z) : Z := if neg then 2 ^ (eb + mb) + b else b.

Definition denotes (t : field_type) (k : constant) (v : value) : Prop :=
  let '(eb, mb) := format t in
  match k with
  | CInt z => v = VZ z
  | CFloat neg m e => exists b, nearest_decimal eb mb m e b /\ v = VZ (with_sign eb mb neg b)
  | CInf neg => v = VZ (with_sign eb mb neg (infinity eb mb))
  | CNan => exists x, v = VZ x /\ float_is_nan eb mb x = true
  | CBool b => v = VBool b
  | CStr l | CBytes l => v = VB (map byte_of_ascii l)
  end.

(** ** The value of a Rust constant *)

(** strings in Rust are UTF-8; NAN is the quiet NaN without payload *)
Definition constant_value (t : field_type) (k : constant) : option value :=
  let '(eb, mb) := format t in
  match k with
  | CInt z => Some (VZ z)
  | CFloat neg m e => option_map (fun b => VZ (with_sign eb mb neg b)) (decimal_bits eb mb m e)
  | CInf neg => Some (VZ (with_sign eb mb neg (infinity eb mb)))
  | CNan => Some (VZ (infinity eb mb + 2 ^ (mb - 1)))
  | CBool b => Some (VBool b)
  | CStr l => let b := map byte_of_ascii l in if utf8_valid b then Some (VB b) else None
  | CBytes l => Some (VB (map byte_of_ascii l))
  end.

(** the path of a value of an enum (C66), from the code for the file [d] *)
Definition value_path (d : file_descriptor) (en : enumerator) (v : text) : text :=
  (get_modules (en_module en) (en_imported en) (d_package d) ++ en_name en ++ "::" ++ v)%string.

(** The value of the text [s] as the default of a field of type [t] in the code
    for [d]: literals by [rust_constant], paths of enum values.  The numbers of
    enums are i32 (parser.rs:155-162). *)
Definition rust_lit (d : file_descriptor) (t : field_type) (s : text) : option value :=
  match t with
  | TEnum e =>
    match get_enum d e with
    | Some en => match find (fun p => String.eqb s (value_path d en (fst p))) (en_fields en) with
                 | Some (_, z) => if (- 2 ^ 31 <=? z) && (z <? 2 ^ 31) then Some (VZ z) else None
                 | None => None
                 end
    | None => None
    end
  | _ => match rust_constant (constant_type t) s with Some k => constant_value t k | None => None end
  end.

(** ** The values have the type of the field *)

Lemma digits_from_nonneg base s : 0 <= base -> forall acc, 0 <= acc -> 0 <= digits_from base acc s.
Proof.
  intros Hb. induction s as [|a s IH]; intros acc H; [exact H|]. cbn [digits_from]. apply IH.
  assert (0 <= match digit a with Some d => d | None => 0 end); [|nia].
  unfold digit. repeat match goal with |- context [if ?b then _ else _] => let E := fresh in destruct b eqn:E end; try lia;
    apply andb_true_iff in H0 || idtac; unfold code in *; lia.
Qed.
Lemma rust_number_float s m e suf : rust_number s = Some (NFloat m e suf) -> 0 <= m.
Proof.
  assert (W : forall ds fs r, with_exponent ds fs r = Some (NFloat m e suf) -> 0 <= m).
  { intros ds fs r H. unfold with_exponent in H. destruct (exponent r) as [(e', x)|]; [|discriminate].
    destruct (empty x || is_float_suffix x); [|discriminate]. injection H as <- _ _. apply digits_from_nonneg; lia. }
  assert (D : forall s, decimal s = Some (NFloat m e suf) -> 0 <= m).
  { intros x H. unfold decimal in H. destruct (run_of (is_digit 10) x) as (ds, r). destruct (empty ds); [discriminate|].
    destruct r as [|a r']; [discriminate|]. destruct (code a =? 46).
    - destruct (run_of (is_digit 10) r') as (fs, r2). destruct (empty fs); [|eapply W; exact H].
      destruct (empty r'); [|discriminate]. injection H as <- _ _. apply digits_from_nonneg; lia.
    - destruct ((code a =? 101) || (code a =? 69)); [eapply W; exact H|].
      destruct (is_int_suffix _); [discriminate|]. destruct (is_float_suffix _); [|discriminate]. injection H as <- _ _. apply digits_from_nonneg; lia. }
  assert (B : forall base x, based base x <> Some (NFloat m e suf)).
  { intros base x H. unfold based in H. destruct (run_of (is_digit base) x) as (ds, r). destruct (empty ds); [discriminate|].
    destruct (empty r || is_int_suffix r); discriminate. }
  intros H. unfold rust_number in H. destruct s as [|a [|b r]]; try (eapply D; exact H).
  destruct ((code a =? 48) && (code b =? 120)); [now apply B in H|].
  destruct ((code a =? 48) && (code b =? 111)); [now apply B in H|].
  destruct ((code a =? 48) && (code b =? 98)); [now apply B in H|]. eapply D; exact H.
Qed.

(** what the constants of a type look like *)
Definition constant_of (t : field_type) (k : constant) : Prop :=
  match t with
  | TInt32 | TSint32 | TSfixed32 => exists z, k = CInt z /\ is_s 32 z
  | TInt64 | TSint64 | TSfixed64 => exists z, k = CInt z /\ is_s 64 z
  | TUint32 | TFixed32 => exists z, k = CInt z /\ is_u 32 z
  | TUint64 | TFixed64 => exists z, k = CInt z /\ is_u 64 z
  | TFloat | TDouble => k = CNan \/ (exists neg, k = CInf neg) \/ exists neg m e, k = CFloat neg m e /\ 0 <= m
  | TBool => exists b, k = CBool b
  | TStringCow | TString => exists l, k = CStr l
  | TBytesCow | TBytes => exists l, k = CBytes l
  | _ => False
  end.
Lemma rust_int_of name lo hi s k : rust_int name lo hi s = Some k -> exists z, k = CInt z /\ lo <= z <= hi.
Proof.
  unfold rust_int. destruct (match s with String a r => if code a =? 45 then (true, r) else (false, s) | EmptyString => (false, s) end) as (neg, r).
  destruct (rust_number r) as [[z suf|]|]; try discriminate. cbv zeta.
  set (v := if neg then - z else z). clearbody v.
  destruct (_ && _ && _ && _) eqn:E; [|discriminate]. intros H. injection H as <-. exists v. split; [reflexivity|].
  rewrite !andb_true_iff in E. destruct E as (((_ & A) & B) & _). apply Z.leb_le in A, B. lia.
Qed.
Lemma rust_float_of name s k : rust_float name s = Some k ->
  k = CNan \/ (exists neg, k = CInf neg) \/ exists neg m e, k = CFloat neg m e /\ 0 <= m.
Proof.
  unfold rust_float. destruct (String.eqb _ _); [intros H; injection H as <-; eauto|].
  destruct (String.eqb _ _); [intros H; injection H as <-; eauto|]. destruct (String.eqb _ _); [intros H; injection H as <-; eauto|].
  destruct (match s with String a r => if code a =? 45 then (true, r) else (false, s) | EmptyString => (false, s) end) as (neg, r).
  destruct (rust_number r) as [[|m e suf]|] eqn:N; try discriminate. destruct (_ || _); [|discriminate]. intros H. injection H as <-.
  right. right. exists neg, m, e. split; [reflexivity|]. eapply rust_number_float; exact N.
Qed.
Lemma rust_constant_of t s k : rust_constant (constant_type t) s = Some k -> (forall e, t <> TEnum e) -> constant_of t k.
Proof.
  intros H NE.
  destruct t as [| | | | | | |q| | | | | | | |i|n| | | |a b]; cbn [constant_type rust_type_of rust_constant constant_of] in *;
    try (apply rust_int_of in H; destruct H as (z & -> & R); exists z; split; [reflexivity|];
         unfold is_s, is_u; cbn -[Z.pow] in *; lia); try discriminate H; try (now apply rust_float_of in H).
  all: try (destruct (String.eqb s "true"); [injection H as <-; eauto|]; destruct (String.eqb s "false"); [injection H as <-; eauto|discriminate]).
  all: try (destruct (cow_argument s); [|discriminate]).
  all: try (unfold option_map in H; match type of H with match ?e with _ => _ end = _ => destruct e; [injection H as <-; eauto|discriminate] end).
Qed.

Lemma with_sign_range eb mb neg b : 0 <= eb -> 0 <= mb -> 0 <= b < 2 ^ (eb + mb) -> 0 <= with_sign eb mb neg b < 2 ^ (eb + mb + 1).
Proof.
  intros He Hm H. unfold with_sign. replace (2 ^ (eb + mb + 1)) with (2 * 2 ^ (eb + mb)) by (rewrite (Z.pow_add_r _ _ 1) by lia; change (2 ^ 1) with 2; ring).
  destruct neg; lia.
Qed.
Lemma infinity_range eb mb : 1 <= eb -> 0 <= mb -> 0 < infinity eb mb < 2 ^ (eb + mb).
Proof.
  intros He Hm. unfold infinity. rewrite Z.pow_add_r by lia. assert (0 < 2 ^ mb) by (apply Z.pow_pos_nonneg; lia).
  assert (2 ^ 1 <= 2 ^ eb) by (apply Z.pow_le_mono_r; lia). change (2 ^ 1) with 2 in *. nia.
Qed.
Lemma decimal_bits_finite eb mb m e b : 1 <= mb -> 0 <= m -> decimal_bits eb mb m e = Some b -> 0 <= b < infinity eb mb.
Proof. intros Hmb Hm H. apply decimal_bits_nearest in H; auto. apply H. Qed.

Lemma float_value_ok t eb mb w k v : format t = (eb, mb) -> w = eb + mb + 1 -> 2 <= eb -> 2 <= mb ->
  k = CNan \/ (exists neg, k = CInf neg) \/ (exists neg m e, k = CFloat neg m e /\ 0 <= m) ->
  constant_value t k = Some v -> exists z, v = VZ z /\ 0 <= z < 2 ^ w.
Proof.
  intros F -> He Hm C H. pose proof (infinity_range eb mb ltac:(lia) ltac:(lia)) as I.
  unfold constant_value in H. rewrite F in H. destruct C as [->|[(neg & ->)|(neg & m & e & -> & M)]].
  - injection H as <-. eexists. split; [reflexivity|].
    assert (0 < 2 ^ (mb - 1) < 2 ^ (eb + mb)) by (split; [apply Z.pow_pos_nonneg|apply Z.pow_lt_mono_r]; lia).
    rewrite (Z.pow_add_r _ (eb + mb) 1) by lia. change (2 ^ 1) with 2. lia.
  - injection H as <-. eexists. split; [reflexivity|]. apply with_sign_range; lia.
  - destruct (decimal_bits eb mb m e) as [b|] eqn:B; [|discriminate]. injection H as <-. eexists. split; [reflexivity|].
    apply decimal_bits_finite in B; [|lia|exact M]. apply with_sign_range; lia.
Qed.

Lemma rust_lit_typed d c t s v : rust_lit d t s = Some v -> val_ok d c t v.
Proof.
  intros H. assert (K : (exists e, t = TEnum e) \/ (forall e, t <> TEnum e)) by (destruct t; eauto; right; intros; discriminate).
  destruct K as [(e & ->)|NE].
  - cbn [rust_lit] in H. destruct (get_enum d e) as [en|] eqn:G; [|discriminate].
    destruct (find _ (en_fields en)) as [(n, z)|] eqn:F; [|discriminate]. destruct (_ && _) eqn:R; [|discriminate]. injection H as <-.
    apply andb_true_iff in R. destruct R as (R1 & R2). apply Z.leb_le in R1. apply Z.ltb_lt in R2.
    apply find_some in F. destruct F as (F & _). cbn [val_ok]. rewrite G. split; [unfold is_s; cbn -[Z.pow]; lia|].
    apply in_map_iff. exists (n, z). auto.
  - assert (R : exists k, rust_constant (constant_type t) s = Some k /\ constant_value t k = Some v).
    { destruct t; try (now destruct (NE e)); cbn [rust_lit] in H;
        match type of H with match ?e with _ => _ end = _ => destruct e as [k|] eqn:E; [|discriminate] end; exists k; split; auto. }
    destruct R as (k & R & V). pose proof (rust_constant_of t s k R NE) as C.
    destruct t; cbn [constant_of] in C; try contradiction; try (now destruct (NE e));
      try (destruct C as (z & -> & C); cbn in V; injection V as <-; exact C).
    + destruct C as (b & ->). injection V as <-. reflexivity.
    + destruct (float_value_ok TDouble 11 52 64 k v eq_refl eq_refl ltac:(lia) ltac:(lia) C V) as (z & -> & Z). exact Z.
    + destruct C as (l & ->). cbn [constant_value format] in V. destruct (utf8_valid (map byte_of_ascii l)) eqn:U; [|discriminate]. injection V as <-.
      cbn [val_ok]. now apply utf8_valid_is.
    + destruct C as (l & ->). injection V as <-. exact I.
    + destruct C as (l & ->). cbn [constant_value format] in V. destruct (utf8_valid (map byte_of_ascii l)) eqn:U; [|discriminate]. injection V as <-.
      cbn [val_ok]. now apply utf8_valid_is.
    + destruct C as (l & ->). injection V as <-. exact I.
    + destruct (float_value_ok TFloat 8 23 32 k v eq_refl eq_refl ltac:(lia) ltac:(lia) C V) as (z & -> & Z). exact Z.
Qed.

(** the value of a constant is what it stands for *)
Lemma constant_denotes t k v : constant_of t k -> constant_value t k = Some v -> denotes t k v.
Proof.
  intros C H. unfold constant_value, denotes in *. destruct (format t) as (eb, mb) eqn:F.
  assert (Fm : (eb = 8 /\ mb = 23) \/ (eb = 11 /\ mb = 52)) by (destruct t; injection F as <- <-; auto).
  assert (P : forall neg m e, k = CFloat neg m e -> 0 <= m).
  { intros neg m e ->. destruct t; cbn [constant_of] in C; try (decompose [ex and] C; discriminate); try contradiction;
      (destruct C as [C|[(n & C)|(n & m' & e' & C & M)]]; [discriminate|discriminate|injection C as -> -> ->; exact M]). }
  destruct k; try (injection H as <-; reflexivity).
  - destruct (decimal_bits eb mb m e) as [b|] eqn:B; [|discriminate]. injection H as <-. exists b. split; [|reflexivity].
    apply decimal_bits_nearest; [lia|eapply P; reflexivity|exact B].
  - injection H as <-. eexists. split; [reflexivity|]. destruct Fm as [(-> & ->)|(-> & ->)]; reflexivity.
  - destruct (utf8_valid _); [|discriminate]. now injection H as <-.
Qed.
