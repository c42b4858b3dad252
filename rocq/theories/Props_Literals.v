(** C68: the default of the generated code is the default of the schema.

    [proto_constant] and [rust_constant] (Literals.v) say what a text denotes in
    the two languages; [portable] (LiteralFacts.v) is a property of the text in
    the schema alone. *)
From Coq Require Import String Ascii Arith ZArith Lia.
From Verif Require Import Base Schema Modules Passes Parser ParserFacts ProtoText TextFacts RustTypes Emit Literals LiteralFacts.
From Verif Require Import Keywords GenCheck Cycles CycleFacts BreakFacts IndexFacts Pipeline PassFacts GenSem GenSpec Props_Passes Props_Accepted Props_TypeCheck.
Import Schema StringSyntax.
Local Open Scope string_scope.
Local Open Scope list_scope.
Local Open Scope Z_scope.

(** the type of the constant for a field of type [t] *)
Definition constant_type (t : field_type) : rtype :=
  match t with TString => YRef YStr | TBytes => YRef (YSlice YU8) | t => rust_type_of t end.
Lemma const_rtype_eq f : const_rtype f = constant_type (f_typ f).
Proof. unfold const_rtype, constant_type. now destruct (f_typ f). Qed.

(** the types a field can have in the text of a schema, and that of the field of
    the generated struct *)
Definition scalar (t : field_type) : Prop :=
  match t with TString | TBytes | TMessage _ | TEnum _ | TMessageOrEnum _ | TMap _ _ => False | _ => True end.

Lemma float_value t s k : t = TFloat \/ t = TDouble -> proto_constant t s = Some k -> portable t s = true ->
  rust_constant (constant_type t) (float_literal (match t with TFloat => "f32" | _ => "f64" end) s) = Some k.
Proof.
  intros T C P.
  assert (P' : String.eqb s "inf" || String.eqb s "-inf" || String.eqb s "nan" || portable_float (unsign s) = true) by (destruct T; subst t; exact P).
  apply Bool.orb_prop in P'. destruct P' as [P'|P'].
  - apply Bool.orb_prop in P'. destruct P' as [P'|P']; [apply Bool.orb_prop in P'; destruct P' as [P'|P']|]; apply String.eqb_eq in P'; subst s;
      destruct T; subst t; injection C as <-; reflexivity.
  - destruct T; subst t; cbn [proto_constant] in C; cbn [constant_type rust_type_of rust_constant];
      apply float_literal_number; auto; cbn; tauto.
Qed.

Lemma literal_value own d t kvs s k x y : scalar t ->
  lookup_key "default" kvs = Some s -> default_check Proto2 t kvs = COk (Some x) ->
  proto_constant t s = Some k -> portable t s = true ->
  default_literal d (if own : bool then own_type t else t) x = GOk y ->
  rust_constant (constant_type (if own then own_type t else t)) y = Some k.
Proof.
  intros Hs L D C P G.
  assert (Num : default_check Proto2 t kvs = COk (Some s) -> x = s) by congruence.
  destruct (int_range t) as [(lo, hi)|] eqn:R.
  - assert (T : (if own then own_type t else t) = t) by (destruct own, t; try discriminate R; reflexivity). rewrite T in *.
    assert (P' : portable_int (unsign s) = true) by (destruct t; try discriminate R; exact P).
    assert (X : x = s) by (apply Num; unfold default_check; rewrite L; destruct t; try discriminate R; reflexivity). subst x.
    pose proof (int_literal t s lo hi k R C P') as I.
    destruct t; try discriminate R; injection R as <- <-; injection G as <-; exact I.
  - destruct t; try contradiction; try discriminate R.
    + (* bool *)
      assert (X : x = s) by (apply Num; unfold default_check; rewrite L; reflexivity). subst x.
      replace (if own then own_type TBool else TBool) with TBool in * by (destruct own; reflexivity).
      cbn [default_literal proto_constant constant_type rust_type_of rust_constant] in *.
      destruct (String.eqb s "true") eqn:B1; [injection G as <-; rewrite B1; exact C|].
      destruct (String.eqb s "false") eqn:B2; [injection G as <-; rewrite B1, B2; exact C|discriminate].
    + (* double *)
      assert (X : x = s) by (apply Num; unfold default_check; rewrite L; reflexivity). subst x.
      replace (if own then own_type TDouble else TDouble) with TDouble in * by (destruct own; reflexivity).
      injection G as <-. apply (float_value TDouble); auto.
    + (* string *)
      unfold proto_constant in C. cbn [portable] in P. destruct (proto_string (String.length s) s) as [l|] eqn:Es; [|discriminate]. injection C as <-.
      destruct (string_literal false s l TStringCow P Es (or_introl eq_refl)) as (b & B & K). rewrite (K kvs L) in D. injection D as <-.
      destruct own.
      * assert (Y : Passes.quoted b = y) by (now injection G). rewrite <- Y.
        cbn [own_type own1 constant_type rust_type_of rust_constant]. unfold rust_str, Passes.quoted. change (ascii_of_nat 34) with quotation.
        rewrite Ascii.eqb_refl, B. reflexivity.
      * assert (Y : ("Cow::Borrowed(" ++ Passes.quoted b ++ ")")%string = y) by (now injection G). rewrite <- Y.
        cbn [constant_type rust_type_of rust_constant]. rewrite cow_argument_app. unfold rust_str, Passes.quoted. change (ascii_of_nat 34) with quotation.
        rewrite Ascii.eqb_refl, B. reflexivity.
    + (* bytes *)
      unfold proto_constant in C. cbn [portable] in P. destruct (proto_string (String.length s) s) as [l|] eqn:Es; [|discriminate]. injection C as <-.
      destruct (string_literal true s l TBytesCow P Es (or_intror eq_refl)) as (b & B & K). rewrite (K kvs L) in D. injection D as <-.
      destruct own.
      * assert (Y : String "b" (Passes.quoted b) = y) by (now injection G). rewrite <- Y.
        cbn [own_type own1 constant_type rust_type_of rust_constant]. unfold rust_bytes, Passes.quoted. change (ascii_of_nat 34) with quotation.
        rewrite Ascii.eqb_refl, B. reflexivity.
      * assert (Y : ("Cow::Borrowed(" ++ String "b" (Passes.quoted b) ++ ")")%string = y) by (now injection G). rewrite <- Y.
        cbn [constant_type rust_type_of rust_constant]. rewrite cow_argument_app. unfold rust_bytes, Passes.quoted. change (ascii_of_nat 34) with quotation.
        rewrite Ascii.eqb_refl, B. reflexivity.
    + (* float *)
      assert (X : x = s) by (apply Num; unfold default_check; rewrite L; reflexivity). subst x.
      replace (if own then own_type TFloat else TFloat) with TFloat in * by (destruct own; reflexivity).
      injection G as <-. apply (float_value TFloat); auto.
Qed.

Lemma scalar_resolves msgs enums pkg n t : scalar t -> resolve_type msgs enums pkg n t = GOk t.
Proof. destruct t; try contradiction; reflexivity. Qed.

(** ** C68

    An option [default = s] of a field of scalar type, in a schema that is
    accepted: if [s] is a literal of protobuf with value [k] and is portable,
    then the literal in the generated code is a literal of Rust, of the type of
    the constant, with value [k].  Missing: the literals that are not portable
    (below), and that rounding to f32 or f64 is the same in both languages. *)
Theorem C68_default_keeps_value_partial : forall c d d' p m f kvs s k, process c d = GOk d' ->
  get_message d p = Some m -> field_of m f -> scalar (f_typ f) ->
  lookup_key "default" kvs = Some s -> default_check Proto2 (f_typ f) kvs = COk (f_default f) ->
  proto_constant (f_typ f) s = Some k -> portable (f_typ f) s = true ->
  exists m' f' y, get_message d' p = Some m' /\ field_of m' f' /\ f_number f' = f_number f /\
    f_default f' = Some y /\ rust_constant (const_rtype f') y = Some k.
Proof.
  intros c d d' p m f kvs s k A G Hf Sc L D C P.
  pose proof (process_message c d d' A p) as R. rewrite G in R. inversion R as [|x m' F E1 E2]; subst. symmetry in E2.
  apply field_of_all in Hf. destruct (Forall2_in_l _ _ _ (fields_rel_all _ _ _ F) f Hf) as (f' & Hf' & FF). apply field_of_all in Hf'.
  assert (Df : exists x, f_default f = Some x).
  { unfold default_check in D. rewrite L in D. destruct (f_typ f); try (injection D as D; rewrite <- D; eauto);
      match type of D with (match ?e with _ => _ end) = _ => destruct e; try discriminate; injection D as D; rewrite <- D; eauto end. }
  destruct Df as (x & Df). destruct (ff_text _ _ _ _ _ _ FF x Df) as (y & Y & Fy). rewrite Df in D.
  exists m', f', y. repeat match goal with |- _ /\ _ => split end; auto; [exact (ff_number _ _ _ _ _ _ FF)|].
  destruct (ff_typ _ _ _ _ _ _ FF) as (t & Ht & Et). rewrite scalar_resolves in Ht by exact Sc. injection Ht as <-.
  rewrite const_rtype_eq, Et. rewrite Et in Y. eapply literal_value; eauto.
Qed.
Print Assumptions C68_default_keeps_value_partial.

(** ** Defaults of enums

    The default of a field of a top-level message is a value of the enum. *)
Theorem C68_enum_default_exists_partial : forall c d d' m f e en s, process c d = GOk d' ->
  In m (d_messages d) -> field_of m f -> f_default f = Some s ->
  resolve_type (full_msgs d) (full_enums d) (m_package m) (m_name m) (f_typ f) = GOk (TEnum e) ->
  get_enum d e = Some en -> exists v, In (s, v) (en_fields en).
Proof.
  intros c d d' m f e en s H Hm Hf Df Rt Ge. apply process_stages in H. destruct H as (d1 & d2 & d4 & [E1 E2 E3 E4 _]).
  apply In_nth_error in Hm. destruct Hm as (k & Hk).
  assert (G : get_message d [k] = Some m) by (cbn; now rewrite Hk).
  pose proof (resolve_types_get d d1 [k] E1) as R1. rewrite get_assign, G in R1. inversion R1 as [|x m1 M1 A B]; subst.
  symmetry in B.
  destruct (break_cycles_ok (c_error_cycle c) d1 (resolve_types_indexed d d1 E1)) as (cs & _ & [(d2' & E2' & R2 & _)|(_ & names & E2' & _)]); [|congruence].
  rewrite E2 in E2'. injection E2' as <-. destruct (desc_rel_fwd _ _ _ [k] _ R2 B) as (m2 & G2 & M2).
  apply resolve_message_ok in M1. destruct M1 as (M1 & _).
  apply msg_fields_rel in M1, M2.
  assert (Hf' : In f (all_fields (set_indices [k] m))) by (rewrite set_indices_eq; now apply field_of_all).
  destruct (Forall2_in_l _ _ _ (fields_rel_all _ _ _ M1) f Hf') as (f1 & Hf1 & (t & Ht & ->)).
  assert (Pm : m_package (set_indices [k] m) = m_package m /\ m_name (set_indices [k] m) = m_name m) by (rewrite set_indices_eq; auto).
  destruct Pm as (P1 & P2). rewrite P1, P2, Rt in Ht. injection Ht as <-.
  destruct (Forall2_in_l _ _ _ (fields_rel_all _ _ _ M2) _ Hf1) as (f2 & Hf2 & Ev).
  assert (X : f_default f2 = Some s /\ f_typ f2 = TEnum e).
  { destruct Ev as [->|(j & Tj & _ & _ & _ & ->)]; split; auto. }
  destruct X as (X1 & X2).
  assert (Hm2 : In m2 (d_messages d2)) by (cbn in G2; now apply nth_error_In in G2).
  pose proof (sanity_ok d2 m2 f2 E3 Hm2 (proj2 (field_of_all _ _) Hf2)) as K. unfold field_sanity in K. rewrite X1, X2 in K.
  destruct (is_reserved m2 f2); [discriminate|].
  rewrite (get_enum_rel _ _ _ e R2), (get_enum_resolve d d1 e E1), Ge in K.
  destruct (existsb (fun p => String.eqb (fst p) s) (en_fields en)) eqn:Ex; [|discriminate].
  apply existsb_exists in Ex. destruct Ex as ((n, v) & Hin & En). cbn in En. apply String.eqb_eq in En. subst n. eauto.
Qed.
Print Assumptions C68_enum_default_exists_partial.

(** ** Cases and counterexamples *)

(** [message M { optional t x = 1 [default = s]; }] *)
Definition field_with (t : field_type) (s : text) : field :=
  mkField "x" P2Optional t 1 (match default_check Proto2 t [("default", s)] with COk o => o | _ => None end) None false false.
Definition schema_with (t : field_type) (s : text) : file_descriptor :=
  set_own_package (mkDesc "p" Proto2 [msg "M" [field_with t s] [] []] [] "p").
(** the value in the generated code: [None] if there is no code, [Some None] if
    the text is no literal of the type of the constant *)
Definition generated (c : config) (t : field_type) (s : text) : option (option constant) :=
  match process c (schema_with t s) with
  | GOk d' => match d_messages d' with
              | [m] => match m_fields m with
                       | [f'] => match f_default f' with Some y => Some (rust_constant (const_rtype f') y) | None => None end
                       | _ => None
                       end
              | _ => None
              end
  | GErr _ => None
  end.

(** texts of every type *)
Definition case_texts : list (field_type * text) :=
  [(TInt32, "-2147483648"); (TInt64, "-0x7F"); (TUint32, "0xffffffff"); (TUint64, "18446744073709551615"); (TSint32, "0");
   (TSfixed64, "-9"); (TBool, "false"); (TFloat, "1.50e-3"); (TDouble, "-inf"); (TFloat, "nan"); (TDouble, "1E6"); (TFloat, "-12");
   (TStringCow, "'it is \n \x41 \\'"); (TBytesCow, String quotation ("\xff'" ++ String quotation "")%string)].
Example C68_case : forall t s, In (t, s) case_texts ->
  scalar t /\ portable t s = true /\ exists k, proto_constant t s = Some k /\
  default_check Proto2 t [("default", s)] = COk (f_default (field_with t s)) /\
  generated cfgC t s = Some (Some k) /\ generated cfgOwn t s = Some (Some k).
Proof.
  intros t s H. repeat (destruct H as [H|H]; [injection H as <- <-; split; [exact I|split; [vm_compute; reflexivity|];
    eexists; split; [vm_compute; reflexivity|]; split; [reflexivity|]; split; vm_compute; reflexivity]|]). destruct H.
Qed.
Example C68_case_value : proto_constant TStringCow "'it is \n \x41 \\'" =
  Some (CStr ["i"; "t"; " "; "i"; "s"; " "; "010"; " "; "A"; " "; "092"]%char).
Proof. reflexivity. Qed.

(** Accepted schemas whose generated code compiles and has another default:
    octal numbers, octal escapes, adjacent strings. *)
Theorem C68_silent_refuted : forall ts, In ts
   [(TInt32, "010"); (TUint64, "0777"); (TStringCow, "'\012'"); (TBytesCow, "'\0012'");
    (TStringCow, "'ab' 'cd'")] ->
  exists k k', proto_constant (fst ts) (snd ts) = Some k /\ generated cfgC (fst ts) (snd ts) = Some (Some k') /\ k <> k'.
Proof.
  intros ts H. repeat (destruct H as [<-|H]; [eexists; eexists; split; [vm_compute; reflexivity|]; split; [vm_compute; reflexivity|]; discriminate|]). destruct H.
Qed.
Print Assumptions C68_silent_refuted.

(** Accepted schemas whose generated code does not compile. *)
Theorem C68_no_literal_refuted : forall ts, In ts
   [(TFloat, ".5"); (TDouble, "5."); (TInt32, "0XFF"); (TFloat, "0x1"); (TDouble, "-nan"); (TStringCow, "'\a'");
    (TStringCow, "'\xff'"); (TStringCow, ("'" ++ String quotation "'")%string);
    (TStringCow, (String quotation ("a\" ++ String quotation ("b" ++ String quotation "")))%string);
    (TBytesCow, ("'" ++ String "195" (String "169" "'"))%string)] ->
  exists k, proto_constant (fst ts) (snd ts) = Some k /\ generated cfgC (fst ts) (snd ts) = Some None.
Proof.
  intros ts H. repeat (destruct H as [<-|H]; [eexists; split; vm_compute; reflexivity|]). destruct H.
Qed.
Print Assumptions C68_no_literal_refuted.

(** The check is missing for nested messages: the default names no value. *)
Definition srcNestedEnum : file_descriptor := set_own_package (mkDesc "p" Proto2
  [msg "Outer" [] [] [msg "Inner" [with_default "BLUE" (fd "e" P2Optional (TMessageOrEnum "Color") 1)] [] []]]
  [mkEnum "Color" [("RED", 0)] false "" ""] "p").
Definition srcTopEnum (v : text) : file_descriptor := set_own_package (mkDesc "p" Proto2
  [msg "M" [with_default v (fd "e" P2Optional (TMessageOrEnum "Color") 1)] [] []]
  [mkEnum "Color" [("RED", 0)] false "" ""] "p").
Theorem C68_nested_enum_refuted : exists d' m' f', process cfgC srcNestedEnum = GOk d' /\
  get_message d' [0; 0]%nat = Some m' /\ field_of m' f' /\ f_default f' = Some "p::Color::BLUE" /\
  get_enum d' (mkEidx [] 0) = Some (mkEnum "Color" [("RED", 0)] false "p" "p").
Proof.
  destruct (process cfgC srcNestedEnum) as [d'|e] eqn:E; [|vm_compute in E; discriminate]. vm_compute in E. injection E as <-.
  eexists. eexists. eexists. split; [reflexivity|]. split; [reflexivity|]. split; [left; left; reflexivity|]. split; reflexivity.
Qed.
Print Assumptions C68_nested_enum_refuted.
Example C68_enum_case : (exists d', process cfgC (srcTopEnum "RED") = GOk d') /\
  process cfgC (srcTopEnum "BLUE") = GErr (ErrInvalidDefaultEnum "M").
Proof. split; [eexists; vm_compute; reflexivity|vm_compute; reflexivity]. Qed.
