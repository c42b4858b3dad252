(** C70: fields that are absent from the input have the default that the schema
    declares. *)
From Coq Require Import String Ascii Arith ZArith Lia Init.Byte.
From Verif Require Import Writer GenSame Props_Safety Import Props_EndToEnd.
From Verif Require Import Base Utf8 Utf8Facts Spec Reader PackedFixed Schema Modules Passes Parser ParserFacts ProtoText TextFacts RustTypes Emit Literals LiteralFacts Floats.
From Verif Require Import PackedFixedFacts Keywords GenCheck Cycles CycleFacts BreakFacts IndexFacts Pipeline PassFacts AcceptFacts PlaceFacts Gen GenSem GenSpec
  GenRead GenRecords GenLaws GenType Props_Wire Props_Passes Props_Accepted Props_TypeCheck Props_Literals RustLit.
Import Schema StringSyntax.
Local Open Scope string_scope.
Local Open Scope list_scope.
Local Open Scope Z_scope.

(** ** The default of a field, in the schema *)

(** the constant is a value of the type: its number is finite when rounded, its
    characters are UTF-8 *)
Definition representable (t : field_type) (k : constant) : Prop :=
  match k with
  | CFloat _ m e => decimal_bits (fst (format t)) (snd (format t)) m e <> None
  | CStr l => is_utf8 (map byte_of_ascii l)
  | _ => True
  end.

(** The option [default] of the field [f] of the message [m] is the constant [k]:
    a portable literal (C68), or the name of a value of an enum none of whose
    names is a keyword. *)
Inductive declares_default (d : file_descriptor) (m : message) (f : field) : constant -> Prop :=
| dd_literal kvs s k : scalar (f_typ f) -> lookup_key "default" kvs = Some s ->
    default_check Proto2 (f_typ f) kvs = COk (f_default f) ->
    proto_constant (f_typ f) s = Some k -> portable (f_typ f) s = true -> representable (f_typ f) k ->
    declares_default d m f k
| dd_enum e en s z :
    resolve_type (full_msgs d) (full_enums d) (m_package m) (m_name m) (f_typ f) = GOk (TEnum e) ->
    get_enum d e = Some en -> f_default f = Some s -> In (s, z) (en_fields en) -> - 2 ^ 31 <= z < 2 ^ 31 ->
    NoDup (map fst (en_fields en)) ->
    sanitize_keyword (en_name en) = en_name en ->
    (forall v, In v (map fst (en_fields en)) -> sanitize_keyword v = v) ->
    declares_default d m f (CInt z).

(** ** Its value in the code *)

Lemma value_path_inj d en v w : value_path d en v = value_path d en w -> v = w.
Proof.
  unfold value_path. assert (A : forall x y z : text, (x ++ y = x ++ z)%string -> y = z).
  { induction x as [|a x IH]; intros y z H; [exact H|]. injection H as H. now apply IH. }
  intros H. apply A in H. apply A in H. now injection H.
Qed.

Lemma default_value c d d' p m f f' k : process c d = GOk d' -> (c_single_module c = true -> d_package d = "") ->
  field_final c d p m f f' -> declares_default d m f k ->
  exists y v, f_default f' = Some y /\ rust_lit d' (f_typ f') y = Some v /\ denotes (f_typ f) k v.
Proof.
  intros A Sg FF H. destruct (ff_typ _ _ _ _ _ _ FF) as (t & Ht & Et). destruct H as [kvs s k Sc L D C P Rp|e en s z Rt Ge Df Hin Rz ND K1 K2].
  - rewrite scalar_resolves in Ht by exact Sc. injection Ht as <-.
    assert (Df : exists x, f_default f = Some x).
    { unfold default_check in D. rewrite L in D. destruct (f_typ f); try (injection D as D; rewrite <- D; eauto);
        match type of D with (match ?e with _ => _ end) = _ => destruct e; try discriminate; injection D as D; rewrite <- D; eauto end. }
    destruct Df as (x & Df). destruct (ff_text _ _ _ _ _ _ FF x Df) as (y & Y & Fy). rewrite Df in D. exists y.
    pose proof (literal_value (c_dont_use_cow c) d (f_typ f) kvs s k x y Sc L D C P) as V. rewrite <- Et in V. specialize (V Y).
    assert (NE : forall q, f_typ f' <> TEnum q).
    { intros q E. rewrite Et in E. destruct (f_typ f); try contradiction; destruct (c_dont_use_cow c); discriminate. }
    assert (Fo : format (f_typ f') = format (f_typ f)) by (rewrite Et; destruct (c_dont_use_cow c), (f_typ f); try contradiction; reflexivity).
    pose proof (rust_constant_of _ _ _ V NE) as Co.
    assert (E : exists v, constant_value (f_typ f') k = Some v).
    { unfold constant_value, representable in *. rewrite Fo. destruct (format (f_typ f)) as (eb, mb). cbn [fst snd] in Rp.
      destruct k; eauto.
      - destruct (decimal_bits eb mb m0 e); [cbn; eauto|contradiction].
      - apply is_utf8_valid in Rp. cbv zeta. rewrite Rp. eauto. }
    destruct E as (v & E). exists v. split; [exact Fy|]. split.
    + destruct (f_typ f'); try (now destruct (NE e)); cbn [rust_lit]; rewrite V; exact E.
    + pose proof (constant_denotes _ _ _ Co E) as Dn. unfold denotes in *. now rewrite Fo in Dn.
  - rewrite Rt in Ht. injection Ht as <-.
    assert (Te : f_typ f' = TEnum e) by (rewrite Et; destruct (c_dont_use_cow c); reflexivity).
    destruct (ff_text _ _ _ _ _ _ FF s Df) as (y & Y & Fy). rewrite Te in Y. cbn [default_literal] in Y. rewrite Ge in Y.
    assert (Ey : (get_modules (en_module en) (en_imported en) (d_package d) ++ en_name en ++ "::" ++ s)%string = y) by congruence. subst y.
    eexists. exists (VZ z). split; [exact Fy|]. split; [|destruct (f_typ f); reflexivity].
    rewrite Te. cbn [rust_lit]. rewrite (process_enum c d d' e A), Ge. cbn [option_map].
    assert (Pk : d_package d' = d_package d).
    { destruct (process_header c d d' A) as (_ & _ & ->). destruct (c_single_module c); [symmetry; auto|reflexivity]. }
    assert (Vp : forall v, value_path d' (enum_sanitize_names en) v
      = (get_modules (en_module en) (en_imported en) (d_package d) ++ en_name en ++ "::" ++ v)%string).
    { intros v. unfold value_path. cbn [enum_sanitize_names en_module en_imported en_name]. now rewrite K1, Pk. }
    assert (Fd : forall l, NoDup (map fst l) -> In (s, z) l -> (forall v, In v (map fst l) -> sanitize_keyword v = v) ->
      find (fun q : text * Z => String.eqb (get_modules (en_module en) (en_imported en) (d_package d) ++ en_name en ++ "::" ++ s)
                     (value_path d' (enum_sanitize_names en) (fst q))) (map (fun q => (sanitize_keyword (fst q), snd q)) l) = Some (s, z)).
    { clear -Vp. induction l as [|(v, x) l IH]; intros N Hi Hk; [contradiction|]. cbn [map fst snd find] in *.
      rewrite (Hk v (or_introl eq_refl)). inversion N as [|? ? N1 N2]; subst.
      destruct (String.eqb_spec (get_modules (en_module en) (en_imported en) (d_package d) ++ en_name en ++ "::" ++ s) (value_path d' (enum_sanitize_names en) v)) as [E|E].
      - rewrite <- Vp in E. apply value_path_inj in E. subst v. f_equal. destruct Hi as [Hi|Hi]; [exact Hi|].
        exfalso. apply N1. apply in_map_iff. exists (s, z). auto.
      - destruct Hi as [Hi|Hi]; [injection Hi as -> ->; now rewrite Vp in E|]. apply IH; [exact N2|exact Hi|]. intros w Hw. apply Hk. now right. }
    change (en_fields (enum_sanitize_names en)) with (map (fun q : text * Z => (sanitize_keyword (fst q), snd q)) (en_fields en)). rewrite (Fd _ ND Hin K2).
    replace ((- 2 ^ 31 <=? z) && (z <? 2 ^ 31)) with true; [reflexivity|]. symmetry. apply andb_true_iff. split; [apply Z.leb_le|apply Z.ltb_lt]; lia.
Qed.

(** C70.  In the generated code the default of a field is the value that the
    schema declares: floating point numbers are rounded to the nearest, the
    numbers of enum values are those of the enum. *)
Theorem C70_default_value : forall c d d' p m f k, process c d = GOk d' -> (c_single_module c = true -> d_package d = "") ->
  get_message d p = Some m -> field_of m f -> declares_default d m f k ->
  exists m' f' y v, get_message d' p = Some m' /\ field_of m' f' /\ f_number f' = f_number f /\ f_default f' = Some y /\
    rust_lit d' (f_typ f') y = Some v /\ denotes (f_typ f) k v.
Proof.
  intros c d d' p m f k A Sg G Hf Dk. pose proof (process_message c d d' A p) as R. rewrite G in R. inversion R as [|x m' F E1 E2]; subst. symmetry in E2.
  apply field_of_all in Hf. destruct (Forall2_in_l _ _ _ (fields_rel_all _ _ _ F) f Hf) as (f' & Hf' & FF). apply field_of_all in Hf'.
  destruct (default_value c d d' p m f f' k A Sg FF Dk) as (y & v & Y & V & Dn). exists m', f', y, v.
  repeat match goal with |- _ /\ _ => split end; auto. exact (ff_number _ _ _ _ _ _ FF).
Qed.
Print Assumptions C70_default_value.

(** every default option is a constant *)
Definition defaults_declared (d : file_descriptor) : Prop :=
  forall p m f, get_message d p = Some m -> field_of m f -> f_default f <> None -> exists k, declares_default d m f k.

(** C70.  If every default option is such a constant then the hypotheses about
    literals that the theorems on the generated code make (C51 to C53, C64) hold
    of the literals of Rust. *)
Theorem C70_literals : forall c d d', process c d = GOk d' -> (c_single_module c = true -> d_package d = "") -> defaults_declared d ->
  literals_ok (rust_lit d') d' /\ forall ty s v, rust_lit d' ty s = Some v -> val_ok d' c ty v.
Proof.
  intros c d d' A Sg H. split; [|intros; eapply rust_lit_typed; eassumption].
  intros p m' f' s G' Hf' Ds. destruct (process_field_back c d d' p m' f' A G' Hf') as (m & f & G & Hf & FF).
  destruct (H p m f G Hf) as (k & K).
  { intros E. apply (ff_default _ _ _ _ _ _ FF) in E. congruence. }
  destruct (default_value c d d' p m f f' k A Sg FF K) as (y & v & Y & V & _). assert (s = y) as -> by congruence. congruence.
Qed.
Print Assumptions C70_literals.

(** C70.  The end-to-end theorems with the literals of Rust: a message that the
    generated code has read from any bytes is written, and is then read as the
    same message.  Missing: negative zero (C52). *)
Theorem C70_transcode_partial : forall check fs search n file d c d' t t' k p bs ss,
  read_proto check fs search n file = ROk d -> language_rules d -> process c d = GOk d' -> (c_single_module c = true -> d_package d = "") ->
  defaults_declared d -> compiles c d' -> get_message d p <> None ->
  decode d' c (rust_lit d') t k p bs = Ok ss -> no_negative_zero d' c p ss -> zlen (enc_message d' c (rust_lit d') p ss) < 2 ^ 32 ->
  message_ok d' c p ss /\
  exists full, serialize_into_vec (message_size d' c (rust_lit d') p ss) (message_write d' c (rust_lit d') p ss) = Ok full /\
    (buf_ok t' full -> exists ss', Forall2 same_slot ss ss' /\
       forall n, (length full <= n)%nat -> deserialize_from_slice t' (from_reader d' c (rust_lit d') t' n p) full = Ok ss').
Proof.
  intros check fs search n file d c d' t t' k p bs ss R L A Sg Dc Cp Gp De Hz Hl.
  destruct (C70_literals c d d' A Sg Dc) as (Li & Ty).
  destruct (C64_read_well_formed check fs search n file d c (rust_lit d') d' R L A Li Cp) as (W & _ & En & _).
  assert (Gp' : get_message d' p <> None).
  { pose proof (process_message c d d' A p) as X. intros E. rewrite E in X. destruct (get_message d p); [inversion X|now apply Gp]. }
  assert (Ok' : message_ok d' c p ss) by exact (proj1 (C51_decoded_well_typed d' c (rust_lit d') t W En Ty k p bs ss Gp') De).
  split; [exact Ok'|].
  apply (C53_roundtrip_partial c (rust_lit d') d d' t' (shaped_rules d (read_shaped _ _ _ _ _ _ R) L) A Li Cp); auto.
  exact (lr_defaults d L).
Qed.
Print Assumptions C70_transcode_partial.

(** ** Absent fields *)

(** the value of a type for which no default is declared *)
Definition zero_value (d : file_descriptor) (t : field_type) (v : value) : Prop :=
  match t with
  | TBool => v = VBool false
  | TStringCow | TString | TBytesCow | TBytes => v = VB []
  | TEnum e => forall en n z l, get_enum d e = Some en -> en_fields en = (n, z) :: l -> v = VZ z
  | TMessage _ | TMessageOrEnum _ | TMap _ _ => False
  | _ => v = VZ 0
  end.

(** What the struct holds for a field [f] of the schema, of type [ty], that is
    absent: [empty j] is the value of an empty message [j]. *)
Definition absent_slot (d : file_descriptor) (empty : midx -> list slot -> Prop) (m : message) (f : field) (ty : field_type) (s : slot) : Prop :=
  if freq_is_map (f_freq f) then s = SlMap []
  else if freq_is_repeated (f_freq f) then s = SlVec [] \/ exists k p, s = SlPF p /\ represents k p []
  else if freq_is_optional (f_freq f) then s = SlNone
  else match ty with
       | TMessage j => s = SlNone \/ exists ss, s = SlOne (VMsg ss) /\ empty j ss
       | _ => exists v, s = SlOne v /\ (f_default f = None -> zero_value d ty v) /\
                (forall k, declares_default d m f k -> denotes (f_typ f) k v)
       end.

Section Absent.
Variable D : file_descriptor.
Variable c : config.
Variable lit : field_type -> text -> option value.

Lemma default_msg_more n : forall m ss, default_msg D c lit n m = Some ss -> forall n', (n <= n')%nat -> default_msg D c lit n' m = Some ss.
Proof.
  induction n as [|n IH]; intros m ss H n' L; [discriminate|]. destruct n' as [|n']; [lia|]. cbn [default_msg] in *.
  destruct (get_message D m) as [msg|]; [|discriminate].
  assert (I : forall i s, init_slot D lit (default_msg D c lit n) i = Some s -> init_slot D lit (default_msg D c lit n') i = Some s).
  { assert (T : forall t v, type_default D (default_msg D c lit n) t = Some v -> type_default D (default_msg D c lit n') t = Some v).
    { intros t v E. destruct t; try exact E. cbn [type_default] in *. destruct (default_msg D c lit n m0) as [x|] eqn:X; [|discriminate].
      rewrite (IH _ _ X n' ltac:(lia)). exact E. }
    intros [t|x|] s E; cbn [init_slot] in *; [| |exact E].
    - destruct t; try exact E. cbn [derived_slot] in *. destruct (type_default D (default_msg D c lit n) t) as [v|] eqn:V; [|discriminate].
      rewrite (T _ _ V). exact E.
    - destruct x; try exact E. cbn [dexpr_slot] in *. destruct (type_default D (default_msg D c lit n) t) as [v|] eqn:V; [|discriminate].
      rewrite (T _ _ V). exact E. }
  revert ss H. induction (default_inits (d_syntax D) c msg) as [|i l IHl]; intros ss H; [exact H|]. cbn [map all_some] in *.
  destruct (init_slot D lit (default_msg D c lit n) i) as [s|] eqn:S; [|discriminate]. rewrite (I _ _ S).
  destruct (all_some (map (init_slot D lit (default_msg D c lit n)) l)) as [r|]; [|discriminate]. now rewrite (IHl r eq_refl).
Qed.

(** decoding an empty buffer gives the default *)
Lemma decode_empty t n m msg ss : get_message D m = Some msg -> message_default D c lit m = Some ss -> decode D c lit t (S n) m [] = Ok ss.
Proof.
  intros G H. unfold decode. cbn [from_reader]. rewrite G, H. destruct (is_unit msg); reflexivity.
Qed.

(** the slots of the default, one by one *)
Lemma default_slots m msg ss : get_message D m = Some msg -> message_default D c lit m = Some ss ->
  Forall2 (fun d s => init_slot D lit (message_default D c lit) (sd_init c (message_must_generate_impl_default (d_syntax D) c msg) d) = Some s)
    (descs c msg) ss.
Proof.
  intros G H. unfold message_default in H. destruct (default_depth D) as [|n] eqn:Dp; [discriminate|].
  cbn [default_msg] in H. rewrite G, default_inits_descs, map_map in H. apply GenRead.all_some_map in H.
  assert (I : forall i s, init_slot D lit (default_msg D c lit n) i = Some s -> init_slot D lit (message_default D c lit) i = Some s).
  { assert (M : forall j x, default_msg D c lit n j = Some x -> message_default D c lit j = Some x).
    { intros j x X. unfold message_default. rewrite Dp. apply (default_msg_more n j x X). lia. }
    assert (T : forall t v, type_default D (default_msg D c lit n) t = Some v -> type_default D (message_default D c lit) t = Some v).
    { intros t v E. destruct t; try exact E. cbn [type_default] in *. destruct (default_msg D c lit n m0) as [x|] eqn:X; [|discriminate].
      rewrite (M _ _ X). exact E. }
    intros [t|x|] s E; cbn [init_slot] in *; [| |exact E].
    - destruct t; try exact E. cbn [derived_slot] in *. destruct (type_default D (default_msg D c lit n) t) as [v|] eqn:V; [|discriminate].
      rewrite (T _ _ V). exact E.
    - destruct x; try exact E. cbn [dexpr_slot] in *. destruct (type_default D (default_msg D c lit n) t) as [v|] eqn:V; [|discriminate].
      rewrite (T _ _ V). exact E. }
  clear -H I. induction H as [|x y l l' H1 H2 IH]; constructor; auto.
Qed.

(** records without the numbers of a slot leave it alone *)
Lemma steps_keep t n msg rs : forall ss ss' i d, steps_rec D c lit t msg n ss rs ss' -> nth_error (descs c msg) i = Some d ->
  Forall (fun r => Forall (fun f => rtag r <> field_tag f) (desc_fields d)) rs -> nth_error ss' i = nth_error ss i.
Proof.
  induction rs as [|r rs IH]; intros ss ss' i d S N F; inversion S as [|? ? ss1 ? ? S1 S2]; subst; [reflexivity|].
  inversion F as [|? ? F1 F2]; subst. rewrite (IH _ _ i d S2 N F2). unfold step_rec in S1.
  destruct (find (fun '(k, _) => k =? rtag r) (match_arms c msg)) as [(k, (j, a))|] eqn:E; [|now subst].
  destruct S1 as (s & u & s' & _ & _ & _ & ->). destruct (Nat.eq_dec j i) as [->|Ne]; [exfalso|now apply nth_set_nth_ne].
  destruct (arm_inv c msg _ _ _ _ E) as (_ & d0 & N0 & Hin). rewrite N in N0. injection N0 as <-. rewrite Forall_forall in F1.
  destruct d as [f|vs]; cbn [desc_arms desc_fields] in *.
  - destruct Hin as [Hin|[]]. injection Hin as H _. apply (F1 f); [now left|congruence].
  - apply in_map_iff in Hin. destruct Hin as ((x, f) & H & Hf). injection H as H _.
    apply (F1 f); [|congruence]. clear -Hf. revert Hf. generalize 0%nat. induction vs as [|y vs IH]; intros b H; [contradiction|].
    cbn [number_from] in H. destruct H as [H|H]; [injection H as _ ->; now left|right; eauto].
Qed.
End Absent.

(** the rules of protobuf on default options: in proto2, not on repeated fields *)
Definition default_rules (d : file_descriptor) : Prop :=
  forall p m f, get_message d p = Some m -> field_of m f -> f_default f <> None ->
    d_syntax d = Proto2 /\ (f_freq f = P2Optional \/ f_freq f = P2Required).

Lemma visible_rel c d p m m' : fields_rel (field_final c d p m) m m' ->
  Forall2 (field_final c d p m) (visible_fields c m) (visible_fields c m').
Proof.
  intros (F & _). unfold visible_fields. induction F as [|f f' l l' FF F IH]; [constructor|]. cbn [filter].
  replace (visible c f') with (visible c f) by (unfold visible; now rewrite (ff_deprecated _ _ _ _ _ _ FF)).
  destruct (visible c f); [now constructor|exact IH].
Qed.
Lemma variants_rel c d p m m' : fields_rel (field_final c d p m) m m' ->
  Forall2 (fun o o' => Forall2 (field_final c d p m) (oneof_variants c o) (oneof_variants c o')) (m_oneofs m) (m_oneofs m').
Proof.
  intros (_ & F). induction F as [|o o' l l' Fo F IH]; constructor; [|exact IH]. unfold oneof_variants. clear -Fo.
  induction Fo as [|f f' l l' FF F IH]; [constructor|]. cbn [filter].
  replace (visible c f') with (visible c f) by (unfold visible; now rewrite (ff_deprecated _ _ _ _ _ _ FF)).
  destruct (visible c f); [now constructor|exact IH].
Qed.
Lemma Forall2_nth_l {A B} (R : A -> B -> Prop) l l' i x : Forall2 R l l' -> nth_error l i = Some x -> exists y, nth_error l' i = Some y /\ R x y.
Proof.
  intros F. revert i. induction F as [|a b l l' H F IH]; intros i N; [destruct i; discriminate|].
  destruct i as [|i]; cbn in *; [injection N as <-; eauto|eauto].
Qed.

Lemma process_syntax c d d' : process c d = GOk d' -> d_syntax d' = d_syntax d.
Proof.
  intros H. apply process_stages in H. destruct H as (d1 & d2 & d4 & [E1 E2 E3 E4 ->]).
  destruct (break_cycles_ok (c_error_cycle c) d1 (resolve_types_indexed d d1 E1)) as (cs & _ & [(d2' & E2' & R2 & _)|(_ & names & E2' & _)]); [|congruence].
  rewrite E2 in E2'. injection E2' as <-. apply resolve_types_ok in E1. destruct E1 as (_ & E1).
  pose proof (drop_cows_rel c d2) as (_ & R3). pose proof (set_defaults_rel _ _ E4) as (_ & R4). destruct R2 as (_ & R2).
  assert (X : set_dmessages d4 [] = set_dmessages d []) by congruence.
  pose proof (f_equal d_syntax X) as X1. cbn in X1. unfold single_module. destruct (c_single_module c); exact X1.
Qed.

Section AbsentSchema.
Variable c : config.
Variables d d' : file_descriptor.
Hypothesis Rules : protobuf_rules d.
Hypothesis Acc : process c d = GOk d'.
Hypothesis Single : c_single_module c = true -> d_package d = "".
Hypothesis Decl : defaults_declared d.
Hypothesis DRules : default_rules d.
Hypothesis Comp : compiles c d'.
Variable t : target.
Hypothesis CH : overflow_checks t = true.
Let lit := rust_lit d'.

Lemma absent_wf : schema_wf d' c lit /\ schema_packed_ok d' c.
Proof. destruct (C70_literals c d d' Acc Single Decl) as (L & _). now apply C53_accepted_well_formed with d. Qed.

Lemma final_default p m m' f f' n s (G : get_message d p = Some m) (G' : get_message d' p = Some m') (FF : field_final c d p m f f') ty :
  In f (visible_fields c m) -> In f' (visible_fields c m') ->
  resolve_type (full_msgs d) (full_enums d) (m_package m) (m_name m) (f_typ f) = GOk ty ->
  init_slot d' lit (message_default d' c lit) (sd_init c (message_must_generate_impl_default (d_syntax d') c m') (SdField f')) = Some s ->
  absent_slot d (fun j x => decode d' c lit t (S n) j [] = Ok x) m f ty s.
Proof.
  intros Hv Hv' Rt Si.
  assert (Hf : field_of m f) by (left; unfold visible_fields in Hv; apply filter_In in Hv; tauto).
  assert (Hf' : field_of m' f') by (left; unfold visible_fields in Hv'; apply filter_In in Hv'; tauto).
  destruct absent_wf as (WF & _).
  assert (Fok : field_ok d' c lit f').
  { destruct (WF p m' G') as [W _ _]. rewrite Forall_forall in W. apply (W (SdField f')). unfold descs. apply in_or_app. left. now apply in_map. }
  destruct (ff_typ _ _ _ _ _ _ FF) as (t0 & Rt' & Et). assert (t0 = ty) as -> by congruence. clear Rt'.
  pose proof (pr_types d Rules p m f G Hf) as Pt. pose proof (pr_unboxed d Rules p m f G Hf) as Pb.
  assert (Zt : forall x v, x = f_typ f' -> type_default d' (message_default d' c lit) x = Some v -> (forall j, x <> TMessage j) -> zero_value d ty v).
  { intros x v -> V Nj. rewrite Et in V. unfold zero_value.
    assert (V' : type_default d' (message_default d' c lit) ty = Some v).
    { destruct (c_dont_use_cow c); [|exact V]. destruct ty; exact V || discriminate V. }
    destruct ty; cbn [type_default] in V'; try (injection V' as <-; try reflexivity); try discriminate V'.
    - intros en nm z l Ge El. unfold enum_default. rewrite (process_enum c d d' _ Acc), Ge. cbn [option_map].
      change (en_fields (enum_sanitize_names en)) with (map (fun q : text * Z => (sanitize_keyword (fst q), snd q)) (en_fields en)). now rewrite El.
    - apply (Nj m0). rewrite Et. destruct (c_dont_use_cow c); reflexivity. }
  assert (Mt : forall j, f_typ f' = TMessage j <-> ty = TMessage j).
  { intros j. rewrite Et. destruct (c_dont_use_cow c); [|reflexivity]. destruct ty; cbn; split; intros E; try discriminate E; exact E. }
  assert (Em : forall j x, message_default d' c lit j = Some x -> decode d' c lit t (S n) j [] = Ok x).
  { intros j x X. assert (exists mj, get_message d' j = Some mj) as (mj & Gj).
    { unfold message_default in X. destruct (default_depth d'); cbn [default_msg] in X; [discriminate|].
      destruct (get_message d' j); [eauto|discriminate]. }
    now apply decode_empty with mj. }
  assert (De : forall k, declares_default d m f k -> exists y v, f_default f' = Some y /\ lit (f_typ f') y = Some v /\ denotes (f_typ f) k v)
    by (intros k; now apply (default_value c d d' p m f f' k Acc Single FF)).
  assert (Dn : forall k, declares_default d m f k -> forall j, ty <> TMessage j).
  { intros k K j ->. destruct K as [kvs s0 k Sc _ _ _ _ _|e en s0 z Re _ _ _ _ _ _ _]; [|congruence].
    rewrite scalar_resolves in Rt by exact Sc. destruct (f_typ f); try contradiction; discriminate. }
  assert (Pn : f_freq f' = f_freq f \/ exists j, ty = TMessage j /\ f_boxed f' = true /\ freq_is_repeated (f_freq f) = false /\ freq_is_map (f_freq f) = false).
  { destruct (ff_freq _ _ _ _ _ _ FF) as [(E & _)|(E & B & R & j & Ej)]; [now left|right]. exists j. split; [now apply Mt|]. split; [exact B|].
    split; [exact R|]. destruct (freq_is_map (f_freq f)) eqn:Fm; [|reflexivity]. destruct Pt as (k & v & Tf & _).
    apply Mt in Ej. subst ty. rewrite Tf in Rt. cbn [resolve_type] in Rt.
    apply gbind_ok in Rt. destruct Rt as (? & _ & Rt). apply gbind_ok in Rt. destruct Rt as (? & _ & Rt). discriminate Rt. }
  assert (Fin : forall v, (forall y, f_default f' = Some y -> lit (f_typ f') y = Some v) ->
            (f_default f' = None -> type_default d' (message_default d' c lit) (f_typ f') = Some v) ->
            match ty with
            | TMessage j => SlOne v = SlNone \/ exists ss, SlOne v = SlOne (VMsg ss) /\ decode d' c lit t (S n) j [] = Ok ss
            | _ => exists v0, SlOne v = SlOne v0 /\ (f_default f = None -> zero_value d ty v0) /\
                (forall k, declares_default d m f k -> denotes (f_typ f) k v0)
            end).
  { intros v V1 V2. assert (J : (exists j, ty = TMessage j) \/ forall j, ty <> TMessage j) by (destruct ty; eauto; right; intros; discriminate).
    destruct J as [(j & Ej)|Nj].
    - subst ty. right. destruct (f_default f') eqn:Df.
      { exfalso. destruct (Decl p m f G Hf) as (k & K); [|exact (Dn k K j eq_refl)].
        intros X. apply (ff_default _ _ _ _ _ _ FF) in X. congruence. }
      specialize (V2 eq_refl). rewrite (proj2 (Mt j) eq_refl) in V2. cbn [type_default] in V2.
      destruct (message_default d' c lit j) as [x|] eqn:X; [|discriminate]. injection V2 as <-. eauto.
    - assert (exists v0, SlOne v = SlOne v0 /\ (f_default f = None -> zero_value d ty v0) /\
                (forall k, declares_default d m f k -> denotes (f_typ f) k v0)).
      { exists v. split; [reflexivity|]. split.
        - intros X. apply (ff_default _ _ _ _ _ _ FF) in X. apply (Zt _ v eq_refl (V2 X)). intros j Ej. apply Mt in Ej. now apply (Nj j).
        - intros k K. destruct (De k K) as (y & w & Y & W & Dw). rewrite (V1 y Y) in W. injection W as <-. exact Dw. }
      destruct ty; try assumption. now destruct (Nj m0). }
  unfold absent_slot.
  destruct (f_boxed f') eqn:B.
  { destruct Fok as (O1 & _). specialize (O1 B).
    assert (s = SlNone) as ->.
    { unfold sd_init in Si. destruct (message_must_generate_impl_default (d_syntax d') c m'); cbn [init_slot sd_type] in Si.
      - unfold get_field_default, generated_type_of in Si. rewrite B in Si. destruct (f_freq f'); try discriminate O1; cbn in Si; congruence.
      - unfold get_type in Si. rewrite B in Si. cbn in Si. congruence. }
    destruct Pn as [E|(j & -> & _ & R & Fm)].
    - rewrite <- E. destruct (f_freq f'); try discriminate O1; reflexivity.
    - rewrite R, Fm. destruct (freq_is_optional (f_freq f)); auto. }
  destruct Pn as [E|(j & _ & B' & _)]; [|congruence]. rewrite <- E.
  assert (Ge : generated_type_of (f_freq f') = if freq_is_map (f_freq f') then MapType else if freq_is_repeated (f_freq f') then ArrayLikeType else SingularType) by reflexivity.
  unfold sd_init in Si. destruct (message_must_generate_impl_default (d_syntax d') c m') eqn:MG; cbn [init_slot sd_type] in Si.
  - unfold get_field_default in Si. rewrite Ge, B in Si.
    destruct (freq_is_map (f_freq f')); [cbn in Si; congruence|]. destruct (freq_is_repeated (f_freq f')).
    { destruct (f_is_packed f' && is_fixed_size (f_typ f') && negb (c_dont_use_cow c)); cbn in Si; injection Si as <-; [right|now left].
      exists KI32, (Owned []). split; [reflexivity|]. split; [reflexivity|constructor]. }
    destruct (freq_is_optional (f_freq f')); [cbn in Si; congruence|].
    assert (Gv : (exists v, s = SlOne v /\ (forall y, f_default f' = Some y -> lit (f_typ f') y = Some v) /\
                    (f_default f' = None -> type_default d' (message_default d' c lit) (f_typ f') = Some v))).
    { destruct (f_default f') as [y|].
      - cbn [dexpr_slot] in Si. destruct (lit (f_typ f') y) as [v|] eqn:L; [|discriminate]. injection Si as <-. exists v.
        split; [reflexivity|]. split; [|discriminate]. intros y0 Ey. injection Ey as <-. exact L.
      - assert (S' : option_map SlOne (type_default d' (message_default d' c lit) (f_typ f')) = Some s) by (destruct (f_typ f'); exact Si || discriminate Si).
        destruct (type_default d' (message_default d' c lit) (f_typ f')) as [v|] eqn:Tv; [|discriminate]. injection S' as <-. exists v.
        split; [reflexivity|]. split; [discriminate|reflexivity]. }
    destruct Gv as (v & -> & V1 & V2). now apply Fin.
  - unfold get_type in Si. rewrite Ge, B in Si. destruct (freq_is_map (f_freq f')) eqn:Fm.
    { destruct (f_typ f'); cbn in Si; congruence. }
    destruct (freq_is_repeated (f_freq f')) eqn:Fr.
    { destruct (f_is_packed f' && is_fixed_size (f_typ f') && negb (c_dont_use_cow c)); cbn in Si; injection Si as <-; [right|now left].
      exists KI32, NoDataYet. split; [reflexivity|]. split; [reflexivity|constructor]. }
    destruct (freq_is_optional (f_freq f')) eqn:Fo; [cbn in Si; congruence|].
    cbn [derived_slot] in Si. destruct (type_default d' (message_default d' c lit) (f_typ f')) as [v|] eqn:V; [|discriminate]. injection Si as <-.
    apply Fin; [|auto]. intros y Y. exfalso.
    assert (Df : f_default f <> None) by (intros X; apply (ff_default _ _ _ _ _ _ FF) in X; congruence).
    destruct (DRules p m f G Hf Df) as (Sy & Fq). destruct (Decl p m f G Hf Df) as (k & K).
    assert (Q : f_freq f' = P2Required).
    { destruct Fq as [Q|Q]; rewrite <- E in Q; rewrite Q in Fo; [discriminate Fo|exact Q]. }
    assert (X : message_must_generate_impl_default (d_syntax d') c m' = true); [|congruence].
    unfold message_must_generate_impl_default. apply existsb_exists. exists f'. split; [unfold visible_fields in Hv'; apply filter_In in Hv'; tauto|].
    unfold must_generate_impl_default, has_valid_visible_custom_default. rewrite Q, Y.
    rewrite (process_syntax c d d' Acc), Sy.
    assert (Vis : visible c f' = true) by (unfold visible_fields in Hv'; apply filter_In in Hv'; tauto).
    unfold visible in Vis. pose proof (Dn k K) as Nm.
    replace (match f_typ f' with TMessage _ => false | _ => true end) with true.
    + destruct (f_deprecated f'), (c_add_deprecated_fields c); cbn in *; congruence.
    + destruct (f_typ f') eqn:Tf; try reflexivity. destruct (Nm m0). now apply Mt.
Qed.

Lemma kept_number p m' f' : get_message d' p = Some m' -> In f' (flat_map desc_fields (descs c m')) -> field_tag f' / 8 = f_number f'.
Proof.
  intros G' Hf'. assert (R : Forall (fun f => 1 <= f_number f < 2 ^ 29) (flat_map desc_fields (descs c m'))).
  { rewrite desc_fields_all. apply Forall_forall. intros g Hg. apply filter_In in Hg. destruct Hg as (Hg & _).
    destruct (process_field_back c d d' p m' g Acc G') as (m0 & f & G0 & Hf & FF); [now apply field_of_all|].
    rewrite (ff_number _ _ _ _ _ _ FF). now apply (pr_range d Rules p m0 f G0). }
  destruct (C35_tags_partial c m' R) as (H & _). rewrite Forall_forall in H. now apply H.
Qed.

Lemma absent_field p m f ty n rs ss i : get_message d p = Some m -> nth_error (visible_fields c m) i = Some f ->
  resolve_type (full_msgs d) (full_enums d) (m_package m) (m_name m) (f_typ f) = GOk ty ->
  Forall wrec_ok rs -> buf_ok t (recs_bytes rs) -> (length (recs_bytes rs) <= n)%nat ->
  decode d' c lit t (S n) p (recs_bytes rs) = Ok ss ->
  (forall r, In r rs -> rtag r / 8 <> f_number f) ->
  exists s, nth_error ss i = Some s /\ absent_slot d (fun j x => decode d' c lit t (S n) j [] = Ok x) m f ty s.
Proof.
  intros G N Rt W Bo Le H Ab. pose proof (process_message c d d' Acc p) as R. rewrite G in R. inversion R as [|x m' F E1 E2]; subst. symmetry in E2.
  destruct (Forall2_nth_l _ _ _ _ _ (visible_rel c d p m m' F) N) as (f' & N' & FF).
  destruct absent_wf as (WF & PK). destruct (WF p m' E2) as [W1 W2 W3]. destruct (message_default d' c lit p) as [ds|] eqn:Dd; [|contradiction].
  assert (ND : nth_error (descs c m') i = Some (SdField f')).
  { unfold descs. rewrite nth_error_app1; [now apply map_nth_error|]. rewrite map_length. apply nth_error_Some. congruence. }
  assert (NU : is_unit m' = false).
  { destruct (is_unit m') eqn:U; [|reflexivity]. exfalso. rewrite (GenEmit.is_unit_descs c m' U) in ND. destruct i; discriminate ND. }
  rewrite (decode_recs d' c lit t CH m' W1 (PK p m' E2) p E2 NU ds Dd n rs ss W Bo Le) in H.
  assert (K : nth_error ss i = nth_error ds i).
  { eapply steps_keep; [exact H|exact ND|]. apply Forall_forall. intros r Hr. constructor; [|constructor]. intros Eq.
    apply (Ab r Hr). rewrite Eq, <- (ff_number _ _ _ _ _ _ FF). apply (kept_number p m' f' E2). apply in_flat_map. exists (SdField f').
    split; [eapply nth_error_In; exact ND|now left]. }
  destruct (Forall2_nth_l _ _ _ _ _ (default_slots d' c lit p m' ds E2 Dd) ND) as (s & Ns & S). exists s. split; [congruence|].
  eapply final_default; eauto using nth_error_In.
Qed.

Lemma absent_oneof p m o n rs ss i : get_message d p = Some m -> nth_error (m_oneofs m) i = Some o ->
  Forall wrec_ok rs -> buf_ok t (recs_bytes rs) -> (length (recs_bytes rs) <= n)%nat ->
  decode d' c lit t (S n) p (recs_bytes rs) = Ok ss ->
  (forall r f, In r rs -> In f (oneof_variants c o) -> rtag r / 8 <> f_number f) ->
  nth_error ss (length (visible_fields c m) + i) = Some SlOneofNone.
Proof.
  intros G N W Bo Le H Ab. pose proof (process_message c d d' Acc p) as R. rewrite G in R. inversion R as [|x m' F E1 E2]; subst. symmetry in E2.
  destruct (Forall2_nth_l _ _ _ _ _ (variants_rel c d p m m' F) N) as (o' & N' & FF).
  pose proof (GenLaws.Forall2_len _ _ _ (visible_rel c d p m m' F)) as Len.
  destruct absent_wf as (WF & PK). destruct (WF p m' E2) as [W1 W2 W3]. destruct (message_default d' c lit p) as [ds|] eqn:Dd; [|contradiction].
  assert (ND : nth_error (descs c m') (length (visible_fields c m) + i) = Some (SdOneof (oneof_variants c o'))).
  { unfold descs. rewrite nth_error_app2 by (rewrite map_length; lia). rewrite map_length.
    replace (length (visible_fields c m) + i - length (visible_fields c m'))%nat with i by lia. now apply (map_nth_error (fun o => SdOneof (oneof_variants c o))). }
  assert (NU : is_unit m' = false).
  { destruct (is_unit m') eqn:U; [|reflexivity]. exfalso. rewrite (GenEmit.is_unit_descs c m' U) in ND.
    destruct (length (visible_fields c m) + i)%nat; discriminate ND. }
  rewrite (decode_recs d' c lit t CH m' W1 (PK p m' E2) p E2 NU ds Dd n rs ss W Bo Le) in H.
  assert (K : nth_error ss (length (visible_fields c m) + i) = nth_error ds (length (visible_fields c m) + i)).
  { eapply steps_keep; [exact H|exact ND|]. apply Forall_forall. intros r Hr. apply Forall_forall. intros f' Hf' Eq. cbn [desc_fields] in Hf'.
    destruct (Forall2_in_r _ _ _ FF f' Hf') as (f & Hf & Ff).
    apply (Ab r f Hr Hf). rewrite Eq, <- (ff_number _ _ _ _ _ _ Ff). apply (kept_number p m' f' E2). apply in_flat_map. eexists.
    split; [eapply nth_error_In; exact ND|exact Hf']. }
  destruct (Forall2_nth_l _ _ _ _ _ (default_slots d' c lit p m' ds E2 Dd) ND) as (s & Ns & S). rewrite K, Ns. f_equal.
  unfold sd_init in S. destruct (message_must_generate_impl_default (d_syntax d') c m'); cbn in S; congruence.
Qed.
End AbsentSchema.

(** C70.  A field of which the buffer has no record: after decoding, the struct
    holds None for an optional field, no elements for a repeated one, no entries
    for a map; for a required field (or one of proto3) it holds the default of the
    schema, or zero if there is none, or an empty message.  A oneof of none of
    whose fields there is a record is None. *)
Theorem C70_absent_fields : forall c d d' t p m n rs ss,
  protobuf_rules d -> process c d = GOk d' -> (c_single_module c = true -> d_package d = "") ->
  defaults_declared d -> default_rules d -> compiles c d' -> overflow_checks t = true ->
  get_message d p = Some m -> Forall wrec_ok rs -> buf_ok t (recs_bytes rs) -> (length (recs_bytes rs) <= n)%nat ->
  decode d' c (rust_lit d') t (S n) p (recs_bytes rs) = Ok ss ->
  (forall i f ty, nth_error (visible_fields c m) i = Some f ->
     resolve_type (full_msgs d) (full_enums d) (m_package m) (m_name m) (f_typ f) = GOk ty ->
     (forall r, In r rs -> rtag r / 8 <> f_number f) ->
     exists s, nth_error ss i = Some s /\ absent_slot d (fun j x => decode d' c (rust_lit d') t (S n) j [] = Ok x) m f ty s) /\
  (forall i o, nth_error (m_oneofs m) i = Some o ->
     (forall r f, In r rs -> In f (oneof_variants c o) -> rtag r / 8 <> f_number f) ->
     nth_error ss (length (visible_fields c m) + i) = Some SlOneofNone).
Proof.
  intros c d d' t p m n rs ss R A Sg Dc Dr Cp CH G W B L H. split.
  - intros i f ty N Rt Ab. now apply (absent_field c d d' R A Sg Dc Dr Cp t CH p m f ty n rs ss i).
  - intros i o N Ab. now apply (absent_oneof c d d' R A Sg Dc Cp t CH p m o n rs ss i).
Qed.
Print Assumptions C70_absent_fields.

(** ** Getters *)

(** types.rs:594-631 [write_getter]: the value of [get_f] when the field holds [s];
    the constant [DEFAULT_f] is types.rs:670-694 [write_custom_default] *)
Definition getter (lit : field_type -> text -> option value) (f : field) (s : slot) : option value :=
  match s with
  | SlSome v => Some v
  | SlNone => match f_default f with Some y => lit (f_typ f) y | None => None end
  | _ => None
  end.

(** C70.  An optional field with a default has a constant, and a getter (with
    --generate-getters) that returns the value of the field, and if the field is
    None then the default of the schema. *)
Theorem C70_getters : forall c d d' p m i f k, process c d = GOk d' -> (c_single_module c = true -> d_package d = "") ->
  get_message d p = Some m -> nth_error (visible_fields c m) i = Some f -> f_freq f = P2Optional -> d_syntax d = Proto2 ->
  declares_default d m f k ->
  exists m' f' v, get_message d' p = Some m' /\ nth_error (visible_fields c m') i = Some f' /\
    must_generate_const (d_syntax d') c f' = true /\ can_write_default_const (d_syntax d') c f' = true /\
    getter (rust_lit d') f' SlNone = Some v /\ denotes (f_typ f) k v /\
    forall w, getter (rust_lit d') f' (SlSome w) = Some w.
Proof.
  intros c d d' p m i f k A Sg G N Fq Sy K. pose proof (process_message c d d' A p) as R. rewrite G in R. inversion R as [|x m' F E1 E2]; subst. symmetry in E2.
  destruct (Forall2_nth_l _ _ _ _ _ (visible_rel c d p m m' F) N) as (f' & N' & FF).
  destruct (default_value c d d' p m f f' k A Sg FF K) as (y & v & Y & V & Dn).
  assert (Nm : forall j, f_typ f' <> TMessage j).
  { intros j E. rewrite E in V. cbn in V. discriminate V. }
  assert (Nn : forall x, f_typ f' <> TMessageOrEnum x) by (intros x E; rewrite E in V; cbn in V; discriminate V).
  assert (Np : forall x z, f_typ f' <> TMap x z) by (intros x z E; rewrite E in V; cbn in V; discriminate V).
  assert (Q : f_freq f' = P2Optional).
  { destruct (ff_freq _ _ _ _ _ _ FF) as [(E & _)|(_ & _ & _ & j & E)]; [congruence|now destruct (Nm j)]. }
  assert (Vis : visible c f' = true) by (apply nth_error_In in N'; unfold visible_fields in N'; apply filter_In in N'; tauto).
  unfold visible in Vis. exists m', f', v.
  repeat match goal with |- _ /\ _ => split end; auto.
  - unfold must_generate_const, has_valid_visible_custom_default. rewrite (process_syntax c d d' A), Sy, Q, Y.
    replace (match f_typ f' with TMessage _ => false | _ => true end) with true by (destruct (f_typ f') eqn:E; try reflexivity; now destruct (Nm m0)).
    destruct (f_deprecated f'), (c_add_deprecated_fields c); cbn in *; congruence.
  - unfold can_write_default_const. rewrite (process_syntax c d d' A), Sy, Q, Y. apply Bool.negb_true_iff.
    apply Bool.negb_true_iff in Vis. rewrite Vis. cbn [freq_is_optional negb]. rewrite !Bool.orb_false_r. cbn [orb].
    destruct (f_typ f') eqn:E; try reflexivity; exfalso; first [exact (Nn _ eq_refl)|exact (Nm _ eq_refl)|exact (Np _ _ eq_refl)].
  - cbn [getter]. now rewrite Y.
Qed.
Print Assumptions C70_getters.

(** ** A schema *)

(** the text of a default option, as the parser stores it *)
Definition option_default (s : text) (f : field) : field :=
  mkField (f_name f) (f_freq f) (f_typ f) (f_number f)
    (match default_check Proto2 (f_typ f) [("default", s)] with COk o => o | _ => None end) (f_packed f) (f_boxed f) (f_deprecated f).

(** {v
syntax = "proto2"; package p;
enum Color { RED = 0; GREEN = 7; }
message M {
  required float x = 1 [default = 0.1];
  optional double y = 2 [default = -2.5e3];
  required Color c = 3 [default = GREEN];
  required string s = 4 [default = 'hi'];
  repeated fixed32 r = 5 [packed = true];
  required Inner i = 6;
  optional Inner j = 7;
  optional Color k = 8 [default = RED];
  required Color l = 9;
  oneof v { uint32 a = 10; string b = 11; }
}
message Inner { required sint32 z = 1 [default = -3]; optional Inner up = 2; }
    v} *)
Definition srcDefaults : file_descriptor := set_own_package (mkDesc "p" Proto2
  [msg "M" [option_default "0.1" (fd "x" P2Required TFloat 1);
            option_default "-2.5e3" (fd "y" P2Optional TDouble 2);
            option_default "GREEN" (fd "c" P2Required (TMessageOrEnum "Color") 3);
            option_default "'hi'" (fd "s" P2Required TStringCow 4);
            packed_fd "r" P2Repeated TFixed32 5;
            fd "i" P2Required (TMessageOrEnum "Inner") 6;
            fd "j" P2Optional (TMessageOrEnum "Inner") 7;
            option_default "RED" (fd "k" P2Optional (TMessageOrEnum "Color") 8);
            fd "l" P2Required (TMessageOrEnum "Color") 9]
           [mkOneof "v" [fd "a" P2Optional TUint32 10; fd "b" P2Optional TStringCow 11] "" "" false] [];
   msg "Inner" [option_default "-3" (fd "z" P2Required TSint32 1); fd "up" P2Optional (TMessageOrEnum "Inner") 2] [] []]
  [mkEnum "Color" [("RED", 0); ("GREEN", 7)] false "" ""] "p").
Definition target64 : target := {| usize_width := W64; overflow_checks := true |}.

Lemma srcDefaults_declared : defaults_declared srcDefaults /\ default_rules srcDefaults.
Proof.
  assert (H : forall p m f, get_message srcDefaults p = Some m -> field_of m f -> f_default f <> None ->
    (exists k, declares_default srcDefaults m f k) /\ d_syntax srcDefaults = Proto2 /\ (f_freq f = P2Optional \/ f_freq f = P2Required)).
  { intros p m f G Hf Nf. apply get_message_in in G. apply field_of_all in Hf. vm_compute in G.
    repeat (destruct G as [G|G]; [injection G as <- <-|]); try destruct G; vm_compute in Hf;
      repeat (destruct Hf as [<-|Hf]); try destruct Hf; try (now destruct Nf); (split; [|split; [reflexivity|auto]]).
    - eexists. eapply (dd_literal _ _ _ [("default", "0.1")]); [exact I|reflexivity|vm_compute; reflexivity|vm_compute; reflexivity|vm_compute; reflexivity|vm_compute; discriminate].
    - eexists. eapply (dd_literal _ _ _ [("default", "-2.5e3")]); [exact I|reflexivity|vm_compute; reflexivity|vm_compute; reflexivity|vm_compute; reflexivity|vm_compute; discriminate].
    - eexists. eapply dd_enum; [vm_compute; reflexivity|vm_compute; reflexivity|reflexivity|right; left; reflexivity|lia|repeat constructor; cbn; intuition discriminate|reflexivity|cbn; intros v [<-|[<-|[]]]; reflexivity].
    - eexists. eapply (dd_literal _ _ _ [("default", "'hi'")]); [exact I|reflexivity|vm_compute; reflexivity|vm_compute; reflexivity|vm_compute; reflexivity|apply utf8_valid_is; vm_compute; reflexivity].
    - eexists. eapply dd_enum; [vm_compute; reflexivity|vm_compute; reflexivity|reflexivity|left; reflexivity|lia|repeat constructor; cbn; intuition discriminate|reflexivity|cbn; intros v [<-|[<-|[]]]; reflexivity].
    - eexists. eapply (dd_literal _ _ _ [("default", "-3")]); [exact I|reflexivity|vm_compute; reflexivity|vm_compute; reflexivity|vm_compute; reflexivity|exact I]. }
  split; intros p m f G Hf Nf; now apply (H p m f).
Qed.

Example C70_case : exists d', process cfgC srcDefaults = GOk d' /\ protobuf_rules srcDefaults /\ compiles cfgC d' /\
  decode d' cfgC (rust_lit d') target64 40 [0%nat] [] =
    Ok [SlOne (VZ 1036831949) (* 0x3dcccccd *); SlNone; SlOne (VZ 7); SlOne (VB [x68; x69]); SlPF (Owned []);
        SlOne (VMsg [SlOne (VZ (-3)); SlNone]); SlNone; SlNone; SlOne (VZ 0); SlOneofNone].
Proof.
  destruct (process cfgC srcDefaults) as [d'|e] eqn:E; [|vm_compute in E; discriminate]. exists d'. split; [reflexivity|].
  split; [apply rulesb_ok; vm_compute; reflexivity|]. split; [intros X; discriminate X|].
  vm_compute in E. injection E as <-. vm_compute. reflexivity.
Qed.

(** an absent field in a buffer with records: only field 4 is there *)
Example C70_absent_case : exists d', process cfgC srcDefaults = GOk d' /\
  decode d' cfgC (rust_lit d') target64 40 [0%nat] (recs_bytes [mkRec [x22] [x02; x68; x6f]]) =
    Ok [SlOne (VZ 1036831949); SlNone; SlOne (VZ 7); SlOne (VB [x68; x6f]); SlPF (Owned []);
        SlOne (VMsg [SlOne (VZ (-3)); SlNone]); SlNone; SlNone; SlOne (VZ 0); SlOneofNone].
Proof.
  destruct (process cfgC srcDefaults) as [d'|e] eqn:E; [|vm_compute in E; discriminate]. exists d'. split; [reflexivity|].
  vm_compute in E. injection E as <-. vm_compute. reflexivity.
Qed.
Example C70_getter_case : exists d' m' f', process cfgC srcDefaults = GOk d' /\ get_message d' [0%nat] = Some m' /\
  nth_error (visible_fields cfgC m') 1 = Some f' /\ getter (rust_lit d') f' SlNone = Some (VZ 13881088010067378176) (* -2500.0 *).
Proof.
  destruct (process cfgC srcDefaults) as [d'|e] eqn:E; [|vm_compute in E; discriminate]. vm_compute in E. injection E as <-.
  eexists. eexists. eexists. split; [reflexivity|]. split; [reflexivity|]. split; [reflexivity|]. vm_compute. reflexivity.
Qed.

(** ** What is not so *)

(** A required field that is absent: protobuf rejects the message, from_reader
    does not. *)
Theorem C70_required_refuted : exists d d' m f ss, protobuf_rules d /\ process cfgC d = GOk d' /\ get_message d [0%nat] = Some m /\
  In f (m_fields m) /\ f_freq f = P2Required /\ decode d' cfgC (rust_lit d') target64 1 [0%nat] [] = Ok ss.
Proof.
  exists srcDefaults. destruct (process cfgC srcDefaults) as [d'|e] eqn:E; [|vm_compute in E; discriminate]. exists d'.
  vm_compute in E. injection E as <-. eexists. eexists. eexists. split; [apply rulesb_ok; vm_compute; reflexivity|]. split; [reflexivity|].
  split; [reflexivity|]. split; [left; reflexivity|]. split; [reflexivity|]. vm_compute. reflexivity.
Qed.
Print Assumptions C70_required_refuted.

(** The default of an enum is written before the names are changed
    (types.rs:2596-2601): if the name of the value, or that of the enum, is a
    keyword then the path in the generated code has no value.  So it is with
    --single-mod and a package: the path begins with the package. *)
Definition enum_default_schema (e v : text) : file_descriptor := set_own_package (mkDesc "p" Proto2
  [msg "M" [with_default v (fd "x" P2Required (TMessageOrEnum e) 1)] [] []] [mkEnum e [("A", 0); (v, 1)] false "" ""] "p").
Theorem C70_enum_default_refuted : forall cev, In cev
   [(cfgC, "E", "type"); (cfgC, "Self", "B"); (mkConfig false false false true, "E", "B")] ->
  let '(c, e, v) := cev in
  exists d' m' f' y, process c (enum_default_schema e v) = GOk d' /\ get_message d' [0%nat] = Some m' /\ In f' (m_fields m') /\
    f_default f' = Some y /\ rust_lit d' (f_typ f') y = None.
Proof.
  intros ((c, e), v) H.
  repeat (destruct H as [H|H]; [injection H as <- <- <-;
    match goal with |- context [process ?c ?d] => destruct (process c d) as [d'|err] eqn:E; [|vm_compute in E; discriminate E] end;
    vm_compute in E; injection E as <-; eexists; eexists; eexists; eexists; split; [reflexivity|]; split; [reflexivity|];
    split; [left; reflexivity|]; split; [reflexivity|]; vm_compute; reflexivity|]). destruct H.
Qed.
Print Assumptions C70_enum_default_refuted.
Example C70_enum_default_case : process (mkConfig false false false true) (enum_default_schema "E" "B") <> process cfgC (enum_default_schema "E" "B").
Proof. vm_compute. discriminate. Qed.
