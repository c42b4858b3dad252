(** Property theorem C67: the bodies of the generated functions have the types
    that their signatures and the generated structs demand. *)
From Coq Require Import String Ascii Arith Lia.
From Verif Require Import Base Reader Writer Spec Schema Keywords Modules Passes Gen GenSem GenSpec GenRecords GenType GenSame GenCheck
  Cycles CycleFacts BreakFacts IndexFacts Pipeline PassFacts ResolveFacts AcceptFacts Props_Passes Props_Generated Props_Accepted
  RustTypes Emit EmitFacts Examples.
Import Schema StringSyntax.
Local Open Scope string_scope.
Local Open Scope list_scope.

(** the initial value of a field has the type of the field; [hash]: the
    generated file imports [HashMap], as [KVMap] *)
Definition init_fits (hash : bool) (fields : env) (x : init_expr) (t : rtype) : bool :=
  match x, t with
  | XNone, YOption _ | XVec, YVec _ => true
  | XPacked, YPacked u => is_copy u && is_partial_eq u
  | XHashMap, YMap _ _ => hash
  | XExpr e, _ => fits fields [] e t
  | _, _ => false
  end.

(** ** What the Rust compiler checks in the code of a message *)
Record message_checks (hash : bool) (c : config) (d : file_descriptor) (m : message) : Prop := mkChecks {
  (* #[derive(Debug, PartialEq, Clone)] of the struct and of the oneofs *)
  mc_struct : forall n t, In (n, t) (struct_env c m) -> is_derivable t = true;
  mc_payload : forall o n t, In o (m_oneofs m) -> In (n, t) (oneof_env c o) -> is_derivable t = true;
  (* #[derive(Default)] or the body of [default] *)
  mc_default : if message_must_generate_impl_default (d_syntax d) c m
               then forall x t, In (x, t) (init_code c m) -> init_fits hash (struct_env c m) x t = true
               else forall n t, In (n, t) (struct_env c m) -> is_default (enum_filled d) t = true;
  (* [from_reader] *)
  mc_read : forall s, In s (read_code c m) ->
    read_ok (enum_filled d) (struct_env c m) (variants_in c (m_oneofs m)) s = true;
  (* [get_size], [write_message], the constants and the getters *)
  mc_exprs : forall g e t, In (g, e, t) (size_code c m ++ write_code c m ++ const_code (d_syntax d) c m ++ getter_code (d_syntax d) c m) ->
    fits (struct_env c m) g e t = true;
  (* the constants that the getters mention exist *)
  mc_getter : forall f, In f (m_fields m) -> must_generate_const (d_syntax d) c f = true ->
    can_write_default_const (d_syntax d) c f = true }.

(** ** What is assumed of a schema, besides the rules of the language *)

(** names that are distinct in the generated code: protobuf asks the same of
    the names in the schema, but the pass that avoids keywords can make two
    names equal ("type" and "type_pb") *)
Definition distinct_names (c : config) (d' : file_descriptor) : Prop :=
  forall i m, get_message d' i = Some m ->
    NoDup (map fst (struct_env c m)) /\ forall o, In o (m_oneofs m) -> NoDup (map fst (oneof_env c o)).
(** rules of protobuf: only scalars and enums are packed, an enum has a value,
    fields of a message type have no default *)
Definition scalars_packed (d : file_descriptor) : Prop :=
  forall p m f t, get_message d p = Some m -> field_of m f -> f_packed f = Some true ->
    resolve_type (full_msgs d) (full_enums d) (m_package m) (m_name m) (f_typ f) = GOk t -> is_primitive t = true.
Definition enums_filled (d : file_descriptor) : Prop :=
  forall q e, get_enum d q = Some e -> en_fields e <> [].
Definition messages_without_default (d' : file_descriptor) : Prop :=
  forall p m f i, get_message d' p = Some m -> In f (m_fields m) -> f_typ f = TMessage i -> f_default f = None.
(** [default] says [HashMap::new()]: the file must import [HashMap], or have no
    such map *)
Definition hash_maps (hash : bool) (c : config) (d' : file_descriptor) : Prop :=
  hash = true \/ forall p m f, get_message d' p = Some m -> message_must_generate_impl_default (d_syntax d') c m = true ->
    In f (visible_fields c m) -> freq_is_map (f_freq f) = false.

Section Fitted.
Variables (c : config) (d d' : file_descriptor).
Hypothesis Rules : protobuf_rules d.
Hypothesis Acc : process c d = GOk d'.
Hypothesis Cow : compiles c d'.
Hypothesis Packed : scalars_packed d.
Hypothesis Filled : enums_filled d.

Lemma filled_typ t : typ_ok d' t -> known_type d' t.
Proof.
  destruct t; cbn; auto. unfold enum_filled. rewrite (process_enum c d d' _ Acc). destruct (get_enum d e) as [x|] eqn:E; cbn; [|congruence].
  intros _. pose proof (Filled e x E) as N. now destruct (en_fields x).
Qed.

Lemma final_packed p m f f' : get_message d p = Some m -> field_of m f -> field_final c d p m f f' ->
  f_is_packed f' = true -> is_primitive (f_typ f') = true.
Proof.
  intros G Hf FF P. destruct (ff_packed _ _ _ _ _ _ FF) as (f0 & E & E1 & E2 & E3).
  unfold f_is_packed in P. rewrite E in P. unfold packed_after in P. rewrite E1, E2, E3 in P.
  assert (K : f_packed f = Some true -> is_primitive (f_typ f') = true).
  { intros X. destruct (ff_typ _ _ _ _ _ _ FF) as (t & Rt & Et). pose proof (Packed p m f t G Hf X Rt) as Pt. rewrite Et.
    destruct (c_dont_use_cow c); [|exact Pt]. destruct t; try discriminate; reflexivity. }
  destruct (is_top p); [destruct (is_primitive (f_typ f')) eqn:Pr; [reflexivity|discriminate]|].
  destruct (f_packed f) as [b|]; [|discriminate]. subst b. now apply K.
Qed.

Lemma boxed_message p m f f' : get_message d p = Some m -> field_of m f -> field_final c d p m f f' ->
  f_boxed f' = true -> freq_is_map (f_freq f) = false /\ freq_is_optional (f_freq f') = true /\ exists i, f_typ f' = TMessage i.
Proof.
  intros G Hf FF B. pose proof (final_types c d d' Rules Acc p m f f' G Hf FF) as T.
  destruct (ff_freq _ _ _ _ _ _ FF) as [(E & Eb)|(E & _ & Rp & j & Tj)].
  - rewrite Eb, (pr_unboxed d Rules p m f G Hf) in B. discriminate.
  - destruct (freq_is_map (f_freq f)) eqn:M; [destruct T as (k & v & E' & _); congruence|]. split; [reflexivity|].
    split; [|eauto]. rewrite E. destruct (f_freq f); try discriminate; reflexivity.
Qed.

Lemma fields_fit p m' f' : get_message d' p = Some m' -> field_of m' f' -> field_fit c d' f'.
Proof.
  intros G' Hf'. destruct (process_field_back c d d' p m' f' Acc G' Hf') as (m & f & G & Hf & FF).
  pose proof (final_types c d d' Rules Acc p m f f' G Hf FF) as T.
  constructor.
  - intros B. now destruct (boxed_message p m f f' G Hf FF B) as (_ & X).
  - rewrite (final_map c d d' Rules Acc p m f f' G Hf FF). destruct (freq_is_map (f_freq f)); [|now apply filled_typ].
    destruct T as (k & v & E & K & V). exists k, v. auto using filled_typ.
  - intros Rp P. split; [exact (final_packed p m f f' G Hf FF P)|]. intros Fx. destruct (c_dont_use_cow c) eqn:D; [|reflexivity].
    rewrite (Cow D p m' f' G' Hf' Rp) in Fx. discriminate.
Qed.

Lemma variants_fit p m' o' f' : get_message d' p = Some m' -> In o' (m_oneofs m') -> In f' (o_fields o') -> variant_fit d' f'.
Proof.
  intros G' Ho' Hf'. pose proof (process_message c d d' Acc p) as R. rewrite G' in R. inversion R as [|m y F A B]; subst. symmetry in A.
  destruct F as (_ & F). destruct (Forall2_in_r _ _ _ F o' Ho') as (o & Ho & Fo). destruct (Forall2_in_r _ _ _ Fo f' Hf') as (f & Hf & FF).
  assert (Hfo : field_of m f) by (right; eauto).
  destruct (pr_oneof d Rules p m o f A Ho Hf) as (_ & Nm). pose proof (final_types c d d' Rules Acc p m f f' A Hfo FF) as T. rewrite Nm in T.
  constructor; [|now apply filled_typ]. intros Bx. destruct (boxed_message p m f f' A Hfo FF Bx) as (_ & _ & X). exact X.
Qed.
End Fitted.

Lemma variants_found c os o v t : NoDup (map o_name os) -> In o os -> NoDup (map fst (oneof_env c o)) -> In (v, t) (oneof_env c o) ->
  variants_in c os (o_name o) v = Some t.
Proof.
  induction os as [|x os IH]; cbn; intros N H; [contradiction|]. inversion N as [|a b Hx Hl]; subst. destruct H as [->|H].
  - rewrite String.eqb_refl. apply find_var_in.
  - destruct (String.eqb (o_name o) (o_name x)) eqn:E; [|auto]. apply String.eqb_eq in E. exfalso. apply Hx. rewrite <- E. now apply in_map.
Qed.

(** ** C67
    For a schema that follows the rules of protobuf and is accepted, the
    generated code of every message is well-typed.  Missing: what RustTypes.v
    leaves out, the owned structs, the module and [use] lines (C66). *)
Theorem C67_well_typed_partial : forall hash c d d', protobuf_rules d -> scalars_packed d -> enums_filled d ->
  process c d = GOk d' -> compiles c d' -> distinct_names c d' -> messages_without_default d' -> hash_maps hash c d' ->
  forall i m, get_message d' i = Some m -> message_checks hash c d' m.
Proof.
  intros hash c d d' R Pk Fl A C N Md Hm i m G. destruct (N i m G) as (Ns & No).
  assert (Fit : forall f, In f (visible_fields c m) -> In f (m_fields m) /\ field_fit c d' f /\ find_var (struct_env c m) (f_name f) = Some (field_rtype c f)).
  { intros f Hf. assert (Hf' : In f (m_fields m)) by (unfold visible_fields in Hf; apply filter_In in Hf; tauto). split; [exact Hf'|].
    split; [apply (fields_fit c d d' R A C Pk Fl i m f G); now left|]. apply find_var_in; [exact Ns|]. unfold struct_env. apply in_or_app. left.
    apply in_map_iff. eauto. }
  assert (Vfit : forall o f, In o (m_oneofs m) -> In f (oneof_variants c o) -> variant_fit d' f).
  { intros o f Ho Hf. unfold oneof_variants in Hf. apply filter_In in Hf. apply (variants_fit c d d' R A Fl i m o f G Ho). tauto. }
  assert (Eok : forall g e t, type_of (struct_env c m) g e = Some t -> is_copy t = true -> fits (struct_env c m) g e t = true).
  { intros g e t T Ct. unfold fits. rewrite T, (use_copy e t Ct). apply coerces_refl. }
  assert (Ons : NoDup (map o_name (m_oneofs m))).
  { unfold struct_env in Ns. rewrite map_app, !map_map in Ns. cbn in Ns. clear -Ns. induction (map (fun x => f_name x) (visible_fields c m)); [exact Ns|].
    inversion Ns; auto. }
  assert (Ofd : forall o, In o (m_oneofs m) -> find_var (struct_env c m) (o_name o) = Some (YOneof (o_name o))).
  { intros o Ho. apply find_var_in; [exact Ns|]. unfold struct_env. apply in_or_app. right. apply in_map_iff. eauto. }
  constructor.
  - intros n t Ht. unfold struct_env in Ht. apply in_app_or in Ht. destruct Ht as [Ht|Ht]; apply in_map_iff in Ht.
    + destruct Ht as (f & X & Hf). injection X as <- <-. destruct (Fit f Hf) as (_ & Ff & _). eapply fit_field_type; exact Ff.
    + destruct Ht as (o & X & _). injection X as <- <-. reflexivity.
  - intros o n t Ho Ht. unfold oneof_env in Ht. apply in_map_iff in Ht. destruct Ht as (f & X & Hf). injection X as <- <-.
    eapply variant_type. exact (Vfit o f Ho Hf).
  - destruct (message_must_generate_impl_default (d_syntax d') c m) eqn:Im.
    + intros x t Hx. unfold init_code in Hx. apply in_map_iff in Hx. destruct Hx as (f & X & Hf). injection X as <- <-.
      destruct (Fit f Hf) as (Hf' & [Fb Ft Fp] & _). unfold field_default, field_rtype, generated_type_of in *.
      destruct (freq_is_map (f_freq f)) eqn:Fm.
      * destruct Ft as (k & v & Et & _). destruct (f_boxed f); [destruct (Fb eq_refl) as (_ & j & Ej); congruence|]. rewrite Et. cbn.
        destruct Hm as [Hm|Hm]; [exact Hm|]. rewrite (Hm i m f G Im Hf) in Fm. discriminate.
      * destruct (freq_is_repeated (f_freq f)) eqn:Fr.
        { destruct (f_boxed f); [destruct (Fb eq_refl) as (O & _); destruct (f_freq f); discriminate|].
          destruct (f_is_packed f && is_fixed_size (f_typ f) && negb (c_dont_use_cow c)) eqn:P; [|reflexivity]. cbn.
          destruct (f_typ f); try reflexivity; rewrite Bool.andb_false_r in P; discriminate. }
        destruct (f_boxed f); [reflexivity|]. destruct (freq_is_optional (f_freq f)); [reflexivity|]. cbn [init_fits].
        unfold fits. destruct (f_default f) as [s|] eqn:Df.
        { rewrite (custom_typed d' (struct_env c m) (f_typ f) [] Ft).
          - unfold use. replace (is_place (owned_custom_expr (f_typ f))) with false; [apply coerces_refl|].
            pose proof (fun j => Md i m f j G Hf') as Mdf. destruct (f_typ f); try reflexivity; try contradiction.
            rewrite (Mdf _ eq_refl) in Df. discriminate.
          - intros j Ej. rewrite (Md i m f j G Hf' Ej) in Df. discriminate. }
        { rewrite (zero_typed d' (struct_env c m) (f_typ f) [] Ft). unfold use.
          replace (is_place (zero_expr (f_typ f))) with false; [apply coerces_refl|]. destruct (f_typ f); try reflexivity; contradiction. }
    + intros n t Ht. unfold struct_env in Ht. apply in_app_or in Ht. destruct Ht as [Ht|Ht]; apply in_map_iff in Ht.
      * destruct Ht as (f & X & Hf). injection X as <- <-. destruct (Fit f Hf) as (_ & Ff & _). now apply fit_field_default.
      * destruct Ht as (o & X & _). injection X as <- <-. reflexivity.
  - intros s Hs. unfold read_code in Hs. apply in_app_or in Hs. destruct Hs as [Hs|Hs].
    + apply in_map_iff in Hs. destruct Hs as (f & <- & Hf). destruct (Fit f Hf) as (_ & Ff & V). now apply (fit_read c).
    + apply in_flat_map in Hs. destruct Hs as (o & Ho & Hs). apply in_map_iff in Hs. destruct Hs as (f & <- & Hf).
      apply variant_reads; [exact (Vfit o f Ho Hf)|now apply Ofd|]. apply variants_found; auto. unfold oneof_env. apply in_map_iff. eauto.
  - intros g e t He. rewrite !in_app_iff in He. destruct He as [He|[He|[He|He]]].
    + unfold size_code in He. apply in_app_or in He. destruct He as [He|He].
      * apply in_map_iff in He. destruct He as (f & X & Hf). injection X as <- <- <-. destruct (Fit f Hf) as (_ & Ff & V).
        apply Eok; [now apply (fit_size c d')|reflexivity].
      * apply in_flat_map in He. destruct He as (o & Ho & He). apply in_map_iff in He. destruct He as (f & X & Hf). injection X as <- <- <-.
        apply Eok; [apply (variant_sizes d'); exact (Vfit o f Ho Hf)|reflexivity].
    + unfold write_code in He. apply in_app_or in He. destruct He as [He|He].
      * apply in_map_iff in He. destruct He as (f & X & Hf). injection X as <- <- <-. destruct (Fit f Hf) as (_ & Ff & V).
        apply Eok; [now apply (fit_write c d')|reflexivity].
      * apply in_flat_map in He. destruct He as (o & Ho & He). apply in_map_iff in He. destruct He as (f & X & Hf). injection X as <- <- <-.
        apply Eok; [apply (variant_writes d'); exact (Vfit o f Ho Hf)|reflexivity].
    + unfold const_code in He. apply in_map_iff in He. destruct He as (f & X & Hf). injection X as <- <- <-. apply filter_In in Hf.
      destruct Hf as (Hf & W). assert (Ff : field_fit c d' f) by (apply (fields_fit c d d' R A C Pk Fl i m f G); now left).
      destruct Ff as [_ Ft _]. unfold can_write_default_const in W. apply Bool.negb_true_iff in W.
      repeat (apply Bool.orb_false_iff in W; destruct W as (W & ?)).
      destruct (freq_is_map (f_freq f)); [destruct Ft as (k & v & E & _); rewrite E in *; discriminate|].
      apply (const_typed d'); [exact Ft|]. intros j Ej. rewrite Ej in *. discriminate.
    + unfold getter_code in He. apply in_map_iff in He. destruct He as (f & X & Hf). injection X as <- <- <-. apply filter_In in Hf.
      destruct Hf as (Hf & W). unfold must_generate_const, has_valid_visible_custom_default in W.
      repeat (apply andb_prop in W; destruct W as (W & ?)).
      assert (Hv : In f (visible_fields c m)).
      { unfold visible_fields. apply filter_In. split; [exact Hf|]. unfold visible. destruct (c_add_deprecated_fields c), (f_deprecated f); cbn in *; congruence. }
      destruct (Fit f Hv) as (_ & [Fb Ft _] & V).
      assert (Nm : forall j, f_typ f <> TMessage j) by (intros j Ej; rewrite Ej in *; discriminate).
      unfold field_rtype, generated_type_of in V. destruct (f_boxed f); [destruct (Fb eq_refl) as (_ & j & Ej); now destruct (Nm j)|].
      destruct (f_freq f); try discriminate. cbn in V, Ft. now apply (getter_typed d').
  - intros f Hf W. unfold must_generate_const, has_valid_visible_custom_default in W.
    repeat (apply andb_prop in W; destruct W as (W & ?)).
    assert (Ff : field_fit c d' f) by (apply (fields_fit c d d' R A C Pk Fl i m f G); now left). destruct Ff as [_ Ft _].
    unfold can_write_default_const. destruct (f_freq f); try discriminate. cbn in Ft.
    destruct (d_syntax d'); [|discriminate]. destruct (f_default f); [|discriminate].
    destruct (f_typ f), (c_add_deprecated_fields c), (f_deprecated f); cbn in *; try reflexivity; try discriminate; contradiction.
Qed.
Print Assumptions C67_well_typed_partial.

(** ** The concrete case *)

(** deciding the rules *)
Fixpoint nodupb (l : list Z) : bool :=
  match l with [] => true | x :: l' => negb (existsb (Z.eqb x) l') && nodupb l' end.
Lemma nodupb_ok l : nodupb l = true -> NoDup l.
Proof.
  induction l as [|x l IH]; cbn; intros H; [constructor|]. apply andb_prop in H. destruct H as (H & H'). constructor; [|auto].
  intros Hin. apply Bool.negb_true_iff in H. assert (X : existsb (Z.eqb x) l = true) by (apply existsb_exists; exists x; split; [exact Hin|apply Z.eqb_refl]).
  congruence.
Qed.
Definition sourceb (t : field_type) : bool := match t with TMap _ _ | TMessage _ | TEnum _ => false | _ => true end.
Definition keyb (t : field_type) : bool :=
  match t with
  | TInt32 | TInt64 | TUint32 | TUint64 | TSint32 | TSint64 | TBool | TFixed64 | TSfixed64 | TFixed32 | TSfixed32 | TStringCow => true
  | _ => false
  end.
Definition fieldb (f : field) : bool :=
  ((1 <=? f_number f) && (f_number f <? 2 ^ 29))%Z
  && (if freq_is_map (f_freq f) then match f_typ f with TMap k v => sourceb v && keyb k | _ => false end else sourceb (f_typ f))
  && (match f_packed f with Some true => freq_is_repeated (f_freq f) | _ => true end)
  && negb (f_boxed f).
Definition rulesb (d : file_descriptor) : bool :=
  forallb (fun pm : midx * message => let m := snd pm in
    forallb fieldb (all_fields m) && nodupb (map f_number (all_fields m))
    && forallb (fun o => forallb (fun f => negb (freq_is_repeated (f_freq f)) && negb (freq_is_map (f_freq f))) (o_fields o)) (m_oneofs m))
    (all_messages d).
Lemma rulesb_ok d : rulesb d = true -> protobuf_rules d.
Proof.
  intros H.
  assert (M : forall p m, get_message d p = Some m ->
    (forall f, field_of m f -> fieldb f = true) /\ NoDup (map f_number (all_fields m)) /\
    forall o f, In o (m_oneofs m) -> In f (o_fields o) -> freq_is_repeated (f_freq f) = false /\ freq_is_map (f_freq f) = false).
  { intros p m G. apply get_message_in in G. unfold rulesb in H. rewrite forallb_forall in H. specialize (H _ G). cbn [snd] in H.
    apply andb_prop in H. destruct H as (H & H3). apply andb_prop in H. destruct H as (H1 & H2). split; [|split; [now apply nodupb_ok|]].
    - intros f Hf. apply field_of_all in Hf. rewrite forallb_forall in H1. auto.
    - intros o f Ho Hf. rewrite forallb_forall in H3. specialize (H3 o Ho). rewrite forallb_forall in H3. specialize (H3 f Hf).
      apply andb_prop in H3. destruct H3. now rewrite <- !Bool.negb_true_iff. }
  assert (F : forall p m f, get_message d p = Some m -> field_of m f -> fieldb f = true) by (intros p m f G; apply (M p m G)).
  assert (S : forall t, sourceb t = true -> source_type t) by (intros t; destruct t; cbn; auto; discriminate).
  constructor; try (intros p m f G Hf; specialize (F p m f G Hf); unfold fieldb in F;
    apply andb_prop in F; destruct F as (F & F4); apply andb_prop in F; destruct F as (F & F3); apply andb_prop in F; destruct F as (F1 & F2)).
  - apply andb_prop in F1. destruct F1 as (A & B). apply Z.leb_le in A. apply Z.ltb_lt in B. auto.
  - intros p m G. apply (M p m G).
  - destruct (freq_is_map (f_freq f)); [|auto]. destruct (f_typ f) as [| | | | | | | | | | | | | | | | | | | |k v]; try discriminate.
    apply andb_prop in F2. destruct F2 as (A & B). exists k, v. repeat split; auto. destruct k; try discriminate; cbn; tauto.
  - intros p m o f G. apply (M p m G).
  - intros E. now rewrite E in F3.
  - now apply Bool.negb_true_iff.
Qed.

(** {v
syntax = "proto2"; package p;
enum Color { RED = 0; DARK = -5; }
message Base {
  required int32 level = 1 [default = 5];
  optional string name = 2 [default = "x"];
  optional bytes type = 3;
  map<string, Kid> kids = 4;
  repeated fixed32 nums = 5 [packed = true];
  repeated Color cols = 6;
  optional Base next = 7;
  oneof v { Color color = 8; string text = 9; Base loop = 10; }
  message Kid { required double w = 1; repeated sint64 z = 2 [packed = true]; optional Color c = 3 [default = DARK]; }
}
    v} *)
Definition with_default (s : text) (f : field) : field :=
  mkField (f_name f) (f_freq f) (f_typ f) (f_number f) (Some s) (f_packed f) (f_boxed f) (f_deprecated f).
Definition packed_fd (n : text) (q : frequency) (t : field_type) (num : Z) : field := mkField n q t num None (Some true) false false.
Definition srcT : file_descriptor := set_own_package (mkDesc "p" Proto2
  [msg "Base" [with_default "5" (fd "level" P2Required TInt32 1);
               with_default "x" (fd "name" P2Optional TStringCow 2);
               fd "type" P2Optional TBytesCow 3;
               fd "kids" P2Map (TMap TStringCow (TMessageOrEnum "Kid")) 4;
               packed_fd "nums" P2Repeated TFixed32 5; fd "cols" P2Repeated (TMessageOrEnum "Color") 6;
               fd "next" P2Optional (TMessageOrEnum "Base") 7]
              [mkOneof "v" [fd "color" P2Optional (TMessageOrEnum "Color") 8; fd "text" P2Optional TStringCow 9;
                            fd "loop" P2Optional (TMessageOrEnum "Base") 10] "" "" false]
              [msg "Kid" [fd "w" P2Required TDouble 1; packed_fd "z" P2Repeated TSint64 2;
                          with_default "DARK" (fd "c" P2Optional (TMessageOrEnum "Color") 3)] [] []]]
  [mkEnum "Color" [("RED", 0%Z); ("DARK", (-5)%Z)] false "" ""] "p").

Lemma srcT_packed : scalars_packed srcT.
Proof.
  intros p m f t G Hf Pk. apply get_message_in in G. apply field_of_all in Hf. cbn in G. decompose [or] G; try contradiction;
    match goal with K : _ = _ |- _ => injection K as <- <- end; cbn in Hf; decompose [or] Hf; subst; try contradiction; try discriminate;
    intros X; vm_compute in X; injection X as <-; reflexivity.
Qed.
Lemma srcT_enums : enums_filled srcT.
Proof.
  intros (ms, k) e. unfold get_enum. cbn [e_msg e_pos]. destruct ms as [|a ms].
  - intros G. apply nth_error_In in G. cbn in G. destruct G as [<-|[]]. discriminate.
  - destruct (get_message srcT (a :: ms)) as [m|] eqn:G; [|discriminate]. apply get_message_in in G. cbn in G.
    decompose [or] G; try contradiction; match goal with K : (_, _) = _ |- _ => injection K; clear K; intros; subst m end; match goal with X : nth_error _ _ = _ |- _ => apply nth_error_In in X; cbn in X; contradiction end.
Qed.

Example C67_case : protobuf_rules srcT /\ scalars_packed srcT /\ enums_filled srcT /\
  match process cfgC srcT with
  | GOk d' => compiles cfgC d' /\ distinct_names cfgC d' /\ messages_without_default d' /\ hash_maps true cfgC d' /\
      match get_message d' [0]%nat with
      | Some m => map snd (struct_env cfgC m) =
          [YI32; YOption (YCow YStr); YOption (YCow (YSlice YU8)); YMap (YCow YStr) (YMsg [0; 0]%nat); YPacked YU32;
           YVec (YEnum (mkEidx [] 0)); YOption (YBox (YMsg [0]%nat)); YOneof "v"]
          /\ message_must_generate_impl_default (d_syntax d') cfgC m = true
          /\ length (getter_code (d_syntax d') cfgC m) = 1%nat
          /\ nth_error (init_code cfgC m) 3 = Some (XHashMap, YMap (YCow YStr) (YMsg [0; 0]%nat))
          /\ nth_error (read_code cfgC m) 9 = Some (RsVariant "v" "v" "loop_pb" true (RdMessage [0]%nat))
          /\ message_checks true cfgC d' m
      | None => False
      end
  | GErr _ => False
  end.
Proof.
  assert (R : protobuf_rules srcT) by (apply rulesb_ok; vm_compute; reflexivity).
  split; [exact R|]. split; [exact srcT_packed|]. split; [exact srcT_enums|].
  destruct (process cfgC srcT) as [d'|e] eqn:E; [|vm_compute in E; discriminate].
  assert (C : compiles cfgC d') by discriminate.
  pose proof E as E0. vm_compute in E. injection E as E.
  assert (N : distinct_names cfgC d').
  { intros i m G. apply get_message_in in G. rewrite <- E in G. vm_compute in G. decompose [or] G; try contradiction;
      match goal with K : _ = _ |- _ => injection K as <- <- end; (split; [|intros o Ho; cbn in Ho; decompose [or] Ho; subst; try contradiction]);
      vm_compute; repeat (constructor; [cbn; intuition discriminate|]); constructor. }
  assert (Md : messages_without_default d').
  { intros i m f j G Hf. apply get_message_in in G. rewrite <- E in G. vm_compute in G. decompose [or] G; try contradiction;
      match goal with K : _ = _ |- _ => injection K as <- <- end; cbn in Hf; decompose [or] Hf; try contradiction; subst f; cbn; congruence. }
  split; [exact C|]. split; [exact N|]. split; [exact Md|]. split; [now left|].
  destruct (get_message d' [0]%nat) as [m|] eqn:G; [|rewrite <- E in G; vm_compute in G; discriminate].
  pose proof (C67_well_typed_partial true cfgC srcT d' R srcT_packed srcT_enums E0 C N Md (or_introl eq_refl) [0]%nat m G) as K.
  rewrite <- E in G. vm_compute in G. injection G as G. rewrite <- E, <- G in *. 
  repeat match goal with |- _ /\ _ => split end; try exact K; vm_compute; reflexivity.
Qed.

(** ** Refutations: schemas that are accepted and whose code is not well-typed *)

(** [repeated string s = 1 [packed = true]] in a nested message: the closure
    parameter [&s] moves a string out of a reference (E0507).  protoc rejects
    the schema, pb-rs accepts it; in a top-level message it ignores the
    option. *)
Definition srcPackedString : file_descriptor := set_own_package (mkDesc "p" Proto2
  [msg "Outer" [packed_fd "s" P2Repeated TStringCow 1] []
       [msg "Inner" [packed_fd "s" P2Repeated TStringCow 1] [] []]] [] "p").
Theorem C67_packed_string_refuted : exists d', process cfgC srcPackedString = GOk d' /\
  (exists m, get_message d' [0]%nat = Some m /\ message_checks true cfgC d' m) /\
  (exists m, get_message d' [0; 0]%nat = Some m /\ ~ message_checks true cfgC d' m).
Proof.
  destruct (process cfgC srcPackedString) as [d'|e] eqn:E; [|vm_compute in E; discriminate].
  vm_compute in E. injection E as <-. eexists. split; [reflexivity|]. split; eexists; (split; [reflexivity|]).
  - constructor; cbn.
    + intros n t [X|[]]. now injection X as <- <-.
    + contradiction.
    + intros n t [X|[]]. now injection X as <- <-.
    + intros s [<-|[]]. reflexivity.
    + intros g e t [X|[X|[]]]; now injection X as <- <- <-.
    + intros f [<-|[]]. discriminate.
  - intros [_ _ _ _ X _]. specialize (X _ _ _ (or_introl eq_refl)). vm_compute in X. discriminate.
Qed.
Print Assumptions C67_packed_string_refuted.

(** [repeated fixed32] with --dont-use-cow: the field is a [Vec],
    [read_packed_fixed] returns a [PackedFixed].  A schema of the language. *)
Definition srcOwnPacked : file_descriptor := set_own_package (mkDesc "p" Proto3 [msg "Nums" [fd "n" P3Repeated TFixed32 1] [] []] [] "p").
Theorem C67_owned_packed_refuted : protobuf_rules srcOwnPacked /\ exists d' m, process cfgOwn srcOwnPacked = GOk d' /\
  get_message d' [0]%nat = Some m /\ ~ message_checks true cfgOwn d' m.
Proof.
  split; [apply rulesb_ok; vm_compute; reflexivity|].
  destruct (process cfgOwn srcOwnPacked) as [d'|e] eqn:E; [|vm_compute in E; discriminate].
  vm_compute in E. injection E as <-. eexists. eexists. split; [reflexivity|]. split; [reflexivity|].
  intros [_ _ _ X _ _]. specialize (X _ (or_introl eq_refl)). vm_compute in X. discriminate.
Qed.
Print Assumptions C67_owned_packed_refuted.

(** [map<double, int32>]: f64 is no key of a [HashMap] (protoc rejects it) *)
Definition srcFloatKey : file_descriptor := set_own_package (mkDesc "p" Proto3 [msg "M" [fd "n" P3Map (TMap TDouble TInt32) 1] [] []] [] "p").
Theorem C67_float_key_refuted : exists d' m, process cfgC srcFloatKey = GOk d' /\
  get_message d' [0]%nat = Some m /\ ~ message_checks true cfgC d' m.
Proof.
  destruct (process cfgC srcFloatKey) as [d'|e] eqn:E; [|vm_compute in E; discriminate].
  vm_compute in E. injection E as <-. eexists. eexists. split; [reflexivity|]. split; [reflexivity|].
  intros [X _ _ _ _ _]. specialize (X _ _ (or_introl eq_refl)). vm_compute in X. discriminate.
Qed.
Print Assumptions C67_float_key_refuted.

(** an enum without values nested in a message: no [Default], no [From<i32>]
    (protoc rejects it) *)
Definition srcEmptyEnum : file_descriptor := set_own_package (mkDesc "p" Proto3
  [mkMessage "M" [fd "n" P3Default (TMessageOrEnum "E") 1] [] None None false "" [] [mkEnum "E" [] false "" ""] "" []] [] "p").
Theorem C67_empty_enum_refuted : exists d' m, process cfgC srcEmptyEnum = GOk d' /\
  get_message d' [0]%nat = Some m /\ ~ message_checks true cfgC d' m.
Proof.
  destruct (process cfgC srcEmptyEnum) as [d'|e] eqn:E; [|vm_compute in E; discriminate].
  vm_compute in E. injection E as <-. eexists. eexists. split; [reflexivity|]. split; [reflexivity|].
  intros [_ _ X _ _ _]. cbn in X. specialize (X _ _ (or_introl eq_refl)). vm_compute in X. discriminate.
Qed.
Print Assumptions C67_empty_enum_refuted.

(** --no-std without --hashbrown: [KVMap] is a [BTreeMap], and the [default]
    that a custom default makes the generator write says [HashMap::new()]
    (types.rs:769, 1443-1455).  A schema of the language. *)
Theorem C67_btree_map_refuted : protobuf_rules srcT /\ exists d' m, process cfgC srcT = GOk d' /\
  get_message d' [0]%nat = Some m /\ message_checks true cfgC d' m /\ ~ message_checks false cfgC d' m.
Proof.
  destruct C67_case as (R & _ & _ & K). split; [exact R|]. destruct (process cfgC srcT) as [d'|e]; [|contradiction].
  destruct K as (_ & _ & _ & _ & K). destruct (get_message d' [0]%nat) as [m|] eqn:G; [|contradiction]. destruct K as (_ & I & _ & H & _ & K).
  exists d', m. split; [reflexivity|]. split; [exact G|]. split; [exact K|].
  intros [_ _ X _ _ _]. rewrite I in X. apply nth_error_In in H. specialize (X _ _ H). discriminate.
Qed.
Print Assumptions C67_btree_map_refuted.
