(** The constants and the getters of the generated trees, and [PATH]. *)
From Coq Require Import String Ascii Arith ZArith Lia Bool.
From Verif Require Import Base Reader PackedFixed Writer Sizeofs Utf8 Spec Schema Keywords Modules Passes Gen GenSem GenSpec GenType GenCheck KeywordFacts.
From Verif Require Import RustTypes Emit Literals Output Paths GenText RustLex RustAst RustParse GenAst LexFacts RustLit RustSem Meaning MeanFacts.
Import Schema StringSyntax.
Local Open Scope string_scope.
Local Open Scope list_scope.
Local Open Scope Z_scope.

Lemma string_append_longer : forall a b, b <> EmptyString -> String.eqb a (a ++ b)%string = false.
Proof.
  intros a b N. apply String.eqb_neq. intros E. apply (f_equal String.length) in E. rewrite KeywordFacts.length_append in E. destruct b; [contradiction|]. cbn in E. lia.
Qed.

Lemma nodup_left : forall {A} (l r : list A), NoDup (l ++ r) -> NoDup l.
Proof.
  intros A l r. induction l as [|x l IH]; intros H; [constructor|]. inversion H as [|? ? N K]; subst. constructor; [|auto].
  intros I. apply N, in_or_app. now left.
Qed.

Section Get.
Variable g : gen_config.
Variables d d0 : file_descriptor.
Variable t : target.
Variable names : scope -> list text -> option rtype.
Variable lit : field_type -> text -> option value.
Let c : config := g_passes g.
Hypothesis Names : names_ok d d0 names.
Hypothesis Plain : plain_names g d.
Hypothesis Schema : schema_wf d c lit.
Hypothesis Consts : constants_ok g d d0 t names lit.
Let prog := generated_program g d d0.

Definition the_consts (m : message) : list (list ritem_) :=
  if (existsb (must_generate_const (d_syntax d) c) (m_fields m) && existsb (can_write_default_const (d_syntax d) c) (m_fields m))%bool
  then [flat_map (const_items g d) (m_fields m)] else [].
Definition the_getters (m : message) : list (list ritem_) :=
  if (existsb (must_generate_getter g d) (m_fields m) && g_getters g)%bool then [flat_map (getter_items g d) (m_fields m)] else [].

Lemma inherent_of : forall i m, get_message d i = Some m -> inherent (p_struct prog i) = the_consts m ++ the_getters m.
Proof.
  intros i m G. cbn [p_struct prog generated_program]. rewrite G.
  assert (N : struct_name (message_items g d d0 m) = Some (m_name m)).
  { unfold message_items, definition_item. now destruct (is_unit m). }
  unfold inherent. rewrite N. unfold message_items. rewrite !flat_map_app. fold c.
  assert (D : forall f : ritem_ -> list (list ritem_), (forall a b n l fs, f (RIStruct a b n l fs) = []) -> flat_map f [definition_item g d m] = []).
  { intros f H. unfold definition_item. destruct (is_unit m); cbn [flat_map]; now rewrite H. }
  rewrite D by reflexivity. cbn [app].
  assert (C : flat_map (fun i => match i with RIImpl _ _ None u items => if is_type (Some (m_name m)) u then [items] else [] | _ => [] end)
                (only (existsb (must_generate_const (d_syntax d) c) (m_fields m)) (consts_items g d m)) = the_consts m).
  { unfold the_consts. destruct (existsb (must_generate_const (d_syntax d) c) (m_fields m)); cbn [only andb]; [|reflexivity]. unfold consts_items. fold c.
    destruct (existsb (can_write_default_const (d_syntax d) c) (m_fields m)) eqn:E; cbn [negb].
    - destruct (d_syntax d) eqn:S; [|exfalso].
      + cbn [flat_map inherent_impl app]. unfold own_type, tapp, tpath, spath. cbn [is_type]. now rewrite String.eqb_refl.
      + apply existsb_exists in E. destruct E as (f & _ & E). discriminate E.
    - now destruct (d_syntax d). }
  assert (Q : flat_map (fun i => match i with RIImpl _ _ None u items => if is_type (Some (m_name m)) u then [items] else [] | _ => [] end)
                (only (existsb (must_generate_getter g d) (m_fields m) && g_getters g) (getters_items g d m)) = the_getters m).
  { unfold the_getters. destruct (existsb _ _ && _)%bool; cbn [only]; [|reflexivity]. cbn [flat_map getters_items inherent_impl app].
    unfold own_type, tapp, tpath, spath. cbn [is_type]. now rewrite String.eqb_refl. }
  rewrite C, Q. f_equal. rewrite <- app_nil_r. f_equal.
  assert (O : flat_map (fun i => match i with RIImpl _ _ None u items => if is_type (Some (m_name m)) u then [items] else [] | _ => [] end)
                (owned_items g m) = []).
  { unfold owned_items. rewrite flat_map_app. cbn [flat_map app]. unfold tname, tpath, spath. cbn [is_type].
    rewrite !string_append_longer by discriminate. now destruct (g_gen_info g). }
  unfold GenAst.message_default, message_read, message_write_impl.
  destruct (message_must_generate_impl_default (d_syntax d) c m), (g_gen_info g), (g_owned g), (or_else _ _), (is_unit m); cbn [only]; rewrite ?O; reflexivity.
Qed.

(** *** The constants *)
Lemma const_written : forall i m f, get_message d i = Some m -> In f (visible_fields c m) -> must_generate_const (d_syntax d) c f = true ->
  can_write_default_const (d_syntax d) c f = true /\ typ_ok d (f_typ f) /\ (forall j, f_typ f <> TMessage j) /\ d_syntax d = Proto2 /\
  get_type c f = TyOption (f_typ f).
Proof.
  intros i m f G I M. pose proof (field_facts g d lit Schema i m f G I) as (F1 & F2 & F3 & F4). apply filter_In in I. destruct I as (I & V).
  unfold must_generate_const, has_valid_visible_custom_default in M. rewrite !andb_true_iff in M. destruct M as (((((_ & S) & Q) & Nm) & Df) & Op).
  assert (Fq : f_freq f = P2Optional) by (destruct (f_freq f); try discriminate; reflexivity).
  assert (Ty : typ_ok d (f_typ f)) by (rewrite Fq in F2; exact F2).
  assert (Nj : forall j, f_typ f <> TMessage j) by (intros j E; now rewrite E in Nm).
  assert (Sy : d_syntax d = Proto2) by now destruct (d_syntax d).
  repeat match goal with |- _ /\ _ => split end; auto.
  - unfold can_write_default_const. rewrite Sy, Op. unfold visible in V. apply negb_true_iff in V. fold c. rewrite V. destruct (f_default f); [|discriminate].
    destruct (f_typ f); try contradiction; try reflexivity. now destruct (Nj m0).
  - unfold get_type. rewrite Fq. cbn [generated_type_of freq_is_map freq_is_repeated freq_is_optional].
    destruct (f_boxed f) eqn:B; [|reflexivity]. destruct (pn_boxed _ _ Plain i m f G) as (j & J); [apply in_or_app; now left|exact B|]. now destruct (Nj j).
Qed.
Lemma visible_const : forall f, can_write_default_const (d_syntax d) c f = true -> visible c f = true.
Proof.
  intros f H. unfold can_write_default_const in H. apply negb_true_iff in H. rewrite !orb_false_iff in H. unfold visible. apply negb_true_iff. tauto.
Qed.
Lemma const_found : forall l f s, NoDup (map f_name (filter (visible c) l)) -> In f l -> can_write_default_const (d_syntax d) c f = true -> f_default f = Some s ->
  the_const (const_name f) (flat_map (const_items g d) l) = Some (const_type g d f, exp_of s).
Proof.
  intros l f s. induction l as [|x l IH]; intros N I W D; [contradiction|]. cbn [flat_map filter] in *. unfold the_const. rewrite first_app.
  unfold const_items at 1. fold c. destruct (can_write_default_const (d_syntax d) c x) eqn:Wx; cbn [negb].
  - rewrite (visible_const x Wx) in N. cbn [map] in N. inversion N as [|? ? N1 N2]; subst. destruct (f_default x) as [sx|] eqn:Dx.
    + cbn [first]. unfold const_name at 1 2. cbn [String.eqb append Ascii.eqb Bool.eqb].
      destruct I as [->|I].
      * rewrite String.eqb_refl. congruence.
      * destruct (String.eqb_spec (f_name f) (f_name x)) as [E|_]; [|now apply IH]. exfalso. apply N1. rewrite <- E. apply in_map, filter_In.
        split; [exact I|now apply visible_const].
    + cbn [first]. destruct I as [->|I]; [congruence|]. now apply IH.
  - destruct I as [->|I]; [congruence|]. apply IH; auto. destruct (visible c x); [|exact N]. now inversion N.
Qed.
Lemma fields_distinct : forall i m, get_message d i = Some m -> NoDup (map f_name (visible_fields c m)).
Proof.
  intros i m G. pose proof (pn_fields _ _ Plain i m G) as N. fold c in N. unfold named_slots in N. rewrite map_app, !map_map in N. cbn [fst] in N.
  exact (nodup_left _ _ N).
Qed.
Lemma const_is : forall i m f s v, get_message d i = Some m -> In f (visible_fields c m) -> must_generate_const (d_syntax d) c f = true ->
  f_default f = Some s -> lit (f_typ f) s = Some v -> const_of t names prog i (const_name f) = Some (rust_value d c (f_typ f) v).
Proof.
  intros i m f s v G I M D L. destruct (const_written i m f G I M) as (W & _). unfold const_of. rewrite (inherent_of i m G).
  assert (If : In f (m_fields m)) by (apply filter_In in I; tauto).
  unfold the_consts. replace (existsb (must_generate_const (d_syntax d) c) (m_fields m)) with true by (symmetry; apply existsb_exists; eauto).
  replace (existsb (can_write_default_const (d_syntax d) c) (m_fields m)) with true by (symmetry; apply existsb_exists; eauto).
  cbn [andb app first]. rewrite (const_found (m_fields m) f s (fields_distinct i m G) If W D).
  unfold constant. cbn [fst snd]. rewrite (proj2 (Consts i m f s v G I D L (bare names prog) 0%nat _ (mkSt [] [] [] (mkR 0 0)) eq_refl eq_refl)). reflexivity.
Qed.

(** *** The getters *)
Lemma getter_found : forall l f, g_getters g = true -> NoDup (map f_name (filter (visible c) l)) -> In f l -> must_generate_const (d_syntax d) c f = true ->
  exists x, getter_items g d f = [RIFn x] /\ the_fn ("get_" ++ f_name f)%string (flat_map (getter_items g d) l) = Some x.
Proof.
  intros l f Gg. induction l as [|x l IH]; intros N I W; [contradiction|].
  assert (V : forall y, must_generate_const (d_syntax d) c y = true -> visible c y = true).
  { intros y H. unfold must_generate_const, has_valid_visible_custom_default in H. rewrite !andb_true_iff in H. unfold visible.
    destruct (c_add_deprecated_fields c), (f_deprecated y); intuition discriminate. }
  assert (E : forall y, must_generate_const (d_syntax d) c y = true -> exists z, getter_items g d y = [RIFn z] /\ fn_name z = ("get_" ++ f_name y)%string).
  { intros y H. unfold getter_items, must_generate_getter, fn. fold c. rewrite H, Gg. cbn [andb negb]. eexists. split; [reflexivity|]. reflexivity. }
  cbn [flat_map filter] in *. unfold the_fn. rewrite first_app. destruct (must_generate_const (d_syntax d) c x) eqn:M.
  - destruct (E x M) as (z & Z & Nz). rewrite Z. cbn [first]. rewrite Nz. cbn [String.eqb append Ascii.eqb Bool.eqb].
    rewrite (V x M) in N. cbn [map] in N. inversion N as [|? ? N1 N2]; subst. destruct I as [->|I].
    + exists z. rewrite String.eqb_refl. auto.
    + destruct (String.eqb_spec (f_name f) (f_name x)) as [Q|_]; [|now apply IH]. exfalso. apply N1. rewrite <- Q. apply in_map, filter_In. auto.
  - replace (getter_items g d x) with (@nil ritem_) by (unfold getter_items, must_generate_getter; fold c; now rewrite M).
    destruct I as [->|I]; [congruence|]. apply IH; auto. destruct (visible c x); [|exact N]. now inversion N.
Qed.
(** types.rs:594-631 [write_getter]: the value of the field, or the default *)
Lemma no_function : forall x m, first (the_fn x) (the_consts m) = None.
Proof.
  intros x m. unfold the_consts. destruct (_ && _)%bool; [|reflexivity]. cbn [first].
  replace (the_fn _ _) with (@None rfn); [reflexivity|]. symmetry. unfold the_fn. generalize (m_fields m). intros l. induction l as [|y l IH]; [reflexivity|].
  cbn [flat_map]. rewrite first_app, IH. unfold const_items. destruct (negb _); [reflexivity|]. now destruct (f_default y).
Qed.
Lemma no_getter : forall depth i m x v, get_message d i = Some m -> g_getters g = false -> struct_method t names prog depth i x v = None.
Proof.
  intros depth i m x v G E. unfold struct_method. rewrite (inherent_of i m G). unfold the_getters. rewrite E, andb_false_r, app_nil_r. now rewrite no_function.
Qed.
Lemma getter_is : forall depth i m f s v sl ss, g_getters g = true -> get_message d i = Some m -> In f (visible_fields c m) ->
  must_generate_const (d_syntax d) c f = true -> f_default f = Some s -> lit (f_typ f) s = Some v ->
  assoc (f_name f) (rust_slots d c (named_slots c m) ss) = Some (rust_slot d c (TyOption (f_typ f)) sl) ->
  match sl with SlNone => True | SlSome x => val_ok d c (f_typ f) x | _ => False end ->
  struct_method t names prog depth i ("get_" ++ f_name f)%string (rust_struct d c i m ss) =
  Some (rust_value d c (f_typ f) match sl with SlSome x => x | _ => v end).
Proof.
  intros depth i m f s v sl ss Gg G I M D L A O. destruct (const_written i m f G I M) as (W & Ty & Nj & _ & Gt).
  pose proof (const_is i m f s v G I M D L) as K.
  assert (If : In f (m_fields m)) by (apply filter_In in I; tauto).
  destruct (getter_found (m_fields m) f Gg (fields_distinct i m G) If M) as (x & X & Fx).
  unfold struct_method. rewrite (inherent_of i m G), first_app.
  replace (first (the_fn ("get_" ++ f_name f)%string) (the_consts m)) with (@None rfn).
  2: { symmetry. apply no_function. }
  unfold the_getters. replace (existsb (must_generate_getter g d) (m_fields m)) with true.
  2: { symmetry. apply existsb_exists. exists f. split; [exact If|]. unfold must_generate_getter. fold c. now rewrite M, Gg. }
  rewrite Gg. cbn [andb first]. rewrite Fx. set (w := world_of _ _ _ _ _ _ _ _).
  unfold getter_items, must_generate_getter in X. fold c in X. rewrite M, Gg in X. cbn [andb negb] in X.
  set (s0 := mkSt [("self", rust_struct d c i m ss)] [] [] (mkR 0 0)).
  assert (Df : forall h, eval t names w (InMsg i) 0 h (epath ["Self"; const_name f]) s0 = Go (rust_value d c (f_typ f) v) s0).
  { intros h. change (eval t names w (InMsg i) 0 h (epath ["Self"; const_name f]) s0) with (of_option (const_of t names prog i (const_name f)) s0).
    rewrite K. reflexivity. }
  assert (F : forall ops, eval t names w (InMsg i) 0 None (self_field (f_name f) ops) s0 =
    operate t names w (InMsg i) 0 (eval t names w (InMsg i) 0) None ops (Some ("self", Some (f_name f))) (rust_slot d c (TyOption (f_typ f)) sl) s0).
  { intros ops. apply (ev_field t names w (InMsg i) 0 None "self" i (rust_slots d c (named_slots c m) ss)); [reflexivity|exact A]. }
  assert (B : pure_fn t names w (InMsg i) x (Some (rust_struct d c i m ss)) [] =
     result_of (eval t names w (InMsg i) 0 None match fn_body x with [RSExpr e _] => e | _ => zero end s0)).
  { injection X as <-. reflexivity. }
  rewrite B. injection X as <-. cbn [fn_body].
  assert (P : forall e, (forall h, eval t names w (InMsg i) 0 h e s0 = Go (rust_value d c (f_typ f) v) s0) ->
    eval t names w (InMsg i) 0 None (self_field (f_name f) [method "as_ref" []; method "unwrap_or" [e]]) s0 =
    Go (rust_value d c (f_typ f) match sl with SlSome x => x | _ => v end) s0).
  { intros e He. rewrite F. destruct sl; try contradiction; cbn -[eval rust_value]; unfold seq, go; cbn -[eval rust_value]; rewrite He; reflexivity. }
  assert (Q : forall m e b, plain_method w m (XBytes b) = Some (XBytes b) -> mkind_of m = MOther ->
    (forall h, eval t names w (InMsg i) 0 h e s0 = Go (rust_value d c (f_typ f) v) s0) -> (forall x, sl = SlSome x -> rust_value d c (f_typ f) x = XBytes b) ->
    eval t names w (InMsg i) 0 None (self_field (f_name f) [method "as_ref" []; method "map" [closure [bind "s"] (REPost (var "s") [method m []])]; method "unwrap_or" [e]]) s0 =
    Go (rust_value d c (f_typ f) match sl with SlSome x => x | _ => v end) s0).
  { intros k e b Pm Mk He Hb. rewrite F. destruct sl as [| |y| | | | |]; try contradiction.
    - cbn -[eval rust_value]. unfold seq, go; cbn -[eval rust_value]; rewrite He; reflexivity.
    - change (rust_slot d c (TyOption (f_typ f)) (SlSome y)) with (XOpt (Some (rust_value d c (f_typ f) y))).
      rewrite (Hb _ eq_refl). cbn -[eval rust_value]. unfold seq, go, in_closure, with_args. cbn -[plain_method eval]. unfold scoped. cbn [s_env s_out s_src s_in].
      pose proof (yields_method t names w (InMsg i) 0 [("s", XBytes b); ("self", rust_struct d c i m ss)] (var "s") k (XBytes b) (XBytes b)) as Y.
      rewrite Y; auto; [|now apply yields_var]. cbn -[eval]. rewrite He. reflexivity. }
  unfold result.
  destruct (f_typ f) eqn:Tf; try contradiction; try (now destruct (Nj m0)); cbn [is_cow negb];
    try (match goal with |- result_of (eval _ _ _ _ _ ?h (REUn UDeref ?e) _) = _ => change (eval t names w (InMsg i) 0 h (REUn UDeref e) s0) with (eval t names w (InMsg i) 0 h e s0) end);
    try (rewrite (P (REUn URef (epath ["Self"; const_name f])) (fun h => Df h)), ?Tf; reflexivity).
  - change (result_of (eval t names w (InMsg i) 0 None (self_field (f_name f) [method "as_ref" [];
      method "map" [closure [bind "s"] (REPost (var "s") [method "as_str" []])]; method "unwrap_or" [epath ["Self"; const_name f]]]) s0) =
      Some (rust_value d c TString match sl with SlSome x => x | _ => v end)).
    destruct sl as [| |y| | | | |]; try contradiction; [rewrite (Q "as_str" _ [] eq_refl eq_refl Df ltac:(discriminate)), ?Tf; reflexivity|].
    destruct y as [z|z|z|z]; try contradiction; try (now cbn in O).
    rewrite (Q "as_str" _ z eq_refl eq_refl Df); [now rewrite ?Tf|]. intros ? Y. injection Y as <-. now rewrite ?Tf.
  - change (result_of (eval t names w (InMsg i) 0 None (self_field (f_name f) [method "as_ref" [];
      method "map" [closure [bind "s"] (REPost (var "s") [method "as_slice" []])]; method "unwrap_or" [epath ["Self"; const_name f]]]) s0) =
      Some (rust_value d c TBytes match sl with SlSome x => x | _ => v end)).
    destruct sl as [| |y| | | | |]; try contradiction; [rewrite (Q "as_slice" _ [] eq_refl eq_refl Df ltac:(discriminate)), ?Tf; reflexivity|].
    destruct y as [z|z|z|z]; try contradiction; try (now cbn in O).
    rewrite (Q "as_slice" _ z eq_refl eq_refl Df); [now rewrite ?Tf|]. intros ? Y. injection Y as <-. now rewrite ?Tf.
Qed.

(** *** PATH *)
Definition printed_char (a : ascii) : bool := (32 <=? code a) && (code a <? 127) && negb (code a =? 34) && negb (code a =? 92).
Lemma plain_chars : forall s, all_chars printed_char s = true -> rust_chars false (RustSem.quoted s) = Some (list_ascii_of_string s).
Proof.
  unfold RustSem.quoted. induction s as [|a s IH]; intros H; [reflexivity|]. cbn [all_chars] in H. apply andb_true_iff in H. destruct H as (A & H).
  unfold printed_char in A. rewrite !andb_true_iff, !negb_true_iff in A. destruct A as (((A1 & A2) & A3) & A4).
  cbn [append rust_chars list_ascii_of_string].
  replace (Ascii.eqb a quotation) with false by (symmetry; apply Ascii.eqb_neq; intros ->; discriminate A3).
  replace (Ascii.eqb a backslash) with false by (symmetry; apply Ascii.eqb_neq; intros ->; discriminate A4).
  replace (code a =? 13) with false by (symmetry; apply Z.eqb_neq; apply Z.leb_le in A1; lia).
  cbn [orb andb]. rewrite (IH H). reflexivity.
Qed.
Lemma plain_byte : forall a, printed_char a = true -> (bz (byte_of_ascii a) <? 128) = true.
Proof. intros [[] [] [] [] [] [] [] []] H; vm_compute in H |- *; congruence. Qed.
Lemma plain_utf8 : forall s, all_chars printed_char s = true -> utf8_valid (eight_bits (list_ascii_of_string s)) = true.
Proof.
  induction s as [|a s IH]; intros H; [reflexivity|]. cbn [all_chars] in H. apply andb_true_iff in H. destruct H as (A & H).
  cbn [list_ascii_of_string eight_bits map utf8_valid]. rewrite (plain_byte a A). exact (IH H).
Qed.
Lemma path_is : forall i m, get_message d i = Some m -> all_chars printed_char (m_module m ++ "." ++ m_name m)%string = true ->
  trait_const t names prog "MessageInfo" "PATH" i =
  if g_gen_info g then Some (XBytes (eight_bits (list_ascii_of_string (m_module m ++ "." ++ m_name m)%string))) else None.
Proof.
  intros i m G P. unfold trait_const. cbn [p_struct prog generated_program]. rewrite G, items_split, impl_app, impl_before.
  assert (D : forall l, the_impl "MessageInfo" false (only (message_must_generate_impl_default (d_syntax d) (g_passes g) m) [GenAst.message_default g d d0 m]
      ++ [message_read g d m; message_write_impl g d d0 m] ++ l) = the_impl "MessageInfo" false l).
  { intros l. unfold GenAst.message_default, message_read, message_write_impl. now destruct (message_must_generate_impl_default _ _ _), (is_unit m). }
  rewrite D. destruct (g_gen_info g) eqn:Gi; cbn [only app].
  - change (the_impl "MessageInfo" false (message_info g d m :: _)) with (Some [path_const m]). cbv iota.
    change (the_const "PATH" [path_const m]) with (Some (tstatic_str, str (m_module m ++ "." ++ m_name m)%string)). unfold constant. cbn [fst snd].
    set (s := (m_module m ++ "." ++ m_name m)%string) in *.
    change (eval t names (bare names prog) (InMsg i) 0 (type_of names (InMsg i) tstatic_str) (str s) (mkSt [] [] [] (mkR 0 0)))
      with (of_option (literal (type_of names (InMsg i) tstatic_str) (TStr s)) (mkSt [] [] [] (mkR 0 0))).
    unfold literal. rewrite (plain_chars s P), (plain_utf8 s P). reflexivity.
  - destruct (g_owned g); [|reflexivity]. cbn [only]. destruct (or_else _ _); [|reflexivity]. unfold owned_items. rewrite Gi. reflexivity.
Qed.
End Get.
