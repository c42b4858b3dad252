(** [get_size] of the generated trees *)
From Coq Require Import String Ascii Arith ZArith Lia Bool.
From Verif Require Import Base Reader PackedFixed Writer Sizeofs Spec Schema Keywords Modules Passes Gen GenSem GenSpec GenCheck.
From Verif Require Import RustTypes Emit Literals Output Paths GenText RustLex RustAst RustParse GenAst RustSem Meaning MeanFacts.
Import Schema StringSyntax.
Local Open Scope string_scope.
Local Open Scope list_scope.
Local Open Scope Z_scope.

(** ** How deep messages are nested in a value *)
Fixpoint value_depth (v : value) : nat :=
  match v with
  | VMsg ss => S (fold_right (fun s n => Nat.max (slot_depth s) n) O ss)
  | _ => O
  end
with slot_depth (s : slot) : nat :=
  match s with
  | SlOne v | SlSome v | SlOneof _ v => value_depth v
  | SlVec l => fold_right (fun v n => Nat.max (value_depth v) n) O l
  | SlMap l => fold_right (fun '(k, v) n => Nat.max (Nat.max (value_depth k) (value_depth v)) n) O l
  | _ => O
  end.
Definition slots_depth (ss : list slot) : nat := fold_right (fun s n => Nat.max (slot_depth s) n) O ss.

Lemma depth_in : forall l v n, In v l -> (fold_right (fun v n => Nat.max (value_depth v) n) O l <= n)%nat -> (value_depth v <= n)%nat.
Proof. induction l as [|x l IH]; intros v n I H; [contradiction|]. cbn in H. destruct I as [->|I]; [lia|]. apply IH; [exact I|lia]. Qed.
Lemma depth_in_map : forall l k v n, In (k, v) l ->
  (fold_right (fun '(k, v) n => Nat.max (Nat.max (value_depth k) (value_depth v)) n) O l <= n)%nat -> (value_depth k <= n)%nat /\ (value_depth v <= n)%nat.
Proof.
  induction l as [|(a, b) l IH]; intros k v n I H; [contradiction|]. cbn [fold_right] in H. destruct I as [E|I]; [injection E as -> ->; lia|]. apply IH; [exact I|lia].
Qed.

Section Ev.
Variables (t : target) (names : scope -> list text -> option rtype) (w : world) (here : scope) (fuel : nat).
Notation ev := (eval t names w here fuel).
Notation yields := (yields t names w here fuel).

Lemma block_result : forall h e s, block w ev h [result e] s = ev h e s.
Proof. reflexivity. Qed.
Lemma yields_if : forall env a (x : bool) b1 b2 v, yields env a (XBool x) -> yields env (if x then b1 else b2) v ->
  yields env (REIf a [result b1] (Some [result b2])) v.
Proof.
  intros env a x b1 b2 v A B s Q.
  change (ev None (REIf a [result b1] (Some [result b2])) s) with
    (seq (seq (ev None a) the_bool) (fun x : bool => if x then ev None b1 else ev None b2) s).
  unfold seq. rewrite (A s Q). cbn [the_bool]. unfold go. destruct x; exact (B s Q).
Qed.
Lemma each_pure : forall {A B} (f : A -> st -> res B) (g : A -> B) l s, (forall x, In x l -> f x s = Go (g x) s) -> each f l s = Go (map g l) s.
Proof.
  intros A B f g l s. induction l as [|x l IH]; intros H; [reflexivity|]. cbn [each map]. unfold seq. rewrite (H x) by now left.
  rewrite IH by (intros y Y; apply H; now right). reflexivity.
Qed.
Lemma each_map : forall {A B C} (f : B -> st -> res C) (h : A -> B) l, each f (map h l) = each (fun x => f (h x)) l.
Proof. intros A B C f h l. induction l as [|x l IH]; [reflexivity|]. cbn. now rewrite IH. Qed.
Lemma ints_map : forall {A} (F : A -> Z) l, ints (map (fun v => XInt (F v)) l) = Some (map F l).
Proof. intros A F l. induction l as [|x l IH]; [reflexivity|]. cbn. now rewrite IH. Qed.
Lemma yields_iter_sum : forall {A} env x i fs f xv (h : A -> rv) vs ps b (F : A -> Z),
  assoc x env = Some (XStruct i fs) -> assoc f fs = Some xv -> elements xv = Some (map h vs) ->
  (forall v, In v vs -> exists bs, pats matches ps [h v] = Some bs /\ yields (bs ++ env) b (XInt (F v))) ->
  yields env (REPost (var x) [OField f; method "iter" []; method "map" [closure ps b]; sum_usize]) (XInt (fold_right Z.add 0 (map F vs))).
Proof.
  intros A env x i fs f xv h vs ps b F Hx Hf E H s Q. rewrite <- Q in Hx. rewrite (ev_field t names w here fuel None x i fs f xv s Hx Hf).
  unfold method. rewrite operate_method. unfold seq at 1. rewrite call_plain by reflexivity. change (plain_method w "iter" xv) with (option_map XList (elements xv)).
  rewrite E. cbn [option_map of_option go]. rewrite operate_method. unfold seq at 1. unfold call_method at 1. change (mkind_of "map") with MMap. cbv iota.
  unfold seq at 1. unfold closure. rewrite each_map, (each_pure _ (fun v => XInt (F v))).
  - cbn [go]. unfold sum_usize. rewrite operate_method. unfold seq. rewrite call_plain by reflexivity.
    change (plain_method w "sum" (XList (map (fun v => XInt (F v)) vs))) with
      (option_map (fun s => XInt (fold_right Z.add 0 s)) (ints (map (fun v => XInt (F v)) vs))). rewrite ints_map. reflexivity.
  - intros v V. destruct (H v V) as (bs & P & Y). exact (closure_pure t names w here fuel ps _ bs env b _ P Y s Q).
Qed.
Lemma yields_map_or : forall env x i fs f o a va p b vb,
  assoc x env = Some (XStruct i fs) -> assoc f fs = Some (XOpt o) -> yields env a va ->
  (forall y, o = Some y -> exists bs, pats matches [p] [y] = Some bs /\ yields (bs ++ env) b vb) -> (o = None -> vb = va) ->
  yields env (REPost (var x) [OField f; method "as_ref" []; method "map_or" [a; closure [p] b]]) vb.
Proof.
  intros env x i fs f o a va p b vb Hx Hf A B N s Q. rewrite <- Q in Hx. rewrite (ev_field t names w here fuel None x i fs f _ s Hx Hf).
  unfold method. rewrite operate_method. unfold seq at 1. rewrite call_plain by reflexivity. change (plain_method w "as_ref" (XOpt o)) with (Some (XOpt o)).
  cbn [of_option go]. rewrite operate_method. unfold seq at 1. unfold call_method. change (mkind_of "map_or") with MMapOr. unfold closure. cbv iota.
  unfold seq at 1. rewrite (A s Q). destruct o as [y|].
  - destruct (B y eq_refl) as (bs & P & Y). rewrite (closure_pure t names w here fuel _ _ bs env b _ P Y s Q). reflexivity.
  - rewrite (N eq_refl). reflexivity.
Qed.
Lemma yields_field : forall env x i fs f v, assoc x env = Some (XStruct i fs) -> assoc f fs = Some v -> yields env (REPost (var x) [OField f]) v.
Proof. intros env x i fs f v A B. exact (sh_here _ _ _ _ _ _ _ _ (shows_field t names w here fuel env x i fs f v A B)). Qed.
Lemma yields_field_method : forall env x i fs f v m y, assoc x env = Some (XStruct i fs) -> assoc f fs = Some v ->
  mkind_of m = MOther -> plain_method w m v = Some y -> yields env (REPost (var x) [OField f; method m []]) y.
Proof.
  intros env x i fs f v m y A B K P. apply (yields_method_after t names w here fuel env (var x) [OField f] m v); [|exact K|exact P].
  intros s <-. exists (Some (x, Some f)). cbn [app]. now rewrite (ev_field t names w here fuel None x i fs f v s A B).
Qed.
Lemma yields_lit : forall env n z, rust_number n = Some (NInt z "") -> yields env (RELit (TNum n)) (XInt z).
Proof.
  intros env n z N s Q. change (ev None (RELit (TNum n)) s) with (@of_option rv (literal None (TNum n)) s). unfold literal. now rewrite N.
Qed.
End Ev.

Section Program.
Variable g : gen_config.
Variables d d0 : file_descriptor.
Variable t : target.
Variable names : scope -> list text -> option rtype.
Variable lit : field_type -> text -> option value.
Let c : config := g_passes g.
Hypothesis Names : names_ok d d0 names.
Hypothesis Plain : plain_names g d.
Hypothesis Schema : schema_wf d c lit.
Hypothesis Consts : constants_ok g d d0 t names lit.
Hypothesis Derive : default_kept g d.
Hypothesis Typed : forall ty s v, lit ty s = Some v -> val_ok d c ty v.
Let prog := generated_program g d d0.
Notation emb := (rust_value d c).

(** values of the same type can be compared *)
Definition shaped (ty : field_type) (v : value) : Prop :=
  match ty, v with
  | TBool, VBool _ => True
  | (TStringCow | TBytesCow | TString | TBytes), VB _ => True
  | (TMap _ _ | TMessageOrEnum _ | TMessage _ | TBool | TStringCow | TBytesCow | TString | TBytes), _ => False
  | _, VZ _ => True
  | _, _ => False
  end.
Lemma shaped_ok : forall ty v, val_ok d c ty v -> (forall j, ty <> TMessage j) -> shaped ty v.
Proof.
  intros ty v V N. destruct ty; try (exfalso; now apply (N m)); destruct v as [x|x|x|x]; cbn [val_ok] in V; try contradiction; try discriminate; exact I.
Qed.
Lemma equal_values : forall ty x y, shaped ty x -> shaped ty y -> equal (emb ty x) (emb ty y) = Some (rust_eq ty x y).
Proof.
  intros ty x y X Y. destruct ty; try contradiction; destruct x as [x|x|x|x]; try contradiction; destruct y as [y|y|y|y]; try contradiction; reflexivity.
Qed.

Section Message.
Variables (i : midx) (m : message).
Hypothesis G : get_message d i = Some m.
Variables (w : world) (fuel depth : nat).
Hypothesis WN : w_numbers w = numbers_of prog.
Hypothesis WV : w_variants w = variants_of names prog.
Hypothesis WD : forall j x ss, get_message d j = Some x -> GenSem.message_default d c lit j = Some ss -> w_default w (YMsg j) = Some (rust_struct d c j x ss).
Hypothesis WS : forall j ss, message_ok d c j ss -> (value_depth (VMsg ss) <= depth)%nat ->
  w_size w j (emb (TMessage j) (VMsg ss)) = Some (message_size d c lit j ss).
Notation ev := (eval t names w (InMsg i) fuel).
Notation yields := (yields t names w (InMsg i) fuel).
Notation adds := (adds t names w (InMsg i) fuel).

Lemma sized_value : forall ty v, val_ok d c ty v -> (value_depth v <= depth)%nat -> sized d c lit w ty v.
Proof. intros ty v V D j ss -> ->. apply WS; [exact V|exact D]. Qed.

Section Field.
Variables (env fs : list (text * rv)).
Hypothesis Self : assoc "self" env = Some (XStruct i fs).
Hypothesis NoNone : assoc "None" env = None.

Lemma vals_ok_in : forall ty l v, In v l -> fold_right (fun v acc => val_ok d c ty v /\ acc) True l -> val_ok d c ty v.
Proof. induction l as [|x l IH]; intros v I H; [contradiction|]. destruct H as (A & B). destruct I as [->|I]; [exact A|now apply IH]. Qed.
Lemma map_ok_in : forall tk tv l k v, In (k, v) l -> fold_right (fun '(k, v) acc => (val_ok d c tk k /\ val_ok d c tv v) /\ acc) True l ->
  val_ok d c tk k /\ val_ok d c tv v.
Proof. induction l as [|(a, b) l IH]; intros k v I H; [contradiction|]. destruct H as (A & B). destruct I as [E|I]; [injection E as -> ->; exact A|now apply IH]. Qed.
Lemma typ_not_map : forall ty, typ_ok d ty -> match ty with TMap _ _ => False | _ => True end.
Proof. intros ty H. destruct ty; exact I || contradiction. Qed.
Lemma tag_yields : forall env f, yields env (tag_size f) (XInt (gen_sizeof_varint (field_tag f))).
Proof. intros e f. apply yields_num. apply size_nonneg. Qed.
Lemma deref_binds : forall ty x v, matches (deref_pat ty x) v = Some [(x, v)].
Proof. intros ty x v. unfold deref_pat. now destruct (need_to_dereference ty). Qed.

Lemma default_value : forall f dv s, In f (visible_fields c m) -> generated_type_of (f_freq f) = SingularType -> freq_is_optional (f_freq f) = false ->
  (forall j, f_typ f <> TMessage j) ->
  dexpr_value d c lit (get_field_default c f) = Some dv -> s_env s = env ->
  shaped (f_typ f) dv /\ forall x, shaped (f_typ f) x -> ev (type_hint (emb (f_typ f) x)) (default_exp g d d0 f) s = Go (emb (f_typ f) dv) s.
Proof.
  intros f dv s I GT O NM D Q. pose proof (field_facts g d lit Schema i m f G I) as (F1 & F2 & F3 & F4).
  unfold dexpr_value in D. destruct (dexpr_slot d lit (GenSem.message_default d c lit) (get_field_default c f)) as [sl|] eqn:S; [|discriminate].
  destruct sl as [v| | | | | | |]; try discriminate. injection D as ->.
  assert (B : f_boxed f = false) by (destruct (f_boxed f); [exfalso; specialize (F1 eq_refl); congruence|reflexivity]).
  assert (T : get_type c f = TyPlain (f_typ f)) by (unfold get_type; now rewrite B, GT, O).
  split.
  - unfold get_field_default in S. rewrite B, GT, O in S. destruct (f_default f) as [x|] eqn:Df.
    + cbn [dexpr_slot] in S. destruct (lit (f_typ f) x) as [y|] eqn:L; [|discriminate]. injection S as ->. apply shaped_ok; [exact (Typed _ _ _ L)|exact NM].
    + assert (Ty : typ_ok d (f_typ f)).
      { unfold generated_type_of in GT. destruct (freq_is_map (f_freq f)); [discriminate|exact F2]. }
      destruct (f_typ f); try contradiction; try (exfalso; now apply (NM m0)); cbn in S; injection S as <-; exact Logic.I.
  - intros x X. rewrite (default_slot g d d0 t names lit Names Schema Consts i m G w fuel (GenSem.message_default d c lit) WN WV WD f (SlOne dv)); auto.
    + fold c. rewrite T. reflexivity.
    + now rewrite Q.
    + intros y E. unfold field_rtype. rewrite B, GT, O. destruct (f_typ f); try contradiction; destruct x; try contradiction; cbn in E; try discriminate; now injection E.
    + rewrite GT. discriminate.
Qed.
Lemma field_adds : forall f sl, In f (visible_fields c m) -> slot_ok d c (get_type c f) sl -> (slot_depth sl <= depth)%nat ->
  assoc (f_name f) fs = Some (rust_slot d c (get_type c f) sl) ->
  adds env (field_size_terms g d d0 f) (slot_size d c lit (field_size c f) sl).
Proof.
  intros f sl I V D F. pose proof (field_facts g d lit Schema i m f G I) as (F1 & F2 & F3 & F4).
  assert (Vis : hidden g f = false).
  { rewrite visible_shown. fold c. apply filter_In in I. destruct I as (_ & ->). reflexivity. }
  unfold field_size_terms. rewrite Vis. unfold get_type, field_size in *. unfold self_field.
  destruct (generated_type_of (f_freq f)) eqn:GT.
  - assert (Ty : typ_ok d (f_typ f)).
    { unfold generated_type_of in GT. destruct (freq_is_map (f_freq f)); [discriminate|exact F2]. }
    destruct (freq_is_optional (f_freq f)) eqn:O.
    + assert (P : has_presence f = true).
      { unfold has_presence. destruct (f_freq f); try discriminate O; destruct (f_typ f); try reflexivity; contradiction. }
      rewrite P. apply adds_one.
      assert (S : exists o, rust_slot d c (if f_boxed f then TyOptionBox (f_typ f) else TyOption (f_typ f)) sl = XOpt (option_map (emb (f_typ f)) o) /\
        slot_size d c lit (ZsOption (gen_sizeof_varint (field_tag f)) (size_fn (f_typ f))) sl =
          match o with Some v => gen_sizeof_varint (field_tag f) + value_size d c lit (size_fn (f_typ f)) v | None => 0 end /\
        match o with Some v => val_ok d c (f_typ f) v /\ (value_depth v <= depth)%nat | None => True end).
      { destruct (f_boxed f); destruct sl; try contradiction; cbn [slot_ok] in V; [exists None|exists (Some v)|exists None|exists (Some v)]; auto. }
      destruct S as (o & S1 & S2 & S3). rewrite S1 in F. rewrite S2. unfold method, closure.
      eapply yields_map_or with (o := option_map (emb (f_typ f)) o) (va := XInt 0); [exact Self|exact F|apply yields_zero| |].
      * intros y E. destruct o as [v|]; [|discriminate]. injection E as <-. destruct S3 as (S3 & S4). exists [("m", emb (f_typ f) v)]. split.
        { unfold option_pat. now destruct (f_boxed f || negb (is_primitive (f_typ f)))%bool. }
        apply yields_sum. unfold size_addition_terms. constructor; [apply tag_yields|]. apply size_value; [now apply typ_not_map|exact S3|now apply sized_value|].
        now apply shows_var.
      * intros E. destruct o; [discriminate|reflexivity].
    + assert (B : f_boxed f = false) by (destruct (f_boxed f); [exfalso; specialize (F1 eq_refl); congruence|reflexivity]).
      rewrite B in V, F. destruct sl as [v| | | | | | |]; try contradiction. change (val_ok d c (f_typ f) v) in V. change (assoc (f_name f) fs = Some (emb (f_typ f) v)) in F.
      assert (A : adds env (size_addition_terms f (REPost (var "self") [OField (f_name f)])) (gen_sizeof_varint (field_tag f) + value_size d c lit (size_fn (f_typ f)) v)).
      { unfold size_addition_terms. constructor; [apply tag_yields|]. apply size_value; [now apply typ_not_map|exact V|now apply sized_value|].
        eapply shows_field; [exact Self|exact F]. }
      destruct (has_presence f) eqn:P; [exact A|]. cbn [slot_size].
      assert (NM : forall j, f_typ f <> TMessage j).
      { intros j E. unfold has_presence in P. unfold generated_type_of in GT. rewrite E in P. destruct (f_freq f); discriminate. }
      apply adds_one.
      assert (Dv : exists dv, dexpr_value d c lit (get_field_default c f) = Some dv).
      { unfold dexpr_value, get_field_default. rewrite B, GT, O. destruct (f_default f) as [x|] eqn:Df.
        - cbn [dexpr_slot]. destruct (F4 x eq_refl) as (y & ->). now exists y.
        - destruct (f_typ f); try contradiction; try (exfalso; now apply (NM m0)); cbn; eexists; reflexivity. }
      destruct Dv as (dv & Dv). rewrite Dv.
      apply yields_if with (x := rust_eq (f_typ f) v dv).
      * intros s Q. pose proof (default_value f dv s I GT O NM Dv Q) as (D1 & D2).
        change (ev None (RECmp true (REPost (var "self") [OField (f_name f)]) (default_exp g d d0 f)) s) with
          (seq (ev None (REPost (var "self") [OField (f_name f)])) (fun x => seq (ev (type_hint x) (default_exp g d d0 f)) (fun y => seq (of_option (equal x y)) (fun r => go (XBool (Bool.eqb r true))))) s).
        unfold seq. rewrite (yields_field t names w (InMsg i) fuel env "self" i fs (f_name f) _ Self F s Q). cbv beta iota.
        rewrite (D2 v (shaped_ok _ _ V NM)). cbv beta iota.
        rewrite (equal_values _ _ _ (shaped_ok _ _ V NM) D1). cbn [of_option go]. unfold go. now destruct (rust_eq (f_typ f) v dv).
      * destruct (rust_eq (f_typ f) v dv); [apply yields_zero|]. apply yields_sum. exact A.
  - assert (Fr : freq_is_map (f_freq f) = false /\ freq_is_repeated (f_freq f) = true).
    { unfold generated_type_of in GT. destruct (freq_is_map (f_freq f)); [discriminate|]. now destruct (freq_is_repeated (f_freq f)). }
    destruct Fr as (Fr1 & Fr2). rewrite Fr1 in F2.
    assert (B : f_boxed f = false).
    { destruct (f_boxed f); [|reflexivity]. specialize (F1 eq_refl). destruct (f_freq f); discriminate. }
    rewrite B in V, F. destruct (f_is_packed f) eqn:P.
    + apply adds_one.
      assert (W : is_fixed_size (f_typ f) = true /\ (exists n, (wire_type_num_non_packed (f_typ f) = 1 /\ n = 8 \/ wire_type_num_non_packed (f_typ f) = 5 /\ n = 4)) \/
                  is_fixed_size (f_typ f) = false /\ wire_type_num_non_packed (f_typ f) <> 1 /\ wire_type_num_non_packed (f_typ f) <> 5).
      { destruct (f_typ f); try contradiction; cbn; first [right; repeat split; discriminate | left; split; [reflexivity|eexists; first [left; split; reflexivity|right; split; reflexivity]]]. }
      destruct W as [(Fx & n & W)|(Fx & W1 & W2)].
      * rewrite Fr2, Fx in F3. specialize (F3 eq_refl). fold c in F3. rewrite Fx, F3 in V, F. cbn [andb negb] in V, F.
        destruct sl as [| | | |p| | |]; try contradiction. cbn [rust_slot] in F.
        replace (match wire_type_num_non_packed (f_typ f) with 1 => ZsPackedFixed (gen_sizeof_varint (field_tag f)) (fixed_kind_of (f_typ f)) 8
          | 5 => ZsPackedFixed (gen_sizeof_varint (field_tag f)) (fixed_kind_of (f_typ f)) 4 | _ => ZsPacked (gen_sizeof_varint (field_tag f)) (size_fn (f_typ f)) end)
          with (ZsPackedFixed (gen_sizeof_varint (field_tag f)) (fixed_kind_of (f_typ f)) n) by (destruct W as [(-> & ->)|(-> & ->)]; reflexivity).
        cbn [slot_size]. apply yields_if with (x := pf_is_empty p).
        { eapply yields_field_method; [exact Self|exact F|reflexivity|reflexivity]. }
        destruct (pf_is_empty p); [apply yields_zero|]. apply yields_resum. constructor; [apply tag_yields|]. apply adds_one.
        eapply yields_sizeof with (x := XInt (pf_len (fixed_kind_of (f_typ f)) p * n)); [reflexivity| |reflexivity].
        destruct W as [(-> & ->)|(-> & ->)]; (apply yields_mul; [eapply yields_field_method; [exact Self|exact F|reflexivity|reflexivity]|apply yields_lit; reflexivity]).
      * rewrite Fx in V, F. cbn [andb] in V, F. destruct sl as [| | |l| | | |]; try contradiction. change (assoc (f_name f) fs = Some (XList (map (emb (f_typ f)) l))) in F.
        replace (match wire_type_num_non_packed (f_typ f) with 1 => ZsPackedFixed (gen_sizeof_varint (field_tag f)) (fixed_kind_of (f_typ f)) 8
          | 5 => ZsPackedFixed (gen_sizeof_varint (field_tag f)) (fixed_kind_of (f_typ f)) 4 | _ => ZsPacked (gen_sizeof_varint (field_tag f)) (size_fn (f_typ f)) end)
          with (ZsPacked (gen_sizeof_varint (field_tag f)) (size_fn (f_typ f)))
          by (destruct (f_typ f); try contradiction; cbn in W1, W2 |- *; congruence).
        change (slot_size d c lit (ZsPacked (gen_sizeof_varint (field_tag f)) (size_fn (f_typ f))) (SlVec l)) with
          (match l with [] => 0 | _ => gen_sizeof_varint (field_tag f) + sizeof_len (sum_sizes (value_size d c lit (size_fn (f_typ f))) l) end).
        assert (X : yields env (REPost (var "self") [OField (f_name f); method "iter" []; method "map" [closure [RPRef (bind "s")] (sum_of (size_terms (f_typ f) (var "s")))]; sum_usize])
          (XInt (fold_right Z.add 0 (map (value_size d c lit (size_fn (f_typ f))) l)))).
        { eapply yields_iter_sum with (h := emb (f_typ f)); [exact Self|exact F|reflexivity|]. intros v J. exists [("s", emb (f_typ f) v)]. split; [reflexivity|].
          apply yields_sum. pose proof (vals_ok_in _ _ _ J V) as Vv. apply size_value; [now apply typ_not_map|exact Vv| |now apply shows_var].
          apply sized_value; [exact Vv|]. exact (depth_in _ _ _ J D). }
        apply yields_if with (x := match map (emb (f_typ f)) l with [] => true | _ => false end).
        { eapply yields_field_method; [exact Self|exact F|reflexivity|reflexivity]. }
        destruct l as [|v l]; [apply yields_zero|]. cbn [map]. apply yields_resum. constructor; [apply tag_yields|]. apply adds_one.
        replace (sum_sizes (value_size d c lit (size_fn (f_typ f))) (v :: l)) with (fold_right Z.add 0 (map (value_size d c lit (size_fn (f_typ f))) (v :: l)))
          by (unfold sum_sizes; generalize (v :: l); induction l0 as [|a l0 IH]; [reflexivity|cbn; now rewrite IH]).
        eapply yields_sizeof with (x := XInt (fold_right Z.add 0 (map (value_size d c lit (size_fn (f_typ f))) (v :: l)))); [reflexivity| |reflexivity].
        destruct (f_typ f); try contradiction; try exact X; cbn in W1, W2; congruence.
    + cbn [andb] in V, F. destruct sl as [| | |l| | | |]; try contradiction. change (assoc (f_name f) fs = Some (XList (map (emb (f_typ f)) l))) in F. apply adds_one.
      assert (Ln : yields env (REPost (var "self") [OField (f_name f); method "len" []]) (XInt (zlen (map (emb (f_typ f)) l)))).
      { eapply yields_field_method; [exact Self|exact F|reflexivity|reflexivity]. }
      assert (X : yields env (REPost (var "self") [OField (f_name f); method "iter" []; method "map" [closure [deref_pat (f_typ f) "s"] (sum_of (tag_size f :: size_terms (f_typ f) (var "s")))]; sum_usize])
          (XInt (sum_sizes (fun v => gen_sizeof_varint (field_tag f) + value_size d c lit (size_fn (f_typ f)) v) l))).
      { replace (sum_sizes (fun v => gen_sizeof_varint (field_tag f) + value_size d c lit (size_fn (f_typ f)) v) l) with
          (fold_right Z.add 0 (map (fun v => gen_sizeof_varint (field_tag f) + value_size d c lit (size_fn (f_typ f)) v) l))
          by (unfold sum_sizes; clear; induction l as [|a l IH]; [reflexivity|cbn; now rewrite IH]).
        eapply yields_iter_sum with (h := emb (f_typ f)); [exact Self|exact F|reflexivity|]. intros v J. exists [("s", emb (f_typ f) v)]. split.
        { cbn [pats]. rewrite deref_binds. reflexivity. }
        apply yields_sum. constructor; [apply tag_yields|]. pose proof (vals_ok_in _ _ _ J V) as Vv. apply size_value; [now apply typ_not_map|exact Vv| |now apply shows_var].
        apply sized_value; [exact Vv|]. exact (depth_in _ _ _ J D). }
      assert (Y : forall n k, rust_number n = Some (NInt k "") ->
        yields env (REMul (REParen (RESum (tag_size f) [RELit (TNum n)])) (REPost (var "self") [OField (f_name f); method "len" []])) (XInt ((gen_sizeof_varint (field_tag f) + k) * zlen l))).
      { intros n k N. replace (zlen l) with (zlen (map (emb (f_typ f)) l)) by (unfold zlen; now rewrite map_length).
        apply yields_mul; [|exact Ln]. apply yields_paren, yields_resum. constructor; [apply tag_yields|]. apply adds_one. now apply yields_lit. }
      destruct (f_typ f); try contradiction; cbn [wire_type_num_non_packed slot_size]; first [exact X|apply Y; reflexivity].
  - unfold generated_type_of in GT. destruct (freq_is_map (f_freq f)) eqn:Fm; [|destruct (freq_is_repeated (f_freq f)); discriminate].
    destruct (f_typ f) as [| | | | | | | | | | | | | | | | | | | |tk tv] eqn:Ty; try contradiction.
    assert (B : f_boxed f = false).
    { destruct (f_boxed f); [|reflexivity]. specialize (F1 eq_refl). destruct (f_freq f); discriminate. }
    rewrite B in V, F. destruct sl as [| | | | |l| |]; try contradiction.
    change (assoc (f_name f) fs = Some (XMap (map (fun '(k, v) => (emb tk k, emb tv v)) l))) in F. cbn [slot_ok] in V. destruct F2 as (K & T). destruct V as (V & _).
    assert (K' : typ_ok d tk) by (destruct tk; try contradiction; exact Logic.I).
    apply adds_one.
    change (slot_size d c lit (ZsMap (gen_sizeof_varint (field_tag f)) (map_entry_of tk tv)) (SlMap l)) with
      (fold_right (fun '(k, v) acc => (gen_sizeof_varint (field_tag f) + sizeof_len (2 + value_size d c lit (size_fn tk) k + value_size d c lit (size_fn tv) v)) + acc) 0 l).
    replace (fold_right _ 0 l) with (fold_right Z.add 0 (map (fun '(k, v) => gen_sizeof_varint (field_tag f) + sizeof_len (2 + value_size d c lit (size_fn tk) k + value_size d c lit (size_fn tv) v)) l))
      by (generalize l; clear; induction l as [|(a, b) l IH]; [reflexivity|cbn [map fold_right]; now rewrite IH]).
    eapply yields_iter_sum with (h := fun '(k, v) => XTuple [emb tk k; emb tv v]); [exact Self|exact F| |].
    + cbn [elements]. rewrite map_map. f_equal. apply map_ext. now intros (k, v).
    + intros (k, v) J. destruct (map_ok_in _ _ _ _ _ J V) as (Vk & Vv). destruct (depth_in_map _ _ _ _ J D) as (Dk & Dv).
      exists [("k", emb tk k); ("v", emb tv v)]. split.
      * cbn [pats matches]. rewrite !deref_binds. reflexivity.
      * apply yields_resum. constructor; [apply tag_yields|]. apply adds_one.
        eapply yields_sizeof with (x := XInt (2 + value_size d c lit (size_fn tk) k + value_size d c lit (size_fn tv) v)); [reflexivity| |reflexivity].
        apply yields_sum. cbn [size_terms]. rewrite <- Z.add_assoc. constructor; [apply yields_lit; reflexivity|].
        apply adds_app; (apply size_value; [now apply typ_not_map|assumption|now apply sized_value|now apply shows_var]).
Qed.
(** a match on a oneof *)
Lemma arms_miss : forall h x l1 l2, Forall (fun a => match a with RArm p _ _ => matches p x = None end) l1 ->
  arms_of ev h x (l1 ++ l2) = arms_of ev h x l2.
Proof. intros h x l1 l2 H. induction H as [|(p, e, b) l A H IH]; [reflexivity|]. cbn [app arms_of]. now rewrite A. Qed.
Lemma arms_hit : forall h x p e b l bs s, matches p x = Some bs -> arms_of ev h x (RArm p e b :: l) s = scoped bs (ev h e) s.
Proof. intros h x p e b l bs s H. cbn [arms_of]. now rewrite H. Qed.
Lemma variant_pattern : forall o f p n x, matches (oneof_pattern d o f p) (XVariant n (Some x)) = if String.eqb (f_name f) n then match matches p x with Some a => Some (a ++ []) | None => None end else None.
Proof. intros o f p n x. cbn [matches oneof_pattern]. rewrite last_snoc. reflexivity. Qed.
Lemma variant_none : forall o f p, matches (oneof_pattern d o f p) (XVariant "None" None) = None.
Proof. reflexivity. Qed.
Lemma none_pattern : forall o, matches (oneof_none d o) (XVariant "None" None) = Some [].
Proof. intros o. cbn [matches oneof_none]. now rewrite last_snoc. Qed.
(** the arm of a variant is found *)
Lemma arm_of_variant : forall h o (arm : field -> rarm) n f x rest s, In o (m_oneofs m) -> nth_error (oneof_variants c o) n = Some f ->
  (forall f', exists p e b, arm f' = RArm (oneof_pattern d o f' p) e b) ->
  arms_of ev h (XVariant (f_name f) (Some x)) (map arm (oneof_variants c o) ++ rest) s =
  match arm f with RArm p e b => match matches p (XVariant (f_name f) (Some x)) with Some bs => scoped bs (ev h e) s
                                 | None => arms_of ev h (XVariant (f_name f) (Some x)) (map arm (skipn (S n) (oneof_variants c o)) ++ rest) s end end.
Proof.
  intros h o arm n f x rest s I N A. pose proof (pn_variants _ _ Plain i m o G I) as ND. fold c in ND. inversion ND as [|? ? _ ND2]; subst. clear ND.
  revert n N. induction (oneof_variants c o) as [|f0 l IH]; intros n N; [now destruct n|].
  cbn [map] in ND2. inversion ND2 as [|? ? N1 N2]; subst. cbn [map app arms_of]. destruct (A f0) as (p0 & e0 & b0 & E0). destruct n as [|n].
  - cbn in N. injection N as ->. rewrite E0. cbn [skipn]. now destruct (matches _ _).
  - cbn in N. rewrite E0, variant_pattern. destruct (String.eqb_spec (f_name f0) (f_name f)) as [E|_].
    + exfalso. apply N1. rewrite E. apply in_map. eapply nth_error_In; exact N.
    + exact (IH N2 n N).
Qed.
Lemma oneof_adds : forall o sl, In o (m_oneofs m) -> slot_ok d c (TyOneof (oneof_variants c o)) sl -> (slot_depth sl <= depth)%nat ->
  assoc (o_name o) fs = Some (rust_slot d c (TyOneof (oneof_variants c o)) sl) ->
  yields env (GenAst.oneof_size g d o) (XInt (slot_size d c lit (Gen.oneof_size c o) sl)).
Proof.
  intros o sl I V D F s Q. unfold GenAst.oneof_size. set (arms := map _ _ ++ _).
  change (ev None (REMatch (REUn URef (self_field (o_name o) [])) arms) s) with (seq (ev None (REPost (var "self") [OField (o_name o)])) (fun x => arms_of ev None x arms) s).
  unfold seq. rewrite (yields_field t names w (InMsg i) fuel env "self" i fs (o_name o) _ Self F s Q). unfold arms. rewrite shown_variants. fold c.
  destruct sl as [| | | | | | |n v]; try contradiction.
  - change (rust_slot d c (TyOneof (oneof_variants c o)) SlOneofNone) with (XVariant "None" None). rewrite arms_miss.
    + rewrite (arms_hit _ _ _ _ _ _ [] s (none_pattern o)). unfold scoped. cbn [app length skipn].
      rewrite (yields_zero t names w (InMsg i) fuel env); [|exact Q]. now destruct s.
    + apply Forall_forall. intros a J. apply in_map_iff in J. destruct J as (f & <- & _). destruct (is_fixed_size (f_typ f)), (need_to_dereference (f_typ f)); reflexivity.
  - cbn [slot_ok] in V. destruct (nth_error (oneof_variants c o) n) as [f|] eqn:N; [|contradiction].
    assert (E1 : rust_slot d c (TyOneof (oneof_variants c o)) (SlOneof n v) = XVariant (f_name f) (Some (emb (f_typ f) v))).
    { change (rust_slot d c (TyOneof (oneof_variants c o)) (SlOneof n v)) with
        (match nth_error (oneof_variants c o) n with Some f => XVariant (f_name f) (Some (emb (f_typ f) v)) | None => XUnit end). now rewrite N. }
    assert (E2 : slot_size d c lit (Gen.oneof_size c o) (SlOneof n v) = gen_sizeof_varint (field_tag f) + value_size d c lit (size_fn (f_typ f)) v).
    { unfold Gen.oneof_size. change (slot_size d c lit (ZsOneof ?l) (SlOneof n v)) with (match nth_error l n with Some (ts, e) => ts + value_size d c lit e v | None => 0 end).
      rewrite nth_error_map, N. reflexivity. }
    rewrite E1, E2. rewrite (arm_of_variant None o _ n f); [|exact I|exact N|].
    2:{ intros f'. destruct (is_fixed_size (f_typ f')); [|destruct (need_to_dereference (f_typ f'))]; repeat eexists. }
    assert (T : typ_ok d (f_typ f)) by (apply (variant_facts g d lit Schema i m o f G I); eapply nth_error_In; exact N).
    assert (Z : is_fixed_size (f_typ f) = true -> adds env (size_terms (f_typ f) zero) (value_size d c lit (size_fn (f_typ f)) v)).
    { intros Fx. destruct (f_typ f); try discriminate Fx; destruct v; try contradiction; apply adds_one, yields_lit; reflexivity. }
    assert (Y : forall e, yields (("m", emb (f_typ f) v) :: env) e (XInt (gen_sizeof_varint (field_tag f) + value_size d c lit (size_fn (f_typ f)) v)) ->
      scoped [("m", emb (f_typ f) v)] (ev None e) s = Go (XInt (gen_sizeof_varint (field_tag f) + value_size d c lit (size_fn (f_typ f)) v)) s).
    { intros e H. unfold scoped. rewrite H; [|cbn; now rewrite Q]. cbn. now destruct s. }
    destruct (is_fixed_size (f_typ f)) eqn:Fx; [|destruct (need_to_dereference (f_typ f)) eqn:Nd]; rewrite variant_pattern, String.eqb_refl; cbn [matches bind app].
    + unfold scoped. cbn [app length skipn]. assert (X := yields_sum t names w (InMsg i) fuel env (tag_size f :: size_terms (f_typ f) zero) _ (adds_cons _ _ _ _ _ _ _ _ _ _ (tag_yields env f) (Z eq_refl))).
      rewrite X; [|exact Q]. now destruct s.
    + apply Y. apply yields_sum. constructor; [apply tag_yields|]. apply size_value; [now apply typ_not_map|exact V|now apply sized_value|].
      apply shows_same; [intros b E; destruct (f_typ f); try discriminate Nd; destruct v; try contradiction; discriminate E|].
      apply yields_same; [reflexivity|]. now apply yields_var.
    + apply Y. apply yields_sum. constructor; [apply tag_yields|]. apply size_value; [now apply typ_not_map|exact V|now apply sized_value|now apply shows_var].
Qed.
Lemma shown_terms : flat_map (field_size_terms g d d0) (m_fields m) = flat_map (field_size_terms g d d0) (visible_fields c m).
Proof.
  unfold visible_fields. induction (m_fields m) as [|f l IH]; [reflexivity|]. cbn [flat_map filter]. rewrite IH. destruct (visible c f) eqn:Vf; [reflexivity|].
  assert (Hf : hidden g f = true) by (rewrite visible_shown; fold c; now rewrite Vf). unfold field_size_terms at 1. now rewrite Hf.
Qed.
(** the slots of the struct, one by one *)
Definition slots_at (l : list (text * slot_type)) (ss : list slot) : Prop :=
  Forall2 (fun nt sl => assoc (fst nt) fs = Some (rust_slot d c (snd nt) sl) /\ slot_ok d c (snd nt) sl /\ (slot_depth sl <= depth)%nat) l ss.
Lemma fields_adds : forall l ss, incl l (visible_fields c m) -> slots_at (map (fun f => (f_name f, get_type c f)) l) ss ->
  forall sts ss', adds env (flat_map (field_size_terms g d d0) l) (slots_size d c lit (map (field_size c) l ++ sts) (ss ++ ss') - slots_size d c lit sts ss').
Proof.
  induction l as [|f l IH]; intros ss I H sts ss'; inversion H as [|? ? ? ? A B]; subst.
  - cbn [map app flat_map]. rewrite Z.sub_diag. constructor.
  - cbn [map app flat_map]. change (slots_size d c lit (field_size c f :: map (field_size c) l ++ sts) (y :: l' ++ ss')) with
      (slot_size d c lit (field_size c f) y + slots_size d c lit (map (field_size c) l ++ sts) (l' ++ ss')).
    rewrite <- Z.add_sub_assoc. destruct A as (A1 & A2 & A3). apply adds_app; [apply field_adds; [apply I; now left|exact A2|exact A3|exact A1]|].
    apply IH; [intros x J; apply I; now right|exact B].
Qed.
Lemma oneofs_adds : forall l ss, incl l (m_oneofs m) -> slots_at (map (fun o => (o_name o, TyOneof (oneof_variants c o))) l) ss ->
  adds env (map (GenAst.oneof_size g d) l) (slots_size d c lit (map (Gen.oneof_size c) l) ss).
Proof.
  induction l as [|o l IH]; intros ss I H; inversion H as [|? ? ? ? A B]; subst; [constructor|].
  destruct A as (A1 & A2 & A3). cbn [map].
  change (slots_size d c lit (Gen.oneof_size c o :: map (Gen.oneof_size c) l) (y :: l')) with
    (slot_size d c lit (Gen.oneof_size c o) y + slots_size d c lit (map (Gen.oneof_size c) l) l').
  constructor; [apply oneof_adds; [apply I; now left|exact A2|exact A3|exact A1]|]. apply IH; [intros x J; apply I; now right|exact B].
Qed.
Lemma message_yields : forall ss, slots_at (named_slots c m) ss ->
  yields env (sum_of (zero :: flat_map (field_size_terms g d d0) (m_fields m) ++ map (GenAst.oneof_size g d) (m_oneofs m))) (XInt (slots_size d c lit (size_stmts c m) ss)).
Proof.
  intros ss H. unfold slots_at, named_slots in H. apply Forall2_app_inv_l in H. destruct H as (s1 & s2 & H1 & H2 & ->).
  apply yields_sum. rewrite <- (Z.add_0_l (slots_size _ _ _ _ _)). constructor; [apply yields_zero|].
  unfold size_stmts. replace (slots_size d c lit _ _) with
    ((slots_size d c lit (map (field_size c) (visible_fields c m) ++ map (Gen.oneof_size c) (m_oneofs m)) (s1 ++ s2) - slots_size d c lit (map (Gen.oneof_size c) (m_oneofs m)) s2)
     + slots_size d c lit (map (Gen.oneof_size c) (m_oneofs m)) s2) by lia.
  rewrite shown_terms. apply adds_app; [apply fields_adds; [apply incl_refl|exact H1]|apply oneofs_adds; [apply incl_refl|exact H2]].
Qed.
End Field.
End Message.

Lemma slots_depth_cons : forall s ss n, (slots_depth (s :: ss) <= n)%nat <-> (slot_depth s <= n)%nat /\ (slots_depth ss <= n)%nat.
Proof. intros s ss n. cbn [slots_depth fold_right]. fold (slots_depth ss). lia. Qed.
(** the value of a struct has its slots *)
Lemma slots_of_struct : forall l ss n, NoDup (map fst l) -> slots_ok d c (map snd l) ss -> (slots_depth ss <= n)%nat ->
  slots_at n (rust_slots d c l ss) l ss.
Proof.
  intros l ss n ND V D.
  assert (X : forall pre l ss, NoDup (map fst (pre ++ rust_slots d c l ss)) -> slots_ok d c (map snd l) ss -> (slots_depth ss <= n)%nat ->
    slots_at n (pre ++ rust_slots d c l ss) l ss).
  { clear. intros pre l. revert pre. induction l as [|(x, ty) l IH]; intros pre ss ND V D; destruct ss as [|s ss]; try contradiction; [constructor|].
    destruct V as (V1 & V2). apply slots_depth_cons in D. destruct D as (D1 & D2). constructor.
    - split; [|split; assumption]. apply assoc_in; [exact ND|]. apply in_app_iff. right. now left.
    - specialize (IH (pre ++ [(x, rust_slot d c ty s)]) ss). rewrite <- app_assoc in IH. now apply IH. }
  apply (X [] l ss); [|exact V|exact D]. cbn [app]. replace (map fst (rust_slots d c l ss)) with (map fst l); [exact ND|].
  clear - V. revert ss V. induction l as [|(x, ty) l IH]; intros ss V; destruct ss as [|s ss]; try contradiction; [reflexivity|]. destruct V as (_ & V). cbn. now rewrite (IH ss V).
Qed.
Lemma named_types : forall m, map snd (named_slots c m) = struct_def c m.
Proof. intros m. unfold named_slots, struct_def. now rewrite map_app, !map_map. Qed.

Lemma impl_default_none : forall n b m, String.eqb n "Default" = false -> the_impl n b (only (message_must_generate_impl_default (d_syntax d) c m) [GenAst.message_default g d d0 m]) = None.
Proof.
  intros n b m H. destruct (message_must_generate_impl_default _ _ _); [|reflexivity]. cbn [only]. unfold GenAst.message_default, default_impl, the_impl.
  destruct (is_unit m); cbn [first is_trait tname tpath spath]; unfold is_trait, tname, tpath; cbn [spath]; now rewrite H.
Qed.
Lemma write_impl_of : forall i m, get_message d i = Some m ->
  the_impl "MessageWrite" false (p_struct prog i) = Some (if is_unit m then [] else [get_size_fn g d d0 m; write_message_fn g d d0 m]).
Proof.
  intros i m G. cbn [p_struct prog generated_program]. rewrite G, items_split, impl_app, impl_before. rewrite impl_app. fold c. rewrite impl_default_none by reflexivity.
  unfold message_read, message_write_impl. now destruct (is_unit m).
Qed.
Theorem struct_size_is : forall n i m ss, get_message d i = Some m -> slots_ok d c (struct_def c m) ss -> (slots_depth ss < n)%nat ->
  struct_size t names prog (default_depth d) n i (rust_struct d c i m ss) = Some (message_size d c lit i ss).
Proof.
  induction n as [|n IH]; intros i m ss G V D; [lia|]. cbn [struct_size]. rewrite (write_impl_of i m G). unfold message_size. rewrite G.
  destruct (is_unit m) eqn:U; [reflexivity|].
  change (the_fn "get_size" [get_size_fn g d d0 m; write_message_fn g d d0 m]) with
    (Some (mkRFn false "get_size" [] (SelfRef None false) [] (Some (tname "usize"))
      [result (sum_of (zero :: flat_map (field_size_terms g d d0) (m_fields m) ++ map (GenAst.oneof_size g d) (m_oneofs m)))])).
  cbv iota. set (w := world_of _ _ _ _ _ _ _ _).
  assert (X : eval t names w (InMsg i) O None (sum_of (zero :: flat_map (field_size_terms g d d0) (m_fields m) ++ map (GenAst.oneof_size g d) (m_oneofs m)))
     (mkSt [("self", rust_struct d c i m ss)] [] [] (mkR 0 0)) = Go (XInt (slots_size d c lit (size_stmts c m) ss)) (mkSt [("self", rust_struct d c i m ss)] [] [] (mkR 0 0))).
  { apply (message_yields i m G w O n) with (env := [("self", rust_struct d c i m ss)]) (fs := rust_slots d c (named_slots c m) ss); try reflexivity.
    - intros j x s0 Gj S. apply (struct_default_is g d d0 t names lit Names Plain Schema Consts Derive); assumption.
    - intros j s0 M0 D0. unfold message_ok in M0. destruct (get_message d j) as [x|] eqn:Gj; [|contradiction].
      rewrite (emb_message d c j x s0 Gj). apply IH; [exact Gj|exact M0|]. cbn in D0. fold (slots_depth s0) in D0. lia.
    - apply slots_of_struct; [exact (pn_fields _ _ Plain i m G)|now rewrite named_types|lia]. }
  match goal with |- match ?a with _ => _ end = _ => assert (Y : a = Some (XInt (slots_size d c lit (size_stmts c m) ss))) end; [|now rewrite Y].
  match type of X with ?a = _ => transitivity (result_of a) end; [reflexivity|now rewrite X].
Qed.
End Program.
