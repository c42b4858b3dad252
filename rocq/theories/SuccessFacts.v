(** When the functions of GenText.v succeed. *)
From Coq Require Import String Ascii Arith ZArith Lia Bool.
From Verif Require Import Base Schema Keywords Modules Passes Gen GenCheck Cycles CycleFacts IndexFacts Pipeline PassFacts.
From Verif Require Import ProtoText Lifetime LifetimeFacts RustTypes Emit Output GenText.
Import Schema StringSyntax.
Local Open Scope string_scope.
Local Open Scope list_scope.

Definition succeeds (o : out) : Prop := snd o = None.

Lemma ok_then a b : succeeds (andthen a b) <-> succeeds a /\ succeeds b.
Proof. unfold succeeds, andthen. destruct a as (s, [e|]); cbn; [split; [discriminate|intros [? _]; discriminate]|tauto]. Qed.
Lemma ok_writeln s : succeeds (writeln s). Proof. reflexivity. Qed.
Lemma ok_write s : succeeds (write s). Proof. reflexivity. Qed.
Lemma ok_nothing : succeeds nothing. Proof. reflexivity. Qed.
Lemma ok_when b o : succeeds (when b o) <-> (b = true -> succeeds o).
Proof. destruct b; cbn; [tauto|]. split; [discriminate|reflexivity]. Qed.
Lemma ok_all {A} (f : A -> out) l : succeeds (write_all f l) <-> forall x, In x l -> succeeds (f x).
Proof.
  induction l as [|y l IH]; cbn [write_all]; [split; [intros _ x []|reflexivity]|]. rewrite ok_then, IH. cbn [In]. split.
  - intros [A1 B1] x [<-|H]; auto.
  - intros H. split; intros; apply H; auto.
Qed.
Lemma ok_lines l : succeeds (lines l).
Proof. apply ok_all. intros x _. apply ok_writeln. Qed.
Lemma ok_of x : succeeds (writeln_of x) <-> exists s, x = GOk s.
Proof. destruct x; cbn; [split; [eauto|reflexivity]|]. split; [discriminate|]. intros (s & H). discriminate. Qed.
Lemma ok_if x a b : (exists r, x = GOk r) -> succeeds a -> succeeds b -> succeeds (if_of x a b).
Proof. intros ([|] & ->) A B; assumption. Qed.
Lemma ok_fmt x k : (exists s, fmt x k = GOk s) <-> exists s, x = GOk s.
Proof. unfold fmt, gbind. destruct x; split; intros (s & H); eauto; discriminate. Qed.
Lemma ok_bind {A B} (x : gres A) (k : A -> gres B) y : x = GOk y -> (exists s, k y = GOk s) -> exists s, gbind x k = GOk s.
Proof. intros ->. auto. Qed.
Lemma bind_ok {A B} (x : gres A) (k : A -> gres B) : (exists s, gbind x k = GOk s) -> exists y, x = GOk y /\ exists s, k y = GOk s.
Proof. destruct x; cbn; intros (s & H); [eauto|discriminate]. Qed.

(** A type after the passes: what it names exists.  The names inside a map in a
    map are not resolved. *)
Definition flat (d : file_descriptor) (t : field_type) : Prop :=
  match t with
  | TMessage i => get_message d i <> None
  | TEnum q => get_enum d q <> None
  | TMessageOrEnum _ => False
  | TMap _ _ => forall j, ~ In (TMessage j) (leaves t)
  | _ => True
  end.
Definition flat_type (d : file_descriptor) (t : field_type) : Prop :=
  match t with TMap k v => flat d k /\ flat d v | t => flat d t end.

(** what a field needs to be written *)
Definition no_inner_map (t : field_type) : Prop :=
  match t with TMap k v => is_map_type k = false /\ is_map_type v = false | _ => True end.
(** the text of a field has a default value of its type, which is the first value of an enum *)
Definition default_needed (f : field) : bool :=
  match generated_type_of (f_freq f) with SingularType => true | _ => false end
  && negb (freq_is_optional (f_freq f)) && match f_default f with None => true | Some _ => false end.

Section Success.
Variables (g : gen_config) (d4 : file_descriptor).
Let c := g_passes g.
Variable d : file_descriptor.
Hypothesis Enums : forall q, get_enum d q = option_map enum_sanitize_names (get_enum d4 q).
Hypothesis Idx : indexed d.
Hypothesis Typed : forall i m f, get_message d i = Some m -> In f (all_fields m) -> flat_type d (f_typ f).
Hypothesis Maps : forall i m f, get_message d i = Some m -> In f (m_fields m) -> freq_is_map (f_freq f) = is_map_type (f_typ f).
Hypothesis Boxes : forall i m f, get_message d i = Some m -> In f (m_fields m) -> f_boxed f = true -> exists j, f_typ f = TMessage j.

Definition field_writable (f : field) : Prop :=
  no_inner_map (f_typ f) /\
  forall q e, f_typ f = TEnum q -> default_needed f = true -> get_enum d q = Some e -> en_fields e <> [].

Lemma refs : forall i m f j, get_message d i = Some m -> In f (all_fields m) -> In (TMessage j) (leaves (f_typ f)) ->
  exists m', get_message d j = Some m'.
Proof.
  intros i m f j G H L. pose proof (Typed i m f G H) as T.
  assert (K : forall t, flat d t -> In (TMessage j) (leaves t) -> exists m', get_message d j = Some m').
  { intros t Ft Lt. destruct t; cbn in Lt; try (destruct Lt as [Lt|[]]; discriminate).
    - destruct Lt as [Lt|[]]. injection Lt as ->. cbn in Ft. destruct (get_message d j); [eauto|congruence].
    - exfalso. exact (Ft j Lt). }
  destruct (f_typ f); try exact (K _ T L). cbn in L. rewrite in_app_iff in L. destruct T as (T1 & T2). destruct L as [L|L]; eauto.
Qed.
Lemma lifetime_total i m : get_message d i = Some m -> exists b, message_has_lifetime c d (lifetime_fuel d) [] m = GOk b.
Proof.
  intros G. destruct (index_has_lifetime_total c d Idx refs i m G) as (b & E & _). unfold index_has_lifetime in E. rewrite G in E. eauto.
Qed.
Lemma own_total i m : get_message d i = Some m -> exists b, own_lifetime g d m = GOk b.
Proof.
  intros G. unfold own_lifetime. fold c. destruct (c_dont_use_cow c); [|exact (lifetime_total i m G)].
  exists false. exact (ignored_has_lifetime c d i m _ G).
Qed.
Lemma oneof_total i m o : get_message d i = Some m -> In o (m_oneofs m) -> exists b, oneof_has_lifetime c d o = GOk b.
Proof.
  intros G H. destruct (oneof_has_lifetime_total c d Idx refs o) as (b & E & _); [|eauto]. intros f j Hf Hj.
  apply (refs i m f j G); [|exact Hj]. unfold all_fields. apply in_or_app. right. apply in_flat_map. eauto.
Qed.

(** ** Types *)
Definition plain (t : field_type) : Prop := is_map_type t = false /\ flat d t.
Lemma type_total t : flat_type d t -> no_inner_map t -> exists s, type_text g d t = GOk s.
Proof.
  assert (K : forall u, plain u -> exists s, type_text g d u = GOk s).
  { intros u (M & F). destruct u; cbn [is_map_type flat type_text] in *; try (eexists; reflexivity); try discriminate; try contradiction.
    - destruct (get_enum d e); [eauto|congruence].
    - destruct (get_message d m) as [x|] eqn:G; [|congruence]. destruct (lifetime_total m x G) as (b & E). fold c. rewrite E. cbn. eauto. }
  intros F N. destruct t; try (apply K; split; [reflexivity|exact F]). destruct F as (F1 & F2), N as (N1 & N2).
  destruct (K t1) as (s1 & E1); [now split|]. destruct (K t2) as (s2 & E2); [now split|]. cbn [type_text]. rewrite E1, E2. cbn. eauto.
Qed.
Lemma const_type_total f : flat_type d (f_typ f) -> no_inner_map (f_typ f) -> exists s, const_type_text g d f = GOk s.
Proof. intros F N. pose proof (type_total (f_typ f) F N) as T. unfold const_type_text. destruct (f_typ f); eauto. Qed.
Lemma read_total t : plain t -> exists p, read_texts d t = GOk p.
Proof.
  intros (M & F). destruct t; cbn in *; try (eexists; reflexivity); try discriminate; try contradiction.
  destruct (get_message d m); [eauto|congruence].
Qed.
Lemma read_plain t p : read_texts d t = GOk p -> is_map_type t = false.
Proof. destruct t; cbn; try reflexivity; discriminate. Qed.
Lemma size_total t : flat_type d t -> no_inner_map t -> forall s, exists z, size_text t s = GOk z.
Proof.
  assert (K : forall u, plain u -> forall s, exists z, size_text u s = GOk z).
  { intros u (M & F) s. destruct u; cbn in *; try (eexists; reflexivity); try discriminate; contradiction. }
  intros F N s. destruct t; try (apply K; split; [reflexivity|exact F]). destruct F as (F1 & F2), N as (N1 & N2).
  destruct (K t1 (conj N1 F1) "k") as (s1 & E1). destruct (K t2 (conj N2 F2) "v") as (s2 & E2). cbn [size_text]. rewrite E1, E2. cbn. eauto.
Qed.
Lemma write_total t : flat_type d t -> no_inner_map t -> forall s b, exists z, write_text t s b = GOk z.
Proof.
  assert (K : forall u, plain u -> forall s b, exists z, write_text u s b = GOk z).
  { intros u (M & F) s b. destruct u; cbn in *; try (eexists; reflexivity); try discriminate; try contradiction. destruct b; eauto. }
  intros F N s b. destruct t; try (apply K; split; [reflexivity|exact F]).
  destruct (size_total (TMap t1 t2) F N "") as (z & Z). destruct F as (F1 & F2), N as (N1 & N2).
  destruct (K t1 (conj N1 F1) "k" false) as (s1 & E1). destruct (K t2 (conj N2 F2) "v" false) as (s2 & E2). cbn [write_text]. rewrite Z, E1, E2. cbn. eauto.
Qed.
Lemma qualified_total e : (exists s, fully_qualified e = GOk s) <-> en_fields e <> [].
Proof.
  unfold fully_qualified. rewrite ok_fmt. unfold partially_qualified. destruct (en_fields e) as [|(v, z) l]; split; intros H; try congruence; eauto.
  destruct H; discriminate.
Qed.
Lemma enum_fields4 q e4 : get_enum d4 q = Some e4 -> exists e, get_enum d q = Some e /\ (en_fields e = [] <-> en_fields e4 = []).
Proof. intros G. rewrite Enums, G. eexists. split; [reflexivity|]. cbn. destruct (en_fields e4); cbn; split; congruence. Qed.

(** ** Fields *)
Section Field.
Variables (i : midx) (m : message) (f : field).
Hypothesis G : get_message d i = Some m.
Hypothesis Hf : In f (m_fields m).
Lemma field_flat : flat_type d (f_typ f).
Proof. apply (Typed i m f G). unfold all_fields. apply in_or_app. now left. Qed.
Lemma default_total : (exists s, default_text g d d4 f = GOk s) <->
  forall q e, f_typ f = TEnum q -> default_needed f = true -> get_enum d q = Some e -> en_fields e <> [].
Proof.
  pose proof field_flat as F. pose proof (Maps i m f G Hf) as Mp. pose proof (Boxes i m f G Hf) as Bx. unfold default_text, default_needed.
  destruct (generated_type_of (f_freq f)) eqn:Gt.
  2: { split; [intros _ ? ? ? X; discriminate X|]. intros _. destruct (_ && _ && _); eauto. }
  2: { split; [intros _ ? ? ? X; discriminate X|]. eauto. }
  destruct (f_boxed f) eqn:B; [destruct (Bx eq_refl) as (j & ->); split; [discriminate|eauto]|].
  destruct (freq_is_optional (f_freq f)); [split; [intros _ ? ? ? X; discriminate X|eauto]|]. cbn [negb andb].
  destruct (f_default f) as [s|]; [split; [intros _ ? ? ? X; discriminate X|]; intros _; destruct (f_typ f); eauto|].
  assert (Nm : is_map_type (f_typ f) = false) by (rewrite <- Mp; unfold generated_type_of in Gt; destruct (freq_is_map (f_freq f)); [discriminate|reflexivity]).
  destruct (f_typ f); cbn [singular_default flat_type flat is_map_type] in *; try discriminate; try contradiction;
    try (split; [intros _ ? ? X; discriminate X|intros _; eexists; reflexivity]).
  - pose proof (Enums e) as En. destruct (get_enum d4 e) as [e4|] eqn:G4; [|cbn in En; congruence]. rewrite qualified_total.
    destruct (enum_fields4 e e4 G4) as (e' & Ge & Iff). split.
    + intros N q x X _ Gx. injection X as <-. rewrite Ge in Gx. injection Gx as <-. tauto.
    + intros N X. apply (N e e' eq_refl eq_refl Ge). tauto.
  - destruct (get_message d m0); [|congruence]. split; [discriminate|eauto].
Qed.
Lemma hidden_visible : f_deprecated f && negb (c_add_deprecated_fields c) = negb (visible c f).
Proof. unfold visible. now rewrite negb_involutive. Qed.

Lemma definition_total : no_inner_map (f_typ f) -> succeeds (write_field_definition g d f).
Proof.
  intros N. unfold write_field_definition. destruct (_ && _); [reflexivity|]. rewrite ok_then. split; [apply ok_when; intros; apply ok_writeln|].
  apply ok_of. rewrite ok_fmt. unfold field_type_text. rewrite ok_fmt. apply type_total; [apply field_flat|exact N].
Qed.
Lemma match_total : succeeds (write_field_match_tag g d f) <-> (visible c f = true -> no_inner_map (f_typ f)).
Proof.
  pose proof field_flat as F. pose proof (Maps i m f G Hf) as Mp. pose proof (Boxes i m f G Hf) as Bx. unfold write_field_match_tag. fold c. rewrite hidden_visible.
  destruct (visible c f); [|split; [discriminate|reflexivity]]. cbn [negb].
  destruct (is_map_type (f_typ f)) eqn:M.
  - rewrite Mp. destruct (f_boxed f) eqn:B; [destruct (Bx eq_refl) as (j & X); rewrite X in M; discriminate|].
    unfold generated_type_of. rewrite Mp. destruct (f_typ f) as [| | | | | | | | | | | | | | | | | | | |k v]; try discriminate M. cbn [no_inner_map flat_type] in *.
    rewrite !ok_then, ok_of. split.
    + intros (_ & _ & R & _) _. apply bind_ok in R. destruct R as (pk & Ek & R). apply bind_ok in R. destruct R as (pv & Ev & _). split; eapply read_plain; eauto.
    + intros N. destruct (N eq_refl) as (N1 & N2). destruct F as (F1 & F2). destruct (read_total k (conj N1 F1)) as (pk & ->). destruct (read_total v (conj N2 F2)) as (pv & ->).
      repeat split; try apply ok_write; try apply ok_writeln. cbn. eauto.
  - assert (N : no_inner_map (f_typ f)) by (destruct (f_typ f); try exact Logic.I; discriminate).
    split; [intros _ _; exact N|]. intros _. rewrite Mp.
    assert (F' : flat d (f_typ f)) by (destruct (f_typ f); try exact F; discriminate).
    destruct (read_total (f_typ f) (conj M F')) as ((val, val_cow) & ->). rewrite ok_then. split; [apply ok_write|].
    destruct (f_boxed f); [apply ok_writeln|]. unfold generated_type_of. rewrite Mp. destruct (freq_is_repeated (f_freq f)) eqn:Rp.
    + destruct (f_is_packed f); [destruct (is_fixed_size (f_typ f))|]; apply ok_writeln.
    + destruct (f_freq f); try discriminate; apply ok_writeln.
Qed.
Lemma size_addition_total : no_inner_map (f_typ f) -> forall s, exists z, size_addition_text f s = GOk z.
Proof. intros N s. apply ok_fmt. apply size_total; [apply field_flat|exact N]. Qed.
Lemma write_method_total : no_inner_map (f_typ f) -> forall s, exists z, write_method_text f s = GOk z.
Proof. intros N s. apply ok_fmt. apply write_total; [apply field_flat|exact N]. Qed.
Lemma generated_map : generated_type_of (f_freq f) = MapType -> is_map_type (f_typ f) = true.
Proof.
  rewrite <- (Maps i m f G Hf). unfold generated_type_of. destruct (freq_is_map (f_freq f)); [reflexivity|]. destruct (freq_is_repeated (f_freq f)); discriminate.
Qed.
Lemma get_size_total : field_writable f -> succeeds (write_field_get_size g d d4 f).
Proof.
  intros (N & De). pose proof field_flat as F. unfold write_field_get_size. fold c. rewrite hidden_visible. destruct (visible c f); [|reflexivity]. cbn [negb].
  rewrite ok_then. split; [apply ok_write|]. destruct (generated_type_of (f_freq f)) eqn:Gt.
  - apply ok_of. destruct (proj2 default_total De) as (s & Es). destruct (size_addition_total N "m") as (s1 & E1).
    destruct (size_addition_total N ("self." ++ f_name f)%string) as (s2 & E2). rewrite Es, E1, E2. cbn. eauto.
  - destruct (f_is_packed f); [rewrite ok_then; split; [apply ok_write|]|];
      (destruct (wire_type_num_non_packed (f_typ f)) as [|p|p]; [| |]); try (destruct p as [[|[]|]|[|[]|]|]; try apply ok_writeln);
      apply ok_of; rewrite ok_fmt; apply size_total; assumption.
  - pose proof (generated_map Gt) as M. destruct (f_typ f); try discriminate M. apply ok_of. rewrite ok_fmt. apply size_total; assumption.
Qed.
Lemma get_size_needs : succeeds (write_field_get_size g d d4 f) -> visible c f = true ->
  forall q e, f_typ f = TEnum q -> default_needed f = true -> get_enum d q = Some e -> en_fields e <> [].
Proof.
  unfold write_field_get_size. fold c. rewrite hidden_visible. intros H V. rewrite V in H. cbn [negb] in H. rewrite ok_then in H. destruct H as (_ & H).
  assert (Dn : default_needed f = true -> exists s, default_text g d d4 f = GOk s).
  { intros N. unfold default_needed in N. destruct (generated_type_of (f_freq f)); try discriminate. apply ok_of in H. apply bind_ok in H. destruct H as (s & E & _). eauto. }
  intros q e T N. apply default_total; auto.
Qed.
Lemma field_write_total : field_writable f -> succeeds (write_field_write g d d4 f).
Proof.
  intros (N & De). pose proof field_flat as F. unfold write_field_write. fold c. rewrite hidden_visible. destruct (visible c f); [|reflexivity]. cbn [negb].
  rewrite ok_then. split; [apply ok_write|]. destruct (generated_type_of (f_freq f)) eqn:Gt.
  - apply ok_of. destruct (proj2 default_total De) as (s & Es). destruct (write_method_total N (unwrapping_text f false "m")) as (s1 & E1).
    destruct (write_method_total N (unwrapping_text f false ("self." ++ f_name f)%string)) as (s2 & E2). cbv zeta. rewrite Es, E1, E2. cbn. eauto.
  - destruct (f_is_packed f); [destruct (is_fixed_size (f_typ f)); [apply ok_writeln|]|].
    + apply ok_of. destruct (write_total (f_typ f) F N "m" (f_boxed f)) as (s1 & E1). rewrite E1. cbn [gbind]. rewrite ok_fmt. apply size_total; assumption.
    + apply ok_of. rewrite ok_fmt. apply write_total; assumption.
  - pose proof (generated_map Gt) as M. destruct (f_typ f); try discriminate M. apply ok_of. rewrite ok_fmt. apply write_total; assumption.
Qed.
Lemma field_default_total : field_writable f -> succeeds (write_field_default g d d4 f).
Proof. intros (N & De). unfold write_field_default. destruct (_ && _); [reflexivity|]. apply ok_of. rewrite ok_fmt. now apply default_total. Qed.
Lemma getter_total : no_inner_map (f_typ f) -> succeeds (write_getter g d f).
Proof.
  intros N. unfold write_getter. destruct (negb _); [reflexivity|]. rewrite !ok_then. split; [|split; [destruct (f_typ f); apply ok_writeln|apply ok_writeln]].
  apply ok_of. destruct (const_type_total f field_flat N) as (s & ->). cbn. eauto.
Qed.
Lemma const_total : no_inner_map (f_typ f) -> succeeds (write_custom_default g d f).
Proof.
  intros N. unfold write_custom_default. destruct (can_write_default_const _ _ f) eqn:Cw; [|reflexivity]. cbn [negb]. apply ok_of.
  destruct (const_type_total f field_flat N) as (s & ->). cbn [gbind]. unfold can_write_default_const in Cw. destruct (f_default f); [eauto|].
  rewrite !orb_true_r in Cw. cbn in Cw. discriminate.
Qed.
End Field.

(** ** Messages *)
Definition message_writable (m : message) : Prop :=
  (forall f, In f (m_fields m) -> visible c f = true -> field_writable f) /\
  (forall o f, In o (m_oneofs m) -> In f (o_fields o) -> visible c f = true -> is_map_type (f_typ f) = false).

Section Message.
Variables (i : midx) (m : message).
Hypothesis G : get_message d i = Some m.
Lemma hide f : f_deprecated f && negb (c_add_deprecated_fields (g_passes g)) = negb (visible c f).
Proof. unfold visible. now rewrite negb_involutive. Qed.
Lemma shown f o : In f (oneof_shown g o) <-> In f (o_fields o) /\ visible c f = true.
Proof. unfold oneof_shown. rewrite filter_In. unfold visible. fold c. now destruct (f_deprecated f), (c_add_deprecated_fields c). Qed.
Lemma member_flat o f : In o (m_oneofs m) -> In f (o_fields o) -> flat_type d (f_typ f).
Proof. intros Ho Hf. apply (Typed i m f G). unfold all_fields. apply in_or_app. right. apply in_flat_map. eauto. Qed.
Lemma unmapped t : is_map_type t = false -> flat_type d t -> plain t /\ no_inner_map t.
Proof. unfold plain. destruct t; try discriminate; intros _ F; repeat split; auto. Qed.

Section Oneof.
Variable o : oneof.
Hypothesis Ho : In o (m_oneofs m).
Hypothesis W : forall f, In f (o_fields o) -> visible c f = true -> is_map_type (f_typ f) = false.
Lemma oneof_text_total : succeeds (write_oneof g d o).
Proof.
  destruct (oneof_total i m o G Ho) as (b & E).
  unfold write_oneof, write_oneof_definition, write_oneof_impl_default. fold c. rewrite !ok_then, ok_all.
  repeat match goal with |- _ /\ _ => split end; try apply ok_writeln; try (apply ok_if; [eauto|apply ok_writeln|apply ok_writeln]).
  intros f Hf. pose proof (hide f) as Hh. fold c in Hh. rewrite Hh. destruct (visible c f) eqn:V; [|reflexivity]. cbn [negb]. rewrite ok_then.
  split; [apply ok_when; intros; apply ok_writeln|].
  destruct (unmapped _ (W f Hf V) (member_flat o f Ho Hf)) as (P & N). apply ok_of. rewrite ok_fmt. apply type_total; [exact (member_flat o f Ho Hf)|exact N].
Qed.
Lemma oneof_field_total : succeeds (write_oneof_message_definition g d o).
Proof. destruct (oneof_total i m o G Ho) as (b & E). apply ok_if; [eauto|apply ok_writeln|apply ok_writeln]. Qed.
Lemma oneof_match_total : succeeds (write_oneof_match_tag g d o).
Proof.
  apply ok_all. intros f Hf. apply shown in Hf. destruct Hf as (Hf & V). apply ok_of.
  destruct (unmapped _ (W f Hf V) (member_flat o f Ho Hf)) as (P & N). destruct (read_total _ P) as ((a, b) & ->). cbn. eauto.
Qed.
Lemma oneof_size_total : succeeds (write_oneof_get_size g d o).
Proof.
  unfold write_oneof_get_size. rewrite !ok_then. repeat match goal with |- _ /\ _ => split end; try apply ok_writeln.
  apply ok_all. intros f Hf. apply shown in Hf. destruct Hf as (Hf & V). apply ok_of.
  destruct (unmapped _ (W f Hf V) (member_flat o f Ho Hf)) as (P & N).
  destruct (is_fixed_size (f_typ f)); [|destruct (need_to_dereference (f_typ f))]; rewrite ok_fmt; apply size_total; auto; exact (member_flat o f Ho Hf).
Qed.
Lemma oneof_write_total : succeeds (write_oneof_write g d o).
Proof.
  unfold write_oneof_write. rewrite !ok_then. repeat match goal with |- _ /\ _ => split end; try apply ok_writeln.
  apply ok_all. intros f Hf. apply shown in Hf. destruct Hf as (Hf & V). apply ok_of.
  destruct (unmapped _ (W f Hf V) (member_flat o f Ho Hf)) as (P & N). rewrite ok_fmt. apply write_total; auto. exact (member_flat o f Ho Hf).
Qed.
End Oneof.
Lemma oneof_match_needs o f : succeeds (write_oneof_match_tag g d o) -> In f (o_fields o) -> visible c f = true -> is_map_type (f_typ f) = false.
Proof.
  intros H Hf V. apply (proj1 (ok_all _ _)) with (x := f) in H; [|now apply shown]. apply ok_of in H. apply bind_ok in H. destruct H as (p & E & _). eapply read_plain; eauto.
Qed.

Lemma items_total : message_writable m -> succeeds (write_message_items g d d4 m).
Proof.
  intros (Wf & Wo). destruct (own_total i m G) as (b & Eb). destruct (lifetime_total i m G) as (b' & Eb').
  assert (Nm : forall f, In f (m_fields m) -> visible c f = true -> no_inner_map (f_typ f)) by (intros f Hf V; exact (proj1 (Wf f Hf V))).
  assert (Hid : forall f, visible c f = false -> f_deprecated f = true /\ c_add_deprecated_fields c = false).
  { intros f. unfold visible. destruct (f_deprecated f), (c_add_deprecated_fields c); cbn; auto; discriminate. }
  assert (Im : forall a b, succeeds a -> succeeds b -> succeeds (if_of (own_lifetime g d m) a b)) by (intros; apply ok_if; eauto).
  unfold write_message_items. rewrite !ok_then. repeat match goal with |- _ /\ _ => split end; try apply ok_writeln.
  - unfold write_definition. rewrite !ok_then. repeat match goal with |- _ /\ _ => split end; try apply ok_writeln.
    + destruct (g_repr g); [apply ok_writeln|reflexivity].
    + destruct (is_unit m); [apply ok_writeln|]. rewrite !ok_then. repeat match goal with |- _ /\ _ => split end; try apply ok_writeln.
      * apply Im; apply ok_writeln.
      * apply ok_all. intros f Hf. destruct (visible c f) eqn:V; [eapply definition_total; eauto|]. unfold write_field_definition. fold c.
        destruct (Hid f V) as (-> & ->). reflexivity.
      * apply ok_all. intros o Ho. now apply oneof_field_total.
  - apply ok_when. intros _. rewrite ok_then. split; [|apply ok_writeln]. unfold write_default_consts. destruct (d_syntax d); [|reflexivity].
    destruct (negb _); [reflexivity|]. rewrite !ok_then. repeat match goal with |- _ /\ _ => split end; try apply ok_writeln; [apply Im; apply ok_writeln|].
    apply ok_all. intros f Hf. destruct (visible c f) eqn:V; [eapply const_total; eauto|]. unfold write_custom_default, can_write_default_const. fold c.
    destruct (Hid f V) as (-> & ->). cbn [negb andb]. rewrite !orb_true_r. reflexivity.
  - apply ok_when. intros _. rewrite ok_then. split; [|apply ok_writeln]. unfold write_getters. rewrite !ok_then.
    repeat match goal with |- _ /\ _ => split end; try apply ok_writeln; [apply Im; apply ok_writeln|].
    apply ok_all. intros f Hf. destruct (visible c f) eqn:V; [eapply getter_total; eauto|]. unfold write_getter, must_generate_getter, must_generate_const, has_valid_visible_custom_default. fold c.
    destruct (Hid f V) as (-> & ->). cbn [negb andb]. rewrite ?andb_false_r. reflexivity.
  - apply ok_when. intros _. rewrite ok_then. split; [|apply ok_writeln]. unfold write_impl_default. destruct (is_unit m).
    + rewrite !ok_then. repeat match goal with |- _ /\ _ => split end; apply ok_writeln.
    + rewrite !ok_then. repeat match goal with |- _ /\ _ => split end; try apply ok_writeln; [apply Im; apply ok_writeln| |].
      * apply ok_all. intros f Hf. destruct (visible c f) eqn:V; [eapply field_default_total; eauto|]. unfold write_field_default. fold c.
        destruct (Hid f V) as (-> & ->). reflexivity.
      * apply ok_all. intros o _. apply ok_writeln.
  - unfold write_impl_message_read. destruct (is_unit m).
    + rewrite !ok_then. repeat match goal with |- _ /\ _ => split end; apply ok_writeln.
    + rewrite !ok_then. repeat match goal with |- _ /\ _ => split end; try apply ok_writeln.
      * apply Im; rewrite ok_then; split; apply ok_writeln.
      * apply ok_all. intros f Hf. eapply match_total; eauto.
      * apply ok_all. intros o Ho. apply oneof_match_total; auto. intros f Hf V. exact (Wo o f Ho Hf V).
  - unfold write_impl_message_write. destruct (is_unit m); [apply ok_writeln|]. unfold write_get_size, write_write_message. rewrite !ok_then.
    repeat match goal with |- _ /\ _ => split end; try apply ok_writeln; [apply Im; apply ok_writeln| | | |].
    + apply ok_all. intros f Hf. destruct (visible c f) eqn:V; [eapply get_size_total; eauto|]. unfold write_field_get_size. fold c. destruct (Hid f V) as (-> & ->). reflexivity.
    + apply ok_all. intros o Ho. apply oneof_size_total; auto. intros f Hf V. exact (Wo o f Ho Hf V).
    + apply ok_all. intros f Hf. destruct (visible c f) eqn:V; [eapply field_write_total; eauto|]. unfold write_field_write. fold c. destruct (Hid f V) as (-> & ->). reflexivity.
    + apply ok_all. intros o Ho. apply oneof_write_total; auto. intros f Hf V. exact (Wo o f Ho Hf V).
  - apply ok_when. intros _. rewrite ok_then. split; [|apply ok_writeln]. unfold write_impl_message_info. rewrite !ok_then.
    repeat match goal with |- _ /\ _ => split end; try apply ok_writeln. apply Im; apply ok_writeln.
  - apply ok_when. intros _. rewrite ok_then. split; [apply ok_writeln|]. apply ok_if; [fold c; eauto| |unfold write_impl_try_from; rewrite ok_then; split; [apply ok_lines|reflexivity]].
    unfold write_impl_owned. rewrite !ok_then. split; [apply ok_lines|]. split; [reflexivity|]. apply ok_when. intros _. rewrite ok_then. split; [apply ok_lines|reflexivity].
Qed.
Lemma items_need : succeeds (write_message_items g d d4 m) -> message_writable m.
Proof.
  unfold write_message_items. rewrite !ok_then. intros (_ & _ & _ & _ & _ & _ & Rd & _ & Wr & _).
  unfold write_impl_message_read in Rd. unfold write_impl_message_write in Wr. destruct (is_unit m) eqn:U.
  - assert (E : m_fields m = [] /\ m_oneofs m = []).
    { clear - U. destruct m as [? [|] [|] ? ? ? ? ? ? ? ?]; cbn in *; auto; discriminate. }
    destruct E as (E1 & E2). split; [rewrite E1; intros f []|rewrite E2; intros o f []].
  - unfold write_get_size in Wr. rewrite !ok_then in Rd, Wr. rewrite !ok_all in Rd, Wr. destruct Rd as (_ & _ & _ & _ & Rf & Ro & _).
    destruct Wr as (_ & (_ & _ & Sf & _) & _). split.
    + intros f Hf V. split.
      * exact (proj1 (match_total i m f G Hf) (Rf f Hf) V).
      * exact (get_size_needs i m f G Hf (Sf f Hf) V).
    + intros o f Ho Hf V. exact (oneof_match_needs o f (Ro o Ho) Hf V).
Qed.
End Message.

(** ** The file *)
Lemma uses_total ms : (forall m, In m ms -> exists i, get_message d i = Some m) -> succeeds (write_common_uses g d ms).
Proof.
  intros H. unfold write_common_uses. rewrite !ok_then. repeat match goal with |- _ /\ _ => split end.
  - apply ok_when. intros. apply ok_writeln.
  - destruct (negb _); apply ok_when; intros; [destruct (g_nostd g)|]; apply ok_writeln.
  - apply ok_when. intros _. apply ok_if; [|rewrite ok_then; split; apply ok_writeln|apply ok_nothing]. unfold any_lifetime.
    match goal with |- context [gany ?f _] => destruct (gany_total f ms) as (b & E & _); [|eauto] end. intros m Hm. destruct (H m Hm) as (i & G).
    destruct (g_owned g); [|cbn; eauto]. destruct (lifetime_total i m G) as (b & E). fold c. rewrite E. cbn. eauto.
  - apply ok_when. intros _. destruct (g_hashbrown g); [|destruct (g_nostd g)]; rewrite ok_then; split; apply ok_writeln.
Qed.
Lemma enum_total e : succeeds (write_enum (enum_sanitize_names e) e).
Proof.
  unfold write_enum. rewrite !ok_then. repeat match goal with |- _ /\ _ => split end; try apply ok_writeln.
  - unfold write_enum_definition. rewrite !ok_then, ok_all. repeat match goal with |- _ /\ _ => split end; intros; apply ok_writeln.
  - cbn [enum_sanitize_names en_fields]. destruct (en_fields e) as [|(v, z) l] eqn:E; [reflexivity|]. cbn [map].
    unfold write_enum_default, write_enum_from_i32, write_enum_from_str, partially_qualified. rewrite E. rewrite !ok_then, !ok_all, ok_of.
    repeat match goal with |- _ /\ _ => split end; intros; try apply ok_writeln. cbn. eauto.
Qed.
Lemma tree_total : forall m4 i, get_message d i = Some (msg_sanitize_names m4) ->
  succeeds (write_message_text g d d4 (msg_sanitize_names m4) m4) <->
  message_writable (msg_sanitize_names m4) /\
  forall p x, get_in (m_messages (msg_sanitize_names m4)) p = Some x -> message_writable x.
Proof.
  induction m4 as [m4 IH] using message_tree_ind. intros i G.
  assert (Sub : forall k x, nth_error (m_messages m4) k = Some x -> get_message d (i ++ [k]) = Some (msg_sanitize_names x)).
  { intros k x N. rewrite get_message_eq in *. apply (get_in_child _ _ _ _ _ G). clear - N. destruct m4. cbn in *. now rewrite nth_error_map, N. }
  assert (Kids : forall p x, get_in (m_messages (msg_sanitize_names m4)) p = Some x <->
            exists k y, nth_error (m_messages m4) k = Some y /\ ((p = [k] /\ x = msg_sanitize_names y) \/ exists r, p = k :: r /\ get_in (m_messages (msg_sanitize_names y)) r = Some x)).
  { intros p x. replace (m_messages (msg_sanitize_names m4)) with (map msg_sanitize_names (m_messages m4)) by (clear; now destruct m4).
    destruct p as [|k r]; [split; [discriminate|]; intros (k & y & _ & [(X & _)|(r & X & _)]); discriminate|].
    cbn [get_in]. rewrite nth_error_map. destruct (nth_error (m_messages m4) k) as [y|] eqn:N; cbn [option_map].
    - destruct r as [|k' r].
      + split.
        * intros X. injection X as <-. exists k, y. auto.
        * intros (k1 & y1 & N1 & [(X & ->)|(r & X & Y)]); injection X as <-; [congruence|subst r; discriminate].
      + split.
        * intros X. exists k, y. split; [exact N|]. right. exists (k' :: r). auto.
        * intros (k1 & y1 & N1 & [(X & ->)|(r1 & X & Y)]); [discriminate|]. injection X as <- <-. rewrite N in N1. injection N1 as <-. exact Y.
    - split; [discriminate|]. intros (k1 & y1 & N1 & [(X & _)|(r1 & X & _)]); injection X as <-; congruence. }
  set (kids := fix go (l l0 : list message) {struct l} : out :=
          match l, l0 with
          | x :: l', y :: l0' => andthen (write_message_text g d d4 x y) (go l' l0')
          | _, _ => nothing
          end).
  assert (Step : succeeds (write_message_text g d d4 (msg_sanitize_names m4) m4) <->
    succeeds (write_message_items g d d4 (msg_sanitize_names m4)) /\ succeeds (kids (map msg_sanitize_names (m_messages m4)) (m_messages m4)) /\
    (m_messages m4 <> [] \/ m_enums m4 <> [] \/ m_oneofs m4 <> [] -> forall o, In o (m_oneofs (msg_sanitize_names m4)) -> succeeds (write_oneof g d o))).
  { destruct m4 as [name fields oneofs rnums rnames imported package messages enums module index].
    assert (Ps : succeeds (write_common_uses g d (map msg_sanitize_names messages))).
    { apply uses_total. intros x Hx. apply in_map_iff in Hx. destruct Hx as (y & <- & Hy). apply In_nth_error in Hy. destruct Hy as (k & Hk). exists (i ++ [k]). exact (Sub k y Hk). }
    assert (Es : succeeds (write_all (fun p => write_enum (fst p) (snd p)) (combine (map enum_sanitize_names enums) enums))).
    { apply ok_all. clear. intros (a, b) H. cbn. assert (E : a = enum_sanitize_names b); [|subst a; apply enum_total].
      induction enums as [|e l IH]; [destruct H|]. destruct H as [H|H]; [injection H as <- <-; reflexivity|auto]. }
    cbn [msg_sanitize_names write_message_text m_messages m_enums m_oneofs]. rewrite ok_then. apply and_iff_compat_l.
    assert (X : forall (a : list message) (b : list enumerator) (c0 : list oneof) Y, (a = [] /\ b = [] /\ c0 = [] /\ (match a, b, c0 with [], [], [] => nothing | _, _, _ => Y end) = nothing) \/
      ((a <> [] \/ b <> [] \/ c0 <> []) /\ (match a, b, c0 with [], [], [] => nothing | _, _, _ => Y end) = Y)).
    { intros a b c0 Y. destruct a; [destruct b; [destruct c0; [now left|]|]|]; right; (split; [|reflexivity]); [right; right|right; left|left]; discriminate. }
    match goal with |- context [andthen (writeln "") ?Y] =>
      destruct (X (map msg_sanitize_names messages) (map enum_sanitize_names enums) (map oneof_sanitize_names oneofs) (andthen (writeln "") Y))
        as [(Ea & Eb & Ec & ->)|(Ne & ->)] end.
    - apply map_eq_nil in Ea, Eb, Ec. subst. split; [|intros _; apply ok_nothing]. intros _. split; [reflexivity|]. intros [N|[N|N]]; congruence.
    - fold kids. rewrite !ok_then, (ok_all (write_oneof g d)). split.
      + intros (_ & _ & _ & _ & _ & K & _ & O & _). split; [exact K|]. intros _. exact O.
      + intros (K & O). repeat match goal with |- _ /\ _ => split end; try apply ok_writeln; try assumption.
        * apply ok_when. intros. apply ok_writeln.
        * apply O. destruct Ne as [Ne|[Ne|Ne]]; [left|right; left|right; right]; intros ->; now apply Ne. }
  rewrite Step. clear Step.
  assert (Kd : succeeds (kids (map msg_sanitize_names (m_messages m4)) (m_messages m4)) <->
    forall k y, nth_error (m_messages m4) k = Some y -> succeeds (write_message_text g d d4 (msg_sanitize_names y) y)).
  { clear. induction (m_messages m4) as [|y l IHl]; cbn [map kids]; [split; [intros _ [|k] x; discriminate|reflexivity]|].
    fold kids. rewrite ok_then, IHl. split.
    - intros (A & B) [|k] x N; [injection N as <-; exact A|]. exact (B k x N).
    - intros A. split; [exact (A 0%nat y eq_refl)|]. intros k x N. exact (A (S k) x N). }
  rewrite Kd. clear Kd. rewrite Forall_forall in IH. split.
  - intros (It & Kd & _). split; [exact (items_need i _ G It)|]. intros p x Gp. apply Kids in Gp. destruct Gp as (k & y & N & Cs).
    pose proof (proj1 (IH y (nth_error_In _ _ N) _ (Sub k y N)) (Kd k y N)) as (A & B).
    destruct Cs as [(_ & ->)|(r & _ & Gr)]; [exact A|exact (B r x Gr)].
  - intros (Wm & Wk). split; [exact (items_total i _ G Wm)|]. split.
    + intros k y N. apply (IH y (nth_error_In _ _ N) _ (Sub k y N)). split; [apply (Wk [k])|intros p x Gp; apply (Wk (k :: p))]; apply Kids; exists k, y; split; auto.
      right. eauto.
    + intros _ o Ho. apply (oneof_text_total i _ G o Ho). intros f Hf V. exact (proj2 Wm o f Ho Hf V).
Qed.
End Success.
