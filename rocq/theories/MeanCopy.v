(** Lemmas for C90: an imported message has the same code in its own file. *)
From Coq Require Import String Ascii Arith Lia Bool.
From Verif Require Import Props_Paths Props_Passes Props_Accepted Props_Lifetime Base Schema Gen Keywords Modules KeywordFacts ModuleFacts Passes GenCheck Cycles CycleFacts BreakFacts IndexFacts
  Pipeline PassFacts ResolveFacts AcceptFacts Lifetime LifetimeFacts Parser ProtoText FileText ParserOut Import Paths PathFacts PlaceFacts.
From Verif Require Import RustTypes Emit Output GenText RustLex RustAst GenAst GenGood RustSem Meaning MeanNames MeanImports.
Import Schema StringSyntax.
Local Open Scope string_scope.
Local Open Scope list_scope.

(** ** Copies *)

(** The messages and enums of a file have other numbers in a file that imports
    it: [pm] and [pe] give them. *)
Section Renamed.
Variables (pm : midx -> midx) (pe : eidx -> eidx).
Fixpoint map_type (t : field_type) : field_type :=
  match t with
  | TMessage i => TMessage (pm i)
  | TEnum q => TEnum (pe q)
  | TMap k v => TMap (map_type k) (map_type v)
  | t => t
  end.
Definition map_field (f : field) : field :=
  mkField (f_name f) (f_freq f) (map_type (f_typ f)) (f_number f) (f_default f) (f_packed f) (f_boxed f) (f_deprecated f).

(** [x] in the importing file is [y] in its own: the same but for the numbers,
    and for what says that it is imported *)
Definition same_oneof (x y : oneof) : Prop := o_name x = o_name y /\ o_module x = o_module y /\ o_fields x = map map_field (o_fields y).
Record same_message (x y : message) : Prop := mkSameMessage {
  sm_name : m_name x = m_name y;
  sm_module : m_module x = m_module y;
  sm_fields : m_fields x = map map_field (m_fields y);
  sm_oneofs : Forall2 same_oneof (m_oneofs x) (m_oneofs y);
  sm_nested : length (m_messages x) = length (m_messages y) }.
Definition same_enum (x y : enumerator) : Prop := en_name x = en_name y /\ en_module x = en_module y /\ en_fields x = en_fields y.

(** [d1] has a copy of everything that is in [d2] *)
Record copies (d1 d2 : file_descriptor) : Prop := mkCopies {
  cp_syntax : d_syntax d1 = d_syntax d2;
  cp_messages : forall j y, get_message d2 j = Some y -> exists x, get_message d1 (pm j) = Some x /\ same_message x y;
  cp_nested : forall j k y, get_message d2 (j ++ [k]) = Some y -> j <> [] -> pm (j ++ [k]) = pm j ++ [k];
  cp_enums : forall q y, get_enum d2 q = Some y -> exists x, get_enum d1 (pe q) = Some x /\ same_enum x y;
  cp_top : forall k y, get_message d2 [k] = Some y -> exists k' x, pm [k] = [k'] /\ get_message d1 [k'] = Some x /\ m_package x = m_package y;
  cp_owner : forall q y, get_enum d2 q = Some y -> e_msg (pe q) = match e_msg q with [] => [] | j => pm j end;
  cp_package : forall q x y, e_msg q = [] -> get_enum d2 q = Some y -> get_enum d1 (pe q) = Some x -> en_package x = en_package y }.
End Renamed.

(** ** The code *)
Section Copy.
Variables (g : gen_config) (pm : midx -> midx) (pe : eidx -> eidx) (d1 d10 d2 d20 : file_descriptor).
Notation mt := (map_type pm pe).
Notation mf := (map_field pm pe).
Let c := g_passes g.
Hypothesis Copies : copies pm pe d1 d2.
Hypothesis Copies0 : copies pm pe d10 d20.
Hypothesis Pack1 : d_package d1 <> "".
Hypothesis Pack2 : d_package d2 <> "".
(** the types are there *)
Definition known (t : field_type) : Prop := forall u, In u (leaves t) ->
  match u with
  | TMessage j => exists y, get_message d2 j = Some y
  | TEnum q => (exists y, get_enum d2 q = Some y) /\ exists y, get_enum d20 q = Some y
  | TMessageOrEnum _ => False
  | _ => True
  end.
Hypothesis Known : forall j y f, get_message d2 j = Some y -> field_of y f -> known (f_typ f).
Hypothesis Idx1 : indexed d1.
Hypothesis Idx2 : indexed d2.
Hypothesis Refs1 : forall i m f j, get_message d1 i = Some m -> In f (all_fields m) -> In (TMessage j) (leaves (f_typ f)) -> exists m', get_message d1 j = Some m'.

Lemma Refs2 : forall i m f j, get_message d2 i = Some m -> In f (all_fields m) -> In (TMessage j) (leaves (f_typ f)) -> exists m', get_message d2 j = Some m'.
Proof. intros i m f j G F H. exact (Known i m f G (proj2 (field_of_all m f) F) _ H). Qed.
Lemma known_map : forall k v, known (TMap k v) -> known k /\ known v.
Proof. intros k v H. split; intros u Hu; apply H; cbn [leaves]; apply in_app_iff; auto. Qed.
Lemma leaves_map : forall t, leaves (mt t) = map mt (leaves t).
Proof. induction t; try reflexivity. cbn [map_type leaves]. now rewrite IHt1, IHt2, map_app. Qed.
Lemma all_fields_same : forall x y, same_message pm pe x y -> all_fields x = map mf (all_fields y).
Proof.
  intros x y [_ _ F O _]. unfold all_fields. rewrite F, map_app. f_equal. clear F. induction O as [|a b la lb (_ & _ & E) O IH]; [reflexivity|].
  cbn [flat_map]. rewrite E, map_app. now rewrite IH.
Qed.

(** *** Paths *)
Lemma path_segments : forall d, d_package d <> "" -> forall module imported, module_path module imported (d_package d) = segments module.
Proof.
  intros d N module imported. rewrite module_path_segments. destruct (String.eqb_spec (d_package d) "") as [E|_]; [contradiction|reflexivity].
Qed.
Lemma message_path_same : forall x y, same_message pm pe x y -> message_path d1 x = message_path d2 y.
Proof. intros x y [A B _ _ _]. unfold message_path. now rewrite (path_segments d1 Pack1), (path_segments d2 Pack2), A, B. Qed.
Lemma enum_path_same : forall x y, same_enum x y -> enum_path d1 x = enum_path d2 y.
Proof. intros x y (A & B & _). unfold enum_path. now rewrite (path_segments d1 Pack1), (path_segments d2 Pack2), A, B. Qed.
Lemma oneof_path_same : forall x y, same_oneof pm pe x y -> oneof_path d1 x = oneof_path d2 y.
Proof. intros x y (A & B & _). unfold oneof_path. now rewrite (path_segments d1 Pack1), (path_segments d2 Pack2), A, B. Qed.
Lemma qualified_same : forall x y, same_enum x y -> qualified_value x = qualified_value y.
Proof. intros x y (A & B & E). unfold qualified_value. now rewrite A, B, E. Qed.

(** *** Lifetimes *)
Lemma packed_same : forall f, f_is_packed (mf f) = f_is_packed f. Proof. reflexivity. Qed.
Lemma fixed_same : forall t, is_fixed_size (mt t) = is_fixed_size t. Proof. now destruct t. Qed.
Lemma itself_same : forall b t, borrows_itself b (mt t) <-> borrows_itself b t.
Proof.
  intros b t. unfold borrows_itself. rewrite fixed_same, leaves_map.
  assert (L : forall u, (match u with TMessage _ | TEnum _ | TMap _ _ => False | _ => True end) -> (In u (map mt (leaves t)) <-> In u (leaves t))).
  { intros u U. split; intros H.
    - apply in_map_iff in H. destruct H as (v & E & H). destruct v; cbn in E; subst; try exact H; destruct U.
    - apply in_map_iff. exists u. split; [|exact H]. destruct u; try reflexivity; destruct U. }
  rewrite (L TStringCow Logic.I), (L TBytesCow Logic.I).
  assert (E : forall u, (match u with TMessage _ | TEnum _ | TMap _ _ => False | _ => True end) -> (mt t = u <-> t = u)).
  { intros u U. split; intros H; [destruct t; cbn in H; subst; try reflexivity; destruct U|subst t; destruct u; try reflexivity; destruct U]. }
  now rewrite (E TString Logic.I), (E TBytes Logic.I).
Qed.
Lemma needs_same : forall j y, get_message d2 j = Some y -> (needs c d1 (pm j) <-> needs c d2 j).
Proof.
  assert (A : forall j, needs c d2 j -> needs c d1 (pm j)).
  { intros j H. induction H as [j (y & f & G & F & V & B)|i j (y & f & G & F & V & B) H IH];
      destruct (cp_messages _ _ _ _ Copies _ y G) as (x & Gx & S); pose proof (all_fields_same x y S) as E.
    - apply needs_here. exists x, (mf f). split; [exact Gx|]. split; [rewrite E; now apply in_map|]. split; [exact V|]. now apply itself_same.
    - apply needs_step with (pm j); [|exact IH]. exists x, (mf f). split; [exact Gx|]. split; [rewrite E; now apply in_map|]. split; [exact V|].
      cbn [map_field f_typ]. rewrite leaves_map. exact (in_map mt _ _ B). }
  assert (B : forall i, needs c d1 i -> forall j y, i = pm j -> get_message d2 j = Some y -> needs c d2 j).
  { intros i H. induction H as [i (x & f & G & F & V & B)|i i' (x & f & G & F & V & B) H IH]; intros j y -> Gy;
      destruct (cp_messages _ _ _ _ Copies _ y Gy) as (x' & Gx & S); rewrite Gx in G; injection G as ->; rewrite (all_fields_same x y S) in F;
      apply in_map_iff in F; destruct F as (f' & <- & F).
    - apply needs_here. exists y, f'. repeat (split; [assumption|]). now apply itself_same.
    - cbn [map_field f_typ] in B. rewrite leaves_map in B. apply in_map_iff in B. destruct B as (u & E & B).
      destruct u; try discriminate E. injection E as <-. destruct (Refs2 j y f' m Gy F B) as (y' & Gy').
      apply needs_step with m; [exists y, f'; auto|]. exact (IH m y' eq_refl Gy'). }
  intros j y G. split; [intros H; exact (B _ H j y eq_refl G)|apply A].
Qed.
Lemma index_lifetime_same : forall j y, get_message d2 j = Some y -> index_has_lifetime c d1 [] (pm j) = index_has_lifetime c d2 [] j.
Proof.
  intros j y G. destruct (cp_messages _ _ _ _ Copies _ y G) as (x & Gx & _).
  destruct (index_has_lifetime_total c d1 Idx1 Refs1 (pm j) x Gx) as (b1 & E1 & K1). destruct (index_has_lifetime_total c d2 Idx2 Refs2 j y G) as (b2 & E2 & K2).
  rewrite E1, E2. f_equal. rewrite (needs_same j y G), <- K2 in K1. destruct b1, b2; try reflexivity; [symmetry|]; now apply K1.
Qed.
Lemma lifetime_same : forall j x y, get_message d2 j = Some y -> get_message d1 (pm j) = Some x ->
  message_has_lifetime c d1 (lifetime_fuel d1) [] x = message_has_lifetime c d2 (lifetime_fuel d2) [] y.
Proof. intros j x y G Gx. pose proof (index_lifetime_same j y G) as H. unfold index_has_lifetime in H. now rewrite G, Gx in H. Qed.
Lemma own_lifetime_same : forall j x y, get_message d2 j = Some y -> get_message d1 (pm j) = Some x -> own_lifetime g d1 x = own_lifetime g d2 y.
Proof.
  intros j x y G Gx. unfold own_lifetime. fold c. destruct (c_dont_use_cow c); [|now apply (lifetime_same j)].
  now rewrite (ignored_has_lifetime c d1 (pm j) x), (ignored_has_lifetime c d2 j y).
Qed.
Lemma type_lifetime_same : forall b t, known t -> type_has_lifetime (index_has_lifetime c d1 []) b (mt t) = type_has_lifetime (index_has_lifetime c d2 []) b t.
Proof.
  intros b t. revert b. induction t; intros b H; try reflexivity.
  - cbn [map_type type_has_lifetime]. destruct (H _ (or_introl eq_refl)) as (y & G). exact (index_lifetime_same m y G).
  - destruct (known_map _ _ H) as (H1 & H2). cbn [map_type type_has_lifetime]. now rewrite (IHt1 false H1), (IHt2 false H2).
Qed.
Lemma oneof_lifetime_same : forall x y, same_oneof pm pe x y -> (forall f, In f (o_fields y) -> known (f_typ f)) ->
  oneof_has_lifetime c d1 x = oneof_has_lifetime c d2 y.
Proof.
  intros x y (_ & _ & E) K. unfold oneof_has_lifetime. rewrite E. clear E. induction (o_fields y) as [|f l IH]; [reflexivity|]. cbn [map gany].
  change (f_typ (mf f)) with (mt (f_typ f)). rewrite packed_same, (type_lifetime_same _ _ (K f (or_introl eq_refl))).
  rewrite IH; [reflexivity|]. intros f' H. apply K. now right.
Qed.

(** *** Types *)
Lemma type_ast_same : forall t, known t -> type_ast g d1 (mt t) = type_ast g d2 t.
Proof.
  induction t; intros H; try reflexivity; cbn [map_type type_ast].
  - destruct (H _ (or_introl eq_refl)) as ((y & G) & _). destruct (cp_enums _ _ _ _ Copies _ y G) as (x & -> & S). rewrite G. now rewrite (enum_path_same x y S).
  - destruct (H _ (or_introl eq_refl)) as (y & G). destruct (cp_messages _ _ _ _ Copies _ y G) as (x & Gx & S). rewrite Gx, G.
    rewrite (message_path_same x y S). fold c. now rewrite (lifetime_same m x y G Gx).
  - destruct (known_map _ _ H) as (H1 & H2). now rewrite IHt1, IHt2.
Qed.
Lemma default_same : forall t, known t -> singular_default_exp d1 d10 (mt t) = singular_default_exp d2 d20 t.
Proof.
  destruct t; intros H; try reflexivity; cbn [map_type singular_default_exp].
  - destruct (H _ (or_introl eq_refl)) as (_ & y & G). destruct (cp_enums _ _ _ _ Copies0 _ y G) as (x & -> & S). rewrite G. now rewrite (qualified_same x y S).
  - destruct (H _ (or_introl eq_refl)) as (y & G). destruct (cp_messages _ _ _ _ Copies _ y G) as (x & -> & S). rewrite G. now rewrite (message_path_same x y S).
Qed.
Lemma read_same : forall t, known t -> read_exp d1 (mt t) = read_exp d2 t.
Proof.
  destruct t; intros H; try reflexivity. unfold read_exp. cbn [map_type].
  destruct (H _ (or_introl eq_refl)) as (y & G). destruct (cp_messages _ _ _ _ Copies _ y G) as (x & -> & S). rewrite G. now rewrite (message_path_same x y S).
Qed.
Lemma read_boxed_same : forall t, known t -> read_boxed_exp d1 (mt t) = read_boxed_exp d2 t.
Proof. intros t H. pose proof (read_same t H) as E. now destruct t. Qed.
Lemma size_same : forall t s, size_terms (mt t) s = size_terms t s.
Proof. induction t; intros s; try reflexivity. cbn [map_type size_terms]. now rewrite IHt1, IHt2. Qed.
Lemma gen_tag_same : forall n t b, gen_tag n (mt t) b = gen_tag n t b. Proof. now destruct t. Qed.
Lemma write_same : forall t s b, write_op (mt t) s b = write_op t s b.
Proof. induction t; intros s b; try reflexivity. cbn [map_type write_op]. rewrite (size_same (TMap t1 t2) zero : size_terms (TMap (mt t1) (mt t2)) zero = _). now rewrite IHt1, IHt2, !gen_tag_same. Qed.
Lemma deref_same : forall t, need_to_dereference (mt t) = need_to_dereference t. Proof. now destruct t. Qed.
Lemma cow_same : forall t, is_cow (mt t) = is_cow t. Proof. now destruct t. Qed.
Lemma owned_same : forall t, is_non_cow_string_or_byte (mt t) = is_non_cow_string_or_byte t. Proof. now destruct t. Qed.
Lemma primitive_same : forall t, is_primitive (mt t) = is_primitive t. Proof. now destruct t. Qed.
Lemma wire_same : forall t, wire_type_num_non_packed (mt t) = wire_type_num_non_packed t. Proof. now destruct t. Qed.
Lemma tag_same : forall f, field_tag (mf f) = field_tag f. Proof. intros f. unfold field_tag. cbn [map_field f_typ f_number]. rewrite gen_tag_same. reflexivity. Qed.

(** *** Fields *)
Section Field.
Variable f : field.
Hypothesis K : known (f_typ f).
Lemma hidden_same : hidden g (mf f) = hidden g f. Proof. reflexivity. Qed.
Lemma tag_pattern_same : tag_pattern (mf f) = tag_pattern f. Proof. unfold tag_pattern. now rewrite tag_same. Qed.
Lemma tag_size_same : tag_size (mf f) = tag_size f. Proof. unfold tag_size. now rewrite tag_same. Qed.
Lemma const_type_same : const_type g d1 (mf f) = const_type g d2 f.
Proof.
  unfold const_type. cbn [map_field f_typ]. pose proof (type_ast_same _ K) as E. now destruct (f_typ f).
Qed.
Lemma must_const_same : must_generate_const (d_syntax d1) c (mf f) = must_generate_const (d_syntax d2) c f.
Proof.
  clear K.
  unfold must_generate_const, has_valid_visible_custom_default. rewrite (cp_syntax _ _ _ _ Copies). cbn [map_field f_typ f_freq f_default f_deprecated].
  replace (match mt (f_typ f) with TMessage _ => false | _ => true end) with (match f_typ f with TMessage _ => false | _ => true end) by (now destruct (f_typ f)). reflexivity.
Qed.
Lemma must_default_same : must_generate_impl_default (d_syntax d1) c (mf f) = must_generate_impl_default (d_syntax d2) c f.
Proof.
  clear K.
  unfold must_generate_impl_default, has_valid_visible_custom_default. rewrite (cp_syntax _ _ _ _ Copies). cbn [map_field f_typ f_freq f_default f_deprecated].
  replace (match mt (f_typ f) with TMessage _ => false | _ => true end) with (match f_typ f with TMessage _ => false | _ => true end) by (now destruct (f_typ f)). reflexivity.
Qed.
Lemma getter_same : getter_items g d1 (mf f) = getter_items g d2 f.
Proof.
  unfold getter_items, must_generate_getter. fold c. rewrite must_const_same, const_type_same. cbn [map_field f_typ f_name]. unfold const_name. cbn [map_field f_name].
  rewrite cow_same. now destruct (f_typ f).
Qed.
Lemma can_const_same : can_write_default_const (d_syntax d1) c (mf f) = can_write_default_const (d_syntax d2) c f.
Proof. unfold can_write_default_const. rewrite (cp_syntax _ _ _ _ Copies). cbn [map_field f_typ f_freq f_default f_deprecated]. now rewrite deref_same, cow_same, owned_same. Qed.
Lemma const_same : const_items g d1 (mf f) = const_items g d2 f.
Proof. unfold const_items. fold c. rewrite can_const_same, const_type_same. reflexivity. Qed.
Lemma default_exp_same : default_exp g d1 d10 (mf f) = default_exp g d2 d20 f.
Proof.
  unfold default_exp. rewrite packed_same. cbn [map_field f_typ f_freq f_default f_boxed]. rewrite fixed_same, (default_same _ K).
  destruct (generated_type_of (f_freq f)); [|reflexivity|reflexivity]. destruct (f_boxed f); [reflexivity|]. destruct (freq_is_optional (f_freq f)); [reflexivity|].
  destruct (f_default f); [|reflexivity]. now destruct (f_typ f).
Qed.
Lemma inits_same : field_inits g d1 d10 (mf f) = field_inits g d2 d20 f.
Proof. unfold field_inits. now rewrite hidden_same, default_exp_same. Qed.
Lemma field_type_same : field_type_ast g d1 (mf f) = field_type_ast g d2 f.
Proof. unfold field_type_ast. rewrite packed_same. cbn [map_field f_typ f_freq f_boxed]. now rewrite fixed_same, (type_ast_same _ K). Qed.
Lemma struct_fields_same : struct_fields g d1 (mf f) = struct_fields g d2 f.
Proof. unfold struct_fields. rewrite hidden_same, field_type_same. reflexivity. Qed.
Lemma read_arms_same : read_arms g d1 (mf f) = read_arms g d2 f.
Proof.
  unfold read_arms. rewrite hidden_same, packed_same, tag_pattern_same. cbn [map_field f_typ f_freq f_boxed f_name].
  rewrite (read_same _ K), (read_boxed_same _ K), fixed_same. unfold read_closure. rewrite (read_same _ K).
  destruct (hidden g f); [reflexivity|]. destruct (f_boxed f); [reflexivity|]. destruct (generated_type_of (f_freq f)); try reflexivity.
  destruct (f_typ f); try reflexivity. cbn [map_type]. destruct (known_map _ _ K) as (K1 & K2). now rewrite (read_same _ K1), (read_same _ K2).
Qed.
Lemma size_terms_same : field_size_terms g d1 d10 (mf f) = field_size_terms g d2 d20 f.
Proof.
  unfold field_size_terms, size_addition_terms, option_pat. rewrite hidden_same, packed_same, tag_size_same, default_exp_same.
  assert (P : has_presence (mf f) = has_presence f) by (unfold has_presence; cbn [map_field f_typ f_freq]; now destruct (f_freq f), (f_typ f)).
  rewrite P. cbn [map_field f_typ f_freq f_boxed f_name]. unfold deref_pat. rewrite !size_same, primitive_same, wire_same, deref_same.
  destruct (hidden g f); [reflexivity|]. destruct (generated_type_of (f_freq f)).
  - assert (Z : forall s, size_terms (mt (f_typ f)) s = size_terms (f_typ f) s) by (intros s; apply size_same). rewrite ?Z. reflexivity.
  - rewrite ?size_same. reflexivity.
  - destruct (f_typ f); try reflexivity. cbn [map_type]. rewrite !deref_same. reflexivity.
Qed.
Lemma writes_same : field_writes g d1 d10 (mf f) = field_writes g d2 d20 f.
Proof.
  unfold field_writes, write_method_exp, write_with_tag, unwrapping_exp, option_pat. rewrite hidden_same, packed_same, tag_same, default_exp_same.
  assert (P : has_presence (mf f) = has_presence f) by (unfold has_presence; cbn [map_field f_typ f_freq]; now destruct (f_freq f), (f_typ f)).
  rewrite P. cbn [map_field f_typ f_freq f_boxed f_name]. unfold deref_pat. rewrite !size_same, !write_same, primitive_same, fixed_same, deref_same, cow_same, owned_same.
  destruct (hidden g f); [reflexivity|]. destruct (generated_type_of (f_freq f)); try reflexivity.
  destruct (f_typ f); try reflexivity. cbn [map_type]. rewrite !deref_same. reflexivity.
Qed.
End Field.

(** *** Lists of fields *)
Lemma flat_same : forall {B} (h1 h2 : field -> list B) l, (forall f, In f l -> h1 (mf f) = h2 f) -> flat_map h1 (map mf l) = flat_map h2 l.
Proof. intros B h1 h2 l. induction l as [|f l IH]; intros H; [reflexivity|]. cbn. rewrite (H f (or_introl eq_refl)), IH; [reflexivity|]. intros x Hx. apply H. now right. Qed.
Lemma exists_same : forall (h1 h2 : field -> bool) l, (forall f, In f l -> h1 (mf f) = h2 f) -> existsb h1 (map mf l) = existsb h2 l.
Proof. intros h1 h2 l. induction l as [|f l IH]; intros H; [reflexivity|]. cbn. rewrite (H f (or_introl eq_refl)), IH; [reflexivity|]. intros x Hx. apply H. now right. Qed.
Lemma map_same : forall {B} (h1 h2 : field -> B) l, (forall f, In f l -> h1 (mf f) = h2 f) -> map h1 (map mf l) = map h2 l.
Proof. intros B h1 h2 l. induction l as [|f l IH]; intros H; [reflexivity|]. cbn. rewrite (H f (or_introl eq_refl)), IH; [reflexivity|]. intros x Hx. apply H. now right. Qed.

(** *** Oneofs *)
Section Oneof.
Variables x y : oneof.
Hypothesis S : same_oneof pm pe x y.
Hypothesis K : forall f, In f (o_fields y) -> known (f_typ f).
Lemma oneof_name_same : oneof_name x = oneof_name y. Proof. unfold oneof_name. now rewrite (proj1 S). Qed.
Lemma oneof_lt_same : oneof_lt g d1 x = oneof_lt g d2 y. Proof. unfold oneof_lt. fold c. now rewrite (oneof_lifetime_same x y S K). Qed.
Lemma shown_same : oneof_shown g x = map mf (oneof_shown g y).
Proof.
  unfold oneof_shown. rewrite (proj2 (proj2 S)). clear S K. induction (o_fields y) as [|f l IH]; [reflexivity|]. cbn [map filter].
  change (f_deprecated (mf f)) with (f_deprecated f). rewrite IH. now destruct (negb (f_deprecated f) || _).
Qed.
Lemma shown_known : forall f, In f (oneof_shown g y) -> known (f_typ f).
Proof. intros f H. apply filter_In in H. now apply K. Qed.
Lemma oneof_items_same : oneof_items g d1 x = oneof_items g d2 y.
Proof.
  unfold oneof_items. rewrite oneof_name_same, oneof_lt_same, (proj2 (proj2 S)). rewrite (flat_same _ (oneof_variant g d2 y)); [reflexivity|].
  intros f F. unfold oneof_variant. rewrite hidden_same. cbn [map_field f_typ f_boxed f_name]. rewrite (type_ast_same _ (K f F)). reflexivity.
Qed.
Lemma oneof_field_same : oneof_field g d1 x = oneof_field g d2 y.
Proof. unfold oneof_field. now rewrite (proj1 S), (oneof_path_same x y S), oneof_lt_same. Qed.
Lemma oneof_init_same : oneof_init d1 x = oneof_init d2 y.
Proof. unfold oneof_init. now rewrite (proj1 S), (oneof_path_same x y S). Qed.
Lemma oneof_arms_same : oneof_read_arms g d1 x = oneof_read_arms g d2 y.
Proof.
  unfold oneof_read_arms. rewrite shown_same, (oneof_path_same x y S), (proj1 S). apply map_same. intros f F. pose proof (shown_known f F) as Kf.
  rewrite tag_pattern_same. cbn [map_field f_typ f_boxed f_name]. now rewrite (read_same _ Kf), (read_boxed_same _ Kf).
Qed.
Lemma oneof_size_same : oneof_size g d1 x = oneof_size g d2 y.
Proof.
  unfold oneof_size. rewrite shown_same, (proj1 S). unfold oneof_none, oneof_pattern. rewrite (oneof_path_same x y S). do 2 f_equal. apply map_same. intros f F.
  rewrite tag_size_same. cbn [map_field f_typ f_boxed f_name]. now rewrite fixed_same, deref_same, !size_same.
Qed.
Lemma oneof_write_same : oneof_write g d1 x = oneof_write g d2 y.
Proof.
  unfold oneof_write. rewrite shown_same, (proj1 S). unfold oneof_none, oneof_pattern. rewrite (oneof_path_same x y S). do 3 f_equal. apply map_same. intros f F.
  unfold write_with_tag. rewrite tag_same. cbn [map_field f_typ f_boxed f_name]. now rewrite deref_same, write_same.
Qed.
End Oneof.

(** *** Messages *)
Lemma oneofs_map : forall {B} (h1 h2 : oneof -> B) l1 l2, Forall2 (same_oneof pm pe) l1 l2 ->
  (forall x y, In y l2 -> same_oneof pm pe x y -> h1 x = h2 y) -> map h1 l1 = map h2 l2.
Proof.
  intros B h1 h2 l1 l2 F H. induction F as [|x y l1 l2 S F IH]; [reflexivity|]. cbn. rewrite (H x y (or_introl eq_refl) S), IH; [reflexivity|].
  intros x' y' I. apply H. now right.
Qed.
Lemma oneofs_flat : forall {B} (h1 h2 : oneof -> list B) l1 l2, Forall2 (same_oneof pm pe) l1 l2 ->
  (forall x y, In y l2 -> same_oneof pm pe x y -> h1 x = h2 y) -> flat_map h1 l1 = flat_map h2 l2.
Proof. intros B h1 h2 l1 l2 F H. now rewrite !flat_map_concat_map, (oneofs_map h1 h2 l1 l2 F H). Qed.

Lemma is_unit_same : forall y x j, get_message d2 j = Some y -> get_message d1 (pm j) = Some x -> same_message pm pe x y -> is_unit x = is_unit y.
Proof.
  induction y as [y IH] using message_tree_ind. intros x j G Gx [_ _ F O N].
  assert (E : forallb is_unit (m_messages x) = forallb is_unit (m_messages y)).
  { assert (K : forall k b, nth_error (m_messages y) k = Some b -> exists a, nth_error (m_messages x) k = Some a /\ is_unit a = is_unit b).
    { intros k b Nb. assert (Gb : get_message d2 (j ++ [k]) = Some b) by (rewrite get_message_eq in G |- *; now apply (get_in_child _ _ y)).
      destruct (cp_messages _ _ _ _ Copies _ b Gb) as (a & Ga & Sab).
      assert (Nj : j <> []) by (intros ->; rewrite get_message_eq in G; discriminate G).
      pose proof Ga as Ga'. rewrite (cp_nested _ _ _ _ Copies j k b Gb Nj) in Ga. exists a.
      rewrite get_message_eq in Gx, Ga. rewrite (get_in_app _ _ [k] x Gx ltac:(discriminate)) in Ga. split.
      - cbn in Ga. now destruct (nth_error (m_messages x) k).
      - rewrite Forall_forall in IH. exact (IH b (nth_error_In _ _ Nb) a (j ++ [k]) Gb Ga' Sab). }
    clear - K N. revert K N. generalize (m_messages x). induction (m_messages y) as [|b ly IH]; intros [|a lx] K N; try reflexivity; try discriminate N.
    cbn [forallb]. destruct (K O b eq_refl) as (a' & Ea & Eu). cbn in Ea. injection Ea as <-. rewrite Eu. f_equal. apply IH; [|now injection N].
    intros k b' Nb. exact (K (Datatypes.S k) b' Nb). }
  destruct x as [? xf xo ? ? ? ? xm ? ? ?], y as [? yf yo ? ? ? ? ym ? ? ?]. cbn in *. subst xf. destruct O; destruct yf; cbn; try reflexivity. exact E.
Qed.

Section Message.
Variables (j : midx) (x y : message).
Hypothesis G : get_message d2 j = Some y.
Hypothesis Gx : get_message d1 (pm j) = Some x.
Hypothesis S : same_message pm pe x y.
Lemma field_known : forall f, In f (m_fields y) -> known (f_typ f).
Proof. intros f F. apply (Known j y f G). now left. Qed.
Lemma oneof_known : forall o, In o (m_oneofs y) -> forall f, In f (o_fields o) -> known (f_typ f).
Proof. intros o O f F. apply (Known j y f G). right. eauto. Qed.
Lemma own_lt_same : own_lt g d1 x = own_lt g d2 y.
Proof. unfold own_lt. now rewrite (own_lifetime_same j x y G Gx). Qed.
Lemma unit_same : is_unit x = is_unit y.
Proof. exact (is_unit_same y x j G Gx S). Qed.
Lemma own_type_same : own_type g d1 x = own_type g d2 y. Proof. unfold own_type. now rewrite own_lt_same, (sm_name _ _ _ _ S). Qed.
Lemma inherent_same : forall l, inherent_impl g d1 x l = inherent_impl g d2 y l.
Proof. intros l. unfold inherent_impl. now rewrite own_lt_same, own_type_same. Qed.
Lemma impl_default_same : message_must_generate_impl_default (d_syntax d1) c x = message_must_generate_impl_default (d_syntax d2) c y.
Proof. unfold message_must_generate_impl_default. rewrite (sm_fields _ _ _ _ S). apply exists_same. intros f _. apply must_default_same. Qed.
Lemma attrs_same : message_attrs g d1 x = message_attrs g d2 y.
Proof. unfold message_attrs, derive_text. fold c. now rewrite impl_default_same. Qed.
Theorem message_items_same : message_items g d1 d10 x = message_items g d2 d20 y.
Proof.
  unfold message_items. fold c.
  assert (E1 : definition_item g d1 x = definition_item g d2 y).
  { unfold definition_item. rewrite unit_same, attrs_same, (sm_name _ _ _ _ S), own_lt_same, (sm_fields _ _ _ _ S).
    rewrite (flat_same _ (struct_fields g d2)) by (intros f F; apply struct_fields_same, field_known, F).
    rewrite (oneofs_map _ (oneof_field g d2) _ _ (sm_oneofs _ _ _ _ S)); [reflexivity|]. intros a b I Sab. exact (oneof_field_same a b Sab (oneof_known b I)). }
  assert (E2 : consts_items g d1 x = consts_items g d2 y).
  { unfold consts_items. fold c. rewrite inherent_same, (sm_fields _ _ _ _ S).
    rewrite (exists_same _ (can_write_default_const (d_syntax d2) c)) by (intros f _; apply can_const_same).
    rewrite (flat_same _ (const_items g d2)) by (intros f F; apply const_same, field_known, F). now rewrite (cp_syntax _ _ _ _ Copies). }
  assert (E3 : getters_items g d1 x = getters_items g d2 y).
  { unfold getters_items. rewrite inherent_same, (sm_fields _ _ _ _ S).
    now rewrite (flat_same _ (getter_items g d2)) by (intros f F; apply getter_same, field_known, F). }
  assert (E4 : message_default g d1 d10 x = message_default g d2 d20 y).
  { unfold message_default. rewrite unit_same, (sm_name _ _ _ _ S), own_lt_same, own_type_same, (sm_fields _ _ _ _ S).
    rewrite (flat_same _ (field_inits g d2 d20)) by (intros f F; apply inits_same, field_known, F).
    rewrite (oneofs_map _ (oneof_init d2) _ _ (sm_oneofs _ _ _ _ S)); [reflexivity|]. intros a b I Sab. exact (oneof_init_same a b Sab). }
  assert (E5 : message_read g d1 x = message_read g d2 y).
  { unfold message_read. rewrite unit_same, (sm_name _ _ _ _ S), own_type_same, (sm_fields _ _ _ _ S).
    rewrite (flat_same _ (read_arms g d2)) by (intros f F; apply read_arms_same, field_known, F).
    rewrite (oneofs_flat _ (oneof_read_arms g d2) _ _ (sm_oneofs _ _ _ _ S)); [reflexivity|]. intros a b I Sab. exact (oneof_arms_same a b Sab (oneof_known b I)). }
  assert (E6 : message_write_impl g d1 d10 x = message_write_impl g d2 d20 y).
  { unfold message_write_impl, get_size_fn, write_message_fn. rewrite unit_same, (sm_name _ _ _ _ S), own_lt_same, own_type_same, (sm_fields _ _ _ _ S).
    rewrite (flat_same _ (field_size_terms g d2 d20)) by (intros f F; apply size_terms_same, field_known, F).
    rewrite (flat_same _ (field_writes g d2 d20)) by (intros f F; apply writes_same, field_known, F).
    rewrite (oneofs_map _ (oneof_size g d2) _ _ (sm_oneofs _ _ _ _ S)) by (intros a b I Sab; exact (oneof_size_same a b Sab)).
    rewrite (oneofs_map _ (oneof_write g d2) _ _ (sm_oneofs _ _ _ _ S)) by (intros a b I Sab; exact (oneof_write_same a b Sab)). reflexivity. }
  assert (E7 : message_info g d1 x = message_info g d2 y).
  { unfold message_info, path_const. now rewrite own_lt_same, own_type_same, (sm_name _ _ _ _ S), (sm_module _ _ _ _ S). }
  assert (E8 : owned_items g x = owned_items g y) by (unfold owned_items, path_const; now rewrite (sm_name _ _ _ _ S), (sm_module _ _ _ _ S)).
  assert (E9 : try_from_item x = try_from_item y) by (unfold try_from_item; now rewrite (sm_name _ _ _ _ S)).
  rewrite E1, E2, E3, E4, E5, E6, E7, E8, E9, impl_default_same, (lifetime_same j x y G Gx), (sm_fields _ _ _ _ S).
  rewrite (exists_same _ (must_generate_const (d_syntax d2) c)) by (intros f _; apply must_const_same).
  rewrite (exists_same _ (must_generate_getter g d2)) by (intros f _; unfold must_generate_getter; fold c; now rewrite must_const_same). reflexivity.
Qed.
End Message.

(** ** The program *)
Theorem program_same : 
  (forall j y, get_message d2 j = Some y -> p_struct (generated_program g d1 d10) (pm j) = p_struct (generated_program g d2 d20) j) /\
  (forall j y n, get_message d2 j = Some y -> p_oneof (generated_program g d1 d10) (pm j) n = p_oneof (generated_program g d2 d20) j n) /\
  (forall q y, get_enum d2 q = Some y -> get_enum d20 q <> None -> p_enum (generated_program g d1 d10) (pe q) = p_enum (generated_program g d2 d20) q).
Proof.
  cbn [generated_program p_struct p_oneof p_enum]. repeat match goal with |- _ /\ _ => split end.
  - intros j y G. destruct (cp_messages _ _ _ _ Copies _ y G) as (x & Gx & S). rewrite Gx, G. now apply (message_items_same j).
  - intros j y n G. destruct (cp_messages _ _ _ _ Copies _ y G) as (x & Gx & S). rewrite Gx, G. pose proof (sm_oneofs _ _ _ _ S) as O. pose proof (oneof_known j y G) as K.
    clear G Gx S. revert K. induction O as [|a b la lb Sab O IH]; intros K; [reflexivity|]. cbn [find]. rewrite (proj1 Sab). destruct (String.eqb n (o_name b)).
    + exact (oneof_items_same a b Sab (K b (or_introl eq_refl))).
    + apply IH. intros o I. apply K. now right.
  - intros q y G N. destruct (cp_enums _ _ _ _ Copies _ y G) as (x & Gx & (A & B & C0)). destruct (get_enum d20 q) as [y0|] eqn:G0; [|contradiction].
    destruct (cp_enums _ _ _ _ Copies0 _ y0 G0) as (x0 & Gx0 & (A0 & B0 & C1)). rewrite Gx, G, Gx0.
    unfold enum_items, enum_definition, enum_impls, enum_default_value, from_impl. now rewrite A, C0, A0, C1.
Qed.
End Copy.

(** ** Places *)
Lemma get_nested_in l : forall j k x, get_in l (j ++ [k]) = Some x -> j <> [] -> exists m, get_in l j = Some m /\ nth_error (m_messages m) k = Some x /\
  mods_in l (j ++ [k]) = mods_in l j ++ [modn m].
Proof.
  intros j. revert l. induction j as [|i j IH]; intros l k x G N; [contradiction|]. destruct j as [|i' j].
  - cbn in G |- *. destruct (nth_error l i) as [m|]; [|discriminate]. exists m. split; [reflexivity|]. now destruct (nth_error (m_messages m) k).
  - change ((i :: i' :: j) ++ [k]) with (i :: i' :: (j ++ [k])) in *. destruct (nth_error l i) as [m|] eqn:Ni; [|cbn in G; rewrite Ni in G; discriminate].
    assert (E1 : forall r, mods_in l (i :: i' :: r) = modn m :: mods_in (m_messages m) (i' :: r)) by (intros r; cbn [mods_in]; rewrite Ni; reflexivity).
    assert (E2 : forall r, get_in l (i :: i' :: r) = get_in (m_messages m) (i' :: r)) by (intros r; cbn [get_in]; rewrite Ni; reflexivity).
    rewrite E2 in G. destruct (IH (m_messages m) k x G) as (z & G1 & G2 & E); [discriminate|]. exists z. rewrite E2, !E1. split; [exact G1|]. split; [exact G2|].
    change (i' :: (j ++ [k])) with ((i' :: j) ++ [k]). rewrite E. reflexivity.
Qed.
Section Places.
Variables (pm : midx -> midx) (pe : eidx -> eidx) (d1 d2 : file_descriptor).
Hypothesis Copies : copies pm pe d1 d2.
(** a message is in the same modules, and in the same file *)
Lemma message_place : forall j y, get_message d2 j = Some y -> mods d1 (pm j) = mods d2 j /\ top_home d1 (pm j) = top_home d2 j.
Proof.
  intros j. induction j as [|k j IH] using rev_ind; intros y G; [discriminate|]. destruct j as [|i j].
  - cbn [app] in *. destruct (cp_top _ _ _ _ Copies k y G) as (k' & x & E & Gx & Pk). destruct (cp_messages _ _ _ _ Copies _ _ G) as (x' & Gx' & S).
    rewrite E in *. assert (x' = x) as -> by congruence. split; [reflexivity|]. cbn [top_home]. rewrite get_message_eq in G, Gx. cbn [get_in] in G, Gx.
    destruct (nth_error (d_messages d1) k'), (nth_error (d_messages d2) k); try discriminate. injection G as ->. injection Gx as ->.
    cbn [option_map]. now rewrite Pk, (sm_module _ _ _ _ S).
  - assert (N : i :: j <> []) by discriminate. rewrite (cp_nested _ _ _ _ Copies _ _ _ G N). pose proof G as G0.
    rewrite get_message_eq in G. destruct (get_nested_in _ _ _ _ G N) as (z & Gz & Nz & E). rewrite <- get_message_eq in Gz. destruct (IH z Gz) as (A & B).
    destruct (cp_messages _ _ _ _ Copies _ _ Gz) as (w & Gw & Sw). destruct (cp_messages _ _ _ _ Copies _ _ G0) as (v & Gv & _).
    rewrite (cp_nested _ _ _ _ Copies _ _ _ G0 N), get_message_eq in Gv.
    assert (N1 : pm (i :: j) <> []) by (intros X; rewrite X in Gw; discriminate).
    destruct (get_nested_in _ _ _ _ Gv N1) as (w' & Gw' & _ & E'). rewrite <- get_message_eq in Gw'. assert (w' = w) as -> by congruence. split.
    + unfold mods in *. rewrite E, E', A. unfold modn. now rewrite (sm_name _ _ _ _ Sw).
    + destruct (pm (i :: j)); [contradiction|]. exact B.
Qed.
Lemma own_place : forall j y, get_message d2 j = Some y -> own_module d1 (pm j) = own_module d2 j.
Proof.
  intros j y G. unfold own_module. destruct (cp_messages _ _ _ _ Copies _ _ G) as (x & Gx & S). now rewrite (proj1 (message_place j y G)), Gx, G, (sm_name _ _ _ _ S).
Qed.
Lemma enum_place : forall q y, get_enum d2 q = Some y -> module_of d1 (InEnum (pe q)) = module_of d2 (InEnum q) /\ home d1 (InEnum (pe q)) = home d2 (InEnum q).
Proof.
  intros q y G. cbn [module_of home]. rewrite (cp_owner _ _ _ _ Copies q y G). destruct (cp_enums _ _ _ _ Copies q y G) as (x & Gx & S).
  pose proof (fun X => cp_package _ _ _ _ Copies q x y X G Gx) as Pk. pose proof (cp_owner _ _ _ _ Copies q y G) as Ow. unfold get_enum in G, Gx. rewrite Ow in Gx. destruct (e_msg q) as [|k j].
  - split; [reflexivity|]. rewrite G, Gx. cbn [option_map]. destruct S as (_ & -> & _). now rewrite Pk.
  - destruct (get_message d2 (k :: j)) as [z|] eqn:Gz; [|discriminate]. destruct (cp_messages _ _ _ _ Copies _ _ Gz) as (w & Gw & _).
    destruct (pm (k :: j)) as [|k' j'] eqn:E; [discriminate|]. rewrite <- E. split; [exact (own_place _ _ Gz)|]. exact (proj2 (message_place _ _ Gz)).
Qed.
End Places.
