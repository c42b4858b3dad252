(** What each pass does to the message at an index. *)
From Coq Require Import String Arith Lia ZifyBool ZifyNat.
From Verif Require Import Base Schema Keywords Modules Passes GenCheck Cycles CycleFacts BreakFacts IndexFacts Pipeline.
Import StringSyntax.
Local Open Scope string_scope.
Local Open Scope list_scope.

(** ** Functions on trees of messages *)
Lemma get_in_map (G : message -> message) : (forall m, m_messages (G m) = map G (m_messages m)) ->
  forall p ms, get_in (map G ms) p = option_map G (get_in ms p).
Proof.
  intros H p. induction p as [|k q IH]; intros ms; [reflexivity|]. cbn [get_in]. rewrite nth_error_map.
  destruct (nth_error ms k) as [m|]; [|reflexivity]. cbn [option_map]. destruct q; [reflexivity|]. now rewrite H, IH.
Qed.
(** a function applied to the top-level messages only *)
Lemma get_in_top (g : message -> message) : (forall m, m_messages (g m) = m_messages m) ->
  forall p ms, get_in (map g ms) p = match p with [k] => option_map g (get_in ms p) | _ => get_in ms p end.
Proof.
  intros H [|k [|k' q]] ms; [reflexivity| |]; cbn [get_in]; rewrite nth_error_map; destruct (nth_error ms k) as [m|]; cbn; try reflexivity.
  now rewrite H.
Qed.

(** ** Fields related position by position *)
Definition fields_rel (R : field -> field -> Prop) (m m' : message) : Prop :=
  Forall2 R (m_fields m) (m_fields m') /\
  Forall2 (fun o o' => Forall2 R (o_fields o) (o_fields o')) (m_oneofs m) (m_oneofs m').

Lemma fields_rel_all R m m' : fields_rel R m m' -> Forall2 R (all_fields m) (all_fields m').
Proof.
  intros (A & B). unfold all_fields. apply Forall2_app; [exact A|]. induction B; cbn; [constructor|]. now apply Forall2_app.
Qed.
Lemma fields_rel_trans (R S T : field -> field -> Prop) m1 m2 m3 : (forall x y z, R x y -> S y z -> T x z) ->
  fields_rel R m1 m2 -> fields_rel S m2 m3 -> fields_rel T m1 m3.
Proof.
  intros H (A1 & A2) (B1 & B2). split; [now apply (Forall2_trans R S T H) with (m_fields m2)|].
  revert B2. generalize (m_oneofs m3) as os3. induction A2 as [|o o' l l' E F IH]; intros os3 B2; inversion B2; subst; constructor.
  - now apply (Forall2_trans R S T H) with (o_fields o').
  - apply IH. assumption.
Qed.
Lemma fields_rel_impl (R S : field -> field -> Prop) m m' : (forall x y, R x y -> S x y) -> fields_rel R m m' -> fields_rel S m m'.
Proof.
  intros H (A & B). assert (Q : forall l l', Forall2 R l l' -> Forall2 S l l') by (induction 1; constructor; auto).
  split; [auto|]. induction B; constructor; auto.
Qed.
Lemma msg_fields_rel R m m' : msg_rel R m m' -> fields_rel R m m'.
Proof. intros (A & B & _). split; [exact A|]. induction B as [|o o' l l' (E & _) F IH]; constructor; auto. Qed.
Lemma fields_rel_map (R : field -> field -> Prop) g m m' : (forall f, R f (g f)) ->
  m_fields m' = map g (m_fields m) -> map o_fields (m_oneofs m') = map (fun o => map g (o_fields o)) (m_oneofs m) -> fields_rel R m m'.
Proof.
  intros H E1 E2. assert (Q : forall l, Forall2 R l (map g l)) by (induction l; cbn; constructor; auto).
  split; [rewrite E1; apply Q|]. revert E2. generalize (m_oneofs m'). induction (m_oneofs m) as [|o l IH]; intros [|o' l'] E2; cbn in E2; try discriminate; constructor.
  - injection E2 as -> _. apply Q.
  - apply IH. injection E2. auto.
Qed.
Lemma fields_rel_refl (R : field -> field -> Prop) m : (forall f, R f f) -> fields_rel R m m.
Proof.
  intros H. split; [now apply Forall2_refl|]. apply Forall2_refl. intros o. now apply Forall2_refl.
Qed.

(** ** convert_field_types *)
Definition convert_both (from to : field_type) (f : field) : field := convert_map_field from to (convert_field from to f).

Lemma map_fields_map g h m : map_fields g (map_fields h m) = map_fields (fun f => g (h f)) m.
Proof.
  unfold map_fields, set_fields. cbn. f_equal; [apply map_map|]. rewrite map_map. apply map_ext. intros o. unfold set_ofields. cbn.
  now rewrite map_map.
Qed.
Lemma msg_convert_eq from to m : msg_convert from to m =
  set_messages (map_fields (convert_both from to) m) (map (msg_convert from to) (m_messages m)).
Proof. destruct m. cbn [msg_convert]. rewrite map_fields_map. reflexivity. Qed.
Lemma get_convert from to d p : get_message (convert_field_types from to d) p = option_map (msg_convert from to) (get_message d p).
Proof.
  rewrite !get_message_eq. unfold convert_field_types. cbn [d_messages set_dmessages]. apply get_in_map. intros m. now rewrite msg_convert_eq.
Qed.

(** the effect of --dont-use-cow on a type: one level of maps *)
Definition own1 (t : field_type) : field_type :=
  match t with TStringCow => TString | TBytesCow => TBytes | t => t end.
Definition own_type (t : field_type) : field_type :=
  match t with TMap k v => TMap (own1 k) (own1 v) | t => own1 t end.

Lemma set_typ_same f t : f_typ f = t -> set_typ f t = f.
Proof. intros <-. now destruct f. Qed.
Lemma set_typ_typ f t t' : set_typ (set_typ f t) t' = set_typ f t'.
Proof. reflexivity. Qed.

Definition conv1 (from to t : field_type) : field_type := if ft_eqb t from then to else t.
Definition conv_type (from to t : field_type) : field_type :=
  match conv1 from to t with TMap k v => TMap (conv1 from to k) (conv1 from to v) | t' => t' end.
Lemma convert_both_eq from to f : convert_both from to f = set_typ f (conv_type from to (f_typ f)).
Proof.
  unfold convert_both, convert_map_field, convert_field, conv_type. destruct (ft_eqb (f_typ f) from) eqn:E; unfold conv1; rewrite E.
  - cbn [f_typ set_typ]. rewrite set_typ_typ. f_equal. destruct to; try reflexivity.
    destruct (ft_eqb to1 from), (ft_eqb to2 from); reflexivity.
  - f_equal. destruct (f_typ f); try reflexivity. destruct (ft_eqb f0_1 from), (ft_eqb f0_2 from); reflexivity.
Qed.
Lemma conv1_string t : conv1 TStringCow TString t = match t with TStringCow => TString | t => t end.
Proof. now destruct t. Qed.
Lemma conv1_bytes t : conv1 TBytesCow TBytes t = match t with TBytesCow => TBytes | t => t end.
Proof. now destruct t. Qed.
Lemma conv_own t : conv_type TBytesCow TBytes (conv_type TStringCow TString t) = own_type t.
Proof.
  unfold conv_type. rewrite !conv1_string, !conv1_bytes. destruct t; try reflexivity. cbn.
  rewrite !conv1_string, !conv1_bytes. destruct t1, t2; reflexivity.
Qed.

Lemma map_fields_shell g m : shell (map_fields g m) = map_fields g (shell m).
Proof. reflexivity. Qed.

(** after the pass: the types of every field at every depth are converted,
    nothing else changes *)
Lemma drop_cows_rel c d : desc_rel (fun _ f f' => f' = set_typ f (if c_dont_use_cow c then own_type (f_typ f) else f_typ f)) d (drop_cows c d).
Proof.
  unfold drop_cows. destruct (c_dont_use_cow c).
  - split; [|reflexivity]. intros p. rewrite !get_convert. destruct (get_message d p) as [m|]; cbn; [|constructor]. constructor.
    apply (msg_rel_map _ (fun f => convert_both TBytesCow TBytes (convert_both TStringCow TString f))).
    + intros f. rewrite !convert_both_eq. cbn [f_typ set_typ]. rewrite set_typ_typ. f_equal. apply conv_own.
    + rewrite !msg_convert_eq. rewrite <- (map_fields_map (convert_both TBytesCow TBytes) (convert_both TStringCow TString)). reflexivity.
  - apply desc_rel_refl. intros _ f. now rewrite set_typ_same.
Qed.

(** ** set_defaults *)
Lemma msg_sanitize_defaults_eq d m : msg_sanitize_defaults d m =
  gbind (gmap (sanitize_default d) (m_fields m)) (fun fs =>
  gbind (gmap (fun o => gbind (gmap (sanitize_default d) (o_fields o))
                          (fun fs' => GOk (set_ofields o fs'))) (m_oneofs m)) (fun os =>
  gbind (gmap (msg_sanitize_defaults d) (m_messages m)) (fun ms =>
  GOk (set_messages (set_fields m fs os) ms)))).
Proof. destruct m. cbn [msg_sanitize_defaults]. rewrite gmap_go. reflexivity. Qed.
Lemma msg_sanitize_defaults_ok d m m' : msg_sanitize_defaults d m = GOk m' ->
  msg_rel (fun f f' => sanitize_default d f = GOk f') m m' /\
  Forall2 (fun x y => msg_sanitize_defaults d x = GOk y) (m_messages m) (m_messages m').
Proof.
  rewrite msg_sanitize_defaults_eq. intros H. apply gbind_ok in H. destruct H as (fs & E1 & H). apply gbind_ok in H.
  destruct H as (os & E2 & H). apply gbind_ok in H. destruct H as (ms & E3 & H). injection H as <-.
  apply gmap_ok in E1. apply gmap_ok in E2. apply gmap_ok in E3. split; [|exact E3].
  split; [exact E1|]. split; [|reflexivity]. cbn. clear E1 E3. induction E2 as [|o o' l l' R F IH]; constructor; [|exact IH].
  apply gbind_ok in R. destruct R as (fs' & R & E). injection E as <-. apply gmap_ok in R. split; [exact R|reflexivity].
Qed.
(** the default of a field after [sanitize_default] *)
Definition sanitized (d : file_descriptor) (f : field) (s : option text) : Prop :=
  match f_default f with
  | None => s = None
  | Some x => exists y, s = Some y /\ default_literal d (f_typ f) x = GOk y
  end.
Lemma sanitize_default_ok d f f' : sanitize_default d f = GOk f' ->
  exists s, f' = set_default f s /\ sanitized d f s.
Proof.
  unfold sanitize_default, sanitized. destruct (f_default f) as [s|] eqn:E.
  - intros H. apply gbind_ok in H. destruct H as (s' & L & H). injection H as <-. exists (Some s'). split; [reflexivity|eauto].
  - intros H. injection H as <-. exists None. split; [|reflexivity]. destruct f. cbn in *. now subst.
Qed.

Lemma desc_rel_syntax R d d' : desc_rel R d d' -> d_syntax d' = d_syntax d /\ d_enums d' = d_enums d /\ d_package d' = d_package d.
Proof.
  intros (_ & E). pose proof (f_equal d_syntax E) as A. pose proof (f_equal d_enums E) as B. pose proof (f_equal d_package E) as C. auto.
Qed.

Lemma msg_rel_enums R m m' : msg_rel R m m' -> m_enums m' = m_enums m.
Proof. intros (_ & _ & E). exact (f_equal m_enums E). Qed.
Lemma get_enum_rel R d d' q : desc_rel R d d' -> get_enum d' q = get_enum d q.
Proof.
  intros H. destruct (desc_rel_syntax _ _ _ H) as (_ & E & _). unfold get_enum. destruct (e_msg q) as [|i p]; [now rewrite E|].
  destruct H as (H & _). specialize (H (i :: p)). revert H. generalize (get_message d (i :: p)) (get_message d' (i :: p)).
  intros o o' H. destruct H as [|m m' M]; [reflexivity|]. now rewrite (msg_rel_enums _ _ _ M).
Qed.
Lemma get_enum_resolve d d1 q : resolve_types d = GOk d1 -> get_enum d1 q = get_enum d q.
Proof.
  intros H. pose proof (resolve_types_ok d d1 H) as (_ & E). unfold get_enum. destruct (e_msg q) as [|i p].
  - change (d_enums d1) with (d_enums (set_dmessages d1 [])). now rewrite E.
  - pose proof (resolve_types_get d d1 (i :: p) H) as R. rewrite get_assign in R. revert R.
    generalize (get_message d (i :: p)) (get_message d1 (i :: p)). intros o o1 R. destruct o as [m|]; cbn in R; inversion R as [|x m1 M A B]; [|reflexivity].
    apply resolve_message_ok in M. destruct M as (M & _). rewrite (msg_rel_enums _ _ _ M), set_indices_eq. reflexivity.
Qed.
Lemma default_literal_same d d' t s : (forall q, get_enum d' q = get_enum d q) -> d_package d' = d_package d ->
  default_literal d' t s = default_literal d t s.
Proof. intros E P. unfold default_literal. destruct t; try reflexivity. now rewrite E, P. Qed.

Lemma sanitized_none d f s : sanitized d f s -> (s = None <-> f_default f = None).
Proof.
  unfold sanitized. destruct (f_default f); [|intros ->; split; reflexivity]. intros (y & -> & _). split; discriminate.
Qed.
Lemma get_enum_top g d q : get_enum (set_dmessages d (map (map_fields g) (d_messages d))) q = get_enum d q.
Proof.
  unfold get_enum. destruct (e_msg q) as [|i p]; [reflexivity|]. rewrite !get_message_eq. cbn [d_messages set_dmessages].
  rewrite get_in_top by reflexivity. destruct p; [|reflexivity]. destruct (get_in (d_messages d) [i]) as [m|]; reflexivity.
Qed.

Definition pack_default (f : field) : field :=
  match f_packed f with
  | None => if freq_is_repeated (f_freq f) then set_packed f (Some true) else f
  | Some _ => f
  end.
Definition pack_clean (f : field) : field :=
  if negb (is_primitive (f_typ f)) && match f_packed f with Some _ => true | None => false end
  then set_packed f None else f.

(** the packing of a field after [set_defaults] *)
Definition packed_after (syn : syntax) (top : bool) (f : field) : option bool :=
  if top then
    if is_primitive (f_typ f)
    then match f_packed f, syn with
         | None, Proto3 => if freq_is_repeated (f_freq f) then Some true else None
         | o, _ => o
         end
    else None
  else f_packed f.
Definition is_top (p : midx) : bool := match p with [_] => true | _ => false end.

Definition defaulted (d : file_descriptor) (syn : syntax) (p : midx) (f f' : field) : Prop :=
  exists s, f' = set_default (set_packed f (packed_after syn (is_top p) f)) s /\ sanitized d f s.

Lemma pack_steps syn f : pack_clean (match syn with Proto3 => pack_default f | Proto2 => f end) = set_packed f (packed_after syn true f).
Proof.
  unfold pack_clean, pack_default, packed_after. destruct f as [n q t num df pk bx dp]. cbn.
  destruct syn, pk as [b|], (freq_is_repeated q); cbn; destruct (is_primitive t) eqn:E; reflexivity.
Qed.

Lemma rel_get_in (T : message -> message -> Prop) ms ms' p :
  (forall m m', T m m' -> Forall2 T (m_messages m) (m_messages m')) -> Forall2 T ms ms' ->
  opt_rel T (get_in ms p) (get_in ms' p).
Proof. intros H F. now apply get_in_forall2. Qed.

Lemma set_defaults_rel d d' : set_defaults d = GOk d' -> desc_rel (defaulted d (d_syntax d)) d d'.
Proof.
  unfold set_defaults. set (d1 := match d_syntax d with Proto3 => _ | Proto2 => d end). intros H.
  apply gbind_ok in H. destruct H as (ms & E & H). injection H as <-. apply gmap_ok in E.
  assert (S1 : set_dmessages d1 [] = set_dmessages d []) by (unfold d1; destruct (d_syntax d); reflexivity).
  assert (L1 : forall f s, sanitized d1 f s -> sanitized d f s).
  { intros f s. unfold sanitized. destruct (f_default f); [|auto]. intros (y & Hy & L). exists y. split; [exact Hy|]. rewrite <- L. symmetry.
    apply default_literal_same; unfold d1; destruct (d_syntax d); try reflexivity. intros q. apply get_enum_top. }
  split; [|exact S1]. intros p. rewrite !get_message_eq. cbn [d_messages set_dmessages].
  rewrite get_in_top by reflexivity.
  assert (G1 : get_in (d_messages d1) p = match p with [k] => option_map (map_fields (fun f => match d_syntax d with Proto3 => pack_default f | Proto2 => f end)) (get_in (d_messages d) p) | _ => get_in (d_messages d) p end).
  { unfold d1. destruct (d_syntax d).
    - destruct p as [|k [|k' q]]; try reflexivity. destruct (get_in (d_messages d) [k]) as [m|]; [|reflexivity]. cbn. f_equal.
      destruct m. unfold map_fields, set_fields. cbn. rewrite map_id. f_equal. rewrite <- (map_id m_oneofs) at 1. apply map_ext. intros o. destruct o. unfold set_ofields. cbn. now rewrite map_id.
    - cbn [d_messages set_dmessages]. rewrite get_in_top by reflexivity. reflexivity. }
  assert (G2 : opt_rel (fun x y => msg_sanitize_defaults d1 x = GOk y) (get_in (d_messages d1) p) (get_in ms p)).
  { apply rel_get_in; [|exact E]. intros m m' M. now apply msg_sanitize_defaults_ok in M. }
  rewrite G1 in G2. clear G1 E.
  destruct (is_top p) eqn:Tp.
  - destruct p as [|k [|k' q]]; try discriminate Tp. revert G2. generalize (get_in ms [k]) as o2, (get_in (d_messages d) [k]) as o1. intros o2 o1 G2.
    inversion G2 as [A B|m1 m2 M A B]; destruct o1 as [m|]; cbn in A; try discriminate; cbn [option_map]; constructor.
    injection A as ->. apply msg_sanitize_defaults_ok in M. destruct M as (M & _).
    unfold defaulted. cbn [is_top].
    apply (msg_rel_trans (fun f f' => f' = match d_syntax d with Proto3 => pack_default f | Proto2 => f end)
             (fun f f' => exists s, f' = pack_clean (set_default f s) /\ sanitized d1 f s)) with (m2 := map_fields (fun f => match d_syntax d with Proto3 => pack_default f | Proto2 => f end) m).
    + intros x y z -> (s & -> & Hs). exists s. split.
      * assert (X : forall f, pack_clean (set_default f s) = set_default (pack_clean f) s).
        { intros f. unfold pack_clean. cbn. destruct (negb (is_primitive (f_typ f)) && match f_packed f with Some _ => true | None => false end); reflexivity. }
        rewrite X, pack_steps. reflexivity.
      * apply L1. revert Hs. unfold sanitized. destruct (d_syntax d); [auto|]. unfold pack_default. destruct (f_packed x); [auto|]. destruct (freq_is_repeated (f_freq x)); auto.
    + apply (msg_rel_map _ (fun f => match d_syntax d with Proto3 => pack_default f | Proto2 => f end)); reflexivity.
    + apply (msg_rel_trans (fun f f' => sanitize_default d1 f = GOk f') (fun f f' => f' = pack_clean f)) with (m2 := m2).
      * intros x y z Hx ->. apply sanitize_default_ok in Hx. destruct Hx as (s & -> & Hs). exists s. auto.
      * exact M.
      * apply (msg_rel_map _ pack_clean); reflexivity.
  - assert (G3 : opt_rel (fun x y => msg_sanitize_defaults d1 x = GOk y) (get_in (d_messages d) p) (get_in ms p)) by (destruct p as [|k [|k' q]]; try discriminate Tp; exact G2).
    replace (match p with [_] => option_map unset_packed_non_primitives (get_in ms p) | _ => get_in ms p end) with (get_in ms p) by (destruct p as [|k [|k' q]]; try discriminate Tp; reflexivity).
    revert G3. generalize (get_in ms p) as o2, (get_in (d_messages d) p) as o1. intros o2 o1 G3.
    inversion G3 as [A B|m1 m2 M A B]; constructor. apply msg_sanitize_defaults_ok in M. destruct M as (M & _).
    unfold defaulted. rewrite Tp. cbn [packed_after].
    apply (msg_rel_trans (fun f f' => sanitize_default d1 f = GOk f') eq) with (m2 := m2).
    + intros x y z Hx <-. apply sanitize_default_ok in Hx. destruct Hx as (s & -> & Hs). exists s. split; [|exact (L1 _ _ Hs)]. now destruct x.
    + exact M.
    + now apply msg_rel_refl.
Qed.

(** ** sanitize_names *)
Lemma get_sanitize_names d p : get_message (sanitize_names d) p = option_map msg_sanitize_names (get_message d p).
Proof.
  rewrite !get_message_eq. unfold sanitize_names. cbn [d_messages]. apply get_in_map. intros m. now destruct m.
Qed.
Definition named (f f' : field) : Prop := f' = set_fname f (sanitize_keyword (f_name f)).
Lemma sanitize_names_fields m : fields_rel named m (msg_sanitize_names m).
Proof.
  apply (fields_rel_map _ (fun f => set_fname f (sanitize_keyword (f_name f)))); [reflexivity|now destruct m|].
  destruct m. cbn. rewrite map_map. reflexivity.
Qed.
Lemma get_single_module c d p : get_message (single_module c d) p = get_message d p.
Proof. unfold single_module. now destruct (c_single_module c). Qed.

(** ** The whole pipeline *)
Record stages (c : config) (d d1 d2 d4 d' : file_descriptor) : Prop := mkStages {
  st_resolve : resolve_types d = GOk d1;
  st_break : break_cycles (c_error_cycle c) d1 = GOk d2;
  st_sanity : sanity_checks d2 = GOk tt;
  st_defaults : set_defaults (drop_cows c d2) = GOk d4;
  st_final : d' = single_module c (sanitize_names d4) }.
Lemma process_stages c d d' : process c d = GOk d' -> exists d1 d2 d4, stages c d d1 d2 d4 d'.
Proof.
  intros H. unfold process in H.
  assert (K : gbind (resolve_types d) (fun d1 =>
    gbind (break_cycles (c_error_cycle c) d1) (fun d2 =>
    gbind (sanity_checks d2) (fun _ =>
    gbind (set_defaults (drop_cows c d2)) (fun d4 =>
    GOk (single_module c (sanitize_names d4)))))) = GOk d') by (destruct (d_messages d); [destruct (d_enums d); [discriminate|]|]; exact H).
  clear H. apply gbind_ok in K. destruct K as (d1 & E1 & K). apply gbind_ok in K. destruct K as (d2 & E2 & K).
  apply gbind_ok in K. destruct K as ([] & E3 & K). apply gbind_ok in K. destruct K as (d4 & E4 & K). injection K as <-.
  exists d1, d2, d4. constructor; auto.
Qed.

(** what becomes of the field [f] of the message at [p] *)
Record field_final (c : config) (d : file_descriptor) (p : midx) (m : message) (f f' : field) : Prop := mkFinal {
  ff_name : f_name f' = sanitize_keyword (f_name f);
  ff_number : f_number f' = f_number f;
  ff_deprecated : f_deprecated f' = f_deprecated f;
  ff_typ : exists t, resolve_type (full_msgs d) (full_enums d) (m_package m) (m_name m) (f_typ f) = GOk t /\
             f_typ f' = if c_dont_use_cow c then own_type t else t;
  ff_freq : (f_freq f' = f_freq f /\ f_boxed f' = f_boxed f) \/
            (f_freq f' = optional_of (f_freq f) /\ f_boxed f' = true /\ freq_is_repeated (f_freq f) = false /\
             exists j, f_typ f' = TMessage j);
  ff_packed : exists f0, f_packed f' = packed_after (d_syntax d) (is_top p) f0 /\ f_packed f0 = f_packed f /\
              f_freq f0 = f_freq f' /\ f_typ f0 = f_typ f';
  ff_default : f_default f' = None <-> f_default f = None;
  ff_text : forall s, f_default f = Some s -> exists y, default_literal d (f_typ f') s = GOk y /\ f_default f' = Some y }.

Lemma opt_rel_none {A} (R : A -> A -> Prop) o : opt_rel R None o -> o = None.
Proof. inversion 1; reflexivity. Qed.

Lemma process_message c d d' : process c d = GOk d' -> forall p,
  opt_rel (fun m m' => fields_rel (field_final c d p m) m m') (get_message d p) (get_message d' p).
Proof.
  intros H p. apply process_stages in H. destruct H as (d1 & d2 & d4 & [E1 E2 E3 E4 ->]).
  pose proof (resolve_types_get d d1 p E1) as R1. rewrite get_assign in R1.
  pose proof (resolve_types_indexed d d1 E1) as I1.
  destruct (break_cycles_ok (c_error_cycle c) d1 I1) as (cs & _ & [(d2' & E2' & R2 & _)|(_ & names & E2' & _)]); [|congruence].
  rewrite E2 in E2'. injection E2' as <-.
  pose proof (drop_cows_rel c d2) as R3. pose proof (set_defaults_rel _ _ E4) as R4.
  assert (Sy : d_syntax (drop_cows c d2) = d_syntax d).
  { destruct (desc_rel_syntax _ _ _ R3) as (-> & _). destruct (desc_rel_syntax _ _ _ R2) as (-> & _).
    apply resolve_types_ok in E1. destruct E1 as (_ & E1). exact (f_equal d_syntax E1). }
  assert (Lt : forall t x, default_literal (drop_cows c d2) t x = default_literal d t x).
  { intros t x. apply default_literal_same.
    - intros q. rewrite (get_enum_rel _ _ _ q R3), (get_enum_rel _ _ _ q R2). now apply get_enum_resolve.
    - destruct (desc_rel_syntax _ _ _ R3) as (_ & _ & ->). destruct (desc_rel_syntax _ _ _ R2) as (_ & _ & ->).
      apply resolve_types_ok in E1. destruct E1 as (_ & E1). exact (f_equal d_package E1). }
  rewrite Sy in R4. rewrite get_single_module, get_sanitize_names.
  destruct (get_message d p) as [m|]; cbn in R1; inversion R1 as [A B|m0 m1 M1 A B]; subst.
  - symmetry in B. destruct (desc_rel_fwd _ _ _ _ _ R2 B) as (m2 & G2 & M2).
    destruct (desc_rel_fwd _ _ _ _ _ R3 G2) as (m3 & G3 & M3). destruct (desc_rel_fwd _ _ _ _ _ R4 G3) as (m4 & G4 & M4).
    rewrite G4. cbn. constructor. apply resolve_message_ok in M1. destruct M1 as (M1 & _).
    assert (P : m_package (set_indices p m) = m_package m /\ m_name (set_indices p m) = m_name m /\
                m_fields (set_indices p m) = m_fields m /\ m_oneofs (set_indices p m) = m_oneofs m) by (rewrite set_indices_eq; auto).
    destruct P as (P1 & P2 & P3 & P4). unfold field_resolves in M1. rewrite P1, P2 in M1.
    apply msg_fields_rel in M1, M2, M3, M4. unfold fields_rel in M1 at 1. rewrite P3, P4 in M1. change (fields_rel (fun f f' => exists t, resolve_type (full_msgs d) (full_enums d) (m_package m) (m_name m) (f_typ f) = GOk t /\ f' = set_typ f t) m m1) in M1.
    pose proof (sanitize_names_fields m4) as M5.
    refine (fields_rel_trans _ _ _ _ _ _ _ M1 (fields_rel_trans _ _ _ _ _ _ (fun x y z A B => ex_intro _ y (conj A B)) M2
              (fields_rel_trans _ _ _ _ _ _ (fun x y z A B => ex_intro _ y (conj A B)) M3
                (fields_rel_trans _ _ _ _ _ _ (fun x y z A B => ex_intro _ y (conj A B)) M4 M5)))).
    intros f f1 f' (t & T & ->) (f2 & Ev & f3 & -> & f4 & (s & -> & Hs) & ->). cbn.
    pose proof (sanitized_none _ _ _ Hs) as Hn. unfold sanitized in Hs.
    destruct Ev as [->|(j & Tj & _ & Rp & _ & ->)].
    + constructor; cbn; auto.
      * exists t. split; [exact T|reflexivity].
      * eexists. split; [reflexivity|]. cbn. auto.
      * intros x Dx. cbn in Hs. rewrite Dx in Hs. destruct Hs as (y & -> & L). exists y. split; [|reflexivity]. now rewrite Lt in L.
    + cbn in Tj. subst t. constructor; cbn; auto.
      * eexists. split; [exact T|reflexivity].
      * right. split; [reflexivity|]. split; [reflexivity|]. split; [exact Rp|]. exists j. now destruct (c_dont_use_cow c).
      * eexists. split; [reflexivity|]. cbn. auto.
      * intros x Dx. cbn in Hs. rewrite Dx in Hs. destruct Hs as (y & -> & L). exists y. split; [|reflexivity]. now rewrite Lt in L.
  - destruct R2 as (R2 & _). specialize (R2 p). rewrite <- B in R2. apply opt_rel_none in R2.
    destruct R3 as (R3 & _). specialize (R3 p). rewrite R2 in R3. apply opt_rel_none in R3.
    destruct R4 as (R4 & _). specialize (R4 p). rewrite R3 in R4. apply opt_rel_none in R4. rewrite R4. constructor.
Qed.
