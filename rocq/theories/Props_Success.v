(** C86: writing a file that the passes accept fails exactly in three cases. *)
From Coq Require Import String Ascii Arith ZArith Lia Bool.
From Verif Require Import Props_EndToEnd Props_Lifetime Props_Passes Props_Accepted Props_Text.
From Verif Require Import Base Schema Keywords Modules Passes Gen GenSpec GenCheck Cycles CycleFacts BreakFacts IndexFacts Pipeline PassFacts AcceptFacts.
From Verif Require Import Parser ProtoText ParserOut Import Lifetime LifetimeFacts RustTypes Emit Output GenText GenGood SuccessFacts.
Import Schema StringSyntax.
Local Open Scope string_scope.
Local Open Scope list_scope.

(** ** Specification *)

(** the message is in the file itself, not in one that it imports *)
Definition in_file (d : file_descriptor) (i : midx) : Prop :=
  exists k r m, i = k :: r /\ nth_error (d_messages d) k = Some m /\ m_imported m = false.

(** What can be written.  [d] is the schema after the passes. *)
Record writable (c : config) (d : file_descriptor) : Prop := mkWritable {
  (* every enum outside of a message has a value *)
  wr_enums : forall e, In e (d_enums d) -> en_imported e = false -> en_fields e <> [];
  (* no map has maps as keys or values *)
  wr_maps : forall i m f k v, in_file d i -> get_message d i = Some m -> In f (m_fields m) -> visible c f = true ->
    f_typ f = TMap k v -> is_map_type k = false /\ is_map_type v = false;
  (* no map is in a oneof *)
  wr_oneofs : forall i m o f, in_file d i -> get_message d i = Some m -> In o (m_oneofs m) -> In f (o_fields o) -> visible c f = true ->
    is_map_type (f_typ f) = false;
  (* an enum whose first value is the default of a field has a value *)
  wr_defaults : forall i m f q e, in_file d i -> get_message d i = Some m -> In f (m_fields m) -> visible c f = true ->
    f_typ f = TEnum q -> f_freq f = P2Required \/ f_freq f = P3Default -> f_default f = None -> get_enum d q = Some e -> en_fields e <> [] }.

(** ** Types after the passes *)
Section Accepted.
Variables (c : config) (d d' : file_descriptor).
Hypothesis Shape : shaped_desc d.
Hypothesis Acc : process c d = GOk d'.

Lemma parsed_no_message t j : parsed_type t -> ~ In (TMessage j) (leaves t).
Proof.
  induction 1 as [t k S|n _|k v _ IHk _ IHv]; cbn [leaves].
  - unfold scalar_type in S. cbn [In] in S. repeat (destruct S as [S|S]; [injection S as <- <-; intros [X|[]]; discriminate|]). contradiction.
  - intros [X|[]]; discriminate.
  - rewrite in_app_iff. tauto.
Qed.
Lemma typ_flat t : typ_ok d' t -> flat d' t /\ is_map_type t = false.
Proof. destruct t; cbn; try tauto; auto. Qed.
Lemma resolved_flat p m t t' : parsed_type t -> resolve_name (full_msgs d) (full_enums d) p m t = GOk t' ->
  flat d' t' /\ flat d' (own1 t') /\ is_map_type t' = is_map_type t /\ is_map_type (own1 t') = is_map_type t.
Proof.
  intros P R. destruct (is_map_type t) eqn:M.
  - destruct t; try discriminate. cbn in R. injection R as <-. cbn [own1 is_map_type].
    assert (F : flat d' (TMap t1 t2)) by (intros j; now apply parsed_no_message). auto.
  - destruct (resolved_typ_ok c d d' p m t t' Acc (parsed_source _ P M) R) as (A & B). apply typ_flat in A, B. tauto.
Qed.
Lemma final_flat p m f f' : parsed_type (f_typ f) -> field_final c d p m f f' -> flat_type d' (f_typ f') /\ is_map_type (f_typ f') = is_map_type (f_typ f).
Proof.
  intros P FF. destruct (ff_typ _ _ _ _ _ _ FF) as (t & R & E). destruct (is_map_type (f_typ f)) eqn:M.
  - destruct (f_typ f) as [| | | | | | | | | | | | | | | | | | | |k v]; try discriminate. cbn [resolve_type] in R.
    apply gbind_ok in R. destruct R as (k' & Rk & R). apply gbind_ok in R. destruct R as (v' & Rv & R). injection R as <-.
    inversion P as [u kw S| |k0 v0 Pk Pv]; subst.
    { exfalso. unfold scalar_type in S. cbn [In] in S. repeat (destruct S as [S|S]; [discriminate S|]). contradiction. }
    destruct (resolved_flat _ _ _ _ Pk Rk) as (A1 & A2 & _). destruct (resolved_flat _ _ _ _ Pv Rv) as (B1 & B2 & _).
    rewrite E. destruct (c_dont_use_cow c); cbn; auto.
  - assert (Rn : resolve_name (full_msgs d) (full_enums d) (m_package m) (m_name m) (f_typ f) = GOk t) by (destruct (f_typ f); try exact R; discriminate).
    destruct (resolved_flat _ _ _ _ P Rn) as (A & B & C & D). rewrite M in C, D. rewrite E.
    assert (Ow : own_type t = own1 t) by (destruct t; try reflexivity; discriminate C).
    destruct (c_dont_use_cow c); [rewrite Ow|]; (split; [|assumption]); [destruct (own1 t); try exact B; discriminate|destruct t; try exact A; discriminate].
Qed.
Lemma shaped_fields p m : get_message d p = Some m -> (forall f, In f (m_fields m) -> shaped_field f) /\
  (forall o f, In o (m_oneofs m) -> In f (o_fields o) -> shaped_member f).
Proof.
  intros G. rewrite get_message_eq in G. destruct (shaped_get _ (proj1 Shape) _ _ G) as [H1 H2 _ _]. rewrite Forall_forall in H1, H2. split; [exact H1|].
  intros o f Ho. specialize (H2 o Ho). rewrite Forall_forall in H2. auto.
Qed.
(** a field of a struct comes from a field of a struct *)
Lemma back_fields p m' f' : get_message d' p = Some m' -> In f' (m_fields m') -> exists m f, get_message d p = Some m /\ In f (m_fields m) /\ field_final c d p m f f'.
Proof.
  intros G Hf. pose proof (process_message c d d' Acc p) as R. rewrite G in R. inversion R as [|m x F A B]; subst.
  destruct F as [F _]. destruct (Forall2_in_r _ _ _ F f' Hf) as (f & Hf0 & FF). exists m, f. auto.
Qed.
Lemma typed_after p m' f' : get_message d' p = Some m' -> In f' (all_fields m') -> flat_type d' (f_typ f').
Proof.
  intros G Hf. apply field_of_all in Hf. destruct (process_field_back c d d' p m' f' Acc G Hf) as (m & f & G0 & Hf0 & FF).
  destruct (shaped_fields p m G0) as (S1 & S2). apply (final_flat p m f f'); [|exact FF]. destruct Hf0 as [Hf0|(o & Ho & Hf0)]; [apply (S1 f Hf0)|apply (S2 o f Ho Hf0)].
Qed.
Lemma maps_after p m' f' : get_message d' p = Some m' -> In f' (m_fields m') -> freq_is_map (f_freq f') = is_map_type (f_typ f').
Proof.
  intros G Hf. destruct (back_fields p m' f' G Hf) as (m & f & G0 & Hf0 & FF). destruct (proj1 (shaped_fields p m G0) f Hf0) as (B & P & M).
  destruct (final_flat p m f f' P FF) as (_ & Em). destruct (ff_freq _ _ _ _ _ _ FF) as [(E & _)|(E & _ & _ & j & T)]; rewrite E; [congruence|].
  rewrite T. cbn. now destruct (f_freq f).
Qed.
Lemma boxes_after p m' f' : get_message d' p = Some m' -> In f' (m_fields m') -> f_boxed f' = true -> exists j, f_typ f' = TMessage j.
Proof.
  intros G Hf B. destruct (back_fields p m' f' G Hf) as (m & f & G0 & Hf0 & FF). destruct (proj1 (shaped_fields p m G0) f Hf0) as (B0 & _).
  destruct (ff_freq _ _ _ _ _ _ FF) as [(_ & E)|(_ & _ & _ & T)]; [congruence|exact T].
Qed.
End Accepted.

(** ** The file *)
Section File.
Variables (g : gen_config) (d d4 : file_descriptor).
Let c := g_passes g.
Hypothesis Shape : shaped_desc d.
Hypothesis Before : before_escape c d = GOk d4.
Let d' := after_escape c d4.

Lemma process_after : process c d = GOk d'.
Proof. rewrite process_escape, Before. reflexivity. Qed.
Lemma messages_after : d_messages d' = map msg_sanitize_names (d_messages d4).
Proof. unfold d', after_escape, single_module. now destruct (c_single_module c). Qed.
Lemma enums_after : d_enums d' = map enum_sanitize_names (d_enums d4).
Proof. unfold d', after_escape, single_module. now destruct (c_single_module c). Qed.

Lemma combine_self {A B} (h : A -> B) l : combine (map h l) l = map (fun x => (h x, x)) l.
Proof. induction l as [|x l IH]; [reflexivity|]. cbn. now rewrite IH. Qed.

Lemma file_total filename services : snd (write_file g d' d4 filename services) = None <-> writable c d'.
Proof.
  pose proof process_after as Acc.
  pose proof (process_indexed c d d' Acc) as Idx. pose proof (typed_after c d d' Shape Acc) as Ty.
  pose proof (maps_after c d d' Shape Acc) as Mp. pose proof (boxes_after c d d' Shape Acc) as Bx.
  pose proof (get_enum_after g d4) as En. fold c in En. fold d' in En.
  pose proof (fun k m4 N => tree_total g d4 d' En Idx Ty Mp Bx m4 [k] N) as Tree.
  assert (Top : forall k m4, nth_error (d_messages d4) k = Some m4 -> get_message d' [k] = Some (msg_sanitize_names m4)).
  { intros k m4 N. rewrite get_message_eq, messages_after. cbn [get_in]. rewrite nth_error_map, N. reflexivity. }
  change (succeeds (write_file g d' d4 filename services) <-> writable c d').
  assert (Hd : succeeds (write_file g d' d4 filename services) <-> succeeds (write_enums d' d4) /\ succeeds (write_messages g d' d4)).
  { unfold write_file. rewrite !ok_then. split; [tauto|]. intros (A & B). repeat match goal with |- _ /\ _ => split end; try assumption; try apply ok_writeln.
    - apply ok_when. intros _. unfold write_headers. rewrite !ok_then. repeat match goal with |- _ /\ _ => split end; try apply ok_writeln. apply ok_when. intros; apply ok_writeln.
    - unfold write_uses. destruct (forallb is_unit (d_messages d')); rewrite !ok_then; repeat match goal with |- _ /\ _ => split end; try apply ok_writeln;
        try (apply ok_when; intros; apply ok_writeln).
      apply (uses_total g d' Idx Ty). intros m Hm. apply In_nth_error in Hm. destruct Hm as (k & Hk). exists [k]. rewrite get_message_eq. cbn. now rewrite Hk.
    - apply ok_all. intros; apply ok_writeln. }
  rewrite Hd. clear Hd.
  assert (He : succeeds (write_enums d' d4) <-> forall e, In e (d_enums d') -> en_imported e = false -> en_fields e <> []).
  { unfold write_enums. rewrite ok_all, enums_after, combine_self. split.
    - intros H e He Im Ne. apply in_map_iff in He. destruct He as (e4 & <- & He). specialize (H (enum_sanitize_names e4, e4)).
      cbn [enum_sanitize_names en_fields en_imported] in *. apply map_eq_nil in Ne.
      assert (X : succeeds (write_enum_default (enum_sanitize_names e4) e4)).
      { assert (Hin : In (enum_sanitize_names e4, e4) (filter (fun p => negb (en_imported (fst p))) (map (fun x => (enum_sanitize_names x, x)) (d_enums d4)))).
        { apply filter_In. split; [now apply in_map_iff; exists e4|]. cbn. now rewrite Im. }
        specialize (H Hin). cbv beta iota in H. rewrite !ok_then in H. tauto. }
      unfold write_enum_default, partially_qualified in X. rewrite Ne in X. discriminate X.
    - intros H (e, e4) Hp. apply filter_In in Hp. destruct Hp as (Hp & Im). apply in_map_iff in Hp. destruct Hp as (x & X & Hx). injection X as <- <-.
      cbn [fst] in Im. apply negb_true_iff in Im. cbn [enum_sanitize_names en_imported] in Im.
      assert (Ne : en_fields (enum_sanitize_names x) <> []) by (apply H; [now apply in_map|exact Im]). cbn [enum_sanitize_names en_fields] in Ne.
      rewrite !ok_then. repeat match goal with |- _ /\ _ => split end; try apply ok_writeln.
      + unfold write_enum_definition. rewrite !ok_then, ok_all. repeat match goal with |- _ /\ _ => split end; intros; apply ok_writeln.
      + unfold write_enum_default, partially_qualified. destruct (en_fields x) as [|(v, z) l]; [contradiction|]. rewrite !ok_then. repeat match goal with |- _ /\ _ => split end; apply ok_writeln.
      + unfold write_enum_from_i32. rewrite !ok_then, ok_all. repeat match goal with |- _ /\ _ => split end; intros; apply ok_writeln.
      + unfold write_enum_from_str. rewrite !ok_then, ok_all. repeat match goal with |- _ /\ _ => split end; intros; apply ok_writeln. }
  assert (Hm : succeeds (write_messages g d' d4) <-> forall i m, in_file d' i -> get_message d' i = Some m -> message_writable g d' m).
  { unfold write_messages. rewrite ok_all, messages_after, combine_self. split.
    - intros H i m (k & r & m0 & -> & N & Im) Gi. rewrite messages_after in N. rewrite nth_error_map in N. destruct (nth_error (d_messages d4) k) as [m4|] eqn:N4; [|discriminate].
      injection N as <-. pose proof (Tree k m4 (Top k m4 N4)) as T.
      assert (W : succeeds (write_message_text g d' d4 (msg_sanitize_names m4) m4)).
      { apply (H (msg_sanitize_names m4, m4)). apply filter_In. split; [|cbn; now rewrite Im]. apply in_map_iff. exists m4. split; [reflexivity|]. eapply nth_error_In, N4. }
      apply T in W. destruct W as (W1 & W2). rewrite get_message_eq, messages_after in Gi. cbn [get_in] in Gi. rewrite nth_error_map, N4 in Gi. cbn [option_map] in Gi.
      destruct r as [|k' r]; [injection Gi as <-; exact W1|exact (W2 _ _ Gi)].
    - intros H (m, m4) Hp. apply filter_In in Hp. destruct Hp as (Hp & Im). apply in_map_iff in Hp. destruct Hp as (x & X & Hx). injection X as <- <-. cbn [fst snd] in *.
      apply negb_true_iff in Im. apply In_nth_error in Hx. destruct Hx as (k & N4). apply (Tree k x (Top k x N4)).
      assert (If : forall r, in_file d' (k :: r)). { intros r. exists k, r, (msg_sanitize_names x). rewrite messages_after, nth_error_map, N4. auto. }
      split; [exact (H [k] _ (If []) (Top k x N4))|]. intros p y Gp. apply (H (k :: p) y (If p)). rewrite get_message_eq, messages_after. cbn [get_in].
      rewrite nth_error_map, N4. cbn [option_map]. destruct p; [discriminate Gp|exact Gp]. }
  rewrite He, Hm. clear He Hm Tree Top.
  assert (Dn : forall i m f, get_message d' i = Some m -> In f (m_fields m) -> is_map_type (f_typ f) = false ->
            (default_needed f = true <-> (f_freq f = P2Required \/ f_freq f = P3Default) /\ f_default f = None)).
  { intros i m f G Hf M. pose proof (Mp i m f G Hf) as Q. rewrite M in Q. unfold default_needed, generated_type_of. rewrite Q.
    destruct (f_freq f), (f_default f); cbn; try discriminate Q; split; try discriminate; auto; try (intros ([X|X] & Y); discriminate). }
  split.
  - intros (He & Hm). constructor.
    + exact He.
    + intros i m f k v If G Hf V T. destruct (proj1 (Hm i m If G) f Hf V) as (N & _). rewrite T in N. exact N.
    + intros i m o f If G Ho Hf V. exact (proj2 (Hm i m If G) o f Ho Hf V).
    + intros i m f q e If G Hf V T Q De Ge. destruct (proj1 (Hm i m If G) f Hf V) as (_ & N). apply (N q e T); [|exact Ge].
      apply (Dn i m f G Hf); [now rewrite T|auto].
  - intros [W1 W2 W3 W4]. split; [exact W1|]. intros i m If G. split.
    + intros f Hf V. split.
      * pose proof (fun k v => W2 i m f k v If G Hf V) as X. destruct (f_typ f); try exact Logic.I. exact (X _ _ eq_refl).
      * intros q e T De Ge. apply (Dn i m f G Hf) in De; [|now rewrite T]. destruct De as (Q & De). exact (W4 i m f q e If G Hf V T Q De Ge).
    + intros o f Ho Hf V. exact (W3 i m o f If G Ho Hf V).
Qed.
End File.

(** C86.  A file that is read and that the passes accept is written without an
    error or a panic, unless an enum without values needs one, or a map is in a
    map or in a oneof. *)
Theorem C86_written : forall check fs search n file d g d' filename services,
  read_proto check fs search n file = ROk d -> process (g_passes g) d = GOk d' ->
  (snd (generated g d filename services) = None <-> writable (g_passes g) d').
Proof.
  intros check fs search n file d g d' filename services R P. apply read_shaped in R. unfold generated.
  rewrite process_escape in P. destruct (before_escape (g_passes g) d) as [d4|] eqn:B; [|discriminate]. cbn in P. injection P as <-.
  exact (file_total g d d4 R B filename services).
Qed.
Print Assumptions C86_written.

(** a schema that follows the rules of the language is written *)
Theorem C86_rules : forall check fs search n file d g d' filename services,
  read_proto check fs search n file = ROk d -> language_rules d -> process (g_passes g) d = GOk d' ->
  exists s, generated g d filename services = (s, None).
Proof.
  intros check fs search n file d g d' filename services R L P.
  assert (W : snd (generated g d filename services) = None); [|destruct (generated g d filename services) as (s, o); cbn in W; subst o; now exists s].
  apply (C86_written _ _ _ _ _ _ _ _ filename services R P). pose proof (read_shaped _ _ _ _ _ _ R) as S.
  assert (En : forall q e, get_enum d' q = Some e -> en_fields e <> []).
  { intros q e G. rewrite (process_enum _ _ _ q P) in G. destruct (get_enum d q) as [e0|] eqn:G0; [|discriminate]. injection G as <-.
    cbn. intros X. apply map_eq_nil in X. exact (lr_enums d L q e0 G0 X). }
  assert (Fl : forall p m m0 f f', get_message d p = Some m0 -> parsed_type (f_typ f) -> field_final (g_passes g) d p m f f' -> is_map_type (f_typ f') = is_map_type (f_typ f)).
  { intros p m m0 f f' _ Pt FF. exact (proj2 (final_flat _ d d' P p m f f' Pt FF)). }
  constructor.
  - intros e He _. apply In_nth_error in He. destruct He as (k & Hk). apply (En (mkEidx [] k)). exact Hk.
  - intros i m' f' k v _ G Hf _ T. destruct (back_fields _ d d' P i m' f' G Hf) as (m & f & G0 & Hf0 & FF).
    destruct (proj1 (shaped_fields d S i m G0) f Hf0) as (_ & Pt & _). pose proof (Fl i m m f f' G0 Pt FF) as M. rewrite T in M. cbn in M.
    destruct (ff_typ _ _ _ _ _ _ FF) as (t & Rt & E). destruct (f_typ f) as [| | | | | | | | | | | | | | | | | | | |k0 v0] eqn:Tf; try discriminate M.
    destruct (lr_maps d L i m f k0 v0 G0 Hf0 Tf) as (Mv & Mk). cbn [resolve_type] in Rt. apply gbind_ok in Rt. destruct Rt as (k1 & Rk & Rt). apply gbind_ok in Rt.
    destruct Rt as (v1 & Rv & Rt). injection Rt as <-.
    inversion Pt as [u kw Sc| |x y Pk Pv]; subst.
    { exfalso. unfold scalar_type in Sc. cbn [In] in Sc. repeat (destruct Sc as [Sc|Sc]; [discriminate Sc|]). contradiction. }
    destruct (resolved_flat _ d d' P _ _ _ _ Pk Rk) as (_ & _ & A1 & A2). destruct (resolved_flat _ d d' P _ _ _ _ Pv Rv) as (_ & _ & B1 & B2).
    assert (Ek : is_map_type k0 = false) by (cbn [In] in Mk; decompose [or] Mk; subst; reflexivity || contradiction).
    rewrite T in E. destruct (c_dont_use_cow (g_passes g)); cbn in E; injection E as -> ->; split; congruence.
  - intros i m' o' f' _ G Ho Hf _. pose proof (process_message _ d d' P i) as R0. rewrite G in R0. inversion R0 as [|m x F A B]; subst.
    destruct F as [_ F]. destruct (Forall2_in_r _ _ _ F o' Ho) as (o & Ho0 & Fo). destruct (Forall2_in_r _ _ _ Fo f' Hf) as (f & Hf0 & FF).
    symmetry in A. destruct (proj2 (shaped_fields d S i m A) o f Ho0 Hf0) as (_ & Pt & _). rewrite (Fl i m m f f' A Pt FF). exact (lr_oneofs d L i m o f A Ho0 Hf0).
  - intros i m f q e _ _ _ _ _ _ _ Ge. exact (En q e Ge).
Qed.
Print Assumptions C86_rules.

(** The three cases exist: the file is read, the passes accept it, and the
    generator panics. *)
Ltac panics :=
  match goal with |- exists d d', read_one ?t = _ /\ process ?c _ = _ /\ _ =>
    let r := eval vm_compute in (match read_one t with ROk d => match process c d with GOk d' => Some (d, d') | _ => None end | _ => None end) in
    match r with Some (?d, ?d') => exists d, d' end
  end; split; [vm_compute; reflexivity|]; split; vm_compute; reflexivity.
Theorem C86_map_in_map_refuted : exists d d', read_one "message A { map<int32, map<int32, string>> m = 1; }" = ROk d /\
  process (g_passes textConfig) d = GOk d' /\ snd (generated textConfig d "a.proto" 0) = Some GenPanic.
Proof. panics. Qed.
Theorem C86_map_in_oneof_refuted : exists d d', read_one "message A { oneof o { map<int32, string> m = 1; } }" = ROk d /\
  process (g_passes textConfig) d = GOk d' /\ snd (generated textConfig d "a.proto" 0) = Some GenPanic.
Proof. panics. Qed.
Theorem C86_empty_enum_refuted : exists d d', read_one "enum E { } message A { optional int32 a = 1; }" = ROk d /\
  process (g_passes textConfig) d = GOk d' /\ snd (generated textConfig d "a.proto" 0) = Some GenPanic.
Proof. panics. Qed.
Theorem C86_empty_default_refuted : exists d d', read_one "message A { enum E { } required E e = 1; }" = ROk d /\
  process (g_passes textConfig) d = GOk d' /\ snd (generated textConfig d "a.proto" 0) = Some GenPanic.
Proof. panics. Qed.
Print Assumptions C86_map_in_map_refuted.
Print Assumptions C86_map_in_oneof_refuted.
Print Assumptions C86_empty_enum_refuted.
Print Assumptions C86_empty_default_refuted.

(** an enum without values inside of a message is no reason to fail, when no
    field needs its first value; what is deprecated and left out is none either *)
Example C86_case : exists d d' s, read_one "message A { enum E { } optional E e = 1; map<int32, map<int32, int32>> m = 2 [deprecated = true];
    message B { repeated A.E l = 1; oneof o { string s = 2; } } }" = ROk d /\
  process (g_passes textConfig) d = GOk d' /\ writable (g_passes textConfig) d' /\ generated textConfig d "a.proto" 0 = (s, None) /\
  Nat.ltb 2000 (String.length s) = true.
Proof.
  match goal with |- exists d d' s, read_one ?t = _ /\ process ?c _ = _ /\ _ =>
    let r := eval vm_compute in (match read_one t with ROk d => match process c d with GOk d' => Some (d, d', fst (generated textConfig d "a.proto" 0)) | _ => None end | _ => None end) in
    match r with Some (?d, ?d', ?s) => exists d, d', s end
  end.
  match goal with |- ?A /\ ?B /\ _ /\ ?C /\ _ => assert (HA : A) by (vm_compute; reflexivity); assert (HB : B) by (vm_compute; reflexivity); assert (HC : C) by (vm_compute; reflexivity) end.
  split; [exact HA|]. split; [exact HB|]. split; [|split; [exact HC|vm_compute; reflexivity]].
  apply (C86_written _ _ _ _ _ _ _ _ "a.proto" 0%nat HA HB).
  rewrite HC. reflexivity.
Qed.
