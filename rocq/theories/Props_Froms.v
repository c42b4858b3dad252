(** C98: the implementations of [From] for the enums of oneofs, which are written
    with the feature generateImplFromForEnums.  See DESIGN.md. *)
From Coq Require Import String Ascii Arith ZArith Lia Bool.
From Verif Require Import Base Schema Props_Text Props_Lives.
From Verif Require Import Keywords Modules Passes Parser Import Cycles Pipeline PassFacts Gen GenCheck Lifetime RustTypes Emit Uses Output Paths GenText.
From Verif Require Import RustLex RustAst RustParse RustParseFacts GenAst LexFacts GenAstFacts GenAstOk GenGood RustLife LifeTree SuccessFacts ImplFrom.
Import Schema StringSyntax.
Local Open Scope string_scope.
Local Open Scope list_scope.
Local Open Scope nat_scope.

(** ** What is expected, in terms of the syntax *)

(** [impl From<t> for n { fn from(f: t) -> n { n::v(f) } }] *)
Definition from_impl (n v : text) (t : rty_) : ritem_ :=
  let own := RTPath false [PSeg n []] in
  RIImpl [] [] (Some (RTPath false [PSeg "From" [GType t]])) own
    [RIFn (mkRFn false "from" [] NoSelf [(RPBind false false "f", t)] (Some own)
       [RSExpr (REPost (REPath false [PSeg n []; PSeg v []]) [OCall [REPath false [PSeg "f" []]]]) false])].
(** the type inside a [Box] *)
Definition unboxed (t : rty_) : rty_ :=
  match t with RTPath false [PSeg b [GType u]] => if String.eqb b "Box" then u else t | _ => t end.
(** the variants with a value *)
Definition payloads (vs : list rvariant) : list (text * rty_) :=
  flat_map (fun v => match rv_payload v with VOne t => [(rv_name v, t)] | _ => [] end) vs.
(** the first element with that type *)
Definition first_with (l : list (text * rty_)) (v : text) (t : rty_) : Prop :=
  exists l1 l2, l = l1 ++ (v, t) :: l2 /\ ~ In t (map snd l1).

(** ** Facts *)
Lemma unboxed_type g d t : unboxed (type_ast g d t) = type_ast g d t.
Proof.
  assert (P : forall l gs, match gs with [GType _] => False | _ => True end -> unboxed (tpath l gs) = tpath l gs).
  { intros l gs H. unfold tpath, unboxed. destruct l as [|x [|y l]]; cbn [spath]; [reflexivity| |].
    - destruct gs as [|[s|u] [|b gs]]; try reflexivity; contradiction.
    - destruct l; reflexivity. }
  destruct t as [| | | | | | | q | | | | | | | | i | n | | | | k v]; cbn [type_ast]; try reflexivity.
  - destruct (get_enum d q); [|reflexivity]. now apply P.
  - destruct (get_message d i); [|reflexivity]. apply P. now destruct (or_else _ _).
Qed.
Definition plain_payloads (vs : list rvariant) : list (text * rty_) := map (fun p => (fst p, unboxed (snd p))) (payloads vs).
Lemma payloads_app a b : payloads (a ++ b) = payloads a ++ payloads b.
Proof. apply flat_map_app. Qed.
Lemma shown_payloads g d o : plain_payloads (flat_map (oneof_variant g d o) (o_fields o)) = map (fun f => (f_name f, type_ast g d (f_typ f))) (oneof_shown g o).
Proof.
  unfold oneof_shown. induction (o_fields o) as [|f l IH]; [reflexivity|]. cbn [flat_map filter]. unfold plain_payloads in *. rewrite payloads_app, map_app, IH.
  unfold oneof_variant, hidden. destruct (f_deprecated f), (c_add_deprecated_fields (g_passes g)); cbn [negb andb orb]; try reflexivity;
    cbn [map]; unfold payloads at 1; cbn [flat_map rv_payload rv_name map fst snd app]; destruct (f_boxed f); try reflexivity; now rewrite unboxed_type.
Qed.
Lemma ok_all_typed g d o : snd (write_oneof_with_froms g d o) = None -> typed g d (oneof_shown g o).
Proof.
  unfold write_oneof_with_froms. intros H f I.
  assert (W : snd (write_all (fun f =>
    if f_deprecated f && negb (c_add_deprecated_fields (g_passes g)) then nothing else
    (when (f_deprecated f) (writeln "    #[deprecated]") ;;;
    writeln_of (fmt (type_text g d (f_typ f)) (fun t =>
      if f_boxed f then ("    " ++ f_name f ++ "(Box<" ++ t ++ ">),")%string else ("    " ++ f_name f ++ "(" ++ t ++ "),")%string)))%out) (o_fields o)) = None).
  { apply ok_then in H. destruct H as [_ H]. apply ok_then in H. destruct H as [H _]. apply ok_then in H. destruct H as [H _]. unfold write_oneof_definition in H.
    apply ok_then in H. destruct H as [_ H]. apply ok_then in H. destruct H as [_ H]. apply ok_then in H. apply H. }
  apply filter_In in I. destruct I as [I V]. apply ok_all with (x := f) in W; [|exact I]. unfold succeeds in W.
  destruct (f_deprecated f), (c_add_deprecated_fields (g_passes g)); try discriminate; cbn [andb negb] in W;
    destruct (type_text g d (f_typ f)) as [t|e]; eauto; cbn in W; discriminate.
Qed.

(** ** C98 *)

(** Below the enum of a oneof there is one implementation of [From] for each type
    of a variant, and it makes the first of the variants with this type; the
    [Box] of a boxed variant does not count. *)
Theorem C98_from_impls : forall g d d' p m o s,
  schema_ok d = true -> config_ok g = true -> process (g_passes g) d = GOk d' -> get_message d' p = Some m -> In o (m_oneofs m) ->
  write_oneof_with_froms g d' o = (s, None) ->
  exists attrs lt vs froms last,
    parse_rust s = Some (mkRFile [] (RIEnum attrs ("OneOf" ++ o_name o)%string lt vs
      :: map (fun q => from_impl ("OneOf" ++ o_name o)%string (fst q) (snd q)) froms ++ [last])) /\
    (forall v t, In (v, t) froms <-> first_with (map (fun q => (fst q, unboxed (snd q))) (payloads vs)) v t) /\
    (forall v t, In (v, t) (payloads vs) -> exists w, In (w, unboxed t) froms) /\
    NoDup (map snd froms).
Proof.
  intros g d d' p m o s S C P G I W. unfold config_ok in C. apply andb_true_iff in C. destruct C as [C1 _].
  rewrite process_escape in P. destruct (before_escape (g_passes g) d) as [d4|e] eqn:B; [|discriminate]. injection P as <-.
  pose proof (names_message g d d4 B S) as Nm. pose proof (names_enum g d d4 B S) as Ne.
  rewrite (get_message_after g d4) in G. destruct (get_message d4 p) as [m4|] eqn:G4; [|discriminate]. injection G as <-.
  destruct (own_good4 g d d4 B S C1 p m4 G4) as (_ & _ & Go & _). destruct (Go o I) as (O1 & O2 & O3).
  pose proof (with_froms_parses g _ Nm Ne o O1 O3 s W) as R.
  assert (Ty : typed g (after_escape (g_passes g) d4) (oneof_shown g o)) by (apply ok_all_typed; now rewrite W).
  destruct (chosen_spec g _ Nm Ne (oneof_shown g o) [] Ty) as [A N].
  unfold oneof_items_with_froms, oneof_items in R. set (D := after_escape (g_passes g) d4) in *.
  eexists _, _, _, (map (fun f => (f_name f, type_ast g D (f_typ f))) (chosen g D [] (oneof_shown g o))), _.
  split; [rewrite R; rewrite map_map; reflexivity|].
  assert (Ps : map (fun q => (fst q, unboxed (snd q))) (payloads (flat_map (oneof_variant g D o) (o_fields o) ++ [mkRVariant [] "None" VUnit])) =
    map (fun f => (f_name f, type_ast g D (f_typ f))) (oneof_shown g o)).
  { rewrite payloads_app, map_app. fold (plain_payloads (flat_map (oneof_variant g D o) (o_fields o))). rewrite shown_payloads. apply app_nil_r. }
  split; [|split; [|now rewrite map_map]].
  2:{ intros v t K. apply (in_map (fun q => (fst q, unboxed (snd q)))) in K. rewrite Ps in K. cbn [fst snd] in K. apply in_map_iff in K. destruct K as (f & E & K).
      injection E as _ E. destruct (chosen_covers g D Nm Ne _ [] Ty f K) as [[]|(x & J & Tx)]. exists (f_name x). apply in_map_iff. exists x. split; [|exact J].
      now rewrite Tx, E. }
  intros v t. rewrite Ps. rewrite in_map_iff. split.
  - intros (f & E & J). injection E as <- <-. apply A in J. destruct J as (l1 & l2 & E & N1 & _). rewrite E, map_app. cbn [map].
    eexists _, _. split; [reflexivity|]. now rewrite map_map.
  - intros (l1 & l2 & E & K). apply map_eq_app in E. destruct E as (f1 & f2 & E & <- & E2). destruct f2 as [|f f2]; [discriminate|]. cbn [map] in E2.
    injection E2 as <- <- <-. exists f. split; [reflexivity|]. apply A. exists f1, f2. split; [exact E|]. rewrite map_map in K. split; [exact K|intros []].
Qed.
Print Assumptions C98_from_impls.

(** When no variant is boxed and none names a lifetime, they are accepted: the
    variant takes the type of the parameter, and no lifetime is missing. *)
Theorem C98_plain_partial : forall g d d' p m o s,
  schema_ok d = true -> config_ok g = true -> process (g_passes g) d = GOk d' -> get_message d' p = Some m -> In o (m_oneofs m) ->
  write_oneof_with_froms g d' o = (s, None) ->
  exists attrs lt vs froms last,
    parse_rust s = Some (mkRFile [] (RIEnum attrs ("OneOf" ++ o_name o)%string lt vs
      :: map (fun q => from_impl ("OneOf" ++ o_name o)%string (fst q) (snd q)) froms ++ [last])) /\
    ((forall v t, In (v, t) (payloads vs) -> unboxed t = t /\ lives (print_ty t) = []) ->
     (forall v t, In (v, t) froms -> In (v, t) (payloads vs) /\ item_lives [] (from_impl ("OneOf" ++ o_name o)%string v t)) /\
     forall v t, In (v, t) (payloads vs) -> exists w, In (w, t) froms).
Proof.
  intros g d d' p m o s S C P G I W. destruct (C98_from_impls g d d' p m o s S C P G I W) as (attrs & lt & vs & froms & last & R & F & Cv & N).
  exists attrs, lt, vs, froms, last. split; [exact R|]. intros H.
  assert (E : map (fun q => (fst q, unboxed (snd q))) (payloads vs) = payloads vs).
  { clear - H. induction (payloads vs) as [|(v, t) l IH]; [reflexivity|]. cbn [map fst snd]. rewrite (proj1 (H v t (or_introl eq_refl))), IH; [reflexivity|].
    intros v' t' K. apply (H v'). now right. }
  rewrite E in F. split.
  - intros v t K. apply F in K. destruct K as (l1 & l2 & E2 & _).
    assert (K : In (v, t) (payloads vs)) by (rewrite E2, in_app_iff; right; now left). split; [exact K|].
    destruct (H v t K) as [_ L]. unfold from_impl.
    assert (Own : lives (print_ty (RTPath false [PSeg ("OneOf" ++ o_name o)%string []])) = []) by reflexivity.
    apply (impl_plain [] [] (Some (tapp "From" [GType t])) (tname ("OneOf" ++ o_name o)%string)).
    + apply known_nil. rewrite lives_wrap, L. reflexivity.
    + intros i [<-|[]]. split; [apply fresh_nil|]. split; [|split; [split; [apply known_nil; reflexivity|discriminate]|apply known_nil; reflexivity]].
      apply known_nil. cbn [fn_self fn_params]. change (print_params NoSelf [(RPBind false false "f", t)]) with ([TSym "("; TWord "f"; TSym ":"] ++ print_ty t ++ [TSym ")"]).
      rewrite !lives_app, L. reflexivity.
  - intros v t K. destruct (Cv v t K) as (w & J). exists w. now rewrite (proj1 (H v t K)) in J.
Qed.
Print Assumptions C98_plain_partial.

(** The concrete case: [a] and [b] have the same type in Rust, so that only [a]
    gets an implementation. *)
Definition fromSchema : text := "
enum Color { RED = 0; }
message B { optional int32 x = 1; }
message A { oneof pick { int32 a = 1; sint32 b = 2; bool c = 3; B d = 4; Color e = 5; } }".
(** the oneof [pick] of the message with that number, as it is written *)
Definition pick_of (t : text) (k : nat) : option (file_descriptor * file_descriptor * oneof * text) :=
  match read_one t with
  | ROk d => match process (g_passes textConfig) d with
             | GOk d' => match get_message d' [k] with
                         | Some m => match m_oneofs m with
                                     | o :: _ => match write_oneof_with_froms textConfig d' o with
                                                 | (s, None) => if schema_ok d && config_ok textConfig then Some (d, d', o, s) else None
                                                 | _ => None
                                                 end
                                     | [] => None
                                     end
                         | None => None
                         end
             | GErr _ => None
             end
  | _ => None
  end.
Lemma pick_facts t k d d' o s : pick_of t k = Some (d, d', o, s) -> exists m, schema_ok d = true /\ config_ok textConfig = true /\
  process (g_passes textConfig) d = GOk d' /\ get_message d' [k] = Some m /\ In o (m_oneofs m) /\ write_oneof_with_froms textConfig d' o = (s, None).
Proof.
  unfold pick_of. destruct (read_one t) as [d0| | |]; try discriminate. destruct (process _ d0) as [d1|] eqn:P; [|discriminate].
  destruct (get_message d1 [k]) as [m|] eqn:G; [|discriminate]. destruct (m_oneofs m) as [|o0 l] eqn:O; [discriminate|].
  destruct (write_oneof_with_froms textConfig d1 o0) as [s0 [e|]] eqn:W; [discriminate|]. destruct (schema_ok d0 && config_ok textConfig) eqn:K; [|discriminate].
  intros H. injection H as <- <- <- <-. apply andb_true_iff in K. exists m. rewrite O. repeat match goal with |- _ /\ _ => split end; try tauto. now left.
Qed.
Definition source_of (i : ritem_) : list (text * text) :=
  match i with
  | RIImpl _ [] (Some (RTPath _ [PSeg "From" [GType t]])) _
      [RIFn (mkRFn _ _ _ _ _ _ [RSExpr (REPost (REPath _ [_; PSeg v _]) _) _])] => [(v, render t)]
  | _ => []
  end.
Example C98_case : exists d d' o s m f, schema_ok d = true /\ config_ok textConfig = true /\ process (g_passes textConfig) d = GOk d' /\
  get_message d' [1] = Some m /\ In o (m_oneofs m) /\ write_oneof_with_froms textConfig d' o = (s, None) /\ parse_rust s = Some f /\
  flat_map source_of (file_items f) = [("a", "i32"); ("c", "bool"); ("d", "B"); ("e", "Color")].
Proof.
  destruct (pick_of fromSchema 1) as [(((d, d'), o), s)|] eqn:E; [|vm_compute in E; discriminate].
  destruct (pick_facts _ _ _ _ _ _ E) as (m & S & C & P & G & I & W).
  assert (Q : match pick_of fromSchema 1 with Some (_, s) => option_map (fun f => flat_map source_of (file_items f)) (parse_rust s) | None => None end =
    Some [("a", "i32"); ("c", "bool"); ("d", "B"); ("e", "Color")]) by (vm_compute; reflexivity).
  rewrite E in Q. destruct (parse_rust s) as [f|] eqn:R; [|discriminate]. injection Q as Q. exists d, d', o, s, m, f. repeat split; assumption.
Qed.

(** For a type that borrows, the implementation names a lifetime that it does not
    declare. *)
Theorem C98_lifetime_refuted : exists d d' o s m f i, schema_ok d = true /\ config_ok textConfig = true /\ process (g_passes textConfig) d = GOk d' /\
  get_message d' [0] = Some m /\ In o (m_oneofs m) /\ write_oneof_with_froms textConfig d' o = (s, None) /\ parse_rust s = Some f /\
  In i (file_items f) /\ ~ item_lives [] i.
Proof.
  set (T := "message A { oneof pick { string a = 1; } }").
  destruct (pick_of T 0) as [(((d, d'), o), s)|] eqn:E; [|vm_compute in E; discriminate].
  destruct (pick_facts _ _ _ _ _ _ E) as (m & S & C & P & G & I & W).
  assert (Q : match pick_of T 0 with Some (_, s) => match parse_rust s with Some f => nth_error (file_items f) 1 | None => None end | None => None end =
    Some (from_impl "OneOfpick" "a" (tapp "Cow" [GLife "a"; GType (tname "str")]))) by (vm_compute; reflexivity).
  rewrite E in Q. destruct (parse_rust s) as [f|] eqn:R; [|discriminate]. exists d, d', o, s, m, f, (from_impl "OneOfpick" "a" (tapp "Cow" [GLife "a"; GType (tname "str")])).
  repeat match goal with |- _ /\ _ => split end; try assumption; [exact (nth_error_In _ _ Q)|].
  intros (_ & K & _). destruct (K "a") as [[]|[X|X]]; [now left|discriminate|discriminate].
Qed.
Print Assumptions C98_lifetime_refuted.

(** For a boxed variant, the implementation passes the value without its [Box]:
    the variant takes a different type. *)
Theorem C98_boxed_refuted : exists d d' o s m attrs lt vs v t rest, schema_ok d = true /\ config_ok textConfig = true /\ process (g_passes textConfig) d = GOk d' /\
  get_message d' [0] = Some m /\ In o (m_oneofs m) /\ write_oneof_with_froms textConfig d' o = (s, None) /\
  parse_rust s = Some (mkRFile [] (RIEnum attrs ("OneOf" ++ o_name o)%string lt vs :: from_impl ("OneOf" ++ o_name o)%string v t :: rest)) /\
  forall t', In (v, t') (payloads vs) -> t' <> t.
Proof.
  set (T := "message A { oneof pick { A a = 1; } }").
  destruct (pick_of T 0) as [(((d, d'), o), s)|] eqn:E; [|vm_compute in E; discriminate].
  destruct (pick_facts _ _ _ _ _ _ E) as (m & S & C & P & G & I & W).
  assert (Q : match pick_of T 0 with Some (_, o, s) => option_map (fun f => (o_name o, firstn 2 (file_items f))) (parse_rust s) | None => None end =
    Some ("pick", [RIEnum [derives (idents ["Debug"; "PartialEq"; "Clone"])] "OneOfpick" [] [mkRVariant [] "a" (VOne (tapp "Box" [GType (tname "A")])); mkRVariant [] "None" VUnit];
     from_impl "OneOfpick" "a" (tname "A")])) by (vm_compute; reflexivity).
  rewrite E in Q. destruct (parse_rust s) as [[fa items]|] eqn:R; [|discriminate].
  assert (A : fa = []).
  { destruct (C98_from_impls _ _ _ _ _ _ _ S C P G I W) as (a1 & a2 & a3 & a4 & a5 & K & _). rewrite R in K. now injection K. }
  subst fa. injection Q as Qn Q. cbn [file_items] in Q.
  assert (X : exists x y rest, items = x :: y :: rest).
  { destruct items as [|x items]; [apply (f_equal (@length _)) in Q; discriminate Q|]. destruct items as [|y rest]; [apply (f_equal (@length _)) in Q; discriminate Q|]. eauto. }
  destruct X as (x & y & rest & ->). cbn [firstn] in Q.
  pose proof (f_equal (fun l => nth 0 l x) Q) as Qx. pose proof (f_equal (fun l => nth 1 l y) Q) as Qy. cbn [nth] in Qx, Qy. subst x y.
  exists d, d', o, s, m. rewrite Qn. eexists _, _, _, _, _, _. repeat match goal with |- _ /\ _ => split end; try eassumption.
  intros t' [K|[]]. injection K as <-. discriminate.
Qed.
Print Assumptions C98_boxed_refuted.
