(** [write_message] of the generated trees *)
From Coq Require Import String Ascii Arith ZArith Lia Bool.
From Verif Require Import Base Reader PackedFixed Writer Sizeofs Spec Schema Keywords Modules Passes Gen GenSem GenSpec GenCheck.
From Verif Require Import RustTypes Emit Literals Output Paths GenText RustLex RustAst RustParse GenAst RustSem Meaning MeanFacts MeanSize.
Import Schema StringSyntax.
Local Open Scope string_scope.
Local Open Scope list_scope.
Local Open Scope Z_scope.

Definition put (s : st) (q : wprog) : st := mkSt (s_env s) (s_out s ++ q) (s_src s) (s_in s).
Lemma put_nil : forall s, put s [] = s.
Proof. intros (e, o, b, r). unfold put. cbn. now rewrite app_nil_r. Qed.
Lemma put_app : forall s p q, put (put s p) q = put s (p ++ q).
Proof. intros (e, o, b, r) p q. unfold put. cbn. now rewrite app_assoc. Qed.
(** a computation that writes [q] and returns nothing that matters *)
Definition does (env : list (text * rv)) (m : st -> res rv) (q : wprog) : Prop :=
  forall s, s_env s = env -> exists x, may_drop x = true /\ m s = Go x (put s q).
Lemma does_scoped : forall env bs m q, does (bs ++ env) m q -> does env (scoped bs m) q.
Proof.
  intros env bs m q H (e, o, b, r) Q. cbn in Q. subst e. destruct (H (mkSt (bs ++ env) o b r) eq_refl) as (x & D & E). exists x. split; [exact D|].
  unfold scoped. cbn [s_env s_out s_src s_in]. rewrite E. unfold put. cbn. now rewrite skipn_app, skipn_all, Nat.sub_diag.
Qed.

Section Ev.
Variables (t : target) (names : scope -> list text -> option rtype) (w : world) (here : scope) (fuel : nat).
Notation ev := (eval t names w here fuel).
Notation yields := (yields t names w here fuel).
Notation writes := (fun env o q => forall p s, s_env s = env -> operate t names w here fuel ev None [o] p XWriter s = Go (XWrite q) s).

Lemma each_does : forall {A} env (f : A -> st -> res rv) (F : A -> wprog) l, (forall v, In v l -> does env (f v) (F v)) ->
  forall s, s_env s = env -> exists r, each f l s = Go r (put s (flat_map F l)).
Proof.
  intros A env f F l. induction l as [|v l IH]; intros H s Q.
  - exists []. cbn. now rewrite put_nil.
  - destruct (H v (or_introl eq_refl) s Q) as (x & _ & E). cbn [each]. unfold seq at 1. rewrite E.
    destruct (IH (fun u J => H u (or_intror J)) (put s (F v)) Q) as (r & R). unfold seq. rewrite R. exists (x :: r). cbn [flat_map]. unfold go. now rewrite put_app.
Qed.
Lemma does_run : forall env e q, does env (ev None e) q -> does env (block w ev None [run e]) q.
Proof.
  intros env e q H s Q. destruct (H s Q) as (x & D & E). exists XUnit. split; [reflexivity|].
  change (block w ev None [run e] s) with (seq (ev None e) (fun x => if may_drop x then go XUnit else stuck) s). unfold seq. now rewrite E, D.
Qed.
(** the closures of the writer *)
Lemma on_writer_writes : forall env o q, writes (("w", XWriter) :: env) o q ->
  forall s, s_env s = env -> in_closure [bind "w"] [XWriter] (ev None (REPost (var "w") [o])) s = Go (XWrite q) s.
Proof.
  intros env o q H s Q. apply (closure_pure t names w here fuel [bind "w"] [XWriter] [("w", XWriter)] env); [reflexivity| |exact Q].
  intros s' Q'. specialize (H (Some ("w", None)) s' Q').
  assert (E : ev None (REPost (var "w") [o]) s' = seq (ev None (var "w")) (fun x => operate t names w here fuel ev None [o] (Some ("w", None)) x) s' \/ exists a, o = OCall a).
  { destruct o; [left; reflexivity|left; reflexivity|right; eexists; reflexivity|left; reflexivity]. }
  destruct E as [E|(a & ->)]; [|discriminate H]. rewrite E. unfold seq. rewrite (ev_var t names w here fuel None "w" XWriter s'); [exact H|]. rewrite Q'. reflexivity.
Qed.
Lemma with_tag : forall env f o q rest h s, assoc "w" env = Some XWriter -> writes (("w", XWriter) :: env) o q -> s_env s = env ->
  ev h (GenAst.write_with_tag f o rest) s = operate t names w here fuel ev h rest None (XWrite (Writer.write_with_tag (field_tag f) q)) s.
Proof.
  intros env f o q rest h s W O Q. unfold GenAst.write_with_tag, method. rewrite ev_post_method. unfold seq at 1.
  rewrite (ev_var t names w here fuel None "w" XWriter s) by (now rewrite Q). rewrite operate_method. unfold seq at 1. unfold call_method.
  change (mkind_of "write_with_tag") with MWithTag. unfold on_writer, closure. cbv iota. unfold seq at 1 2.
  rewrite ev_num by apply gen_tag_nonneg. cbn [the_int]. unfold go at 1. unfold seq at 1 2. rewrite (on_writer_writes env o q O s Q). reflexivity.
Qed.
Lemma does_with_tag : forall env f o q h, assoc "w" env = Some XWriter -> writes (("w", XWriter) :: env) o q ->
  does env (ev h (GenAst.write_with_tag f o [OTry])) (Writer.write_with_tag (field_tag f) q).
Proof.
  intros env f o q h W O s Q. rewrite (with_tag env f o q [OTry] h s W O Q). exists XUnit. split; reflexivity.
Qed.
Lemma writes_map : forall env k v qk qv zk zv nk nv,
  0 <= zk -> 0 <= zv ->
  adds t names w here fuel env (size_terms k (var "k")) nk -> adds t names w here fuel env (size_terms v (var "v")) nv ->
  writes (("w", XWriter) :: env) (write_op k (var "k") false) qk -> writes (("w", XWriter) :: env) (write_op v (var "v") false) qv ->
  zk = gen_tag 1 k false -> zv = gen_tag 2 v false ->
  writes env (write_op (TMap k v) zero false) (write_map (2 + nk + nv) zk qk zv qv).
Proof.
  intros env k v qk qv zk zv nk nv Z1 Z2 A1 A2 W1 W2 E1 E2 p s Q. subst zk zv. cbn [write_op]. unfold method. rewrite operate_method. unfold seq at 1. unfold call_method.
  change (mkind_of "write_map") with MWriteMap. unfold on_writer, closure. cbv iota.
  assert (S : yields env (sum_of (size_terms (TMap k v) zero)) (XInt (2 + nk + nv))).
  { apply yields_sum. cbn [size_terms]. rewrite <- Z.add_assoc. constructor; [apply yields_lit; reflexivity|]. now apply adds_app. }
  unfold seq at 1 2. rewrite (S s Q). cbn [the_int]. unfold go at 1. unfold seq at 1 2. rewrite ev_num by exact Z1. cbn [the_int]. unfold go at 1. unfold seq at 1 2.
  rewrite (on_writer_writes env _ qk W1 s Q). cbn [written]. unfold go at 1. unfold seq at 1 2. rewrite ev_num by exact Z2. cbn [the_int]. unfold go at 1. unfold seq at 1 2.
  rewrite (on_writer_writes env _ qv W2 s Q). reflexivity.
Qed.
Lemma packed_map : forall {A} tag (l : list A) f z, write_packed_with_tag tag (map (fun v => (f v, z v)) l) fst snd = write_packed_with_tag tag l f z.
Proof.
  intros A tag l f z. unfold write_packed_with_tag. destruct l as [|v l]; [reflexivity|]. cbn [map].
  assert (S : forall l, sum_sizes snd (map (fun v => (f v, z v)) l) = sum_sizes z l) by (unfold sum_sizes; induction l0 as [|a l0 IH]; [reflexivity|cbn [map fold_right snd]; now rewrite IH]).
  assert (F : forall l, flat_map fst (map (fun v => (f v, z v)) l) = flat_map f l) by (induction l0 as [|a l0 IH]; [reflexivity|cbn; now rewrite IH]).
  change ((f v, z v) :: map (fun v => (f v, z v)) l) with (map (fun v => (f v, z v)) (v :: l)). now rewrite S, F.
Qed.
Lemma does_packed : forall {A} env f e (h : A -> rv) l o z (F : A -> wprog) (Z : A -> Z), assoc "w" env = Some XWriter ->
  yields env e (XList (map h l)) ->
  (forall v, In v l -> writes (("w", XWriter) :: ("m", h v) :: env) o (F v) /\ yields (("m", h v) :: env) z (XInt (Z v))) ->
  does env (ev None (REPost (var "w")
    [method "write_packed_with_tag" [num (field_tag f); REUn URef e; closure [bind "w"; RPRef (bind "m")] (REPost (var "w") [o]); REUn URef (closure [RPRef (bind "m")] z)]; OTry]))
    (write_packed_with_tag (field_tag f) l F Z).
Proof.
  intros A env f e h l o z F Z W E H s Q. exists XUnit. split; [reflexivity|]. unfold method. rewrite ev_post_method. unfold seq at 1.
  rewrite (ev_var t names w here fuel None "w" XWriter s) by (now rewrite Q). rewrite operate_method. unfold seq at 1. unfold call_method.
  change (mkind_of "write_packed_with_tag") with MWritePacked. unfold closure. cbv iota.
  unfold seq at 1 2. rewrite ev_num by apply gen_tag_nonneg. cbn [the_int]. unfold go at 1.
  assert (E' : ev None (REUn URef e) s = Go (XList (map h l)) s) by (apply yields_same with (env := env); [reflexivity|exact E|exact Q]).
  unfold seq at 1 2. rewrite E'. unfold go at 1. unfold seq at 1. rewrite each_map, (each_pure _ (fun v => (F v, Z v))).
  - unfold go at 1. rewrite packed_map. reflexivity.
  - intros v J. destruct (H v J) as (Hw & Hz).
    assert (X : in_closure [bind "w"; RPRef (bind "m")] [XWriter; h v] (ev None (REPost (var "w") [o])) s = Go (XWrite (F v)) s).
    { apply (closure_pure t names w here fuel [bind "w"; RPRef (bind "m")] [XWriter; h v] [("w", XWriter); ("m", h v)] env); [reflexivity| |exact Q].
      intros s' Q'. specialize (Hw (Some ("w", None)) s' Q').
      assert (E0 : ev None (REPost (var "w") [o]) s' = seq (ev None (var "w")) (fun x => operate t names w here fuel ev None [o] (Some ("w", None)) x) s' \/ exists a, o = OCall a).
      { destruct o; [left; reflexivity|left; reflexivity|right; eexists; reflexivity|left; reflexivity]. }
      destruct E0 as [E0|(a & ->)]; [|discriminate Hw]. rewrite E0. unfold seq. rewrite (ev_var t names w here fuel None "w" XWriter s'); [exact Hw|]. rewrite Q'. reflexivity. }
    assert (Y : in_closure [RPRef (bind "m")] [h v] (ev None z) s = Go (XInt (Z v)) s).
    { apply (closure_pure t names w here fuel [RPRef (bind "m")] [h v] [("m", h v)] env); [reflexivity|exact Hz|exact Q]. }
    unfold seq at 1 2. rewrite X. cbn [written]. unfold go at 1. unfold seq at 1 2. rewrite Y. reflexivity.
Qed.
Lemma does_packed_fixed : forall env f e k p, assoc "w" env = Some XWriter -> yields env e (XPacked k p) ->
  does env (ev None (REPost (var "w") [method "write_packed_fixed_with_tag" [num (field_tag f); REUn URef e]; OTry])) (write_packed_fixed_with_tag k (field_tag f) p).
Proof.
  intros env f e k p W E s Q. exists XUnit. split; [reflexivity|]. unfold method. rewrite ev_post_method. unfold seq at 1.
  rewrite (ev_var t names w here fuel None "w" XWriter s) by (now rewrite Q). rewrite operate_method. unfold seq at 1. unfold call_method.
  change (mkind_of "write_packed_fixed_with_tag") with MWritePackedFixed. cbv iota.
  unfold seq at 1 2. rewrite ev_num by apply gen_tag_nonneg. cbn [the_int]. unfold go at 1.
  assert (E' : ev None (REUn URef e) s = Go (XPacked k p) s) by (apply yields_same with (env := env); [reflexivity|exact E|exact Q]).
  unfold seq at 1. rewrite E'. reflexivity.
Qed.
Lemma does_for : forall {A} env p e b (h : A -> rv) l x (F : A -> wprog), yields env e x -> elements x = Some (map h l) ->
  (forall v, In v l -> exists bs, pats matches [p] [h v] = Some bs /\ does (bs ++ env) (block w ev None b) (F v)) ->
  does env (ev None (REFor p e b)) (flat_map F l).
Proof.
  intros A env p e b h l x F E El H s Q. exists XUnit. split; [reflexivity|].
  change (ev None (REFor p e b) s) with (seq (ev None e) (fun x => seq (of_option (elements x)) (fun l => seq (each (fun y => with_args [p] [y] (block w ev None b)) l) (fun _ => go XUnit))) s).
  unfold seq at 1. rewrite (E s Q). unfold seq at 1. rewrite El. cbn [of_option]. unfold go at 1. rewrite each_map. unfold seq.
  destruct (each_does env (fun y => with_args [p] [h y] (block w ev None b)) F l) with (s := s) as (r & R); [|exact Q|now rewrite R].
  intros v J. destruct (H v J) as (bs & P & D). unfold with_args. rewrite P. now apply does_scoped.
Qed.
Lemma yields_unwrapping : forall env f b e x, yields env e x -> yields env (unwrapping_exp f b e) x.
Proof.
  intros env f b e x H. unfold unwrapping_exp. cbv zeta.
  repeat match goal with |- context [if ?a then _ else _] => destruct a end;
    repeat first [exact H | apply yields_paren | apply yields_same; [reflexivity|]].
Qed.
End Ev.

Section Program.
Variable g : gen_config.
Variables d d0 : file_descriptor.
Variable t : target.
Variable names : scope -> list text -> option rtype.
Variable lit : field_type -> text -> option value.
Let c : config := g_passes g.
Hypothesis Names : names_ok d d0 names.
Hypothesis Plain : plain_names g d.
Hypothesis Schema : schema_wf d c lit.
Hypothesis Consts : constants_ok g d d0 t names lit.
Hypothesis Derive : default_kept g d.
Hypothesis Typed : forall ty s v, lit ty s = Some v -> val_ok d c ty v.
Let prog := generated_program g d d0.
Notation emb := (rust_value d c).

Section Message.
Variables (i : midx) (m : message).
Hypothesis G : get_message d i = Some m.
Variables (w : world) (fuel depth : nat).
Hypothesis WN : w_numbers w = numbers_of prog.
Hypothesis WV : w_variants w = variants_of names prog.
Hypothesis WD : forall j x ss, get_message d j = Some x -> GenSem.message_default d c lit j = Some ss -> w_default w (YMsg j) = Some (rust_struct d c j x ss).
Hypothesis WS : forall j ss, message_ok d c j ss -> (value_depth (VMsg ss) <= depth)%nat ->
  w_size w j (emb (TMessage j) (VMsg ss)) = Some (message_size d c lit j ss).
Hypothesis WW : forall j ss, message_ok d c j ss -> (value_depth (VMsg ss) <= depth)%nat ->
  w_write w j (emb (TMessage j) (VMsg ss)) = Some (message_write d c lit j ss).
Notation ev := (eval t names w (InMsg i) fuel).
Notation yields := (yields t names w (InMsg i) fuel).
Notation adds := (adds t names w (InMsg i) fuel).
Notation writes := (fun env o q => forall p s, s_env s = env -> operate t names w (InMsg i) fuel ev None [o] p XWriter s = Go (XWrite q) s).

Lemma writes_value : forall env ty e b v, typ_ok d ty -> val_ok d c ty v -> (value_depth v <= depth)%nat -> yields env e (emb ty v) ->
  writes env (write_op ty e b) (value_write d c lit (write_fn ty) v).
Proof.
  intros env ty e b v T V D Y p s Q. apply (write_value d c lit t names w (InMsg i) fuel env); try assumption.
  - exact (typ_not_map d ty T).
  - intros j ss -> ->. now apply WS.
  - intros j ss -> ->. now apply WW.
Qed.
Lemma adds_value : forall env ty x v, typ_ok d ty -> val_ok d c ty v -> (value_depth v <= depth)%nat -> assoc x env = Some (emb ty v) ->
  adds env (size_terms ty (var x)) (value_size d c lit (size_fn ty) v).
Proof.
  intros env ty x v T V D Y. apply size_value; [exact (typ_not_map d ty T)|exact V| |now apply shows_var]. intros j ss -> ->. now apply WS.
Qed.

Section Field.
Variables (env fs : list (text * rv)).
Hypothesis Self : assoc "self" env = Some (XStruct i fs).
Hypothesis Wr : assoc "w" env = Some XWriter.
Hypothesis NoNone : assoc "None" env = None.

Lemma field_does : forall f sl, In f (visible_fields c m) -> slot_ok d c (get_type c f) sl -> (slot_depth sl <= depth)%nat ->
  assoc (f_name f) fs = Some (rust_slot d c (get_type c f) sl) ->
  exists e semi, field_writes g d d0 f = [RSExpr e semi] /\ does env (ev None e) (slot_write d c lit (field_write c f) sl).
Proof.
  intros f sl I V D F. pose proof (field_facts g d lit Schema i m f G I) as (F1 & F2 & F3 & F4).
  assert (Vis : hidden g f = false).
  { rewrite visible_shown. fold c. apply filter_In in I. destruct I as (_ & ->). reflexivity. }
  unfold field_writes. rewrite Vis. unfold get_type, field_write in *. unfold self_field.
  destruct (generated_type_of (f_freq f)) eqn:GT.
  - assert (Ty : typ_ok d (f_typ f)).
    { unfold generated_type_of in GT. destruct (freq_is_map (f_freq f)); [discriminate|exact F2]. }
    destruct (freq_is_optional (f_freq f)) eqn:O.
    + assert (P : has_presence f = true).
      { unfold has_presence. destruct (f_freq f); try discriminate O; destruct (f_typ f); try reflexivity; contradiction. }
      rewrite P. eexists; eexists; split; [reflexivity|].
      assert (S : exists o, rust_slot d c (if f_boxed f then TyOptionBox (f_typ f) else TyOption (f_typ f)) sl = XOpt (option_map (emb (f_typ f)) o) /\
        slot_write d c lit (WsOption (field_tag f) (write_fn (f_typ f))) sl =
          match o with Some v => Writer.write_with_tag (field_tag f) (value_write d c lit (write_fn (f_typ f)) v) | None => [] end /\
        match o with Some v => val_ok d c (f_typ f) v /\ (value_depth v <= depth)%nat | None => True end).
      { destruct (f_boxed f); destruct sl; try contradiction; cbn [slot_ok] in V; [exists None|exists (Some v)|exists None|exists (Some v)]; auto. }
      destruct S as (o & S1 & S2 & S3). rewrite S1 in F. rewrite S2. intros s Q. exists XUnit. split; [reflexivity|].
      assert (Y : ev None (REPost (var "self") [OField (f_name f); method "as_ref" []; method "map_or" [ok_unit; closure [option_pat f] (write_method_exp f (unwrapping_exp f false (var "m")) [])]; OTry]) s =
        operate t names w (InMsg i) fuel ev None [OTry] None (match o with Some v => XWrite (Writer.write_with_tag (field_tag f) (value_write d c lit (write_fn (f_typ f)) v)) | None => XOk XUnit end) s).
      { rewrite <- Q in Self. rewrite (ev_field t names w (InMsg i) fuel None "self" i fs (f_name f) _ s Self F). unfold method. rewrite operate_method. unfold seq at 1. rewrite call_plain by reflexivity.
        change (plain_method w "as_ref" (XOpt (option_map (emb (f_typ f)) o))) with (Some (XOpt (option_map (emb (f_typ f)) o))).
        cbn [of_option go]. rewrite operate_method. unfold seq at 1. unfold call_method. change (mkind_of "map_or") with MMapOr. unfold closure. cbv iota.
        assert (Ok : ev None ok_unit s = Go (XOk XUnit) s) by reflexivity. unfold seq at 1. rewrite Ok. destruct o as [v|]; [|reflexivity]. cbn [option_map]. destruct S3 as (S3 & S4).
        rewrite (closure_pure t names w (InMsg i) fuel [option_pat f] [emb (f_typ f) v] [("m", emb (f_typ f) v)] env _ (XWrite (Writer.write_with_tag (field_tag f) (value_write d c lit (write_fn (f_typ f)) v)))).
        - reflexivity.
        - unfold option_pat. now destruct (f_boxed f || negb (is_primitive (f_typ f)))%bool.
        - intros s' Q'. unfold write_method_exp.
          rewrite (with_tag t names w (InMsg i) fuel (("m", emb (f_typ f) v) :: env) f _ (value_write d c lit (write_fn (f_typ f)) v) [] None s'); [reflexivity|exact Wr| |exact Q'].
          intros p s'' Q''. rewrite (writes_value (("w", XWriter) :: ("m", emb (f_typ f) v) :: env) (f_typ f) _ _ v); auto. apply yields_unwrapping. now apply yields_var.
        - exact Q. }
      rewrite Y. destruct o; [reflexivity|]. rewrite put_nil. reflexivity.
    + assert (B : f_boxed f = false) by (destruct (f_boxed f); [exfalso; specialize (F1 eq_refl); congruence|reflexivity]).
      rewrite B in V, F. destruct sl as [v| | | | | | |]; try contradiction. change (val_ok d c (f_typ f) v) in V. change (assoc (f_name f) fs = Some (emb (f_typ f) v)) in F.
      assert (A : does env (ev None (write_method_exp f (unwrapping_exp f false (REPost (var "self") [OField (f_name f)])) [OTry]))
        (Writer.write_with_tag (field_tag f) (value_write d c lit (write_fn (f_typ f)) v))).
      { apply does_with_tag; [exact Wr|]. apply writes_value; auto. apply yields_unwrapping. eapply yields_field; [exact Self|exact F]. }
      destruct (has_presence f) eqn:P; [eexists; eexists; split; [reflexivity|exact A]|].
      eexists; eexists; split; [reflexivity|].
      change (slot_write d c lit (WsUnlessDefault (get_field_default c f) (f_typ f) (field_tag f) (write_fn (f_typ f))) (SlOne v)) with
        (match dexpr_value d c lit (get_field_default c f) with
         | Some u => if rust_eq (f_typ f) v u then [] else Writer.write_with_tag (field_tag f) (value_write d c lit (write_fn (f_typ f)) v)
         | None => [OpPanic] end).
      assert (NM : forall j, f_typ f <> TMessage j).
      { intros j E. unfold has_presence in P. unfold generated_type_of in GT. rewrite E in P. destruct (f_freq f); discriminate. }
      assert (Dv : exists dv, dexpr_value d c lit (get_field_default c f) = Some dv).
      { unfold dexpr_value, get_field_default. rewrite B, GT, O. destruct (f_default f) as [x|] eqn:Df.
        - cbn [dexpr_slot]. destruct (F4 x eq_refl) as (y & ->). now exists y.
        - destruct (f_typ f); try contradiction; try (exfalso; now apply (NM m0)); cbn; eexists; reflexivity. }
      destruct Dv as (dv & Dv). rewrite Dv. intros s Q.
      pose proof (default_value g d d0 t names lit Names Schema Consts Typed i m G w fuel WN WV WD env NoNone f dv s I GT O NM Dv Q) as (D1 & D2).
      pose proof (shaped_ok g d (f_typ f) v V NM) as Sv.
      assert (C : ev None (RECmp false (unwrapping_exp f true (REPost (var "self") [OField (f_name f)])) (default_exp g d d0 f)) s = Go (XBool (Bool.eqb (rust_eq (f_typ f) v dv) false)) s).
      { change (ev None (RECmp false ?a (default_exp g d d0 f)) s) with
          (seq (ev None a) (fun x => seq (ev (type_hint x) (default_exp g d d0 f)) (fun y => seq (of_option (equal x y)) (fun r => go (XBool (Bool.eqb r false))))) s).
        assert (Y : yields env (unwrapping_exp f true (REPost (var "self") [OField (f_name f)])) (emb (f_typ f) v)) by (apply yields_unwrapping; eapply yields_field; [exact Self|exact F]).
        unfold seq. rewrite (Y s Q). cbv beta iota. fold c in D2. rewrite (D2 v Sv). cbv beta iota. unfold c.
        rewrite (equal_values g d _ _ _ Sv D1). reflexivity. }
      change (ev None (REIf ?a ?b None) s) with (seq (seq (ev None a) the_bool) (fun x : bool => if x then block w ev None b else go XUnit) s).
      unfold seq. rewrite C. cbn [the_bool]. unfold go at 1. destruct (rust_eq (f_typ f) v dv); cbn [Bool.eqb].
      * exists XUnit. split; [reflexivity|]. now rewrite put_nil.
      * exact (does_run t names w (InMsg i) fuel env _ _ A s Q).
  - assert (Fr : freq_is_map (f_freq f) = false /\ freq_is_repeated (f_freq f) = true).
    { unfold generated_type_of in GT. destruct (freq_is_map (f_freq f)); [discriminate|]. now destruct (freq_is_repeated (f_freq f)). }
    destruct Fr as (Fr1 & Fr2). rewrite Fr1 in F2.
    assert (B : f_boxed f = false).
    { destruct (f_boxed f); [|reflexivity]. specialize (F1 eq_refl). destruct (f_freq f); discriminate. }
    rewrite B in V, F. destruct (f_is_packed f) eqn:P.
    + destruct (is_fixed_size (f_typ f)) eqn:Fx.
      * rewrite Fr2 in F3. specialize (F3 eq_refl). fold c in F3. rewrite F3 in V, F. cbn [andb negb] in V, F.
        destruct sl as [| | | |p| | |]; try contradiction. change (assoc (f_name f) fs = Some (XPacked (fixed_kind_of (f_typ f)) p)) in F.
        eexists; eexists; split; [reflexivity|]. apply does_packed_fixed; [exact Wr|]. eapply yields_field; [exact Self|exact F].
      * cbn [andb] in V, F. destruct sl as [| | |l| | | |]; try contradiction. change (assoc (f_name f) fs = Some (XList (map (emb (f_typ f)) l))) in F.
        eexists; eexists; split; [reflexivity|].
        change (slot_write d c lit (WsPacked (field_tag f) (write_fn (f_typ f)) (size_fn (f_typ f))) (SlVec l)) with
          (write_packed_with_tag (field_tag f) l (value_write d c lit (write_fn (f_typ f))) (value_size d c lit (size_fn (f_typ f)))).
        apply does_packed with (h := emb (f_typ f)); [exact Wr|eapply yields_field; [exact Self|exact F]|].
        intros v J. pose proof (vals_ok_in g d _ _ _ J V) as Vv. pose proof (depth_in _ _ _ J D) as Dv. split.
        -- apply writes_value; auto. now apply yields_var.
        -- apply yields_sum. now apply adds_value.
    + cbn [andb] in V, F. destruct sl as [| | |l| | | |]; try contradiction. change (assoc (f_name f) fs = Some (XList (map (emb (f_typ f)) l))) in F.
      eexists; eexists; split; [reflexivity|].
      change (slot_write d c lit (WsRepeated (field_tag f) (write_fn (f_typ f))) (SlVec l)) with
        (flat_map (fun v => Writer.write_with_tag (field_tag f) (value_write d c lit (write_fn (f_typ f)) v)) l).
      eapply does_for with (h := emb (f_typ f)); [apply yields_same; [reflexivity|eapply yields_field; [exact Self|exact F]]|reflexivity|].
      intros v J. pose proof (vals_ok_in g d _ _ _ J V) as Vv. pose proof (depth_in _ _ _ J D) as Dv.
      exists [("s", emb (f_typ f) v)]. split; [reflexivity|]. apply does_run, does_with_tag; [exact Wr|]. apply writes_value; auto.
      destruct (need_to_dereference (f_typ f)); [apply yields_same; [reflexivity|]|]; now apply yields_var.
  - unfold generated_type_of in GT. destruct (freq_is_map (f_freq f)) eqn:Fm; [|destruct (freq_is_repeated (f_freq f)); discriminate].
    destruct (f_typ f) as [| | | | | | | | | | | | | | | | | | | |tk tv] eqn:Ty; try contradiction.
    assert (B : f_boxed f = false).
    { destruct (f_boxed f); [|reflexivity]. specialize (F1 eq_refl). destruct (f_freq f); discriminate. }
    rewrite B in V, F. destruct sl as [| | | | |l| |]; try contradiction.
    change (assoc (f_name f) fs = Some (XMap (map (fun '(k, v) => (emb tk k, emb tv v)) l))) in F. cbn [slot_ok] in V. destruct F2 as (K & T). destruct V as (V & _).
    assert (K' : typ_ok d tk) by (destruct tk; try contradiction; exact Logic.I).
    eexists; eexists; split; [reflexivity|].
    change (slot_write d c lit (WsMap (field_tag f) (map_entry_of tk tv)) (SlMap l)) with
      (flat_map (fun '(k, v) => Writer.write_with_tag (field_tag f) (write_map (2 + value_size d c lit (size_fn tk) k + value_size d c lit (size_fn tv) v)
         (gen_tag 1 tk false) (value_write d c lit (write_fn tk) k) (gen_tag 2 tv false) (value_write d c lit (write_fn tv) v))) l).
    eapply does_for with (h := fun '(k, v) => XTuple [emb tk k; emb tv v]).
    + eapply yields_field_method; [exact Self|exact F|reflexivity|reflexivity].
    + cbn [elements]. rewrite map_map. f_equal. apply map_ext. now intros (k, v).
    + intros (k, v) J. destruct (map_ok_in g d _ _ _ _ _ J V) as (Vk & Vv). destruct (depth_in_map _ _ _ _ J D) as (Dk & Dv).
      exists [("k", emb tk k); ("v", emb tv v)]. split.
      * cbn [pats matches]. rewrite !deref_binds. reflexivity.
      * apply does_run, does_with_tag; [exact Wr|]. apply writes_map; try apply gen_tag_nonneg; try reflexivity;
          first [now apply adds_value|apply writes_value; auto; now apply yields_var].
Qed.
Lemma oneof_does : forall o sl, In o (m_oneofs m) -> slot_ok d c (TyOneof (oneof_variants c o)) sl -> (slot_depth sl <= depth)%nat ->
  assoc (o_name o) fs = Some (rust_slot d c (TyOneof (oneof_variants c o)) sl) ->
  exists e semi, GenAst.oneof_write g d o = RSExpr e semi /\ does env (ev None e) (slot_write d c lit (Gen.oneof_write c o) sl).
Proof.
  intros o sl I V D F. eexists; eexists; split; [reflexivity|]. intros s Q. set (arms := map _ _ ++ _).
  change (ev None (REMatch (REUn URef (self_field (o_name o) [])) arms) s) with (seq (ev None (REPost (var "self") [OField (o_name o)])) (fun x => arms_of ev None x arms) s).
  unfold seq. rewrite (yields_field t names w (InMsg i) fuel env "self" i fs (o_name o) _ Self F s Q). unfold arms. rewrite shown_variants. fold c.
  destruct sl as [| | | | | | |n v]; try contradiction.
  - change (rust_slot d c (TyOneof (oneof_variants c o)) SlOneofNone) with (XVariant "None" None). rewrite arms_miss.
    + rewrite (arms_hit t names i w fuel _ _ _ _ _ _ [] s (none_pattern d o)). exists XUnit. split; [reflexivity|].
      change (slot_write d c lit (Gen.oneof_write c o) SlOneofNone) with (@nil wop). rewrite put_nil. unfold scoped. cbn [app length skipn].
      change (ev None (REBlock [])) with (fun s : st => Go XUnit s). now destruct s.
    + apply Forall_forall. intros a J. apply in_map_iff in J. destruct J as (f & <- & _). reflexivity.
  - cbn [slot_ok] in V. destruct (nth_error (oneof_variants c o) n) as [f|] eqn:N; [|contradiction].
    assert (E1 : rust_slot d c (TyOneof (oneof_variants c o)) (SlOneof n v) = XVariant (f_name f) (Some (emb (f_typ f) v))).
    { change (rust_slot d c (TyOneof (oneof_variants c o)) (SlOneof n v)) with
        (match nth_error (oneof_variants c o) n with Some f => XVariant (f_name f) (Some (emb (f_typ f) v)) | None => XUnit end). now rewrite N. }
    assert (E2 : slot_write d c lit (Gen.oneof_write c o) (SlOneof n v) = Writer.write_with_tag (field_tag f) (value_write d c lit (write_fn (f_typ f)) v)).
    { unfold Gen.oneof_write. change (slot_write d c lit (WsOneof ?l) (SlOneof n v)) with
        (match nth_error l n with Some (tag, e) => Writer.write_with_tag tag (value_write d c lit e v) | None => [OpPanic] end).
      rewrite nth_error_map, N. reflexivity. }
    rewrite E1, E2. rewrite (arm_of_variant g d t names Plain i m G w fuel None o _ n f); [|exact I|exact N|intros f'; repeat eexists].
    assert (T : typ_ok d (f_typ f)) by (apply (variant_facts g d lit Schema i m o f G I); eapply nth_error_In; exact N).
    rewrite variant_pattern, String.eqb_refl. cbn [matches bind app].
    assert (X : does env (scoped [("m", emb (f_typ f) v)] (ev None (REBlock [result (GenAst.write_with_tag f (write_op (f_typ f) (if (need_to_dereference (f_typ f) || f_boxed f)%bool then REUn UDeref (var "m") else var "m") (f_boxed f)) [OTry])])))
      (Writer.write_with_tag (field_tag f) (value_write d c lit (write_fn (f_typ f)) v))).
    { apply does_scoped. change (ev None (REBlock [result ?e])) with (ev None e). apply does_with_tag; [exact Wr|]. apply writes_value; auto.
      destruct (need_to_dereference (f_typ f) || f_boxed f)%bool; [apply yields_same; [reflexivity|]|]; now apply yields_var. }
    exact (X s Q).
Qed.
Lemma shown_writes : flat_map (field_writes g d d0) (m_fields m) = flat_map (field_writes g d d0) (visible_fields c m).
Proof.
  unfold visible_fields. induction (m_fields m) as [|f l IH]; [reflexivity|]. cbn [flat_map filter]. rewrite IH. destruct (visible c f) eqn:Vf; [reflexivity|].
  assert (Hf : hidden g f = true) by (rewrite visible_shown; fold c; now rewrite Vf). unfold field_writes at 1. now rewrite Hf.
Qed.
Lemma block_cons : forall h e semi l, l <> [] -> block w ev h (RSExpr e semi :: l) = seq (ev None e) (fun x => if may_drop x then block w ev h l else stuck).
Proof. intros h e semi l N. destruct l; [contradiction|]. now destruct semi. Qed.
Lemma fields_block : forall l ss, incl l (visible_fields c m) -> slots_at g d depth fs (map (fun f => (f_name f, get_type c f)) l) ss ->
  forall rest s, rest <> [] -> s_env s = env -> exists q,
    block w ev None (flat_map (field_writes g d d0) l ++ rest) s = block w ev None rest (put s q) /\
    forall sts ss', slots_write d c lit (map (field_write c) l ++ sts) (ss ++ ss') = q ++ slots_write d c lit sts ss'.
Proof.
  induction l as [|f l IH]; intros ss I H rest s N Q; destruct ss as [|y l']; inversion H as [|? ? ? ? A B]; clear H.
  - exists []. rewrite put_nil. now split.
  - destruct A as (A1 & A2 & A3). destruct (field_does f y) as (e & semi & E & Dn); [apply I; now left|exact A2|exact A3|exact A1|].
    cbn [flat_map]. rewrite E. cbn [app]. rewrite block_cons by (intros X; apply app_eq_nil in X; now destruct X).
    destruct (Dn s Q) as (xv & M & Ex). unfold seq. rewrite Ex, M.
    destruct (IH l' (fun z J => I z (or_intror J)) B rest (put s (slot_write d c lit (field_write c f) y)) N Q) as (q & Q1 & Q2).
    rewrite Q1, put_app. eexists. split; [reflexivity|]. intros sts ss'. cbn [map app].
    change (slots_write d c lit (field_write c f :: map (field_write c) l ++ sts) (y :: l' ++ ss')) with
      (slot_write d c lit (field_write c f) y ++ slots_write d c lit (map (field_write c) l ++ sts) (l' ++ ss')).
    now rewrite Q2, app_assoc.
Qed.
Lemma oneofs_block : forall l ss, incl l (m_oneofs m) -> slots_at g d depth fs (map (fun o => (o_name o, TyOneof (oneof_variants c o))) l) ss ->
  forall rest s, rest <> [] -> s_env s = env ->
    block w ev None (map (GenAst.oneof_write g d) l ++ rest) s = block w ev None rest (put s (slots_write d c lit (map (Gen.oneof_write c) l) ss)).
Proof.
  induction l as [|o l IH]; intros ss I H rest s N Q; destruct ss as [|y l']; inversion H as [|? ? ? ? A B]; clear H.
  - now rewrite put_nil.
  - destruct A as (A1 & A2 & A3). destruct (oneof_does o y) as (e & semi & E & Dn); [apply I; now left|exact A2|exact A3|exact A1|].
    cbn [map app]. rewrite E. rewrite block_cons by (intros X; apply app_eq_nil in X; now destruct X).
    destruct (Dn s Q) as (xv & M & Ex). unfold seq. rewrite Ex, M.
    rewrite (IH l' (fun z J => I z (or_intror J)) B rest (put s (slot_write d c lit (Gen.oneof_write c o) y)) N Q). now rewrite put_app.
Qed.
Lemma message_block : forall ss s, slots_at g d depth fs (named_slots c m) ss -> s_env s = env ->
  block w ev None (flat_map (field_writes g d d0) (m_fields m) ++ map (GenAst.oneof_write g d) (m_oneofs m) ++ [result ok_unit]) s =
  Go (XOk XUnit) (put s (slots_write d c lit (write_stmts c m) ss)).
Proof.
  intros ss s H Q. unfold slots_at, named_slots in H. apply Forall2_app_inv_l in H. destruct H as (s1 & s2 & H1 & H2 & ->).
  rewrite shown_writes. destruct (fields_block _ s1 (incl_refl _) H1 (map (GenAst.oneof_write g d) (m_oneofs m) ++ [result ok_unit]) s) as (q & Q1 & Q2).
  - intros X. apply app_eq_nil in X. now destruct X.
  - exact Q.
  - rewrite Q1. rewrite (oneofs_block _ s2 (incl_refl _) H2 [result ok_unit] (put s q)); [|discriminate|exact Q].
    rewrite put_app. unfold write_stmts. rewrite Q2. reflexivity.
Qed.
End Field.
End Message.

Theorem struct_write_is : forall n i m ss, get_message d i = Some m -> slots_ok d c (struct_def c m) ss -> (slots_depth ss < n)%nat ->
  struct_write t names prog (default_depth d) n i (rust_struct d c i m ss) = Some (message_write d c lit i ss).
Proof.
  induction n as [|n IH]; intros i m ss G V D; [lia|]. cbn [struct_write]. unfold prog at 1. rewrite (write_impl_of g d d0 i m G). unfold message_write. rewrite G.
  destruct (is_unit m) eqn:U; [reflexivity|].
  set (body := flat_map (field_writes g d d0) (m_fields m) ++ map (GenAst.oneof_write g d) (m_oneofs m) ++ [result ok_unit]).
  change (the_fn "write_message" [get_size_fn g d d0 m; write_message_fn g d d0 m]) with
    (Some (mkRFn false "write_message" [GpBound "W" "WriterBackend"] (SelfRef None false)
      [(bind "w", RTRef None true (tapp "Writer" [GType (tname "W")]))] (Some (tresult (RTTuple []))) body)).
  cbv iota. set (w := world_of _ _ _ _ _ _ _ _).
  set (s0 := mkSt [("self", rust_struct d c i m ss); ("w", XWriter)] [] [] (mkR 0 0)).
  assert (X : block w (eval t names w (InMsg i) O) None body s0 = Go (XOk XUnit) (put s0 (slots_write d c lit (write_stmts c m) ss))).
  { apply (message_block i m G w O n) with (env := s_env s0) (fs := rust_slots d c (named_slots c m) ss); try reflexivity.
    - intros j x s1 Gj S. apply (struct_default_is g d d0 t names lit Names Plain Schema Consts Derive); assumption.
    - intros j s1 M0 D0. unfold message_ok in M0. destruct (get_message d j) as [x|] eqn:Gj; [|contradiction].
      rewrite (emb_message d c j x s1 Gj). apply struct_size_is; assumption.
    - intros j s1 M0 D0. unfold message_ok in M0. destruct (get_message d j) as [x|] eqn:Gj; [|contradiction].
      rewrite (emb_message d c j x s1 Gj). apply IH; [exact Gj|exact M0|]. cbn in D0. fold (slots_depth s1) in D0. lia.
    - apply slots_of_struct; [exact (pn_fields _ _ Plain i m G)| |lia]. unfold c. now rewrite (named_types g m). }
  match type of X with ?a = _ => transitivity (written_by a) end; [reflexivity|]. rewrite X. reflexivity.
Qed.
End Program.
