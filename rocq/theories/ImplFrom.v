(** The feature generateImplFromForEnums (pb-rs/Cargo.toml:25): the
    implementations of [From] that are written below the enum of a oneof.

    [cfg!(feature = "generateImplFromForEnums")] (types.rs:2319-2323) is false in
    the default build, which is what GenText.v models; this file has the other
    branch. *)
From Coq Require Import String Ascii Arith ZArith Lia Bool.
From Verif Require Import Base Schema Keywords Modules Passes Gen GenCheck Lifetime RustTypes Emit Uses Output Paths GenText.
From Verif Require Import RustLex RustAst RustParse RustParseFacts GenAst LexFacts GenAstFacts GenAstOk.
Import Schema StringSyntax.
Local Open Scope string_scope.
Local Open Scope list_scope.
Local Open Scope nat_scope.

Section Model.
Variable g : gen_config.
Let c : config := g_passes g.
Variable d : file_descriptor.

(** types.rs:2326-2353 [generate_impl_from_for_enums]: the loop, with the types
    in [handled_fields] *)
Fixpoint write_froms (o : oneof) (handled : list text) (fs : list field) : out :=
  match fs with
  | [] => nothing
  | f :: fs' =>
    match type_text g d (f_typ f) with
    | GErr e => ("", Some e)
    | GOk t =>
      if existsb (String.eqb t) handled then write_froms o handled fs' else
      writeln ("impl From<" ++ t ++ "> for OneOf" ++ o_name o ++ " {")%string ;;;
      writeln ("   fn from(f: " ++ t ++ ") -> OneOf" ++ o_name o ++ " {")%string ;;;
      writeln ("      OneOf" ++ o_name o ++ "::" ++ f_name f ++ "(f)")%string ;;;
      writeln "   }" ;;;
      writeln "}" ;;;
      write_froms o (handled ++ [t]) fs'
    end
  end%out.
Definition write_impl_from (o : oneof) : out := write_froms o [] (oneof_shown g o).
(** types.rs:2275-2281 [write], 2283-2324 [write_definition], with the feature *)
Definition write_oneof_with_froms (o : oneof) : out :=
  (writeln "" ;;; (write_oneof_definition g d o ;;; write_impl_from o) ;;; writeln "" ;;; write_oneof_impl_default g d o)%out.

(** ** The trees *)
Definition from_tree (o : oneof) (f : field) : ritem_ :=
  RIImpl [] [] (Some (tapp "From" [GType (type_ast g d (f_typ f))])) (tname (oneof_name o))
    [fn false "from" NoSelf [(bind "f", type_ast g d (f_typ f))] (tname (oneof_name o))
       [result (call (epath [oneof_name o; f_name f]) [var "f"])]].
(** the fields that get one *)
Fixpoint chosen (handled : list text) (fs : list field) : list field :=
  match fs with
  | [] => []
  | f :: fs' =>
    match type_text g d (f_typ f) with
    | GErr _ => []
    | GOk t => if existsb (String.eqb t) handled then chosen handled fs' else f :: chosen (handled ++ [t]) fs'
    end
  end.
Definition oneof_items_with_froms (o : oneof) : list ritem_ :=
  match oneof_items g d o with
  | e :: rest => e :: map (from_tree o) (chosen [] (oneof_shown g o)) ++ rest
  | [] => []
  end.

(** ** The text of a type is determined by its tree *)
Fixpoint render (t : rty_) : text :=
  match t with
  | RTPath _ p => join_with "::" (map render_seg p)
  | RTSlice t => ("[" ++ render t ++ "]")%string
  | _ => ""
  end
with render_seg (s : pseg) : text :=
  match s with
  | PSeg x [] => x
  | PSeg x gs => (x ++ "<" ++ join_with ", " (map render_arg gs) ++ ">")%string
  end
with render_arg (a : garg) : text := match a with GLife s => ("'" ++ s)%string | GType t => render t end.

Lemma render_path l gs : l <> [] -> render (tpath l gs) = (path_text l ++ match gs with [] => "" | _ => "<" ++ join_with ", " (map render_arg gs) ++ ">" end)%string.
Proof.
  unfold tpath. cbn [render]. induction l as [|x l IH]; [contradiction|]. intros _. destruct l as [|y l].
  - cbn [spath map join_with]. destruct gs; cbn [render_seg]; [now rewrite str_app_nil|]. reflexivity.
  - rewrite path_text_cons by discriminate. specialize (IH ltac:(discriminate)). cbn [spath map] in IH |- *. cbn [render_seg].
    destruct l as [|z l]; cbn [map join_with] in IH |- *; rewrite IH, !str_app_assoc; reflexivity.
Qed.
Lemma path_some (p : list text) x : p ++ [x] <> [].
Proof. destruct p; discriminate. Qed.
Lemma type_render : forall t s, type_text g d t = GOk s -> render (type_ast g d t) = s.
Proof.
  induction t as [| | | | | | | q | | | | | | | | i | n | | | | k IHk v IHv]; intros s' H; cbn [type_text type_ast] in *;
    try (apply ok_inj in H; subst s'; reflexivity); try discriminate.
  - destruct (get_enum d q) as [e|]; [|discriminate]. apply ok_inj in H; subst s'. rewrite enum_text, render_path by apply path_some. apply str_app_nil.
  - destruct (get_message d i) as [m|]; [|discriminate]. unfold gbind in H.
    destruct (message_has_lifetime _ d (lifetime_fuel d) [] m) as [lt|]; [|discriminate]. apply ok_inj in H; subst s'. cbn [or_else].
    rewrite message_text, render_path by apply path_some. now destruct lt.
  - unfold gbind in H. destruct (type_text g d k) as [k'|]; [|discriminate]. destruct (type_text g d v) as [v'|]; [|discriminate]. apply ok_inj in H; subst s'.
    unfold tapp. rewrite render_path by discriminate. cbn [map render_arg join_with]. rewrite (IHk _ eq_refl), (IHv _ eq_refl), !str_app_assoc. reflexivity.
Qed.

Hypothesis message_names : forall i m, get_message d i = Some m -> forallb rust_name (message_path d m) = true.
Hypothesis enum_names : forall q e, get_enum d q = Some e -> forallb rust_name (enum_path d e) = true.
Lemma same_type t1 t2 s : type_text g d t1 = GOk s -> type_text g d t2 = GOk s -> type_ast g d t1 = type_ast g d t2.
Proof.
  intros H1 H2. destruct (type_piece g d message_names enum_names t1 s H1) as [(a1 & s1 & E1 & Q1 & _) _].
  destruct (type_piece g d message_names enum_names t2 s H2) as [(a2 & s2 & E2 & Q2 & _) _].
  assert (P : print_ty (type_ast g d t1) = print_ty (type_ast g d t2)) by (rewrite <- Q1, <- Q2; congruence).
  assert (O : forall t, ok_file (mkRFile [] [RIAlias "X" [] (type_ast g d t)]) = true).
  { intros t. unfold ok_file. cbn [file_attrs file_items forallb ok_item]. rewrite (type_ok g d message_names enum_names t). reflexivity. }
  pose proof (parse_print _ (O t1)) as R1. pose proof (parse_print _ (O t2)) as R2.
  assert (E : print_file (mkRFile [] [RIAlias "X" [] (type_ast g d t1)]) = print_file (mkRFile [] [RIAlias "X" [] (type_ast g d t2)])).
  { unfold print_file. cbn [file_attrs file_items flat_map print_item]. now rewrite P. }
  rewrite E, R2 in R1. now injection R1.
Qed.

(** ** What [chosen] is *)
Lemma seen_iff t l : existsb (String.eqb t) l = true <-> In t l.
Proof.
  rewrite existsb_exists. split.
  - intros (x & I & E). apply String.eqb_eq in E. now subst.
  - intros I. exists t. split; [exact I|apply String.eqb_refl].
Qed.
Let T (f : field) : rty_ := type_ast g d (f_typ f).
Definition typed (fs : list field) : Prop := forall f, In f fs -> exists t, type_text g d (f_typ f) = GOk t.
Lemma chosen_spec fs : forall handled, typed fs ->
  (forall f, In f (chosen handled fs) <-> exists l1 l2, fs = l1 ++ f :: l2 /\ ~ In (T f) (map T l1) /\ ~ In (render (T f)) handled) /\
  NoDup (map T (chosen handled fs)).
Proof.
  induction fs as [|f fs IH]; intros handled H.
  - split; [|constructor]. intros f. cbn. split; [intros []|]. intros ([|x l1] & l2 & E & _); discriminate.
  - destruct (H f (or_introl eq_refl)) as (t & E). pose proof (type_render _ _ E) as R. fold (T f) in R. cbn [chosen]. rewrite E.
    destruct (existsb (String.eqb t) handled) eqn:Q.
    + apply seen_iff in Q. destruct (IH handled) as [A B]; [intros x I; apply H; now right|]. split; [|exact B].
      intros x. rewrite A. split.
      * intros (l1 & l2 & -> & N1 & N2). exists (f :: l1), l2. split; [reflexivity|]. split; [|exact N2].
        cbn [map]. intros [K|K]; [|now apply N1]. apply N2. now rewrite <- K, R.
      * intros ([|y l1] & l2 & E1 & N1 & N2); injection E1 as -> E1.
        -- elim N2. now rewrite R.
        -- exists l1, l2. split; [exact E1|]. split; [|exact N2]. intros K. apply N1. now right.
    + assert (Q' : ~ In t handled) by (intros K; apply seen_iff in K; congruence).
      destruct (IH (handled ++ [t])) as [A B]; [intros x I; apply H; now right|]. split.
      * intros x. cbn [In]. rewrite A. split.
        -- intros [<-|(l1 & l2 & -> & N1 & N2)].
           ++ exists [], fs. split; [reflexivity|]. split; [intros []|]. now rewrite R.
           ++ exists (f :: l1), l2. split; [reflexivity|]. split.
              ** cbn [map]. intros [K|K]; [|now apply N1]. apply N2. rewrite in_app_iff. right. left. now rewrite <- K.
              ** intros K. apply N2. rewrite in_app_iff. now left.
        -- intros ([|y l1] & l2 & E1 & N1 & N2); injection E1 as -> E1; [now left|right].
           exists l1, l2. split; [exact E1|]. split; [intros K; apply N1; now right|].
           rewrite in_app_iff. intros [K|[K|[]]]; [now apply N2|]. apply N1. left. 
           assert (I : In x fs) by (rewrite E1, in_app_iff; right; now left).
           destruct (H x (or_intror I)) as (tx & Ex). pose proof (type_render _ _ Ex) as Rx. fold (T x) in Rx.
           unfold T. apply (same_type _ _ t E). rewrite Ex. f_equal. now rewrite <- Rx, <- K.
      * cbn [map]. constructor; [|exact B]. intros K. apply in_map_iff in K. destruct K as (x & K & I). apply A in I.
        destruct I as (_ & _ & _ & _ & N). apply N. rewrite in_app_iff. right. left. now rewrite K.
Qed.

Lemma chosen_covers fs : forall handled, typed fs -> forall f, In f fs -> In (render (T f)) handled \/ exists x, In x (chosen handled fs) /\ T x = T f.
Proof.
  induction fs as [|f0 fs IH]; intros handled H f I; [destruct I|]. destruct (H f0 (or_introl eq_refl)) as (t & E). pose proof (type_render _ _ E) as R. fold (T f0) in R.
  assert (H' : typed fs) by (intros x J; apply H; now right). cbn [chosen]. rewrite E. destruct (existsb (String.eqb t) handled) eqn:Q.
  - destruct I as [<-|I]; [left; rewrite R; now apply seen_iff|now apply IH].
  - destruct I as [<-|I]; [right; exists f0; split; [now left|reflexivity]|]. destruct (IH (handled ++ [t]) H' f I) as [K|(x & K & Tx)].
    + rewrite in_app_iff in K. destruct K as [K|[K|[]]]; [now left|right]. exists f0. split; [now left|]. destruct (H f (or_intror I)) as (tf & Ef).
      pose proof (type_render _ _ Ef) as Rf. fold (T f) in Rf. unfold T. apply (same_type _ _ t E). rewrite Ef. f_equal. now rewrite <- Rf, <- K.
    + right. exists x. split; [now right|exact Tx].
Qed.

(** ** The text has the trees *)
Ltac emit1 :=
  lazymatch goal with
  | |- emits (if ?b then _ else _) _ => fail
  | |- emits nothing _ => apply emits_nothing
  | |- emits (write _) _ => apply emits_write
  | |- emits (writeln _) _ => apply emits_writeln
  | |- emits (_, Some _) _ => apply emits_fail
  | |- emits (andthen _ _) _ => eapply emits_then; [|intros _]
  end.
Ltac itoks :=
  unfold default_impl, fn, derives, idents, oneof_name; cbn [print_item flat_map lts lt_args]; unfold print_field, print_variant, print_fn, print_block, print_lts, print_params, print_generics, print_self;
  cbn [rf_attrs rf_pub rf_name rf_type rv_attrs rv_name rv_payload fn_pub fn_name fn_generics fn_self fn_params fn_ret fn_body flat_map print_attr print_pub fst snd map];
  print_cbn; repeat (first [rewrite print_epath | rewrite print_tpath by (first [discriminate | apply path_nonempty | assumption])]); unfold comma_sep; cbn [flat_map sep_by print_garg print_ty];
  try rewrite !print_names_snoc by (first [discriminate | apply path_nonempty | assumption]); toks.
Ltac emit2 := first [emit1 | lazymatch goal with |- emits (if_of _ _ _) _ => eapply emits_if_of; intros _ end].
Section Oneof.
Variable o : oneof.
Hypothesis o_name_ok : rust_name (o_name o) = true.
Hypothesis o_path_ok : forallb rust_name (oneof_path d o) = true.
Hypothesis o_fields_ok : forall f, In f (o_fields o) -> rust_name (f_name f) = true.
Lemma froms_emit fs : (forall f, In f fs -> rust_name (f_name f) = true) -> forall handled,
  emits (write_froms o handled fs) (flat_map print_item (map (from_tree o) (chosen handled fs))).
Proof.
  pose proof (ident_of _ o_name_ok) as No.
  induction fs as [|f fs IH]; intros N handled; [apply emits_nothing|]. cbn [write_froms chosen].
  pose proof (ident_of _ (N f (or_introl eq_refl))) as Nf.
  destruct (type_text g d (f_typ f)) as [t|e] eqn:E; [|apply emits_fail].
  destruct (existsb (String.eqb t) handled); [apply IH; intros x I; apply N; now right|].
  destruct (type_piece g d message_names enum_names _ _ E) as [P S].
  assert (S1 : soft "<" t) by (apply S; discriminate).
  cbn [map flat_map]. eapply emits_eq.
  - apply emits_then; [apply emits_writeln; solve [lx]|intros _].
    apply emits_then; [apply emits_writeln; solve [lx]|intros _].
    apply emits_then; [apply emits_writeln; solve [lx]|intros _].
    apply emits_then; [apply emits_writeln; solve [lx]|intros _].
    apply emits_then; [apply emits_writeln; solve [lx]|intros _].
    apply IH. intros x I. apply N. now right.
  - unfold from_tree. itoks.
Qed.
Lemma froms_ok fs : (forall f, In f fs -> rust_name (f_name f) = true) -> forall handled, forallb ok_item (map (from_tree o) (chosen handled fs)) = true.
Proof.
  induction fs as [|f fs IH]; intros N handled; [reflexivity|]. cbn [chosen].
  destruct (type_text g d (f_typ f)) as [t|e] eqn:E; [|reflexivity].
  assert (N' : forall f, In f fs -> rust_name (f_name f) = true) by (intros x I; apply N; now right).
  destruct (existsb (String.eqb t) handled); [now apply IH|]. cbn [map forallb]. rewrite (IH N'), andb_true_r.
  pose proof (type_ok g d message_names enum_names (f_typ f)) as Ty. unfold from_tree. generalize dependent (type_ast g d (f_typ f)). intros ty Ty.
  assert (K : is_seg (oneof_name o) = true) by apply name_seg, oneof_key.
  cbn [ok_item forallb fn ok_ty tname tapp tpath spath ok_tseg]. rewrite K. unfold ok_fn. cbn [fn_name fn_generics fn_params fn_ret fn_body forallb].
  rewrite result_ok.
  - cbn [ok_ty tname tpath spath ok_tseg forallb]. rewrite K. cbn. now rewrite Ty.
  - apply call_ok; [|reflexivity]. apply epath_ok; [reflexivity|]. cbn [forallb]. rewrite K. rewrite (name_seg _ (name_of _ (N f (or_introl eq_refl)))). reflexivity.
  - reflexivity.
Qed.
Lemma with_froms_emits : emits (write_oneof_with_froms o) (flat_map print_item (oneof_items_with_froms o)).
Proof.
  pose proof (ident_of _ o_name_ok) as No.
  assert (Nf : forall f, In f (o_fields o) -> ident (f_name f) = true) by (intros f I; apply ident_of; auto).
  assert (Ns : forall f, In f (oneof_shown g o) -> rust_name (f_name f) = true) by (intros f I; apply filter_In in I; apply o_fields_ok, I).
  unfold write_oneof_with_froms, write_oneof_definition, write_oneof_impl_default, oneof_items_with_froms, oneof_items, oneof_lt.
  eapply emits_eq.
  - apply emits_then; [apply emits_writeln; solve [lx]|intros _].
    apply emits_then; [|intros _; repeat emit2; solve [lx]].
    apply emits_then; [|intros _; exact (froms_emit _ Ns [])].
    apply emits_then; [apply emits_writeln; solve [lx]|intros _].
    apply emits_then; [repeat emit2; solve [lx]|intros _].
    apply emits_then; [|intros _; repeat emit2; solve [lx]].
    apply emits_all. exact (oneof_variant_emits g d message_names enum_names o Nf).
  - cbn [flat_map]. rewrite flat_map_app. destruct (or_else _ _); itoks; rewrite flat_map_app, flat_map_flat_map; itoks.
Qed.
Lemma with_froms_parses s : write_oneof_with_froms o = (s, None) -> parse_rust s = Some (mkRFile [] (oneof_items_with_froms o)).
Proof.
  intros H. pose proof with_froms_emits as E. unfold emits in E. rewrite H in E. specialize (E eq_refl). cbn [fst] in E.
  assert (L : lex s = Some (print_file (mkRFile [] (oneof_items_with_froms o)))).
  { unfold lex. unfold lexed in E. rewrite E. cbn [ends_well flush]. now rewrite app_nil_r. }
  unfold parse_rust. rewrite L. apply (parse_print (mkRFile [] (oneof_items_with_froms o))).
  unfold ok_file. cbn [file_attrs file_items forallb].
  pose proof (oneof_items_ok g d message_names enum_names o (fun f I => name_of _ (o_fields_ok f I))) as K. unfold oneof_items_with_froms.
  unfold oneof_items in K |- *. cbn [forallb] in K |- *. rewrite forallb_app. apply andb_true_iff in K. destruct K as [K1 K2]. rewrite K1. cbn [andb].
  rewrite froms_ok; [exact K2|]. intros f I. apply filter_In in I. apply o_fields_ok, I.
Qed.
End Oneof.
End Model.
