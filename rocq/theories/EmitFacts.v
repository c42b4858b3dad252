(** Lemmas about the types of the emitted expressions. *)
From Coq Require Import String Ascii Arith Lia.
From Verif Require Import Base Schema Passes Gen GenSem GenSpec RustTypes Emit CycleFacts.
Import StringSyntax.
Local Open Scope string_scope.
Local Open Scope list_scope.

Lemma rtype_eqb_refl t : rtype_eqb t t = true.
Proof.
  induction t; cbn; try reflexivity; try assumption; try (rewrite IHt1, IHt2; reflexivity).
  - now rewrite midx_eqb_refl.
  - unfold eidx_eqb. now rewrite midx_eqb_refl, Nat.eqb_refl.
  - apply String.eqb_refl.
Qed.

Lemma coerces_refl t : coerces t t = true.
Proof. unfold coerces. now rewrite rtype_eqb_refl. Qed.

Lemma find_var_in l n t : NoDup (map fst l) -> In (n, t) l -> find_var l n = Some t.
Proof.
  induction l as [|(x, u) l IH]; cbn; intros N H; [contradiction|]. inversion N as [|a b Hx Hl]; subst.
  destruct H as [H|H].
  - injection H as -> ->. now rewrite String.eqb_refl.
  - destruct (String.eqb n x) eqn:E; [|auto]. apply String.eqb_eq in E. subst. exfalso. apply Hx.
    apply in_map_iff. exists (x, t). auto.
Qed.

(** the types that exist in the generated file *)
Definition enum_filled (d : file_descriptor) (q : eidx) : bool :=
  match get_enum d q with Some e => match en_fields e with [] => false | _ => true end | None => false end.
Definition known_type (d : file_descriptor) (t : field_type) : Prop :=
  match t with
  | TMap _ _ | TMessageOrEnum _ => False
  | TMessage i => get_message d i <> None
  | TEnum q => enum_filled d q = true
  | _ => True
  end.

(** what the generated code of a field needs *)
Record field_fit (c : config) (d : file_descriptor) (f : field) : Prop := mkFit {
  fit_boxed : f_boxed f = true -> freq_is_optional (f_freq f) = true /\ exists i, f_typ f = TMessage i;
  fit_type : if freq_is_map (f_freq f)
             then exists k v, f_typ f = TMap k v /\ key_ok k /\ known_type d v
             else known_type d (f_typ f);
  fit_packed : freq_is_repeated (f_freq f) = true -> f_is_packed f = true ->
    is_primitive (f_typ f) = true /\ (is_fixed_size (f_typ f) = true -> c_dont_use_cow c = false) }.

Section Fit.
Variables (c : config) (d : file_descriptor).
Notation complete := (enum_filled d).

Lemma key_known k : key_ok k -> known_type d k.
Proof. now destruct k. Qed.
Lemma key_is_key k : key_ok k -> is_key (rust_type_of k) = true.
Proof. now destruct k. Qed.
Lemma known_partial_eq t : known_type d t -> is_partial_eq (rust_type_of t) = true.
Proof. now destruct t. Qed.
Lemma known_is_type t : known_type d t -> is_type (rust_type_of t) = true.
Proof. now destruct t. Qed.
Lemma known_default t : known_type d t -> is_default complete (rust_type_of t) = true.
Proof. destruct t; cbn; try reflexivity; try contradiction. auto. Qed.
Lemma known_reads t : known_type d t -> reads complete (snd (read_exprs t)) (rust_type_of t) = true.
Proof. destruct t; cbn; try reflexivity; try contradiction; auto. intros _. now rewrite midx_eqb_refl. Qed.

(** *** The type of a field *)
Lemma fit_field_type f : field_fit c d f -> is_derivable (field_rtype c f) = true.
Proof.
  intros [B T P]. unfold is_derivable, field_rtype, generated_type_of.
  destruct (f_boxed f) eqn:Eb.
  - destruct (B eq_refl) as (_ & i & ->). reflexivity.
  - destruct (freq_is_map (f_freq f)).
    + destruct T as (k & v & -> & K & V). cbn. rewrite (key_is_key k K), (known_is_type _ (key_known k K)), (known_is_type v V), (known_partial_eq v V).
      reflexivity.
    + destruct (freq_is_repeated (f_freq f)).
      * destruct (f_is_packed f && is_fixed_size (f_typ f) && negb (c_dont_use_cow c)) eqn:E.
        -- apply andb_prop in E. destruct E as (E & _). apply andb_prop in E. destruct E as (_ & E).
           destruct (f_typ f); try discriminate; reflexivity.
        -- cbn. now rewrite (known_is_type _ T), (known_partial_eq _ T).
      * destruct (freq_is_optional (f_freq f)); cbn; now rewrite (known_is_type _ T), (known_partial_eq _ T).
Qed.
Lemma fit_field_default f : field_fit c d f -> is_default complete (field_rtype c f) = true.
Proof.
  intros [B T P]. unfold field_rtype, generated_type_of. destruct (f_boxed f); [reflexivity|].
  destruct (freq_is_map (f_freq f)).
  - destruct T as (k & v & -> & _). reflexivity.
  - destruct (freq_is_repeated (f_freq f)); [destruct (f_is_packed f && is_fixed_size (f_typ f) && negb (c_dont_use_cow c)); reflexivity|].
    destruct (freq_is_optional (f_freq f)); [reflexivity|]. now apply known_default.
Qed.

Section Fields.
Variable fields : env.

Lemma type_self n t : find_var fields n = Some t -> forall g, type_of fields g (ESelf n) = Some t.
Proof. intros H g. exact H. Qed.

(** *** Reading *)
Lemma fit_read variants f : field_fit c d f -> find_var fields (f_name f) = Some (field_rtype c f) ->
  read_ok complete fields variants (field_read f) = true.
Proof.
  intros [B T P] F. unfold field_read. unfold field_rtype in F. unfold generated_type_of in *.
  destruct (f_boxed f) eqn:Eb.
  - destruct (B eq_refl) as (O & i & E). rewrite E in *. destruct (f_freq f); try discriminate; cbn [freq_is_map read_exprs]; cbn in F |- *; rewrite F;
      now rewrite rtype_eqb_refl || cbn; now rewrite midx_eqb_refl.
  - destruct (freq_is_map (f_freq f)) eqn:M.
    + destruct T as (k & v & E & K & V). rewrite E in *. cbn [read_ok]. rewrite F. cbn [rust_type_of].
      rewrite (known_reads k (key_known k K)), (known_reads v V), (key_is_key k K), (known_default _ (key_known k K)), (known_default v V). reflexivity.
    + destruct (read_exprs (f_typ f)) as (val, cow) eqn:R. pose proof (known_reads _ T) as K. rewrite R in K. cbn [snd] in K.
      destruct (freq_is_repeated (f_freq f)) eqn:Rp.
      * destruct (f_is_packed f) eqn:Pk.
        -- destruct (P eq_refl eq_refl) as (Pr & Cw). destruct (is_fixed_size (f_typ f)) eqn:Fx; cbn [andb] in F.
           ++ rewrite (Cw eq_refl) in F. cbn [read_ok]. rewrite F. cbn. destruct (f_typ f); try discriminate; reflexivity.
           ++ cbn [read_ok]. now rewrite F.
        -- cbn [read_ok]. cbn [andb] in F. now rewrite F.
      * destruct (f_freq f); try discriminate; cbn [freq_is_optional] in F; cbn [read_ok]; now rewrite F.
Qed.

(** *** Sizes *)

(** dereferencing as often as one likes *)
Fixpoint peel (n : nat) (t : rtype) : rtype := match n with O => t | S n' => YRef (peel n' t) end.
Lemma peel_len n t : has_len (peel n t) = has_len t.
Proof. induction n; cbn; auto. Qed.
Lemma peel_get_size n t : has_get_size (peel n t) = has_get_size t.
Proof. induction n; cbn; auto. Qed.

(** a value of a type that is dereferenced is there itself, one of any other
    type is there or behind references or a box *)
Definition holds (g : env) (s : expr) (t : field_type) : Prop :=
  if need_to_dereference t then type_of fields g s = Some (rust_type_of t)
  else exists n, type_of fields g s = Some (peel n (rust_type_of t)) \/ type_of fields g s = Some (peel n (YBox (rust_type_of t))).

Lemma size_typed t s g : known_type d t -> (is_fixed_size t = false -> holds g s t) ->
  use (size_expr t s) (type_of fields g (size_expr t s)) = Some YUsize.
Proof.
  intros K H. unfold holds in H.
  destruct t; cbn in K; try contradiction; try reflexivity; specialize (H eq_refl); cbn [need_to_dereference rust_type_of] in H;
    try (cbn; rewrite H; reflexivity);
    destruct H as (n & [H|H]); cbn; rewrite H; cbn; rewrite ?peel_len, ?peel_get_size; reflexivity.
Qed.
Lemma size_typed' t s g : known_type d t -> (is_fixed_size t = false -> holds g s t) ->
  type_of fields g (size_expr t s) = Some YUsize.
Proof.
  intros K H. pose proof (size_typed t s g K H) as E. unfold use in E. destruct (type_of fields g (size_expr t s)); [|discriminate].
  destruct (is_place (size_expr t s) && negb (is_copy r)); [discriminate|exact E].
Qed.
Lemma size_not_place t s : known_type d t -> is_place (size_expr t s) = false.
Proof. now destruct t. Qed.

Lemma addition_typed f s g : known_type d (f_typ f) -> (is_fixed_size (f_typ f) = false -> holds g s (f_typ f)) ->
  type_of fields g (size_addition f s) = Some YUsize.
Proof.
  intros K H. unfold size_addition. cbn [type_of use is_place andb].
  rewrite (size_typed (f_typ f)); [reflexivity|exact K|]. intros E. rewrite E. now apply H.
Qed.

Lemma zero_typed t g : known_type d t -> type_of fields g (zero_expr t) = Some (rust_type_of t).
Proof. destruct t; cbn; try reflexivity; contradiction. Qed.
Lemma custom_typed t g : known_type d t -> (forall i, t <> TMessage i) ->
  type_of fields g (owned_custom_expr t) = Some (rust_type_of t).
Proof. destruct t; cbn; try reflexivity; try contradiction. intros _ H. now destruct (H m). Qed.

Lemma primitive_deref t : known_type d t -> is_primitive t = need_to_dereference t.
Proof. now destruct t. Qed.
Lemma deref_copy t : need_to_dereference t = true -> is_copy (rust_type_of t) = true.
Proof. destruct t; cbn; congruence. Qed.
Lemma fixed_deref t : is_fixed_size t = true -> need_to_dereference t = true.
Proof. destruct t; cbn; congruence. Qed.

Lemma pattern_option f t : known_type d (f_typ f) -> f_boxed f = false -> t = rust_type_of (f_typ f) ->
  exists l, bind_pattern (option_pattern f) (YRef t) = Some l /\ (forall fds g, find_var (l ++ g) "m" = Some fds ->
    fds = if need_to_dereference (f_typ f) then t else YRef t) /\ find_var l "m" = Some (if need_to_dereference (f_typ f) then t else YRef t).
Proof.
  intros K B ->. unfold option_pattern. rewrite B, (primitive_deref _ K). cbn [orb].
  destruct (need_to_dereference (f_typ f)) eqn:N; cbn.
  - rewrite (deref_copy _ N). eexists. split; [reflexivity|]. cbn. split; [intros; congruence|reflexivity].
  - eexists. split; [reflexivity|]. cbn. split; [intros; congruence|reflexivity].
Qed.

Lemma fit_size f : field_fit c d f -> find_var fields (f_name f) = Some (field_rtype c f) ->
  type_of fields [] (field_size_expr c f) = Some YUsize.
Proof.
  intros [B T P] F. unfold field_size_expr. unfold field_rtype in F. unfold generated_type_of in *.
  destruct (f_boxed f) eqn:Eb.
  - destruct (B eq_refl) as (O & i & E). rewrite E in *.
    assert (Hm : freq_is_map (f_freq f) = false) by (destruct (f_freq f); try discriminate; reflexivity).
    assert (Hr : freq_is_repeated (f_freq f) = false) by (destruct (f_freq f); try discriminate; reflexivity).
    assert (Hp : has_presence f = true) by (unfold has_presence; rewrite E; destruct (f_freq f); try discriminate; reflexivity).
    rewrite Hm, Hr, Hp, O. cbn [negb]. cbn [type_of]. rewrite F. cbn [use is_place andb type_of].
    unfold option_pattern. rewrite Eb. cbn [orb bind_pattern].
    rewrite (addition_typed f (EVar "m")).
    + reflexivity.
    + rewrite E, Hm in *. exact T.
    + intros _. unfold holds. rewrite E. cbn [need_to_dereference]. exists 1%nat. right. reflexivity.
  - destruct (freq_is_map (f_freq f)) eqn:M.
    + destruct T as (k & v & E & K & V). rewrite E in *. cbn [type_of]. rewrite F. cbn [rust_type_of iter_item bind_pattern].
      assert (Pat : forall t x, known_type d t -> bind_pattern (element_pattern t x) (YRef (rust_type_of t))
                    = Some [(x, if need_to_dereference t then rust_type_of t else YRef (rust_type_of t))]).
      { intros t x Kt. unfold element_pattern. destruct (need_to_dereference t) eqn:N; cbn; [now rewrite (deref_copy _ N)|reflexivity]. }
      rewrite (Pat k "k" (key_known k K)), (Pat v "v" V). cbn [use is_place andb size_expr type_of app].
      assert (Hk : forall g, find_var g "k" = Some (if need_to_dereference k then rust_type_of k else YRef (rust_type_of k)) -> holds g (EVar "k") k).
      { intros g Hg. unfold holds. destruct (need_to_dereference k); [exact Hg|]. exists 1%nat. left. exact Hg. }
      assert (Hv : forall g, find_var g "v" = Some (if need_to_dereference v then rust_type_of v else YRef (rust_type_of v)) -> holds g (EVar "v") v).
      { intros g Hg. unfold holds. destruct (need_to_dereference v); [exact Hg|]. exists 1%nat. left. exact Hg. }
      rewrite (size_typed k); [|now apply key_known|intros _; apply Hk; reflexivity].
      rewrite (size_typed v); [|exact V|intros _; apply Hv; reflexivity]. reflexivity.
    + destruct (freq_is_repeated (f_freq f)) eqn:Rp.
      * destruct (f_is_packed f) eqn:Pk.
        -- destruct (P eq_refl eq_refl) as (Pr & Cw). rewrite (primitive_deref _ T) in Pr. cbn [andb] in F.
           destruct (is_fixed_size (f_typ f)) eqn:Fx.
           ++ rewrite (Cw eq_refl) in F. cbn [negb andb] in F. destruct (f_typ f); try discriminate; cbn in F |- *; rewrite F; reflexivity.
           ++ cbn [andb] in F. cbn [type_of]. rewrite F.
              replace (match wire_type_num_non_packed (f_typ f) with 1%Z | 5%Z => ECall "sizeof_len" (EMul (ELen (ESelf (f_name f))) (ELit YUsize))
                       | _ => ECall "sizeof_len" (ESumMap (ESelf (f_name f)) (PRef "s") (size_expr (f_typ f) (EVar "s"))) end)
                with (ECall "sizeof_len" (ESumMap (ESelf (f_name f)) (PRef "s") (size_expr (f_typ f) (EVar "s")))) by (destruct (f_typ f); try discriminate; reflexivity).
              cbn [use is_place andb type_of has_len when]. rewrite F. cbn [iter_item bind_pattern]. rewrite (deref_copy _ Pr).
              cbn [app]. rewrite (size_typed (f_typ f)); [reflexivity|exact T|]. intros _. unfold holds. rewrite Pr. reflexivity.
        -- cbn [andb] in F. destruct (is_fixed_size (f_typ f)) eqn:Fx.
           ++ destruct (f_typ f); try discriminate; cbn in F |- *; rewrite F; reflexivity.
           ++ replace (match wire_type_num_non_packed (f_typ f) with 1%Z | 5%Z => EMul (EAdd (ELit YUsize) (ELit YUsize)) (ELen (ESelf (f_name f)))
                       | _ => ESumMap (ESelf (f_name f)) (element_pattern (f_typ f) "s") (EAdd (ELit YUsize) (size_expr (f_typ f) (EVar "s"))) end)
                with (ESumMap (ESelf (f_name f)) (element_pattern (f_typ f) "s") (EAdd (ELit YUsize) (size_expr (f_typ f) (EVar "s"))))
                by (destruct (f_typ f); try discriminate; reflexivity).
              cbn [type_of]. rewrite F. cbn [iter_item]. unfold element_pattern. destruct (need_to_dereference (f_typ f)) eqn:N; cbn [bind_pattern].
              ** rewrite (deref_copy _ N). cbn [use is_place andb type_of app].
                 rewrite (size_typed (f_typ f)); [reflexivity|exact T|]. intros _. unfold holds. rewrite N. reflexivity.
              ** cbn [use is_place andb type_of app]. rewrite (size_typed (f_typ f)); [reflexivity|exact T|]. intros _. unfold holds. rewrite N.
                 exists 1%nat. left. reflexivity.
      * destruct (has_presence f) eqn:Hp; cbn [negb].
        -- destruct (freq_is_optional (f_freq f)) eqn:O.
           ++ cbn [type_of]. rewrite F. cbn [use is_place andb type_of]. destruct (pattern_option f _ T Eb eq_refl) as (l & Bl & _ & Fl).
              rewrite Bl. rewrite (addition_typed f (EVar "m")); [reflexivity|exact T|]. intros _. unfold holds.
              rewrite app_nil_r. cbn [type_of]. rewrite Fl. destruct (need_to_dereference (f_typ f)); [reflexivity|]. exists 1%nat. left. reflexivity.
           ++ apply addition_typed; [exact T|]. intros _. unfold holds. cbn [type_of]. rewrite F.
              destruct (need_to_dereference (f_typ f)); [reflexivity|]. exists 0%nat. left. reflexivity.
        -- destruct (freq_is_optional (f_freq f)) eqn:O.
           { exfalso. unfold has_presence in Hp. destruct (f_freq f); try discriminate; destruct (f_typ f); try discriminate; contradiction. }
           assert (Nm : forall i, f_typ f <> TMessage i).
           { intros i E. unfold has_presence in Hp. rewrite E in Hp. destruct (f_freq f); discriminate. }
           cbn [type_of]. rewrite F. unfold default_operand, field_default, generated_type_of. rewrite M, Rp, Eb, O.
           assert (D : type_of fields [] (match f_default f with
                        | Some _ => owned_custom_expr (f_typ f)
                        | None => zero_expr (f_typ f) end) = Some (rust_type_of (f_typ f))).
           { destruct (f_default f); [now apply custom_typed|now apply zero_typed]. }
           rewrite D. rewrite rtype_eqb_refl, (known_partial_eq _ T). cbn [andb when use is_place type_of].
           rewrite (addition_typed f (ESelf (f_name f))); [reflexivity|exact T|]. intros _. unfold holds. cbn [type_of]. rewrite F.
           destruct (need_to_dereference (f_typ f)); [reflexivity|]. exists 0%nat. left. reflexivity.
Qed.

(** *** Writing *)
Lemma peel_derefs n t b : derefs_to t b = true -> derefs_to (peel n t) b = true.
Proof. induction n as [|n IH]; intros H; [exact H|]. cbn [peel derefs_to]. rewrite (IH H). apply Bool.orb_true_r. Qed.
Lemma peel_coerces n t b : derefs_to t b = true -> coerces (YRef (peel n t)) (YRef b) = true.
Proof. intros H. unfold coerces. rewrite (peel_derefs n t b H). apply Bool.orb_true_r. Qed.

Definition handed (g : env) (s : expr) (t : field_type) (boxed : bool) : Prop :=
  if need_to_dereference t then type_of fields g s = Some (rust_type_of t)
  else match t with
       | TMessage i => type_of fields g s = Some (if boxed then YBox (YMsg i) else YRef (YMsg i))
       | _ => exists n, type_of fields g s = Some (YRef (peel n (rust_type_of t)))
       end.

Lemma use_copy e t : is_copy t = true -> use e (Some t) = Some t.
Proof. intros H. unfold use. rewrite H. now rewrite Bool.andb_false_r. Qed.

Lemma write_typed t s g boxed : known_type d t -> handed g s t boxed ->
  type_of fields g (write_expr t s boxed) = Some (YResult YUnit).
Proof.
  intros K H. unfold handed in H.
  destruct t; cbn in K; try contradiction; cbn [need_to_dereference rust_type_of] in H;
    try (cbn; rewrite H; reflexivity);
    try (destruct H as (n & H); cbn [write_expr type_of]; rewrite H, use_copy by reflexivity; cbn [write_parameter proto_type String.eqb Ascii.eqb Bool.eqb];
         rewrite peel_coerces by reflexivity; reflexivity).
  destruct boxed; cbn [write_expr type_of]; rewrite H; [reflexivity|now rewrite use_copy].
Qed.
Lemma write_used t s g boxed : known_type d t -> handed g s t boxed ->
  use (write_expr t s boxed) (type_of fields g (write_expr t s boxed)) = Some (YResult YUnit).
Proof.
  intros K H. rewrite (write_typed t s g boxed K H). unfold use.
  replace (is_place (write_expr t s boxed)) with false; [reflexivity|]. destruct t; cbn in K; try contradiction; try reflexivity. now destruct boxed.
Qed.
Lemma tagged t s g boxed : known_type d t -> handed g s t boxed ->
  type_of fields g (EWithTag (write_expr t s boxed)) = Some (YResult YUnit).
Proof. intros K H. cbn [type_of]. now rewrite (write_used t s g boxed K H). Qed.

Lemma fit_write f : field_fit c d f -> find_var fields (f_name f) = Some (field_rtype c f) ->
  type_of fields [] (field_write_expr c f) = Some YUnit.
Proof.
  intros [B T P] F. unfold field_write_expr. unfold field_rtype in F. unfold generated_type_of in *.
  destruct (f_boxed f) eqn:Eb.
  - destruct (B eq_refl) as (O & i & E).
    assert (Hm : freq_is_map (f_freq f) = false) by (destruct (f_freq f); try discriminate; reflexivity).
    assert (Hr : freq_is_repeated (f_freq f) = false) by (destruct (f_freq f); try discriminate; reflexivity).
    assert (Hp : has_presence f = true) by (unfold has_presence; rewrite E; destruct (f_freq f); try discriminate; reflexivity).
    rewrite Hm in T. rewrite Hm, Hr, Hp, O. cbn [negb]. cbn [type_of]. rewrite F. cbn [use is_place andb type_of].
    unfold option_pattern. rewrite Eb. cbn [orb bind_pattern]. unfold write_method.
    rewrite tagged; [reflexivity|exact T|]. unfold handed, unwrapping. rewrite Eb, E, O. cbn. reflexivity.
  - destruct (freq_is_map (f_freq f)) eqn:M.
    + destruct T as (k & v & E & K & V). rewrite E in *. cbn [type_of]. rewrite F. cbn [rust_type_of use is_place andb loop_item bind_pattern].
      assert (Pat : forall t x, known_type d t -> bind_pattern (element_pattern t x) (YRef (rust_type_of t))
                    = Some [(x, if need_to_dereference t then rust_type_of t else YRef (rust_type_of t))]).
      { intros t x Kt. unfold element_pattern. destruct (need_to_dereference t) eqn:N; cbn; [now rewrite (deref_copy _ N)|reflexivity]. }
      rewrite (Pat k "k" (key_known k K)), (Pat v "v" V). cbn [app].
      assert (Hs : forall t x g, known_type d t -> find_var g x = Some (if need_to_dereference t then rust_type_of t else YRef (rust_type_of t)) ->
                   holds g (EVar x) t /\ handed g (EVar x) t false).
      { intros t x g Kt Hg. unfold holds, handed. cbn [type_of]. rewrite Hg. destruct (need_to_dereference t) eqn:N; [auto|]. split; [exists 1%nat; now left|].
        destruct t; try discriminate; try contradiction; try (exists 0%nat; reflexivity). reflexivity. }
      cbn [write_expr type_of].
      set (g := [("v", if need_to_dereference v then rust_type_of v else YRef (rust_type_of v));
                 ("k", if need_to_dereference k then rust_type_of k else YRef (rust_type_of k))]).
      destruct (Hs k "k" g (key_known k K) eq_refl) as (H1 & H2). destruct (Hs v "v" g V eq_refl) as (H3 & H4).
      rewrite (size_typed k), (size_typed v); [|exact V|auto|now apply key_known|auto].
      rewrite (write_used k), (write_used v); [|exact V|exact H4|now apply key_known|exact H2]. reflexivity.
    + destruct (freq_is_repeated (f_freq f)) eqn:Rp.
      * destruct (f_is_packed f) eqn:Pk.
        -- destruct (P eq_refl eq_refl) as (Pr & Cw). rewrite (primitive_deref _ T) in Pr. cbn [andb] in F.
           destruct (is_fixed_size (f_typ f)) eqn:Fx.
           ++ rewrite (Cw eq_refl) in F. cbn [negb andb] in F. destruct (f_typ f); try discriminate; cbn in F |- *; rewrite F; reflexivity.
           ++ cbn [andb] in F. cbn [type_of]. rewrite F. cbn [use is_place andb bind_pattern]. rewrite (deref_copy _ Pr). cbn [app].
              rewrite (write_used (f_typ f)), (size_typed (f_typ f)); try exact T; [reflexivity| |].
              ** intros _. unfold holds. rewrite Pr. reflexivity.
              ** unfold handed. rewrite Pr. reflexivity.
        -- cbn [andb] in F. cbn [type_of]. rewrite F. cbn [use is_place andb loop_item bind_pattern app].
           rewrite (write_used (f_typ f)); [reflexivity|exact T|]. unfold handed. destruct (need_to_dereference (f_typ f)) eqn:N.
           ++ reflexivity.
           ++ destruct (f_typ f); try discriminate; try contradiction; try (exists 0%nat; reflexivity). reflexivity.
      * assert (Hself : freq_is_optional (f_freq f) = false -> handed [] (unwrapping f false (ESelf (f_name f))) (f_typ f) false).
        { intros O. unfold handed, unwrapping. rewrite Eb, O in *.
          destruct (f_typ f); cbn in *; try contradiction; rewrite F; try reflexivity; exists 0%nat; reflexivity. }
        destruct (has_presence f) eqn:Hp; cbn [negb].
        -- destruct (freq_is_optional (f_freq f)) eqn:O.
           ++ cbn [type_of]. rewrite F. cbn [use is_place andb type_of]. destruct (pattern_option f _ T Eb eq_refl) as (l & Bl & _ & Fl).
              rewrite Bl. unfold write_method. rewrite Eb, app_nil_r. rewrite tagged; [reflexivity|exact T|].
              unfold handed, unwrapping. rewrite Eb, O.
              destruct (f_typ f); cbn in *; try contradiction; rewrite Fl; try reflexivity; exists 1%nat; reflexivity.
           ++ cbn [type_of]. unfold write_method. rewrite Eb. cbn [type_of]. rewrite (write_used (f_typ f)); [reflexivity|exact T|now apply Hself].
        -- destruct (freq_is_optional (f_freq f)) eqn:O.
           { exfalso. unfold has_presence in Hp. destruct (f_freq f); try discriminate; destruct (f_typ f); try discriminate; contradiction. }
           assert (Nm : forall i, f_typ f <> TMessage i).
           { intros i E. unfold has_presence in Hp. rewrite E in Hp. destruct (f_freq f); discriminate. }
           assert (U : unwrapping f true (ESelf (f_name f)) = ESelf (f_name f)).
           { unfold unwrapping. rewrite Eb, O. destruct (f_typ f); cbn in *; try contradiction; try reflexivity. now destruct (Nm m). }
           rewrite U. cbn [type_of]. rewrite F. unfold default_operand, field_default, generated_type_of. rewrite M, Rp, Eb, O.
           assert (D : type_of fields [] (match f_default f with
                        | Some _ => owned_custom_expr (f_typ f)
                        | None => zero_expr (f_typ f) end) = Some (rust_type_of (f_typ f))).
           { destruct (f_default f); [now apply custom_typed|now apply zero_typed]. }
           rewrite D. rewrite rtype_eqb_refl, (known_partial_eq _ T). cbn [andb when use is_place type_of].
           unfold write_method. rewrite Eb. cbn [type_of]. rewrite (write_used (f_typ f)); [reflexivity|exact T|now apply Hself].
Qed.

(** *** Variants of a oneof *)
Record variant_fit (f : field) : Prop := mkVariantFit {
  vf_boxed : f_boxed f = true -> exists i, f_typ f = TMessage i;
  vf_type : known_type d (f_typ f) }.

Lemma variant_type f : variant_fit f -> is_derivable (variant_rtype f) = true.
Proof.
  intros [B T]. unfold is_derivable, variant_rtype. destruct (f_boxed f); cbn; now rewrite (known_is_type _ T), (known_partial_eq _ T).
Qed.
Lemma variant_reads variants o f : variant_fit f -> find_var fields (o_name o) = Some (YOneof (o_name o)) ->
  variants (o_name o) (f_name f) = Some (variant_rtype f) -> read_ok complete fields variants (variant_read o f) = true.
Proof.
  intros [B T] F V. unfold variant_read. destruct (read_exprs (f_typ f)) as (val, cow) eqn:R.
  cbn [read_ok]. rewrite F, V, String.eqb_refl. cbn [andb]. unfold variant_rtype. destruct (f_boxed f).
  - destruct (B eq_refl) as (i & E). rewrite E in *. cbn in R. injection R as <- <-. cbn. now rewrite midx_eqb_refl.
  - pose proof (known_reads _ T) as K. rewrite R in K. exact K.
Qed.
Lemma variant_sizes f : variant_fit f -> type_of fields [("m", YRef (variant_rtype f))] (variant_size_expr f) = Some YUsize.
Proof.
  intros [B T]. unfold variant_size_expr. cbn [type_of use is_place andb].
  rewrite (size_typed (f_typ f)); [reflexivity|exact T|]. intros Fx. rewrite Fx. unfold holds, variant_rtype.
  destruct (need_to_dereference (f_typ f)) eqn:N.
  - destruct (f_boxed f); [destruct (B eq_refl) as (i & E); rewrite E in N; discriminate|]. reflexivity.
  - exists 1%nat. destruct (f_boxed f); [right|left]; reflexivity.
Qed.
Lemma variant_writes f : variant_fit f -> type_of fields [("m", YRef (variant_rtype f))] (variant_write_expr f) = Some YUnit.
Proof.
  intros [B T]. unfold variant_write_expr. cbn [type_of]. rewrite (write_used (f_typ f)); [reflexivity|exact T|].
  unfold handed, variant_rtype. destruct (f_boxed f) eqn:Eb.
  - destruct (B eq_refl) as (i & E). rewrite E. reflexivity.
  - destruct (need_to_dereference (f_typ f)) eqn:N; cbn [orb]; [reflexivity|].
    destruct (f_typ f); try discriminate; try contradiction; try (exists 0%nat; reflexivity). reflexivity.
Qed.

(** *** Constants and getters *)
Lemma const_typed f : known_type d (f_typ f) -> (forall i, f_typ f <> TMessage i) -> fits fields [] (custom_expr (f_typ f)) (const_rtype f) = true.
Proof.
  intros K N. unfold fits, const_rtype. destruct (f_typ f); cbn in *; try contradiction; try reflexivity.
  - now rewrite coerces_refl.
  - now destruct (N m).
Qed.
Lemma getter_typed f : known_type d (f_typ f) -> (forall i, f_typ f <> TMessage i) ->
  find_var fields (f_name f) = Some (YOption (rust_type_of (f_typ f))) ->
  fits fields [] (getter_expr f) (getter_rtype f) = true.
Proof.
  intros K N F. unfold fits, getter_rtype, getter_expr, const_rtype. destruct (f_typ f); cbn in *; try contradiction; rewrite F; cbn; try reflexivity.
  - unfold coerces. cbn. unfold eidx_eqb. rewrite midx_eqb_refl, Nat.eqb_refl. cbn. unfold eidx_eqb. now rewrite midx_eqb_refl, Nat.eqb_refl.
  - now destruct (N m).
Qed.
End Fields.
End Fit.
