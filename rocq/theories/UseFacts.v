(** Facts about Uses.v: which mention comes from which part of a field, and
    where the use lines are found. *)
From Coq Require Import String Ascii Arith Lia.
From Verif Require Import Base Schema Passes Gen GenCheck Lifetime RustTypes Emit Keywords KeywordFacts CycleFacts Props_Passes Uses.
Import Schema StringSyntax.
Local Open Scope string_scope.
Local Open Scope list_scope.

(** ** Looking up *)
Lemma resolves_first scopes n s : (forall sc s', In sc scopes -> In (n, s') sc -> s' = s) -> (exists sc, In sc scopes /\ In (n, s) sc) ->
  resolves scopes n s.
Proof.
  induction scopes as [|sc scopes IH]; intros C (x & I & H); [contradiction|].
  destruct (in_dec string_dec n (map fst sc)) as [Y|N].
  - exists [], sc, scopes. repeat match goal with |- _ /\ _ => split end; [reflexivity|constructor| |].
    + apply in_map_iff in Y. destruct Y as ((n' & s') & E & Y). cbn in E. subst n'. rewrite <- (C sc s' (or_introl eq_refl) Y). exact Y.
    + intros s' I'. exact (C sc s' (or_introl eq_refl) I').
  - destruct I as [<-|I]; [elim N; apply in_map_iff; now exists (n, s)|].
    destruct IH as (pre & sc' & post & -> & F & G); [intros; eapply C; eauto; now right|eauto|].
    exists (sc :: pre), sc', post. repeat match goal with |- _ /\ _ => split end; [reflexivity|now constructor|apply G|apply G].
Qed.
Lemma resolves_more scopes more n s : resolves scopes n s -> resolves (scopes ++ more) n s.
Proof. intros (pre & sc & post & -> & G). exists pre, sc, (post ++ more). rewrite <- app_assoc. split; [reflexivity|exact G]. Qed.

(** ** Names that are taken *)

(** all the names that use lines and the prelude declare, with what generated
    code means by them *)
Definition outside_names : scope :=
  [("Vec", SVec); ("Cow", SCow); ("ToOwned", SToOwned); ("Box", SBox); ("HashMap", SHashMap); ("KVMap", SKVMap); ("BTreeMap", SBTreeMap);
   ("MessageInfo", SMessageInfo); ("MessageRead", SMessageRead); ("MessageWrite", SMessageWrite); ("BytesReader", SBytesReader);
   ("Writer", SWriter); ("WriterBackend", SWriterBackend); ("Result", SResult); ("PackedFixed", SPackedFixed);
   ("PackedFixedIntoIter", SPackedFixedIntoIter); ("PackedFixedRefIter", SPackedFixedRefIter); ("TryFrom", STryFrom); ("TryInto", STryInto);
   ("Option", SOption); ("Default", SDefault); ("From", SFrom); ("String", SString); ("ToString", SToString)] ++ primitives.
(** those that the table of keywords (keywords.rs) lacks *)
Definition unguarded : list text :=
  ["MessageRead"; "MessageInfo"; "WriterBackend"; "PackedFixed"; "PackedFixedIntoIter"; "PackedFixedRefIter"; "KVMap"; "BTreeMap";
   "TryFrom"; "TryInto"; "ToOwned"; "ToString"; "From"; "usize"].

Lemma outside_guarded n : In n (map fst outside_names) -> In n unguarded \/ is_keyword n = true.
Proof.
  intros H. assert (X : forallb (fun n => existsb (String.eqb n) unguarded || is_keyword n) (map fst outside_names) = true) by (vm_compute; reflexivity).
  rewrite forallb_forall in X. specialize (X n H). apply Bool.orb_true_iff in X. destruct X as [X|X]; [left|now right].
  apply existsb_exists in X. destruct X as (y & I & E). apply String.eqb_eq in E. now subst y.
Qed.

Lemma sanitized_not_keyword s : is_keyword (sanitize_keyword s) = false.
Proof.
  destruct (is_keyword (sanitize_keyword s)) eqn:K; [|reflexivity]. pose proof K as K'. apply is_keyword_In in K'. apply keyword_no_dot in K'.
  pose proof (split_sanitize s) as S. rewrite (split_none "." _ K') in S.
  destruct (split_on "." s) as [|p [|q l]]; try discriminate. injection S as S. rewrite S in K. now rewrite sanitize_segment_not_keyword in K.
Qed.
Lemma guarded_no_prefix n : In n (map fst outside_names) -> is_keyword n = true ->
  (forall s, n <> ("mod_" ++ s)%string) /\ (forall s, n <> ("OneOf" ++ s)%string).
Proof.
  intros H _. split; intros s E; cbn in H; repeat (destruct H as [H|H]; [subst n; discriminate|]); contradiction.
Qed.

Fixpoint ends_with (t s : text) : bool :=
  String.eqb t s || match s with EmptyString => false | String _ s' => ends_with t s' end.
Lemma ends_with_app t s : ends_with t (s ++ t)%string = true.
Proof. induction s as [|a s IH]; cbn; [destruct t; cbn; rewrite ?Ascii.eqb_refl, ?String.eqb_refl; reflexivity|]. rewrite IH. now rewrite Bool.orb_true_r. Qed.
Lemma guarded_no_suffix n s : In n (map fst outside_names) -> n = (s ++ "Owned")%string \/ n = (s ++ "OwnedInner")%string -> In n unguarded.
Proof.
  intros H E. assert (X : ends_with "Owned" n = true \/ ends_with "OwnedInner" n = true) by (destruct E as [->| ->]; rewrite ends_with_app; auto).
  assert (Y : forallb (fun n => negb (ends_with "Owned" n || ends_with "OwnedInner" n) || existsb (String.eqb n) unguarded) (map fst outside_names) = true)
    by (vm_compute; reflexivity).
  rewrite forallb_forall in Y. specialize (Y n H). assert (Z : ends_with "Owned" n || ends_with "OwnedInner" n = true) by (destruct X as [-> | ->]; rewrite ?Bool.orb_true_r; reflexivity).
  rewrite Z in Y. cbn [negb orb] in Y. apply existsb_exists in Y. destruct Y as (y & I & W). apply String.eqb_eq in W. now subst y.
Qed.

(** ** The use lines are in agreement *)
Lemma common_agree u c d ms n s : In (n, s) (common_uses u c d ms) -> In (n, s) outside_names.
Proof.
  unfold common_uses. intros H. rewrite !in_app_iff in H.
  repeat match type of H with
         | context [if ?b then _ else _] => destruct b
         end; cbn [In] in H; repeat match goal with H : _ \/ _ |- _ => destruct H as [H|H] | H : False |- _ => destruct H end; try (injection H as <- <-); cbn; tauto.
Qed.
Lemma file_agree u c d n s : In (n, s) (file_uses u c d) -> In (n, s) outside_names.
Proof.
  unfold file_uses. intros H. destruct (forallb is_unit (d_messages d)).
  - destruct (u_owned u); cbn in H; repeat (destruct H as [H|H]; [injection H as <- <-; cbn; tauto|]); contradiction.
  - rewrite !in_app_iff in H. destruct H as [H|[H|H]]; [now apply common_agree in H| |destruct (u_owned u)];
      cbn in H; repeat (destruct H as [H|H]; [injection H as <- <-; cbn; tauto|]); contradiction.
Qed.
Lemma outside_one n s s' : In (n, s) outside_names -> In (n, s') outside_names -> s' = s.
Proof.
  assert (X : NoDup (map fst outside_names)).
  { apply (NoDup_count_occ' string_dec). intros x H. cbn in H. repeat (destruct H as [H|H]; [subst x; vm_compute; reflexivity|]). contradiction. }
  revert X. generalize outside_names. intros l. induction l as [|(a, b) l IH]; intros N H H'; [contradiction|]. cbn in N. apply NoDup_cons_iff in N. destruct N as (N1 & N2).
  destruct H as [H|H], H' as [H'|H']; try congruence; [| |now apply IH].
  - injection H as -> ->. elim N1. apply in_map_iff. now exists (n, s').
  - injection H' as -> ->. elim N1. apply in_map_iff. now exists (n, s).
Qed.

(** ** Where a message is declared *)
Lemma scopes_in_shape u c d : forall i acc ms m, get_in ms i = Some m ->
  exists mid, scopes_in u c d acc ms i = Some (mid ++ acc) /\
    Forall (fun sc => exists x p q, sc = module_scope u c d x /\ i = p ++ q /\ get_in ms p = Some x) mid /\
    ((exists k, i = [k] /\ mid = [] /\ In m ms) \/ (exists x rest, mid = module_scope u c d x :: rest /\ In m (m_messages x))).
Proof.
  induction i as [|k rest IH]; intros acc ms m G; [discriminate|]. cbn [scopes_in]. destruct (nth_error ms k) as [x|] eqn:N; [|cbn in G; now rewrite N in G].
  rewrite (get_in_cons _ _ _ _ N) in G. destruct rest as [|j rest].
  - injection G as <-. exists []. repeat match goal with |- _ /\ _ => split end; [reflexivity|constructor|].
    left. exists k. split; [reflexivity|]. split; [reflexivity|now apply nth_error_In in N].
  - destruct (IH (inside u c d x acc) _ _ G) as (mid & S & F & H). unfold inside in S.
    assert (GS : globs_super x = true).
    { unfold globs_super. destruct (m_messages x) eqn:E; [|reflexivity]. cbn in G. destruct j; discriminate. }
    rewrite GS in S. exists (mid ++ [module_scope u c d x]). rewrite <- app_assoc. split; [unfold inside; rewrite GS; exact S|]. split.
    + apply Forall_app. split; [|repeat constructor; exists x, [k], (j :: rest); rewrite (get_in_cons _ _ _ _ N); auto].
      apply Forall_forall. intros sc I. rewrite Forall_forall in F. destruct (F sc I) as (y & p & q & E & E' & Gp). exists y, (k :: p), q.
      split; [exact E|]. split; [cbn; now rewrite E'|]. rewrite (get_in_cons _ _ _ _ N). destruct p; [discriminate|exact Gp].
    + right. destruct H as [(k' & _ & -> & I)|(y & r & -> & I)]; [exists x, []; auto|exists y; eexists; split; [reflexivity|exact I]].
Qed.

(** an empty message contains only empty ones *)
Lemma unit_messages m x : is_unit m = true -> In x (m_messages m) -> is_unit x = true.
Proof.
  destruct m as [n fs os ? ? ? ? ms ? ? ?]. cbn [is_unit m_messages m_fields m_oneofs]. intros H I. destruct fs, os; try discriminate.
  rewrite forallb_forall in H. auto.
Qed.
Lemma unit_below : forall i ms m, forallb is_unit ms = true -> get_in ms i = Some m -> is_unit m = true.
Proof.
  induction i as [|k rest IH]; intros ms m F G; [discriminate|]. cbn in G. destruct (nth_error ms k) as [x|] eqn:N; [|discriminate].
  rewrite forallb_forall in F. pose proof (F x (nth_error_In _ _ N)) as U. destruct rest as [|j rest]; [now injection G as <-|].
  apply (IH (m_messages x)); [|exact G]. apply forallb_forall. intros y. now apply unit_messages.
Qed.
Lemma unit_fields m : is_unit m = true -> m_fields m = [] /\ m_oneofs m = [].
Proof.
  destruct m as [n fs os ? ? ? ? ms ? ? ?]. cbn [is_unit m_fields m_oneofs]. destruct fs, os; try discriminate; auto.
Qed.
Lemma unit_lifetime c d m : is_unit m = true -> lifetime c d m = false.
Proof.
  intros U. apply unit_fields in U. destruct U as (E & E'). unfold lifetime. destruct (lifetime_fuel d) as [|n]; cbn; [reflexivity|].
  unfold all_fields. rewrite E, E'. reflexivity.
Qed.

(** ** What is mentioned because of a field *)

(** a string that the message owns *)
Fixpoint owns_string (t : field_type) : bool :=
  match t with TString => true | TMap k v => owns_string k || owns_string v | _ => false end.
Fixpoint owns_text (t : field_type) : bool :=
  match t with TString | TBytes => true | TMap k v => owns_text k || owns_text v | _ => false end.

(** mentions that are always fine in code for a message that is not empty *)
Definition always : list mention :=
  [MName "Vec" SVec; MName "Option" SOption; MName "PackedFixed" SPackedFixed; MName "Default" SDefault; MTrait SDefault; MTrait SFrom; MTrait SMessageWrite]
  ++ map (fun x => prim (fst x)) primitives.
Inductive due (f : field) : mention -> Prop :=
| DAlways x : In x always -> due f x
| DCow : has_cow (f_typ f) = true -> due f (MName "Cow" SCow)
| DBox : f_boxed f = true -> due f (MName "Box" SBox)
| DMap : type_is_map (f_typ f) = true -> due f (MName "KVMap" SKVMap)
| DString : owns_string (f_typ f) = true -> due f (MName "String" SString)
| DToString : owns_string (f_typ f) = true -> due f (MTrait SToString)
| DOwned : owns_text (f_typ f) = true -> due f (MTrait SToOwned).
Ltac due_always := apply DAlways; cbn; tauto.

Definition due_type (t : field_type) (x : mention) : Prop :=
  In x always \/ (x = MName "Cow" SCow /\ has_cow t = true) \/ (x = MName "KVMap" SKVMap /\ type_is_map t = true) \/
  (x = MName "String" SString /\ owns_string t = true) \/ (x = MTrait SToString /\ owns_string t = true) \/
  (x = MTrait SToOwned /\ owns_text t = true).
Lemma due_of_type f x : due_type (f_typ f) x -> due f x.
Proof. intros [H|[(-> & H)|[(-> & H)|[(-> & H)|[(-> & H)|(-> & H)]]]]]; [now apply DAlways|now constructor..]. Qed.

Lemma due_rust_type t x : In x (type_mentions (rust_type_of t)) -> due_type t x.
Proof.
  unfold due_type. revert x. induction t as [| | | | | | |q| | | | | | | |i|n| | | |k IHk v IHv]; intros x H; cbn [rust_type_of type_mentions] in H;
    try (cbn in H; repeat (destruct H as [<-|H]; [cbn; tauto|]); contradiction).
  cbn [In] in H. destruct H as [<-|H]; [right; right; left; auto|]. cbn [has_cow type_is_map owns_string owns_text]. apply in_app_iff in H.
  destruct H as [H|H]; [apply IHk in H|apply IHv in H]; clear IHk IHv;
    destruct H as [H|[(-> & ->)|[(-> & H)|[(-> & ->)|[(-> & ->)|(-> & ->)]]]]]; rewrite ?Bool.orb_true_r; cbn [orb]; tauto.
Qed.
Lemma due_size t s x : In x (expr_mentions (size_expr t s)) -> In x (expr_mentions s) \/ In x always.
Proof.
  revert s x. induction t as [| | | | | | |q| | | | | | | |i|n| | | |k IHk v IHv]; intros s x H; cbn [size_expr expr_mentions type_mentions app In] in H;
    try (repeat (destruct H as [<-|H]; [right; cbn; tauto|]); first [contradiction | left; exact H]).
  apply in_app_iff in H. destruct H as [H|H]; [apply IHk in H|apply IHv in H]; destruct H as [[]|H]; auto.
Qed.
Lemma due_write t s b x : In x (expr_mentions (write_expr t s b)) -> In x (expr_mentions s) \/ In x always.
Proof.
  revert s b x. induction t as [| | | | | | |q| | | | | | | |i|n| | | |k IHk v IHv]; intros s b x H;
    try (cbn [write_expr expr_mentions type_mentions app In] in H; repeat (destruct H as [<-|H]; [right; cbn; tauto|]); first [contradiction | left; exact H]).
  - destruct b; left; exact H.
  - cbn [write_expr expr_mentions app] in H. rewrite !in_app_iff in H. destruct H as [[H|H]|[H|H]];
      [apply due_size in H|apply due_size in H|apply IHk in H|apply IHv in H]; destruct H as [[]|H]; auto.
Qed.
Lemma due_read t x : In x (read_expr_mentions (fst (read_exprs t))) \/ In x (read_expr_mentions (snd (read_exprs t))) -> due_type t x.
Proof. unfold due_type. destruct t; cbn; intros [H|H]; try contradiction; destruct H as [<-|[]]; tauto. Qed.
Lemma due_zero t x : In x (expr_mentions (zero_expr t)) \/ In x (expr_mentions (custom_expr t)) \/ In x (expr_mentions (owned_custom_expr t)) -> due_type t x.
Proof.
  unfold due_type. destruct t; cbn; intros [H|[H|H]]; try contradiction; repeat (destruct H as [<-|H]; [tauto|]); contradiction.
Qed.

Lemma due_init f c x : In x (init_mentions (field_default c f)) -> due f x \/ (x = MName "HashMap" SHashMap /\ freq_is_map (f_freq f) = true).
Proof.
  unfold field_default. intros H. destruct (generated_type_of (f_freq f)) eqn:G.
  - destruct (f_boxed f); [contradiction|]. destruct (freq_is_optional (f_freq f)); [contradiction|]. left. apply due_of_type, due_zero.
    cbn [init_mentions] in H. destruct (f_default f); auto.
  - left. destruct (_ && _ && _); cbn in H; repeat (destruct H as [<-|H]; [due_always|]); contradiction.
  - right. cbn in H. destruct H as [<-|[]]. split; [reflexivity|]. destruct (f_freq f); (reflexivity || discriminate).
Qed.
Lemma due_operand f c x : In x (expr_mentions (default_operand c f)) -> due f x.
Proof.
  unfold default_operand. pose proof (due_init f c x) as D. destruct (field_default c f) eqn:E; cbn [init_mentions] in D; cbn [expr_mentions EBad]; try contradiction.
  intros H. destruct (D H) as [X|(-> & M)]; [exact X|]. exfalso. clear -E M. unfold field_default in E. destruct (f_freq f); try discriminate.
Qed.
Lemma due_field_type c f x : In x (type_mentions (field_rtype c f)) -> due f x.
Proof.
  unfold field_rtype. intros H. destruct (f_boxed f) eqn:B.
  - cbn [type_mentions In] in H. destruct H as [<-|[<-|H]]; [due_always|now constructor|]. now apply due_of_type, due_rust_type.
  - assert (X : In x (type_mentions (rust_type_of (f_typ f))) -> due f x) by (intros; now apply due_of_type, due_rust_type).
    destruct (generated_type_of (f_freq f)).
    + destruct (freq_is_optional (f_freq f)); [|auto]. cbn [type_mentions In] in H. destruct H as [<-|H]; [due_always|auto].
    + destruct (_ && _ && _); cbn [type_mentions In] in H; (destruct H as [<-|H]; [due_always|auto]).
    + auto.
Qed.
Lemma due_variant_type f x : In x (type_mentions (variant_rtype f)) -> due f x.
Proof.
  unfold variant_rtype. intros H. destruct (f_boxed f) eqn:B; [cbn [type_mentions In] in H; destruct H as [<-|H]; [now constructor|]|]; now apply due_of_type, due_rust_type.
Qed.
Lemma due_field_read f x : In x (read_mentions (field_read f)) -> due f x.
Proof.
  unfold field_read. pose proof (due_read (f_typ f) x) as D.
  destruct (if freq_is_map (f_freq f) then (RdNone, RdNone) else read_exprs (f_typ f)) as (val, cow) eqn:E.
  assert (X : In x (read_expr_mentions val) \/ In x (read_expr_mentions cow) -> due f x).
  { intros H. destruct (freq_is_map (f_freq f)); [injection E as <- <-; destruct H as [[]|[]]|]. rewrite E in D. now apply due_of_type, D. }
  intros H. destruct (f_boxed f) eqn:B; [cbn in H; destruct H as [<-|H]; [now constructor|auto]|].
  destruct (generated_type_of (f_freq f)).
  - destruct (f_freq f); cbn in H; try contradiction; auto.
  - destruct (f_is_packed f); [destruct (is_fixed_size (f_typ f))|]; cbn in H; try contradiction; auto.
  - clear D E X val cow. apply due_of_type. destruct (f_typ f) as [| | | | | | |q| | | | | | | |i|n| | | |k v] eqn:T; try contradiction.
    cbn [read_mentions] in H. apply in_app_iff in H. unfold due_type. cbn [has_cow type_is_map owns_string owns_text].
    destruct H as [H|H]; [apply (fun H => due_read k x (or_intror H)) in H|apply (fun H => due_read v x (or_intror H)) in H];
      destruct H as [H|[(-> & ->)|[(-> & H)|[(-> & ->)|[(-> & ->)|(-> & ->)]]]]]; rewrite ?Bool.orb_true_r; cbn [orb]; tauto.
Qed.
Lemma due_variant_read o f x : In x (read_mentions (variant_read o f)) -> due f x.
Proof.
  unfold variant_read. pose proof (due_read (f_typ f) x) as D. destruct (read_exprs (f_typ f)) as (val, cow). intros H. cbn [read_mentions] in H. apply in_app_iff in H.
  destruct H as [H|H]; [destruct (f_boxed f) eqn:B; [destruct H as [<-|[]]; now constructor|contradiction]|]. apply due_of_type, D. cbn. destruct (f_boxed f); auto.
Qed.
Ltac in_apps H := repeat first [rewrite in_app_iff in H].
Lemma due_addition f s x : In x (expr_mentions (size_addition f s)) -> In x (expr_mentions s) \/ due f x.
Proof.
  unfold size_addition. cbn [expr_mentions app]. intros H. apply due_size in H. destruct H as [H|H]; [|right; now apply DAlways].
  destruct (is_fixed_size (f_typ f)); [contradiction|now left].
Qed.
Lemma due_field_size c f x : In x (expr_mentions (field_size_expr c f)) -> due f x.
Proof.
  unfold field_size_expr. pose proof (due_operand f c x) as D.
  assert (A : forall s, expr_mentions s = [] -> In x (expr_mentions (size_addition f s)) -> due f x).
  { intros s E H. apply due_addition in H. rewrite E in H. now destruct H as [[]|H]. }
  assert (S : forall t s, expr_mentions s = [] -> In x (expr_mentions (size_expr t s)) -> due f x).
  { intros t s E H. apply due_size in H. rewrite E in H. destruct H as [[]|H]. now apply DAlways. }
  destruct (generated_type_of (f_freq f)); intros H.
  - destruct (negb (has_presence f)), (freq_is_optional (f_freq f)); cbn [expr_mentions app EBad] in H; try contradiction.
    + rewrite !in_app_iff in H. destruct H as [H|H]; [auto|]. now apply (A (ESelf (f_name f))).
    + now apply (A (EVar "m")).
    + now apply (A (ESelf (f_name f))).
  - destruct (f_is_packed f).
    + cbn [expr_mentions app] in H. destruct (wire_type_num_non_packed (f_typ f)) as [|p|p]; cbn [expr_mentions app In] in H;
        try (destruct p as [[[?|?|]|[?|?|]|]|?|]; cbn [expr_mentions app In] in H);
        try contradiction; destruct H as [<-|H]; try due_always; now apply (S (f_typ f) (EVar "s")).
    + destruct (wire_type_num_non_packed (f_typ f)) as [|p|p]; cbn [expr_mentions app In] in H;
        try (destruct p as [[[?|?|]|[?|?|]|]|?|]; cbn [expr_mentions app In] in H);
        try contradiction; destruct H as [<-|H]; try due_always; now apply (S (f_typ f) (EVar "s")).
  - destruct (f_typ f) as [| | | | | | |q| | | | | | | |i|n| | | |k v]; try contradiction. cbn [expr_mentions app In] in H. destruct H as [<-|H]; [due_always|].
    now apply (S (TMap k v) EBad).
Qed.
Lemma due_variant_size f x : In x (expr_mentions (variant_size_expr f)) -> due f x.
Proof.
  unfold variant_size_expr. cbn [expr_mentions app]. intros H. apply due_size in H. destruct H as [H|H]; [|now apply DAlways].
  destruct (is_fixed_size (f_typ f)); [contradiction|]. destruct (need_to_dereference (f_typ f)); contradiction.
Qed.
Lemma unwrapping_mentions f b s : expr_mentions (unwrapping f b s) = expr_mentions s.
Proof. unfold unwrapping. destruct (f_boxed f), (_ && _ && _ && _), (_ && _); reflexivity. Qed.
Lemma due_field_write c f x : In x (expr_mentions (field_write_expr c f)) -> due f x.
Proof.
  unfold field_write_expr, write_method. pose proof (due_operand f c x) as D.
  assert (W : forall t s b, expr_mentions s = [] -> In x (expr_mentions (write_expr t s b)) -> due f x).
  { intros t s b E H. apply due_write in H. rewrite E in H. destruct H as [[]|H]. now apply DAlways. }
  assert (S : forall t s, expr_mentions s = [] -> In x (expr_mentions (size_expr t s)) -> due f x).
  { intros t s E H. apply due_size in H. rewrite E in H. destruct H as [[]|H]. now apply DAlways. }
  destruct (generated_type_of (f_freq f)); intros H.
  - destruct (negb (has_presence f)), (freq_is_optional (f_freq f)); cbn [expr_mentions app] in H; rewrite ?in_app_iff, ?unwrapping_mentions in H; cbn [expr_mentions In] in H;
      repeat match type of H with _ \/ _ => destruct H as [H|H] | False => destruct H end; auto;
      (eapply W; [|exact H]; rewrite unwrapping_mentions; reflexivity).
  - destruct (f_is_packed f); [destruct (is_fixed_size (f_typ f)); [contradiction|]|]; cbn [expr_mentions app] in H; rewrite ?in_app_iff in H.
    + destruct H as [H|H]; [now apply (W (f_typ f) (EVar "m") (f_boxed f))|now apply (S (f_typ f) (EVar "m"))].
    + eapply W; [|exact H]. destruct (need_to_dereference (f_typ f)); reflexivity.
  - destruct (f_typ f) as [| | | | | | |q| | | | | | | |i|n| | | |k v]; try contradiction. cbn [expr_mentions app] in H. now apply (W (TMap k v) EBad false).
Qed.
Lemma due_variant_write f x : In x (expr_mentions (variant_write_expr f)) -> due f x.
Proof.
  unfold variant_write_expr. cbn [expr_mentions]. intros H. apply due_write in H. destruct H as [H|H]; [|now apply DAlways].
  destruct (need_to_dereference (f_typ f) || f_boxed f); contradiction.
Qed.
Lemma due_const f x : In x (expr_mentions (custom_expr (f_typ f)) ++ type_mentions (const_rtype f)) -> due f x.
Proof.
  intros H. apply in_app_iff in H. destruct H as [H|H]; [apply due_of_type, due_zero; auto|]. unfold const_rtype in H.
  destruct (f_typ f) as [| | | | | | |q| | | | | | | |i|n| | | |k v] eqn:T; try (apply due_of_type; rewrite T; now apply due_rust_type);
    cbn in H; destruct H as [<-|[]]; due_always.
Qed.
Lemma due_getter f x : In x (expr_mentions (getter_expr f) ++ type_mentions (getter_rtype f)) -> due f x.
Proof.
  intros H. apply in_app_iff in H. destruct H as [H|H].
  - unfold getter_expr in H. destruct (f_typ f); cbn in H; contradiction.
  - assert (X : In x (type_mentions (const_rtype f))) by (unfold getter_rtype in H; destruct (is_cow (f_typ f)); exact H).
    apply due_const. apply in_app_iff. auto.
Qed.
