(** Property theorem C69: the names that generated code takes from elsewhere
    are brought in by the use lines, and mean what they should. *)
From Coq Require Import String Ascii Arith Lia.
From Verif Require Import Base Schema Passes Gen GenCheck Lifetime RustTypes Emit Keywords KeywordFacts CycleFacts Cycles BreakFacts IndexFacts
  Pipeline PassFacts ResolveFacts AcceptFacts Parser ProtoText FileText ParserOut Import Props_Import Paths PathFacts PlaceFacts
  Props_Passes Props_Accepted Props_TypeCheck Props_EndToEnd Props_Paths Uses UseFacts.
Import Schema StringSyntax.
Local Open Scope string_scope.
Local Open Scope list_scope.

(** ** What is claimed *)

(** No generated item has the name of something used from elsewhere: checked
    for the names that are not escaped anyway; [super] are the names that the
    glob import at the head of the file brings in. *)
Record no_clash (u : uoptions) (c : config) (d : file_descriptor) (super : list text) : Prop := mkNoClash {
  nc_file : forall n, In n (file_items u c d) -> ~ In n unguarded;
  nc_module : forall i m n, get_message d i = Some m -> m_imported m = false -> In n (module_items u c d m) -> ~ In n unguarded;
  nc_super : forall n, In n super -> ~ In n (map fst outside_names) }.

(** What --nostd does not support: owned strings; maps to owned bytes; and maps
    in messages with custom default values, except with --hashbrown. *)
Record nostd_supported (u : uoptions) (c : config) (d : file_descriptor) : Prop := mkSupported {
  ns_string : forall i m f, get_message d i = Some m -> field_of m f -> owns_string (f_typ f) = false;
  ns_bytes : forall i m f, get_message d i = Some m -> field_of m f -> type_is_map (f_typ f) = true -> owns_text (f_typ f) = false;
  ns_map : u_hashbrown u = false -> forall i m f, get_message d i = Some m ->
    message_must_generate_impl_default (d_syntax d) c m = true -> field_of m f -> freq_is_map (f_freq f) = false }.

(** the owned forms of [string] and [bytes] do not occur *)
Definition borrowed (d : file_descriptor) : Prop :=
  forall i m f, get_message d i = Some m -> field_of m f -> owns_text (f_typ f) = false.

(** everything mentioned in code for the message at [i] is found *)
Record names_found (u : uoptions) (c : config) (d : file_descriptor) (super : list text) (i : midx) (m : message) : Prop := mkFound {
  nf_scopes : exists scopes, scopes_of u c d super i = Some scopes;
  nf_message : forall scopes x, scopes_of u c d super i = Some scopes -> In x (message_mentions u c d m) ->
    available (scopes ++ [prelude (u_nostd u)]) x;
  nf_oneof : forall scopes o x, scopes_of u c d super i = Some scopes -> In o (m_oneofs m) -> In x (oneof_mentions c o) ->
    available (inside u c d m scopes ++ [prelude (u_nostd u)]) x;
  nf_enum : forall scopes e x, scopes_of u c d super i = Some scopes -> In e (m_enums m) -> In x enum_mentions ->
    available (inside u c d m scopes ++ [prelude (u_nostd u)]) x }.

(** ** Proof *)
Section Found.
Variables (u : uoptions) (c : config) (d d' : file_descriptor) (super : list text).
Hypothesis Rules : protobuf_rules d.
Hypothesis Acc : process c d = GOk d'.
Hypothesis Borrowed : borrowed d.
Hypothesis Alike : forall i m x, get_message d' i = Some m -> In x (m_messages m) -> m_imported x = m_imported m.
Hypothesis Clash : no_clash u c d' super.
Hypothesis Nostd : u_nostd u = true -> nostd_supported u c d'.

Lemma nostd_cases : u_nostd u = true \/ u_nostd u = false.
Proof. destruct (u_nostd u); auto. Qed.
Lemma above_alike p q x m : get_message d' p = Some x -> get_message d' (p ++ q) = Some m -> m_imported m = m_imported x.
Proof.
  intros Gx. revert m. induction q as [|k q IH] using rev_ind; intros m Gm; [rewrite app_nil_r in Gm; congruence|].
  rewrite app_assoc in Gm. rewrite get_message_eq in Gm.
  destruct (get_in (d_messages d') (p ++ q)) as [y|] eqn:E.
  - rewrite (get_in_app _ _ _ _ E) in Gm by discriminate. cbn in Gm. destruct (nth_error (m_messages y) k) as [z|] eqn:N; [|discriminate]. injection Gm as ->.
    rewrite <- get_message_eq in E. rewrite <- (IH y E). apply (Alike _ _ _ E). now apply nth_error_In in N.
  - exfalso. clear -Gm E Gx. rewrite get_message_eq in Gx. assert (X : p ++ q <> []) by (destruct p; [discriminate|discriminate]).
    revert E Gm X. generalize (p ++ q) as r. generalize (d_messages d') as ms. clear. intros ms r. revert ms.
    induction r as [|j r IH]; intros ms E Gm X; [contradiction|]. cbn in E, Gm. destruct (nth_error ms j) as [y|]; [|discriminate].
    destruct r as [|j' r]; [discriminate|]. apply (IH (m_messages y)); [exact E|exact Gm|discriminate].
Qed.

Lemma names_sanitized i m : get_message d' i = Some m -> is_keyword (m_name m) = false /\ (forall e, In e (m_enums m) -> is_keyword (en_name e) = false).
Proof.
  intros G. pose proof (process_head c d d' Acc i) as R. rewrite G in R. inversion R as [|x y [E1 _ _ E2 _] A B]; subst. split; [rewrite E1; apply sanitized_not_keyword|].
  intros e I. rewrite E2 in I. apply in_map_iff in I. destruct I as (e0 & <- & _). apply sanitized_not_keyword.
Qed.
Lemma item_outside m n : is_keyword (m_name m) = false -> In n (message_items u c d' m) -> ~ In n unguarded -> ~ In n (map fst outside_names).
Proof.
  intros K I U O. unfold message_items in I. rewrite !in_app_iff in I. destruct I as [[<-|[]]|[I|I]].
  - destruct (outside_guarded _ O); [auto|congruence].
  - destruct (u_owned u && lifetime c d' m); [|contradiction]. apply U. apply (guarded_no_suffix n (m_name m) O). cbn in I. destruct I as [<-|[<-|[]]]; auto.
  - destruct (has_module m); [|contradiction]. destruct I as [<-|[]]. destruct (outside_guarded _ O) as [X|X]; [auto|].
    now apply (proj1 (guarded_no_prefix _ O X) (m_name m)).
Qed.
Lemma file_items_outside n : In n (file_items u c d') -> ~ In n (map fst outside_names).
Proof.
  intros I O. pose proof (nc_file _ _ _ _ Clash n I) as U. unfold file_items in I. apply in_app_iff in I. destruct I as [I|I].
  - apply in_map_iff in I. destruct I as (e & <- & I). apply filter_In in I. destruct I as (I & _).
    destruct (process_header c d d' Acc) as (E & _). rewrite E in I. apply in_map_iff in I. destruct I as (e0 & <- & _).
    destruct (outside_guarded _ O) as [X|X]; [auto|]. cbn [enum_sanitize_names en_name] in X. now rewrite sanitized_not_keyword in X.
  - apply in_flat_map in I. destruct I as (m & Im & I). apply filter_In in Im. destruct Im as (Im & _). apply In_nth_error in Im. destruct Im as (k & Nk).
    refine (item_outside m n _ I U O). apply (names_sanitized [k] m). rewrite get_message_eq. cbn. now rewrite Nk.
Qed.
Lemma module_items_outside i m n : get_message d' i = Some m -> m_imported m = false -> In n (module_items u c d' m) -> ~ In n (map fst outside_names).
Proof.
  intros G Im I O. pose proof (nc_module _ _ _ _ Clash i m n G Im I) as U. unfold module_items in I. rewrite !in_app_iff in I. destruct I as [I|[I|I]].
  - apply in_flat_map in I. destruct I as (x & Ix & I). refine (item_outside x n _ I U O). apply In_nth_error in Ix. destruct Ix as (k & Nk).
    apply (names_sanitized (i ++ [k]) x). rewrite get_message_eq in *. now apply (get_in_child _ _ m).
  - apply in_map_iff in I. destruct I as (e & <- & I). apply (names_sanitized i m G) in I. destruct (outside_guarded _ O); [auto|congruence].
  - apply in_map_iff in I. destruct I as (o & <- & _). destruct (outside_guarded _ O) as [X|X]; [auto|]. now apply (proj2 (guarded_no_prefix _ O X) (o_name o)).
Qed.
Lemma items_scope_in l n s : In (n, s) (items_scope l) -> In n l.
Proof. unfold items_scope. intros H. apply in_map_iff in H. destruct H as (x & E & I). injection E as <- _. exact I. Qed.

(** a scope says nothing wrong about the names from elsewhere *)
Definition sound (sc : scope) : Prop := forall n s, In n (map fst outside_names) -> In (n, s) sc -> In (n, s) outside_names.
Lemma sound_items uses l : (forall n s, In (n, s) uses -> In (n, s) outside_names) -> (forall n, In n l -> ~ In n (map fst outside_names)) ->
  sound (uses ++ items_scope l).
Proof. intros A B n s O I. apply in_app_iff in I. destruct I as [I|I]; [auto|]. apply items_scope_in in I. now elim (B n I). Qed.
Lemma sound_file sc : In sc (file_scopes u c d' super) -> sound sc.
Proof.
  intros [<-|[<-|[]]].
  - apply sound_items; [intros n s; apply file_agree|exact file_items_outside].
  - apply (sound_items []); [intros n s []|apply (nc_super _ _ _ _ Clash)].
Qed.
Lemma sound_module i m : get_message d' i = Some m -> m_imported m = false -> sound (module_scope u c d' m).
Proof. intros G I. apply sound_items; [intros n s; apply common_agree|intros n; now apply (module_items_outside i)]. Qed.
Lemma sound_prelude n s : In (n, s) (prelude (u_nostd u)) -> n <> "Result" -> In (n, s) outside_names.
Proof.
  intros H N. assert (X : In (n, s) (prelude false)).
  { destruct nostd_cases as [N'|N']; rewrite N' in H; [|exact H]. unfold prelude in *. rewrite !in_app_iff in *. destruct H as [H|[[]|H]]; auto. }
  clear H. cbn in X. repeat (destruct X as [X|X]; [injection X as <- <-; first [now elim N | cbn; tauto]|]). contradiction.
Qed.

Lemma find_use scopes n s : (forall sc, In sc scopes -> sound sc) -> In (n, s) outside_names -> (exists sc, In sc scopes /\ In (n, s) sc) ->
  available (scopes ++ [prelude (u_nostd u)]) (MName n s).
Proof.
  intros S O E. cbn. apply resolves_more, resolves_first; [|exact E]. intros sc s' I I'. apply (outside_one n); [exact O|].
  apply (S sc I); [|exact I']. apply in_map_iff. now exists (n, s).
Qed.
Lemma find_prelude scopes n s : (forall sc, In sc scopes -> sound sc) -> In (n, s) (prelude (u_nostd u)) -> n <> "Result" ->
  available (scopes ++ [prelude (u_nostd u)]) (MName n s).
Proof.
  intros S P N. pose proof (sound_prelude n s P N) as O. cbn. apply resolves_first.
  - intros sc s' I I'. apply (outside_one n); [exact O|]. apply in_app_iff in I. destruct I as [I|[<-|[]]].
    + apply (S sc I); [|exact I']. apply in_map_iff. now exists (n, s).
    + now apply sound_prelude.
  - exists (prelude (u_nostd u)). split; [apply in_app_iff; right; now left|exact P].
Qed.
Lemma find_trait scopes n s : In (n, s) (prelude (u_nostd u)) -> available (scopes ++ [prelude (u_nostd u)]) (MTrait s).
Proof. intros P. exists (prelude (u_nostd u)), n. split; [apply in_app_iff; right; now left|exact P]. Qed.
Lemma find_trait_use scopes n s : (exists sc, In sc scopes /\ In (n, s) sc) -> available (scopes ++ [prelude (u_nostd u)]) (MTrait s).
Proof. intros (sc & I & H). exists sc, n. split; [apply in_app_iff; now left|exact H]. Qed.
Lemma in_prelude n s : In (n, s) ([("Option", SOption); ("Default", SDefault); ("From", SFrom)] ++ primitives) -> In (n, s) (prelude (u_nostd u)) /\ n <> "Result".
Proof.
  intros H. split.
  - unfold prelude. rewrite !in_app_iff in *. destruct H as [H|H]; [|auto]. left. cbn in *. destruct H as [H|[H|[H|[]]]]; auto.
  - intros ->. cbn in H. repeat (destruct H as [H|H]; [discriminate|]). contradiction.
Qed.

(** what the passes establish *)
Lemma no_cows i m f : c_dont_use_cow c = true -> get_message d' i = Some m -> field_of m f -> has_cow (f_typ f) = false.
Proof.
  intros C G Hf. destruct (process_field_back c d d' i m f Acc G Hf) as (m0 & f0 & G0 & H0 & FF).
  destruct (ff_typ _ _ _ _ _ _ FF) as (t & R & E). rewrite C in E. rewrite E. pose proof (pr_types d Rules i m0 f0 G0 H0) as T.
  assert (O1 : forall t, has_cow t = true -> (forall k v, t <> TMap k v) -> has_cow (own1 t) = false) by (intros []; try reflexivity; now intros _ []).
  assert (S1 : forall p n t t', source_type t -> resolve_name (full_msgs d) (full_enums d) p n t = GOk t' -> has_cow (own1 t') = false).
  { intros p n x x' S H. destruct (resolve_name_typ_ok d p n x x' S H) as [Y|(-> & _)]; [destruct x'; (reflexivity || contradiction)|destruct x; (reflexivity || contradiction)]. }
  destruct (freq_is_map (f_freq f0)).
  - destruct T as (k & v & Et & Sv & Hk). rewrite Et in R. cbn [resolve_type] in R.
    apply gbind_ok in R. destruct R as (k' & Rk & R). apply gbind_ok in R. destruct R as (v' & Rv & R). injection R as <-. cbn [own_type has_cow].
    assert (Sk : source_type k) by (cbn in Hk; decompose [or] Hk; subst; exact I || contradiction).
    now rewrite (S1 _ _ _ _ Sk Rk), (S1 _ _ _ _ Sv Rv).
  - assert (Rn : resolve_name (full_msgs d) (full_enums d) (m_package m0) (m_name m0) (f_typ f0) = GOk t) by (destruct (f_typ f0); try exact R; contradiction).
    pose proof (S1 _ _ _ _ T Rn) as Y. destruct t; try exact Y.
    exfalso. destruct (resolve_name_typ_ok d _ _ _ _ T Rn) as [Z|(Z & S & _)]; [contradiction|]. rewrite <- Z in S. contradiction.
Qed.
Lemma owned_only i m f : get_message d' i = Some m -> field_of m f -> owns_text (f_typ f) = true -> c_dont_use_cow c = true.
Proof.
  intros G Hf. destruct (process_field_back c d d' i m f Acc G Hf) as (m0 & f0 & G0 & H0 & FF).
  destruct (ff_typ _ _ _ _ _ _ FF) as (t & R & E). rewrite E. destruct (c_dont_use_cow c); [reflexivity|]. pose proof (Borrowed i m0 f0 G0 H0) as B.
  assert (S1 : forall p n t t', owns_text t = false -> resolve_name (full_msgs d) (full_enums d) p n t = GOk t' -> owns_text t' = false).
  { intros p n x x' S H. unfold resolve_name in H. destruct x; try (injection H as <-; exact S).
    destruct (first_match _ _ _) as [y|] eqn:F; [|discriminate]. injection H as <-. clear -F. revert F. induction (test_names p n name) as [|z l IH]; cbn; [discriminate|].
    destruct (lookup (full_msgs d) z); [now intros [= <-]|]. destruct (lookup (full_enums d) z); [now intros [= <-]|exact IH]. }
  intros X. exfalso. clear E. destruct (f_typ f0) as [| | | | | | |q| | | | | | | |j|n| | | |k v]; cbn [resolve_type] in R; try (rewrite (S1 _ _ _ _ B R) in X; discriminate).
  apply gbind_ok in R. destruct R as (k' & Rk & R). apply gbind_ok in R. destruct R as (v' & Rv & R). injection R as <-. cbn in *.
  apply Bool.orb_false_iff in B. destruct B as (B1 & B2). rewrite (S1 _ _ _ _ B1 Rk), (S1 _ _ _ _ B2 Rv) in X. discriminate.
Qed.
Lemma maps_are_maps i m f : get_message d' i = Some m -> field_of m f -> freq_is_map (f_freq f) = true -> type_is_map (f_typ f) = true.
Proof.
  intros G Hf M. destruct (process_field_back c d d' i m f Acc G Hf) as (m0 & f0 & G0 & H0 & FF).
  assert (M0 : freq_is_map (f_freq f0) = true).
  { destruct (ff_freq _ _ _ _ _ _ FF) as [(E & _)|(E & _)]; rewrite E in M; [exact M|destruct (f_freq f0); discriminate]. }
  pose proof (final_types c d d' Rules Acc i m0 f0 f G0 H0 FF) as T. rewrite M0 in T. destruct T as (k & v & -> & _). reflexivity.
Qed.

Section At.
Variables (i : midx) (m : message).
Hypothesis G : get_message d' i = Some m.
Hypothesis Local : m_imported m = false.

Lemma at_scopes : exists scopes, scopes_of u c d' super i = Some scopes /\ (forall sc, In sc scopes -> sound sc) /\ In (file_scope u c d') scopes /\
  (is_unit m = false -> exists sc ms, In sc scopes /\ incl (common_uses u c d' ms) sc /\ In m ms).
Proof.
  pose proof G as G'. rewrite get_message_eq in G'. destruct (scopes_in_shape u c d' i (file_scopes u c d' super) _ _ G') as (mid & S & F & H).
  exists (mid ++ file_scopes u c d' super). split; [exact S|]. rewrite Forall_forall in F. split; [|split].
  - intros sc I. apply in_app_iff in I. destruct I as [I|I]; [|now apply sound_file]. destruct (F sc I) as (x & p & q & -> & E & Gx).
    rewrite <- get_message_eq in Gx. apply (sound_module p); [exact Gx|]. rewrite <- (above_alike p q x m Gx); [exact Local|now rewrite <- E].
  - apply in_app_iff. right. now left.
  - intros U. destruct H as [(k & _ & -> & I)|(x & rest & -> & I)].
    + exists (file_scope u c d'), (d_messages d'). split; [now left|]. split; [|exact I]. intros y Hy. unfold file_scope, file_uses.
      destruct (forallb is_unit (d_messages d')) eqn:A; [rewrite (unit_below i _ m A G') in U; discriminate|].
      rewrite !in_app_iff. auto.
    + exists (module_scope u c d' x), (m_messages x). split; [now left|]. split; [|exact I]. intros y Hy. apply in_app_iff. now left.
Qed.

Section Scopes.
Variable scopes : list scope.
Hypothesis Sound : forall sc, In sc scopes -> sound sc.
Hypothesis File : In (file_scope u c d') scopes.
Hypothesis Uses : is_unit m = false -> exists sc ms, In sc scopes /\ incl (common_uses u c d' ms) sc /\ In m ms.
Definition all : list scope := scopes ++ [prelude (u_nostd u)].

Lemma from_file n s : In (n, s) (file_uses u c d') -> available all (MName n s).
Proof.
  intros H. apply find_use; [exact Sound|now apply file_agree in H|]. exists (file_scope u c d'). split; [exact File|]. apply in_app_iff. now left.
Qed.
Lemma from_file_trait n s : In (n, s) (file_uses u c d') -> available all (MTrait s).
Proof. intros H. apply (find_trait_use _ n). exists (file_scope u c d'). split; [exact File|]. apply in_app_iff. now left. Qed.
Lemma from_uses n s : is_unit m = false -> (forall ms, In m ms -> In (n, s) (common_uses u c d' ms)) -> available all (MName n s).
Proof.
  intros U H. destruct (Uses U) as (sc & ms & I & J & Im). pose proof (H ms Im) as X. apply find_use; [exact Sound|now apply common_agree in X|].
  exists sc. split; [exact I|now apply J].
Qed.
Lemma from_uses_trait n s : is_unit m = false -> (forall ms, In m ms -> In (n, s) (common_uses u c d' ms)) -> available all (MTrait s).
Proof.
  intros U H. destruct (Uses U) as (sc & ms & I & J & Im). pose proof (H ms Im) as X. apply (find_trait_use _ n). exists sc. split; [exact I|now apply J].
Qed.
Lemma from_prelude n s : In (n, s) ([("Option", SOption); ("Default", SDefault); ("From", SFrom)] ++ primitives) -> available all (MName n s).
Proof. intros H. apply in_prelude in H. destruct H. now apply find_prelude. Qed.
Lemma from_prelude_trait n s : In (n, s) ([("Option", SOption); ("Default", SDefault); ("From", SFrom)] ++ primitives) -> available all (MTrait s).
Proof. intros H. apply in_prelude in H. apply (find_trait _ n). apply H. Qed.
Lemma full_uses : is_unit m = false ->
  incl [("Writer", SWriter); ("WriterBackend", SWriterBackend); ("PackedFixed", SPackedFixed)] (file_uses u c d').
Proof.
  intros U y Hy. unfold file_uses. destruct (forallb is_unit (d_messages d')) eqn:A.
  { rewrite get_message_eq in G. rewrite (unit_below i _ m A G) in U. discriminate. }
  rewrite !in_app_iff. right. left. cbn in *. tauto.
Qed.
Lemma always_uses : incl [("BytesReader", SBytesReader); ("Result", SResult); ("MessageInfo", SMessageInfo); ("MessageRead", SMessageRead);
  ("MessageWrite", SMessageWrite)] (file_uses u c d').
Proof. intros y Hy. unfold file_uses. destruct (forallb is_unit (d_messages d')); rewrite !in_app_iff; cbn in *; tauto. Qed.
Lemma owned_uses : u_owned u = true -> incl [("TryFrom", STryFrom); ("TryInto", STryInto)] (file_uses u c d').
Proof. intros O y Hy. unfold file_uses. rewrite O. destruct (forallb is_unit (d_messages d')); rewrite !in_app_iff; cbn in *; tauto. Qed.

Lemma vec_found : is_unit m = false -> available all (MName "Vec" SVec).
Proof.
  intros U. destruct nostd_cases as [N|N].
  - apply from_uses; [exact U|]. intros ms _. unfold common_uses. rewrite N. now left.
  - apply find_prelude; [exact Sound| |discriminate]. rewrite N. cbn. tauto.
Qed.
Lemma always_found x : is_unit m = false -> In x always -> available all x.
Proof.
  intros U H. unfold always in H. apply in_app_iff in H. destruct H as [H|H].
  - cbn in H. destruct H as [<-|[<-|[<-|[<-|[<-|[<-|[<-|[]]]]]]]].
    + now apply vec_found.
    + apply from_prelude. cbn. tauto.
    + apply from_file, full_uses; [exact U|cbn; tauto].
    + apply from_prelude. cbn. tauto.
    + apply (from_prelude_trait "Default"). cbn. tauto.
    + apply (from_prelude_trait "From"). cbn. tauto.
    + apply (from_file_trait "MessageWrite"), always_uses. cbn. tauto.
  - apply in_map_iff in H. destruct H as ((n & s) & <- & H). apply from_prelude. apply in_app_iff. right. cbn [fst].
    unfold primitives in *. apply in_map_iff in H. destruct H as (y & E & H). injection E as <- <-. apply in_map_iff. now exists y.
Qed.
Lemma has_field f : field_of m f -> is_unit m = false.
Proof.
  intros H. destruct (is_unit m) eqn:U; [|reflexivity]. apply unit_fields in U. destruct U as (E & E'). unfold field_of in H. rewrite E, E' in H.
  destruct H as [[]|(o & [] & _)].
Qed.
Lemma box_found f : field_of m f -> f_boxed f = true -> available all (MName "Box" SBox).
Proof.
  intros H B. destruct nostd_cases as [N|N].
  - apply from_uses; [now apply (has_field f)|]. intros ms I. unfold common_uses. rewrite !in_app_iff. right. right. left. rewrite N. cbn [andb].
    assert (X : existsb (fun m => u_owned u && lifetime c d' m || existsb f_boxed (all_fields m)) ms = true).
    { apply existsb_exists. exists m. split; [exact I|]. apply Bool.orb_true_iff. right. apply existsb_exists. exists f. split; [now apply field_of_all|exact B]. }
    rewrite X. now left.
  - apply find_prelude; [exact Sound| |discriminate]. rewrite N. cbn. tauto.
Qed.
Lemma map_uses f ms : field_of m f -> type_is_map (f_typ f) = true -> In m ms ->
  In ("KVMap", SKVMap) (common_uses u c d' ms) /\ (u_hashbrown u || negb (u_nostd u) = true -> In ("HashMap", SHashMap) (common_uses u c d' ms)).
Proof.
  intros H T I. unfold common_uses. rewrite !in_app_iff.
  assert (X : existsb (fun m => existsb (fun f => type_is_map (f_typ f)) (all_fields m)) (filter (fun m => negb (m_imported m)) ms) = true).
  { apply existsb_exists. exists m. split; [apply filter_In; split; [exact I|now rewrite Local]|]. apply existsb_exists. exists f. split; [now apply field_of_all|exact T]. }
  rewrite X. split; [|intros C]; right; right; right; destruct (u_hashbrown u), (u_nostd u); cbn; try discriminate; tauto.
Qed.
Lemma due_found f x : field_of m f -> due f x -> available all x.
Proof.
  intros Hf D. pose proof (has_field f Hf) as U. destruct D as [x A|C|B|T|S|S|S].
  - now apply always_found.
  - apply from_uses; [exact U|]. intros ms I. unfold common_uses. rewrite !in_app_iff. right. left.
    destruct (c_dont_use_cow c) eqn:E; [rewrite (no_cows i m f E G Hf) in C; discriminate|]. cbn [negb].
    assert (X : existsb (fun m => existsb (fun f => has_cow (f_typ f) || (f_is_packed f && is_fixed_size (f_typ f))) (all_fields m)) ms = true).
    { apply existsb_exists. exists m. split; [exact I|]. apply existsb_exists. exists f. split; [now apply field_of_all|now rewrite C]. }
    rewrite X. now left.
  - now apply (box_found f).
  - apply from_uses; [exact U|]. intros ms I. now apply (map_uses f).
  - destruct nostd_cases as [N|N]; [now rewrite (ns_string _ _ _ (Nostd N) i m f G Hf) in S|]. apply find_prelude; [exact Sound| |discriminate].
    rewrite N. cbn. tauto.
  - destruct nostd_cases as [N|N]; [now rewrite (ns_string _ _ _ (Nostd N) i m f G Hf) in S|]. apply (find_trait _ "ToString").
    rewrite N. cbn. tauto.
  - destruct nostd_cases as [N|N]; [|apply (find_trait _ "ToOwned"); rewrite N; cbn; tauto].
    pose proof (ns_string _ _ _ (Nostd N) i m f G Hf) as NS.
    assert (B : f_typ f = TBytes).
    { pose proof (ns_bytes _ _ _ (Nostd N) i m f G Hf) as NB. destruct (f_typ f); try discriminate; [reflexivity|]. rewrite NB in S; [discriminate|reflexivity]. }
    destruct (c_dont_use_cow c) eqn:E.
    + apply (from_uses_trait "ToOwned"); [exact U|]. intros ms I. unfold common_uses. rewrite !in_app_iff. right. left. rewrite E, N. cbn [negb andb].
      assert (X : existsb (fun m => existsb (fun f => has_bytes_and_string (f_typ f)) (all_fields m)) ms = true).
      { apply existsb_exists. exists m. split; [exact I|]. apply existsb_exists. exists f. split; [now apply field_of_all|now rewrite B]. }
      rewrite X. now left.
    + rewrite (owned_only i m f G Hf S) in E. discriminate.
Qed.

Lemma visible_field f : In f (visible_fields c m) -> field_of m f.
Proof. intros H. apply filter_In in H. left. apply H. Qed.
Lemma visible_variant o f : In o (m_oneofs m) -> In f (oneof_variants c o) -> field_of m f.
Proof. intros Ho H. apply filter_In in H. right. exists o. split; [exact Ho|apply H]. Qed.
Lemma flat_found {A} (l : list A) (g : A -> list mention) x : (forall a, In a l -> forall x, In x (g a) -> available all x) -> In x (flat_map g l) -> available all x.
Proof. intros H I. apply in_flat_map in I. destruct I as (a & Ia & I). now apply (H a). Qed.

Lemma fixed_found x : In x (fixed_mentions u m) -> available all x.
Proof.
  intros H. unfold fixed_mentions in H. rewrite !in_app_iff in H.
  assert (P : forall n, In n ["u8"; "str"; "usize"] -> available all (prim n)).
  { intros n I. apply from_prelude. cbn in *. decompose [or] I; subst; tauto. }
  destruct H as [H|[H|H]].
  - cbn in H. destruct H as [<-|[<-|[<-|[<-|[<-|[<-|[]]]]]]]; try (apply from_file, always_uses; cbn; tauto); [apply P; cbn; tauto|].
    apply (from_prelude_trait "Default"). cbn. tauto.
  - assert (U : is_unit m = true \/ is_unit m = false) by (destruct (is_unit m); auto). destruct U as [U|U]; rewrite U in H; [contradiction|]. cbn in H. destruct H as [<-|[<-|[<-|[]]]]; [apply P; cbn; tauto|..]; apply from_file, full_uses; auto; cbn; tauto.
  - destruct (u_info u); [|contradiction]. cbn in H. destruct H as [<-|[<-|[]]]; [apply from_file, always_uses; cbn; tauto|apply P; cbn; tauto].
Qed.
Lemma owned_found x : In x (owned_mentions u c d' m) -> available all x.
Proof.
  unfold owned_mentions. destruct (u_owned u) eqn:O; [|contradiction].
  assert (P : forall n, In n ["u8"; "str"] -> available all (prim n)).
  { intros n I. apply from_prelude. cbn in *. decompose [or] I; subst; tauto. }
  assert (F : forall n s, In (n, s) [("BytesReader", SBytesReader); ("Result", SResult); ("MessageInfo", SMessageInfo); ("MessageRead", SMessageRead);
                                     ("MessageWrite", SMessageWrite)] -> available all (MName n s) /\ available all (MTrait s)).
  { intros n s I. apply always_uses in I. split; [now apply from_file|now apply (from_file_trait n)]. }
  assert (T : forall n s, In (n, s) [("TryFrom", STryFrom); ("TryInto", STryInto)] -> available all (MName n s)).
  { intros n s I. apply (owned_uses O) in I. now apply from_file. }
  destruct (lifetime c d' m) eqn:L; intros H.
  - assert (U : is_unit m = false) by (destruct (is_unit m) eqn:U; [rewrite (unit_lifetime c d' m U) in L; discriminate|reflexivity]).
    apply in_app_iff in H. destruct H as [H|H].
    + cbn in H. destruct H as [<-|[<-|[<-|[<-|[<-|[<-|[<-|[<-|[<-|[<-|[<-|[<-|[]]]]]]]]]]]]].
      * now apply vec_found.
      * apply P. cbn. tauto.
      * apply from_prelude. cbn. tauto.
      * apply F. cbn. tauto.
      * destruct nostd_cases as [N|N].
        -- apply from_uses; [exact U|]. intros ms I. unfold common_uses. rewrite !in_app_iff. right. right. left. rewrite N. cbn [andb].
           assert (X : existsb (fun m => u_owned u && lifetime c d' m || existsb f_boxed (all_fields m)) ms = true).
           { apply existsb_exists. exists m. split; [exact I|]. now rewrite O, L. }
           rewrite X. now left.
        -- apply find_prelude; [exact Sound| |discriminate]. rewrite N. cbn. tauto.
      * apply F. cbn. tauto.
      * apply (F "MessageRead"). cbn. tauto.
      * apply T. cbn. tauto.
      * apply T. cbn. tauto.
      * apply from_file, full_uses; [exact U|cbn; tauto].
      * apply (F "MessageWrite"). cbn. tauto.
      * apply from_prelude. cbn. tauto.
    + destruct (u_info u); [|contradiction]. cbn in H. destruct H as [<-|[<-|[]]]; [apply F; cbn; tauto|apply P; cbn; tauto].
  - cbn in H. destruct H as [<-|[<-|[<-|[<-|[<-|[]]]]]]; [apply T; cbn; tauto|apply P; cbn; tauto|apply F; cbn; tauto|apply F; cbn; tauto|apply (F "MessageRead"); cbn; tauto].
Qed.
Lemma message_found x : In x (message_mentions u c d' m) -> available all x.
Proof.
  intros H. unfold message_mentions in H. rewrite !in_app_iff in H.
  repeat match type of H with _ \/ _ => destruct H as [H|H] end.
  - now apply fixed_found.
  - revert H. apply flat_found. intros f I y. intros H. apply (due_found f); [now apply visible_field|now apply (due_field_type c)].
  - revert H. apply flat_found. intros ((e, b), t) I y H. unfold const_code in I. apply in_map_iff in I. destruct I as (f & E & I). injection E as <- <- <-.
    apply filter_In in I. apply (due_found f); [left; apply I|now apply due_const].
  - destruct (u_getters u); [|contradiction]. revert H. apply flat_found. intros ((e, b), t) I y H. unfold getter_code in I. apply in_map_iff in I. destruct I as (f & E & I). injection E as <- <- <-.
    apply filter_In in I. apply (due_found f); [left; apply I|now apply due_getter].
  - destruct (message_must_generate_impl_default (d_syntax d') c m) eqn:D; [|contradiction]. destruct H as [<-|H]; [apply from_prelude; cbn; tauto|].
    revert H. apply flat_found. intros (e, t) I y H. unfold init_code in I. apply in_map_iff in I. destruct I as (f & E & I). injection E as <- <-.
    apply visible_field in I. destruct (due_init f c y H) as [X|(-> & M)]; [now apply (due_found f)|]. pose proof (maps_are_maps i m f G I M) as T.
    apply from_uses; [now apply (has_field f)|]. intros ms Im. apply (map_uses f ms I T Im). destruct (u_hashbrown u) eqn:HB; [reflexivity|].
    destruct nostd_cases as [N|N]; [|now rewrite N]. rewrite (ns_map _ _ _ (Nostd N) HB i m f G D I) in M. discriminate.
  - revert H. apply flat_found. intros e I y H. unfold read_code in I. apply in_app_iff in I. destruct I as [I|I].
    + apply in_map_iff in I. destruct I as (f & <- & I). apply (due_found f); [now apply visible_field|now apply due_field_read].
    + apply in_flat_map in I. destruct I as (o & Io & I). apply in_map_iff in I. destruct I as (f & <- & I). apply (due_found f); [now apply (visible_variant o)|now apply (due_variant_read o)].
  - revert H. apply flat_found. intros ((e, b), t) I y H. unfold size_code in I. apply in_app_iff in I. destruct I as [I|I].
    + apply in_map_iff in I. destruct I as (f & E & I). injection E as <- <- <-. apply (due_found f); [now apply visible_field|now apply (due_field_size c)].
    + apply in_flat_map in I. destruct I as (o & Io & I). apply in_map_iff in I. destruct I as (f & E & I). injection E as <- <- <-.
      apply (due_found f); [now apply (visible_variant o)|now apply due_variant_size].
  - revert H. apply flat_found. intros ((e, b), t) I y H. unfold write_code in I. apply in_app_iff in I. destruct I as [I|I].
    + apply in_map_iff in I. destruct I as (f & E & I). injection E as <- <- <-. apply (due_found f); [now apply visible_field|now apply (due_field_write c)].
    + apply in_flat_map in I. destruct I as (o & Io & I). apply in_map_iff in I. destruct I as (f & E & I). injection E as <- <- <-.
      apply (due_found f); [now apply (visible_variant o)|now apply due_variant_write].
  - now apply owned_found.
Qed.
Lemma oneof_found o x : In o (m_oneofs m) -> In x (oneof_mentions c o) -> available all x.
Proof.
  intros Ho [<-|H]; [apply from_prelude; cbn; tauto|]. revert H. apply flat_found. intros f I y H.
  apply (due_found f); [now apply (visible_variant o)|now apply due_variant_type].
Qed.
End Scopes.

Lemma enum_found scopes x : (forall sc, In sc scopes -> sound sc) -> In x enum_mentions -> available (scopes ++ [prelude (u_nostd u)]) x.
Proof.
  intros S H. cbn in H. destruct H as [<-|[<-|[<-|[<-|[<-|[]]]]]]; first [apply (find_trait _ "Default"), in_prelude; cbn; tauto|
    (unfold prim; apply find_prelude; [exact S|apply in_prelude; cbn; tauto|discriminate])].
Qed.

Lemma all_found : names_found u c d' super i m.
Proof.
  destruct at_scopes as (scopes & E & Sn & F & U). assert (SI : forall sc, In sc (inside u c d' m scopes) -> sound sc).
  { intros sc [<-|I]; [now apply (sound_module i)|]. destruct (globs_super m); [auto|contradiction]. }
  constructor; [eauto|..].
  - intros sc x E' H. rewrite E in E'. injection E' as <-. now apply message_found.
  - intros sc o x E' Ho H. rewrite E in E'. injection E' as <-.
    assert (GS : globs_super m = true) by (unfold globs_super; destruct (m_messages m), (m_oneofs m); try reflexivity; contradiction).
    unfold inside in *. rewrite GS in *. apply (oneof_found (module_scope u c d' m :: scopes)) with (o := o); auto.
    + now right.
    + intros K. destruct (U K) as (x' & ms & A & B). exists x', ms. split; [now right|exact B].
  - intros sc e x E' _ H. rewrite E in E'. injection E' as <-. now apply enum_found.
Qed.
End At.
End Found.

(** The parser only yields the borrowed forms of [string] and [bytes]
    (parser.rs:234-235). *)
Lemma read_borrowed check fs search n f d : read_proto check fs search n f = ROk d -> borrowed d.
Proof.
  intros R. apply read_shaped in R. intros i m g G H.
  assert (P : forall t, parsed_type t -> owns_text t = false).
  { induction 1 as [t k S|x _|k v _ Hk _ Hv]; [|reflexivity|cbn; now rewrite Hk, Hv]. unfold scalar_type in S. cbn in S. decompose [or] S; try contradiction;
      match goal with E : (_, _) = (_, _) |- _ => injection E as _ <-; reflexivity end. }
  apply P. rewrite get_message_eq in G. pose proof (shaped_get _ (proj1 R) i m G) as S. destruct S as [Hf Ho _ _]. rewrite Forall_forall in Hf, Ho. destruct H as [H|(o & I & H)].
  - now destruct (Hf g H) as (_ & T & _).
  - specialize (Ho o I). rewrite Forall_forall in Ho. now destruct (Ho g H) as (_ & T & _).
Qed.

(** C69.  With the use lines that pb-rs writes, every name that the code for a
    message or an enum of the file takes from elsewhere is found and means what
    it should, and the traits of the methods called are in scope. *)
Theorem C69_names_found_partial : forall check fs search n f u c d d' super,
  read_proto check fs search n f = ROk d -> protobuf_rules d -> process c d = GOk d' ->
  no_clash u c d' super -> (u_nostd u = true -> nostd_supported u c d') ->
  (forall i m, get_message d' i = Some m -> m_imported m = false -> names_found u c d' super i m) /\
  (forall x, In x enum_mentions -> available (file_scopes u c d' super ++ [prelude (u_nostd u)]) x).
Proof.
  intros check fs search n f u c d d' super Read Rules Acc Clash Nostd. pose proof (read_borrowed _ _ _ _ _ _ Read) as Borrowed.
  assert (P : forall i m x, get_message d' i = Some m -> In x (m_messages m) -> m_imported x = m_imported m).
  { destruct (read_placed _ _ _ _ _ _ Read) as (R & _). destruct (read_desc_placed d R) as (P & _). intros i m' x' G I.
    apply In_nth_error in I. destruct I as (k & Nk).
    assert (Gx : get_message d' (i ++ [k]) = Some x') by (rewrite get_message_eq in G |- *; now apply (get_in_child _ _ m')).
    pose proof (process_head c d d' Acc i) as Rm. rewrite G in Rm. inversion Rm as [|m y [_ _ E _ _] A B]; subst.
    pose proof (process_head c d d' Acc (i ++ [k])) as Rx. rewrite Gx in Rx. inversion Rx as [|x y [_ _ E' _ _] A' B']; subst.
    rewrite E, E'. apply (P i m (eq_sym A)). symmetry in A, A'. rewrite get_message_eq in A, A'. rewrite (get_in_app _ _ _ _ A) in A' by discriminate. cbn in A'.
    destruct (nth_error (m_messages m) k) eqn:Z; [|discriminate]. injection A' as <-. now apply nth_error_In in Z. }
  split.
  - intros i m G I. now apply (all_found u c d d').
  - intros x H. apply (enum_found u c d'); [exact Nostd| |exact H]. intros sc I. apply (sound_file u c d d' super); auto.
Qed.
Print Assumptions C69_names_found_partial.

(** ** A case: borrowed and packed fields, maps, boxes, a oneof, nested
    messages and an import, with and without std, owned structs included *)
Definition uses_app : text := "syntax = ""proto2""; package app; import ""lib.proto""; message Node { message Part { optional Node node = 1; map<string, bytes> named = 2; } oneof body { Part part = 1; Node next = 2; string note = 3; } repeated fixed32 raw = 4 [packed = true]; optional lib.base.Color color = 5; repeated string tags = 6; map<int32, Part> parts = 7; } message Empty { enum Level { LOW = 0; } }".
Definition uses_lib : text := "syntax = ""proto2""; package lib.base; enum Color { RED = 0; } message Unused { optional bytes b = 1; }".
Definition uses_d : file_descriptor := Eval vm_compute in get_ok (read_two uses_app uses_lib).
Definition uses_d' : file_descriptor := Eval vm_compute in get_processed plain_config uses_d.
Definition all_options (nostd : bool) : uoptions := mkUses nostd false true true true.

(** how the hypotheses can be checked *)
Definition no_clash_b (u : uoptions) (c : config) (d : file_descriptor) (super : list text) : bool :=
  forallb (fun n => negb (mem_text n unguarded)) (file_items u c d)
  && forallb (fun pm : midx * message => m_imported (snd pm) || forallb (fun n => negb (mem_text n unguarded)) (module_items u c d (snd pm))) (all_messages d)
  && forallb (fun n => negb (mem_text n (map fst outside_names))) super.
Lemma no_clash_ok u c d super : no_clash_b u c d super = true -> no_clash u c d super.
Proof.
  intros H. unfold no_clash_b in H. apply andb_prop in H. destruct H as (H & H3). apply andb_prop in H. destruct H as (H1 & H2).
  rewrite forallb_forall in H1, H2, H3. constructor.
  - intros n I J. specialize (H1 n I). apply mem_text_in in J. now rewrite J in H1.
  - intros i m n G Im I J. apply all_messages_get in G. specialize (H2 _ G). cbn [snd] in H2. rewrite Im in H2. cbn [orb] in H2. rewrite forallb_forall in H2.
    specialize (H2 n I). apply mem_text_in in J. now rewrite J in H2.
  - intros n I J. specialize (H3 n I). apply mem_text_in in J. now rewrite J in H3.
Qed.
Definition supported_b (u : uoptions) (c : config) (d : file_descriptor) : bool :=
  forallb (fun pm : midx * message =>
    forallb (fun f => negb (owns_string (f_typ f)) && (negb (type_is_map (f_typ f)) || negb (owns_text (f_typ f)))) (all_fields (snd pm))
    && (u_hashbrown u || negb (message_must_generate_impl_default (d_syntax d) c (snd pm)) || forallb (fun f => negb (freq_is_map (f_freq f))) (all_fields (snd pm))))
    (all_messages d).
Lemma supported_ok u c d : supported_b u c d = true -> nostd_supported u c d.
Proof.
  intros H. unfold supported_b in H. rewrite forallb_forall in H. constructor.
  - intros i m f G I. apply all_messages_get in G. specialize (H _ G). apply andb_prop in H. destruct H as (H & _). rewrite forallb_forall in H.
    apply field_of_all in I. specialize (H _ I). apply andb_prop in H. now apply Bool.negb_true_iff.
  - intros i m f G I M. apply all_messages_get in G. specialize (H _ G). apply andb_prop in H. destruct H as (H & _). rewrite forallb_forall in H.
    apply field_of_all in I. specialize (H _ I). apply andb_prop in H. destruct H as (_ & H). rewrite M in H. now apply Bool.negb_true_iff.
  - intros E i m f G M I. apply all_messages_get in G. specialize (H _ G). apply andb_prop in H. destruct H as (_ & H). cbn [snd] in H. rewrite E, M in H.
    cbn [orb negb] in H. rewrite forallb_forall in H. apply field_of_all in I. specialize (H _ I). now apply Bool.negb_true_iff.
Qed.
(** a name that is found nowhere *)
Lemma not_found scopes n s : forallb (fun sc => negb (mem_text n (map fst sc))) scopes = true -> ~ resolves scopes n s.
Proof.
  intros H (pre & sc & post & E & _ & I & _). rewrite forallb_forall in H. specialize (H sc). rewrite E in H. specialize (H (in_elt _ _ _)).
  apply in_map with (f := fst) in I. cbn in I. apply mem_text_in in I. now rewrite I in H.
Qed.
(** a name that is declared twice in the innermost scope having it *)
Lemma not_unique sc rest n s s' : In (n, s') sc -> s' <> s -> ~ resolves (sc :: rest) n s.
Proof.
  intros I N (pre & x & post & E & P & _ & U). destruct pre as [|y pre].
  - injection E as <- _. apply N. now apply U.
  - injection E as <- _. inversion P as [|? ? X _]; subst. apply X. now apply in_map with (f := fst) in I.
Qed.

Example C69_case :
  read_two uses_app uses_lib = ROk uses_d /\ protobuf_rules uses_d /\ process plain_config uses_d = GOk uses_d' /\
  (forall b, no_clash (all_options b) plain_config uses_d' ["lib"] /\ nostd_supported (all_options b) plain_config uses_d' /\
   forall i m, get_message uses_d' i = Some m -> m_imported m = false -> names_found (all_options b) plain_config uses_d' ["lib"] i m) /\
  (exists m, get_message uses_d' [0; 0]%nat = Some m /\ m_imported m = false /\
   In (MName "KVMap" SKVMap) (message_mentions (all_options true) plain_config uses_d' m) /\
   In (MName "Box" SBox) (message_mentions (all_options true) plain_config uses_d' m) /\
   In (MName "Cow" SCow) (message_mentions (all_options true) plain_config uses_d' m)).
Proof.
  assert (R : read_two uses_app uses_lib = ROk uses_d) by (vm_compute; reflexivity).
  assert (P : protobuf_rules uses_d) by (apply rulesb_ok; vm_compute; reflexivity).
  assert (A : process plain_config uses_d = GOk uses_d') by (vm_compute; reflexivity).
  split; [exact R|]. split; [exact P|]. split; [exact A|]. split.
  - intros b. assert (C : no_clash (all_options b) plain_config uses_d' ["lib"]) by (apply no_clash_ok; destruct b; vm_compute; reflexivity).
    assert (S : nostd_supported (all_options b) plain_config uses_d') by (apply supported_ok; destruct b; vm_compute; reflexivity).
    split; [exact C|]. split; [exact S|]. exact (proj1 (C69_names_found_partial _ _ _ _ _ _ _ _ _ _ R P A C (fun _ => S))).
  - eexists. split; [reflexivity|]. split; [reflexivity|].
    repeat match goal with |- _ /\ _ => split end; vm_compute; tauto.
Qed.

(** ** Refutations *)

(** [--nostd --dont_use_cow]: [String] is not found, and the method
    [to_string] neither *)
Definition ns_d : file_descriptor := Eval vm_compute in get_ok (read_two "message M { optional string s = 1; }" "").
Definition ns_d' : file_descriptor := Eval vm_compute in get_processed cfgOwn ns_d.
Theorem C69_nostd_string_refuted : exists m sc, read_two "message M { optional string s = 1; }" "" = ROk ns_d /\
  process cfgOwn ns_d = GOk ns_d' /\ get_message ns_d' [0]%nat = Some m /\ scopes_of (all_options true) cfgOwn ns_d' [] [0]%nat = Some sc /\
  In (MName "String" SString) (message_mentions (all_options true) cfgOwn ns_d' m) /\
  ~ available (sc ++ [prelude true]) (MName "String" SString).
Proof.
  eexists. eexists. split; [vm_compute; reflexivity|]. split; [vm_compute; reflexivity|]. split; [reflexivity|]. split; [reflexivity|]. split.
  - vm_compute. tauto.
  - cbn [available]. apply not_found. vm_compute. reflexivity.
Qed.
Print Assumptions C69_nostd_string_refuted.

(** [--nostd] without [--hashbrown], a message with a map and a custom default:
    [Default::default] calls [HashMap::new()], which is not imported *)
Definition nm_text : text := "message M { required int32 a = 1 [default = 5]; map<int32, int32> m = 2; }".
Definition nm_d : file_descriptor := Eval vm_compute in get_ok (read_two nm_text "").
Definition nm_d' : file_descriptor := Eval vm_compute in get_processed cfgC nm_d.
Theorem C69_nostd_map_refuted : exists m sc, read_two nm_text "" = ROk nm_d /\
  process cfgC nm_d = GOk nm_d' /\ get_message nm_d' [0]%nat = Some m /\ scopes_of (all_options true) cfgC nm_d' [] [0]%nat = Some sc /\
  In (MName "HashMap" SHashMap) (message_mentions (all_options true) cfgC nm_d' m) /\
  ~ available (sc ++ [prelude true]) (MName "HashMap" SHashMap).
Proof.
  eexists. eexists. split; [vm_compute; reflexivity|]. split; [vm_compute; reflexivity|]. split; [reflexivity|]. split; [reflexivity|]. split.
  - vm_compute. tauto.
  - cbn [available]. apply not_found. vm_compute. reflexivity.
Qed.
Print Assumptions C69_nostd_map_refuted.

(** [--nostd --dont_use_cow], a map to bytes: the reader calls [to_owned], but
    [has_bytes_and_string] does not look into maps (types.rs:239-241), so the
    trait [ToOwned] is not imported *)
Definition nb_text : text := "message M { map<int32, bytes> m = 1; }".
Definition nb_d : file_descriptor := Eval vm_compute in get_ok (read_two nb_text "").
Definition nb_d' : file_descriptor := Eval vm_compute in get_processed cfgOwn nb_d.
Theorem C69_nostd_bytes_refuted : exists m sc, read_two nb_text "" = ROk nb_d /\
  process cfgOwn nb_d = GOk nb_d' /\ get_message nb_d' [0]%nat = Some m /\ scopes_of (all_options true) cfgOwn nb_d' [] [0]%nat = Some sc /\
  In (MTrait SToOwned) (message_mentions (all_options true) cfgOwn nb_d' m) /\
  ~ available (sc ++ [prelude true]) (MTrait SToOwned).
Proof.
  eexists. eexists. split; [vm_compute; reflexivity|]. split; [vm_compute; reflexivity|]. split; [reflexivity|]. split; [reflexivity|]. split.
  - vm_compute. tauto.
  - cbn [available]. intros (sc & n & I & K). vm_compute in I. decompose [or] I; try contradiction; subst sc; cbn in K; intuition discriminate.
Qed.
Print Assumptions C69_nostd_bytes_refuted.

(** a message named [MessageRead]: the struct and the imported trait have the
    same name (E0255); a message named [usize]: [fn get_size(&self) -> usize]
    is about the message *)
Theorem C69_message_name_refuted : forall n s, (n = "MessageRead" /\ s = SMessageRead) \/ (n = "usize" /\ s = SPrimitive "usize") ->
  exists d d' m sc, read_two ("message " ++ n ++ " { optional int32 a = 1; }")%string "" = ROk d /\
  process cfgC d = GOk d' /\ get_message d' [0]%nat = Some m /\ scopes_of (all_options false) cfgC d' [] [0]%nat = Some sc /\
  In (MName n s) (message_mentions (all_options false) cfgC d' m) /\ ~ available (sc ++ [prelude false]) (MName n s).
Proof.
  intros n s [(-> & ->)|(-> & ->)]; eexists; eexists; eexists; eexists; (split; [vm_compute; reflexivity|]; split; [vm_compute; reflexivity|];
    split; [reflexivity|]; split; [reflexivity|]; split; [vm_compute; tauto|]);
    cbn [available app]; apply (not_unique _ _ _ _ SGenerated); try discriminate; vm_compute; tauto.
Qed.
Print Assumptions C69_message_name_refuted.
