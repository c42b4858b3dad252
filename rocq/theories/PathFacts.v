(** Facts about the paths of the generated code. *)
From Coq Require Import String Ascii Arith Lia.
From Verif Require Import Base Schema Gen Keywords Modules KeywordFacts ModuleFacts Passes GenCheck Cycles CycleFacts Paths.
Import StringSyntax.
Local Open Scope string_scope.
Local Open Scope list_scope.

Fixpoint emit_from (i : midx) (k : nat) (l : list message) : ritems :=
  match l with [] => [] | x :: l' => emit_message (i ++ [k]) x ++ emit_from i (S k) l' end.
Definition sub_items (i : midx) (m : message) : ritems :=
  emit_from i O (m_messages m)
  ++ map (fun '(k, e) => (en_name e, IEnum (mkEidx i k))) (number_from 0 (m_enums m))
  ++ map (fun '(k, o) => (("OneOf" ++ o_name o)%string, IOneof i k)) (number_from 0 (m_oneofs m)).
Definition modn (m : message) : text := ("mod_" ++ m_name m)%string.
Definition globs (m : message) : bool := match m_messages m, m_oneofs m with [], [] => false | _, _ => true end.
Lemma emit_message_eq i m : emit_message i m = (m_name m, IMessage i) ::
  match m_messages m, m_enums m, m_oneofs m with [], [], [] => [] | _, _, _ => [(modn m, IMod (globs m) (sub_items i m))] end.
Proof.
  assert (Q : forall l k, (fix go (k : nat) (l : list message) : ritems :=
              match l with [] => [] | x :: l' => emit_message (i ++ [k]) x ++ go (S k) l' end) k l = emit_from i k l).
  { induction l as [|x l IH]; intros k; [reflexivity|]. cbn. now rewrite IH. }
  destruct m as [n fs os ? ? ? ? ms es ? ?]. cbn [emit_message m_name m_messages m_enums m_oneofs]. unfold sub_items, globs, modn.
  cbn [m_name m_messages m_enums m_oneofs]. rewrite <- (Q ms O). reflexivity.
Qed.
Lemma emit_mod i m : (m_messages m <> [] \/ m_enums m <> [] \/ m_oneofs m <> []) -> In (modn m, IMod (globs m) (sub_items i m)) (emit_message i m).
Proof.
  rewrite emit_message_eq. intros H. right. destruct (m_messages m), (m_enums m), (m_oneofs m); try (now left). intuition congruence.
Qed.
Lemma emit_from_in i l : forall k n x, nth_error l n = Some x -> incl (emit_message (i ++ [(k + n)%nat]) x) (emit_from i k l).
Proof.
  induction l as [|y l IH]; intros k [|n] x H; cbn in H; try discriminate; cbn [emit_from]; intros z Hz; apply in_app_iff.
  - injection H as ->. left. now rewrite Nat.add_0_r in Hz.
  - right. apply (IH (S k) n x H). now replace (S k + n)%nat with (k + S n)%nat by lia.
Qed.
Lemma in_number_from {A} (l : list A) : forall i k x, In (k, x) (number_from i l) <-> exists n, k = (i + n)%nat /\ nth_error l n = Some x.
Proof.
  induction l as [|y l IH]; intros i k x; cbn.
  - split; [intros []|]. intros ([|n] & _ & E); discriminate.
  - rewrite IH. split.
    + intros [E|(n & -> & E)]; [injection E as -> ->; exists O; split; [lia|reflexivity]|exists (S n); split; [lia|exact E]].
    + intros ([|n] & -> & E); [left; injection E as ->; f_equal; lia|right; exists n; split; [lia|exact E]].
Qed.
Lemma sub_enum i m k e : nth_error (m_enums m) k = Some e -> In (en_name e, IEnum (mkEidx i k)) (sub_items i m).
Proof.
  intros H. unfold sub_items. rewrite !in_app_iff. right. left. apply in_map_iff. exists (k, e). split; [reflexivity|]. apply in_number_from. exists k. auto.
Qed.
Lemma sub_oneof i m k o : nth_error (m_oneofs m) k = Some o -> In (("OneOf" ++ o_name o)%string, IOneof i k) (sub_items i m).
Proof.
  intros H. unfold sub_items. rewrite !in_app_iff. right. right. apply in_map_iff. exists (k, o). split; [reflexivity|]. apply in_number_from. exists k. auto.
Qed.

(** ** Looking things up *)
Lemma assoc_in {A} n (a : A) l : NoDup (map fst l) -> In (n, a) l -> assoc n l = Some a.
Proof.
  induction l as [|(n', a') l IH]; intros N H; [contradiction|]. cbn in *. inversion N as [|? ? Nn Nl]; subst.
  destruct H as [E|H].
  - injection E as -> ->. now rewrite String.eqb_refl.
  - destruct (String.eqb_spec n n') as [->|_]; [|auto]. contradiction Nn. apply in_map_iff. exists (n', a). auto.
Qed.
Lemma assoc_some {A} n (a : A) l : assoc n l = Some a -> In n (map fst l).
Proof.
  induction l as [|(n', a') l IH]; cbn; [discriminate|]. destruct (String.eqb_spec n n') as [->|_]; auto.
Qed.
Lemma assoc_none {A} n (l : list (text * A)) : ~ In n (map fst l) -> assoc n l = None.
Proof. intros H. destruct (assoc n l) as [a|] eqn:E; [|reflexivity]. now apply assoc_some in E. Qed.
Lemma walk_app p : forall q it, walk it (p ++ q) = match walk it p with Some it' => walk it' q | None => None end.
Proof.
  induction p as [|s p IH]; intros q it; [now destruct (walk it q)|]. cbn. destruct it; try reflexivity.
  destruct (assoc s items); [apply IH|reflexivity].
Qed.
Lemma walk_cons g items s p : walk (IMod g items) (s :: p) = match assoc s items with Some it => walk it p | None => None end.
Proof. reflexivity. Qed.
Lemma walk_mod_flag g g' items s p : walk (IMod g items) (s :: p) = walk (IMod g' items) (s :: p).
Proof. reflexivity. Qed.

(** no module declares a name twice *)
Definition distinct (items : ritems) : Prop :=
  forall path g sub, walk (IMod false items) path = Some (IMod g sub) -> NoDup (map fst sub).
Lemma distinct_here items : distinct items -> NoDup (map fst items).
Proof. intros H. exact (H [] _ _ eq_refl). Qed.
Lemma distinct_sub items s g sub : distinct items -> assoc s items = Some (IMod g sub) -> distinct sub.
Proof.
  intros H E path g' sub' W. destruct path as [|t path].
  - injection W as _ <-. apply (H [s] g sub). cbn. now rewrite E.
  - apply (H (s :: t :: path) g' sub'). rewrite walk_cons, E. exact W.
Qed.

(** the descendant of a message at an index, and the modules that lead to it *)
Fixpoint below (m : message) (i : midx) : option message :=
  match i with
  | [] => Some m
  | k :: rest => match nth_error (m_messages m) k with Some x => below x rest | None => None end
  end.
Fixpoint mods_below (m : message) (i : midx) : list text :=
  match i with
  | [] => []
  | k :: rest => modn m :: match nth_error (m_messages m) k with Some x => mods_below x rest | None => [] end
  end.
Lemma get_below l : forall i k, get_in l (k :: i) = match nth_error l k with Some m => below m i | None => None end.
Proof.
  intros i; revert l; induction i as [|k' i IH]; intros l k; cbn [get_in below]; destruct (nth_error l k) as [m|]; try reflexivity.
  change (get_in (m_messages m) (k' :: i) = below m (k' :: i)). rewrite IH. reflexivity.
Qed.
Lemma mods_in_below l : forall i k m, nth_error l k = Some m -> mods_in l (k :: i) = mods_below m i.
Proof.
  intros i; revert l; induction i as [|k' i IH]; intros l k m H; [reflexivity|].
  change (mods_in l (k :: k' :: i)) with (match nth_error l k with Some m => modn m :: mods_in (m_messages m) (k' :: i) | None => [] end).
  rewrite H. cbn [mods_below]. f_equal. destruct (nth_error (m_messages m) k') as [x|] eqn:N; [exact (IH (m_messages m) k' x N)|].
  cbn [mods_in]. rewrite N. now destruct i.
Qed.

(** down to a descendant: its item is there, and its own module *)
Lemma walk_below rest : forall g0 i m items m', incl (emit_message i m) items -> distinct items -> below m rest = Some m' ->
  exists g items', walk (IMod g0 items) (mods_below m rest) = Some (IMod g items') /\
    incl (emit_message (i ++ rest) m') items' /\ distinct items'.
Proof.
  induction rest as [|k rest IH]; intros g0 i m items m' Inc D B; cbn [below mods_below] in *.
  - injection B as <-. exists g0, items. rewrite app_nil_r. auto.
  - destruct (nth_error (m_messages m) k) as [x|] eqn:N; [|discriminate].
    assert (A : assoc (modn m) items = Some (IMod (globs m) (sub_items i m))).
    { apply assoc_in; [now apply distinct_here|]. apply Inc, emit_mod. left. intros E. rewrite E in N. destruct k; discriminate. }
    assert (Inc' : incl (emit_message (i ++ [k]) x) (sub_items i m)).
    { intros z Hz. unfold sub_items. apply in_app_iff. left. now apply (emit_from_in i (m_messages m) 0 k x N). }
    destruct (IH (globs m) (i ++ [k]) x (sub_items i m) m' Inc' (distinct_sub _ _ _ _ D A) B) as (g & items' & W & I' & D').
    exists g, items'. rewrite <- app_assoc in I'. split; [|auto]. rewrite walk_cons, A. exact W.
Qed.
(** all of the modules on the way see the one around them *)
Fixpoint globbed (items : ritems) (path : list text) : Prop :=
  match path with
  | [] => True
  | s :: rest => exists sub, assoc s items = Some (IMod true sub) /\ globbed sub rest
  end.
Lemma globbed_below rest : forall i m items m', incl (emit_message i m) items -> distinct items -> below m rest = Some m' ->
  globbed items (mods_below m rest) /\
  (m_oneofs m' <> [] -> globbed items (mods_below m rest ++ [modn m'])).
Proof.
  induction rest as [|k rest IH]; intros i m items m' Inc D B; cbn [below mods_below] in *.
  - injection B as <-. split; [exact I|]. intros O. cbn. exists (sub_items i m). split; [|exact I].
    assert (Gt : globs m = true) by (unfold globs; destruct (m_messages m), (m_oneofs m); congruence).
    change (assoc (modn m) items = Some (IMod true (sub_items i m))). rewrite <- Gt.
    apply assoc_in; [now apply distinct_here|]. apply Inc, emit_mod; auto.
  - destruct (nth_error (m_messages m) k) as [x|] eqn:N; [|discriminate].
    assert (Nm : m_messages m <> []) by (intros E; rewrite E in N; destruct k; discriminate).
    assert (A : assoc (modn m) items = Some (IMod true (sub_items i m))).
    { assert (Gt : globs m = true) by (unfold globs; destruct (m_messages m); congruence). rewrite <- Gt.
      apply assoc_in; [now apply distinct_here|]. apply Inc, emit_mod; auto. }
    assert (Inc' : incl (emit_message (i ++ [k]) x) (sub_items i m)).
    { intros z Hz. unfold sub_items. apply in_app_iff. left. now apply (emit_from_in i (m_messages m) 0 k x N). }
    destruct (IH (i ++ [k]) x (sub_items i m) m' Inc' (distinct_sub _ _ _ _ D A) B) as (W1 & W2).
    split; [|intros O]; cbn; exists (sub_items i m); auto.
Qed.

(** the names declared in a file, at any depth, and below the top *)
Definition declared (items : ritems) (n : text) : Prop :=
  exists path g sub, walk (IMod false items) path = Some (IMod g sub) /\ In n (map fst sub).
Definition declared_below (items : ritems) (n : text) : Prop :=
  exists s path g sub, walk (IMod false items) (s :: path) = Some (IMod g sub) /\ In n (map fst sub).

Lemma inner_scopes_spec path : forall items outer, globbed items path ->
  exists inner, inner_scopes items outer path = Some (inner ++ items :: outer) /\
    forall sc n, In sc inner -> In n (map fst sc) -> declared_below items n.
Proof.
  induction path as [|s path IH]; intros items outer H; cbn [inner_scopes globbed] in *.
  - exists []. split; [reflexivity|]. intros sc n [].
  - destruct H as (sub & A & H). rewrite A. destruct (IH sub (items :: outer) H) as (inner & E & K).
    exists (inner ++ [sub]). rewrite <- app_assoc. split; [exact E|]. intros sc n Hsc Hn. apply in_app_iff in Hsc.
    destruct Hsc as [Hsc|[<-|[]]].
    + destruct (K sc n Hsc Hn) as (t & p & g & sub' & W & Hn'). exists s, (t :: p), g, sub'. rewrite walk_cons, A. auto.
    + exists s, [], true, sub. rewrite walk_cons, A. auto.
Qed.

Lemma resolve_skip s rest inner : forall scs, (forall sc, In sc inner -> ~ In s (map fst sc)) ->
  resolve (inner ++ scs) (s :: rest) = resolve scs (s :: rest).
Proof.
  induction inner as [|sc inner IH]; intros scs H; [reflexivity|]. cbn [app resolve].
  rewrite (assoc_none s sc (H sc (or_introl eq_refl))). apply IH. intros sc' Hsc. apply H. now right.
Qed.
Lemma resolve_here items outer g s rest it : walk (IMod g items) (s :: rest) = Some it ->
  resolve (items :: outer) (s :: rest) = Some it.
Proof. rewrite walk_cons. cbn [resolve]. destruct (assoc s items); [auto|discriminate]. Qed.

(** a path relative to the file, and one relative to the output directory *)
Lemma resolve_relative root d stem path s rest it : globbed (emit_file d) path ->
  glob_target root d stem = Some root -> walk (IMod false (emit_file d)) (s :: rest) = Some it ->
  ~ declared_below (emit_file d) s ->
  exists scs, scopes_at root d stem path = Some scs /\ resolve scs (s :: rest) = Some it.
Proof.
  intros G T W N. unfold scopes_at. rewrite T. destruct (inner_scopes_spec path (emit_file d) [root] G) as (inner & E & K).
  exists (inner ++ emit_file d :: [root]). split; [exact E|]. rewrite resolve_skip; [now apply resolve_here with false|].
  intros sc Hsc Hs. apply N. now apply (K sc).
Qed.
Lemma resolve_absolute root d stem path s rest it : globbed (emit_file d) path ->
  glob_target root d stem = Some root -> walk (IMod false root) (s :: rest) = Some it ->
  ~ declared (emit_file d) s ->
  exists scs, scopes_at root d stem path = Some scs /\ resolve scs (s :: rest) = Some it.
Proof.
  intros G T W N. unfold scopes_at. rewrite T. destruct (inner_scopes_spec path (emit_file d) [root] G) as (inner & E & K).
  exists (inner ++ emit_file d :: [root]). split; [exact E|]. rewrite resolve_skip.
  - change (emit_file d :: [root]) with ([emit_file d] ++ [root]). rewrite resolve_skip; [now apply resolve_here with false|].
    intros sc [<-|[]] Hs. apply N. exists [], false, (emit_file d). auto.
  - intros sc Hsc Hs. apply N. destruct (K sc s Hsc Hs) as (t & p & g & sub & W' & H'). exists (t :: p), g, sub. auto.
Qed.

(** ** The place of the file *)
Definition segments (s : text) : list text := filter (fun p => negb (String.eqb p "")) (split_on "." s).
Definition plain_package (s : text) : Prop := s = "" \/ Forall (fun p => p <> "" /\ sanitize_keyword p = p) (split_on "." s).

Lemma own_path_plain package stem : plain_package package ->
  own_path package stem = if String.eqb package "" then [stem] else split_on "." package.
Proof.
  intros [->|H]; [reflexivity|]. assert (Ne : package <> "") by (intros ->; cbn in H; inversion H as [|? ? (A & _)]; congruence).
  destruct (String.eqb_spec package "") as [|_]; [contradiction|]. unfold own_path.
  destruct (contains_char "." package) eqn:Cd.
  - destruct (rfind_char "." package) as [i|] eqn:R; [|apply rfind_none in R; congruence].
    apply rfind_some in R. destruct R as (a & b & -> & _ & Nb). rewrite split_package_dot by exact Nb.
    rewrite split_app_gen in H. rewrite split_app_gen. rewrite (split_none "." b Nb) in *. apply Forall_app in H. destruct H as (Ha & Hb).
    inversion Hb as [|? ? (B1 & B2) _]; subst. destruct (String.eqb_spec b "") as [|_]; [contradiction|].
    destruct (String.eqb_spec a "") as [->|_]; [cbn in Ha; inversion Ha as [|? ? (A & _)]; congruence|]. now rewrite B2.
  - rewrite split_package_no_dot by exact Cd. rewrite (split_none "." package Cd) in *. inversion H as [|? ? (B1 & B2) _]; subst.
    destruct (String.eqb_spec package "") as [|_]; [contradiction|]. cbn. now rewrite B2.
Qed.
Lemma glob_target_root root d stem : plain_package (d_package d) -> glob_target root d stem = Some root.
Proof.
  intros H. unfold glob_target. rewrite (own_path_plain _ _ H). unfold imports_depth.
  destruct (String.eqb_spec (d_package d) "") as [->|N]; [reflexivity|].
  pose proof (split_on_nonempty "." (d_package d)) as Sn. generalize dependent (split_on "." (d_package d)). intros l Sn.
  destruct (length l) as [|n] eqn:L; [destruct l; [contradiction|discriminate]|].
  destruct (Nat.ltb_spec (S n) (S n)) as [X|_]; [lia|]. rewrite Nat.sub_diag. reflexivity.
Qed.

(** ** Modules of nested items *)
Definition child_module (m : message) : text := (m_module m ++ ".mod_" ++ m_name m)%string.
(** what [set_package] (types.rs:1992-2019) and [set_imported] establish *)
Definition placed_at (d : file_descriptor) : Prop := forall i m, get_message d i = Some m ->
  (forall x, In x (m_messages m) -> m_module x = child_module m /\ m_imported x = m_imported m) /\
  (forall e, In e (m_enums m) -> en_module e = child_module m /\ en_imported e = m_imported m) /\
  (forall o, In o (m_oneofs m) -> o_module o = child_module m /\ o_imported o = m_imported m).
Definition no_dot (n : text) : Prop := contains_char "." n = false.

Lemma segments_child m : no_dot (m_name m) -> segments (child_module m) = segments (m_module m) ++ [modn m].
Proof.
  intros N. unfold segments, child_module, modn. change (".mod_" ++ m_name m)%string with (String "." ("mod_" ++ m_name m)%string).
  rewrite split_app_gen, filter_app. f_equal. rewrite split_none; [reflexivity|]. cbn. exact N.
Qed.

Section Refer.
Variables (root : ritems) (d : file_descriptor) (stem : text) (own : list text).
Hypothesis Placed : placed_at d.
Hypothesis Dots : forall i m, get_message d i = Some m -> no_dot (m_name m).
Hypothesis OwnM : forall k m, nth_error (d_messages d) k = Some m -> m_imported m = false -> segments (m_module m) = own.
Hypothesis OwnE : forall k e, nth_error (d_enums d) k = Some e -> en_imported e = false -> segments (en_module e) = own.
Hypothesis Pkg : plain_package (d_package d).
Hypothesis Own : if String.eqb (d_package d) "" then length own = 1%nat else own = split_on "." (d_package d).
Hypothesis RootOwn : exists g, walk (IMod false root) (own_path (d_package d) stem) = Some (IMod g (emit_file d)).
Hypothesis Dist : distinct (emit_file d).
Hypothesis ShadowRel : d_package d = "" -> forall n, In n (map fst (emit_file d)) -> ~ declared_below (emit_file d) n.
Hypothesis ShadowOwn : d_package d <> "" -> forall s l, own = s :: l -> ~ declared (emit_file d) s.

(** the imported items are where their modules say, and the names of the
    modules mean them *)
Definition message_laid (k : nat) : Prop := forall m, nth_error (d_messages d) k = Some m -> m_imported m = true ->
  (exists s l, segments (m_module m) = s :: l /\ ~ declared (emit_file d) s) /\
  exists g items, walk (IMod false root) (segments (m_module m)) = Some (IMod g items) /\ incl (emit_message [k] m) items /\ distinct items.
Definition enum_laid (k : nat) : Prop := forall e, nth_error (d_enums d) k = Some e -> en_imported e = true ->
  (exists s l, segments (en_module e) = s :: l /\ ~ declared (emit_file d) s) /\
  exists g items, walk (IMod false root) (segments (en_module e)) = Some (IMod g items) /\ In (en_name e, IEnum (mkEidx [] k)) items /\ distinct items.
Definition laid (i : midx) : Prop := match i with [] => True | k :: _ => message_laid k end.

Definition reaches (place path : list text) (it : ritem) : Prop :=
  exists scs, scopes_at root d stem place = Some scs /\ resolve scs path = Some it.

Lemma reach_own place p it : globbed (emit_file d) place -> p <> [] -> walk (IMod false (emit_file d)) p = Some it ->
  reaches place (skipn (if String.eqb (d_package d) "" && true then 1 else 0) own ++ p) it.
Proof.
  intros G Np W. destruct p as [|s rest]; [contradiction|]. pose proof (glob_target_root root d stem Pkg) as T.
  pose proof (own_path_plain (d_package d) stem Pkg) as OP. destruct RootOwn as (g & RO). rewrite OP in RO. destruct (String.eqb_spec (d_package d) "") as [E|E].
  - destruct own as [|x [|y l]]; try discriminate. cbn [andb skipn app]. apply resolve_relative; auto. apply (ShadowRel E).
    rewrite walk_cons in W. destruct (assoc s (emit_file d)) as [a|] eqn:A; [|discriminate]. eapply assoc_some, A.
  - rewrite <- Own in RO. cbn [andb skipn]. assert (W' : walk (IMod false root) (own ++ s :: rest) = Some it) by (rewrite walk_app, RO; exact W).
    destruct own as [|x l] eqn:Eo; [exfalso; symmetry in Own; now apply split_on_nonempty in Own|]. cbn [app] in *.
    apply resolve_absolute; auto. now apply (ShadowOwn E x l).
Qed.
Lemma reach_imported place S p it g items : globbed (emit_file d) place -> (exists s l, S = s :: l /\ ~ declared (emit_file d) s) ->
  walk (IMod false root) S = Some (IMod g items) -> walk (IMod g items) p = Some it -> reaches place (S ++ p) it.
Proof.
  intros G (s & l & -> & N) W W'. pose proof (glob_target_root root d stem Pkg) as T. cbn [app].
  apply resolve_absolute; auto. change (s :: l ++ p) with ((s :: l) ++ p). now rewrite walk_app, W.
Qed.

Lemma emit_file_in k m : nth_error (d_messages d) k = Some m -> m_imported m = false -> incl (emit_message [k] m) (emit_file d).
Proof.
  intros N I z Hz. unfold emit_file. apply in_app_iff. right. apply in_flat_map. exists (k, m). split; [|now rewrite I].
  apply in_number_from. exists k. auto.
Qed.
Lemma emit_file_enum k e : nth_error (d_enums d) k = Some e -> en_imported e = false -> In (en_name e, IEnum (mkEidx [] k)) (emit_file d).
Proof.
  intros N I. unfold emit_file. apply in_app_iff. left. apply in_flat_map. exists (k, e). split; [|rewrite I; now left].
  apply in_number_from. exists k. auto.
Qed.

(** the module and the origin of a descendant *)
Lemma placed_below rest : forall i m m', get_message d i = Some m -> below m rest = Some m' ->
  segments (m_module m') = segments (m_module m) ++ mods_below m rest /\ m_imported m' = m_imported m /\ get_message d (i ++ rest) = Some m'.
Proof.
  induction rest as [|k rest IH]; intros i m m' G B; cbn [below mods_below] in *.
  - injection B as <-. now rewrite !app_nil_r.
  - destruct (nth_error (m_messages m) k) as [x|] eqn:N; [|discriminate].
    destruct (Placed i m G) as (P & _). destruct (P x (nth_error_In _ _ N)) as (M & I).
    assert (Gx : get_message d (i ++ [k]) = Some x) by (rewrite get_message_eq in G |- *; now apply (get_in_child _ _ m)).
    destruct (IH (i ++ [k]) x m' Gx B) as (S & I' & G'). rewrite <- app_assoc in G'. split; [|split; [congruence|exact G']].
    rewrite S, M, segments_child by exact (Dots i m G). now rewrite <- app_assoc.
Qed.
Lemma split_index i m : get_message d i = Some m -> exists k rest top, i = k :: rest /\ nth_error (d_messages d) k = Some top /\
  below top rest = Some m /\ mods d i = mods_below top rest /\ segments (m_module m) = segments (m_module top) ++ mods_below top rest /\
  m_imported m = m_imported top.
Proof.
  intros G. destruct i as [|k rest]; [discriminate|]. pose proof G as G0. rewrite get_message_eq, get_below in G. destruct (nth_error (d_messages d) k) as [top|] eqn:N; [|discriminate].
  assert (Gk : get_message d [k] = Some top) by (rewrite get_message_eq; cbn; now rewrite N).
  destruct (placed_below rest [k] top m Gk G) as (S & I & _). exists k, rest, top. repeat (split; [assumption || reflexivity|]).
  split; [|auto]. unfold mods. now apply mods_in_below.
Qed.

(** the places where code for a message is written *)
Lemma places_globbed i m : get_message d i = Some m -> m_imported m = false ->
  globbed (emit_file d) (mods d i) /\ (m_oneofs m <> [] -> globbed (emit_file d) (mods d i ++ [modn m])).
Proof.
  intros G I. destruct (split_index i m G) as (k & rest & top & -> & N & B & -> & _ & E).
  apply (globbed_below rest [k] top (emit_file d) m); auto. apply emit_file_in; congruence.
Qed.

(** from a place to an item declared next to, or below, a message *)
Lemma reach_target place i m q it : globbed (emit_file d) place -> laid i -> get_message d i = Some m -> q <> [] ->
  (forall g items, incl (emit_message i m) items -> distinct items -> walk (IMod g items) q = Some it) ->
  reaches place (skipn (if String.eqb (d_package d) "" && negb (m_imported m) then 1 else 0) (segments (m_module m)) ++ q) it.
Proof.
  intros Gl La G Nq H. destruct (split_index i m G) as (k & rest & top & -> & N & B & _ & -> & ->). destruct (m_imported top) eqn:I.
  - rewrite Bool.andb_false_r. cbn [skipn]. destruct (La top N I) as (Sh & g & items & W & Inc & D).
    destruct (walk_below rest g [k] top items m Inc D B) as (g' & items' & W' & Inc' & D').
    rewrite <- app_assoc. apply reach_imported with g items; auto. rewrite walk_app, W'. now apply H.
  - rewrite (OwnM k top N I).
    replace (skipn (if String.eqb (d_package d) "" && negb false then 1 else 0) (own ++ mods_below top rest))
      with (skipn (if String.eqb (d_package d) "" && true then 1 else 0) own ++ mods_below top rest).
    + rewrite <- app_assoc. apply reach_own; [exact Gl|destruct (mods_below top rest); [exact Nq|discriminate]|].
      destruct (walk_below rest false [k] top (emit_file d) m (emit_file_in k top N I) Dist B) as (g' & items' & W' & Inc' & D').
      rewrite walk_app, W'. now apply H.
    + cbn [negb]. destruct (String.eqb (d_package d) ""); [|reflexivity]. destruct own as [|x l]; [discriminate|reflexivity].
Qed.

Lemma module_path_segments module imported package : module_path module imported package =
  skipn (if String.eqb package "" && negb imported then 1 else 0) (segments module).
Proof. reflexivity. Qed.

Theorem message_reached place i m : globbed (emit_file d) place -> laid i -> get_message d i = Some m ->
  reaches place (message_path d m) (IMessage i).
Proof.
  intros Gl La G. unfold message_path. rewrite module_path_segments. apply (reach_target place i m [m_name m]); [exact Gl|exact La|exact G|discriminate|].
  intros g items Inc D. rewrite walk_cons, (assoc_in (m_name m) (IMessage i) items); [reflexivity|now apply distinct_here|].
  apply Inc. rewrite emit_message_eq. now left.
Qed.

Lemma skipn_snoc (l : list text) n x : (n <= length l)%nat -> skipn n (l ++ [x]) = skipn n l ++ [x].
Proof. intros H. rewrite skipn_app. replace (n - length l)%nat with O by lia. reflexivity. Qed.
Lemma own_long i m : get_message d i = Some m ->
  ((if String.eqb (d_package d) "" && negb (m_imported m) then 1 else 0) <= length (segments (m_module m)))%nat.
Proof.
  intros G. destruct (split_index i m G) as (k & rest & top & -> & N & B & _ & -> & ->). destruct (m_imported top) eqn:I.
  - rewrite Bool.andb_false_r. lia.
  - rewrite (OwnM k top N I), app_length. destruct (String.eqb (d_package d) ""); cbn; lia.
Qed.

(** from a place to an item in the module of a message *)
Lemma reach_sub place i m n it module imported : globbed (emit_file d) place -> laid i -> get_message d i = Some m ->
  module = child_module m -> imported = m_imported m -> In (n, it) (sub_items i m) ->
  reaches place (module_path module imported (d_package d) ++ [n]) it.
Proof.
  intros Gl La G -> -> Hn. rewrite module_path_segments, (segments_child m (Dots i m G)), (skipn_snoc _ _ _ (own_long i m G)), <- app_assoc.
  apply (reach_target place i m ([modn m] ++ [n])); [exact Gl|exact La|exact G|discriminate|]. intros g items Inc D.
  assert (A : assoc (modn m) items = Some (IMod (globs m) (sub_items i m))).
  { apply assoc_in; [now apply distinct_here|]. apply Inc, emit_mod. unfold sub_items in Hn. rewrite !in_app_iff in Hn.
    destruct Hn as [Hn|[Hn|Hn]].
    - left. intros E. rewrite E in Hn. contradiction.
    - right. left. intros E. rewrite E in Hn. contradiction.
    - right. right. intros E. rewrite E in Hn. contradiction. }
  cbn [app]. rewrite walk_cons, A, walk_cons, (assoc_in n it (sub_items i m)); [reflexivity| |exact Hn].
  apply distinct_here, (distinct_sub items (modn m) (globs m)); assumption.
Qed.

Theorem enum_reached place q e : globbed (emit_file d) place -> match e_msg q with [] => enum_laid (e_pos q) | i => laid i end -> get_enum d q = Some e ->
  reaches place (enum_path d e) (IEnum q).
Proof.
  intros Gl La G. unfold get_enum in G. destruct q as (i, k). cbn [e_msg e_pos] in G, La. destruct i as [|i0 ir].
  - unfold enum_path. rewrite module_path_segments.
    assert (W : forall g items, In (en_name e, IEnum (mkEidx [] k)) items -> distinct items -> walk (IMod g items) [en_name e] = Some (IEnum (mkEidx [] k))).
    { intros g items Hin D. rewrite walk_cons, (assoc_in _ _ _ (distinct_here _ D) Hin). reflexivity. }
    destruct (en_imported e) eqn:I.
    + rewrite Bool.andb_false_r. cbn [skipn]. destruct (La e G I) as (Sh & g & items & R & Hin & D).
      apply reach_imported with g items; auto.
    + rewrite (OwnE k e G I). apply reach_own; [exact Gl|discriminate|]. apply W; [now apply emit_file_enum|exact Dist].
  - destruct (get_message d (i0 :: ir)) as [m|] eqn:Gm; [|discriminate]. destruct (Placed _ m Gm) as (_ & P & _).
    destruct (P e (nth_error_In _ _ G)) as (M & I). unfold enum_path. apply (reach_sub place (i0 :: ir) m); auto. now apply sub_enum.
Qed.

Theorem oneof_reached place i m k o : globbed (emit_file d) place -> laid i -> get_message d i = Some m -> nth_error (m_oneofs m) k = Some o ->
  reaches place (oneof_path d o) (IOneof i k).
Proof.
  intros Gl La G N. destruct (Placed _ m G) as (_ & _ & P). destruct (P o (nth_error_In _ _ N)) as (M & I).
  unfold oneof_path. apply (reach_sub place i m); auto. now apply sub_oneof.
Qed.

(** a path from the output directory to an item of the file *)
Lemma reach_from_root place p it : globbed (emit_file d) place -> own = own_path (d_package d) stem ->
  (forall s l, own = s :: l -> ~ declared (emit_file d) s) -> own <> [] -> walk (IMod false (emit_file d)) p = Some it ->
  (exists s l, p = s :: l) -> reaches place (own ++ p) it.
Proof.
  intros G E Sh Ne W (s & l & ->). destruct RootOwn as (g & RO). rewrite <- E in RO. pose proof (glob_target_root root d stem Pkg) as T.
  destruct own as [|x l'] eqn:Eo; [contradiction|]. cbn [app]. apply resolve_absolute; auto; [|now apply (Sh x l')].
  change (x :: l' ++ s :: l) with ((x :: l') ++ s :: l). now rewrite walk_app, RO.
Qed.
Theorem value_reached place q e : globbed (emit_file d) place -> match e_msg q with [] => enum_laid (e_pos q) | i => laid i end ->
  own = own_path (d_package d) stem -> own <> [] -> (forall s l, own = s :: l -> ~ declared (emit_file d) s) ->
  get_enum d q = Some e -> reaches place (segments (en_module e) ++ [en_name e]) (IEnum q).
Proof.
  intros Gl La Eo Ne Sh G. unfold get_enum in G. destruct q as (i, k). cbn [e_msg e_pos] in G, La. destruct i as [|i0 ir].
  - assert (W : forall g items, In (en_name e, IEnum (mkEidx [] k)) items -> distinct items -> walk (IMod g items) [en_name e] = Some (IEnum (mkEidx [] k))).
    { intros g items Hin D. rewrite walk_cons, (assoc_in _ _ _ (distinct_here _ D) Hin). reflexivity. }
    destruct (en_imported e) eqn:I.
    + destruct (La e G I) as (S & g & items & R & Hin & D). apply reach_imported with g items; auto.
    + rewrite (OwnE k e G I). apply reach_from_root; auto; [|eauto]. apply W; [now apply emit_file_enum|exact Dist].
  - destruct (get_message d (i0 :: ir)) as [m|] eqn:Gm; [|discriminate]. destruct (Placed _ m Gm) as (_ & P & _).
    destruct (P e (nth_error_In _ _ G)) as (M & I). rewrite M, (segments_child m (Dots _ m Gm)), <- app_assoc.
    destruct (split_index _ m Gm) as (k' & rest & top & E & N & B & _ & -> & Im). injection E as <- <-.
    assert (H : forall g items, incl (emit_message (i0 :: ir) m) items -> distinct items ->
              walk (IMod g items) ([modn m] ++ [en_name e]) = Some (IEnum (mkEidx (i0 :: ir) k))).
    { intros g items Inc D. assert (A : assoc (modn m) items = Some (IMod (globs m) (sub_items (i0 :: ir) m))).
      { apply assoc_in; [now apply distinct_here|]. apply Inc, emit_mod. right. left. intros E. rewrite E in G. destruct k; discriminate. }
      cbn [app]. rewrite walk_cons, A, walk_cons, (assoc_in (en_name e) (IEnum (mkEidx (i0 :: ir) k)) (sub_items (i0 :: ir) m)); [reflexivity| |now apply sub_enum].
      apply distinct_here, (distinct_sub items (modn m) (globs m)); assumption. }
    rewrite <- app_assoc. destruct (m_imported top) eqn:It.
    + destruct (La top N It) as (S & g & items & W & Inc & D).
      destruct (walk_below ir g [i0] top items m Inc D B) as (g' & items' & W' & Inc' & D').
      apply reach_imported with g items; auto. rewrite walk_app, W'. now apply H.
    + rewrite (OwnM i0 top N It). apply reach_from_root; auto.
      * destruct (walk_below ir false [i0] top (emit_file d) m (emit_file_in i0 top N It) Dist B) as (g' & items' & W' & Inc' & D').
        rewrite walk_app, W'. now apply H.
      * destruct (mods_below top ir); cbn; eauto.
Qed.
End Refer.

(** ** Checking *)
Fixpoint names_of (it : ritem) : list text :=
  match it with
  | IMod _ items => map fst items ++ (fix go (l : list (text * ritem)) : list text := match l with [] => [] | (_, x) :: l' => names_of x ++ go l' end) items
  | _ => []
  end.
Definition names_below (items : ritems) : list text := flat_map (fun p => names_of (snd p)) items.
Lemma names_of_mod g items : names_of (IMod g items) = map fst items ++ names_below items.
Proof.
  cbn [names_of]. f_equal. induction items as [|(n, x) l IH]; [reflexivity|]. unfold names_below in *. cbn [flat_map snd]. now rewrite <- IH.
Qed.
Fixpoint mem_text (n : text) (l : list text) : bool := match l with [] => false | x :: l' => String.eqb n x || mem_text n l' end.
Fixpoint nodup_text (l : list text) : bool := match l with [] => true | x :: l' => negb (mem_text x l') && nodup_text l' end.
Lemma mem_text_in n l : mem_text n l = true <-> In n l.
Proof.
  induction l as [|x l IH]; cbn; [split; [discriminate|contradiction]|]. rewrite Bool.orb_true_iff, IH, String.eqb_eq. intuition congruence.
Qed.
Lemma nodup_text_ok l : nodup_text l = true -> NoDup l.
Proof.
  induction l as [|x l IH]; cbn; intros H; constructor; apply Bool.andb_true_iff in H; destruct H as (A & B); [|auto].
  intros Hx. apply mem_text_in in Hx. now rewrite Hx in A.
Qed.
Fixpoint distinct_item (it : ritem) : bool :=
  match it with
  | IMod _ items => nodup_text (map fst items) && (fix go (l : list (text * ritem)) : bool := match l with [] => true | (_, x) :: l' => distinct_item x && go l' end) items
  | _ => true
  end.
Lemma assoc_pair {A} n (a : A) l : assoc n l = Some a -> In (n, a) l.
Proof.
  induction l as [|(n', a') l IH]; cbn; [discriminate|]. destruct (String.eqb_spec n n') as [->|_]; [|auto]. intros H; injection H as ->. now left.
Qed.
Lemma distinct_item_ok items : forall g, distinct_item (IMod g items) = true -> distinct items.
Proof.
  intros g H path. revert g items H. induction path as [|s path IH]; intros g items H g' sub W.
  - injection W as _ <-. cbn in H. apply Bool.andb_true_iff in H. now apply nodup_text_ok.
  - rewrite walk_cons in W. destruct (assoc s items) as [it|] eqn:A; [|discriminate]. apply assoc_pair in A.
    assert (D : distinct_item it = true).
    { cbn in H. apply Bool.andb_true_iff in H. destruct H as (_ & H). clear -A H. induction items as [|(n, x) l IH]; [contradiction|].
      apply Bool.andb_true_iff in H. destruct H as (H1 & H2). destruct A as [E|A]; [now injection E as _ ->|auto]. }
    destruct path as [|t path].
    + injection W as ->. apply (IH g' sub D false sub). reflexivity.
    + destruct it; try discriminate. exact (IH _ _ D g' sub W).
Qed.
Lemma walk_names path : forall it g sub, walk it path = Some (IMod g sub) -> incl (map fst sub) (names_of it).
Proof.
  intros it g sub. revert it. induction path as [|s path IH]; intros it W.
  - injection W as ->. rewrite names_of_mod. intros n Hn. apply in_app_iff. now left.
  - destruct it as [| | |g' items']; try discriminate. rewrite walk_cons in W. destruct (assoc s items') as [x|] eqn:A; [|discriminate].
    apply assoc_pair in A. rewrite names_of_mod. intros n Hn. apply in_app_iff. right. unfold names_below. apply in_flat_map. exists (s, x).
    split; [exact A|]. now apply (IH x W).
Qed.
Lemma declared_names items n : declared items n -> In n (map fst items ++ names_below items).
Proof.
  intros (path & g & sub & W & H). rewrite <- (names_of_mod false). now apply (walk_names path _ g sub W).
Qed.
Lemma declared_below_names items n : declared_below items n -> In n (names_below items).
Proof.
  intros (s & path & g & sub & W & H). rewrite walk_cons in W. destruct (assoc s items) as [x|] eqn:A; [|discriminate]. apply assoc_pair in A.
  unfold names_below. apply in_flat_map. exists (s, x). split; [exact A|]. destruct path as [|t path].
  - injection W as ->. cbn [snd]. rewrite names_of_mod. apply in_app_iff. now left.
  - destruct x as [| | |g' items']; try discriminate. now apply (walk_names (t :: path) (IMod g' items') g sub).
Qed.
