(** Lemmas for C90: a file that imports others, in a crate with all of them. *)
From Coq Require Import String Ascii Arith Lia Bool.
From Verif Require Import Props_Paths Base Schema Gen Keywords Modules KeywordFacts ModuleFacts Passes GenCheck Cycles CycleFacts BreakFacts IndexFacts
  Pipeline PassFacts ResolveFacts AcceptFacts Parser ProtoText FileText ParserOut Import Paths PathFacts PlaceFacts.
From Verif Require Import RustTypes RustLex RustAst GenAst GenGood RustSem Meaning MeanNames.
Import Schema StringSyntax.
Local Open Scope string_scope.
Local Open Scope list_scope.

(** ** Names in a crate of several files *)

(** The file that an item is declared in: the module and the package of the file,
    and the modules inside the file.  What is imported keeps the module and the
    package of its file (types.rs:2718-2736, C62). *)
Definition top_home (d : file_descriptor) (i : midx) : option (text * text) :=
  match i with
  | [] => None
  | k :: _ => option_map (fun m => (m_module m, m_package m)) (nth_error (d_messages d) k)
  end.
Definition home (d : file_descriptor) (here : scope) : option (text * text) :=
  match here with
  | InMsg i | InOneof i _ => top_home d i
  | InEnum q => match e_msg q with
                | [] => option_map (fun e => (en_module e, en_package e)) (nth_error (d_enums d) (e_pos q))
                | i => top_home d i
                end
  end.
(** the modules in which names are searched: those inside the file, the file, and
    the module so many levels above it ([glob_target]) *)
Definition file_scopes (root : ritems) (module package : text) (inner : list text) : option (list ritems) :=
  let path := segments module in
  if (length path <? imports_depth package)%nat then None else
  match walk (IMod false root) path, walk (IMod false root) (firstn (length path - imports_depth package) path) with
  | Some (IMod _ items), Some (IMod _ outer) => inner_scopes items [outer] inner
  | _, _ => None
  end.
(** what Rust finds; [root] are the items of the output directory, numbered as in
    the file [d] *)
Definition crates_names (root : ritems) (d : file_descriptor) (here : scope) (q : list text) : option rtype :=
  match home d here with
  | Some (module, package) =>
    match file_scopes root module package (module_of d here) with
    | Some scopes => match Paths.resolve scopes q with Some it => item_type d it | None => None end
    | None => None
    end
  | None => None
  end.

(** A file is in the output directory: at its module, and everything that [P]
    says is in it; what it imports from above is the output directory; it
    declares no name that a path begins with. *)
Definition begins_path (d : file_descriptor) (s : text) : Prop :=
  exists l, (exists m, In m (d_messages d) /\ segments (m_module m) = s :: l) \/ (exists e, In e (d_enums d) /\ segments (en_module e) = s :: l).
Definition file_in_root (d : file_descriptor) (root : ritems) (module package : text) (P : ritems -> Prop) : Prop :=
  ~ In "" (split_on "." module) /\ imports_depth package = length (segments module) /\
  exists g items, walk (IMod false root) (segments module) = Some (IMod g items) /\ P items /\ distinct items /\
    forall s, begins_path d s -> ~ declared items s.
Record in_crates (d d' : file_descriptor) (root : ritems) : Prop := mkInCrates {
  cs_package : d_package d' <> "";
  cs_messages : forall k m, nth_error (d_messages d') k = Some m ->
    file_in_root d' root (m_module m) (m_package m) (incl (emit_message [k] m));
  cs_enums : forall k e, nth_error (d_enums d') k = Some e ->
    file_in_root d' root (en_module e) (en_package e) (In (en_name e, IEnum (mkEidx [] k)));
  cs_free : (forall i m, get_message d' i = Some m -> free_name (m_name m)) /\ forall q e, get_enum d' q = Some e -> free_name (en_name e);
  cs_modules : forall i m, get_message d i = Some m -> m_messages m <> [] \/ m_enums m <> [] \/ m_oneofs m <> [] ->
    sanitize_keyword (m_name m) = m_name m;
  cs_values : forall q e, get_enum d q = Some e -> sanitize_keyword (en_name e) = en_name e /\
    exists v z l, en_fields e = (v, z) :: l /\ sanitize_keyword v = v }.

Section Names.
Variables (check : bool) (fs : file_system) (search : list fpath) (n : nat) (f : fpath) (d d4 : file_descriptor) (c : config) (root : ritems).
Let d' := after_escape c d4.
Hypothesis Read : read_proto check fs search n f = ROk d.
Hypothesis Before : before_escape c d = GOk d4.
Hypothesis Crate : in_crates d d' root.

Let Acc : process c d = GOk d'.
Proof. rewrite process_escape, Before. reflexivity. Qed.
Let Placed : placed_at d' /\ forall i m, get_message d' i = Some m -> no_dot (m_name m).
Proof. exact (acc_placed check fs search n f d c d' Read Acc (cs_modules _ _ _ Crate)). Qed.

(** the scopes of a place in a file *)
Lemma scopes_of : forall module package P inner, file_in_root d' root module package P ->
  (forall items, P items -> distinct items -> globbed items inner) ->
  exists chain, file_scopes root module package inner = Some (chain ++ [root]) /\
    forall sc x, In sc chain -> In x (map fst sc) -> ~ begins_path d' x.
Proof.
  intros module package P inner (_ & Dp & g & items & W & Pi & D & Sh) Gl. unfold file_scopes. rewrite Dp, Nat.ltb_irrefl, W, Nat.sub_diag. cbn [firstn walk].
  destruct (inner_scopes_spec inner items [root] (Gl items Pi D)) as (chain & E & K). exists (chain ++ [items]). split; [rewrite <- app_assoc; exact E|].
  intros sc x Hs Hx B. apply in_app_iff in Hs. apply (Sh x B). destruct Hs as [Hs|[<-|[]]].
  - destruct (K sc x Hs Hx) as (s & path & g' & sub & W' & I'). exists (s :: path), g', sub. auto.
  - exists [], false, items. auto.
Qed.
(** a path from the output directory *)
Lemma absolute : forall module package P inner s l it, file_in_root d' root module package P ->
  (forall items, P items -> distinct items -> globbed items inner) -> begins_path d' s -> walk (IMod false root) (s :: l) = Some it ->
  exists scopes, file_scopes root module package inner = Some scopes /\ Paths.resolve scopes (s :: l) = Some it.
Proof.
  intros module package P inner s l it F Gl B W. destruct (scopes_of module package P inner F Gl) as (chain & E & K). eexists. split; [exact E|].
  rewrite resolve_skip; [now apply (resolve_here root [] false)|]. intros sc Hs Hx. exact (K sc s Hs Hx B).
Qed.

(** where a message is *)
Lemma message_home : forall i m, get_message d' i = Some m -> exists module package k rest top, i = k :: rest /\
  nth_error (d_messages d') k = Some top /\ module = m_module top /\ package = m_package top /\
  top_home d' i = Some (module, package) /\
  file_in_root d' root module package (incl (emit_message [k] top)) /\ below top rest = Some m /\ mods d' i = mods_below top rest /\
  segments (m_module m) = segments module ++ mods d' i.
Proof.
  intros i m G. destruct (split_index d' (proj1 Placed) (proj2 Placed) i m G) as (k & rest & top & -> & N & B & E & Sg & _).
  exists (m_module top), (m_package top), k, rest, top. cbn [top_home]. rewrite N, E.
  repeat match goal with |- _ /\ _ => split end; auto. exact (cs_messages _ _ _ Crate k top N).
Qed.
Lemma message_begins : forall k top s l, nth_error (d_messages d') k = Some top -> segments (m_module top) = s :: l -> begins_path d' s.
Proof. intros k top s l N E. exists l. left. exists top. split; [now apply nth_error_In in N|exact E]. Qed.
Lemma segments_cons : forall module, ~ In "" (split_on "." module) -> exists s l, segments module = s :: l /\ split_on "." module = s :: l.
Proof.
  intros module H. assert (E : segments module = split_on "." module).
  { unfold segments. induction (split_on "." module) as [|x l IH]; [reflexivity|]. cbn in *. destruct (String.eqb_spec x "") as [->|_]; [tauto|]. cbn. f_equal. apply IH. tauto. }
  rewrite E. pose proof (split_on_nonempty "." module). destruct (split_on "." module); [contradiction|eauto].
Qed.
(** items in the module of a message, and next to it, from the output directory *)
Lemma walk_message : forall i m, get_message d' i = Some m -> exists s l g items, segments (m_module m) = s :: l /\ begins_path d' s /\
  walk (IMod false root) (segments (m_module m)) = Some (IMod g items) /\ incl (emit_message i m) items /\ distinct items.
Proof.
  intros i m G. destruct (message_home i m G) as (module & package & k & rest & top & -> & N & -> & -> & _ & (Ne & _ & g & items & W & Inc & D & _) & B & E & Sg).
  destruct (segments_cons _ Ne) as (s & l & Es & _). destruct (walk_below rest g [k] top items m Inc D B) as (g' & items' & W' & Inc' & D').
  exists s, (l ++ mods d' (k :: rest)), g', items'. rewrite Sg, Es. split; [reflexivity|]. split; [exact (message_begins k top s l N Es)|].
  rewrite <- Es. rewrite walk_app, W, E, W'. auto.
Qed.
Lemma walk_module : forall i m, get_message d' i = Some m -> m_messages m <> [] \/ m_enums m <> [] \/ m_oneofs m <> [] ->
  exists s l g, segments (child_module m) = s :: l /\ begins_path d' s /\
  walk (IMod false root) (segments (child_module m)) = Some (IMod g (sub_items i m)) /\ NoDup (map fst (sub_items i m)).
Proof.
  intros i m G H. destruct (walk_message i m G) as (s & l & g & items & Es & B & W & Inc & D). rewrite (segments_child m (proj2 Placed i m G)).
  exists s, (l ++ [modn m]), (globs m). rewrite Es. split; [reflexivity|]. split; [exact B|]. rewrite <- Es, walk_app, W, walk_cons.
  assert (A : Paths.assoc (modn m) items = Some (IMod (globs m) (sub_items i m))) by (apply PathFacts.assoc_in; [now apply distinct_here|]; apply Inc, emit_mod, H).
  rewrite A. split; [reflexivity|]. exact (distinct_here _ (distinct_sub _ _ _ _ D A)).
Qed.

(** the paths of the code *)
Definition absolute_path (q : list text) (it : ritem) : Prop :=
  exists s l, q = s :: l /\ begins_path d' s /\ walk (IMod false root) q = Some it.
Lemma path_of_module : forall module imported, module_path module imported (d_package d') = segments module.
Proof.
  intros module imported. rewrite module_path_segments. pose proof (cs_package _ _ _ Crate) as N.
  destruct (String.eqb_spec (d_package d') "") as [E|_]; [contradiction|reflexivity].
Qed.
Lemma sub_path : forall i m x it, get_message d' i = Some m -> In (x, it) (sub_items i m) -> m_messages m <> [] \/ m_enums m <> [] \/ m_oneofs m <> [] ->
  absolute_path (segments (child_module m) ++ [x]) it.
Proof.
  intros i m x it G H Ne. destruct (walk_module i m G Ne) as (s & l & g & Es & B & W & D). exists s, (l ++ [x]). rewrite Es. split; [reflexivity|]. split; [exact B|].
  rewrite <- Es, walk_app, W, walk_cons, (PathFacts.assoc_in x it _ D H). reflexivity.
Qed.
Lemma message_absolute : forall j x, get_message d' j = Some x -> absolute_path (message_path d' x) (IMessage j).
Proof.
  intros j x G. unfold message_path. rewrite path_of_module. destruct (walk_message j x G) as (s & l & g & items & Es & B & W & Inc & D).
  exists s, (l ++ [m_name x]). rewrite Es. split; [reflexivity|]. split; [exact B|].
  rewrite <- Es, walk_app, W, walk_cons, (PathFacts.assoc_in (m_name x) (IMessage j) items); [reflexivity|now apply distinct_here|].
  apply Inc. rewrite emit_message_eq. now left.
Qed.
Lemma enum_absolute : forall q e, get_enum d' q = Some e -> absolute_path (segments (en_module e) ++ [en_name e]) (IEnum q).
Proof.
  intros (i, k) e G. unfold get_enum in G. cbn [e_msg e_pos] in G. destruct i as [|a b].
  - destruct (cs_enums _ _ _ Crate k e G) as (Ne & _ & g & items & W & In_ & D & _). destruct (segments_cons _ Ne) as (s & l & Es & _).
    exists s, (l ++ [en_name e]). rewrite Es. split; [reflexivity|]. split; [exists l; right; exists e; split; [now apply nth_error_In in G|exact Es]|].
    rewrite <- Es, walk_app, W, walk_cons, (PathFacts.assoc_in _ _ _ (distinct_here _ D) In_). reflexivity.
  - destruct (get_message d' (a :: b)) as [m|] eqn:Gm; [|discriminate]. destruct (proj1 Placed _ m Gm) as (_ & P & _).
    destruct (P e (nth_error_In _ _ G)) as (-> & _). apply (sub_path (a :: b) m); [exact Gm|now apply sub_enum|].
    right. left. intros E. rewrite E in G. now destruct k.
Qed.
Lemma oneof_absolute : forall i m k o, get_message d' i = Some m -> nth_error (m_oneofs m) k = Some o ->
  absolute_path (oneof_path d' o) (IOneof i k).
Proof.
  intros i m k o G N. unfold oneof_path. rewrite path_of_module. destruct (proj1 Placed _ m G) as (_ & _ & P).
  destruct (P o (nth_error_In _ _ N)) as (-> & _). apply (sub_path i m); [exact G|now apply sub_oneof|].
  right. right. intros E. rewrite E in N. now destruct k.
Qed.

(** the places where code for a message is *)
Lemma globbed_in : forall k rest top m items, incl (emit_message [k] top) items -> distinct items -> below top rest = Some m ->
  globbed items (mods_below top rest) /\ (m_oneofs m <> [] -> globbed items (mods_below top rest ++ [modn m])).
Proof. intros k rest top m items Inc D B. exact (globbed_below rest [k] top items m Inc D B). Qed.
Lemma found : forall i m q it y, get_message d' i = Some m -> absolute_path q it -> item_type d' it = Some y ->
  crates_names root d' (InMsg i) q = Some y /\ forall o, In o (m_oneofs m) -> crates_names root d' (InOneof i (o_name o)) q = Some y.
Proof.
  intros i m q it y G (s & l & -> & B & W) T. destruct (message_home i m G) as (module & package & k & rest & top & -> & N & -> & -> & Hm & F & Bl & E & _).
  split.
  - unfold crates_names. cbn [home module_of]. rewrite Hm.
    destruct (absolute _ _ _ (mods d' (k :: rest)) s l it F) as (sc & -> & ->); auto.
    intros items Inc D. rewrite E. exact (proj1 (globbed_in k rest top m items Inc D Bl)).
  - intros o Ho. unfold crates_names. cbn [home module_of]. rewrite Hm.
    destruct (absolute _ _ _ (own_module d' (k :: rest)) s l it F) as (sc & -> & ->); auto.
    intros items Inc D. unfold own_module. rewrite G, E. apply (globbed_in k rest top m items Inc D Bl). intros X. rewrite X in Ho. destruct Ho.
Qed.
(** a name of the module itself *)
Lemma own_found : forall here module package P g items g' sub x it y, home d' here = Some (module, package) ->
  file_in_root d' root module package P -> walk (IMod false root) (segments module) = Some (IMod g items) ->
  walk (IMod g items) (module_of d' here) = Some (IMod g' sub) -> NoDup (map fst sub) -> In (x, it) sub ->
  item_type d' it = Some y -> crates_names root d' here [x] = Some y.
Proof.
  intros here module package P g items g' sub x it y Hm (_ & Dp & _) W W' D I T. unfold crates_names, file_scopes. rewrite Hm, Dp, Nat.ltb_irrefl, W, Nat.sub_diag. cbn [firstn walk].
  destruct (inner_walk _ _ [root] _ _ _ W') as (outer & Eo). change (@cons (list (text * ritem)) root nil) with (@cons ritems root nil) in *. rewrite Eo. cbn [Paths.resolve]. now rewrite (PathFacts.assoc_in x it sub D I).
Qed.
Lemma own_found_in : forall i m here x it y, get_message d' i = Some m -> home d' here = top_home d' i -> module_of d' here = own_module d' i ->
  m_messages m <> [] \/ m_enums m <> [] \/ m_oneofs m <> [] ->
  In (x, it) (sub_items i m) -> item_type d' it = Some y -> crates_names root d' here [x] = Some y.
Proof.
  intros i m here x it y G Hh Mh Ne I T. destruct (message_home i m G) as (module & package & k & rest & top & -> & N & -> & -> & Hm & F & Bl & E & Sg).
  pose proof F as F0. destruct F0 as (_ & _ & g & items & W & _). destruct (walk_module _ m G Ne) as (s & l & g' & _ & _ & W' & D).
  apply (own_found here (m_module top) (m_package top) (incl (emit_message [k] top)) g items g' (sub_items (k :: rest) m) x it y); auto.
  - congruence.
  - rewrite Mh. unfold own_module. rewrite G. rewrite (segments_child m (proj2 Placed _ m G)), Sg, <- app_assoc, walk_app, W in W'. exact W'.
Qed.

Theorem names_in_crates : names_ok d' d4 (crates_names root d').
Proof.
  constructor.
  - intros i m j x G Gx. split; [apply single_name, (proj1 (cs_free _ _ _ Crate) _ _ Gx)|]. exact (found i m _ _ _ G (message_absolute j x Gx) eq_refl).
  - intros i m q e G Ge. split; [apply single_name, (proj2 (cs_free _ _ _ Crate) _ _ Ge)|]. unfold enum_path. rewrite path_of_module.
    exact (found i m _ _ _ G (enum_absolute q e Ge) eq_refl).
  - intros i m o G O. split; [apply single_name, oneof_name_free|]. destruct (in_nth _ _ O) as (k & K).
    assert (T : item_type d' (IOneof i k) = Some (YOneof (o_name o))) by (cbn [item_type]; rewrite G, K; reflexivity).
    split; [exact (proj1 (found i m _ _ _ G (oneof_absolute i m k o G K) T))|].
    apply (own_found_in i m (InOneof i (o_name o)) _ (IOneof i k)); auto.
    + right. right. intros E. rewrite E in O. destruct O.
    + now apply sub_oneof.
  - intros q e G. split; [exact (proj2 (cs_free _ _ _ Crate) _ _ G)|]. pose proof G as G0. unfold get_enum in G. destruct q as (i, k). cbn [e_msg e_pos] in G. destruct i as [|a b].
    + pose proof (cs_enums _ _ _ Crate k e G) as F. pose proof F as F0. destruct F0 as (_ & _ & g & items & W & I & D & _).
      apply (own_found (InEnum (mkEidx [] k)) _ _ _ g items g items _ (IEnum (mkEidx [] k)) (YEnum (mkEidx [] k)) ltac:(cbn [home e_msg e_pos]; rewrite G; reflexivity) F W);
        [reflexivity|now apply distinct_here|exact I|reflexivity].
    + destruct (get_message d' (a :: b)) as [m|] eqn:Gm; [|discriminate].
      apply (own_found_in (a :: b) m (InEnum (mkEidx (a :: b) k)) _ (IEnum (mkEidx (a :: b) k))); auto.
      * right. left. intros E. rewrite E in G. destruct k; discriminate.
      * now apply sub_enum.
  - intros q e' G'. pose proof (process_enum c d d' q Acc) as GA. rewrite G' in GA. destruct (get_enum d q) as [e|] eqn:G; [|discriminate]. injection GA as ->.
    destruct (before_message c d d4 Before) as (_ & _ & _ & R). pose proof G as G4. rewrite <- R in G4.
    destruct (cs_values _ _ _ Crate q e G) as (Ke & v & z & l & Ef & Kv).
    exists e, v, z, (map (fun p : text * BinNums.Z => (sanitize_keyword (fst p), snd p)) l), l,
      ((if String.eqb (en_module e) "" then [] else split_on "." (en_module e)) ++ [en_name e]).
    assert (Q : qualified_value e = Some (((if String.eqb (en_module e) "" then [] else split_on "." (en_module e)) ++ [en_name e]) ++ [v])).
    { unfold qualified_value. rewrite Ef, <- app_assoc. reflexivity. }
    pose proof (enum_absolute q _ G') as Ab. cbn [enum_sanitize_names en_module en_name] in Ab. rewrite Ke in Ab.
    pose proof (proj2 (cs_free _ _ _ Crate) _ _ G') as Fr. cbn [enum_sanitize_names en_name] in Fr. rewrite Ke in Fr.
    assert (Sg : segments (en_module e) = if String.eqb (en_module e) "" then [] else split_on "." (en_module e)).
    { assert (Ne : ~ In "" (split_on "." (en_module e)) \/ en_module e = "").
      { unfold get_enum in G'. destruct (e_msg q) as [|a b].
        - left. destruct (cs_enums _ _ _ Crate _ _ G') as (Ne & _). exact Ne.
        - destruct (get_message d' (a :: b)) as [m|] eqn:Gm; [|discriminate]. destruct (proj1 Placed _ m Gm) as (_ & P & _).
          destruct (P _ (nth_error_In _ _ G')) as (E & _). cbn [enum_sanitize_names en_module] in E. left. rewrite E.
          destruct (message_home _ m Gm) as (module & package & k & rest & top & Ek & N & -> & -> & _ & (Ne & _) & _ & _ & _).
          clear - Placed Gm Ne N Ek.
          assert (K : forall rest i m m', get_message d' i = Some m -> ~ In "" (split_on "." (m_module m)) -> below m rest = Some m' -> ~ In "" (split_on "." (m_module m'))).
          { clear - Placed. induction rest as [|j rest IH]; intros i m m' G H B; cbn [below] in B; [now injection B as <-|].
            destruct (nth_error (m_messages m) j) as [x|] eqn:Nx; [|discriminate]. destruct (proj1 Placed i m G) as (P & _).
            destruct (P x (nth_error_In _ _ Nx)) as (Ex & _). apply (IH (i ++ [j]) x m'); [|rewrite Ex|exact B].
            - destruct (placed_below d' (proj1 Placed) (proj2 Placed) [j] i m x G) as (_ & _ & X); [cbn [below]; now rewrite Nx|exact X].
            - unfold child_module. change (".mod_" ++ m_name m)%string with (String "." ("mod_" ++ m_name m)%string). rewrite split_app_gen, in_app_iff.
              intros [X|X]; [now apply H|]. rewrite split_none in X; [destruct X as [X|[]]; discriminate X|]. exact (proj2 Placed i m G). }
          destruct (split_index d' (proj1 Placed) (proj2 Placed) _ m Gm) as (k' & rest' & top' & Ek' & N' & B & _).
          assert (top' = top /\ k' = k) as (-> & ->) by (rewrite Ek in Ek'; injection Ek' as <- <-; rewrite N in N'; injection N' as <-; auto).
          pose proof (K rest' [k] top m ltac:(rewrite get_message_eq; cbn; now rewrite N) Ne B) as Nm.
          unfold child_module. change (".mod_" ++ m_name m)%string with (String "." ("mod_" ++ m_name m)%string). rewrite split_app_gen, in_app_iff.
          intros [X|X]; [now apply Nm|]. rewrite split_none in X; [destruct X as [X|[]]; discriminate X|]. exact (proj2 Placed _ m Gm). }
      destruct Ne as [Ne|E]; [|rewrite E; reflexivity]. destruct (segments_cons _ Ne) as (s & l' & E1 & E2). rewrite E1, E2.
      destruct (String.eqb_spec (en_module e) "") as [E|_]; [|reflexivity]. rewrite E in Ne. cbn in Ne. tauto. }
    repeat match goal with |- _ /\ _ => split end; auto.
    + cbn [enum_sanitize_names en_fields]. rewrite Ef. cbn [map fst snd]. now rewrite Kv.
    + now apply single_name.
    + intros i m Gi. rewrite <- Sg. exact (proj1 (found i m _ _ _ Gi Ab eq_refl)).
Qed.
End Names.
