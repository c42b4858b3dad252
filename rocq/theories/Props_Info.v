(** C72: the paths that [MessageInfo] gives to messages. *)
From Coq Require Import String Ascii Arith ZArith Lia.
From Verif Require Import Base Schema Keywords Modules KeywordFacts ModuleFacts Passes ProtoText TextFacts Cycles CycleFacts Pipeline PassFacts ResolveFacts AcceptFacts
  Import GenCheck Props_Import Props_Paths PathFacts PlaceFacts Props_Names.
Import Schema StringSyntax.
Local Open Scope string_scope.
Local Open Scope list_scope.

(** types.rs:1684-1688 [write_impl_message_info] and 1886-1895 [write_impl_owned]:
    [const PATH : &'static str = "module.name";], for the message as it is
    written, that is after all passes. *)
Definition message_info_path (m : message) : text := (m_module m ++ "." ++ m_name m)%string.

(** ** Specification *)
(** the names of the messages on the way to an index, as in the schema *)
Fixpoint names_in (ms : list message) (i : midx) : list text :=
  match i with
  | [] => []
  | k :: rest => match nth_error ms k with Some m => m_name m :: names_in (m_messages m) rest | None => [] end
  end.
(** the full name of a message in protobuf *)
Definition full_name (d : file_descriptor) (i : midx) : text :=
  join_with "." ((if String.eqb (d_package d) "" then [] else [d_package d]) ++ names_in (d_messages d) i).
(** a message of the file itself *)
Definition own_at (d : file_descriptor) (i : midx) : Prop := exists m, get_message d i = Some m /\ m_imported m = false.
(** names of one scope are different, also when keywords are renamed *)
Definition scopes_distinct (d : file_descriptor) : Prop := forall pre a b x y,
  get_message d (pre ++ [a]) = Some x -> get_message d (pre ++ [b]) = Some y -> m_imported x = false -> m_imported y = false ->
  sanitize_keyword (m_name x) = sanitize_keyword (m_name y) -> a = b.

(** ** Proofs *)
Lemma names_in_app ms : forall p m k, get_in ms p = Some m ->
  names_in ms (p ++ [k]) = names_in ms p ++ match nth_error (m_messages m) k with Some x => [m_name x] | None => [] end.
Proof.
  intros p; revert ms; induction p as [|j p IH]; intros ms m k G; [discriminate|]. cbn [app names_in]. cbn [get_in] in G.
  destruct (nth_error ms j) as [x|]; [|discriminate]. destruct p as [|j' p].
  - injection G as ->. cbn [app names_in]. now destruct (nth_error (m_messages m) k).
  - cbn [app]. f_equal. apply (IH (m_messages x) m k G).
Qed.
Lemma get_in_parent ms : forall p k x, p <> [] -> get_in ms (p ++ [k]) = Some x -> exists m, get_in ms p = Some m /\ nth_error (m_messages m) k = Some x.
Proof.
  intros p; revert ms; induction p as [|j p IH]; intros ms k x N G; [now destruct N|]. cbn [app get_in] in G |- *.
  destruct (nth_error ms j) as [m|]; [|destruct p; discriminate]. destruct p as [|j' p].
  - exists m. split; [reflexivity|]. cbn in G. now destruct (nth_error (m_messages m) k).
  - cbn [app] in G. apply (IH (m_messages m) k x); [discriminate|exact G].
Qed.
Lemma names_in_last ms p k x : get_in ms (p ++ [k]) = Some x -> names_in ms (p ++ [k]) = names_in ms p ++ [m_name x].
Proof.
  intros G. destruct p as [|j p].
  - cbn in *. destruct (nth_error ms k); [|discriminate]. now injection G as ->.
  - destruct (get_in_parent ms (j :: p) k x ltac:(discriminate) G) as (m & Gm & N). now rewrite (names_in_app ms (j :: p) m k Gm), N.
Qed.

Lemma join_app : forall (a : list text) x, a <> [] -> join_with "." (a ++ [x]) = (join_with "." a ++ "." ++ x)%string.
Proof.
  induction a as [|y a IH]; intros x N; [now destruct N|]. destruct a as [|z a]; [reflexivity|].
  specialize (IH x ltac:(discriminate)). cbn [app] in *.
  change (join_with "." (y :: z :: a ++ [x])) with (y ++ "." ++ join_with "." (z :: a ++ [x]))%string.
  change (join_with "." (y :: z :: a)) with (y ++ "." ++ join_with "." (z :: a))%string.
  rewrite IH, !append_assoc. reflexivity.
Qed.

Definition modp (n : text) : text := ("mod_" ++ n)%string.
Lemma module_at d : read_desc d -> forall p k m, get_message d (p ++ [k]) = Some m -> m_imported m = false ->
  (p <> [] -> own_at d p) /\ m_module m = join_with "." (d_module d :: map modp (names_in (d_messages d) p)).
Proof.
  intros R. pose proof (read_desc_placed d R) as (Pl & _). induction p as [|j p IH] using rev_ind; intros k m G I.
  - split; [now intros X|]. destruct R as (R & _). rewrite get_message_eq in G. cbn in G. destruct (nth_error (d_messages d) k) as [x|] eqn:N; [|discriminate].
    injection G as <-. apply nth_error_In in N. rewrite Forall_forall in R. cbn. now apply (rm_own _ _ (R x N)).
  - pose proof G as G0. rewrite get_message_eq in G. destruct (get_in_parent _ (p ++ [j]) k m ltac:(now destruct p) G) as (x & Gx & N).
    rewrite <- get_message_eq in Gx. apply nth_error_In in N. destruct (Pl _ _ Gx) as (Pm & _). destruct (Pm m N) as (Em & Ei).
    assert (Ix : m_imported x = false) by congruence. destruct (IH j x Gx Ix) as (_ & Mx).
    split; [intros _; now exists x|]. rewrite Em. unfold child_module. rewrite Mx. rewrite get_message_eq in Gx. rewrite (names_in_last _ _ _ _ Gx), map_app.
    cbn [map]. rewrite app_comm_cons. rewrite join_app by discriminate. reflexivity.
Qed.

Lemma names_inj d : scopes_distinct d -> (forall p k m, get_message d (p ++ [k]) = Some m -> m_imported m = false -> p <> [] -> own_at d p) ->
  forall p q, (p <> [] -> own_at d p) -> (q <> [] -> own_at d q) -> names_in (d_messages d) p = names_in (d_messages d) q -> p = q.
Proof.
  intros D Up. induction p as [|a p IH] using rev_ind; intros q Hp Hq E.
  - destruct q as [|b q]; [reflexivity|]. destruct (Hq ltac:(discriminate)) as (m & G & _). rewrite get_message_eq in G. cbn in G, E.
    now destruct (nth_error (d_messages d) b).
  - destruct (Hp ltac:(now destruct p)) as (x & Gx & Ix). pose proof Gx as Gx'. rewrite get_message_eq in Gx'.
    rewrite (names_in_last _ _ _ _ Gx') in E. destruct q as [|b q _] using rev_ind; [now destruct (names_in (d_messages d) p)|].
    destruct (Hq ltac:(now destruct q)) as (y & Gy & Iy). pose proof Gy as Gy'. rewrite get_message_eq in Gy'.
    rewrite (names_in_last _ _ _ _ Gy') in E. apply app_inj_tail in E. destruct E as (E & En).
    assert (Epq : p = q) by (apply IH; [intros N; now apply (Up p a x)|intros N; now apply (Up q b y)|exact E]). subst q.
    f_equal. f_equal. apply (D p a b x y Gx Gy Ix Iy). now rewrite En.
Qed.

(** ** Theorems *)

(** C72.  The path of a message of the file is the module of the file, the modules
    of the messages around it, and its name in Rust. *)
Theorem C72_paths : forall check fs search n f d c d' pre k m m',
  read_proto check fs search n f = ROk d -> process c d = GOk d' ->
  get_message d (pre ++ [k]) = Some m -> m_imported m = false -> get_message d' (pre ++ [k]) = Some m' ->
  message_info_path m' = join_with "." (d_module d :: map (fun x => "mod_" ++ x)%string (names_in (d_messages d) pre) ++ [sanitize_keyword (m_name m)]).
Proof.
  intros check fs search n f d c d' pre k m m' Rd A G I G'. destruct (read_placed _ _ _ _ _ _ Rd) as (R & _).
  pose proof (process_head c d d' A (pre ++ [k])) as H. rewrite G, G' in H. inversion H as [|? ? HF]; subst.
  unfold message_info_path. rewrite (hf_name _ _ HF), (hf_module _ _ HF). destruct (module_at d R pre k m G I) as (_ & ->).
  rewrite app_comm_cons. now rewrite join_app by discriminate.
Qed.
Print Assumptions C72_paths.

(** Two messages of a file have different paths. *)
Theorem C72_unique : forall check fs search n f d c d' i j mi mj,
  read_proto check fs search n f = ROk d -> process c d = GOk d' -> scopes_distinct d ->
  get_message d' i = Some mi -> m_imported mi = false -> get_message d' j = Some mj -> m_imported mj = false ->
  message_info_path mi = message_info_path mj -> i = j.
Proof.
  intros check fs search n f d c d' i j mi mj Rd A D Gi' Ii' Gj' Ij' E. destruct (read_placed _ _ _ _ _ _ Rd) as (R & _).
  destruct (read_desc_placed d R) as (_ & Nd).
  assert (Src : forall p mp, get_message d' p = Some mp -> m_imported mp = false -> exists x, get_message d p = Some x /\ m_imported x = false).
  { intros p mp Gp Ip. pose proof (process_head c d d' A p) as H. rewrite Gp in H. inversion H as [|x y HF X Y]; subst.
    exists x. split; [reflexivity|]. now rewrite <- (hf_imported _ _ HF). }
  destruct (Src i mi Gi' Ii') as (x & Gx & Ix). destruct (Src j mj Gj' Ij') as (y & Gy & Iy).
  destruct i as [|a p _] using rev_ind; [discriminate|]. destruct j as [|b q _] using rev_ind; [discriminate|].
  rewrite (C72_paths check fs search n f d c d' p a x mi Rd A Gx Ix Gi') in E.
  rewrite (C72_paths check fs search n f d c d' q b y mj Rd A Gy Iy Gj') in E.
  assert (Up : forall p k m, get_message d (p ++ [k]) = Some m -> m_imported m = false -> p <> [] -> own_at d p).
  { intros p0 k0 m0 G0 I0 N0. now apply (proj1 (module_at d R p0 k0 m0 G0 I0)). }
  assert (Dn : forall p, (p <> [] -> own_at d p) -> Forall (fun s => contains_char "." s = false) (map (fun x => "mod_" ++ x)%string (names_in (d_messages d) p))).
  { induction p0 as [|k0 p0 IH] using rev_ind; intros Hp; [constructor|]. destruct (Hp ltac:(now destruct p0)) as (z & Gz & Iz).
    pose proof Gz as Gz'. rewrite get_message_eq in Gz'. rewrite (names_in_last _ _ _ _ Gz'), map_app. apply Forall_app. split.
    - apply IH. intros N0. now apply (Up p0 k0 z).
    - constructor; [|constructor]. cbn. exact (Nd _ _ Gz). }
  assert (Ds : forall p z, get_message d p = Some z -> contains_char "." (sanitize_keyword (m_name z)) = false).
  { intros p0 z Gz. pose proof (Nd _ _ Gz) as N0. unfold no_dot in N0.
    rewrite sanitize_keyword_segments, (split_none "." _ N0). cbn. unfold sanitize_segment.
    repeat match goal with |- context [if ?b then _ else _] => destruct b end; rewrite ?contains_char_app, ?N0; reflexivity. }
  assert (Sp : forall p z k, get_message d (p ++ [k]) = Some z -> m_imported z = false ->
     split_on "." (join_with "." (d_module d :: map (fun x => "mod_" ++ x)%string (names_in (d_messages d) p) ++ [sanitize_keyword (m_name z)]))
     = split_on "." (d_module d) ++ map (fun x => "mod_" ++ x)%string (names_in (d_messages d) p) ++ [sanitize_keyword (m_name z)]).
  { intros p0 z k0 Gz Iz. set (l := map _ _ ++ _). assert (Nl : l <> []) by (unfold l; intros X; now destruct (app_cons_not_nil _ _ _ (eq_sym X))).
    change (join_with "." (d_module d :: l)) with (match l with [] => d_module d | _ => d_module d ++ "." ++ join_with "." l end)%string.
    destruct l as [|s l'] eqn:El; [now destruct Nl|]. rewrite <- El in *. clear El.
    change ("." ++ join_with "." l)%string with (String "." (join_with "." l)). rewrite split_app_gen. f_equal.
    apply split_join; [exact Nl|]. unfold l. apply Forall_app. split; [apply Dn; now apply (Up p0 k0 z)|]. constructor; [|constructor]. exact (Ds _ _ Gz). }
  apply (f_equal (split_on ".")) in E. rewrite (Sp p x a Gx Ix), (Sp q y b Gy Iy) in E. apply app_inv_head in E.
  apply app_inj_tail in E. destruct E as (E & En).
  assert (Em : names_in (d_messages d) p = names_in (d_messages d) q).
  { clear -E. revert E. generalize (names_in (d_messages d) p) as u, (names_in (d_messages d) q) as v.
    induction u as [|h u IH]; intros [|h' v] E; try discriminate; [reflexivity|]. cbn in E. injection E as E1 E2. f_equal; [exact E1|now apply IH]. }
  assert (Epq : p = q) by (apply (names_inj d D Up); [now apply (Up p a x)|now apply (Up q b y)|exact Em]). subst q.
  f_equal. f_equal. exact (D p a b x y Gx Gy Ix Iy En).
Qed.
Print Assumptions C72_unique.

(** In a package, the path of a message at the top whose name is no keyword is its
    full name in protobuf. *)
Theorem C72_full_name_partial : forall check fs search n f d c d' k m m',
  read_proto check fs search n f = ROk d -> process c d = GOk d' -> d_package d <> "" ->
  get_message d [k] = Some m -> m_imported m = false -> sanitize_keyword (m_name m) = m_name m -> get_message d' [k] = Some m' ->
  message_info_path m' = full_name d [k].
Proof.
  intros check fs search n f d c d' k m m' Rd A P G I Kw G'.
  rewrite (C72_paths check fs search n f d c d' [] k m m' Rd A G I G'). destruct (read_placed _ _ _ _ _ _ Rd) as (_ & F).
  unfold file_module in F. unfold full_name. rewrite (proj2 (String.eqb_neq (d_package d) "") P) in *.
  injection F as ->. rewrite Kw. rewrite get_message_eq in G. cbn in G |- *. destruct (nth_error (d_messages d) k); [|discriminate].
  injection G as ->. reflexivity.
Qed.
Print Assumptions C72_full_name_partial.

Definition info_file : text := "syntax = ""proto3""; package app.v1; message Node { message Part { message type { } Part p = 1; } message Other { } } message Part { int32 x = 1; } message self { }".
Definition info_paths (c : config) (a : text) : list text :=
  match read_two a "" with
  | ROk d => match process c d with
    | GOk d' => map message_info_path (flat_map (fun p => match get_message d' p with Some m => [m] | None => [] end)
                  [[0]; [0; 0]; [0; 0; 0]; [0; 1]; [1]; [2]]%nat)
    | _ => [] end
  | _ => [] end.
Example C72_case : exists d d', read_two info_file "" = ROk d /\ process plain_config d = GOk d' /\ scopes_distinct d /\ d_package d <> "" /\
  info_paths plain_config info_file =
    ["app.v1.Node"; "app.v1.mod_Node.Part"; "app.v1.mod_Node.mod_Part.type_pb"; "app.v1.mod_Node.Other"; "app.v1.Part"; "app.v1.self_pb"].
Proof.
  eexists _, _. split; [vm_compute; reflexivity|]. split; [vm_compute; reflexivity|]. split; [|split; [vm_compute; discriminate|vm_compute; reflexivity]].
  intros pre a b x y Gx Gy _ _ E. remember (pre ++ [a]) as u eqn:Eu. remember (pre ++ [b]) as v eqn:Ev.
  assert (L : length u = length v) by (subst; now rewrite !app_length). assert (Z : u = v -> a = b) by (intros ->; rewrite Eu in Ev; now apply app_inj_tail in Ev).
  apply Z. clear Z Eu Ev. apply get_message_in in Gx, Gy. vm_compute in Gx, Gy.
  repeat (destruct Gx as [Gx|Gx]; [injection Gx as <- <-; repeat (destruct Gy as [Gy|Gy]; [injection Gy as <- <-;
     try (vm_compute in E; discriminate E); try (cbn in L; discriminate L); reflexivity|]); destruct Gy|]). destruct Gx.
Qed.

(** ** What is not so *)
(** Not the full name: of a message in another one, of one whose name is a
    keyword, of one without package. *)
Theorem C72_full_name_refuted : forall ti, In ti
   [("syntax = ""proto3""; package p; message A { message B { } }", [0; 0]%nat); ("syntax = ""proto3""; package p; message type { }", [0%nat]);
    ("syntax = ""proto3""; message A { }", [0%nat])] ->
  exists d d' m', read_two (fst ti) "" = ROk d /\ process plain_config d = GOk d' /\ get_message d' (snd ti) = Some m' /\ m_imported m' = false /\
    message_info_path m' <> full_name d (snd ti).
Proof.
  intros ti H. repeat (destruct H as [<-|H]; [eexists _, _, _; (split; [vm_compute; reflexivity|]); (split; [vm_compute; reflexivity|]);
    (split; [vm_compute; reflexivity|]); (split; [reflexivity|]); vm_compute; discriminate|]). destruct H.
Qed.
Print Assumptions C72_full_name_refuted.

(** Not unique over several files, though the full names are different. *)
Theorem C72_across_files_refuted : exists a b d1 d2 d1' d2' i j m1 m2,
  read_two a "" = ROk d1 /\ read_two b "" = ROk d2 /\ process plain_config d1 = GOk d1' /\ process plain_config d2 = GOk d2' /\
  get_message d1' i = Some m1 /\ get_message d2' j = Some m2 /\ full_name d1 i <> full_name d2 j /\ message_info_path m1 = message_info_path m2.
Proof.
  exists "syntax = ""proto3""; package p; message A { message B { } }", "syntax = ""proto3""; package p.mod_A; message B { }".
  eexists _, _, _, _, [0; 0]%nat, [0%nat], _, _. repeat match goal with |- _ /\ _ => split end; try (vm_compute; reflexivity). vm_compute. discriminate.
Qed.
Print Assumptions C72_across_files_refuted.
