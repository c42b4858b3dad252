(** Property theorems C39 about name resolution. *)
From Coq Require Import String Ascii Arith Lia.
From Verif Require Import Base Schema Keywords KeywordFacts Modules ModuleFacts Passes GenCheck Cycles CycleFacts BreakFacts IndexFacts
  PassFacts ResolveFacts Props_Passes.
Import StringSyntax.
Local Open Scope string_scope.
Local Open Scope list_scope.

(* ====================================================================== *)
(** * C39: the innermost scope *)

(** [name] in the scope [s]; the empty text is the outermost scope *)
Definition qualify (s name : text) : text := match s with "" => name | _ => (s ++ "." ++ name)%string end.

(** [scopes s l]: [l] are the scopes enclosing what is declared in [s],
    innermost first: [s] itself, [s] without its last segment, and so on to the
    outermost scope. *)
Inductive scopes : text -> list text -> Prop :=
| sc_one : forall s, s <> "" -> contains_char "." s = false -> scopes s [s; ""]
| sc_more : forall s w l, contains_char "." w = false -> scopes s l ->
    scopes (s ++ "." ++ w)%string ((s ++ "." ++ w)%string :: l).

(** [declared d full t]: the type [t] is declared with the full name [full] *)
Inductive declared (d : file_descriptor) : text -> field_type -> Prop :=
| dc_message : forall i m, get_message d i = Some m ->
    declared d (qualify (m_package m) (m_name m)) (TMessage i)
| dc_enum : forall q e, get_enum d q = Some e ->
    declared d (qualify (en_package e) (en_name e)) (TEnum q).

(** what a name used in message [m] stands for *)
Inductive denotes (d : file_descriptor) (m : message) : text -> field_type -> Prop :=
| dn_absolute : forall n t, declared d n t -> denotes d m (String "." n) t
| dn_relative : forall n ss inner s outer t, (forall n', n <> String "." n') ->
    scopes (qualify (m_package m) (m_name m)) ss -> ss = inner ++ s :: outer ->
    declared d (qualify s n) t ->
    (forall s' t', In s' inner -> ~ declared d (qualify s' n) t') ->
    denotes d m n t.

(** what a type written in message [m] stands for *)
Inductive means (d : file_descriptor) (m : message) : field_type -> field_type -> Prop :=
| mn_name : forall n t, denotes d m n t -> means d m (TMessageOrEnum n) t
| mn_map : forall k v k' v', means1 d m k k' -> means1 d m v v' -> means d m (TMap k v) (TMap k' v')
| mn_other : forall t, (forall n, t <> TMessageOrEnum n) -> (forall k v, t <> TMap k v) -> means d m t t
(** the key or the value of a map; names in a map in a map stay unresolved *)
with means1 (d : file_descriptor) (m : message) : field_type -> field_type -> Prop :=
| m1_name : forall n t, denotes d m n t -> means1 d m (TMessageOrEnum n) t
| m1_other : forall t, (forall n, t <> TMessageOrEnum n) -> means1 d m t t.

(** [names t n]: the name [n] occurs in the type [t] *)
Definition names (t : field_type) (n : text) : Prop :=
  t = TMessageOrEnum n \/ (exists v, t = TMap (TMessageOrEnum n) v) \/ (exists k, t = TMap k (TMessageOrEnum n)).
(** nothing is called [n] in the scopes of [m] *)
Definition unknown (d : file_descriptor) (m : message) (n : text) : Prop :=
  match n with
  | String "." n' => forall t, ~ declared d n' t
  | _ => forall ss s t, scopes (qualify (m_package m) (m_name m)) ss -> In s ss -> ~ declared d (qualify s n) t
  end.

(** Names as they are after reading a file: packages are dotted names, nested
    enums have a package (the name of the message at least). *)
Record named_well (d : file_descriptor) : Prop := mkNamed {
  nw_package : forall i m, get_message d i = Some m -> m_package m = "" \/ exists l, scopes (m_package m) l;
  nw_name : forall i m, get_message d i = Some m -> m_name m <> "" /\ contains_char "." (m_name m) = false;
  nw_enum : forall i m e, get_message d i = Some m -> In e (m_enums m) -> en_package e <> "" }.

Lemma qualify_dot s n : s <> "" -> qualify s n = dot s n.
Proof. destruct s; [now intros H|reflexivity]. Qed.
Lemma msg_full_qualify m : msg_full_name m = qualify (m_package m) (m_name m).
Proof. unfold msg_full_name, qualify. destruct (m_package m); reflexivity. Qed.

Lemma scopes_ne s l : scopes s l -> s <> "".
Proof. induction 1 as [|s w l _ _ IH]; [assumption|]. destruct s; [now intros _|discriminate]. Qed.
Lemma scopes_head s l : scopes s l -> exists l', l = s :: l'.
Proof. destruct 1; eauto. Qed.
Lemma scopes_fun s l : scopes s l -> forall l', scopes s l' -> l = l'.
Proof.
  assert (Cd : forall a b, contains_char "." (a ++ "." ++ b)%string = true).
  { intros a b. change ("." ++ b)%string with (String "." b). revert b. induction a; intros b; cbn; [reflexivity|].
    rewrite IHa. apply Bool.orb_true_r. }
  assert (Inj : forall a b w v, contains_char "." w = false -> contains_char "." v = false ->
            (a ++ "." ++ w)%string = (b ++ "." ++ v)%string -> a = b /\ w = v).
  { induction a as [|x a IHa]; intros [|y b] w v Nw Nv E; cbn in E.
    - injection E as ->. auto.
    - injection E as <- ->. pose proof (Cd b v) as C. cbn [append] in C. congruence.
    - injection E as -> <-. pose proof (Cd a w) as C. cbn [append] in C. congruence.
    - injection E as -> E. destruct (IHa b w v Nw Nv E) as (-> & ->). auto. }
  induction 1 as [s Ns Nd|s w l Nw S IH]; intros l' S'.
  - inversion S' as [s' _ _ E1 E2|s' w' l0 _ _ E1 E2]; subst; [reflexivity|]. rewrite Cd in Nd. discriminate.
  - inversion S' as [s' _ Nd E1 E2|s' w' l0 Nw' S0 E1 E2].
    + rewrite Cd in Nd. discriminate.
    + destruct (Inj _ _ _ _ Nw' Nw E1) as (-> & ->). f_equal. now apply IH.
Qed.

(** the names the program tries are the name in each scope *)
Lemma scopes_prefixes s l n : scopes s l ->
  map (fun x => qualify x n) l = dot s n :: map (fun p => dot p n) (dot_prefixes "" s) ++ [n].
Proof.
  induction 1 as [s Ns Nd|s w l Nw S IH].
  - cbn [map]. rewrite qualify_dot, dot_prefixes_none by assumption. reflexivity.
  - cbn [map]. rewrite IH. change ("." ++ w)%string with (String "." w). rewrite dot_prefixes_app by exact Nw. cbn [append map app].
    rewrite qualify_dot; [reflexivity|]. apply scopes_ne in S. destruct s; [now intros _|discriminate].
Qed.

Lemma test_names_scopes m n ss : (forall n', n <> String "." n') ->
  (m_package m = "" \/ exists l, scopes (m_package m) l) -> m_name m <> "" -> contains_char "." (m_name m) = false ->
  scopes (qualify (m_package m) (m_name m)) ss ->
  test_names (m_package m) (m_name m) n = map (fun x => qualify x n) ss.
Proof.
  intros Nn P N1 N2 S.
  assert (T : test_names (m_package m) (m_name m) n =
     if String.eqb (m_package m) "" then [dot (m_name m) n; n]
     else [dot (dot (m_package m) (m_name m)) n; dot (m_package m) n] ++ map (fun p => dot p n) (dot_prefixes "" (m_package m)) ++ [n]).
  { unfold test_names. destruct n as [|a n']; [reflexivity|]. destruct (Ascii.eqb_spec a "."%char) as [->|]; [|reflexivity].
    now contradiction (Nn n'). }
  rewrite T. clear T. destruct P as [P|(l & Sl)].
  - rewrite P in *. cbn [qualify] in S. rewrite (scopes_fun _ _ S _ (sc_one _ N1 N2)). cbn [map String.eqb]. now rewrite qualify_dot.
  - pose proof (scopes_ne _ _ Sl) as Ne. rewrite qualify_dot in S by exact Ne.
    rewrite (scopes_fun _ _ S _ (sc_more _ _ _ N2 Sl)). cbn [map]. rewrite (scopes_prefixes _ _ _ Sl).
    destruct (String.eqb_spec (m_package m) "") as [E|_]; [contradiction|]. cbn [app].
    rewrite qualify_dot; [reflexivity|]. destruct (m_package m); [now contradiction Ne|discriminate].
Qed.
Lemma scopes_exist m : (m_package m = "" \/ exists l, scopes (m_package m) l) -> m_name m <> "" -> contains_char "." (m_name m) = false ->
  exists ss, scopes (qualify (m_package m) (m_name m)) ss.
Proof.
  intros [P|(l & Sl)] N1 N2.
  - rewrite P. eexists. now apply sc_one.
  - rewrite qualify_dot by (now apply scopes_ne in Sl). eexists. apply sc_more; eassumption.
Qed.

Section Lookup.
Variable d : file_descriptor.
Hypothesis W : named_well d.
Lemma enum_full q e : get_enum d q = Some e ->
  (match e_msg q with [] => enum_full_name e | _ => nested_enum_full_name e end) = qualify (en_package e) (en_name e).
Proof.
  intros G. destruct q as [p k]. unfold get_enum in G. cbn [e_msg e_pos] in *. destruct p as [|i p].
  - unfold enum_full_name, qualify. destruct (en_package e); reflexivity.
  - destruct (get_message d (i :: p)) as [m|] eqn:Gm; [|discriminate]. apply nth_error_In in G.
    pose proof (nw_enum d W _ _ _ Gm G) as N. now rewrite qualify_dot.
Qed.
Lemma lookup_declared n : match lookup (full_msgs d) n with
  | Some i => declared d n (TMessage i)
  | None => match lookup (full_enums d) n with
            | Some q => declared d n (TEnum q)
            | None => forall t, ~ declared d n t
            end
  end.
Proof.
  destruct (lookup (full_msgs d) n) as [i|] eqn:E1.
  - apply lookup_some, full_msgs_in in E1. destruct E1 as (m & G & <-). rewrite msg_full_qualify. now constructor.
  - destruct (lookup (full_enums d) n) as [q|] eqn:E2.
    + apply lookup_some, full_enums_in in E2. destruct E2 as (e & G & <-). rewrite (enum_full q e G). now constructor.
    + intros t D. destruct D as [i m G|q e G].
      * apply (lookup_none _ _ E1 i). apply full_msgs_in. exists m. split; [exact G|apply msg_full_qualify].
      * apply (lookup_none _ _ E2 q). apply full_enums_in. exists e. split; [exact G|]. now apply enum_full.
Qed.
Lemma first_match_spec l : match first_match (full_msgs d) (full_enums d) l with
  | Some t => exists l1 n l2, l = l1 ++ n :: l2 /\ declared d n t /\ forall n' t', In n' l1 -> ~ declared d n' t'
  | None => forall n t, In n l -> ~ declared d n t
  end.
Proof.
  induction l as [|n l IH]; cbn [first_match]; [intros n t []|]. pose proof (lookup_declared n) as L.
  destruct (lookup (full_msgs d) n) as [i|]; [exists [], n, l; split; [reflexivity|]; split; [exact L|intros ? ? []]|].
  destruct (lookup (full_enums d) n) as [q|]; [exists [], n, l; split; [reflexivity|]; split; [exact L|intros ? ? []]|].
  destruct (first_match (full_msgs d) (full_enums d) l) as [t|].
  - destruct IH as (l1 & n0 & l2 & -> & D & H). exists (n :: l1), n0, l2. split; [reflexivity|]. split; [exact D|].
    intros n' t' [<-|Hn]; [apply L|now apply H].
  - intros n0 t [<-|Hn]; [apply L|now apply IH].
Qed.

Lemma map_split {A B} (g : A -> B) l l1 y l2 : map g l = l1 ++ y :: l2 ->
  exists a x b, l = a ++ x :: b /\ map g a = l1 /\ g x = y.
Proof.
  revert l1. induction l as [|x l IH]; intros [|z l1] E; cbn in E; try discriminate.
  - injection E as E _. exists [], x, l. auto.
  - injection E as <- E. destruct (IH _ E) as (a & x' & b & -> & <- & E'). exists (x :: a), x', b. auto.
Qed.

Lemma resolve_name_spec i m n : get_message d i = Some m ->
  match resolve_name (full_msgs d) (full_enums d) (m_package m) (m_name m) (TMessageOrEnum n) with
  | GOk t => denotes d m n t
  | GErr e => e = ErrNotFound n /\ unknown d m n
  end.
Proof.
  intros G. unfold resolve_name. pose proof (first_match_spec (test_names (m_package m) (m_name m) n)) as F.
  destruct (nw_name d W _ _ G) as (N1 & N2). pose proof (nw_package d W _ _ G) as P.
  assert (A : (exists n', n = String "." n') \/ (forall n', n <> String "." n')).
  { destruct n as [|a n']; [right; discriminate|]. destruct (Ascii.ascii_dec a "."%char) as [->|Na]; [left; eauto|].
    right. intros n0 E. now injection E. }
  destruct A as [(n' & ->)|A].
  - change (test_names (m_package m) (m_name m) (String "." n')) with [n'] in *.
    destruct (first_match (full_msgs d) (full_enums d) [n']) as [t|].
    + destruct F as (l1 & n0 & l2 & E & D & _). destruct l1 as [|? [|? ?]]; try discriminate. injection E as <- _. now constructor.
    + split; [reflexivity|]. cbn. intros t. apply F. now left.
  - destruct (scopes_exist m P N1 N2) as (ss & S). rewrite (test_names_scopes m n ss A P N1 N2 S) in *.
    destruct (first_match (full_msgs d) (full_enums d) (map (fun x => qualify x n) ss)) as [t|].
    + destruct F as (l1 & n0 & l2 & E & D & H). destruct (map_split _ _ _ _ _ E) as (a & x & b & -> & <- & <-).
      apply dn_relative with (a ++ x :: b) a x b; auto. intros s' t' Hs. apply H. exact (in_map (fun x => qualify x n) _ _ Hs).
    + split; [reflexivity|]. assert (U : forall ss s t, scopes (qualify (m_package m) (m_name m)) ss -> In s ss -> ~ declared d (qualify s n) t).
      { intros ss' s t S' Hs. rewrite (scopes_fun _ _ S' _ S) in Hs. apply F. exact (in_map (fun x => qualify x n) _ _ Hs). }
      unfold unknown. destruct n as [|a n']; [exact U|]. destruct (Ascii.ascii_dec a "."%char) as [->|Na]; [now contradiction (A n')|].
      destruct a as [[] [] [] [] [] [] [] []]; try exact U. now contradiction Na.
Qed.
Lemma resolve_name1 i m t : get_message d i = Some m ->
  match resolve_name (full_msgs d) (full_enums d) (m_package m) (m_name m) t with
  | GOk t' => means1 d m t t'
  | GErr e => exists n, t = TMessageOrEnum n /\ e = ErrNotFound n /\ unknown d m n
  end.
Proof.
  intros G. destruct t; try (apply m1_other; discriminate). pose proof (resolve_name_spec i m name G) as R.
  destruct (resolve_name (full_msgs d) (full_enums d) (m_package m) (m_name m) (TMessageOrEnum name)); [now constructor|eauto].
Qed.
Lemma resolve_type_spec i m t : get_message d i = Some m ->
  match resolve_type (full_msgs d) (full_enums d) (m_package m) (m_name m) t with
  | GOk t' => means d m t t'
  | GErr e => exists n, names t n /\ e = ErrNotFound n /\ unknown d m n
  end.
Proof.
  intros G. destruct t; try (apply mn_other; discriminate); cbn [resolve_type].
  - pose proof (resolve_name_spec i m name G) as R.
    destruct (resolve_name (full_msgs d) (full_enums d) (m_package m) (m_name m) (TMessageOrEnum name)); [now constructor|].
    exists name. split; [now left|exact R].
  - pose proof (resolve_name1 i m t1 G) as R1. pose proof (resolve_name1 i m t2 G) as R2.
    destruct (resolve_name (full_msgs d) (full_enums d) (m_package m) (m_name m) t1) as [k|e]; cbn [gbind].
    + destruct (resolve_name (full_msgs d) (full_enums d) (m_package m) (m_name m) t2) as [v|e]; cbn [gbind]; [now constructor|].
      destruct R2 as (n & -> & E). exists n. split; [right; right; eauto|exact E].
    + destruct R1 as (n & -> & E). exists n. split; [right; left; eauto|exact E].
Qed.
End Lookup.

(** On success every field of every message gets the type its own one stands
    for, and nothing else about it changes. *)
Theorem C39_resolution : forall d d', named_well d -> resolve_types d = GOk d' ->
  forall i, opt_rel (fun m m' => fields_rel (fun f f' => exists t, means d m (f_typ f) t /\
      f' = mkField (f_name f) (f_freq f) t (f_number f) (f_default f) (f_packed f) (f_boxed f) (f_deprecated f)) m m')
    (get_message d i) (get_message d' i).
Proof.
  intros d d' W H i. pose proof (resolve_types_get d d' i H) as R. rewrite get_assign in R.
  destruct (get_message d i) as [m|] eqn:G; cbn in R; inversion R as [|x m' M A B]; subst; constructor.
  apply resolve_message_ok in M. destruct M as (M & _). apply msg_fields_rel in M.
  assert (Q : forall l l', Forall2 (field_resolves (full_msgs d) (full_enums d) (set_indices i m)) l l' ->
    Forall2 (fun f f' => exists t, means d m (f_typ f) t /\
      f' = mkField (f_name f) (f_freq f) t (f_number f) (f_default f) (f_packed f) (f_boxed f) (f_deprecated f)) l l').
  { intros l l' F. induction F as [|f f' l l' (t & T & ->) F IH]; constructor; [|exact IH].
    exists t. split; [|reflexivity]. rewrite set_indices_eq in T. cbn in T.
    pose proof (resolve_type_spec d W i m (f_typ f) G) as S. now rewrite T in S. }
  destruct M as (M1 & M2). apply Q in M1.
  assert (Eo : m_fields (set_indices i m) = m_fields m /\ m_oneofs (set_indices i m) = m_oneofs m) by (rewrite set_indices_eq; auto).
  destruct Eo as (Ef & Eo). rewrite Ef in M1. rewrite Eo in M2. split; [exact M1|].
  clear - M2 Q. induction M2; constructor; auto.
Qed.
Print Assumptions C39_resolution.

Lemma gmap_err {A B} (f : A -> gres B) l e : gmap f l = GErr e -> exists x, In x l /\ f x = GErr e.
Proof.
  induction l as [|x l IH]; cbn; [discriminate|]. destruct (f x) as [y|e'] eqn:E; cbn.
  - destruct (gmap f l) as [ys|e'] eqn:E'; cbn; [discriminate|]. intros H. injection H as <-. destruct (IH eq_refl) as (x' & Hx & Ex). exists x'. auto.
  - intros H. injection H as <-. exists x. auto.
Qed.
Lemma gbind_err {A B} (x : gres A) (k : A -> gres B) e : gbind x k = GErr e -> x = GErr e \/ exists a, x = GOk a /\ k a = GErr e.
Proof. destruct x; cbn; intros H; [right; eauto|left; congruence]. Qed.

Lemma resolve_message_err fm fe : forall m e, resolve_message fm fe m = GErr e ->
  exists r m' f, (r = [] /\ m' = m \/ get_in (m_messages m) r = Some m') /\ field_of m' f /\
    resolve_type fm fe (m_package m') (m_name m') (f_typ f) = GErr e.
Proof.
  intros m. induction m as [m IH] using message_tree_ind. intros e. rewrite resolve_message_eq.
  assert (RF : forall f, resolve_field fm fe (m_package m) (m_name m) f = GErr e -> resolve_type fm fe (m_package m) (m_name m) (f_typ f) = GErr e).
  { intros f E. apply gbind_err in E. destruct E as [E|(t & _ & E)]; [exact E|discriminate]. }
  intros H. apply gbind_err in H. destruct H as [H|(fs & _ & H)].
  { apply gmap_err in H. destruct H as (f & Hf & E). exists [], m, f. split; [now left|]. split; [now left|]. now apply RF. }
  apply gbind_err in H. destruct H as [H|(os & _ & H)].
  { apply gmap_err in H. destruct H as (o & Ho & E). apply gbind_err in E. destruct E as [E|(? & _ & E)]; [|discriminate].
    apply gmap_err in E. destruct E as (f & Hf & E). exists [], m, f. split; [now left|]. split; [right; eauto|]. now apply RF. }
  apply gbind_err in H. destruct H as [H|(ms & _ & H)]; [|discriminate].
  apply gmap_err in H. destruct H as (x & Hx & E). rewrite Forall_forall in IH. destruct (IH x Hx e E) as (r & m' & f & G & Hf & T).
  apply In_nth_error in Hx. destruct Hx as (k & Hk). exists (k :: r), m', f. split; [right|auto]. cbn [get_in]. rewrite Hk.
  destruct G as [(-> & ->)|G]; [reflexivity|]. destruct r; [discriminate|exact G].
Qed.

(** An error names a type that occurs in a field but is declared in none of the
    scopes of its message. *)
Theorem C39_error : forall d e, named_well d -> resolve_types d = GErr e ->
  exists i m f n, get_message d i = Some m /\ field_of m f /\ names (f_typ f) n /\
    e = ErrNotFound n /\ unknown d m n.
Proof.
  intros d e W H. unfold resolve_types in H. apply gbind_err in H. destruct H as [H|(ms & _ & H)]; [|discriminate].
  apply gmap_err in H. destruct H as (x & Hx & E). apply resolve_message_err in E. destruct E as (r & m' & f & G & Hf & T).
  apply In_nth_error in Hx. destruct Hx as (k & Hk).
  assert (G' : get_message (assign_indices d) (k :: r) = Some m').
  { rewrite get_message_eq. cbn [get_in]. rewrite Hk. destruct G as [(-> & ->)|G]; [reflexivity|]. destruct r; [discriminate|exact G]. }
  rewrite get_assign in G'. destruct (get_message d (k :: r)) as [m|] eqn:Gm; [|discriminate]. cbn [option_map] in G'. injection G' as <-.
  rewrite set_indices_eq in T, Hf. cbn in T. pose proof (resolve_type_spec d W _ m (f_typ f) Gm) as S. rewrite T in S.
  destruct S as (n & N & E & U). exists (k :: r), m, f, n. auto.
Qed.
Print Assumptions C39_error.

(** and conversely: with such a name there is no success (so it is the error
    above) *)
Theorem C39_unknown_rejected : forall d i m f n, named_well d -> get_message d i = Some m -> field_of m f ->
  names (f_typ f) n -> unknown d m n -> exists n', resolve_types d = GErr (ErrNotFound n').
Proof.
  intros d i m f n W G Hf N U. destruct (resolve_types d) as [d'|e] eqn:E.
  - exfalso. pose proof (C39_resolution d d' W E i) as R. rewrite G in R. inversion R as [|x m' F A B]; subst.
    apply field_of_all in Hf. destruct (Forall2_in_l _ _ _ (fields_rel_all _ _ _ F) f Hf) as (f' & _ & (t & M & _)).
    assert (K : forall t', denotes d m n t' -> False).
    { intros t' D. unfold unknown in U. destruct D as [n t' D|n ss inner s outer t' Nn S -> D _].
      - exact (U _ D).
      - destruct n as [|a n']; [apply (U _ s t' S); [rewrite in_app_iff; right; now left|exact D]|].
        destruct (Ascii.ascii_dec a "."%char) as [->|Na]; [now apply (Nn n')|].
        destruct a as [[] [] [] [] [] [] [] []]; try (now contradiction Na);
          apply (U _ s t' S); try exact D; rewrite in_app_iff; right; now left. }
    destruct N as [N|[(v & N)|(k & N)]]; rewrite N in M.
    + inversion M as [? ? D| |? Nn]; subst; [now apply (K t)|now apply (Nn n)].
    + inversion M as [|? ? ? ? M1 _|? _ Nm]; subst; [|now apply (Nm (TMessageOrEnum n) v)].
      inversion M1 as [? ? D|? Nn]; subst; [now apply (K k')|now apply (Nn n)].
    + inversion M as [|? ? ? ? _ M1|? _ Nm]; subst; [|now apply (Nm k (TMessageOrEnum n))].
      inversion M1 as [? ? D|? Nn]; subst; [now apply (K v')|now apply (Nn n)].
  - destruct (C39_error d e W E) as (_ & _ & _ & n' & _ & _ & _ & -> & _). eauto.
Qed.
Print Assumptions C39_unknown_rejected.

(** A name stands for at most one thing if full names are unique. *)
Theorem C39_unique : forall d m n t t', (forall n t t', declared d n t -> declared d n t' -> t = t') ->
  denotes d m n t -> denotes d m n t' -> t = t'.
Proof.
  intros d m n t t' U D D'. destruct D as [n t D|n ss a s b t Nn S E D H].
  - inversion D' as [? ? D2|? ? ? ? ? ? Nn]; subst; [now apply (U n)|now contradiction (Nn n)].
  - inversion D' as [? ? D2|? ss' a' s' b' ? _ S' E' D2 H']; subst; [now contradiction (Nn n0)|].
    pose proof (scopes_fun _ _ S _ S') as E.
    assert (K : a = a' /\ s = s').
    { clear S S' D' Nn. revert a' E H'. induction a as [|x a IH]; intros [|y a'] E H'; cbn in E; injection E as E1 E2.
      - auto.
      - exfalso. subst y. apply (H' s t); [now left|exact D].
      - exfalso. subst x. apply (H s' t'); [now left|exact D2].
      - subst y. destruct (IH (fun s0 t0 H0 => H s0 t0 (or_intror H0)) a' E2 (fun s0 t0 H0 => H' s0 t0 (or_intror H0))) as (-> & ->). auto. }
    destruct K as (_ & <-). now apply (U (qualify s n)).
Qed.
Print Assumptions C39_unique.

(** an inner declaration shadows an outer one; a leading dot overrides that *)
Definition scopeDesc : file_descriptor := set_own_package (mkDesc "a.b" Proto3
  [msg "T" [] [] [];
   msg "M" [fd "x" P3Optional (TMessageOrEnum "T") 1; fd "y" P3Optional (TMessageOrEnum ".a.b.T") 2;
            fd "z" P3Map (TMap TInt32 (TMessageOrEnum "M.T")) 3; fd "w" P3Optional (TMessageOrEnum "b.T") 4] []
           [msg "T" [fd "u" P3Optional (TMessageOrEnum "M") 1] [] []]] [] "a.b").
Example C39_case : match resolve_types scopeDesc with
  | GOk d' => option_map (fun m => map f_typ (m_fields m)) (get_message d' [1]%nat) =
       Some [TMessage [1; 0]; TMessage [0]; TMap TInt32 (TMessage [1; 0]); TMessage [0]]%nat
     /\ option_map (fun m => map f_typ (m_fields m)) (get_message d' [1; 0]%nat) = Some [TMessage [1]]%nat
  | GErr _ => False
  end.
Proof. vm_compute. split; reflexivity. Qed.
Example C39_case_named : named_well scopeDesc.
Proof.
  assert (Sab : scopes "a.b" ["a.b"; "a"; ""]) by (apply (sc_more "a" "b"); [reflexivity|]; apply sc_one; [discriminate|reflexivity]).
  assert (Q : forall i m, get_message scopeDesc i = Some m ->
     (m_package m = "a.b" \/ m_package m = "a.b.M") /\ (m_name m = "T" \/ m_name m = "M") /\ m_enums m = []).
  { intros i m G. apply get_message_in in G. cbn in G. decompose [or] G; try contradiction;
      match goal with H : _ = _ |- _ => injection H as <- <- end; cbn; auto. }
  constructor; intros i m; intros; destruct (Q i m H) as (P & N & E).
  - right. destruct P as [->| ->]; [eauto|]. eexists. apply (sc_more "a.b" "M"); [reflexivity|exact Sab].
  - destruct N as [->| ->]; split; try reflexivity; discriminate.
  - now rewrite E in *.
Qed.
Example C39_case_error : resolve_types (set_own_package (mkDesc "a" Proto3
   [msg "M" [fd "x" P3Optional (TMessageOrEnum ".T") 1] [] []; msg "T" [] [] []] [] "a")) = GErr (ErrNotFound ".T").
Proof. reflexivity. Qed.

(** The names are as required after the packages have been set, if the parsed
    names are identifiers and the package is a dotted name. *)
Inductive parsed (m : message) : Prop := mkParsed {
  pa_package : m_package m = "";
  pa_name : m_name m <> "" /\ contains_char "." (m_name m) = false;
  pa_nested : forall x, In x (m_messages m) -> parsed x }.

Definition placed (m : message) : Prop :=
  (m_package m = "" \/ exists l, scopes (m_package m) l) /\ (m_name m <> "" /\ contains_char "." (m_name m) = false) /\
  forall e, In e (m_enums m) -> en_package e <> "".

Lemma set_package_eq pk mo m : let child := if String.eqb pk "" then m_name m else dot pk (m_name m) in
  let cmod := (mo ++ ".mod_" ++ m_name m)%string in
  m_messages (msg_set_package pk mo m) = map (msg_set_package child cmod) (m_messages m) /\
  m_name (msg_set_package pk mo m) = m_name m /\
  m_package (msg_set_package pk mo m) = (if String.eqb pk "" then m_package m else pk) /\
  m_enums (msg_set_package pk mo m) = map (enum_set_package child cmod) (m_enums m).
Proof. destruct m. cbn. auto. Qed.

Lemma placed_tree m : parsed m -> forall pk mo, (pk = "" \/ exists l, scopes pk l) ->
  placed (msg_set_package pk mo m) /\
  forall r m', get_in (m_messages (msg_set_package pk mo m)) r = Some m' -> placed m'.
Proof.
  induction m as [m IH] using message_tree_ind. intros [P N Nx] pk mo K. rewrite Forall_forall in IH.
  destruct (set_package_eq pk mo m) as (E1 & E2 & E3 & E4).
  set (child := if String.eqb pk "" then m_name m else dot pk (m_name m)) in *.
  assert (C : exists l, scopes child l).
  { unfold child. destruct (String.eqb_spec pk "") as [->|Ne].
    - eexists. now apply sc_one.
    - destruct K as [K|(l & K)]; [contradiction|]. eexists. apply sc_more; [apply N|exact K]. }
  split.
  - split; [|split].
    + rewrite E3. destruct (String.eqb_spec pk "") as [->|Ne]; [now left|exact K].
    + now rewrite E2.
    + intros e He. rewrite E4 in He. apply in_map_iff in He. destruct He as (e0 & <- & _). cbn. destruct C as (l & C). now apply scopes_ne in C.
  - rewrite E1. intros [|k r] m' G; [discriminate|]. cbn [get_in] in G. rewrite nth_error_map in G.
    destruct (nth_error (m_messages m) k) as [x|] eqn:Ek; [|discriminate]. cbn [option_map] in G. apply nth_error_In in Ek.
    destruct (IH x Ek (Nx x Ek) child (mo ++ ".mod_" ++ m_name m)%string (or_intror C)) as (Px & Py).
    destruct r as [|k' r]; [injection G as <-; exact Px|]. now apply (Py (k' :: r)).
Qed.

Theorem C39_names_after_reading : forall d, (d_package d = "" \/ exists l, scopes (d_package d) l) ->
  (forall m, In m (d_messages d) -> parsed m) -> named_well (set_own_package d).
Proof.
  intros d P H.
  assert (K : forall i m, get_message (set_own_package d) i = Some m -> placed m).
  { intros i m G. rewrite get_message_eq in G. destruct i as [|k r]; [discriminate|]. cbn [get_in set_own_package d_messages] in G.
    rewrite nth_error_map in G. destruct (nth_error (d_messages d) k) as [x|] eqn:Ek; [|discriminate]. cbn [option_map] in G.
    apply nth_error_In in Ek. destruct (placed_tree x (H x Ek) (d_package d) (d_module d) P) as (Px & Py).
    destruct r as [|k' r]; [injection G as <-; exact Px|]. now apply (Py (k' :: r)). }
  constructor.
  - intros i m G. apply (K i m G).
  - intros i m G. apply (K i m G).
  - intros i m e G. apply (K i m G).
Qed.
Print Assumptions C39_names_after_reading.
Example C39_case_parsed : parsed (msg "M" [] [] [msg "T" [] [] []]).
Proof.
  assert (N : forall s, s = "M" \/ s = "T" -> s <> "" /\ contains_char "." s = false) by (intros s [->| ->]; split; try reflexivity; discriminate).
  constructor; [reflexivity|apply N; now left|]. cbn. intros x [<-|[]]. constructor; [reflexivity|apply N; now right|intros x []].
Qed.
