(** Facts about splitting, joining and escaping of names. *)
From Coq Require Import String Ascii Arith Lia.
From Verif Require Import Base Schema Keywords.
Import StringSyntax.
Local Open Scope string_scope.
Local Open Scope list_scope.

Lemma append_nil_r : forall s : text, (s ++ "")%string = s.
Proof. induction s as [|a s IH]; cbn; [reflexivity|now rewrite IH]. Qed.

Lemma append_assoc : forall s t u : text, ((s ++ t) ++ u = s ++ (t ++ u))%string.
Proof. induction s as [|a s IH]; intros; cbn; [reflexivity|now rewrite IH]. Qed.

Lemma append_inj_l : forall s t u : text, (s ++ t = s ++ u)%string -> t = u.
Proof. induction s as [|a s IH]; intros t u H; cbn in H; [exact H|injection H; auto]. Qed.

Lemma length_append : forall s t : text,
  String.length (s ++ t)%string = (String.length s + String.length t)%nat.
Proof. induction s as [|a s IH]; intros t; cbn; [reflexivity|now rewrite IH]. Qed.

Lemma append_inj_r : forall s t u : text, (s ++ u = t ++ u)%string -> s = t.
Proof.
  induction s as [|a s IH]; intros [|b t] u H; cbn in H.
  - reflexivity.
  - exfalso. apply (f_equal String.length) in H. cbn in H.
    rewrite length_append in H. lia.
  - exfalso. apply (f_equal String.length) in H. cbn in H.
    rewrite length_append in H. lia.
  - injection H as -> H. f_equal. exact (IH t u H).
Qed.

Lemma contains_char_app : forall c s t,
  contains_char c (s ++ t)%string = contains_char c s || contains_char c t.
Proof.
  induction s as [|a s IH]; intros t; cbn; [reflexivity|].
  rewrite IH. now rewrite orb_assoc.
Qed.

(* ---- splitting ---- *)
Lemma split_on_nonempty : forall c s, split_on c s <> [].
Proof.
  destruct s as [|a s]; cbn; [discriminate|].
  destruct (Ascii.eqb a c); [discriminate|].
  destruct (split_on c s); discriminate.
Qed.

Lemma split_on_no_char : forall c s,
  Forall (fun p => contains_char c p = false) (split_on c s).
Proof.
  induction s as [|a s IH]; cbn.
  - repeat constructor.
  - destruct (Ascii.eqb a c) eqn:E.
    + constructor; [reflexivity|exact IH].
    + destruct (split_on c s) as [|p ps].
      * constructor; [cbn; now rewrite E|constructor].
      * inversion IH as [|? ? Hp Hps]; subst.
        constructor; [cbn; now rewrite E|exact Hps].
Qed.

Lemma join_cons : forall sep p ps, ps <> [] ->
  join_with sep (p :: ps) = (p ++ sep ++ join_with sep ps)%string.
Proof. destruct ps as [|q ps]; [now intros []|reflexivity]. Qed.

Lemma join_split : forall c s,
  join_with (String c "") (split_on c s) = s.
Proof.
  induction s as [|a s IH]; [reflexivity|].
  cbn [split_on].
  destruct (Ascii.eqb a c) eqn:E.
  - apply Ascii.eqb_eq in E. subst a.
    rewrite join_cons by apply split_on_nonempty. rewrite IH. reflexivity.
  - pose proof (split_on_nonempty c s) as N.
    destruct (split_on c s) as [|p ps]; [now contradiction N|].
    destruct ps as [|q ps].
    + cbn in *. now rewrite IH.
    + rewrite join_cons in * by discriminate. cbn in *. now rewrite IH.
Qed.

Lemma split_none : forall c s, contains_char c s = false -> split_on c s = [s].
Proof.
  induction s as [|a s IH]; cbn; [reflexivity|].
  destruct (Ascii.eqb a c); [discriminate|]. cbn. intros H. now rewrite IH.
Qed.

Lemma split_app : forall c p s, contains_char c p = false ->
  split_on c (p ++ String c s)%string = p :: split_on c s.
Proof.
  induction p as [|a p IH]; intros s; cbn.
  - now rewrite Ascii.eqb_refl.
  - destruct (Ascii.eqb a c); [discriminate|]. cbn. intros H. now rewrite IH.
Qed.

Lemma split_join : forall c ps, ps <> [] ->
  Forall (fun p => contains_char c p = false) ps ->
  split_on c (join_with (String c "") ps) = ps.
Proof.
  induction ps as [|p ps IH]; intros N H; [now contradiction N|].
  inversion H as [|? ? Hp Hps]; subst.
  destruct ps as [|q ps].
  - cbn. now apply split_none.
  - rewrite join_cons by discriminate. cbn [append].
    rewrite split_app by exact Hp. f_equal. apply IH; [discriminate|exact Hps].
Qed.

(* ---- keywords ---- *)
Lemma is_keyword_In : forall s, is_keyword s = true <-> In s rust_keywords.
Proof.
  intros s. unfold is_keyword. rewrite existsb_exists. split.
  - intros (k & I & E). apply String.eqb_eq in E. now subst.
  - intros I. exists s. split; [exact I|apply String.eqb_refl].
Qed.

(** no keyword ends in "_pb": checked over the whole (finite) list *)
Definition ends_pb (s : text) : bool :=
  match String.length s with
  | S (S (S n)) => String.eqb (String.substring n 3 s) "_pb"
  | _ => false
  end.

Lemma substring_app : forall s t,
  String.substring (String.length s) (String.length t) (s ++ t)%string = t.
Proof.
  induction s as [|a s IH]; intros t; cbn.
  - induction t as [|b t IHt]; cbn; [reflexivity|now rewrite IHt].
  - apply IH.
Qed.

Lemma ends_pb_app : forall s, ends_pb (s ++ "_pb")%string = true.
Proof.
  intros s. unfold ends_pb. rewrite length_append. cbn [String.length].
  replace (String.length s + 3)%nat with (S (S (S (String.length s)))) by lia.
  pose proof (substring_app s "_pb") as H. cbn [String.length] in H. rewrite H.
  reflexivity.
Qed.

Lemma keyword_not_pb : forall k, In k rust_keywords -> ends_pb k = false.
Proof.
  assert (H : forallb (fun k => negb (ends_pb k)) rust_keywords = true)
    by (vm_compute; reflexivity).
  intros k I. rewrite forallb_forall in H. specialize (H k I).
  now apply negb_true_iff.
Qed.

Lemma keyword_no_dot : forall k, In k rust_keywords -> contains_char "." k = false.
Proof.
  assert (H : forallb (fun k => negb (contains_char "." k)) rust_keywords = true)
    by (vm_compute; reflexivity).
  intros k I. rewrite forallb_forall in H. specialize (H k I).
  now apply negb_true_iff.
Qed.

Lemma pb_not_keyword : forall s, is_keyword (s ++ "_pb")%string = false.
Proof.
  intros s. destruct (is_keyword (s ++ "_pb")%string) eqn:E; [|reflexivity].
  apply is_keyword_In, keyword_not_pb in E. now rewrite ends_pb_app in E.
Qed.

Lemma sanitize_segment_not_keyword : forall s, is_keyword (sanitize_segment s) = false.
Proof.
  intros s. unfold sanitize_segment. destruct (is_keyword s) eqn:E; [|exact E].
  apply pb_not_keyword.
Qed.

Lemma sanitize_segment_idem : forall s,
  sanitize_segment (sanitize_segment s) = sanitize_segment s.
Proof.
  intros s. unfold sanitize_segment at 1. now rewrite sanitize_segment_not_keyword.
Qed.

Lemma sanitize_segment_no_char : forall c s, c <> "_"%char -> c <> "p"%char -> c <> "b"%char ->
  contains_char c s = false -> contains_char c (sanitize_segment s) = false.
Proof.
  intros c s H1 H2 H3 H. unfold sanitize_segment. destruct (is_keyword s); [|exact H].
  rewrite contains_char_app, H. cbn [contains_char orb].
  destruct (Ascii.eqb_spec "_" c); [congruence|].
  destruct (Ascii.eqb_spec "p" c); [congruence|].
  destruct (Ascii.eqb_spec "b" c); [congruence|reflexivity].
Qed.

(** both branches of the function do the same thing segment by segment *)
Lemma sanitize_keyword_segments : forall s,
  sanitize_keyword s = join_with "." (map sanitize_segment (split_on "." s)).
Proof.
  intros s. unfold sanitize_keyword.
  destruct (contains_char "." s) eqn:E; [reflexivity|].
  destruct (is_keyword s) eqn:K; [|reflexivity]. cbn [negb andb].
  rewrite split_none by exact E. cbn [map join_with]. unfold sanitize_segment. now rewrite K.
Qed.

Lemma split_sanitize : forall s,
  split_on "." (sanitize_keyword s) = map sanitize_segment (split_on "." s).
Proof.
  intros s. rewrite sanitize_keyword_segments. apply split_join.
  - intros H. apply map_eq_nil in H. now apply split_on_nonempty in H.
  - apply Forall_map. eapply Forall_impl; [|apply split_on_no_char].
    intros p Hp. apply sanitize_segment_no_char; congruence.
Qed.

Lemma sanitize_segment_collision : forall s t,
  sanitize_segment s = sanitize_segment t -> s <> t ->
  (In s rust_keywords /\ t = (s ++ "_pb")%string)
  \/ (In t rust_keywords /\ s = (t ++ "_pb")%string).
Proof.
  intros s t H N. unfold sanitize_segment in H.
  destruct (is_keyword s) eqn:Ks, (is_keyword t) eqn:Kt.
  - apply append_inj_r in H. contradiction.
  - left. split; [now apply is_keyword_In|now symmetry].
  - right. split; [now apply is_keyword_In|exact H].
  - contradiction.
Qed.
