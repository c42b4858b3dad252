(** Properties of names, module paths and the mod.rs file. *)
From Coq Require Import String Ascii Arith Lia.
From Verif Require Import Base Schema Keywords KeywordFacts Modules ModuleFacts.
Import StringSyntax.
Local Open Scope string_scope.
Local Open Scope list_scope.

(* ====================================================================== *)
(** * C40: escaped identifiers *)

(** [dotted l s]: the text [s] consists of the segments [l], separated by
    dots; no segment contains a dot.  This is a specification of dotted names
    that does not mention how the program splits them. *)
Inductive dotted : list text -> text -> Prop :=
| dotted_one : forall p, contains_char "." p = false -> dotted [p] p
| dotted_more : forall p l s, contains_char "." p = false -> dotted l s ->
    dotted (p :: l) (p ++ "." ++ s)%string.

Lemma dotted_split : forall l s, dotted l s -> split_on "." s = l.
Proof.
  induction 1 as [p H|p l s H _ IH].
  - now apply split_none.
  - cbn [append]. rewrite split_app by exact H. now rewrite IH.
Qed.

Lemma join_dotted : forall l, l <> [] ->
  Forall (fun p => contains_char "." p = false) l -> dotted l (join_with "." l).
Proof.
  induction l as [|p l IH]; intros N H; [now contradiction N|].
  inversion H as [|? ? Hp Hl]; subst. destruct l as [|q l].
  - now constructor.
  - rewrite join_cons by discriminate. constructor; [exact Hp|].
    apply IH; [discriminate|exact Hl].
Qed.

Lemma dotted_exists : forall s, exists l, dotted l s.
Proof.
  intros s. exists (split_on "." s). rewrite <- (join_split "." s) at 2.
  apply join_dotted; [apply split_on_nonempty|apply split_on_no_char].
Qed.

(** The keywords of the Rust reference (2018 edition and later), strict and
    reserved: a specification that does not depend on the table of the
    program. *)
Definition rust_reference_keywords : list text :=
  [ "as"; "break"; "const"; "continue"; "crate"; "else"; "enum"; "extern";
    "false"; "fn"; "for"; "if"; "impl"; "in"; "let"; "loop"; "match"; "mod";
    "move"; "mut"; "pub"; "ref"; "return"; "self"; "Self"; "static"; "struct";
    "super"; "trait"; "true"; "type"; "unsafe"; "use"; "where"; "while";
    "async"; "await"; "dyn"; "abstract"; "become"; "box"; "do"; "final";
    "macro"; "override"; "priv"; "typeof"; "unsized"; "virtual"; "yield";
    "try" ].

(** Whatever the name, no segment of the escaped name is in the table, and the
    only Rust keywords that can come out are the five the table lacks. *)
Theorem C40_never_keyword_partial : forall s l, dotted l (sanitize_keyword s) ->
  forall k, In k l ->
  ~ In k rust_keywords /\
  (In k rust_reference_keywords -> In k ["async"; "await"; "dyn"; "macro"; "try"]).
Proof.
  intros s l D k I. apply dotted_split in D. rewrite split_sanitize in D. subst l.
  apply in_map_iff in I. destruct I as (p & <- & _).
  assert (N : ~ In (sanitize_segment p) rust_keywords).
  { intros K. apply is_keyword_In in K. now rewrite sanitize_segment_not_keyword in K. }
  split; [exact N|]. intros R.
  assert (C : forallb (fun k => is_keyword k
                        || existsb (String.eqb k) ["async"; "await"; "dyn"; "macro"; "try"])
                rust_reference_keywords = true) by (vm_compute; reflexivity).
  rewrite forallb_forall in C. specialize (C _ R). apply orb_true_iff in C.
  destruct C as [C|C].
  - exfalso. now apply N, is_keyword_In.
  - apply existsb_exists in C. destruct C as (x & Ix & Ex).
    apply String.eqb_eq in Ex. now rewrite Ex.
Qed.
Print Assumptions C40_never_keyword_partial.

(** the table is incomplete: a field called [macro] keeps its name, which is
    reserved in every edition of Rust *)
Theorem C40_never_keyword_refuted :
  exists s, In s rust_reference_keywords /\ sanitize_keyword s = s.
Proof. exists "macro". vm_compute. tauto. Qed.
Print Assumptions C40_never_keyword_refuted.

Theorem C40_idempotent : forall s,
  sanitize_keyword (sanitize_keyword s) = sanitize_keyword s.
Proof.
  intros s. rewrite (sanitize_keyword_segments (sanitize_keyword s)), split_sanitize.
  rewrite map_map. rewrite sanitize_keyword_segments. f_equal. apply map_ext.
  apply sanitize_segment_idem.
Qed.
Print Assumptions C40_idempotent.

(** segment by segment: keywords get the suffix, everything else is kept *)
Theorem C40_segments : forall s l, dotted l s ->
  exists l', dotted l' (sanitize_keyword s) /\
    Forall2 (fun p p' => (In p rust_keywords /\ p' = (p ++ "_pb")%string)
                         \/ (~ In p rust_keywords /\ p' = p)) l l'.
Proof.
  intros s l D. apply dotted_split in D. subst l.
  exists (map sanitize_segment (split_on "." s)). split.
  - rewrite sanitize_keyword_segments. apply join_dotted.
    + intros H. apply map_eq_nil in H. now apply split_on_nonempty in H.
    + apply Forall_map. eapply Forall_impl; [|apply split_on_no_char].
      intros p Hp. apply sanitize_segment_no_char; congruence.
  - induction (split_on "." s) as [|p ps IH]; cbn; constructor; [|exact IH].
    unfold sanitize_segment. destruct (is_keyword p) eqn:K.
    + left. now apply is_keyword_In in K.
    + right. split; [|reflexivity]. intros I. apply is_keyword_In in I. congruence.
Qed.
Print Assumptions C40_segments.

Theorem C40_identity : forall s l, dotted l s ->
  (forall p, In p l -> ~ In p rust_keywords) -> sanitize_keyword s = s.
Proof.
  intros s l D N. apply dotted_split in D. subst l.
  rewrite sanitize_keyword_segments.
  rewrite (map_ext_in _ (fun p => p)).
  - rewrite map_id. apply join_split.
  - intros p I. unfold sanitize_segment. destruct (is_keyword p) eqn:K; [|reflexivity].
    exfalso. apply (N p I). now apply is_keyword_In.
Qed.
Print Assumptions C40_identity.

(** Two names collide only if, at some segment, one is a keyword and the other
    that keyword with the suffix. *)
Theorem C40_distinct_partial : forall s t ls lt, dotted ls s -> dotted lt t ->
  sanitize_keyword s = sanitize_keyword t -> s <> t ->
  exists k, In k rust_keywords /\
    (In k ls /\ In (k ++ "_pb")%string lt \/ In k lt /\ In (k ++ "_pb")%string ls).
Proof.
  intros s t ls lt Ds Dt H N. apply dotted_split in Ds, Dt.
  assert (M : map sanitize_segment ls = map sanitize_segment lt).
  { rewrite <- Ds, <- Dt, <- !split_sanitize. now rewrite H. }
  assert (NE : ls <> lt).
  { intros E. apply N. rewrite <- (join_split "." s), <- (join_split "." t).
    now rewrite Ds, Dt, E. }
  clear - M NE. revert lt M NE.
  induction ls as [|p ls IH]; intros [|q lt] M NE; cbn in M; try discriminate.
  - now contradiction NE.
  - injection M as E M. destruct (string_dec p q) as [->|D].
    + destruct (IH lt M) as (k & K & C); [intros ->; now apply NE|].
      exists k. split; [exact K|]. cbn. tauto.
    + destruct (sanitize_segment_collision p q E D) as [(K & ->)|(K & ->)].
      * exists p. split; [exact K|]. left. cbn. tauto.
      * exists q. split; [exact K|]. right. cbn. tauto.
Qed.
Print Assumptions C40_distinct_partial.

(** injectivity fails: fields [type] and [type_pb] of one message get the same
    name *)
Theorem C40_distinct_refuted :
  exists s t, s <> t /\ sanitize_keyword s = sanitize_keyword t.
Proof. exists "type", "type_pb". split; [discriminate|vm_compute; reflexivity]. Qed.
Print Assumptions C40_distinct_refuted.

Example C40_case : dotted ["my"; "type"; "Msg"] "my.type.Msg" /\
  sanitize_keyword "my.type.Msg" = "my.type_pb.Msg" /\
  sanitize_keyword "self" = "self_pb" /\ sanitize_keyword "name" = "name".
Proof.
  repeat match goal with |- _ /\ _ => split end; try (vm_compute; reflexivity).
  change "my.type.Msg" with ("my" ++ "." ++ "type" ++ "." ++ "Msg")%string.
  repeat constructor.
Qed.

(* ====================================================================== *)
(** * C45: package and module paths *)

(** [split_package] cuts at the last dot; gluing the halves together gives
    the package back unless the package starts with its only dot *)
Theorem C45_split_partial : forall s a b,
  (forall t, s <> String "." t) -> split_package s = (a, b) ->
  contains_char "." b = false /\
  s = (if String.eqb a "" then b else a ++ "." ++ b)%string.
Proof.
  intros s a b L H. destruct (contains_char "." s) eqn:C.
  - destruct (rfind_char "." s) as [i|] eqn:R; [|apply rfind_none in R; congruence].
    destruct (rfind_some _ _ _ R) as (x & y & -> & _ & N).
    rewrite split_package_dot in H by exact N. injection H as <- <-.
    split; [exact N|]. destruct (String.eqb_spec x "") as [->|_]; [|reflexivity].
    exfalso. now apply (L y).
  - rewrite split_package_no_dot in H by exact C. injection H as <- <-. now split.
Qed.
Print Assumptions C45_split_partial.

(** directories and file of a generated package, in order, are exactly the
    components of the package: types.rs:2603-2630 creates one directory per
    segment of the prefix and names the file after the rest *)
Theorem C45_directories : forall l s a b, dotted l s -> split_package s = (a, b) ->
  (exists p, l = [p] /\ a = "" /\ b = p) \/
  (exists l', dotted l' a /\ l = l' ++ [b]).
Proof.
  intros l s a b D H. pose proof (dotted_split _ _ D) as S.
  destruct (contains_char "." s) eqn:C.
  - right. destruct (rfind_char "." s) as [i|] eqn:R; [|apply rfind_none in R; congruence].
    destruct (rfind_some _ _ _ R) as (x & y & -> & _ & N).
    rewrite split_package_dot in H by exact N. injection H as <- <-.
    rewrite split_app_gen, (split_none _ y) in S by exact N.
    exists (split_on "." x). split; [|now symmetry].
    rewrite <- (join_split "." x) at 2.
    apply join_dotted; [apply split_on_nonempty|apply split_on_no_char].
  - left. rewrite split_package_no_dot in H by exact C. injection H as <- <-.
    rewrite split_none in S by exact C. exists s. auto.
Qed.
Print Assumptions C45_directories.

(** a package written with a leading dot, which the parser accepts, is taken
    for a different package *)
Theorem C45_split_refuted :
  exists s t, s <> t /\ split_package s = split_package t.
Proof. exists ".a", "a". split; [discriminate|vm_compute; reflexivity]. Qed.
Print Assumptions C45_split_refuted.

(** the Rust path with the given segments *)
Fixpoint rust_path (l : list text) : text :=
  match l with [] => "" | p :: l' => (p ++ "::" ++ rust_path l')%string end.

(** [get_modules] spells the segments of the module as a Rust path; inside a
    file without package the segment of the file itself is dropped *)
Theorem C45_modules : forall l module imported package,
  dotted l module -> (forall p, In p l -> p <> "") ->
  get_modules module imported package =
  rust_path (if String.eqb package "" then if imported then l else tl l else l).
Proof.
  intros l module imported package D NE. apply dotted_split in D.
  unfold get_modules. rewrite D.
  assert (F : filter (fun p => negb (String.eqb p "")) l = l).
  { clear D. induction l as [|p l IH]; cbn; [reflexivity|].
    destruct (String.eqb_spec p "") as [E|_].
    - exfalso. apply (NE p); cbn; auto.
    - cbn. f_equal. apply IH. intros q I. apply NE. cbn. auto. }
  rewrite F.
  assert (P : forall l, String.concat "" (map (fun p => (p ++ "::")%string) l) = rust_path l).
  { induction l0 as [|p l0 IH]; [reflexivity|]. cbn [map rust_path].
    rewrite concat_nil_sep_cons, IH, append_assoc. reflexivity. }
  rewrite P. f_equal. destruct (String.eqb package ""), imported; cbn; try reflexivity.
Qed.
Print Assumptions C45_modules.

(** and a Rust path determines its segments *)
Theorem C45_path_injective : forall l l',
  (forall p, In p l -> contains_char ":" p = false) ->
  (forall p, In p l' -> contains_char ":" p = false) ->
  rust_path l = rust_path l' -> l = l'.
Proof.
  assert (A : forall p q s t, contains_char ":" p = false -> contains_char ":" q = false ->
    (p ++ String ":" s = q ++ String ":" t)%string -> p = q /\ s = t).
  { induction p as [|a p IH]; intros [|b q] s t Hp Hq H; cbn in *.
    - injection H. auto.
    - injection H as <- _. rewrite Ascii.eqb_refl in Hq. discriminate.
    - injection H as -> _. rewrite Ascii.eqb_refl in Hp. discriminate.
    - injection H as -> H. apply orb_false_iff in Hp, Hq.
      destruct (IH q s t (proj2 Hp) (proj2 Hq) H) as (-> & ->). auto. }
  induction l as [|p l IH]; intros [|q l'] Hl Hl' H; [reflexivity| | |].
  - exfalso. cbn in H. now destruct q.
  - exfalso. cbn in H. now destruct p.
  - cbn in H. destruct (A p q _ _ (Hl p (or_introl eq_refl)) (Hl' q (or_introl eq_refl)) H)
      as (-> & H'). injection H' as H'. f_equal.
    apply IH; [intros x I; apply Hl; now right|intros x I; apply Hl'; now right|exact H'].
Qed.
Print Assumptions C45_path_injective.

(** one [super::] per component of the package, and one for the implicit
    module of a file without package *)
Theorem C45_imports_depth : forall l s, dotted l s -> imports_depth s = List.length l.
Proof.
  intros l s D. pose proof (dotted_split _ _ D) as S. unfold imports_depth. rewrite S.
  now destruct D.
Qed.
Print Assumptions C45_imports_depth.

Example C45_case : split_package "a.b.c" = ("a.b", "c") /\
  get_modules "a.b.mod_M" true "" = "a::b::mod_M::" /\
  get_modules "file.mod_M" false "" = "mod_M::" /\ imports_depth "" = 1%nat /\
  dotted ["a"; "b"; "mod_M"] "a.b.mod_M".
Proof.
  repeat match goal with |- _ /\ _ => split end; try (vm_compute; reflexivity).
  change "a.b.mod_M" with ("a" ++ "." ++ "b" ++ "." ++ "mod_M")%string.
  repeat constructor.
Qed.

(* ====================================================================== *)
(** * C46: the mod.rs file *)

(** content of a file with the given lines, all terminated *)
Definition file_of (ls : list text) : text :=
  fold_right (fun l rest => (l ++ String newline rest)%string) "" ls.
(** a generated mod.rs declaring the given modules *)
Definition generated (names : list text) : text :=
  file_of ("// Automatically generated mod.rs"
           :: map (fun n => ("pub mod " ++ n ++ ";")%string) names).
Definition module_name (n : text) : Prop :=
  contains_char newline n = false /\ contains_char carriage_return n = false.

Lemma file_of_unlines : forall ls, file_of ls = unlines ls.
Proof.
  induction ls as [|l ls IH]; [reflexivity|].
  unfold unlines in *. cbn [map file_of fold_right]. rewrite concat_nil_sep_cons.
  rewrite <- IH, append_assoc. reflexivity.
Qed.

Lemma generated_lines : forall ns, Forall module_name ns ->
  lines (generated ns) = magic_header :: map entry ns.
Proof.
  intros ns H. unfold generated. rewrite file_of_unlines.
  change (map (fun n => ("pub mod " ++ n ++ ";")%string) ns) with (map entry ns).
  apply lines_unlines. constructor.
  - split; vm_compute; reflexivity.
  - apply Forall_map. eapply Forall_impl; [|exact H]. intros n (Hn & Hc). unfold entry.
    split; rewrite !contains_char_app; [rewrite Hn|rewrite Hc]; reflexivity.
Qed.

Lemma generated_snoc : forall ns n, generated (ns ++ [n]) = (generated ns ++ mod_line n)%string.
Proof.
  intros ns n. unfold generated. rewrite !file_of_unlines. unfold unlines. cbn [map].
  rewrite !concat_nil_sep_cons, !map_app, concat_nil_sep_app, append_assoc. cbn [map].
  rewrite concat_nil_sep_cons. cbn [String.concat]. rewrite append_nil_r, !append_assoc. reflexivity.
Qed.

Lemma update_generated : forall ns n, Forall module_name ns ->
  update_mod_file n (Some (generated ns))
  = Some (Some (if existsb (fun m => String.eqb m n) ns then generated ns
                else generated (ns ++ [n]))).
Proof.
  intros ns n H. cbn [update_mod_file]. rewrite generated_lines by exact H.
  rewrite scan_header, scan_entries, generated_snoc.
  destruct (existsb (fun m => String.eqb m n) ns); reflexivity.
Qed.

(** However often and in whatever order the generator runs into a directory,
    the file lists the earlier modules in their old order, followed by each
    new module exactly once. *)
Theorem C46_sequence : forall names old, Forall module_name old -> Forall module_name names ->
  exists added,
    update_mod_files names (Some (generated old)) = Some (Some (generated (old ++ added)))
    /\ NoDup added
    /\ forall n, In n added <-> In n names /\ ~ In n old.
Proof.
  induction names as [|n ns IH]; intros old Ho Hn.
  - exists []. cbn. rewrite app_nil_r. split; [reflexivity|]. split; [constructor|]. cbn. tauto.
  - inversion Hn as [|? ? Hn1 Hns]; subst. cbn [update_mod_files].
    rewrite update_generated by exact Ho.
    destruct (existsb (fun m => String.eqb m n) old) eqn:E.
    + apply existsb_exists in E. destruct E as (x & I & X). apply String.eqb_eq in X. subst x.
      destruct (IH old Ho Hns) as (added & U & N & A). exists added.
      split; [exact U|]. split; [exact N|]. intros m. rewrite A. cbn.
      split; [tauto|]. intros ([->|K] & O); tauto.
    + assert (NI : ~ In n old).
      { intros I. assert (T : existsb (fun m => String.eqb m n) old = true)
          by (apply existsb_exists; exists n; split; [exact I|apply String.eqb_refl]).
        congruence. }
      destruct (IH (old ++ [n])) as (added & U & N & A).
      { apply Forall_app. auto. }
      { exact Hns. }
      exists (n :: added). split; [|split].
      * rewrite U. now rewrite <- app_assoc.
      * constructor; [|exact N]. intros I. apply A in I. destruct I as (_ & I).
        apply I, in_or_app. right. now left.
      * intros m. cbn. rewrite A, in_app_iff. cbn.
        split.
        -- intros [->|(K & O)]; [auto|]. split; [auto|]. tauto.
        -- intros ([->|K] & O); [auto|]. destruct (string_dec n m); [auto|]. right. tauto.
Qed.
Print Assumptions C46_sequence.

(** the same starting from a directory without mod.rs *)
Theorem C46_fresh : forall n names, Forall module_name (n :: names) ->
  exists added,
    update_mod_files (n :: names) None = Some (Some (generated added))
    /\ NoDup added
    /\ forall m, In m added <-> In m (n :: names).
Proof.
  intros n names H. inversion H as [|? ? H1 H2]; subst.
  assert (F : update_mod_file n None = Some (Some (generated [n]))).
  { cbn [update_mod_file]. change [n] with ([] ++ [n]). rewrite generated_snoc. reflexivity. }
  cbn [update_mod_files]. rewrite F.
  destruct (C46_sequence names [n]) as (added & U & N & A); [auto|exact H2|].
  exists (n :: added). split; [exact U|]. split.
  - constructor; [|exact N]. intros I. apply A in I. destruct I as (_ & I). apply I. now left.
  - intros m. cbn. rewrite A. cbn. split.
    + intros [->|(K & _)]; auto.
    + intros [->|K]; [auto|]. destruct (string_dec n m); [auto|]. right. tauto.
Qed.
Print Assumptions C46_fresh.

(** Running twice is running once, for every content whose last line is
    terminated (whoever wrote it) and for an absent file. *)
Theorem C46_idempotent_partial : forall n file file', module_name n ->
  (forall c, file = Some c -> exists b, c = (b ++ String newline "")%string) ->
  update_mod_file n file = Some file' ->
  update_mod_file n file' = Some file'.
Proof.
  intros n file file' Hn T H. destruct file as [c|].
  - destruct (T c eq_refl) as (b & ->). cbn [update_mod_file] in H.
    destruct (scan_mod_lines n true (lines (b ++ String newline "")%string)) as [[]|] eqn:S;
      [| |discriminate].
    + injection H as <-. cbn [update_mod_file]. now rewrite S.
    + injection H as <-. cbn [update_mod_file].
      rewrite append_assoc. cbn [append]. rewrite lines_app, lines_mod_line by exact Hn.
      rewrite scan_app; [|exact S|].
      * rewrite scan_entry, String.eqb_refl. reflexivity.
      * unfold lines. rewrite split_app_gen. cbn [split_on].
        rewrite lines_of_pieces_app by discriminate. intros E.
        apply app_eq_nil in E. destruct E as (E & _). apply map_eq_nil in E.
        now apply split_on_nonempty in E.
  - destruct (C46_fresh n []) as (added & U & N & A); [auto|].
    change (match update_mod_file n None with Some f => Some f | None => None end
            = Some (Some (generated added))) in U.
    assert (U' : Some file' = Some (Some (generated added)))
      by (transitivity (update_mod_file n None);
          [symmetry; exact H|destruct (update_mod_file n None); [exact U|discriminate]]).
    injection U' as ->.
    assert (E : added = [n]).
    { destruct added as [|x [|y l]].
      - exfalso. assert (In n []) by (apply A; now left). contradiction.
      - f_equal. assert (I : In x [n]) by (apply A; now left). cbn in I. intuition.
      - exfalso. assert (Ix : In x [n]) by (apply A; now left).
        assert (Iy : In y [n]) by (apply A; cbn; auto). cbn in Ix, Iy.
        inversion N as [|? ? NI _]; subst. apply NI. left.
        destruct Ix as [<-|[]], Iy as [<-|[]]. reflexivity. }
    subst added. rewrite update_generated by auto. cbn [existsb].
    now rewrite String.eqb_refl.
Qed.
Print Assumptions C46_idempotent_partial.

(** No update ever removes or changes existing text. *)
Theorem C46_conservative : forall n c file', update_mod_file n (Some c) = Some file' ->
  exists added, file' = Some (c ++ added)%string.
Proof.
  intros n c file' H. cbn [update_mod_file] in H.
  destruct (scan_mod_lines n true (lines c)) as [[]|]; [| |discriminate];
    injection H as <-.
  - exists "". now rewrite append_nil_r.
  - now exists (mod_line n).
Qed.
Print Assumptions C46_conservative.

Lemma find_str_some : forall pat s i, find_str pat s = Some i ->
  exists a b, s = (a ++ pat ++ b)%string.
Proof.
  assert (P : forall p s, String.prefix p s = true -> exists b, s = (p ++ b)%string).
  { induction p as [|a p IH]; intros s H.
    - now exists s.
    - destruct s as [|b s]; [discriminate|]. cbn in H.
      destruct (ascii_dec a b) as [->|]; [|discriminate].
      destruct (IH s H) as (t & ->). now exists t. }
  induction s as [|x s IH]; intros i H.
  - cbn [find_str] in H. destruct (String.prefix pat "") eqn:E; [|discriminate H].
    destruct (P pat _ E) as (b & Hb). exists "", b. exact Hb.
  - cbn [find_str] in H. destruct (String.prefix pat (String x s)) eqn:E.
    + destruct (P pat _ E) as (b & Hb). exists "", b. exact Hb.
    + destruct (find_str pat s) as [j|]; [|discriminate].
      destruct (IH j eq_refl) as (a & b & ->). exists (String x a), b. reflexivity.
Qed.

(** A non-empty file whose first line does not mention the header is never
    touched. *)
Theorem C46_foreign_partial : forall n first rest,
  contains_char newline first = false ->
  (forall a b, first <> (a ++ "// Automatically generated mod.rs" ++ b)%string) ->
  update_mod_file n (Some (first ++ String newline rest)%string)
    = Some (Some (first ++ String newline rest)%string)
  /\ (first <> "" -> update_mod_file n (Some first) = Some (Some first)).
Proof.
  intros n first rest N H.
  assert (S : forall a b, first = (a ++ b)%string -> contains_str magic_header a = false).
  { intros a b E. unfold contains_str. destruct (find_str magic_header a) as [i|] eqn:F; [|reflexivity].
    apply find_str_some in F. destruct F as (x & y & ->). exfalso.
    apply (H x (y ++ b)%string). rewrite E. unfold magic_header. now rewrite !append_assoc. }
  assert (C : contains_str magic_header first = false)
    by (apply (S first ""); now rewrite append_nil_r).
  assert (CR : contains_str magic_header (strip_cr first) = false).
  { unfold strip_cr. destruct (rfind_char carriage_return first) as [i|] eqn:R; [|exact C].
    destruct (_ =? _)%nat; [|exact C].
    destruct (rfind_some _ _ _ R) as (a & b & E & L & _).
    apply (S _ (String carriage_return b)). rewrite E at 2. rewrite <- L, E. now rewrite slice_split. }
  split.
  - cbn [update_mod_file]. unfold lines. rewrite split_app by exact N.
    pose proof (split_on_nonempty newline rest) as NE.
    destruct (split_on newline rest) as [|p ps]; [now contradiction NE|].
    cbn [lines_of_pieces scan_mod_lines]. rewrite CR. reflexivity.
  - intros NEmpty. cbn [update_mod_file]. unfold lines. rewrite split_none by exact N.
    cbn [lines_of_pieces]. destruct (String.eqb_spec first ""); [contradiction|].
    cbn [scan_mod_lines]. rewrite C. reflexivity.
Qed.
Print Assumptions C46_foreign_partial.

Example C46_case :
  update_mod_files ["a"; "b"; "a"; "c"; "b"] None = Some (Some (generated ["a"; "b"; "c"])) /\
  update_mod_file "b" (Some (file_of ["//! my module"; "pub mod a;"]))
  = Some (Some (file_of ["//! my module"; "pub mod a;"])) /\
  Forall module_name ["a"; "b"; "c"].
Proof.
  repeat match goal with |- _ /\ _ => split end; try (vm_compute; reflexivity).
  repeat apply Forall_cons; try apply Forall_nil; split; vm_compute; reflexivity.
Qed.

(** A generated file whose last line feed was removed (by an editor, say) gets
    the same module again on every run, on the same line as the last entry. *)
Theorem C46_idempotent_refuted :
  exists n c c1 c2, update_mod_file n (Some c) = Some (Some c1) /\
    update_mod_file n (Some c1) = Some (Some c2) /\ c1 <> c2 /\
    c = (magic_header ++ String newline "pub mod a;")%string.
Proof.
  exists "b", (magic_header ++ String newline "pub mod a;")%string,
    (magic_header ++ String newline ("pub mod a;" ++ mod_line "b"))%string,
    (magic_header ++ String newline ("pub mod a;" ++ mod_line "b" ++ mod_line "b"))%string.
  repeat match goal with |- _ /\ _ => split end; try (vm_compute; reflexivity).
  vm_compute. discriminate.
Qed.
Print Assumptions C46_idempotent_refuted.

(** An empty mod.rs is not recognised as hand-written: it is appended to, and
    the result no longer counts as generated, so a second module is lost. *)
Theorem C46_empty_refuted :
  exists c1, update_mod_file "a" (Some "") = Some (Some c1) /\ c1 <> "" /\
    update_mod_file "b" (Some c1) = Some (Some c1).
Proof.
  exists (mod_line "a"). repeat match goal with |- _ /\ _ => split end;
    vm_compute; try reflexivity; discriminate.
Qed.
Print Assumptions C46_empty_refuted.

(** A line that ends right after [pub mod ] makes the generator panic. *)
Theorem C46_panic_refuted :
  exists c, update_mod_file "a" (Some (magic_header ++ String newline c)%string) = None.
Proof. exists "pub mod ". vm_compute. reflexivity. Qed.
Print Assumptions C46_panic_refuted.
