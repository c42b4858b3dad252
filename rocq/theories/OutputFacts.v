(** Facts about output files (Output.v). *)
From Coq Require Import String Ascii Arith Lia Relations.
From Verif Require Import Base Schema Keywords Modules KeywordFacts ModuleFacts Passes Parser ProtoText ParserOut Pipeline Import
  Props_Import Props_Names Paths Props_Paths PlaceFacts PathFacts Output.
Import Schema StringSyntax.
Local Open Scope string_scope.
Local Open Scope list_scope.

(** ** Paths *)
Lemma texts_eqb_spec a b : reflect (a = b) (texts_eqb a b).
Proof.
  apply Bool.iff_reflect. revert b. induction a as [|x a IH]; intros [|y b]; cbn; try (split; congruence).
  rewrite Bool.andb_true_iff, String.eqb_eq, <- IH. split; [intros [= -> ->]; auto|intros (-> & ->); reflexivity].
Qed.
Lemma path_eqb_spec p q : reflect (p = q) (path_eqb p q).
Proof.
  apply Bool.iff_reflect. destruct p as [a l], q as [b m]. unfold path_eqb. cbn [fp_absolute fp_parts].
  rewrite Bool.andb_true_iff, Bool.eqb_true_iff. destruct (texts_eqb_spec l m) as [->|N].
  - split; [intros [= ->]; auto|intros (-> & _); reflexivity].
  - split; [congruence|intros (_ & X); discriminate].
Qed.
Lemma path_eqb_refl p : path_eqb p p = true.
Proof. now destruct (path_eqb_spec p p). Qed.

(** the entry [s] of a directory *)
Definition sub (p : fpath) (s : text) : fpath := mkPath (fp_absolute p) (fp_parts p ++ [s]).
Definition subs (p : fpath) (l : list text) : fpath := mkPath (fp_absolute p) (fp_parts p ++ l).
(** a name that is one component *)
Definition plain (s : text) : Prop := s <> "" /\ s <> "." /\ contains_char "/" s = false.

Lemma path_of_plain s : plain s -> path_of s = mkPath false [s].
Proof.
  intros (A & B & C). unfold path_of. rewrite (split_none _ _ C). cbn [filter].
  destruct (String.eqb_spec s ""); [contradiction|]. destruct (String.eqb_spec s "."); [contradiction|]. cbn [negb andb].
  f_equal. destruct s as [|a s]; [contradiction|]. cbn [contains_char] in C. apply Bool.orb_false_iff in C. destruct C as (C & _).
  cbn [String.prefix]. destruct (Ascii.ascii_dec "/" a) as [<-|N]; [discriminate|reflexivity].
Qed.
Lemma push_plain p s : plain s -> push p s = sub p s.
Proof. intros H. unfold push. now rewrite (path_of_plain s H). Qed.
Lemma push_empty p : push p "" = p.
Proof. unfold push, join. cbn. rewrite app_nil_r. now destruct p. Qed.
Lemma pop_sub p s : pop (sub p s) = p.
Proof.
  unfold pop, parent, sub. cbn [fp_parts fp_absolute]. destruct (fp_parts p ++ [s]) as [|x l] eqn:E; [now destruct (fp_parts p)|].
  rewrite <- E, removelast_last. now destruct p.
Qed.
Lemma sub_inj p q s t : sub p s = sub q t -> p = q /\ s = t.
Proof.
  intros H. pose proof (f_equal pop H) as E. rewrite !pop_sub in E. subst q. split; [reflexivity|].
  injection H as H. now apply app_inv_head in H as [= ->].
Qed.
Lemma subs_nil p : subs p [] = p.
Proof. unfold subs. rewrite app_nil_r. now destruct p. Qed.
Lemma subs_cons p s l : subs p (s :: l) = subs (sub p s) l.
Proof. unfold subs, sub. cbn. now rewrite <- app_assoc. Qed.
Lemma subs_snoc p l s : subs p (l ++ [s]) = sub (subs p l) s.
Proof. unfold subs, sub. cbn. now rewrite app_assoc. Qed.
Lemma sub_parts p s : exists x l, fp_parts (sub p s) = x :: l.
Proof. cbn. destruct (fp_parts p); cbn; eauto. Qed.
Lemma last_sub p s : last (fp_parts (sub p s)) "" = s.
Proof. cbn. apply last_last. Qed.
Lemma file_name_sub p s : s <> ".." -> file_name (sub p s) = Some s.
Proof.
  intros N. unfold file_name. destruct (sub_parts p s) as (x & l & E). rewrite E, <- E, last_sub.
  now destruct (String.eqb_spec s "..").
Qed.
Lemma file_stem_sub p s : s <> ".." -> file_stem (sub p s) =
  match rfind_char "." s with Some O | None => Some s | Some i => Some (slice 0 i s) end.
Proof.
  intros N. unfold file_stem. destruct (sub_parts p s) as (x & l & E). rewrite E, <- E, last_sub.
  now destruct (String.eqb_spec s "..").
Qed.
Lemma is_dir_sub d p s : is_dir d (sub p s) = dk_dir d (sub p s).
Proof. unfold is_dir. destruct (sub_parts p s) as (x & l & ->). reflexivity. Qed.
Lemma plain_mod : plain "mod.rs".
Proof. repeat split; discriminate. Qed.

(** names of modules as they occur in file names *)
Record modname (s : text) : Prop := mkModname {
  mn_ne : s <> "";
  mn_dot : contains_char "." s = false;
  mn_slash : contains_char "/" s = false;
  mn_line : module_name s }.
Lemma modname_plain s : modname s -> plain s.
Proof. intros [A B C _]. split; [exact A|]. split; [|exact C]. intros ->. discriminate. Qed.
Lemma modname_dots s : modname s -> s <> "..".
Proof. intros [_ B _ _] ->. discriminate. Qed.
Lemma modname_not_rs s t : modname s -> s <> (t ++ ".rs")%string.
Proof. intros [_ B _ _] ->. rewrite contains_char_app, Bool.orb_true_r in B. discriminate. Qed.
Lemma stem_modname p s : modname s -> file_stem (sub p s) = Some s.
Proof.
  intros H. rewrite file_stem_sub by now apply modname_dots. pose proof (mn_dot s H) as D. apply ModuleFacts.rfind_none in D. now rewrite D.
Qed.
Definition rs (s : text) : text := (s ++ ".rs")%string.
Lemma plain_rs s : modname s -> plain (rs s).
Proof.
  intros [A B C _]. unfold rs. split; [now destruct s|]. split.
  - destruct s as [|a [|b s]]; [contradiction|intros [= _]; discriminate|discriminate].
  - rewrite contains_char_app, C. reflexivity.
Qed.
Lemma rs_dots s : rs s <> "..".
Proof. unfold rs. destruct s as [|a [|b [|c s]]]; try discriminate; intros [=]. Qed.
Lemma rs_inj s t : rs s = rs t -> s = t.
Proof. apply append_inj_r. Qed.
Lemma stem_rs p s : modname s -> file_stem (sub p (rs s)) = Some s.
Proof.
  intros H. rewrite file_stem_sub by apply rs_dots. unfold rs. rewrite (ModuleFacts.rfind_app "." s "rs") by reflexivity.
  destruct s as [|a s]; [now destruct (mn_ne _ H)|]. cbn [String.length]. f_equal.
  change (S (String.length s)) with (String.length (String a s)).
  apply (slice_split (String a s) (".rs")).
Qed.

(** ** Disks *)
Lemma set_file_same d p s : dk_file (set_file d p s) p = Some s.
Proof. cbn. now rewrite path_eqb_refl. Qed.
Lemma set_file_other d p s q : p <> q -> dk_file (set_file d p s) q = dk_file d q.
Proof. intros N. cbn. now destruct (path_eqb_spec p q). Qed.
Lemma is_dir_set d p s q : is_dir (set_file d p s) q = is_dir d q.
Proof. reflexivity. Qed.

(** what exists is in a directory *)
Definition closed (d : disk) : Prop := forall p s, path_exists d (sub p s) = true -> is_dir d p = true.
Lemma closed_dir d p s : closed d -> is_dir d (sub p s) = true -> is_dir d p = true.
Proof. intros C H. apply (C p s). unfold path_exists. now rewrite H. Qed.

Lemma is_prefix_spec a b : is_prefix a b = true <-> exists c, b = a ++ c.
Proof.
  revert b. induction a as [|x a IH]; intros b; cbn.
  - split; [intros _; now exists b|reflexivity].
  - destruct b as [|y b].
    + split; [discriminate|intros (c & H); discriminate].
    + rewrite Bool.andb_true_iff, String.eqb_eq, IH. split.
      * intros (-> & c & ->). now exists c.
      * intros (c & [= -> ->]). eauto.
Qed.
Lemma closed_above d : closed d -> forall l p, is_dir d (subs p l) = true -> is_dir d p = true.
Proof.
  intros C l. induction l as [|l s IH] using rev_ind; intros p H.
  - now rewrite subs_nil in H.
  - rewrite subs_snoc in H. apply (closed_dir _ _ _ C) in H. now apply IH.
Qed.
(** making one directory inside another *)
Lemma create_one d p s d1 : closed d -> is_dir d p = true -> create_dir_all d (sub p s) = Some d1 ->
  dk_file d1 = dk_file d /\ forall q, is_dir d1 q = (path_eqb q (sub p s) || is_dir d q)%bool.
Proof.
  intros C P H. unfold create_dir_all in H. destruct (existsb _ _); [discriminate|]. injection H as <-. cbn [dk_file].
  split; [reflexivity|]. intros q. unfold is_dir at 1. destruct (fp_parts q) as [|x l] eqn:E.
  - destruct (path_eqb_spec q (sub p s)) as [->|_]; [reflexivity|]. cbn [orb]. unfold is_dir. now rewrite E.
  - cbn [dk_dir]. assert (D : dk_dir d q = is_dir d q) by (unfold is_dir; now rewrite E). rewrite D.
    destruct (is_dir d q) eqn:Q; [now rewrite !Bool.orb_true_r|]. rewrite !Bool.orb_false_r.
    destruct (above q (sub p s)) eqn:A; destruct (path_eqb_spec q (sub p s)) as [F|N]; try reflexivity.
    + exfalso. unfold above in A. apply Bool.andb_true_iff in A. destruct A as (A1 & A2). apply Bool.eqb_prop in A1.
      apply is_prefix_spec in A2. destruct A2 as (c & A2). destruct c as [|c0 c _] using rev_ind.
      * apply N. destruct q as [qa ql]. cbn in *. subst qa. rewrite app_nil_r in A2. unfold sub. now rewrite A2.
      * assert (X : p = subs q c).
        { cbn in A1, A2. rewrite app_assoc in A2. apply app_inj_tail in A2. destruct A2 as (A2 & _).
          destruct p as [pa pl]. unfold subs. cbn in *. now rewrite A1, A2. }
        subst p. rewrite (closed_above d C c q P) in Q. discriminate.
    + exfalso. subst q. unfold above in A. rewrite Bool.eqb_reflx in A. cbn [andb] in A.
      assert (X : is_prefix (fp_parts (sub p s)) (fp_parts (sub p s)) = true) by (apply is_prefix_spec; exists []; now rewrite app_nil_r).
      congruence.
Qed.

Lemma ancestor_parent p s t : In (sub p s) (ancestors (sub (sub p s) t)).
Proof.
  unfold ancestors. apply in_map_iff. exists (List.length (fp_parts (sub p s))). split.
  - cbn [fp_parts sub fp_absolute]. rewrite firstn_app, Nat.sub_diag. cbn [firstn]. rewrite app_nil_r, firstn_all. now destruct p.
  - apply in_seq. cbn. rewrite !app_length. cbn. lia.
Qed.

(** ** The mod.rs files *)

(** the mod.rs of directory [p] is a generated one and lists [x] *)
Definition listed (d : disk) (p : fpath) (x : text) : Prop :=
  exists ns, dk_file d (sub p "mod.rs") = Some (generated ns) /\ Forall module_name ns /\ In x ns.

Lemma generated_inj ns old : Forall module_name ns -> Forall module_name old -> Some (generated ns) = Some (generated old) -> ns = old.
Proof.
  intros Hn Ho H. assert (E : generated ns = generated old) by congruence. apply (f_equal lines) in E. rewrite !generated_lines in E by assumption.
  assert (M : map entry ns = map entry old) by congruence. clear -M. revert old M. induction ns as [|a ns IH]; intros [|b old] M; try discriminate; [reflexivity|].
  cbn [map] in M. assert (H1 : entry a = entry b) by congruence. assert (H2 : map entry ns = map entry old) by congruence.
  unfold entry in H1. apply append_inj_l in H1. apply append_inj_r in H1. subst b. f_equal. now apply IH.
Qed.
Lemma closed_set d p s c : closed d -> is_dir d p = true -> closed (set_file d (sub p s) c).
Proof.
  intros C D q t H. rewrite is_dir_set. unfold path_exists in H. rewrite is_dir_set in H. destruct (is_dir d (sub q t)) eqn:E.
  - now apply (closed_dir d q t C).
  - cbn [orb] in H. unfold file_exists in H. destruct (path_eqb_spec (sub p s) (sub q t)) as [X|N].
    + apply sub_inj in X. now destruct X as (<- & _).
    + rewrite set_file_other in H by exact N. apply (C q t). unfold path_exists. now rewrite E.
Qed.

(** ** Packages and file stems *)
Lemma word_no_char c t : all word_char t -> ~ word_char c -> contains_char c t = false.
Proof.
  intros H N. induction H as [|a t A H IH]; [reflexivity|]. cbn [contains_char]. rewrite IH, Bool.orb_false_r.
  destruct (Ascii.eqb_spec a c) as [->|_]; [contradiction|reflexivity].
Qed.
Lemma not_word c : In (nat_of_ascii c) [46; 47; 10; 13]%nat -> ~ word_char c.
Proof.
  intros I [[L| ->]|D]; [destruct L as [L|L]; cbn in I; lia|cbn in I; lia|unfold digit_char in D; cbn in I; lia].
Qed.
Lemma word_modname s : s <> "" -> all word_char s -> modname s.
Proof.
  intros N A. assert (K : forall c, In (nat_of_ascii c) [46; 47; 10; 13]%nat -> contains_char c s = false)
    by (intros c Hc; apply word_no_char; [exact A|now apply not_word]).
  constructor; [exact N|apply K; cbn; auto|apply K; cbn; auto|split; apply K; cbn; auto].
Qed.
Lemma ident_modname s : ident s -> modname s.
Proof. intros [c t A B]. apply word_modname; [discriminate|]. constructor; [now left|exact B]. Qed.
Lemma sanitize_modname s : modname s -> modname (sanitize_segment s).
Proof.
  intros [A B C (D & E)]. constructor.
  - unfold sanitize_segment. destruct (is_keyword s); [|exact A]. now destruct s.
  - apply sanitize_segment_no_char; congruence.
  - apply sanitize_segment_no_char; congruence.
  - split; apply sanitize_segment_no_char; auto; discriminate.
Qed.
Lemma sanitize_keyword_one s : contains_char "." s = false -> sanitize_keyword s = sanitize_segment s.
Proof. intros H. rewrite sanitize_keyword_segments, (split_none _ _ H). reflexivity. Qed.
Lemma sanitize_not_mod s : sanitize_segment s <> "mod".
Proof. intros E. pose proof (sanitize_segment_not_keyword s) as K. rewrite E in K. discriminate K. Qed.

Lemma path_segments s : path s -> split_on "." s <> [] /\ Forall modname (split_on "." s).
Proof.
  intros H. split; [apply split_on_nonempty|]. induction H as [t I|t p I P IH].
  - rewrite (split_none _ _ (mn_dot t (ident_modname t I))). constructor; [now apply ident_modname|constructor].
  - change (t ++ "." ++ p)%string with (t ++ String "." p)%string. rewrite (split_app "." t p) by apply (mn_dot t (ident_modname t I)). constructor; [now apply ident_modname|exact IH].
Qed.
Lemma segments_path s : Forall modname (split_on "." s) -> segments s = split_on "." s.
Proof.
  unfold segments. intros H. induction H as [|x l M F IH]; [reflexivity|]. cbn [filter]. destruct (String.eqb_spec x "") as [E|_]; [now apply mn_ne in M|].
  cbn [negb]. now rewrite IH.
Qed.
Lemma split_package_split s : s <> "" -> exists prefix last, split_package s = (prefix, last) /\
  ((contains_char "." s = false /\ prefix = "" /\ last = s) \/ (contains_char "." last = false /\ s = (prefix ++ "." ++ last)%string /\ split_on "." s = split_on "." prefix ++ [last])).
Proof.
  intros N. destruct (contains_char "." s) eqn:C.
  - destruct (rfind_char "." s) as [i|] eqn:R; [|apply ModuleFacts.rfind_none in R; congruence].
    destruct (ModuleFacts.rfind_some _ _ _ R) as (a & b & -> & _ & Nb). exists a, b. split; [now apply split_package_dot|]. right.
    split; [exact Nb|]. split; [reflexivity|]. rewrite split_app_gen. now rewrite (split_none _ _ Nb).
  - exists "", s. split; [now apply split_package_no_dot|]. left. auto.
Qed.

(** where a package puts the file *)
Lemma package_place pk : type_name pk -> exists prefix dirs last, split_package pk = (prefix, last) /\
  segments pk = dirs ++ [last] /\ Forall modname dirs /\ modname last /\
  ((prefix = "" /\ dirs = []) \/ (prefix <> "" /\ (split_on "." prefix = dirs \/ split_on "." prefix = "" :: dirs))).
Proof.
  intros [p P|p P]; destruct (path_segments p P) as (Ne & F).
  - assert (N : p <> "") by (intros ->; cbn in F; inversion F as [|? ? M _]; now apply mn_ne in M).
    destruct (split_package_split p N) as (prefix & l & E & [(C & -> & ->)|(C & Ep & Es)]).
    + exists "", [], p. rewrite segments_path by exact F. rewrite (split_none _ _ C) in *. inversion F; subst. auto 10.
    + exists prefix, (split_on "." prefix), l. rewrite segments_path by exact F. rewrite Es in F. apply Forall_app in F. destruct F as (F1 & F2). inversion F2; subst.
      split; [exact E|]. split; [exact Es|]. split; [exact F1|]. split; [assumption|]. right. split; [|now left]. intros ->. cbn in F1.
      inversion F1 as [|? ? M _]; now apply mn_ne in M.
  - destruct (split_package_split ("." ++ p)%string ltac:(discriminate)) as (prefix & l & E & [(C & _)|(C & Ep & Es)]); [discriminate C|].
    assert (Sp : split_on "." ("." ++ p)%string = "" :: split_on "." p) by reflexivity.
    assert (Sg : segments ("." ++ p)%string = split_on "." p) by (unfold segments; rewrite Sp; cbn [filter String.eqb negb]; apply (segments_path p F)).
    rewrite Sp in Es. destruct prefix as [|a prefix].
    + cbn in Es. injection Es as Es. exists "", [], l. rewrite Sg, Es. rewrite Es in F. inversion F; subst. auto 10.
    + set (pre := String a prefix) in *. destruct (split_on "." pre) as [|x dirs] eqn:Ed; [now apply split_on_nonempty in Ed|]. injection Es as <- Es.
      exists pre, dirs, l. rewrite Sg. rewrite Es in F. apply Forall_app in F. destruct F as (F1 & F2). inversion F2; subst.
      split; [exact E|]. split; [exact Es|]. split; [exact F1|]. split; [assumption|]. right. split; [discriminate|now right].
Qed.

Lemma map_chars_words s : all word_char (map_chars (fun a => if is_alphanumeric a then a else "_"%char) s).
Proof.
  induction s as [|a s IH]; cbn [map_chars]; constructor; [|exact IH]. destruct (is_alphanumeric a) eqn:E; [|left; right; reflexivity].
  unfold is_alphanumeric in E. rewrite !Bool.orb_true_iff, !Bool.andb_true_iff, !Nat.leb_le in E.
  destruct E as [[E|E]|E]; [right; exact E|left; left; left; exact E|left; left; right; exact E].
Qed.
Lemma get_stem_modname out stem : Forall (fun x => x <> "") (fp_parts out) -> get_file_stem out = Some stem -> modname stem /\ stem <> "mod".
Proof.
  intros P H. destruct (stem_one out stem P H) as (_ & Ne). unfold get_file_stem in H. destruct (file_stem out) as [s|]; [|discriminate]. injection H as <-.
  unfold sanitize_stem in *. set (w := map_chars _ s) in *. pose proof (map_chars_words s) as W. fold w in W.
  assert (D : contains_char "." w = false) by (apply word_no_char; [exact W|apply not_word; cbn; auto]).
  rewrite (sanitize_keyword_one _ D) in *. split; [|apply sanitize_not_mod]. apply sanitize_modname, word_modname; [|exact W]. intros E. rewrite E in Ne. now apply Ne.
Qed.

(** the directories and the stem of the output of a file in package [pk] *)
Inductive placed_file (pk : text) (out : fpath) : list text -> text -> Prop :=
| placed_alone stem : segments pk = [] -> get_file_stem out = Some stem -> placed_file pk out [] stem
| placed_package dirs last : segments pk = dirs ++ [last] -> placed_file pk out dirs (sanitize_segment last).
Lemma placed_fun pk out d1 s1 d2 s2 : placed_file pk out d1 s1 -> placed_file pk out d2 s2 -> d1 = d2 /\ s1 = s2.
Proof.
  intros [a A B|l x A] [a' A' B'|l' x' A'].
  - split; [reflexivity|congruence].
  - rewrite A in A'. now destruct l'.
  - rewrite A' in A. now destruct l.
  - rewrite A in A'. apply app_inj_tail in A'. destruct A' as (-> & ->). auto.
Qed.
(** a package from a file *)
Definition file_package (pk : text) : Prop := pk = "" \/ type_name pk.
Lemma placed_names pk out dirs stem : file_package pk -> Forall (fun x => x <> "") (fp_parts out) -> placed_file pk out dirs stem ->
  Forall modname dirs /\ modname stem /\ stem <> "mod".
Proof.
  intros [->|T] P [st S G|ds l S].
  - split; [constructor|]. now apply (get_stem_modname out).
  - exfalso. cbn in S. now destruct ds.
  - exfalso. destruct (package_place pk T) as (pre & ds & l & _ & S' & _). rewrite S in S'. now destruct ds.
  - destruct (package_place pk T) as (pre & ds' & l' & _ & S' & F & M & _). rewrite S in S'. apply app_inj_tail in S'. destruct S' as (-> & ->).
    split; [exact F|]. split; [now apply sanitize_modname|apply sanitize_not_mod].
Qed.

(** the directory of the output path *)
Definition base (c : gen_config) : fpath := match file_name (g_out c) with Some _ => pop (g_out c) | None => g_out c end.
Lemma with_name c s : plain s -> with_file_name (g_out c) s = sub (base c) s.
Proof. intros H. unfold with_file_name, base. destruct (file_name (g_out c)); now apply push_plain. Qed.

Section Tree.
(** [scope]: the directories whose mod.rs the generator keeps; [inner p x]: [x] in
    [p] is a directory for a package *)
Variable scope : fpath -> Prop.
Variable inner : fpath -> text -> Prop.
Hypothesis inner_scope : forall p x, inner p x -> scope p /\ modname x.

Record tidy (d : disk) : Prop := mkTidy {
  t_closed : closed d;
  t_mod : forall p s, scope p -> dk_file d (sub p "mod.rs") = Some s -> exists ns, s = generated ns /\ Forall module_name ns;
  t_nodir : forall p, scope p -> is_dir d (sub p "mod.rs") = false;
  t_dir : forall p x, inner p x -> path_exists d (sub p x) = true -> listed d p x }.

(** what only grows *)
Record grows (d d' : disk) : Prop := mkGrows {
  gr_dir : forall p, is_dir d p = true -> is_dir d' p = true;
  gr_file : forall p, file_exists (dk_file d) p = true -> file_exists (dk_file d') p = true;
  gr_list : forall p x, scope p -> listed d p x -> listed d' p x;
  gr_new : forall p, is_dir d' p = true -> is_dir d p = true \/ exists q x, inner q x /\ p = sub q x }.
Lemma grows_refl d : grows d d.
Proof. constructor; auto. Qed.
Lemma grows_trans a b c : grows a b -> grows b c -> grows a c.
Proof.
  intros [A1 A2 A3 A4] [B1 B2 B3 B4]. constructor; [eauto|eauto|eauto|]. intros p H. destruct (B4 p H) as [K|K]; [exact (A4 p K)|now right].
Qed.

(** [update_mod_file] for the entry [s] of [p] *)
Lemma update_ok d p s x : plain s -> modname x -> file_stem (sub p s) = Some x -> is_dir d p = true ->
  is_dir d (sub p "mod.rs") = false ->
  (forall c, dk_file d (sub p "mod.rs") = Some c -> exists ns, c = generated ns /\ Forall module_name ns) ->
  exists ns, update_mod_at d (sub p s) = (WOk, set_file d (sub p "mod.rs") (generated ns)) /\ Forall module_name ns /\ In x ns /\
    (forall old, dk_file d (sub p "mod.rs") = Some (generated old) -> Forall module_name old ->
       (In x old /\ ns = old) \/ (~ In x old /\ ns = old ++ [x])).
Proof.
  intros Ps Mx St Dp Nd G. unfold update_mod_at. rewrite St, pop_sub, (push_plain _ _ plain_mod), Nd.
  destruct (dk_file d (sub p "mod.rs")) as [c|] eqn:F.
  - destruct (G c eq_refl) as (ns & -> & Hn). rewrite (update_generated ns x Hn).
    destruct (existsb (fun m => String.eqb m x) ns) eqn:E.
    + exists ns. split; [reflexivity|]. split; [exact Hn|]. apply existsb_exists in E. destruct E as (y & I & Y). apply String.eqb_eq in Y. subst y.
      split; [exact I|]. intros old H Ho. apply (generated_inj ns old Hn Ho) in H. subst old. auto.
    + exists (ns ++ [x]). split; [reflexivity|]. split; [apply Forall_app; split; [exact Hn|constructor; [apply (mn_line x Mx)|constructor]]|].
      split; [apply in_app_iff; right; now left|]. intros old H Ho. apply (generated_inj ns old Hn Ho) in H. subst old. right. split; [|reflexivity]. intros I. assert (Y : existsb (fun m => String.eqb m x) ns = true).
      { apply existsb_exists. exists x. split; [exact I|apply String.eqb_refl]. }
      congruence.
  - cbn [update_mod_file]. unfold create_file. rewrite pop_sub, Dp, Nd. cbn [andb negb].
    exists [x]. change [x] with ([] ++ [x]) at 1. rewrite generated_snoc. split; [reflexivity|].
    split; [constructor; [apply (mn_line x Mx)|constructor]|]. split; [now left|]. intros old H. discriminate H.
Qed.

(** a tidy disk after the mod.rs of [p] has got [x] *)
Lemma tidy_listed d p ns x : tidy d -> is_dir d p = true -> scope p -> Forall module_name ns -> In x ns ->
  (forall old, dk_file d (sub p "mod.rs") = Some (generated old) -> Forall module_name old -> incl old ns) ->
  let d' := set_file d (sub p "mod.rs") (generated ns) in tidy d' /\ grows d d' /\ listed d' p x.
Proof.
  intros [T1 T2 T3 T4] Dp Sp Hn Ix Inc d'.
  assert (G : forall q y, scope q -> listed d q y -> listed d' q y).
  { intros q y Sq (old & F & Ho & I). destruct (path_eqb_spec (sub p "mod.rs") (sub q "mod.rs")) as [E|N].
    - apply sub_inj in E. destruct E as (<- & _). exists ns. split; [apply set_file_same|]. split; [exact Hn|]. exact (Inc old F Ho y I).
    - exists old. split; [|auto]. unfold d'. now rewrite set_file_other. }
  split; [|split].
  - constructor.
    + now apply closed_set.
    + intros q s Sq F. destruct (path_eqb_spec (sub p "mod.rs") (sub q "mod.rs")) as [E|N].
      * rewrite <- E in F. unfold d' in F. rewrite set_file_same in F. injection F as <-. eauto.
      * unfold d' in F. rewrite set_file_other in F by exact N. eauto.
    + intros q Sq. exact (T3 q Sq).
    + intros q y I E. destruct (inner_scope q y I) as (Sq & My). apply (G q y Sq). apply T4; [exact I|].
      unfold path_exists in *. unfold d' in E. rewrite is_dir_set in E. destruct (is_dir d (sub q y)); [reflexivity|]. cbn [orb] in *.
      unfold file_exists in *. rewrite set_file_other in E; [exact E|]. intros X. apply sub_inj in X. destruct X as (_ & X).
      apply (modname_not_rs y "mod" My). now rewrite <- X.
  - constructor; [auto| |exact G|auto]. intros q E. unfold file_exists in *. destruct (path_eqb_spec (sub p "mod.rs") q) as [<-|N].
    + unfold d'. now rewrite set_file_same.
    + unfold d'. now rewrite set_file_other.
  - exists ns. split; [apply set_file_same|]. auto.
Qed.

(** files that the generator writes have names that end in .rs *)
Definition ends_rs (p : fpath) : Prop := exists q s, p = sub q (rs s).
Definition keeps_sources (d d' : disk) : Prop := forall p, ~ ends_rs p -> dk_file d' p = dk_file d p.
(** only mod.rs files change *)
Definition keeps_files (d d' : disk) : Prop := forall p, (forall q, scope q -> p <> sub q "mod.rs") -> dk_file d' p = dk_file d p.
Lemma mod_ends_rs q : ends_rs (sub q "mod.rs").
Proof. now exists q, "mod". Qed.
Lemma keeps_files_sources d d' : keeps_files d d' -> keeps_sources d d'.
Proof. intros H p N. apply H. intros q _ ->. apply N, mod_ends_rs. Qed.

(** one directory of a package *)
Lemma make_dir_ok d p s d1 : tidy d -> inner p s -> is_dir d p = true -> path_exists d (sub p s) = false ->
  create_dir_all d (sub p s) = Some d1 ->
  exists d2, update_mod_at d1 (sub p s) = (WOk, d2) /\ tidy d2 /\ grows d d2 /\ keeps_files d d2 /\ listed d2 p s /\ is_dir d2 (sub p s) = true.
Proof.
  intros T I Dp E C. pose proof T as [T1 T2 T3 T4]. destruct (inner_scope p s I) as (Sp & Ms). destruct (create_one d p s d1 T1 Dp C) as (F1 & D1).
  assert (Nm : sub p s <> sub p "mod.rs").
  { intros X. apply sub_inj in X. destruct X as (_ & X). now apply (modname_not_rs s "mod" Ms). }
  destruct (update_ok d1 p s s) as (ns & U & Hn & Ix & Old).
  - now apply modname_plain.
  - exact Ms.
  - now apply stem_modname.
  - rewrite D1, Dp. apply Bool.orb_true_r.
  - rewrite D1, (T3 p Sp), Bool.orb_false_r. destruct (path_eqb_spec (sub p "mod.rs") (sub p s)); [congruence|reflexivity].
  - intros c Hc. rewrite F1 in Hc. eauto.
  - exists (set_file d1 (sub p "mod.rs") (generated ns)). split; [exact U|].
    assert (Inc : forall old, dk_file d (sub p "mod.rs") = Some (generated old) -> Forall module_name old -> incl old ns).
    { intros old Fo Ho. rewrite <- F1 in Fo. destruct (Old old Fo Ho) as [(_ & ->)|(_ & ->)]; intros y Iy; [exact Iy|apply in_app_iff; now left]. }
    assert (F2 : forall q, dk_file (set_file d1 (sub p "mod.rs") (generated ns)) q = dk_file (set_file d (sub p "mod.rs") (generated ns)) q)
      by (intros q; cbn; now rewrite F1).
    assert (L : listed (set_file d1 (sub p "mod.rs") (generated ns)) p s) by (exists ns; split; [apply set_file_same|auto]).
    destruct (tidy_listed d p ns s T Dp Sp Hn Ix Inc) as ([U1 U2 U3 U4] & [V1 V2 V3 _] & _).
    assert (Gl : forall q y, listed (set_file d (sub p "mod.rs") (generated ns)) q y -> listed (set_file d1 (sub p "mod.rs") (generated ns)) q y).
    { intros q y (m & Fm & R). exists m. split; [now rewrite F2|exact R]. }
    split; [|split; [|split; [|split]]].
    + constructor.
      * intros q y H. rewrite is_dir_set, D1. unfold path_exists in H. rewrite is_dir_set, D1 in H.
        destruct (path_eqb_spec (sub q y) (sub p s)) as [X|N].
        -- apply sub_inj in X. destruct X as (-> & ->). rewrite Dp. apply Bool.orb_true_r.
        -- cbn [orb] in H. assert (X : is_dir d q = true); [|rewrite X; apply Bool.orb_true_r].
           change (is_dir (set_file d (sub p "mod.rs") (generated ns)) q = true). apply (U1 q y). unfold path_exists. rewrite is_dir_set.
           unfold file_exists in *. now rewrite <- F2.
      * intros q c Sq Fc. rewrite F2 in Fc. eauto.
      * intros q Sq. rewrite is_dir_set, D1, (T3 q Sq), Bool.orb_false_r. destruct (path_eqb_spec (sub q "mod.rs") (sub p s)) as [X|]; [|reflexivity].
        exfalso. apply sub_inj in X. destruct X as (_ & X). symmetry in X. now apply (modname_not_rs s "mod" Ms).
      * intros q y Iq X. unfold path_exists in X. rewrite is_dir_set, D1 in X. destruct (path_eqb_spec (sub q y) (sub p s)) as [Y|N].
        -- apply sub_inj in Y. destruct Y as (-> & ->). exact L.
        -- cbn [orb] in X. apply Gl, U4; [exact Iq|]. unfold path_exists. rewrite is_dir_set. unfold file_exists in *. now rewrite <- F2.
    + constructor.
      * intros q H. rewrite is_dir_set, D1, H. apply Bool.orb_true_r.
      * intros q H. unfold file_exists. rewrite F2. exact (V2 q H).
      * intros q y Sq H. apply Gl. now apply V3.
      * intros q H. rewrite is_dir_set, D1 in H. apply Bool.orb_true_iff in H. destruct H as [H|H]; [|now left].
        destruct (path_eqb_spec q (sub p s)) as [Eq|]; [|discriminate]. right. exists p, s. split; [exact I|exact Eq].
    + intros q N. rewrite F2. apply set_file_other. intros X. exact (N p Sp (eq_sym X)).
    + exact L.
    + rewrite is_dir_set, D1, path_eqb_refl. reflexivity.
Qed.

(** all of them *)
Fixpoint dirs_inner (p : fpath) (l : list text) : Prop :=
  match l with [] => True | s :: l' => inner p s /\ dirs_inner (sub p s) l' end.
Fixpoint all_listed (d : disk) (p : fpath) (l : list text) : Prop :=
  match l with [] => True | s :: l' => listed d p s /\ all_listed d (sub p s) l' end.
Fixpoint all_exist (d : disk) (p : fpath) (l : list text) : Prop :=
  match l with [] => True | s :: l' => path_exists d (sub p s) = true /\ all_exist d (sub p s) l' end.
Lemma exists_grows d d' p : grows d d' -> path_exists d p = true -> path_exists d' p = true.
Proof.
  intros [G1 G2 _ _] H. unfold path_exists in *. apply Bool.orb_true_iff in H. destruct H as [H|H].
  - now rewrite (G1 p H).
  - rewrite (G2 p H). apply Bool.orb_true_r.
Qed.
Lemma all_exist_grows d d' : grows d d' -> forall l p, all_exist d p l -> all_exist d' p l.
Proof.
  intros G. induction l as [|s l IH]; intros p; cbn; [auto|]. intros (E & A). split; [now apply (exists_grows d d')|auto].
Qed.
(** nothing is made when everything is there *)
Lemma make_dirs_there d : forall l p, dirs_inner p l -> all_exist d p l -> make_dirs d p l = (WOk, d, subs p l).
Proof.
  induction l as [|s l IH]; intros p; cbn [make_dirs dirs_inner all_exist]; [now rewrite subs_nil|]. intros (I & D) (E & A).
  destruct (inner_scope p s I) as (_ & M). rewrite (push_plain _ _ (modname_plain s M)), E, subs_cons. now apply IH.
Qed.
Lemma all_listed_grows d d' : grows d d' -> forall l p, dirs_inner p l -> all_listed d p l -> all_listed d' p l.
Proof.
  intros G. induction l as [|s l IH]; intros p; cbn; [auto|]. intros (I & D) (L & A). destruct (inner_scope p s I) as (Sp & _).
  split; [now apply (gr_list _ _ G)|now apply IH].
Qed.

Lemma make_dirs_ok : forall l d p r d' q, tidy d -> dirs_inner p l -> is_dir d p = true -> make_dirs d p l = (r, d', q) ->
  tidy d' /\ grows d d' /\ keeps_files d d' /\ (r = WOk -> q = subs p l /\ all_listed d' p l /\ all_exist d' p l).
Proof.
  assert (K : forall d, keeps_files d d) by (intros d x _; reflexivity).
  induction l as [|s l IH]; intros d p r d' q T D Dp H; cbn [make_dirs] in H.
  - injection H as <- <- <-. rewrite subs_nil. split; [exact T|]. split; [apply grows_refl|]. split; [apply K|]. cbn. auto.
  - destruct D as (I & D). destruct (inner_scope p s I) as (Sp & Ms). rewrite (push_plain _ _ (modname_plain s Ms)) in H.
    destruct (path_exists d (sub p s)) eqn:E.
    + destruct (is_dir d (sub p s)) eqn:Ds.
      * destruct (IH d (sub p s) r d' q T D Ds H) as (T' & G & Kf & R). split; [exact T'|]. split; [exact G|]. split; [exact Kf|].
        intros Er. destruct (R Er) as (-> & A & X). rewrite subs_cons. split; [reflexivity|]. cbn. split; split; [|exact A| |exact X].
        -- apply (gr_list _ _ G); [exact Sp|]. now apply (t_dir d T).
        -- now apply (exists_grows d d').
      * (* a file of that name: nothing can be made in it *)
        destruct l as [|s2 l].
        -- cbn in H. injection H as <- <- <-. split; [exact T|]. split; [apply grows_refl|]. split; [apply K|]. intros _.
           rewrite subs_cons, subs_nil. split; [reflexivity|]. cbn. split; split; [now apply (t_dir d T)|exact Logic.I|exact E|exact Logic.I].
        -- cbn [make_dirs] in H. destruct D as (I2 & D). destruct (inner_scope _ _ I2) as (S2 & M2). rewrite (push_plain _ _ (modname_plain s2 M2)) in H.
           destruct (path_exists d (sub (sub p s) s2)) eqn:E2; [pose proof (t_closed d T _ _ E2); congruence|].
           assert (C : create_dir_all d (sub (sub p s) s2) = None).
           { unfold create_dir_all. destruct (existsb _ _) eqn:X; [reflexivity|]. exfalso.
             assert (Y : existsb (fun q => file_exists (dk_file d) q) (ancestors (sub (sub p s) s2)) = true); [|congruence].
             apply existsb_exists. exists (sub p s). split; [apply ancestor_parent|].
             unfold path_exists in E. now rewrite Ds in E. }
           rewrite C in H. injection H as <- <- <-. split; [exact T|]. split; [apply grows_refl|]. split; [apply K|]. discriminate.
    + destruct (create_dir_all d (sub p s)) as [d1|] eqn:C.
      * destruct (make_dir_ok d p s d1 T I Dp E C) as (d2 & U & T2 & G2 & K2 & L2 & D2). rewrite U in H.
        destruct (IH d2 (sub p s) r d' q T2 D D2 H) as (T' & G & Kf & R). split; [exact T'|]. split; [eapply grows_trans; eauto|].
        split; [intros x Nx; rewrite (Kf x Nx); now apply K2|]. intros Er. destruct (R Er) as (-> & A & X). rewrite subs_cons. split; [reflexivity|].
        cbn. split; split; [|exact A| |exact X]; [now apply (gr_list _ _ G)|]. unfold path_exists. now rewrite (gr_dir _ _ G _ D2).
      * injection H as <- <- <-. split; [exact T|]. split; [apply grows_refl|]. split; [apply K|]. discriminate.
Qed.

(** leading dots of a package do not matter *)
Lemma make_dirs_dot d p l : is_dir d p = true -> make_dirs d p ("" :: l) = make_dirs d p l.
Proof. intros H. cbn [make_dirs]. rewrite push_empty. unfold path_exists. now rewrite H. Qed.

(** everything after the passes *)
Lemma emit_ok render c desc d dirs stem r d' :
  file_package (d_package (in_desc desc)) -> Forall (fun x => x <> "") (fp_parts (g_out c)) -> placed_file (d_package (in_desc desc)) (g_out c) dirs stem ->
  tidy d -> dirs_inner (base c) dirs -> scope (subs (base c) dirs) -> is_dir d (base c) = true ->
  emit render c desc d = (r, d') ->
  let F := sub (subs (base c) dirs) (rs stem) in
  tidy d' /\ grows d d' /\
  (forall p, (forall q, scope q -> p <> sub q "mod.rs") -> p <> F -> dk_file d' p = dk_file d p) /\
  (r = WOk -> all_listed d' (base c) dirs /\ all_exist d' (base c) dirs /\
     (g_no_output c = true -> dk_file d' F = dk_file d F) /\
     (g_no_output c = false -> dk_file d' F = Some (fst (render c desc)) /\ listed d' (subs (base c) dirs) stem /\
        snd (render c desc) = WOk /\ file_name (g_in c) <> None /\ is_dir d' (subs (base c) dirs) = true /\ is_dir d' F = false)).
Proof.
  intros Pk Np Pl T Di Sc Db H F. destruct (placed_names _ _ _ _ Pk Np Pl) as (Md & Ms & Nm).
  pose proof (plain_rs stem Ms) as Pr.
  assert (NF : forall q, F <> sub q "mod.rs").
  { intros q X. apply sub_inj in X. destruct X as (_ & X). apply Nm. apply rs_inj. exact X. }
  assert (St : exists prefix last, split_package (d_package (in_desc desc)) = (prefix, last) /\
     (if String.eqb last "" then get_file_stem (g_out c) else Some (sanitize_keyword last)) = Some stem /\
     (if String.eqb prefix "" then dirs = [] else forall p, is_dir d p = true -> make_dirs d p (split_on "." prefix) = make_dirs d p dirs)).
  { destruct Pk as [E|Ty].
    - rewrite E in Pl |- *. exists "", "". split; [reflexivity|]. inversion Pl as [st S G|ds l S]; subst; [|now destruct dirs]. auto.
    - destruct (package_place _ Ty) as (prefix & ds & l & E & S & Fd & Ml & Pre). exists prefix, l. split; [exact E|].
      inversion Pl as [st S' G|ds' l' S']; subst; [rewrite S in S'; now destruct ds|]. rewrite S in S'. apply app_inj_tail in S'. destruct S' as (-> & ->).
      split.
      + destruct (String.eqb_spec l' "") as [X|_]; [now apply mn_ne in Ml|]. now rewrite (sanitize_keyword_one _ (mn_dot _ Ml)).
      + destruct Pre as [(-> & ->)|(Np' & Sp)]; [reflexivity|]. destruct (String.eqb_spec prefix ""); [contradiction|].
        intros p Dp. destruct Sp as [->| ->]; [reflexivity|now apply make_dirs_dot]. }
  destruct St as (prefix & last & Es & Est & Dirs). unfold emit in H. rewrite Es, Est in H. fold (rs stem) in H.
  rewrite (with_name c _ Pr), (file_name_sub _ _ (rs_dots stem)), pop_sub in H.
  (* the directories *)
  set (mk := if String.eqb prefix "" then _ else _) in H.
  assert (Mk : exists r1 d1 out1, mk = (r1, d1, out1) /\ tidy d1 /\ grows d d1 /\ keeps_files d d1 /\ (r1 = WOk -> out1 = F /\ all_listed d1 (base c) dirs /\ all_exist d1 (base c) dirs)).
  { unfold mk. destruct (String.eqb prefix "").
    - subst dirs. exists WOk, d, (sub (base c) (rs stem)). split; [reflexivity|]. split; [exact T|]. split; [apply grows_refl|].
      split; [intros x _; reflexivity|]. intros _. unfold F. rewrite subs_nil. split; [reflexivity|split; exact Logic.I].
    - rewrite (Dirs _ Db). destruct (make_dirs d (base c) dirs) as ((r1 & d1) & q) eqn:M.
      destruct (make_dirs_ok dirs d (base c) r1 d1 q T Di Db M) as (T1 & G1 & K1 & R1).
      exists r1, d1, (push q (rs stem)). split; [reflexivity|]. split; [exact T1|]. split; [exact G1|]. split; [exact K1|].
      intros E. destruct (R1 E) as (-> & A). split; [|exact A]. now apply push_plain. }
  destruct Mk as (r1 & d1 & out1 & Em & T1 & G1 & K1 & R1). rewrite Em in H. clear mk Em.
  assert (Same : tidy d1 /\ grows d d1 /\ (forall p, (forall q, scope q -> p <> sub q "mod.rs") -> p <> F -> dk_file d1 p = dk_file d p)) by (split; [exact T1|]; split; [exact G1|]; intros p N _; now apply K1).
  destruct r1; try (injection H as <- <-; destruct Same as (A & B & C); split; [exact A|]; split; [exact B|]; split; [exact C|]; discriminate).
  destruct (R1 eq_refl) as (-> & L1 & X1). clear R1. destruct (g_no_output c) eqn:No.
  { injection H as <- <-. destruct Same as (A & B & C). split; [exact A|]. split; [exact B|]. split; [exact C|]. intros _. split; [exact L1|]. split; [exact X1|].
    split; [|discriminate]. intros _. apply K1. intros q _. apply NF. }
  destruct (file_name (g_in c)) as [inn|] eqn:Fi; [|injection H as <- <-; destruct Same as (A & B & C); split; [exact A|]; split; [exact B|]; split; [exact C|]; discriminate].
  destruct (render c desc) as (content, ended) eqn:Er. unfold create_file in H.
  destruct (is_dir d1 (pop F) && negb (is_dir d1 F)) eqn:Cf; [|injection H as <- <-; destruct Same as (A & B & C); split; [exact A|]; split; [exact B|]; split; [exact C|]; discriminate].
  apply Bool.andb_true_iff in Cf. destruct Cf as (Cf & Cf2). apply Bool.negb_true_iff in Cf2. unfold F in Cf. rewrite pop_sub in Cf. set (D := subs (base c) dirs) in *.
  set (d2 := set_file d1 F content) in *.
  assert (T2 : tidy d2 /\ grows d1 d2).
  { destruct T1 as [A1 A2 A3 A4]. assert (Ls : forall q x, listed d1 q x -> listed d2 q x).
    { intros q x (ns & Fn & R). exists ns. split; [|exact R]. unfold d2. rewrite set_file_other; [exact Fn|apply NF]. }
    split.
    - constructor.
      + now apply closed_set.
      + intros q x Sq Fx. unfold d2 in Fx. rewrite set_file_other in Fx by apply NF. eauto.
      + intros q Sq. exact (A3 q Sq).
      + intros q x I E. apply Ls, A4; [exact I|]. unfold path_exists in *. unfold d2 in E. rewrite is_dir_set in E. unfold file_exists in *.
        rewrite set_file_other in E; [exact E|]. intros X. apply sub_inj in X. destruct X as (_ & X). destruct (inner_scope q x I) as (_ & Mx).
        symmetry in X. now apply (modname_not_rs x stem Mx).
    - constructor; [auto| |auto|auto]. intros q E. unfold file_exists in *. unfold d2. destruct (path_eqb_spec F q) as [<-|N]; [now rewrite set_file_same|now rewrite set_file_other]. }
  destruct T2 as (T2 & G2).
  assert (Same2 : tidy d2 /\ grows d d2 /\ (forall p, (forall q, scope q -> p <> sub q "mod.rs") -> p <> F -> dk_file d2 p = dk_file d p)).
  { split; [exact T2|]. split; [eapply grows_trans; eauto|]. intros p N N2. unfold d2. rewrite set_file_other by congruence. now apply K1. }
  destruct ended; try (injection H as <- <-; destruct Same2 as (A & B & C); split; [exact A|]; split; [exact B|]; split; [exact C|]; discriminate).
  destruct (update_ok d2 D (rs stem) stem) as (ns & U & Hn & Ix & Old).
  - exact Pr.
  - exact Ms.
  - now apply stem_rs.
  - exact Cf.
  - exact (t_nodir d2 T2 D Sc).
  - intros x Fx. exact (t_mod d2 T2 D x Sc Fx).
  - unfold F in H. rewrite U in H. injection H as <- <-.
    destruct (tidy_listed d2 D ns stem T2 Cf Sc Hn Ix) as (T3 & G3 & L3).
    { intros old Fo Ho. destruct (Old old Fo Ho) as [(_ & ->)|(_ & ->)]; intros y Iy; [exact Iy|apply in_app_iff; now left]. }
    split; [exact T3|]. split; [eapply grows_trans; [eapply grows_trans; eassumption|exact G3]|]. split.
    + intros p N N2. rewrite set_file_other by (intros X; exact (N D Sc (eq_sym X))). destruct Same2 as (_ & _ & C). now apply C.
    + intros _. split; [|split; [|split; [discriminate|]]].
      * apply (all_listed_grows _ _ (grows_trans _ _ _ G2 G3)); assumption.
      * apply (all_exist_grows _ _ (grows_trans _ _ _ G2 G3)); assumption.
      * intros _. split; [|split; [exact L3|split; [reflexivity|split; [discriminate|split; [exact Cf|exact Cf2]]]]]. rewrite set_file_other by (intros X; exact (NF D (eq_sym X))). unfold d2. now rewrite set_file_same.
Qed.
End Tree.
