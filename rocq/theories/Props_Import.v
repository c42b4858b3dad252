(** Property theorems C61-C63: reading a file and its imports. *)
From Coq Require Import String Ascii Arith Lia Relations.
From Verif Require Import Base Schema Keywords Modules Passes Parser ParserFacts ProtoText ParserOut Import.
Import StringSyntax.
Local Open Scope string_scope.
Local Open Scope list_scope.

(* ---- the specification ---- *)

(** Where import [i] of file [f] is looked for, given a directory of the search
    path: a relative directory is relative to the file.  The root directory has
    no parent. *)
Inductive import_place (f dir : fpath) (i : text) : fpath -> Prop :=
| place_absolute : fp_absolute (path_of i) = true -> import_place f dir i (path_of i)
| place_directory : fp_absolute (path_of i) = false -> fp_absolute dir = true ->
    import_place f dir i (mkPath true (fp_parts dir ++ fp_parts (path_of i)))
| place_beside : fp_absolute (path_of i) = false -> fp_absolute dir = false ->
    import_place f dir i (mkPath (fp_absolute f && match fp_parts f with [] => false | _ => true end)
                                 (removelast (fp_parts f) ++ fp_parts dir ++ fp_parts (path_of i))).
(** [g] is the first of these places for import [i] of file [f] that exists *)
Definition resolves (fs : file_system) (search : list fpath) (f : fpath) (i : text) (g : fpath) : Prop :=
  exists before path after, search = before ++ path :: after
    /\ import_place f path i g /\ fs g <> None
    /\ Forall (fun p => forall h, import_place f p i h -> fs h = None) before.

(** file [f] is read to the end and declares [p]; trailing white space is allowed *)
Definition content (check : bool) (fs : file_system) (f : fpath) (p : Parser.parsed) : Prop :=
  exists s rest, fs f = Some s /\ p_file check s = POk rest p /\ trim rest = "".

(** file [f] imports file [g] *)
Definition imports (check : bool) (fs : file_system) (search : list fpath) (f g : fpath) : Prop :=
  exists p i, content check fs f p /\ In i (p_imports p) /\ resolves fs search f i g.

(** package and module of a file *)
Definition package_of (p : Parser.parsed) : text := d_package (p_desc p).

Lemma candidate_place f dir i g : import_place f dir i g <-> g = candidate f dir i.
Proof.
  unfold candidate, join, parent. split.
  - intros [A|A B|A B]; rewrite ?A, ?B.
    + destruct (fp_absolute dir); [reflexivity|]. now destruct (fp_parts f).
    + reflexivity.
    + destruct (fp_parts f) as [|x l]; [now rewrite Bool.andb_false_r|]. cbn [fp_parts fp_absolute].
      now rewrite Bool.andb_true_r, <- app_assoc.
  - intros ->. destruct (fp_absolute (path_of i)) eqn:A.
    + destruct (fp_absolute dir); [constructor; exact A|]. destruct (fp_parts f); now constructor.
    + destruct (fp_absolute dir) eqn:B; [now constructor|]. pose proof (place_beside f dir i A B) as P.
      destruct (fp_parts f) as [|x l]; [rewrite Bool.andb_false_r in P; exact P|]. cbn [fp_parts fp_absolute] in *.
      now rewrite Bool.andb_true_r, app_assoc in P.
Qed.
Lemma find_import_resolves : forall fs search f i g,
  find_import fs search f i = Some g <-> resolves fs search f i g.
Proof.
  intros fs search f i g. unfold resolves. induction search as [|path l IH]; cbn [find_import].
  - split; [discriminate|]. intros [b [p [a [E _]]]]. destruct b; discriminate.
  - unfold file_exists. destruct (fs (candidate f path i)) as [s|] eqn:E.
    + split.
      * intro H. injection H as <-. exists [], path, l. split; [reflexivity|]. split; [now apply candidate_place|].
        split; [congruence|constructor].
      * intros [b [p [a [El [Eg [Hs Hb]]]]]]. apply candidate_place in Eg. subst g.
        destruct b as [|x b]; cbn in El; injection El as <- _; [reflexivity|].
        inversion Hb as [|? ? Hx _]; subst. specialize (Hx _ (proj2 (candidate_place _ _ _ _) eq_refl)). congruence.
    + rewrite IH. split; intros [b [p [a [El [Eg [Hs Hb]]]]]].
      * exists (path :: b), p, a. cbn. rewrite El. split; [reflexivity|]. split; [exact Eg|]. split; [exact Hs|].
        constructor; [|exact Hb]. intros h Hh. apply candidate_place in Hh. now subst h.
      * destruct b as [|x b]; cbn in El; injection El as <- ->; [apply candidate_place in Eg; congruence|].
        inversion Hb. subst. exists b, p, a. auto.
Qed.

Lemma resolves_fun : forall fs search f i g h,
  resolves fs search f i g -> resolves fs search f i h -> g = h.
Proof. intros fs search f i g h H K. apply find_import_resolves in H, K. congruence. Qed.

Lemma content_fun : forall check fs f p q, content check fs f p -> content check fs f q -> p = q.
Proof.
  intros check fs f p q [s [r [E1 [E2 _]]]] [s' [r' [E1' [E2' _]]]]. rewrite E1 in E1'. injection E1' as <-.
  rewrite E2 in E2'. now injection E2' as _ <-.
Qed.

(* ---- one step of reading ---- *)

Section Reading.
Variables (check : bool) (fs : file_system) (search : list fpath).

Notation read := (read_proto check fs search).
Notation content := (content check fs).
Notation imports := (imports check fs search).

(** what a file declares, in its package and module *)
Definition own (f : fpath) (p : Parser.parsed) (d : file_descriptor) : Prop :=
  exists m, file_module (package_of p) f = Some m
    /\ d = set_own_package (mkDesc (package_of p) (d_syntax (p_desc p)) (d_messages (p_desc p)) (d_enums (p_desc p)) m).

Lemma read_step : forall n f d, read (S n) f = ROk d ->
  exists p d0, content f p /\ own f p d0 /\ fetch fs search f (read n) d0 (p_imports p) = ROk d.
Proof.
  intros n f d H. cbn [read_proto] in H.
  destruct (fs f) as [s|] eqn:E1; [|discriminate].
  destruct (p_file check s) as [r p| | |] eqn:E2; try discriminate.
  destruct (String.eqb_spec (trim r) "") as [Et|Et]; [|discriminate].
  destruct (file_module (d_package (p_desc p)) f) as [m|] eqn:Em; [|discriminate].
  eexists p, _. split; [exists s, r; auto|]. split; [|exact H]. exists m. split; [exact Em|reflexivity].
Qed.

Lemma fetch_each : forall rd l f d d', fetch fs search f rd d l = ROk d' ->
  forall i, In i l -> exists g x, resolves fs search f i g /\ rd g = ROk x.
Proof.
  intros rd. induction l as [|j l IH]; intros f d d' H i Hi; [contradiction|]. cbn [fetch] in H.
  destruct (find_import fs search f j) as [g|] eqn:Ef; [|discriminate].
  destruct (rd g) as [x| | |] eqn:Er; try discriminate.
  destruct Hi as [<-|Hi]; [|exact (IH f _ d' H i Hi)].
  exists g, x. split; [now apply find_import_resolves|exact Er].
Qed.

Lemma read_import : forall n f d g, read (S n) f = ROk d -> imports f g -> exists x, read n g = ROk x.
Proof.
  intros n f d g H [p [i [Hp [Hi Hr]]]]. destruct (read_step n f d H) as [q [d0 [Hq [_ F]]]].
  rewrite (content_fun _ _ _ _ _ Hp Hq) in Hi. destruct (fetch_each _ _ _ _ _ F i Hi) as [h [x [Hh E]]].
  rewrite (resolves_fun _ _ _ _ _ _ Hr Hh). now exists x.
Qed.

(* ---- more fuel does not change the result ---- *)

Lemma fetch_more : forall rd rd', (forall g, rd g <> RFuel -> rd' g = rd g) ->
  forall l f d, fetch fs search f rd d l <> RFuel -> fetch fs search f rd' d l = fetch fs search f rd d l.
Proof.
  intros rd rd' H. induction l as [|i l IH]; intros f d N; [reflexivity|]. cbn [fetch] in N |- *.
  destruct (find_import fs search f i) as [g|]; [|reflexivity].
  rewrite H by (intro E; rewrite E in N; congruence).
  destruct (rd g); auto.
Qed.

Lemma read_more : forall n f, read n f <> RFuel -> read (S n) f = read n f.
Proof.
  induction n as [|n IH]; intros f N; [now elim N|].
  remember (S n) as k. cbn [read_proto]. subst k. cbn [read_proto] in N |- *.
  destruct (fs f) as [s|]; [|reflexivity].
  destruct (p_file check s) as [r p| | |]; try reflexivity.
  destruct (String.eqb (trim r) ""); [|reflexivity].
  destruct (file_module (d_package (p_desc p)) f) as [m|]; [|reflexivity].
  apply fetch_more; [|exact N]. exact IH.
Qed.

Lemma fetch_fuel : forall rd l f d, (forall i g, In i l -> resolves fs search f i g -> rd g <> RFuel) ->
  fetch fs search f rd d l <> RFuel.
Proof.
  intros rd. induction l as [|i l IH]; intros f d H E; [discriminate|]. cbn [fetch] in E.
  destruct (find_import fs search f i) as [g|] eqn:Ef; [|discriminate].
  apply find_import_resolves in Ef. pose proof (H i g (or_introl eq_refl) Ef) as N.
  destruct (rd g); try discriminate; [|congruence].
  apply (IH f (add_import d d0)); [|exact E]. intros j h Hj. apply H. now right.
Qed.
End Reading.

(* ---- C61 ---- *)

(** Reading does not terminate when files import each other: no depth of
    recursion is enough.  The witness is a file that imports itself. *)
Definition selfText : text := ("import " ++ dq ++ "a.proto" ++ dq ++ ";")%string.
Definition selfFiles : file_system := fun p =>
  match fp_parts p with ["a.proto"] => Some selfText | _ => None end.

Theorem C61_reading_terminates_refuted : exists fs search f, forall check n,
  read_proto check fs search n f = RFuel.
Proof.
  exists selfFiles, [path_of "."], (path_of "a.proto"). intros check n.
  assert (E : p_file check selfText = POk "" (mkParsed (mkDesc "" Proto2 [] [] "") ["a.proto"] [] []))
    by (destruct check; vm_compute; reflexivity).
  induction n as [|n IH]; [reflexivity|]. cbn [read_proto].
  change (selfFiles (path_of "a.proto")) with (Some selfText). cbn iota beta. rewrite E.
  cbn [p_desc d_package p_imports d_syntax d_messages d_enums].
  change (file_module "" (path_of "a.proto")) with (Some "a").
  change (String.eqb (trim "") "") with true. cbn iota beta. cbn [fetch].
  change (find_import selfFiles [path_of "."] (path_of "a.proto") "a.proto") with (Some (path_of "a.proto")).
  cbn iota beta. now rewrite IH.
Qed.
Print Assumptions C61_reading_terminates_refuted.

(** No file from which one can go on along imports for ever is read
    successfully, whatever the depth. *)
Theorem C61_cycle_never_read : forall check fs search (S : fpath -> Prop),
  (forall f, S f -> exists g, imports check fs search f g /\ S g) ->
  forall n f d, S f -> read_proto check fs search n f <> ROk d.
Proof.
  intros check fs search S H. induction n as [|n IH]; intros f d Hf E; [discriminate|].
  destruct (H f Hf) as [g [Hg Sg]]. destruct (read_import check fs search n f d g E Hg) as [x Ex].
  exact (IH g x Sg Ex).
Qed.
Print Assumptions C61_cycle_never_read.

(** Without cycles reading terminates.  Missing: cycles. *)
Theorem C61_reading_terminates_partial : forall check fs search (rank : fpath -> nat),
  (forall f g, imports check fs search f g -> (rank g < rank f)%nat) ->
  forall f, exists res, res <> RFuel
    /\ forall n, (rank f < n)%nat -> read_proto check fs search n f = res.
Proof.
  intros check fs search rank H.
  assert (T : forall n f, (rank f < n)%nat -> read_proto check fs search n f <> RFuel).
  { induction n as [|n IH]; intros f L; [lia|]. cbn [read_proto].
    destruct (fs f) as [s|] eqn:Es; [|discriminate].
    destruct (p_file check s) as [r p| | |] eqn:Ep; try discriminate.
    - destruct (String.eqb_spec (trim r) "") as [Et|]; [|discriminate].
      destruct (file_module (d_package (p_desc p)) f) as [m|]; [|discriminate].
      apply fetch_fuel. intros i g Hi Hg. apply IH.
      assert (K : imports check fs search f g) by (exists p, i; split; [exists s, r; auto|auto]).
      specialize (H f g K). lia.
    - exfalso. exact (n_file (S (slen s)) check s ltac:(lia) Ep). }
  intro f. exists (read_proto check fs search (S (rank f)) f). split; [apply T; lia|].
  intros n L. induction L as [|n L IH]; [reflexivity|].
  rewrite <- IH. apply read_more. apply T. lia.
Qed.
Print Assumptions C61_reading_terminates_partial.

(* ---- C63 ---- *)

(** A descriptor is only returned if every file that is needed, directly or not,
    has been found and read to the end. *)
Theorem C63_all_imports_read : forall check fs search n f d,
  read_proto check fs search n f = ROk d ->
  forall g, clos_refl_trans _ (imports check fs search) f g ->
  exists p, content check fs g p
    /\ forall i, In i (p_imports p) -> exists h, resolves fs search g i h.
Proof.
  intros check fs search n f d H g R. apply clos_rt_rt1n in R.
  revert n d H. induction R as [f|f h g Hh R IH]; intros n d H.
  - destruct n as [|n]; [discriminate|].
    destruct (read_step _ _ _ _ _ _ H) as [p [d0 [Hp [_ F]]]]. exists p. split; [exact Hp|].
    intros i Hi. destruct (fetch_each _ _ _ _ _ _ _ F i Hi) as [k [x [Hk _]]]. now exists k.
  - destruct n as [|n]; [discriminate|].
    destruct (read_import _ _ _ _ _ _ _ H Hh) as [x Hx]. exact (IH n x Hx).
Qed.
Print Assumptions C63_all_imports_read.

(* ---- C62 ---- *)

(** the module of a file without a package: its name without the extension, all
    that is no letter or digit replaced, and escaped if it is a keyword *)
Inductive stem_of : text -> text -> Prop :=
| stem_extension s e : s <> "" -> ~ occurs "." e -> (s ++ "." ++ e)%string <> ".." -> stem_of (s ++ "." ++ e)%string s
| stem_whole s : (forall a r, s = String a r -> ~ occurs "." r) -> stem_of s s.
Inductive replaced : text -> text -> Prop :=
| replaced_end : replaced "" ""
| replaced_keep a s r : is_alphanumeric a = true -> replaced s r -> replaced (String a s) (String a r)
| replaced_other a s r : is_alphanumeric a = false -> replaced s r -> replaced (String a s) (String "_" r).
Definition module_of (package : text) (f : fpath) (module : text) : Prop :=
  (package <> "" /\ module = package) \/
  (package = "" /\ exists dir name stem r, fp_parts f = dir ++ [name] /\ stem_of name stem /\ replaced stem r /\ module = sanitize_keyword r).

(** a message of the parser, put into a package and a module: what is nested in
    it is in the package named after the message and in its module *)
Inductive placed (imported : bool) : text -> text -> message -> message -> Prop :=
| placed_intro package module inner name fs os os' nums names i p ms ms' es es' mo ix :
    inner = (if String.eqb package "" then name else package ++ "." ++ name)%string ->
    Forall2 (fun o o' => o' = mkOneof (Schema.o_name o) (o_fields o) inner (module ++ ".mod_" ++ name)%string imported) os os' ->
    Forall2 (placed imported inner (module ++ ".mod_" ++ name)%string) ms ms' ->
    Forall2 (fun e e' => e' = mkEnum (en_name e) (en_fields e) imported inner (module ++ ".mod_" ++ name)%string) es es' ->
    placed imported package module (mkMessage name fs os nums names i p ms es mo ix)
                                   (mkMessage name fs os' nums names imported package ms' es' module ix).
(** a message or an enum as file [f] declares it, in the package and module of
    [f]; marked if it is imported from there *)
Definition declares (check : bool) (fs : file_system) (imported : bool) (f : fpath) (m : message) : Prop :=
  exists p mo m0, content check fs f p /\ module_of (package_of p) f mo
    /\ In m0 (d_messages (p_desc p)) /\ placed imported (package_of p) mo m0 m.
Definition declares_enum (check : bool) (fs : file_system) (imported : bool) (f : fpath) (e : enumerator) : Prop :=
  exists p mo e0, content check fs f p /\ module_of (package_of p) f mo
    /\ In e0 (d_enums (p_desc p)) /\ e = mkEnum (en_name e0) (en_fields e0) imported (package_of p) mo.

(** the same with the functions of the model *)
Definition sets_message (check : bool) (fs : file_system) (f : fpath) (m : message) : Prop :=
  exists p mo m0, content check fs f p /\ file_module (package_of p) f = Some mo
    /\ In m0 (d_messages (p_desc p)) /\ m = msg_set_package (package_of p) mo m0.
Definition sets_enum (check : bool) (fs : file_system) (f : fpath) (e : enumerator) : Prop :=
  exists p mo e0, content check fs f p /\ file_module (package_of p) f = Some mo
    /\ In e0 (d_enums (p_desc p)) /\ e = enum_set_package (package_of p) mo e0.
Definition enum_set_imported (e : enumerator) : enumerator :=
  mkEnum (en_name e) (en_fields e) true (en_package e) (en_module e).

Lemma rfind_none c s : rfind_char c s = None -> ~ occurs (String c "") s.
Proof.
  intros R (a & b & ->). cbn in R. induction a as [|x a IH]; cbn in R.
  - rewrite Ascii.eqb_refl in R. destruct (rfind_char c b); discriminate.
  - destruct (rfind_char c (a ++ String c b)%string); [discriminate|]. now apply IH.
Qed.
Lemma rfind_some c s i : rfind_char c s = Some i -> exists b, s = (slice 0 i s ++ String c b)%string /\ String.length (slice 0 i s) = i /\ ~ occurs (String c "") b.
Proof.
  unfold slice. rewrite Nat.sub_0_r. revert i. induction s as [|x s IH]; intros i; cbn [rfind_char]; [discriminate|].
  destruct (rfind_char c s) as [j|] eqn:R.
  - intros E. injection E as <-. destruct (IH j eq_refl) as (b & E & L & N). exists b. cbn. rewrite L. rewrite <- E. auto.
  - destruct (Ascii.eqb_spec x c) as [->|N]; [|discriminate]. intros E. injection E as <-. exists s. cbn. repeat split. now apply rfind_none.
Qed.
Lemma rfind_last c a b : ~ occurs (String c "") b -> rfind_char c (a ++ String c b)%string = Some (String.length a).
Proof.
  intros N. induction a as [|x a IH]; cbn; [|now rewrite IH]. destruct (rfind_char c b) as [j|] eqn:R.
  - exfalso. apply N. destruct (rfind_some _ _ _ R) as (b' & E & _). rewrite E. now exists (slice 0 j b), b'.
  - now rewrite Ascii.eqb_refl.
Qed.
Lemma slice_head a b : slice 0 (String.length a) (a ++ b)%string = a.
Proof. unfold slice. rewrite Nat.sub_0_r. induction a as [|x a IH]; cbn; [now destruct b|now rewrite IH]. Qed.

Lemma stem_model name stem : stem_of name stem <->
  (if String.eqb name ".." then None else match rfind_char "." name with Some O | None => Some name | Some i => Some (slice 0 i name) end) = Some stem.
Proof.
  split.
  - intros [s e S N D|s W].
    + destruct (String.eqb_spec (s ++ "." ++ e)%string ".."); [contradiction|]. cbn. rewrite rfind_last by exact N.
      destruct s as [|x s]; [contradiction|]. cbn [String.length]. f_equal. exact (slice_head (String x s) _).
    + destruct (String.eqb_spec s "..") as [->|_].
      * exfalso. apply (W _ _ eq_refl). now exists "", "".
      * destruct s as [|x s]; [reflexivity|]. specialize (W _ _ eq_refl). cbn [rfind_char]. destruct (rfind_char "." s) as [j|] eqn:R.
        { exfalso. apply W. destruct (rfind_some _ _ _ R) as (b & E & _). rewrite E. now eexists _, b. }
        { now destruct (Ascii.eqb x "."). }
  - destruct (String.eqb_spec name "..") as [|D]; [discriminate|]. destruct (rfind_char "." name) as [[|i]|] eqn:R; intros E; injection E as <-.
    + apply stem_whole. intros a r ->. cbn [rfind_char] in R. destruct (rfind_char "." r) eqn:Rr; [discriminate|]. now apply rfind_none.
    + destruct (rfind_some _ _ _ R) as (b & E & L & N). rewrite E at 1. rewrite E in D. apply (stem_extension (slice 0 (S i) name) b); auto.
      intros Z. rewrite Z in L. discriminate.
    + apply stem_whole. intros a r ->. cbn [rfind_char] in R. destruct (rfind_char "." r) eqn:Rr; [discriminate|]. now apply rfind_none.
Qed.
Lemma replaced_model s r : replaced s r <-> r = map_chars (fun a => if is_alphanumeric a then a else "_"%char) s.
Proof.
  split.
  - induction 1 as [|a s r A _ IH|a s r A _ IH]; cbn; [reflexivity|..]; now rewrite A, IH.
  - intros ->. induction s as [|a s IH]; cbn; [constructor|]. destruct (is_alphanumeric a) eqn:A; now constructor.
Qed.
Lemma module_model package f mo : module_of package f mo <-> file_module package f = Some mo.
Proof.
  unfold module_of, file_module. destruct (String.eqb_spec package "") as [->|N].
  - unfold get_file_stem, sanitize_stem, file_stem. split.
    + intros [(X & _)|(_ & dir & name & stem & r & P & S & R & ->)]; [contradiction|]. rewrite P. apply stem_model in S. apply replaced_model in R.
      destruct (dir ++ [name]) as [|x l] eqn:Z; [now destruct dir|]. rewrite <- Z, last_last. rewrite S. cbn. now rewrite R.
    + intros H. right. split; [reflexivity|]. destruct (fp_parts f) as [|x l] eqn:P; [discriminate|].
      destruct (@exists_last _ (x :: l)) as (dir & name & Z); [discriminate|]. rewrite Z in *. rewrite last_last in H.
      match type of H with option_map _ ?e = _ => destruct e as [stem|] eqn:S; [|discriminate] end. apply stem_model in S. injection H as <-.
      exists dir, name, stem. eexists. split; [reflexivity|]. split; [exact S|]. split; [now apply replaced_model|reflexivity].
  - split; [intros [(_ & ->)|(X & _)]; [reflexivity|contradiction]|]. intros E. injection E as <-. now left.
Qed.

(** what the parser returns is in no package yet *)
Inductive fresh : message -> Prop :=
| fresh_intro name fs os nums names ms es : Forall (fun o => o_imported o = false) os -> Forall (fun e => en_imported e = false) es -> Forall fresh ms ->
    fresh (mkMessage name fs os nums names false "" ms es "" []).
Lemma parsed_fresh sx m : parsed_message sx m -> fresh m.
Proof.
  induction m as [m IH] using message_tree_ind. intros H. destruct H as [name fs os nums names ms es _ _ Ho _ _ Hm He]. cbn [m_messages] in IH. constructor.
  - eapply Forall_impl; [|exact Ho]. now intros o [_ _ _ (_ & _ & F)].
  - eapply Forall_impl; [|exact He]. now intros e [_ _ (_ & _ & F)].
  - rewrite Forall_forall in *. auto.
Qed.
Lemma content_fresh check fs f p m : content check fs f p -> In m (d_messages (p_desc p)) -> fresh m.
Proof.
  intros (s & r & _ & E & _) I. destruct (o_file _ _ _ _ E) as (r' & sx & _ & [M _ _ _ _ _ _]). rewrite Forall_forall in M. now apply (parsed_fresh sx), M.
Qed.
Lemma content_fresh_enum check fs f p e : content check fs f p -> In e (d_enums (p_desc p)) -> en_imported e = false.
Proof.
  intros (s & r & _ & E & _) I. destruct (o_file _ _ _ _ E) as (r' & sx & _ & [_ M _ _ _ _ _]). rewrite Forall_forall in M. now destruct (M e I) as [_ _ (_ & _ & F)].
Qed.

Definition place (imported : bool) (package module : text) (m : message) : message :=
  if imported then msg_set_imported (msg_set_package package module m) else msg_set_package package module m.
Lemma forall2_eq {A B} (g : A -> B) l l' : Forall2 (fun x y => y = g x) l l' <-> l' = map g l.
Proof.
  split; [induction 1; cbn; congruence|]. intros ->. induction l; constructor; auto.
Qed.
Lemma placed_model imported m : fresh m -> forall pk mo x, placed imported pk mo m x <-> x = place imported pk mo m.
Proof.
  induction m as [m IH] using message_tree_ind. intros F pk mo x. destruct F as [name fs os nums names ms es Fo Fe Fm]. cbn [m_messages] in IH.
  assert (K : forall inner mo' l, Forall2 (placed imported inner mo') ms l <-> l = map (place imported inner mo') ms).
  { intros inner mo' l. rewrite <- forall2_eq. rewrite Forall_forall in IH, Fm. clear -IH Fm. revert l. induction ms as [|y ms IHm]; intros l.
    - split; intros H; inversion H; constructor.
    - pose proof (IH y (or_introl eq_refl) (Fm y (or_introl eq_refl)) inner mo') as Hy.
      assert (Hl : forall l, Forall2 (placed imported inner mo') ms l <-> Forall2 (fun x y => y = place imported inner mo' x) ms l)
        by (apply IHm; [intros z I; apply IH; now right|intros z I; apply Fm; now right]).
      split; intros H; inversion H; subst; constructor; try (now apply Hy); now apply Hl. }
  assert (E : place imported pk mo (mkMessage name fs os nums names false "" ms es "" []) =
    mkMessage name fs (map (fun o => mkOneof (Schema.o_name o) (o_fields o) (if String.eqb pk "" then name else pk ++ "." ++ name)%string (mo ++ ".mod_" ++ name)%string imported) os)
      nums names imported pk (map (place imported (if String.eqb pk "" then name else pk ++ "." ++ name)%string (mo ++ ".mod_" ++ name)%string) ms)
      (map (fun e => mkEnum (en_name e) (en_fields e) imported (if String.eqb pk "" then name else pk ++ "." ++ name)%string (mo ++ ".mod_" ++ name)%string) es) mo []).
  { assert (Z : (if String.eqb pk "" then "" else pk) = pk) by now destruct (String.eqb_spec pk "").
    unfold place. destruct imported; cbn [msg_set_package msg_set_imported]; f_equal; try exact Z; rewrite ?map_map; try (apply map_ext; reflexivity).
    - rewrite Forall_forall in Fo. apply map_ext_in. intros o I. unfold oneof_set_package. now rewrite Fo.
    - rewrite Forall_forall in Fe. apply map_ext_in. intros e I. unfold enum_set_package. now rewrite Fe. }
  rewrite E. split.
  - intros H. inversion H; subst. f_equal; [now apply forall2_eq|now apply K|now apply forall2_eq].
  - intros ->. eapply placed_intro; [reflexivity|now apply forall2_eq|now apply K|now apply forall2_eq].
Qed.
Lemma declares_model check fs f m : declares check fs false f m <-> sets_message check fs f m.
Proof.
  unfold declares, sets_message. split; intros (p & mo & m0 & C & M & I & E); exists p, mo, m0; (split; [exact C|]; split; [now apply module_model|]; split; [exact I|]);
    now apply (placed_model false m0 (content_fresh _ _ _ _ _ C I)).
Qed.
Lemma imported_model check fs f m : declares check fs true f m <-> exists m0, sets_message check fs f m0 /\ m = msg_set_imported m0.
Proof.
  unfold declares, sets_message. split.
  - intros (p & mo & m0 & C & M & I & E). exists (msg_set_package (package_of p) mo m0). split.
    + exists p, mo, m0. split; [exact C|]. split; [now apply module_model|]. auto.
    + now apply (placed_model true m0 (content_fresh _ _ _ _ _ C I)) in E.
  - intros (m1 & (p & mo & m0 & C & M & I & ->) & ->). exists p, mo, m0. split; [exact C|]. split; [now apply module_model|]. split; [exact I|].
    now apply (placed_model true m0 (content_fresh _ _ _ _ _ C I)).
Qed.
Lemma declares_enum_model check fs f e : declares_enum check fs false f e <-> sets_enum check fs f e.
Proof.
  unfold declares_enum, sets_enum, enum_set_package. split; intros (p & mo & e0 & C & M & I & ->); exists p, mo, e0; (split; [exact C|]; split; [now apply module_model|]; split; [exact I|]);
    now rewrite (content_fresh_enum _ _ _ _ _ C I).
Qed.
Lemma imported_enum_model check fs f e : declares_enum check fs true f e <-> exists e0, sets_enum check fs f e0 /\ e = enum_set_imported e0.
Proof.
  unfold declares_enum, sets_enum. split.
  - intros (p & mo & e0 & C & M & I & ->). exists (enum_set_package (package_of p) mo e0). split; [|reflexivity].
    exists p, mo, e0. split; [exact C|]. split; [now apply module_model|]. auto.
  - intros (m1 & (p & mo & m0 & C & M & I & ->) & ->). exists p, mo, m0. split; [exact C|]. split; [now apply module_model|]. split; [exact I|reflexivity].
Qed.

Definition has_package (check : bool) (fs : file_system) (f : fpath) : Prop :=
  forall p, content check fs f p -> package_of p <> "".

Lemma set_package_twice : forall m pk mo,
  msg_set_package pk mo (msg_set_package pk mo m) = msg_set_package pk mo m.
Proof.
  induction m as [m IH] using message_tree_ind. intros pk mo.
  destruct m as [name fs os nums names im pkg ms es mod_ ix]. cbn [msg_set_package m_messages] in *.
  f_equal.
  - rewrite map_map. apply map_ext. reflexivity.
  - destruct (String.eqb pk ""); reflexivity.
  - rewrite map_map. apply map_ext_in. intros x Hx. rewrite Forall_forall in IH. now apply IH.
  - rewrite map_map. apply map_ext. reflexivity.
Qed.

Lemma set_imported_twice : forall m, msg_set_imported (msg_set_imported m) = msg_set_imported m.
Proof.
  induction m as [m IH] using message_tree_ind.
  destruct m as [name fs os nums names im pkg ms es mod_ ix]. cbn [msg_set_imported m_messages] in *.
  f_equal.
  - rewrite map_map. apply map_ext. reflexivity.
  - rewrite map_map. apply map_ext_in. intros x Hx. rewrite Forall_forall in IH. now apply IH.
  - rewrite map_map. apply map_ext. reflexivity.
Qed.

Lemma package_imported : forall m, m_package (msg_set_imported m) = m_package m.
Proof. now intros []. Qed.
Lemma package_set : forall pk mo m, pk <> "" -> m_package (msg_set_package pk mo m) = pk.
Proof. intros pk mo [] H. cbn. destruct (String.eqb_spec pk ""); congruence. Qed.

(** what [add_import] does with a message or an enum of the imported descriptor *)
Definition adopt (x : file_descriptor) (m : message) : message :=
  if String.eqb (m_package m) "" then msg_set_package (d_package x) (d_module x) m else m.
Definition adopt_enum (x : file_descriptor) (e : enumerator) : enumerator :=
  if String.eqb (en_package e) "" then enum_set_package (d_package x) (d_module x) e else e.

Lemma fetch_same : forall fs search rd l f d d', fetch fs search f rd d l = ROk d' ->
  d_package d' = d_package d /\ d_module d' = d_module d /\ d_syntax d' = d_syntax d.
Proof.
  intros fs search rd. induction l as [|i l IH]; intros f d d' H; cbn [fetch] in H.
  - injection H as <-. auto.
  - destruct (find_import fs search f i) as [g|]; [|discriminate].
    destruct (rd g) as [x| | |]; try discriminate. now apply IH in H.
Qed.

Lemma fetch_messages : forall fs search rd l f d d', fetch fs search f rd d l = ROk d' ->
  forall m, In m (d_messages d') <-> In m (d_messages d)
    \/ exists i g x m1, In i l /\ resolves fs search f i g /\ rd g = ROk x
         /\ In m1 (d_messages x) /\ m = msg_set_imported (adopt x m1).
Proof.
  intros fs search rd. induction l as [|i l IH]; intros f d d' H m; cbn [fetch] in H.
  - injection H as <-. split; [now left|]. intros [K|[i [g [x [m1 [[] _]]]]]]. exact K.
  - destruct (find_import fs search f i) as [g|] eqn:Eg; [|discriminate].
    destruct (rd g) as [x| | |] eqn:Er; try discriminate. apply find_import_resolves in Eg.
    rewrite (IH _ _ _ H). cbn [add_import d_messages]. rewrite in_app_iff, in_map_iff. split.
    + intros [[K|[m1 [<- K]]]|[j [h [y [m1 [Hj K]]]]]].
      * now left.
      * right. exists i, g, x, m1. unfold adopt. repeat split; auto. now left.
      * right. exists j, h, y, m1. split; [now right|exact K].
    + intros [K|[j [h [y [m1 [[<-|Hj] K]]]]]].
      * left. now left.
      * destruct K as [Hr [Ey [Hm ->]]]. rewrite (resolves_fun _ _ _ _ _ _ Hr Eg) in Ey.
        rewrite Er in Ey. injection Ey as <-. left. right. now exists m1.
      * right. exists j, h, y, m1. auto.
Qed.

Lemma fetch_enums : forall fs search rd l f d d', fetch fs search f rd d l = ROk d' ->
  forall e, In e (d_enums d') <-> In e (d_enums d)
    \/ exists i g x e1, In i l /\ resolves fs search f i g /\ rd g = ROk x
         /\ In e1 (d_enums x) /\ e = enum_set_imported (adopt_enum x e1).
Proof.
  intros fs search rd. induction l as [|i l IH]; intros f d d' H m; cbn [fetch] in H.
  - injection H as <-. split; [now left|]. intros [K|[i [g [x [m1 [[] _]]]]]]. exact K.
  - destruct (find_import fs search f i) as [g|] eqn:Eg; [|discriminate].
    destruct (rd g) as [x| | |] eqn:Er; try discriminate. apply find_import_resolves in Eg.
    rewrite (IH _ _ _ H). cbn [add_import d_enums]. rewrite in_app_iff, in_map_iff. split.
    + intros [[K|[m1 [<- K]]]|[j [h [y [m1 [Hj K]]]]]].
      * now left.
      * right. exists i, g, x, m1. unfold adopt_enum. repeat split; auto. now left.
      * right. exists j, h, y, m1. split; [now right|exact K].
    + intros [K|[j [h [y [m1 [[<-|Hj] K]]]]]].
      * left. now left.
      * destruct K as [Hr [Ey [Hm ->]]]. rewrite (resolves_fun _ _ _ _ _ _ Hr Eg) in Ey.
        rewrite Er in Ey. injection Ey as <-. left. right. now exists m1.
      * right. exists j, h, y, m1. auto.
Qed.

Lemma read_head : forall check fs search n f d, read_proto check fs search n f = ROk d ->
  exists p, content check fs f p /\ d_package d = package_of p
    /\ d_syntax d = d_syntax (p_desc p) /\ file_module (package_of p) f = Some (d_module d).
Proof.
  intros check fs search [|n] f d H; [discriminate|].
  destruct (read_step _ _ _ _ _ _ H) as [p [d0 [Hp [[m [Em ->]] F]]]].
  exists p. destruct (fetch_same _ _ _ _ _ _ _ F) as (E1 & E2 & E3). cbn in E1, E2, E3.
  rewrite E1, E2, E3. auto.
Qed.

Lemma imports_gathered : forall check fs search n f d,
  read_proto check fs search n f = ROk d ->
  (forall g h, imports check fs search f g -> clos_trans _ (imports check fs search) g h -> has_package check fs h) ->
  (forall m, In m (d_messages d) <-> sets_message check fs f m
     \/ exists g m0, clos_trans _ (imports check fs search) f g /\ sets_message check fs g m0 /\ m = msg_set_imported m0)
  /\ (forall e, In e (d_enums d) <-> sets_enum check fs f e
     \/ exists g e0, clos_trans _ (imports check fs search) f g /\ sets_enum check fs g e0 /\ e = enum_set_imported e0).
Proof.
  intros check fs search. induction n as [|n IH]; intros f d H Hp; [discriminate|].
  destruct (read_step _ _ _ _ _ _ H) as [p [d0 [Hc [[mo [Em ->]] F]]]].
  assert (Imp : forall i g, In i (p_imports p) -> resolves fs search f i g -> imports check fs search f g)
    by (intros i g Hi Hg; exists p, i; auto).
  assert (Sub : forall g, imports check fs search f g ->
    forall a b, imports check fs search g a -> clos_trans _ (imports check fs search) a b -> has_package check fs b).
  { intros g Hg a b Ha Hb. apply (Hp g b Hg). eapply t_trans; [apply t_step; exact Ha|exact Hb]. }
  assert (Step : forall g, clos_trans _ (imports check fs search) f g ->
    exists i h, In i (p_imports p) /\ resolves fs search f i h
      /\ (h = g \/ clos_trans _ (imports check fs search) h g)).
  { intros g Hg. apply clos_trans_t1n in Hg.
    assert (K : forall h, imports check fs search f h -> exists i, In i (p_imports p) /\ resolves fs search f i h).
    { intros h [q [i [Hq [Hi Hr]]]]. rewrite (content_fun _ _ _ _ _ Hq Hc) in Hi. now exists i. }
    destruct Hg as [h Hh|h k Hh Hk]; destruct (K _ Hh) as [i [Hi Hr]]; exists i.
    - exists h. auto.
    - exists h. split; [exact Hi|]. split; [exact Hr|]. right. now apply clos_t1n_trans. }
  split.
  - (* messages *)
    assert (Ad : forall g x m1, imports check fs search f g -> read_proto check fs search n g = ROk x ->
       In m1 (d_messages x) -> adopt x m1 = m1 /\
       (sets_message check fs g m1 \/ exists h m0, clos_trans _ (imports check fs search) g h /\ sets_message check fs h m0 /\ m1 = msg_set_imported m0)).
    { intros g x m1 Hg Hx Hm. destruct (IH g x Hx (Sub g Hg)) as [IHm _]. apply IHm in Hm. split; [|exact Hm].
      unfold adopt. destruct (String.eqb_spec (m_package m1) "") as [E|E]; [|reflexivity].
      destruct Hm as [[q [mo' [m0 [Hq [Em' [_ ->]]]]]]|[h [m0 [Hh [[q [mo' [m2 [Hq [_ [_ ->]]]]]] ->]]]]].
      - destruct (read_head _ _ _ _ _ _ Hx) as [q' [Hq' [E1 [_ E2]]]]. rewrite (content_fun _ _ _ _ _ Hq' Hq) in *.
        rewrite Em' in E2. injection E2 as <-. rewrite E1. apply set_package_twice.
      - rewrite package_imported, package_set in E; [|exact (Hp g h Hg Hh q Hq)]. now elim (Hp g h Hg Hh q Hq). }
    intros m. rewrite (fetch_messages _ _ _ _ _ _ _ F). cbn [set_own_package d_messages d_package d_module].
    rewrite in_map_iff. split.
    + intros [[m0 [<- Hm]]|[i [g [x [m1 [Hi [Hr [Hx [Hm ->]]]]]]]]].
      * left. exists p, mo, m0. auto.
      * right. destruct (Ad g x m1 (Imp i g Hi Hr) Hx Hm) as [-> [K|[h [m0 [Hh [Hd ->]]]]]].
        { exists g, m1. split; [apply t_step; exact (Imp i g Hi Hr)|auto]. }
        { exists h, m0. split; [|split; [exact Hd|apply set_imported_twice]].
          apply (t_trans _ _ _ g); [apply t_step; exact (Imp i g Hi Hr)|exact Hh]. }
    + intros [[q [mo' [m0 [Hq [Em' [Hm ->]]]]]]|[g [m0 [Hg [Hd ->]]]]].
      * rewrite (content_fun _ _ _ _ _ Hq Hc) in *. rewrite Em in Em'. injection Em' as <-. left. now exists m0.
      * right. destruct (Step g Hg) as [i [h [Hi [Hr Hh]]]]. pose proof (Imp i h Hi Hr) as Ih.
        destruct (read_import _ _ _ _ _ _ _ H Ih) as [x Hx]. destruct (IH h x Hx (Sub h Ih)) as [IHm _].
        assert (K : exists m1, In m1 (d_messages x) /\ msg_set_imported m0 = msg_set_imported m1).
        { destruct Hh as [->|Hh].
          - exists m0. split; [|reflexivity]. apply IHm. left. exact Hd.
          - exists (msg_set_imported m0). split; [|symmetry; apply set_imported_twice].
            apply IHm. right. exists g, m0. auto. }
        destruct K as [m1 [Hm E]]. exists i, h, x, m1. repeat match goal with |- _ /\ _ => split end; auto.
        now rewrite (proj1 (Ad h x m1 Ih Hx Hm)).
  - (* enums *)
    assert (Ad : forall g x m1, imports check fs search f g -> read_proto check fs search n g = ROk x ->
       In m1 (d_enums x) -> adopt_enum x m1 = m1 /\
       (sets_enum check fs g m1 \/ exists h m0, clos_trans _ (imports check fs search) g h /\ sets_enum check fs h m0 /\ m1 = enum_set_imported m0)).
    { intros g x m1 Hg Hx Hm. destruct (IH g x Hx (Sub g Hg)) as [_ IHm]. apply IHm in Hm. split; [|exact Hm].
      unfold adopt_enum. destruct (String.eqb_spec (en_package m1) "") as [E|E]; [|reflexivity].
      destruct Hm as [[q [mo' [m0 [Hq [Em' [_ ->]]]]]]|[h [m0 [Hh [[q [mo' [m2 [Hq [_ [_ ->]]]]]] ->]]]]].
      - destruct (read_head _ _ _ _ _ _ Hx) as [q' [Hq' [E1 [_ E2]]]]. rewrite (content_fun _ _ _ _ _ Hq' Hq) in *.
        rewrite Em' in E2. injection E2 as <-. rewrite E1. reflexivity.
      - cbn in E. now elim (Hp g h Hg Hh q Hq). }
    intros m. rewrite (fetch_enums _ _ _ _ _ _ _ F). cbn [set_own_package d_enums d_package d_module].
    rewrite in_map_iff. split.
    + intros [[m0 [<- Hm]]|[i [g [x [m1 [Hi [Hr [Hx [Hm ->]]]]]]]]].
      * left. exists p, mo, m0. auto.
      * right. destruct (Ad g x m1 (Imp i g Hi Hr) Hx Hm) as [-> [K|[h [m0 [Hh [Hd ->]]]]]].
        { exists g, m1. split; [apply t_step; exact (Imp i g Hi Hr)|auto]. }
        { exists h, m0. split; [|split; [exact Hd|reflexivity]].
          apply (t_trans _ _ _ g); [apply t_step; exact (Imp i g Hi Hr)|exact Hh]. }
    + intros [[q [mo' [m0 [Hq [Em' [Hm ->]]]]]]|[g [m0 [Hg [Hd ->]]]]].
      * rewrite (content_fun _ _ _ _ _ Hq Hc) in *. rewrite Em in Em'. injection Em' as <-. left. now exists m0.
      * right. destruct (Step g Hg) as [i [h [Hi [Hr Hh]]]]. pose proof (Imp i h Hi Hr) as Ih.
        destruct (read_import _ _ _ _ _ _ _ H Ih) as [x Hx]. destruct (IH h x Hx (Sub h Ih)) as [_ IHm].
        assert (K : exists m1, In m1 (d_enums x) /\ enum_set_imported m0 = enum_set_imported m1).
        { destruct Hh as [->|Hh].
          - exists m0. split; [|reflexivity]. apply IHm. now left.
          - exists (enum_set_imported m0). split; [|reflexivity].
            apply IHm. right. exists g, m0. auto. }
        destruct K as [m1 [Hm E]]. exists i, h, x, m1. repeat match goal with |- _ /\ _ => split end; auto.
        now rewrite (proj1 (Ad h x m1 Ih Hx Hm)).
Qed.
(** Everything a descriptor contains is declared, in its own package and module,
    by the file itself or by a file it imports directly or indirectly, and nothing
    these files declare is missing.  Missing: files without a package that are
    imported indirectly. *)
Theorem C62_imports_gathered_partial : forall check fs search n f d,
  read_proto check fs search n f = ROk d ->
  (forall g h, imports check fs search f g -> clos_trans _ (imports check fs search) g h -> has_package check fs h) ->
  (forall m, In m (d_messages d) <-> declares check fs false f m
     \/ exists g, clos_trans _ (imports check fs search) f g /\ declares check fs true g m)
  /\ (forall e, In e (d_enums d) <-> declares_enum check fs false f e
     \/ exists g, clos_trans _ (imports check fs search) f g /\ declares_enum check fs true g e).
Proof.
  intros check fs search n f d H P. destruct (imports_gathered check fs search n f d H P) as (M & E). split.
  - intros m. rewrite M, declares_model. split; (intros [D|D]; [now left|right]).
    + destruct D as (g & m0 & T & D & X). exists g. split; [exact T|]. apply imported_model. eauto.
    + destruct D as (g & T & D). apply imported_model in D. destruct D as (m0 & D & X). eauto.
  - intros m. rewrite E, declares_enum_model. split; (intros [D|D]; [now left|right]).
    + destruct D as (g & m0 & T & D & X). exists g. split; [exact T|]. apply imported_enum_model. eauto.
    + destruct D as (g & T & D). apply imported_enum_model in D. destruct D as (m0 & D & X). eauto.
Qed.
Print Assumptions C62_imports_gathered_partial.

(** A message of a file without a package, imported through a file with a
    package, is moved into the package and module of that file. *)
Definition exMain : text := ("package m; import " ++ dq ++ "mid.proto" ++ dq ++ "; message M { optional p.A a = 1; }")%string.
Definition exMid : text := ("package p; import " ++ dq ++ "leaf.proto" ++ dq ++ "; message A { optional L l = 1; } enum E { X = 0; }")%string.
Definition exLeaf : text := "message L { }".
Definition exFiles (leaf : text) : file_system := fun p =>
  match fp_parts p with
  | ["main.proto"] => Some exMain
  | ["mid.proto"] => Some exMid
  | ["leaf.proto"] => Some leaf
  | _ => None
  end.
Definition here : list fpath := [path_of "."].

Lemma ex_imports : forall check leaf,
  imports check (exFiles leaf) here (path_of "main.proto") (path_of "mid.proto")
  /\ imports check (exFiles leaf) here (path_of "mid.proto") (path_of "leaf.proto").
Proof.
  intros check leaf. split.
  - eexists _, "mid.proto". split; [exists exMain, ""; split; [reflexivity|split; [destruct check; vm_compute; reflexivity|reflexivity]]|].
    split; [now left|]. apply find_import_resolves. reflexivity.
  - eexists _, "leaf.proto". split; [exists exMid, ""; split; [reflexivity|split; [destruct check; vm_compute; reflexivity|reflexivity]]|].
    split; [now left|]. apply find_import_resolves. reflexivity.
Qed.

Theorem C62_imports_gathered_refuted : exists fs search f, forall check, exists d n g m0,
  read_proto check fs search n f = ROk d
  /\ clos_trans _ (imports check fs search) f g /\ declares check fs true g m0
  /\ m_module m0 = "leaf" /\ m_package m0 = ""
  /\ ~ In m0 (d_messages d)
  /\ exists m, In m (d_messages d) /\ m_name m = m_name m0 /\ m_module m = "p" /\ m_package m = "p".
Proof.
  exists (exFiles exLeaf), here, (path_of "main.proto"). intro check.
  destruct (ex_imports check exLeaf) as [I1 I2].
  assert (R : exists d, read_proto check (exFiles exLeaf) here 3 (path_of "main.proto") = ROk d
     /\ map (fun m => (m_name m, (m_module m, m_package m))) (d_messages d)
        = [("M", ("m", "m")); ("A", ("p", "p")); ("L", ("p", "p"))]).
  { destruct check; (eexists; split; [vm_compute; reflexivity|reflexivity]). }
  destruct R as [d [R D]].
  exists d, 3%nat, (path_of "leaf.proto"),
    (mkMessage "L" [] [] None None true "" [] [] "leaf" []).
  split; [exact R|]. split; [apply (t_trans _ _ _ (path_of "mid.proto")); now apply t_step|].
  split; [|split; [reflexivity|split; [reflexivity|split]]].
  - eexists _, "leaf", (mkMessage "L" [] [] None None false "" [] [] "" []). split.
    + exists exLeaf, "". split; [reflexivity|]. split; [destruct check; vm_compute; reflexivity|reflexivity].
    + split; [now apply module_model|]. split; [now left|]. eapply placed_intro; [reflexivity|constructor..].
  - intro H. apply (in_map (fun m => (m_name m, (m_module m, m_package m)))) in H. rewrite D in H. cbn in H.
    repeat (destruct H as [H|H]; [discriminate|]). contradiction.
  - assert (H : In ("L", ("p", "p")) (map (fun m => (m_name m, (m_module m, m_package m))) (d_messages d)))
      by (rewrite D; cbn; tauto).
    apply in_map_iff in H. destruct H as [m [E Hm]]. injection E as E1 E2 E3. exists m. auto.
Qed.
Print Assumptions C62_imports_gathered_refuted.

(** The same files with a package in the last one: three files, read
    completely, no cycle. *)
Definition exLeaf2 : text := "package q.r; message L { }".
Example C62_case : forall check,
  (exists d, read_proto check (exFiles exLeaf2) here 3 (path_of "main.proto") = ROk d
     /\ map (fun m => (m_name m, m_imported m, (m_module m, m_package m))) (d_messages d)
        = [("M", false, ("m", "m")); ("A", true, ("p", "p")); ("L", true, ("q.r", "q.r"))])
  /\ (forall g h, imports check (exFiles exLeaf2) here (path_of "main.proto") g ->
        clos_trans _ (imports check (exFiles exLeaf2) here) g h -> has_package check (exFiles exLeaf2) h).
Proof.
  intro check. split; [destruct check; (eexists; split; [vm_compute; reflexivity|reflexivity])|].
  intros g h _ _ p [s [r [E1 [E2 _]]]]. unfold exFiles in E1.
  repeat match type of E1 with
  | match ?x with _ => _ end = _ => destruct x; try discriminate
  end; injection E1 as <-; destruct check; vm_compute in E2; injection E2 as _ <-; discriminate.
Qed.

(** C61: the same files have a rank *)
Example C61_case : forall check, exists rank : fpath -> nat,
  forall f g, imports check (exFiles exLeaf2) here f g -> (rank g < rank f)%nat.
Proof.
  intro check. exists (fun p => match fp_parts p with ["main.proto"] => 2 | ["mid.proto"] => 1 | _ => 0 end)%nat.
  intros f g [p [i [[s [r [E1 [E2 _]]]] [Hi Hr]]]]. apply find_import_resolves in Hr.
  assert (K : (fp_parts f = ["main.proto"] /\ p_imports p = ["mid.proto"])
    \/ (fp_parts f = ["mid.proto"] /\ p_imports p = ["leaf.proto"])
    \/ (fp_parts f = ["leaf.proto"] /\ p_imports p = [])).
  { destruct (exFiles exLeaf2 f) eqn:E; [|discriminate]. injection E1 as ->.
    destruct f as [ab ps]. unfold exFiles in E. cbn [fp_parts] in *.
    repeat match type of E with match ?x with _ => _ end = _ => destruct x; try discriminate end;
      injection E as <-; destruct check; vm_compute in E2; injection E2 as _ <-; auto. }
  destruct f as [ab ps]. cbn [fp_parts] in *.
  destruct K as [[-> Ei]|[[-> Ei]|[-> Ei]]]; rewrite Ei in Hi; [| |contradiction];
    (destruct Hi as [<-|[]]; cbn in Hr; injection Hr as <-; cbn; lia).
Qed.

(** C63: an import that does not exist, found only in an imported file *)
Example C63_case : forall check,
  read_proto check (fun p => match fp_parts p with ["leaf.proto"] => None | _ => exFiles "" p end) here 9 (path_of "main.proto")
  = RErr ErrInvalidImport
  /\ (exists d, read_proto check (exFiles exLeaf2) here 3 (path_of "main.proto") = ROk d).
Proof. intros [|]; split; try (eexists); vm_compute; reflexivity. Qed.
