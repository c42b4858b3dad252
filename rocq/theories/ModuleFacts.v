(** Facts about package paths and the mod.rs file. *)
From Coq Require Import String Ascii Arith Lia.
From Verif Require Import Base Schema Keywords KeywordFacts Modules.
Import StringSyntax.
Local Open Scope string_scope.
Local Open Scope list_scope.

(* ---- slices ---- *)
Lemma substring_all : forall s, String.substring 0 (String.length s) s = s.
Proof. induction s as [|a s IH]; cbn; [reflexivity|now rewrite IH]. Qed.

Lemma substring_zero : forall n s, String.substring n 0 s = "".
Proof. induction n as [|n IH]; intros [|a s]; cbn; auto. Qed.

Lemma slice_split : forall s t,
  slice 0 (String.length s) (s ++ t)%string = s.
Proof.
  intros s t. unfold slice. rewrite Nat.sub_0_r.
  induction s as [|a s IH]; cbn; [apply substring_zero|now rewrite IH].
Qed.

Lemma slice_app_r : forall s a t,
  slice (String.length s + 1) (String.length (s ++ String a t)%string) (s ++ String a t)%string = t.
Proof.
  intros s a t. unfold slice. rewrite length_append. cbn [String.length].
  replace (String.length s + S (String.length t) - (String.length s + 1))%nat
    with (String.length t) by lia.
  induction s as [|b s IH]; cbn.
  - apply substring_all.
  - exact IH.
Qed.

Lemma rfind_none : forall c s, rfind_char c s = None <-> contains_char c s = false.
Proof.
  induction s as [|a s IH]; cbn; [tauto|].
  destruct (rfind_char c s) as [i|].
  - split; [discriminate|]. intros H. apply orb_false_iff in H. destruct H as (_ & H).
    apply IH in H. discriminate.
  - destruct IH as (IH & _). specialize (IH eq_refl). rewrite IH.
    destruct (Ascii.eqb a c); cbn; split; congruence.
Qed.

Lemma rfind_some : forall c s i, rfind_char c s = Some i ->
  exists a b, s = (a ++ String c b)%string /\ String.length a = i /\ contains_char c b = false.
Proof.
  induction s as [|x s IH]; cbn; intros i H; [discriminate|].
  destruct (rfind_char c s) as [j|] eqn:E.
  - injection H as <-. destruct (IH j eq_refl) as (a & b & -> & L & N).
    exists (String x a), b. cbn. now rewrite L.
  - destruct (Ascii.eqb_spec x c) as [->|]; [|discriminate]. injection H as <-.
    exists "", s. repeat split. now apply rfind_none.
Qed.

Lemma rfind_app : forall c a b, contains_char c b = false ->
  rfind_char c (a ++ String c b)%string = Some (String.length a).
Proof.
  induction a as [|x a IH]; intros b N; cbn.
  - apply rfind_none in N. now rewrite N, Ascii.eqb_refl.
  - now rewrite IH.
Qed.

Lemma split_package_dot : forall a b, contains_char "." b = false ->
  split_package (a ++ String "." b)%string = (a, b).
Proof.
  intros a b N. unfold split_package.
  destruct (String.eqb_spec (a ++ String "." b)%string "") as [E|_].
  - apply (f_equal String.length) in E. rewrite length_append in E. cbn in E. lia.
  - rewrite rfind_app by exact N. now rewrite slice_split, slice_app_r.
Qed.

Lemma split_package_no_dot : forall s, contains_char "." s = false ->
  split_package s = ("", s).
Proof.
  intros s N. unfold split_package.
  destruct (String.eqb_spec s "") as [->|_]; [reflexivity|].
  apply rfind_none in N. now rewrite N.
Qed.

(* ---- searching ---- *)
Lemma prefix_refl_app : forall p s, String.prefix p (p ++ s)%string = true.
Proof.
  induction p as [|a p IH]; intros s; [now destruct s|]. cbn.
  destruct (ascii_dec a a); [apply IH|congruence].
Qed.

Lemma find_str_prefix : forall p s, find_str p (p ++ s)%string = Some O.
Proof.
  intros p s. destruct p as [|a p]; [now destruct s|].
  pose proof (prefix_refl_app (String a p) s) as H.
  cbn [append] in *. cbn [find_str]. now rewrite H.
Qed.

Lemma prefix_longer : forall p s, (String.length s < String.length p)%nat ->
  String.prefix p s = false.
Proof.
  induction p as [|a p IH]; intros [|b s] H; cbn in *; try lia; try reflexivity.
  destruct (ascii_dec a b); [apply IH; lia|reflexivity].
Qed.

(* ---- lines ---- *)
Lemma strip_cr_clean : forall s, contains_char carriage_return s = false -> strip_cr s = s.
Proof. intros s H. unfold strip_cr. apply rfind_none in H. now rewrite H. Qed.

(** a file whose every line is terminated by a line feed *)
Definition unlines (ls : list text) : text :=
  String.concat "" (map (fun l => (l ++ String newline "")%string) ls).

Lemma concat_nil_sep_cons : forall s l,
  String.concat "" (s :: l) = (s ++ String.concat "" l)%string.
Proof. intros s [|t l]; cbn; [now rewrite append_nil_r|reflexivity]. Qed.

Lemma concat_nil_sep_app : forall l m,
  String.concat "" (l ++ m) = (String.concat "" l ++ String.concat "" m)%string.
Proof.
  induction l as [|s l IH]; intros m; [reflexivity|].
  cbn [List.app]. rewrite !concat_nil_sep_cons, IH. now rewrite append_assoc.
Qed.

Definition plain_line (l : text) : Prop :=
  contains_char newline l = false /\ contains_char carriage_return l = false.

Lemma split_unlines : forall ls, Forall plain_line ls ->
  split_on newline (unlines ls) = ls ++ [""].
Proof.
  induction ls as [|l ls IH]; intros H; [reflexivity|].
  inversion H as [|? ? (Hn & Hc) Hls]; subst.
  unfold unlines. cbn [map]. rewrite concat_nil_sep_cons, append_assoc. cbn [append].
  rewrite split_app by exact Hn. cbn [List.app]. f_equal. now apply IH.
Qed.

Lemma lines_of_pieces_snoc : forall ls,
  Forall (fun l => contains_char carriage_return l = false) ls ->
  lines_of_pieces (ls ++ [""]) = ls.
Proof.
  induction ls as [|l ls IH]; intros H; [reflexivity|].
  inversion H as [|? ? Hc Hls]; subst.
  cbn [List.app]. destruct (ls ++ [""]) as [|x xs] eqn:E.
  - now destruct ls.
  - change (lines_of_pieces (l :: x :: xs)) with (strip_cr l :: lines_of_pieces (x :: xs)).
    rewrite strip_cr_clean by exact Hc. f_equal. now apply IH.
Qed.

Lemma lines_unlines : forall ls, Forall plain_line ls -> lines (unlines ls) = ls.
Proof.
  intros ls H. unfold lines. rewrite split_unlines by exact H.
  apply lines_of_pieces_snoc. eapply Forall_impl; [|exact H]. now intros l (_ & K).
Qed.

(* ---- generated lines ---- *)
Definition entry (name : text) : text := ("pub mod " ++ name ++ ";")%string.

Lemma mod_line_entry : forall n, mod_line n = (entry n ++ String newline "")%string.
Proof. intros n. unfold mod_line, entry. rewrite !append_assoc. reflexivity. Qed.

Lemma get_app_r : forall s t n, String.get (String.length s + n) (s ++ t)%string = String.get n t.
Proof. induction s as [|a s IH]; intros t n; cbn; [reflexivity|apply IH]. Qed.

Lemma mod_name_slice_entry : forall n, mod_name_slice (entry n) 0 = Some n.
Proof.
  intros n. unfold mod_name_slice, entry, pub_mod.
  set (L := String.length ("pub mod " ++ n ++ ";")%string).
  assert (HL : L = (8 + String.length n + 1)%nat)
    by (unfold L; rewrite !length_append; cbn; lia).
  rewrite HL. cbn [String.length]. replace (8 + String.length n + 1 - 1)%nat with (8 + String.length n)%nat by lia.
  destruct (Nat.leb_spec (0 + 8) (8 + String.length n)); [|lia].
  assert (G : String.get (8 + String.length n) ("pub mod " ++ n ++ ";")%string = Some ";"%char).
  { pose proof (get_app_r "pub mod " (n ++ ";")%string (String.length n)) as G.
    cbn [String.length] in G. rewrite G.
    pose proof (get_app_r n ";" 0) as G'. rewrite Nat.add_0_r in G'. now rewrite G'. }
  rewrite G. change (is_continuation ";") with false. cbv iota. f_equal.
  unfold slice. replace (8 + String.length n - (0 + 8))%nat with (String.length n) by lia.
  cbn. clear. induction n as [|a n IH]; cbn; [reflexivity|now rewrite IH].
Qed.

Lemma scan_entry : forall name n ls,
  scan_mod_lines name false (entry n :: ls)
  = if String.eqb n name then Some true else scan_mod_lines name false ls.
Proof.
  intros name n ls. cbn [scan_mod_lines andb].
  assert (F : find_str pub_mod (entry n) = Some O) by apply find_str_prefix.
  now rewrite F, mod_name_slice_entry.
Qed.

Lemma scan_entries : forall name ns,
  scan_mod_lines name false (map entry ns) = Some (existsb (fun n => String.eqb n name) ns).
Proof.
  induction ns as [|n ns IH]; [reflexivity|].
  cbn [map existsb]. rewrite scan_entry, IH.
  now destruct (String.eqb n name).
Qed.

Lemma scan_header : forall name ls,
  scan_mod_lines name true (magic_header :: ls) = scan_mod_lines name false ls.
Proof.
  intros name ls. cbn [scan_mod_lines].
  assert (C : contains_str magic_header magic_header = true) by (vm_compute; reflexivity).
  assert (F : find_str pub_mod magic_header = None) by (vm_compute; reflexivity).
  now rewrite C, F.
Qed.

(* ---- lines of appended text ---- *)
Lemma split_app_gen : forall c a b,
  split_on c (a ++ String c b)%string = split_on c a ++ split_on c b.
Proof.
  induction a as [|x a IH]; intros b.
  - cbn. now rewrite Ascii.eqb_refl.
  - cbn [append split_on]. rewrite IH. destruct (Ascii.eqb x c); [reflexivity|].
    pose proof (split_on_nonempty c a) as N.
    destruct (split_on c a) as [|p ps]; [now contradiction N|]. reflexivity.
Qed.

Lemma lines_of_pieces_app : forall ps qs, qs <> [] ->
  lines_of_pieces (ps ++ qs) = map strip_cr ps ++ lines_of_pieces qs.
Proof.
  induction ps as [|p ps IH]; intros qs N; [reflexivity|].
  cbn [List.app map]. destruct (ps ++ qs) as [|x xs] eqn:E.
  - apply app_eq_nil in E. destruct E. contradiction.
  - change (lines_of_pieces (p :: x :: xs)) with (strip_cr p :: lines_of_pieces (x :: xs)).
    rewrite <- E, IH by exact N. reflexivity.
Qed.

Lemma lines_app : forall a b,
  lines (a ++ String newline b)%string = lines (a ++ String newline "")%string ++ lines b.
Proof.
  intros a b. unfold lines. rewrite !split_app_gen.
  rewrite !lines_of_pieces_app by (try apply split_on_nonempty; discriminate).
  cbn. now rewrite app_nil_r.
Qed.

Lemma lines_mod_line : forall n, plain_line n -> lines (mod_line n) = [entry n].
Proof.
  intros n (Hn & Hc). rewrite mod_line_entry.
  change (entry n ++ String newline "")%string with (unlines [entry n]).
  apply lines_unlines. constructor; [|constructor]. unfold entry.
  split; rewrite !contains_char_app; [rewrite Hn|rewrite Hc]; reflexivity.
Qed.

Lemma scan_app : forall name ls ms first,
  scan_mod_lines name first ls = Some false -> ls <> [] ->
  scan_mod_lines name first (ls ++ ms) = scan_mod_lines name false ms.
Proof.
  induction ls as [|l ls IH]; intros ms first H N; [now contradiction N|].
  cbn [List.app scan_mod_lines] in *.
  destruct (first && negb (contains_str magic_header l)); [discriminate|].
  assert (T : scan_mod_lines name false ls = Some false ->
              scan_mod_lines name false (ls ++ ms) = scan_mod_lines name false ms).
  { intros K. destruct ls as [|l' ls']; [reflexivity|]. apply IH; [exact K|discriminate]. }
  destruct (find_str pub_mod l) as [i|]; [|now apply T].
  destruct (mod_name_slice l i) as [r|]; [|discriminate].
  destruct (String.eqb r name); [discriminate|now apply T].
Qed.
