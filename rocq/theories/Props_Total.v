(** C87: when a run of pb-rs ends well. *)
From Coq Require Import String Ascii Arith Lia Bool Relations.
From Verif Require Import Props_EndToEnd Props_Safety Props_Paths Props_Passes Props_Accepted Props_Generated Props_Defaults Props_TypeCheck Props_Literals Props_Text.
From Verif Require Import Base KeywordFacts Utf8Facts Reader PackedFixed Writer Sizeofs Spec Schema Keywords Modules Passes Gen GenSem GenSpec GenRecords GenType GenSame GenCheck.
From Verif Require Import Cycles CycleFacts BreakFacts IndexFacts Pipeline PassFacts ResolveFacts AcceptFacts Parser ProtoText FileText ParserOut Import
  Props_Import Props_Names Paths PathFacts PlaceFacts Output OutputFacts Props_Output.
From Verif Require Import RustTypes Emit Literals GenText RustLex RustAst RustParse GenAst LexFacts GenGood RustLit RustSem Meaning
  MeanFacts MeanSize MeanWrite MeanRead MeanConst MeanNames Props_Meaning Props_Run SuccessFacts Props_Success.
Import Schema StringSyntax.
Local Open Scope string_scope.
Local Open Scope list_scope.

(** ** Specification *)

(** nothing is in the way of the outputs: no path is a directory and a file; the
    inputs and the outputs have names; no file has the place of a directory, no
    directory that of an output *)
Record room (check : bool) (d : disk) (cs : list gen_config) : Prop := mkRoom {
  rm_sane : forall p, is_dir d p = true -> dk_file d p = None;
  rm_in : forall c, In c cs -> file_name (g_in c) <> None;
  rm_out : forall c, In c cs -> get_file_stem (g_out c) <> None;
  rm_dirs : forall c dirs stem l x l', In c cs -> plan check d c dirs stem -> dirs = l ++ x :: l' -> dk_file d (sub (subs (base c) l) x) = None;
  rm_files : forall c dirs stem, In c cs -> plan check d c dirs stem -> is_dir d (output_file c dirs stem) = false }.

(** ** Directories *)
Section Tree.
Variable scope : fpath -> Prop.
Variable inner : fpath -> text -> Prop.
Hypothesis inner_scope : forall p x, inner p x -> scope p /\ modname x.

Definition sane (d : disk) : Prop := forall p, is_dir d p = true -> dk_file d p = None.
Definition no_files (d : disk) : Prop := forall p x, inner p x -> dk_file d (sub p x) = None.

(** a step that changes mod.rs files and files that are no directories *)
Lemma sane_step (W : fpath -> Prop) d d' : sane d -> no_files d -> tidy scope inner d' -> grows scope inner d d' ->
  (forall p, W p -> ends_rs p /\ is_dir d' p = false) ->
  (forall p, (forall q, scope q -> p <> sub q "mod.rs") -> ~ W p -> dk_file d' p = dk_file d p) -> sane d' /\ no_files d'.
Proof.
  intros S N T G Hw Same.
  assert (Ne : forall p x, inner p x -> ~ ends_rs (sub p x)).
  { intros p x I (q & s & E). apply sub_inj in E. destruct E as (_ & E). destruct (inner_scope p x I) as (_ & M). now apply (modname_not_rs x s M). }
  assert (N' : no_files d').
  { intros p x I. rewrite Same; [now apply N| |intros w; now apply (Ne p x I), Hw].
    intros q _ E. apply (Ne p x I). rewrite E. apply mod_ends_rs. }
  split; [|exact N']. intros p D. destruct (gr_new _ _ _ _ G p D) as [D0|(q & x & I & ->)]; [|now apply N'].
  rewrite Same; [now apply S| |intros w; apply Hw in w; destruct w; congruence].
  intros q Sq ->. rewrite (t_nodir _ _ _ T q Sq) in D. discriminate.
Qed.

Lemma firstn_sub p s n : (n <= List.length (fp_parts p))%nat -> firstn n (fp_parts (sub p s)) = firstn n (fp_parts p).
Proof. intros H. cbn. rewrite firstn_app. replace (n - List.length (fp_parts p))%nat with O by lia. cbn. now rewrite app_nil_r. Qed.
Lemma ancestors_sub p s q : In q (ancestors (sub p s)) -> q = sub p s \/ exists l, p = subs q l.
Proof.
  unfold ancestors. intros H. apply in_map_iff in H. destruct H as (n & <- & H). apply in_seq in H. cbn [fp_parts sub] in H. rewrite app_length in H. cbn in H.
  destruct (Nat.le_gt_cases n (List.length (fp_parts p))) as [L|L].
  - right. rewrite (firstn_sub p s n L). exists (skipn n (fp_parts p)). unfold subs. cbn [fp_parts fp_absolute sub]. rewrite firstn_skipn. now destruct p.
  - left. replace n with (List.length (fp_parts (sub p s))); [rewrite firstn_all; now destruct p|]. cbn [fp_parts sub]. rewrite app_length. cbn. lia.
Qed.
Lemma create_total d p s : tidy scope inner d -> sane d -> is_dir d p = true -> dk_file d (sub p s) = None -> exists d1, create_dir_all d (sub p s) = Some d1.
Proof.
  intros T S D N. unfold create_dir_all. destruct (existsb _ _) eqn:X; [|eauto]. exfalso. apply existsb_exists in X. destruct X as (q & Hq & F).
  unfold file_exists in F. destruct (ancestors_sub p s q Hq) as [->|(l & ->)]; [now rewrite N in F|].
  rewrite (S q (closed_above d (t_closed _ _ _ T) l q D)) in F. discriminate.
Qed.

Lemma make_dirs_total : forall l d p, tidy scope inner d -> sane d -> no_files d -> dirs_inner inner p l -> is_dir d p = true ->
  exists d', make_dirs d p l = (WOk, d', subs p l) /\ is_dir d' (subs p l) = true.
Proof.
  induction l as [|s l IH]; intros d p T S N Di D; cbn [make_dirs].
  - exists d. rewrite subs_nil. auto.
  - destruct Di as (I & Di). destruct (inner_scope p s I) as (Sp & M). rewrite (push_plain _ _ (modname_plain s M)), subs_cons.
    destruct (path_exists d (sub p s)) eqn:E.
    + apply IH; auto. unfold path_exists, file_exists in E. rewrite (N p s I), orb_false_r in E. exact E.
    + destruct (create_total d p s T S D (N p s I)) as (d1 & C). rewrite C.
      destruct (make_dir_ok scope inner inner_scope d p s d1 T I D E C) as (d2 & U & T2 & G2 & K2 & L2 & D2). rewrite U.
      destruct (sane_step (fun _ => False) d d2 S N T2 G2) as (S2 & N2); [tauto|intros q Hq _; now apply K2|]. now apply IH.
Qed.

Lemma emit_total render c desc d dirs stem :
  file_package (d_package (in_desc desc)) -> Forall (fun x => x <> "") (fp_parts (g_out c)) -> placed_file (d_package (in_desc desc)) (g_out c) dirs stem ->
  tidy scope inner d -> sane d -> no_files d -> dirs_inner inner (base c) dirs -> scope (subs (base c) dirs) -> is_dir d (base c) = true ->
  file_name (g_in c) <> None -> (g_no_output c = false -> snd (render c desc) = WOk) ->
  is_dir d (sub (subs (base c) dirs) (rs stem)) = false ->
  exists d', emit render c desc d = (WOk, d').
Proof.
  intros Pk Np Pl T S N Di Sc Db Fi Re Fo. destruct (placed_names _ _ _ _ Pk Np Pl) as (Md & Ms & Nm).
  rewrite (emit_eq render c desc d dirs stem Pk Np Pl Db). destruct (make_dirs_total dirs d (base c) T S N Di Db) as (d1 & M & D1). rewrite M.
  destruct (make_dirs_ok scope inner inner_scope dirs d (base c) WOk d1 _ T Di Db M) as (T1 & G1 & K1 & _).
  destruct (g_no_output c); [eauto|]. destruct (file_name (g_in c)); [|contradiction]. specialize (Re eq_refl). destruct (render c desc) as (s, r). cbn in Re. subst r.
  assert (F1 : is_dir d1 (sub (subs (base c) dirs) (rs stem)) = false).
  { destruct (is_dir d1 (sub (subs (base c) dirs) (rs stem))) eqn:X; [|reflexivity]. destruct (gr_new _ _ _ _ G1 _ X) as [Y|(q & x & I & E)]; [congruence|].
    apply sub_inj in E. destruct E as (_ & E). destruct (inner_scope q x I) as (_ & Mx). exfalso. now apply (modname_not_rs x stem Mx). }
  unfold create_file. rewrite pop_sub, D1, F1. cbn [negb andb].
  destruct (update_ok (set_file d1 (sub (subs (base c) dirs) (rs stem)) s) (subs (base c) dirs) (rs stem) stem) as (ns & U & _).
  - now apply plain_rs.
  - exact Ms.
  - now apply stem_rs.
  - rewrite is_dir_set. exact D1.
  - rewrite is_dir_set. exact (t_nodir _ _ _ T1 _ Sc).
  - intros x Fx. rewrite set_file_other in Fx; [exact (t_mod _ _ _ T1 _ x Sc Fx)|]. intros X. apply sub_inj in X. destruct X as (_ & X). apply Nm. now apply rs_inj.
  - rewrite U. eauto.
Qed.
End Tree.

(** ** A run *)
Section Run.
Variables (render : renderer) (check : bool) (fuel : nat) (cs : list gen_config) (d0 : disk).
Hypothesis Ready : ready check d0 cs.
Hypothesis Room : room check d0 cs.
Hypothesis Apart : forall c, In c cs -> sources_apart check d0 c.
Notation scope := (run_scope check cs d0).
Notation inner := (run_inner check cs d0).
Let inner_scope := run_inner_scope check cs d0 Ready.

Definition renders (c : gen_config) : Prop :=
  exists x, describe check fuel c d0 = inl x /\ (g_no_output c = false -> snd (render c x) = WOk).

Lemma files_not_dirs d c dirs stem : grows scope inner d0 d -> In c cs -> plan check d0 c dirs stem -> is_dir d (output_file c dirs stem) = false.
Proof.
  intros G I P. destruct (is_dir d _) eqn:X; [|reflexivity]. destruct (gr_new _ _ _ _ G _ X) as [Y|(q & x & J & E)].
  - rewrite (rm_files _ _ _ Room c dirs stem I P) in Y. discriminate.
  - apply sub_inj in E. destruct E as (_ & E). destruct (inner_scope q x J) as (_ & Mx). exfalso. now apply (modname_not_rs x stem Mx).
Qed.

Lemma one_total c d : In c cs -> tidy scope inner d -> grows scope inner d0 d -> keeps_sources d0 d -> sane d -> no_files inner d -> renders c ->
  exists d', write_proto render check fuel c d = (WOk, d') /\ sane d' /\ no_files inner d'.
Proof.
  intros I T G K S N (x & Dx & Re). rewrite <- (describe_same check fuel c d0 d K (Apart c I)) in Dx.
  assert (E : exists d', write_proto render check fuel c d = (WOk, d')).
  { unfold write_proto. rewrite Dx. destruct (describe_package _ _ _ _ _ Dx) as (p & C & Ep & Fp). destruct (rd_out _ _ _ Ready c I) as (Np & Db).
    assert (C0 : content check (dk_file d0) (g_in c) p) by (apply (content_same check d0 d); auto; exact (rd_in _ _ _ Ready c I)).
    assert (Pl : exists dirs stem, placed_file (counts c p) (g_out c) dirs stem).
    { destruct Fp as [E0|Ty].
      - rewrite E0. destruct (get_file_stem (g_out c)) as [stem|] eqn:Gs; [|now apply (rm_out _ _ _ Room c I) in Gs]. exists [], stem. now constructor.
      - destruct (package_place _ Ty) as (prefix & ds & l & _ & Sp & _). exists ds, (sanitize_segment l). now constructor. }
    destruct Pl as (dirs & stem & Pl). assert (P0 : plan check d0 c dirs stem) by (now exists p). destruct (run_dirs check cs d0 c dirs stem I P0) as (Di & Sc).
    rewrite <- Ep in Pl, Fp. apply (emit_total scope inner inner_scope render c x d dirs stem); auto.
    - exact (gr_dir _ _ _ _ G _ Db).
    - exact (rm_in _ _ _ Room c I).
    - exact (files_not_dirs d c dirs stem G I P0). }
  destruct E as (d' & E). exists d'. split; [exact E|].
  destruct (write_proto_ok render check fuel cs d0 Ready c d WOk d' I T G K E) as (T' & G' & A' & _).
  apply (sane_step scope inner inner_scope (fun p => exists dirs stem, plan check d0 c dirs stem /\ p = output_file c dirs stem) d d' S N T' G').
  - intros p (dirs & stem & P & ->). split; [now exists (subs (base c) dirs), stem|]. apply files_not_dirs; auto. eapply grows_trans; eauto.
  - intros p N1 N2. apply A'; [exact N1|]. intros dirs stem P ->. apply N2. eauto.
Qed.

Lemma run_total : forall l d, incl l cs -> tidy scope inner d -> grows scope inner d0 d -> keeps_sources d0 d -> sane d -> no_files inner d ->
  (forall c, In c l -> renders c) -> exists d', Output.run render check fuel l d = (WOk, d').
Proof.
  induction l as [|c l IH]; intros d In T G K S N Re; cbn [Output.run]; [eauto|].
  assert (Ic : List.In c cs) by (apply In; now left). assert (Il : incl l cs) by (intros x X; apply In; now right).
  destruct (one_total c d Ic T G K S N (Re c (or_introl eq_refl))) as (d1 & W & S1 & N1). rewrite W.
  destruct (write_proto_ok render check fuel cs d0 Ready c d WOk d1 Ic T G K W) as (T1 & G1 & A1 & _).
  apply (IH d1 Il T1 (grows_trans _ _ _ _ _ G G1) (keeps_trans _ _ _ K (apart_sources check cs d0 c d d1 Ic A1)) S1 N1). intros c' H. apply Re. now right.
Qed.

Lemma run_needs : forall l d d', chain render check fuel cs d0 l d d' -> forall c, In c l -> renders c.
Proof.
  intros l d d' H. induction H as [|c l d d1 d2 x dirs stem I T K D A G Ch IH]; intros c' []; [|now apply IH]. subst c'. exists x.
  split; [rewrite <- (describe_same check fuel c d0 d K (Apart c I)); exact (dn_describe _ _ _ _ _ _ _ _ _ _ D)|].
  intros No. exact (proj1 (proj2 (proj2 (dn_wet _ _ _ _ _ _ _ _ _ _ D No)))).
Qed.
End Run.

(** C87.  On a disk where nothing is in the way a run ends well exactly when each
    input, as it is before the run, is read, accepted, and rendered. *)
Theorem C87_run_partial : forall render check fuel cs d,
  ready check d cs -> room check d cs -> (forall c, In c cs -> sources_apart check d c) ->
  (fst (Output.run render check fuel cs d) = WOk <->
   forall c, In c cs -> exists x, describe check fuel c d = inl x /\ (g_no_output c = false -> snd (render c x) = WOk)).
Proof.
  intros render check fuel cs d R Rm A. pose proof (run_tidy check cs d R) as T. split.
  - destruct (Output.run render check fuel cs d) as (r, d') eqn:E. cbn. intros ->.
    destruct (run_ok render check fuel cs d R cs d WOk d' (incl_refl _) T (grows_refl _ _ _) (fun p _ => eq_refl) E) as (_ & _ & _ & _ & C).
    intros c I. exact (run_needs render check fuel cs d A cs d d' (C eq_refl) c I).
  - intros H. destruct (run_total render check fuel cs d R Rm A cs d (incl_refl _) T (grows_refl _ _ _) (fun p _ => eq_refl) (rm_sane _ _ _ Rm)) as (d' & ->).
    + intros p x (c & dirs & stem & l & l' & I & P & E & ->). exact (rm_dirs _ _ _ Rm c dirs stem l x l' I P E).
    + exact H.
    + reflexivity.
Qed.
Print Assumptions C87_run_partial.

(** the text of C78 ends well exactly for what C86 calls writable *)
Lemma text_writable check fuel c d x : describe check fuel c d = inl x -> (snd (text_of c x) = WOk <-> writable (g_passes c) (in_desc x)).
Proof.
  intros D. destruct (describe_read _ _ _ _ _ D) as (R & P & _). unfold text_of.
  rewrite <- (C86_written _ _ _ _ _ _ c _ (match file_name (g_in c) with Some n => n | None => "" end) (in_services x) R P).
  destruct (GenGood.generated c (in_read x) _ (in_services x)) as (s, [e|]); cbn; split; try discriminate; auto.
Qed.

(** pb-rs itself: the reading, the passes, and nothing that C86 lists *)
Theorem C87_pb_rs_partial : forall check fuel cs d,
  ready check d cs -> room check d cs -> (forall c, In c cs -> sources_apart check d c) ->
  (fst (Output.run text_of check fuel cs d) = WOk <->
   forall c, In c cs -> exists desc desc', read_proto check (dk_file d) (g_search c) fuel (g_in c) = ROk desc /\
     process (g_passes c) desc = GOk desc' /\ (g_no_output c = false -> writable (g_passes c) desc')).
Proof.
  intros check fuel cs d R Rm A. rewrite (C87_run_partial text_of check fuel cs d R Rm A). split; intros H c I.
  - destruct (H c I) as (x & D & W). destruct (describe_read _ _ _ _ _ D) as (Rd & P & _). exists (in_read x), (in_desc x). split; [exact Rd|]. split; [exact P|].
    intros No. now apply (text_writable check fuel c d x D), W.
  - destruct (H c I) as (ds & ds' & Rd & P & W). exists (mkInput (services check (dk_file d) (g_in c)) ds ds').
    assert (D : describe check fuel c d = inl (mkInput (services check (dk_file d) (g_in c)) ds ds')) by (unfold describe; now rewrite Rd, P).
    split; [exact D|]. intros No. now apply (text_writable check fuel c d _ D), W.
Qed.
Print Assumptions C87_pb_rs_partial.

(** inputs that are read, accepted, and follow the rules of the language *)
Theorem C87_rules_partial : forall check fuel cs d,
  ready check d cs -> room check d cs -> (forall c, In c cs -> sources_apart check d c) ->
  (forall c, In c cs -> exists desc desc', read_proto check (dk_file d) (g_search c) fuel (g_in c) = ROk desc /\
     process (g_passes c) desc = GOk desc' /\ language_rules desc) ->
  exists d', Output.run text_of check fuel cs d = (WOk, d').
Proof.
  intros check fuel cs d R Rm A H.
  assert (E : fst (Output.run text_of check fuel cs d) = WOk).
  { apply (C87_pb_rs_partial check fuel cs d R Rm A). intros c I. destruct (H c I) as (ds & ds' & Rd & P & L). exists ds, ds'. split; [exact Rd|]. split; [exact P|].
    intros _. apply (C86_written _ _ _ _ _ _ c _ "" 0%nat Rd P). destruct (C86_rules _ _ _ _ _ _ c _ "" 0%nat Rd L P) as (s & ->). reflexivity. }
  destruct (Output.run text_of check fuel cs d) as (r, d'). cbn in E. subst r. now exists d'.
Qed.
Print Assumptions C87_rules_partial.

(** ** Cases *)
Definition room_ok (check : bool) (dirs : list text) (files : list (text * text)) (cs : list gen_config) : bool :=
  let d := small_disk dirs files in
  forallb (fun s => match dk_file d (path_of s) with None => true | Some _ => false end) dirs &&
  forallb (fun x => match fp_parts (path_of (fst x)) with [] => false | _ => true end) files &&
  forallb (fun c => match file_name (g_in c), get_file_stem (g_out c) with Some _, Some _ => true | _, _ => false end &&
    match plan_of check d c with
    | None => false
    | Some (ds, st) =>
      forallb (fun n => match dk_file d (subs (base c) (firstn n ds)) with None => true | Some _ => false end) (List.seq 1 (List.length ds)) &&
      negb (is_dir d (output_file c ds st))
    end) cs.
Lemma small_room check dirs files cs : room_ok check dirs files cs = true -> room check (small_disk dirs files) cs.
Proof.
  intros H. unfold room_ok in H. apply andb_true_iff in H. destruct H as (H & H3). apply andb_true_iff in H. destruct H as (H1 & H2).
  rewrite forallb_forall in H1, H2, H3. set (d := small_disk dirs files) in *.
  assert (X : forall c, In c cs -> file_name (g_in c) <> None /\ get_file_stem (g_out c) <> None /\
    exists ds st, plan check d c ds st /\ is_dir d (output_file c ds st) = false /\ (forall l x l', ds = l ++ x :: l' -> dk_file d (sub (subs (base c) l) x) = None)).
  { intros c I. specialize (H3 c I). apply andb_true_iff in H3. destruct H3 as (A & D).
    destruct (file_name (g_in c)); [|discriminate]. destruct (get_file_stem (g_out c)); [|discriminate]. split; [discriminate|]. split; [discriminate|].
    destruct (plan_of check d c) as [(ds & st)|] eqn:P; [|discriminate]. exists ds, st. split; [now apply plan_of_ok|].
    apply andb_true_iff in D. destruct D as (D1 & D2). split; [now apply negb_true_iff|]. rewrite forallb_forall in D1.
    intros l x l' ->. specialize (D1 (List.length (l ++ [x]))). change (x :: l') with ([x] ++ l') in D1. rewrite app_assoc in D1.
    rewrite in_seq, (app_length (l ++ [x])), firstn_app, Nat.sub_diag, firstn_all in D1. cbn [firstn] in D1. rewrite app_nil_r, subs_snoc in D1.
    destruct (dk_file d (sub (subs (base c) l) x)); [|reflexivity]. discriminate D1. rewrite app_length. cbn. lia. }
  constructor.
  - intros p D. unfold is_dir in D. destruct (fp_parts p) as [|y l] eqn:E.
    + cbn. destruct (find _ files) as [x|] eqn:F; [|reflexivity]. apply find_some in F. destruct F as (I & F). specialize (H2 x I).
      destruct (path_eqb_spec (path_of (fst x)) p) as [Q|]; [|discriminate]. rewrite Q, E in H2. discriminate.
    + cbn in D. apply existsb_exists in D. destruct D as (s & I & D). specialize (H1 s I). destruct (path_eqb_spec (path_of s) p) as [<-|]; [|discriminate].
      now destruct (dk_file d (path_of s)).
  - intros c I. now destruct (X c I).
  - intros c I. now destruct (X c I) as (_ & A & _).
  - intros c ds st l x l' I P E. destruct (X c I) as (_ & _ & ds' & st' & P' & _ & B). destruct (plan_fun _ _ _ _ _ _ _ P P') as (-> & ->). exact (B l x l' E).
  - intros c ds st I P. destruct (X c I) as (_ & _ & ds' & st' & P' & B & _). destruct (plan_fun _ _ _ _ _ _ _ P P') as (-> & ->). exact B.
Qed.

Definition other_config : gen_config := to_dir "b.proto" "out/b.rs" false.
Definition total_files : list (text * text) := [("a.proto", meanSchema); ("b.proto", "package p.r; message B { map<int32, string> m = 1; }")].
Example C87_case : let d := small_disk ["out"] total_files in let cs := [run_config; other_config] in
  ready true d cs /\ room true d cs /\ (forall c, In c cs -> sources_apart true d c) /\
  exists d', Output.run text_of true 2 cs d = (WOk, d').
Proof.
  cbv zeta. assert (R : ready true (small_disk ["out"] total_files) [run_config; other_config]) by (apply small_ready; vm_compute; reflexivity).
  assert (Rm : room true (small_disk ["out"] total_files) [run_config; other_config]) by (apply small_room; vm_compute; reflexivity).
  assert (A : forall c, In c [run_config; other_config] -> sources_apart true (small_disk ["out"] total_files) c) by (intros c [<-|[<-|[]]]; apply small_apart; vm_compute; reflexivity).
  split; [exact R|]. split; [exact Rm|]. split; [exact A|].
  assert (E : fst (Output.run text_of true 2 [run_config; other_config] (small_disk ["out"] total_files)) = WOk) by (vm_compute; reflexivity).
  revert E. destruct (Output.run text_of true 2 _ _) as (r, d'). cbn [fst]. intros ->. now exists d'.
Qed.

(** Without [room]: a directory has the name of the output, and a file that of a
    directory.  The input is read, accepted and rendered; the run ends with an
    error. *)
Theorem C87_room_refuted : forall dirs files, In (dirs, files)
    [(["out"; "out/b.rs"], [("b.proto", "message B { optional int32 x = 1; }")]);
     (["out"], [("b.proto", "package p.r.s; message B { optional int32 x = 1; }"); ("out/p", "")])] ->
  exists dd desc desc', dd = small_disk dirs files /\
  read_proto true (dk_file dd) (g_search other_config) 2 (g_in other_config) = ROk desc /\ process (g_passes other_config) desc = GOk desc' /\
  snd (GenGood.generated other_config desc "b.proto" 0) = None /\ fst (Output.run text_of true 2 [other_config] dd) = WIo.
Proof.
  intros dirs files H. cbn [In] in H. destruct H as [H|[H|[]]]; injection H as <- <-;
  match goal with |- exists dd _ _, dd = ?d /\ _ =>
    let r := eval vm_compute in (match read_proto true (dk_file d) (g_search other_config) 2 (g_in other_config) with ROk x => match process (g_passes other_config) x with GOk x' => Some (x, x') | _ => None end | _ => None end) in
    match r with Some (?x, ?x') => exists d, x, x' end
  end; (split; [reflexivity|]); repeat match goal with |- _ /\ _ => split end; vm_compute; reflexivity.
Qed.
Print Assumptions C87_room_refuted.
