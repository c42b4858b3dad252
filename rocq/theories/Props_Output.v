(** Property theorem C77: where generated code goes, and that it can be found
    from there. *)
From Coq Require Import String Ascii Arith Lia Relations.
From Verif Require Import Base Schema Keywords Modules KeywordFacts ModuleFacts Passes Parser ProtoText ParserOut Pipeline Import
  Props_Import Props_Names Paths Props_Paths PlaceFacts PathFacts Output OutputFacts.
Import Schema StringSyntax.
Local Open Scope string_scope.
Local Open Scope list_scope.

(** ** What is claimed *)

(** [line] is a line of the text [s] *)
Definition has_line (s line : text) : Prop :=
  exists pre post, s = (pre ++ line ++ String newline post)%string /\
    (pre = "" \/ exists a, pre = (a ++ String newline "")%string).
(** the mod.rs file in directory [p] declares module [x] *)
Definition declares_module (d : disk) (p : fpath) (x : text) : Prop :=
  exists s, dk_file d (sub p "mod.rs") = Some s /\ has_line s ("pub mod " ++ x ++ ";")%string.
(** the module path [l], looked up from the mod.rs file in directory [p] the way
    rustc does, leads to file [f] *)
Inductive leads_to (d : disk) : fpath -> list text -> fpath -> Prop :=
| leads_file p x : declares_module d p x -> dk_file d (sub p (x ++ ".rs")%string) <> None ->
    leads_to d p [x] (sub p (x ++ ".rs")%string)
| leads_dir p x l f : declares_module d p x -> dk_file d (sub (sub p x) "mod.rs") <> None ->
    leads_to d (sub p x) l f -> leads_to d p (x :: l) f.

(** the package of the input of [c], as far as it counts *)
Definition counts (c : gen_config) (p : Parser.parsed) : text :=
  if c_single_module (g_passes c) then "" else package_of p.
(** The output of [c] is [stem].rs in the directory [dirs] below the directory of
    the output path.  With a package, these are the pieces of the package; the last
    one is escaped if it is a keyword.  Without one, the stem is that of the output
    path. *)
Definition plan (check : bool) (d : disk) (c : gen_config) (dirs : list text) (stem : text) : Prop :=
  exists p, content check (dk_file d) (g_in c) p /\ placed_file (counts c p) (g_out c) dirs stem.
Definition output_file (c : gen_config) (dirs : list text) (stem : text) : fpath :=
  sub (subs (base c) dirs) (stem ++ ".rs")%string.

(** the inputs are no output files; output paths are in directories that exist;
    the directories of packages that exist already are declared in a mod.rs file
    generated earlier, and no other mod.rs file is in the way *)
Record ready (check : bool) (d : disk) (cs : list gen_config) : Prop := mkReady {
  rd_closed : closed d;
  rd_in : forall c, In c cs -> ~ ends_rs (g_in c);
  rd_out : forall c, In c cs -> Forall (fun x => x <> "") (fp_parts (g_out c)) /\ is_dir d (base c) = true;
  rd_mod : forall c dirs stem l l', In c cs -> plan check d c dirs stem -> dirs = l ++ l' ->
    is_dir d (sub (subs (base c) l) "mod.rs") = false /\
    forall s, dk_file d (sub (subs (base c) l) "mod.rs") = Some s -> exists ns, s = generated ns /\ Forall module_name ns;
  rd_dir : forall c dirs stem l x l', In c cs -> plan check d c dirs stem -> dirs = l ++ x :: l' ->
    path_exists d (sub (subs (base c) l) x) = true -> listed d (subs (base c) l) x }.

(** ** Proofs *)
Lemma content_same check d d' c p : keeps_sources d d' -> ~ ends_rs (g_in c) ->
  content check (dk_file d') (g_in c) p <-> content check (dk_file d) (g_in c) p.
Proof. intros K N. unfold content. now rewrite (K _ N). Qed.
Lemma plan_same check d d' c dirs stem : keeps_sources d d' -> ~ ends_rs (g_in c) -> plan check d' c dirs stem <-> plan check d c dirs stem.
Proof.
  intros K N. unfold plan. split; intros (p & C & P); exists p; (split; [now apply (content_same check d d')|exact P]).
Qed.
Lemma content_fun check fs f p q : content check fs f p -> content check fs f q -> p = q.
Proof. intros (s & r & A & B & _) (s' & r' & A' & B' & _). congruence. Qed.
Lemma plan_fun check d c d1 s1 d2 s2 : plan check d c d1 s1 -> plan check d c d2 s2 -> d1 = d2 /\ s1 = s2.
Proof.
  intros (p & C & P) (q & C' & P'). pose proof (content_fun _ _ _ _ _ C C'). subst q. exact (placed_fun _ _ _ _ _ _ P P').
Qed.

Lemma describe_package check fuel c d desc : describe check fuel c d = inl desc ->
  exists p, content check (dk_file d) (g_in c) p /\ d_package (in_desc desc) = counts c p /\ file_package (counts c p).
Proof.
  unfold describe. destruct (read_proto check (dk_file d) (g_search c) fuel (g_in c)) as [ds| | |] eqn:R; try discriminate.
  destruct (process (g_passes c) ds) as [ds'|] eqn:P; [|discriminate]. intros [= <-].
  destruct fuel as [|n]; [discriminate|]. destruct (read_step _ _ _ _ _ _ R) as (p & d0 & C & (mo & Em & ->) & F).
  exists p. split; [exact C|].
  assert (E : d_package ds = package_of p).
  { clear -F. revert F. generalize (p_imports p).
    set (d0 := set_own_package _). assert (E : d_package d0 = package_of p) by reflexivity. revert E. generalize d0. clear d0.
    intros d0 E l. revert d0 E. induction l as [|i l IH]; intros d0 E H; cbn [fetch] in H; [now injection H as <-|].
    destruct (find_import _ _ _ i); [|discriminate]. destruct (read_proto _ _ _ n f) as [x| | |]; try discriminate.
    apply (IH (add_import d0 x)); [exact E|exact H]. }
  destruct (process_header _ _ _ P) as (_ & _ & Ep). unfold counts. cbn [in_desc]. split; [now rewrite Ep, E|].
  destruct (c_single_module (g_passes c)); [now left|]. destruct C as (s & r & _ & Ef & _). destruct (o_file _ _ _ _ Ef) as (r' & sx & _ & K).
  exact (pfile_package _ _ K).
Qed.

Section Run.
Variables (render : renderer) (check : bool) (fuel : nat) (cs : list gen_config) (d0 : disk).
Hypothesis Ready : ready check d0 cs.

(** the directories that the configurations use *)
Definition run_scope (p : fpath) : Prop :=
  exists c dirs stem l l', In c cs /\ plan check d0 c dirs stem /\ dirs = l ++ l' /\ p = subs (base c) l.
Definition run_inner (p : fpath) (x : text) : Prop :=
  exists c dirs stem l l', In c cs /\ plan check d0 c dirs stem /\ dirs = l ++ x :: l' /\ p = subs (base c) l.

Lemma plan_names c dirs stem : In c cs -> plan check d0 c dirs stem -> Forall modname dirs /\ modname stem /\ stem <> "mod".
Proof.
  intros I (p & C & P). destruct (rd_out _ _ _ Ready c I) as (N & _). apply (placed_names (counts c p) (g_out c)); [|exact N|exact P].
  unfold counts. destruct (c_single_module (g_passes c)); [now left|]. destruct C as (s & r & _ & Ef & _). destruct (o_file _ _ _ _ Ef) as (r' & sx & _ & K).
  exact (pfile_package _ _ K).
Qed.
Lemma run_inner_scope p x : run_inner p x -> run_scope p /\ modname x.
Proof.
  intros (c & dirs & stem & l & l' & I & P & E & ->). split; [exists c, dirs, stem, l, (x :: l'); auto|].
  destruct (plan_names c dirs stem I P) as (F & _). rewrite E in F. apply Forall_app in F. destruct F as (_ & F). now inversion F.
Qed.
Lemma run_tidy : tidy run_scope run_inner d0.
Proof.
  constructor.
  - exact (rd_closed _ _ _ Ready).
  - intros p s (c & dirs & stem & l & l' & I & P & E & ->) F. destruct (rd_mod _ _ _ Ready c dirs stem l l' I P E) as (_ & H). now apply H.
  - intros p (c & dirs & stem & l & l' & I & P & E & ->). now destruct (rd_mod _ _ _ Ready c dirs stem l l' I P E).
  - intros p x (c & dirs & stem & l & l' & I & P & E & ->) X. exact (rd_dir _ _ _ Ready c dirs stem l x l' I P E X).
Qed.
Lemma run_dirs c dirs stem : In c cs -> plan check d0 c dirs stem -> dirs_inner run_inner (base c) dirs /\ run_scope (subs (base c) dirs).
Proof.
  intros I P. split; [|exists c, dirs, stem, dirs, []; now rewrite app_nil_r].
  assert (X : forall l2 l1, dirs = l1 ++ l2 -> dirs_inner run_inner (subs (base c) l1) l2).
  { induction l2 as [|x l2 IH]; intros l1 E; [exact Logic.I|]. cbn. split; [now exists c, dirs, stem, l1, l2|]. rewrite <- subs_snoc. apply IH. now rewrite <- app_assoc. }
  rewrite <- (subs_nil (base c)). now apply (X dirs []).
Qed.

(** what one configuration does *)
Record done (c : gen_config) (d d' : disk) (desc : input) (dirs : list text) (stem : text) : Prop := mkDone {
  dn_describe : describe check fuel c d = inl desc;
  dn_plan : plan check d0 c dirs stem;
  dn_listed : all_listed d' (base c) dirs;
  dn_exist : all_exist d' (base c) dirs;
  dn_dry : g_no_output c = true -> dk_file d' (output_file c dirs stem) = dk_file d (output_file c dirs stem);
  dn_wet : g_no_output c = false -> dk_file d' (output_file c dirs stem) = Some (fst (render c desc)) /\ listed d' (subs (base c) dirs) stem /\
    snd (render c desc) = WOk /\ file_name (g_in c) <> None /\ is_dir d' (subs (base c) dirs) = true /\ is_dir d' (output_file c dirs stem) = false }.

Definition apart (c : gen_config) (d d' : disk) : Prop :=
  forall p, (forall q, run_scope q -> p <> sub q "mod.rs") -> (forall dirs stem, plan check d0 c dirs stem -> p <> output_file c dirs stem) ->
    dk_file d' p = dk_file d p.

Lemma apart_sources c d d' : In c cs -> apart c d d' -> keeps_sources d d'.
Proof.
  intros I A p N. apply A.
  - intros q _ ->. apply N, mod_ends_rs.
  - intros dirs stem P ->. apply N. now exists (subs (base c) dirs), stem.
Qed.
Lemma keeps_trans a b c : keeps_sources a b -> keeps_sources b c -> keeps_sources a c.
Proof. intros A B p N. now rewrite (B p N), (A p N). Qed.

Lemma write_proto_ok c d r d' : In c cs -> tidy run_scope run_inner d -> grows run_scope run_inner d0 d -> keeps_sources d0 d ->
  write_proto render check fuel c d = (r, d') ->
  tidy run_scope run_inner d' /\ grows run_scope run_inner d d' /\ apart c d d' /\
  (r = WOk -> exists desc dirs stem, done c d d' desc dirs stem).
Proof.
  intros I T G K H. unfold write_proto in H. destruct (describe check fuel c d) as [desc|e] eqn:D.
  - destruct (describe_package _ _ _ _ _ D) as (p & C & Ep & Fp). pose proof (rd_in _ _ _ Ready c I) as Ni.
    destruct (rd_out _ _ _ Ready c I) as (Np & Db).
    assert (C0 : content check (dk_file d0) (g_in c) p) by now apply (content_same check d0 d).
    assert (Em : forall r d', emit render c desc d = (r, d') -> (r = WOutputFile /\ d' = d) \/ exists dirs stem, placed_file (counts c p) (g_out c) dirs stem).
    { intros r1 d1 X. unfold emit in X. rewrite Ep in X. destruct Fp as [E0|Ty].
      - rewrite E0 in X |- *. cbn [split_package String.eqb] in X. destruct (get_file_stem (g_out c)) as [stem|] eqn:Gs; [|injection X as <- <-; now left].
        right. exists [], stem. now constructor.
      - right. destruct (package_place _ Ty) as (prefix & ds & l & _ & S & _). exists ds, (sanitize_segment l). now constructor. }
    destruct (Em r d' H) as [(-> & ->)|(dirs & stem & Pl)].
    + split; [exact T|]. split; [apply grows_refl|]. split; [intros x _ _; reflexivity|discriminate].
    + assert (P0 : plan check d0 c dirs stem) by (now exists p). destruct (run_dirs c dirs stem I P0) as (Di & Sc).
      rewrite <- Ep in Pl, Fp.
      destruct (emit_ok run_scope run_inner run_inner_scope render c desc d dirs stem r d' Fp Np Pl T Di Sc (gr_dir _ _ _ _ G _ Db) H) as (T' & G' & Fr & R).
      split; [exact T'|]. split; [exact G'|]. split; [intros x N1 N2; apply Fr; [exact N1|exact (N2 dirs stem P0)]|].
      intros E. destruct (R E) as (R1 & R2 & R3 & R4). exists desc, dirs, stem. now constructor.
  - injection H as <- <-. split; [exact T|]. split; [apply grows_refl|]. split; [intros x _ _; reflexivity|].
    intros ->. exfalso. unfold describe in D. destruct (read_proto _ _ _ _ _) as [x| | |]; try discriminate. destruct (process _ x); discriminate.
Qed.

(** the states of a run *)
Inductive chain : list gen_config -> disk -> disk -> Prop :=
| chain_nil d : chain [] d d
| chain_cons c l d d1 d2 desc dirs stem : In c cs -> tidy run_scope run_inner d -> keeps_sources d0 d -> done c d d1 desc dirs stem -> apart c d d1 ->
    grows run_scope run_inner d d1 -> chain l d1 d2 -> chain (c :: l) d d2.

Lemma run_ok : forall l d r d', incl l cs -> tidy run_scope run_inner d -> grows run_scope run_inner d0 d -> keeps_sources d0 d ->
  run render check fuel l d = (r, d') ->
  tidy run_scope run_inner d' /\ grows run_scope run_inner d d' /\ keeps_sources d0 d' /\
  (forall p, (forall q, run_scope q -> p <> sub q "mod.rs") ->
     (forall c dirs stem, In c l -> plan check d0 c dirs stem -> p <> output_file c dirs stem) -> dk_file d' p = dk_file d p) /\
  (r = WOk -> chain l d d').
Proof.
  induction l as [|c l IH]; intros d r d' In T G K H; cbn [run] in H.
  - injection H as <- <-. split; [exact T|]. split; [apply grows_refl|]. split; [exact K|]. split; [reflexivity|]. constructor.
  - assert (Ic : List.In c cs) by (apply In; now left). assert (Il : incl l cs) by (intros x X; apply In; now right).
    destruct (write_proto render check fuel c d) as (r1, d1) eqn:W.
    destruct (write_proto_ok c d r1 d1 Ic T G K W) as (T1 & G1 & A1 & D1).
    pose proof (keeps_trans _ _ _ K (apart_sources c d d1 Ic A1)) as K1.
    destruct r1; try (injection H as <- <-; split; [exact T1|]; split; [exact G1|]; split; [exact K1|];
      split; [intros p N1 N2; apply A1; [exact N1|intros dirs stem P; apply (N2 c dirs stem); [now left|exact P]]|discriminate]).
    destruct (IH d1 r d' Il T1 (grows_trans _ _ _ _ _ G G1) K1 H) as (T2 & G2 & K2 & F2 & R2).
    split; [exact T2|]. split; [eapply grows_trans; eauto|]. split; [exact K2|]. split.
    + intros p N1 N2. rewrite F2; [|exact N1|intros c' ds st X; apply N2; now right]. apply A1; [exact N1|]. intros ds st. apply N2. now left.
    + intros E. destruct (D1 eq_refl) as (desc & dirs & stem & Dn). econstructor; eauto.
Qed.

Lemma chain_grows l d d' : chain l d d' -> grows run_scope run_inner d d'.
Proof. induction 1; [apply grows_refl|eapply grows_trans; eauto]. Qed.

Lemma listed_declares d p x : listed d p x -> declares_module d p x.
Proof.
  intros (ns & F & _ & I). exists (generated ns). split; [exact F|]. apply in_split in I. destruct I as (a & b & ->).
  unfold has_line, generated, file_of. cbn [fold_right]. rewrite map_app, fold_right_app. cbn [map fold_right].
  set (post := fold_right _ "" (map _ b)).
  assert (X : forall l rest, fold_right (fun l rest => (l ++ String newline rest)%string) rest l
     = (fold_right (fun l rest => (l ++ String newline rest)%string) "" l ++ rest)%string).
  { induction l as [|y l IH]; intros rest; [reflexivity|]. cbn [fold_right]. rewrite IH at 1. rewrite append_assoc. reflexivity. }
  rewrite X. set (pre := fold_right _ "" (map _ a)).
  exists ("// Automatically generated mod.rs" ++ String newline pre)%string, post. split.
  - rewrite !append_assoc. cbn [append]. reflexivity.
  - right. destruct a as [|a1 a _] using rev_ind.
    + exists "// Automatically generated mod.rs". reflexivity.
    + unfold pre. rewrite map_app, fold_right_app. cbn [map fold_right]. rewrite X.
      eexists ("// Automatically generated mod.rs" ++ String newline (fold_right _ "" (map _ a) ++ "pub mod " ++ a1 ++ ";"))%string.
      rewrite !append_assoc. cbn [append]. rewrite !append_assoc. cbn [append]. rewrite !append_assoc. reflexivity.
Qed.

Lemma listed_leads d stem : forall dirs p, dirs_inner run_inner p dirs -> all_listed d p dirs -> listed d (subs p dirs) stem ->
  dk_file d (sub (subs p dirs) (stem ++ ".rs")%string) <> None -> leads_to d p (dirs ++ [stem]) (sub (subs p dirs) (stem ++ ".rs")%string).
Proof.
  induction dirs as [|x dirs IH]; intros p Di Al L F; cbn [app].
  - rewrite subs_nil in *. constructor; [now apply listed_declares|exact F].
  - rewrite subs_cons in *. destruct Di as (_ & Di). destruct Al as (L1 & Al). apply leads_dir; [now apply listed_declares| |now apply IH].
    destruct dirs as [|y dirs].
    + rewrite subs_nil in L. destruct L as (ns & E & _). congruence.
    + destruct Al as ((ns & E & _) & _). congruence.
Qed.
End Run.

(** After a successful run each output can be reached through the module path
    that its package says: the mod.rs files lead to it.  Missing: disks that are
    not [ready]. *)
Theorem C77_reachable_partial : forall render check fuel cs d d',
  ready check d cs -> run render check fuel cs d = (WOk, d') ->
  forall c, In c cs -> exists dirs stem, plan check d c dirs stem /\
    (g_no_output c = false -> leads_to d' (base c) (dirs ++ [stem]) (output_file c dirs stem)).
Proof.
  intros render check fuel cs d d' R H.
  destruct (run_ok render check fuel cs d R cs d WOk d' (incl_refl _) (run_tidy check cs d R) (grows_refl _ _ _) (fun p _ => eq_refl) H) as (_ & _ & _ & _ & C).
  specialize (C eq_refl).
  assert (X : forall l a e, chain render check fuel cs d l a e -> forall c, In c l -> exists dirs stem, plan check d c dirs stem /\
    (g_no_output c = false -> leads_to e (base c) (dirs ++ [stem]) (output_file c dirs stem))).
  { intros l a e Ch. clear H C. induction Ch as [|c l a d1 d2 desc dirs stem I T K D A G Ch IH]; intros c' Ic; [destruct Ic|].
    destruct Ic as [<-|Ic]; [|exact (IH c' Ic)]. exists dirs, stem. split; [exact (dn_plan _ _ _ _ _ _ _ _ _ _ D)|]. intros No.
    destruct (dn_wet _ _ _ _ _ _ _ _ _ _ D No) as (F & L & _).
    pose proof (chain_grows _ _ _ _ _ _ _ _ Ch) as G2. destruct (run_dirs check cs d c dirs stem I (dn_plan _ _ _ _ _ _ _ _ _ _ D)) as (Di & Sc).
    apply (listed_leads check cs d).
    - exact Di.
    - apply (all_listed_grows _ _ (run_inner_scope check cs d R) _ _ G2); [exact Di|exact (dn_listed _ _ _ _ _ _ _ _ _ _ D)].
    - exact (gr_list _ _ _ _ G2 _ _ Sc L).
    - pose proof (gr_file _ _ _ _ G2 (output_file c dirs stem)) as X. unfold file_exists in X. rewrite F in X. specialize (X eq_refl).
      unfold output_file in X. now destruct (dk_file d2 _). }
  exact (X cs d d' C).
Qed.
Print Assumptions C77_reachable_partial.

(** A run, successful or not, touches no files but the outputs and the mod.rs
    files in directories of packages; nothing is deleted; the only new
    directories are those of packages. *)
Theorem C77_frame_partial : forall render check fuel cs d r d',
  ready check d cs -> run render check fuel cs d = (r, d') ->
  (forall p, dk_file d' p <> dk_file d p -> dk_file d' p <> None /\ exists c dirs stem, In c cs /\ plan check d c dirs stem /\
     (p = output_file c dirs stem \/ exists l l', dirs = l ++ l' /\ p = sub (subs (base c) l) "mod.rs")) /\
  (forall p, is_dir d p = true -> is_dir d' p = true) /\
  (forall p, is_dir d' p = true -> is_dir d p = true \/ exists c dirs stem l x l', In c cs /\ plan check d c dirs stem /\
     dirs = l ++ x :: l' /\ p = subs (base c) (l ++ [x])).
Proof.
  intros render check fuel cs d r d' R H.
  destruct (run_ok render check fuel cs d R cs d r d' (incl_refl _) (run_tidy check cs d R) (grows_refl _ _ _) (fun p _ => eq_refl) H) as (_ & [G1 G2 _ G4] & _ & F & _).
  split; [|split; [exact G1|]].
  - intros p N. split.
    + specialize (G2 p). unfold file_exists in G2. destruct (dk_file d p); [specialize (G2 eq_refl); now destruct (dk_file d' p)|exact N].
    + assert (X : ~ ~ exists c dirs stem, In c cs /\ plan check d c dirs stem /\
         (p = output_file c dirs stem \/ exists l l', dirs = l ++ l' /\ p = sub (subs (base c) l) "mod.rs")).
      { intros Y. apply N. apply F.
        - intros q (c & dirs & stem & l & l' & I & P & E & ->) ->. apply Y. exists c, dirs, stem. eauto 8.
        - intros c dirs stem I P ->. apply Y. exists c, dirs, stem. auto. }
      (* decide it by going through the configurations *)
      assert (Dec : forall c, In c cs -> (exists dirs stem, plan check d c dirs stem /\
         (p = output_file c dirs stem \/ exists l l', dirs = l ++ l' /\ p = sub (subs (base c) l) "mod.rs")) \/
         ~ exists dirs stem, plan check d c dirs stem /\
         (p = output_file c dirs stem \/ exists l l', dirs = l ++ l' /\ p = sub (subs (base c) l) "mod.rs")).
      { intros c _. assert (Pd : (exists dirs stem, plan check d c dirs stem) \/ ~ exists dirs stem, plan check d c dirs stem).
        { destruct (dk_file d (g_in c)) as [s|] eqn:Es; [|right; intros (ds & st & q & (s & r0 & A & _) & _); congruence].
          destruct (p_file check s) as [rest q| | |] eqn:Ep; try (right; intros (ds & st & q' & (s' & r0 & A & B & _) & _); congruence).
          destruct (String.eqb_spec (trim rest) "") as [Et|Et]; [|right; intros (ds & st & q' & (s' & r0 & A & B & C) & _); congruence].
          assert (Cq : content check (dk_file d) (g_in c) q) by (now exists s, rest).
          destruct (segments (counts c q)) as [|z zs _] eqn:Sg using rev_ind.
          - destruct (get_file_stem (g_out c)) as [st|] eqn:Gs.
            + left. exists [], st, q. split; [exact Cq|]. now constructor.
            + right. intros (ds & st & q' & C' & P'). pose proof (content_fun _ _ _ _ _ Cq C'). subst q'. inversion P' as [st' S' G'|ds' l' S']; subst; [congruence|]. rewrite Sg in S'. now apply app_cons_not_nil in S'.
          - left. exists zs, (sanitize_segment z), q. split; [exact Cq|]. now constructor. }
        destruct Pd as [(ds & st & P)|Np]; [|right; intros (ds & st & P & _); apply Np; eauto].
        destruct (path_eqb_spec p (output_file c ds st)) as [E|Ne]; [left; exists ds, st; auto|].
        assert (Ld : (exists l l', ds = l ++ l' /\ p = sub (subs (base c) l) "mod.rs") \/ ~ exists l l', ds = l ++ l' /\ p = sub (subs (base c) l) "mod.rs").
        { clear. induction ds as [|x ds IH] using rev_ind.
          - destruct (path_eqb_spec p (sub (subs (base c) []) "mod.rs")) as [E|Ne]; [left; exists [], []; auto|].
            right. intros (l & l' & E & X). symmetry in E. apply app_eq_nil in E. destruct E as (-> & ->). contradiction.
          - destruct IH as [(l & l' & -> & E)|Ne]; [left; exists l, (l' ++ [x]); rewrite app_assoc; auto|].
            destruct (path_eqb_spec p (sub (subs (base c) (ds ++ [x])) "mod.rs")) as [E|N2]; [left; exists (ds ++ [x]), []; rewrite app_nil_r; auto|].
            right. intros (l & l' & E & X). destruct l' as [|y l' _] using rev_ind.
            + rewrite app_nil_r in E. subst l. contradiction.
            + rewrite app_assoc in E. apply app_inj_tail in E. destruct E as (-> & _). apply Ne. eauto. }
        destruct Ld as [Ld|Ld]; [left; exists ds, st; auto|]. right. intros (ds' & st' & P' & K).
        destruct (plan_fun _ _ _ _ _ _ _ P P') as (<- & <-). destruct K; contradiction. }
      assert (Any : forall l, incl l cs -> (exists c, In c l /\ exists dirs stem, plan check d c dirs stem /\
         (p = output_file c dirs stem \/ exists l l', dirs = l ++ l' /\ p = sub (subs (base c) l) "mod.rs")) \/
         forall c, In c l -> ~ exists dirs stem, plan check d c dirs stem /\
         (p = output_file c dirs stem \/ exists l l', dirs = l ++ l' /\ p = sub (subs (base c) l) "mod.rs")).
      { induction l as [|c l IH]; intros I; [right; intros c []|]. destruct (Dec c (I c (or_introl eq_refl))) as [K|K]; [left; exists c; cbn; auto|].
        destruct IH as [(c' & I' & K')|K']; [intros y Y; apply I; now right|left; exists c'; cbn; auto|]. right. intros c' [<-|I']; [exact K|now apply K']. }
      destruct (Any cs (incl_refl _)) as [(c & I & ds & st & K)|K]; [eauto 6|]. exfalso. apply X. intros (c & ds & st & I & K'). apply (K c I). eauto.
  - intros p Hp. destruct (G4 p Hp) as [K|(q & x & (c & dirs & stem & l & l' & I & P & E & ->) & ->)]; [now left|]. right.
    exists c, dirs, stem, l, x, l'. rewrite subs_snoc. auto.
Qed.
Print Assumptions C77_frame_partial.

(** ** What is in the files *)

(** no file that is read, and no place where an import is looked for, has the
    name of a Rust file *)
Definition sources_apart (check : bool) (d : disk) (c : gen_config) : Prop :=
  ~ ends_rs (g_in c) /\
  forall g p i dir h, clos_refl_trans _ (imports check (dk_file d) (g_search c)) (g_in c) g ->
    content check (dk_file d) g p -> In i (p_imports p) -> In dir (g_search c) -> import_place g dir i h -> ~ ends_rs h.

Lemma find_same fs fs' search f i : (forall dir h, In dir search -> import_place f dir i h -> fs' h = fs h) ->
  find_import fs' search f i = find_import fs search f i.
Proof.
  induction search as [|dir search IH]; intros H; [reflexivity|]. cbn [find_import]. unfold file_exists.
  rewrite (H dir (candidate f dir i)) by (try (now left); now apply candidate_place). destruct (fs (candidate f dir i)); [reflexivity|].
  apply IH. intros dir' h I. apply H. now right.
Qed.
Lemma read_same check d d' search : keeps_sources d d' -> forall n f, ~ ends_rs f ->
  (forall g p i dir h, clos_refl_trans _ (imports check (dk_file d) search) f g -> content check (dk_file d) g p -> In i (p_imports p) ->
     In dir search -> import_place g dir i h -> ~ ends_rs h) ->
  read_proto check (dk_file d') search n f = read_proto check (dk_file d) search n f.
Proof.
  intros K. induction n as [|n IH]; intros f Nf H; [reflexivity|]. cbn [read_proto]. rewrite (K f Nf).
  destruct (dk_file d f) as [s|] eqn:Es; [|reflexivity]. destruct (p_file check s) as [rest p| | |] eqn:Ep; try reflexivity.
  destruct (String.eqb_spec (trim rest) "") as [Et|]; [|reflexivity]. destruct (file_module _ f) as [m|]; [|reflexivity].
  assert (C : content check (dk_file d) f p) by (now exists s, rest).
  assert (Fe : forall l d1, incl l (p_imports p) -> fetch (dk_file d') search f (read_proto check (dk_file d') search n) d1 l =
     fetch (dk_file d) search f (read_proto check (dk_file d) search n) d1 l).
  { induction l as [|i l IHl]; intros d1 I; [reflexivity|]. cbn [fetch]. assert (Ii : In i (p_imports p)) by (apply I; now left).
    rewrite (find_same (dk_file d) (dk_file d') search f i) by (intros dir h Hd Hh; apply K; apply (H f p i dir h); auto; apply rt_refl).
    destruct (find_import (dk_file d) search f i) as [g|] eqn:Ef; [|reflexivity].
    apply find_import_resolves in Ef. assert (Im : imports check (dk_file d) search f g) by (now exists p, i).
    assert (Ng : ~ ends_rs g).
    { destruct Ef as (b & dir & a & Es' & Pl & _). apply (H f p i dir g); auto; [apply rt_refl|rewrite Es'; apply in_app_iff; right; now left]. }
    rewrite (IH g Ng); [|intros g' p' i' dir h Rt; apply H; eapply rt_trans; [apply rt_step; exact Im|exact Rt]].
    destruct (read_proto check (dk_file d) search n g); try reflexivity. apply IHl. intros y Y. apply I. now right. }
  apply Fe. apply incl_refl.
Qed.
Lemma describe_same check fuel c d d' : keeps_sources d d' -> sources_apart check d c -> describe check fuel c d' = describe check fuel c d.
Proof. intros K (A & B). unfold describe, services. now rewrite (read_same check d d' _ K fuel (g_in c) A B), (K _ A). Qed.

Lemma output_not_mod c dirs stem q : stem <> "mod" -> output_file c dirs stem <> sub q "mod.rs".
Proof. intros N X. apply sub_inj in X. destruct X as (_ & X). apply N. now apply rs_inj. Qed.

(** what no later configuration writes stays as it is *)
Lemma chain_keeps render check fuel cs d l a e c dirs stem : ready check d cs -> In c cs -> plan check d c dirs stem ->
  chain render check fuel cs d l a e ->
  (forall c' dirs' stem', In c' l -> g_no_output c' = false -> plan check d c' dirs' stem' -> output_file c' dirs' stem' <> output_file c dirs stem) ->
  dk_file e (output_file c dirs stem) = dk_file a (output_file c dirs stem).
Proof.
  intros R Ic P Ch. destruct (plan_names check cs d R c dirs stem Ic P) as (_ & _ & Nm).
  induction Ch as [a|c' l a d1 d2 desc' dirs' stem' I T K D A G Ch IH]; intros H; [reflexivity|].
  rewrite IH by (intros c2 ds st X; apply H; now right).
  destruct (path_eqb_spec (output_file c' dirs' stem') (output_file c dirs stem)) as [E|N].
  - destruct (g_no_output c') eqn:No; [rewrite <- E; exact (dn_dry _ _ _ _ _ _ _ _ _ _ D No)|].
    exfalso. apply (H c' dirs' stem'); auto; [now left|exact (dn_plan _ _ _ _ _ _ _ _ _ _ D)].
  - apply A; [intros q _; now apply output_not_mod|]. intros ds st P' X.
    destruct (plan_fun _ _ _ _ _ _ _ P' (dn_plan _ _ _ _ _ _ _ _ _ _ D)) as (-> & ->). now apply N.
Qed.

(** After a successful run the output of each configuration is what the
    generator writes for its input, as it was before the run, unless a later
    configuration has the same output.  Missing: disks that are not [ready], and
    outputs of several inputs. *)
Theorem C77_content_partial : forall render check fuel l1 c l2 d d' dirs stem,
  ready check d (l1 ++ c :: l2) -> (forall c', In c' (l1 ++ c :: l2) -> sources_apart check d c') ->
  run render check fuel (l1 ++ c :: l2) d = (WOk, d') ->
  plan check d c dirs stem -> g_no_output c = false ->
  (forall c' dirs' stem', In c' l2 -> g_no_output c' = false -> plan check d c' dirs' stem' -> output_file c' dirs' stem' <> output_file c dirs stem) ->
  exists desc, describe check fuel c d = inl desc /\ snd (render c desc) = WOk /\
    dk_file d' (output_file c dirs stem) = Some (fst (render c desc)).
Proof.
  intros render check fuel l1 c l2 d d' dirs stem R Sa H P No Nx. set (cs := l1 ++ c :: l2) in *.
  destruct (run_ok render check fuel cs d R cs d WOk d' (incl_refl _) (run_tidy check cs d R) (grows_refl _ _ _) (fun p _ => eq_refl) H) as (_ & _ & _ & _ & C).
  specialize (C eq_refl). assert (Ic : In c cs) by (apply in_app_iff; right; now left).
  assert (X : forall l a, chain render check fuel cs d (l ++ c :: l2) a d' -> exists desc, describe check fuel c d = inl desc /\ snd (render c desc) = WOk /\
    dk_file d' (output_file c dirs stem) = Some (fst (render c desc))).
  { induction l as [|c0 l IH]; intros a Ch; inversion Ch as [|c' l' a' d1 d2 desc ds st I T K D A G Ch']; subst.
    - destruct (plan_fun _ _ _ _ _ _ _ P (dn_plan _ _ _ _ _ _ _ _ _ _ D)) as (<- & <-). exists desc.
      destruct (dn_wet _ _ _ _ _ _ _ _ _ _ D No) as (F & _ & Rn & _). split; [|split; [exact Rn|]].
      + rewrite <- (describe_same check fuel c d a K (Sa c Ic)). exact (dn_describe _ _ _ _ _ _ _ _ _ _ D).
      + rewrite <- F. now apply (chain_keeps render check fuel cs d l2 d1 d' c dirs stem).
    - exact (IH d1 Ch'). }
  exact (X l1 d C).
Qed.
Print Assumptions C77_content_partial.

(** ** Running again *)
Lemma emit_eq render c desc d dirs stem :
  file_package (d_package (in_desc desc)) -> Forall (fun x => x <> "") (fp_parts (g_out c)) -> placed_file (d_package (in_desc desc)) (g_out c) dirs stem ->
  is_dir d (base c) = true ->
  emit render c desc d =
  match make_dirs d (base c) dirs with
  | (WOk, d1, q) =>
    if g_no_output c then (WOk, d1)
    else match file_name (g_in c) with
         | None => (WPanic, d1)
         | Some _ =>
           let (content, ended) := render c desc in
           match create_file d1 (sub q (rs stem)) content with
           | None => (WIo, d1)
           | Some d2 => match ended with WOk => update_mod_at d2 (sub q (rs stem)) | e => (e, d2) end
           end
         end
  | (e, d1, _) => (e, d1)
  end.
Proof.
  intros Pk Np Pl Db. destruct (placed_names _ _ _ _ Pk Np Pl) as (Md & Ms & Nm). pose proof (plain_rs stem Ms) as Pr.
  assert (St : exists prefix last, split_package (d_package (in_desc desc)) = (prefix, last) /\
     (if String.eqb last "" then get_file_stem (g_out c) else Some (sanitize_keyword last)) = Some stem /\
     (if String.eqb prefix "" then dirs = [] else make_dirs d (base c) (split_on "." prefix) = make_dirs d (base c) dirs)).
  { destruct Pk as [E|Ty].
    - rewrite E in Pl |- *. exists "", "". split; [reflexivity|]. inversion Pl as [st S G|ds l S]; subst; [|now destruct dirs]. auto.
    - destruct (package_place _ Ty) as (prefix & ds & l & E & S & Fd & Ml & Pre). exists prefix, l. split; [exact E|].
      inversion Pl as [st S' G|ds' l' S']; subst; [rewrite S in S'; now destruct ds|]. rewrite S in S'. apply app_inj_tail in S'. destruct S' as (-> & ->).
      split.
      + destruct (String.eqb_spec l' "") as [X|_]; [now apply mn_ne in Ml|]. now rewrite (sanitize_keyword_one _ (mn_dot _ Ml)).
      + destruct Pre as [(-> & ->)|(Np' & Sp)]; [reflexivity|]. destruct (String.eqb_spec prefix ""); [contradiction|].
        destruct Sp as [->| ->]; [reflexivity|now apply make_dirs_dot]. }
  destruct St as (prefix & last & Es & Est & Dirs). unfold emit. rewrite Es, Est. fold (rs stem).
  rewrite (with_name c _ Pr), (file_name_sub _ _ (rs_dots stem)), pop_sub. destruct (String.eqb prefix "").
  - subst dirs. reflexivity.
  - rewrite Dirs. destruct (make_dirs d (base c) dirs) as ((r1 & d1) & q). rewrite (push_plain _ _ Pr). reflexivity.
Qed.

Section Again.
Variables (render : renderer) (check : bool) (fuel : nat) (cs : list gen_config) (d0 d' : disk).
Hypothesis Ready : ready check d0 cs.
Hypothesis Apart : forall c, In c cs -> sources_apart check d0 c.
Hypothesis Once : run render check fuel cs d0 = (WOk, d').

(** the same disk except for what outputs hold *)
Record like (e : disk) : Prop := mkLike {
  lk_dir : forall p, is_dir e p = is_dir d' p;
  lk_there : forall p, file_exists (dk_file e) p = file_exists (dk_file d') p;
  lk_file : forall p, (forall c dirs stem, In c cs -> plan check d0 c dirs stem -> p <> output_file c dirs stem) -> dk_file e p = dk_file d' p }.

Lemma like_sources e : keeps_sources d0 d' -> like e -> keeps_sources d0 e.
Proof.
  intros K L p N. rewrite (lk_file e L); [now apply K|]. intros c dirs stem _ _ ->. apply N. now exists (subs (base c) dirs), stem.
Qed.
Lemma like_mod e q : like e -> dk_file e (sub q "mod.rs") = dk_file d' (sub q "mod.rs").
Proof.
  intros L. apply (lk_file e L). intros c dirs stem I P X. destruct (plan_names check cs d0 Ready c dirs stem I P) as (_ & _ & Nm).
  now apply (output_not_mod c dirs stem q Nm).
Qed.
Lemma like_exist e : like e -> forall l p, all_exist d' p l -> all_exist e p l.
Proof.
  intros L. induction l as [|s l IH]; intros p; cbn; [auto|]. intros (E & A). split; [|now apply IH].
  unfold path_exists in *. now rewrite (lk_dir e L), (lk_there e L).
Qed.

Lemma write_again a d1 c desc dirs stem e : In c cs -> keeps_sources d0 a -> done render check fuel d0 c a d1 desc dirs stem ->
  grows (run_scope check cs d0) (run_inner check cs d0) d1 d' -> tidy (run_scope check cs d0) (run_inner check cs d0) d' ->
  keeps_sources d0 d' -> is_dir d' (base c) = true -> (g_no_output c = false -> is_dir d' (output_file c dirs stem) = false) -> like e ->
  exists e', write_proto render check fuel c e = (WOk, e') /\ like e' /\
    forall p, dk_file e' p = if negb (g_no_output c) && path_eqb (output_file c dirs stem) p then Some (fst (render c desc)) else dk_file e p.
Proof.
  intros I Ka D G T K Db Nd L. pose proof (dn_plan _ _ _ _ _ _ _ _ _ _ D) as P. destruct (run_dirs check cs d0 c dirs stem I P) as (Di & Sc).
  pose proof (like_sources e K L) as Ke.
  assert (De : describe check fuel c e = inl desc).
  { rewrite (describe_same check fuel c d0 e Ke (Apart c I)), <- (describe_same check fuel c d0 a Ka (Apart c I)). exact (dn_describe _ _ _ _ _ _ _ _ _ _ D). }
  unfold write_proto. rewrite De. destruct (describe_package _ _ _ _ _ De) as (p & C & Ep & Fp).
  assert (Pl : placed_file (d_package (in_desc desc)) (g_out c) dirs stem).
  { destruct P as (q & Cq & Pq). rewrite Ep. apply (content_same check d0 e c p Ke (rd_in _ _ _ Ready c I)) in C.
    pose proof (content_fun _ _ _ _ _ C Cq). now subst q. }
  rewrite <- Ep in Fp. destruct (rd_out _ _ _ Ready c I) as (Np & _).
  rewrite (emit_eq render c desc e dirs stem Fp Np Pl) by (now rewrite (lk_dir e L)).
  rewrite (make_dirs_there _ _ (run_inner_scope check cs d0 Ready) e dirs (base c) Di)
    by (apply (like_exist e L), (all_exist_grows _ _ _ _ G), (dn_exist _ _ _ _ _ _ _ _ _ _ D)).
  destruct (g_no_output c) eqn:No; [exists e; auto|]. cbn [negb andb].
  destruct (dn_wet _ _ _ _ _ _ _ _ _ _ D No) as (_ & Li & Rn & Fi & Dd & _). destruct (file_name (g_in c)) as [inn|]; [|contradiction].
  destruct (render c desc) as (content, ended) eqn:Er. cbn [fst snd] in *. subst ended. fold (output_file c dirs stem).
  set (D' := subs (base c) dirs) in *. change (sub D' (rs stem)) with (output_file c dirs stem).
  assert (DirD : is_dir d' D' = true) by exact (gr_dir _ _ _ _ G _ Dd).
  pose proof (Nd eq_refl) as DirF.
  unfold create_file. unfold output_file at 1. rewrite pop_sub, !(lk_dir e L). fold D'. rewrite DirD, DirF. cbn [andb negb].
  set (e1 := set_file e (output_file c dirs stem) content). destruct (placed_names _ _ _ _ Fp Np Pl) as (_ & Ms & Nm).
  assert (Mod1 : dk_file e1 (sub D' "mod.rs") = dk_file d' (sub D' "mod.rs")).
  { unfold e1. rewrite set_file_other by (now apply output_not_mod). now apply like_mod. }
  destruct (gr_list _ _ _ _ G _ _ Sc Li) as (ns & Fn & Hn & In1). fold D' in Fn.
  destruct (update_ok e1 D' (rs stem) stem (plain_rs stem Ms) Ms (stem_rs D' stem Ms)) as (ns' & U & Hn' & _ & Old).
  - unfold e1. rewrite is_dir_set. now rewrite (lk_dir e L).
  - unfold e1. rewrite is_dir_set, (lk_dir e L). exact (t_nodir _ _ _ T D' Sc).
  - intros s Hs. rewrite Mod1 in Hs. exact (t_mod _ _ _ T D' s Sc Hs).
  - rewrite Mod1 in Old. destruct (Old ns Fn Hn) as [(_ & ->)|(X & _)]; [|contradiction].
    unfold output_file. fold D'. fold (rs stem). rewrite U. eexists. split; [reflexivity|].
    assert (Fe : forall p0, dk_file (set_file e1 (sub D' "mod.rs") (generated ns)) p0 =
       if path_eqb (output_file c dirs stem) p0 then Some content else dk_file e p0).
    { intros p0. destruct (path_eqb_spec (sub D' "mod.rs") p0) as [<-|N].
      - rewrite set_file_same. destruct (path_eqb_spec (output_file c dirs stem) (sub D' "mod.rs")) as [X|_]; [exfalso; now apply (output_not_mod c dirs stem D' Nm)|].
        rewrite (like_mod e D' L). now rewrite Fn.
      - rewrite set_file_other by exact N. reflexivity. }
    split; [|exact Fe]. constructor.
    + intros p0. rewrite is_dir_set. unfold e1. rewrite is_dir_set. apply (lk_dir e L).
    + intros p0. unfold file_exists at 1. rewrite Fe. destruct (path_eqb_spec (output_file c dirs stem) p0) as [<-|N].
      * pose proof (gr_file _ _ _ _ G (output_file c dirs stem)) as X. destruct (dn_wet _ _ _ _ _ _ _ _ _ _ D No) as (Fw & _).
        unfold file_exists at 1 in X. rewrite Fw in X. now rewrite (X eq_refl).
      * exact (lk_there e L p0).
    + intros p0 Hp. rewrite Fe. destruct (path_eqb_spec (output_file c dirs stem) p0) as [<-|N]; [exfalso; now apply (Hp c dirs stem)|]. now apply (lk_file e L).
Qed.
End Again.

(** The generator is idempotent: after a successful run, running it again on the
    result succeeds and changes nothing.  Missing: disks that are not [ready]. *)
Theorem C77_idempotent_partial : forall render check fuel cs d d',
  ready check d cs -> (forall c, In c cs -> sources_apart check d c) ->
  run render check fuel cs d = (WOk, d') ->
  exists d'', run render check fuel cs d' = (WOk, d'') /\
    (forall p, dk_file d'' p = dk_file d' p) /\ (forall p, is_dir d'' p = is_dir d' p).
Proof.
  intros render check fuel cs d d' R Sa H.
  destruct (run_ok render check fuel cs d R cs d WOk d' (incl_refl _) (run_tidy check cs d R) (grows_refl _ _ _) (fun p _ => eq_refl) H) as (T & G & K & _ & C).
  specialize (C eq_refl).
  assert (Nd : forall c desc a d1 dirs stem, In c cs -> done render check fuel d c a d1 desc dirs stem -> grows (run_scope check cs d) (run_inner check cs d) d1 d' ->
     g_no_output c = false -> is_dir d' (output_file c dirs stem) = false).
  { intros c desc a d1 dirs stem I D G1 No. destruct (dn_wet _ _ _ _ _ _ _ _ _ _ D No) as (_ & _ & _ & _ & _ & F).
    destruct (is_dir d' (output_file c dirs stem)) eqn:X; [|reflexivity]. exfalso. destruct (gr_new _ _ _ _ G1 _ X) as [Y|(q & x & Y & E)]; [congruence|].
    apply sub_inj in E. destruct E as (_ & E). destruct (run_inner_scope check cs d R q x Y) as (_ & M). symmetry in E. now apply (modname_not_rs x stem M). }
  assert (X : forall l a e, incl l cs -> chain render check fuel cs d l a d' -> like check cs d d' e ->
     exists e', run render check fuel l e = (WOk, e') /\ like check cs d d' e' /\
       forall p, (exists c dirs stem, In c l /\ g_no_output c = false /\ plan check d c dirs stem /\ p = output_file c dirs stem) \/ dk_file e p = dk_file d' p ->
         dk_file e' p = dk_file d' p).
  { clear H C. induction l as [|c l IH]; intros a e Il Ch L; inversion Ch as [z|c0 l0 a0 d1 d2 desc dirs stem I Ta Ka D A G1 Ch']; subst.
    - exists e. split; [reflexivity|]. split; [exact L|]. intros p [(c & ds & st & [] & _)|E]. exact E.
    - rename Ch into Ch0. rename Ch' into Ch. assert (Il' : incl l cs) by (intros y Y; apply Il; now right). pose proof (chain_grows _ _ _ _ _ _ _ _ Ch) as G2.
      assert (Db : is_dir d' (base c) = true) by (apply (gr_dir _ _ _ _ G), (rd_out _ _ _ R c I)).
      assert (We : exists e1, write_proto render check fuel c e = (WOk, e1) /\ like check cs d d' e1 /\
         forall p, dk_file e1 p = if negb (g_no_output c) && path_eqb (output_file c dirs stem) p then Some (fst (render c desc)) else dk_file e p).
      { apply (write_again render check fuel cs d d' R Sa a d1 c desc dirs stem e I Ka D G2 T K Db); [|exact L].
        exact (Nd c desc a d1 dirs stem I D G2). }
      destruct We as (e1 & W & L1 & F1). destruct (IH d1 e1 Il' Ch L1) as (e' & Rn & L' & F'). exists e'. cbn [run]. rewrite W. split; [exact Rn|]. split; [exact L'|].
      intros p Hp. assert (Dec : {dk_file e' p = dk_file d' p} + {dk_file e' p <> dk_file d' p}) by (decide equality; apply String.string_dec).
      destruct Dec as [E|N]; [exact E|]. exfalso.
      assert (Nl : ~ exists c dirs stem, In c l /\ g_no_output c = false /\ plan check d c dirs stem /\ p = output_file c dirs stem) by (intros Y; apply N, F'; now left).
      assert (N1 : dk_file e1 p <> dk_file d' p) by (intros Y; apply N, F'; now right). apply N1. rewrite F1.
      assert (Own : g_no_output c = false -> Some (fst (render c desc)) = dk_file d' (output_file c dirs stem) \/ p <> output_file c dirs stem).
      { intros No. destruct (path_eqb_spec p (output_file c dirs stem)) as [->|Ne]; [left|now right].
        rewrite (chain_keeps render check fuel cs d l d1 d' c dirs stem R I (dn_plan _ _ _ _ _ _ _ _ _ _ D) Ch).
        - symmetry. exact (proj1 (dn_wet _ _ _ _ _ _ _ _ _ _ D No)).
        - intros c' ds st I' No' P' E'. apply Nl. exists c', ds, st. auto. }
      destruct (g_no_output c) eqn:No; cbn [negb andb].
      + destruct Hp as [(c' & ds & st & [<-|I'] & No' & P' & E')|E]; [congruence|exfalso; apply Nl; exists c', ds, st; auto|exact E].
      + destruct (path_eqb_spec (output_file c dirs stem) p) as [<-|Ne].
        * destruct (Own eq_refl) as [E|E]; [exact E|contradiction].
        * destruct Hp as [(c' & ds & st & [<-|I'] & No' & P' & E')|E]; [|exfalso; apply Nl; exists c', ds, st; auto|exact E].
          destruct (plan_fun _ _ _ _ _ _ _ P' (dn_plan _ _ _ _ _ _ _ _ _ _ D)) as (-> & ->). congruence. }
  destruct (X cs d d' (incl_refl _) C) as (d'' & Rn & L & F); [constructor; auto|]. exists d''. split; [exact Rn|]. split; [|exact (lk_dir _ _ _ _ _ L)].
  intros p. apply F. now right.
Qed.
Print Assumptions C77_idempotent_partial.

(** ** Two files for one module *)

(** rustc refuses a module with two files (E0761) *)
Definition ambiguous (d : disk) (p : fpath) (x : text) : Prop :=
  dk_file d (sub p (x ++ ".rs")%string) <> None /\ dk_file d (sub (sub p x) "mod.rs") <> None.

(** A module gets two files only if a package is a module of another package, or
    such a file was there before.  Missing: that packages are not nested like
    this. *)
Theorem C77_unambiguous_partial : forall render check fuel cs d r d',
  ready check d cs -> run render check fuel cs d = (r, d') ->
  (forall c1 dirs1 stem1 c2 dirs2 stem2 l l', In c1 cs -> In c2 cs -> plan check d c1 dirs1 stem1 -> plan check d c2 dirs2 stem2 ->
     dirs2 = l ++ l' -> sub (subs (base c1) dirs1) stem1 <> subs (base c2) l) ->
  (forall c dirs stem, In c cs -> plan check d c dirs stem -> dk_file d (sub (sub (subs (base c) dirs) stem) "mod.rs") = None) ->
  (forall c dirs stem l l' p x, In c cs -> plan check d c dirs stem -> dirs = l ++ l' -> subs (base c) l = sub p x ->
     dk_file d (sub p (x ++ ".rs")%string) = None) ->
  forall p x, x <> "mod" -> ambiguous d' p x -> ambiguous d p x.
Proof.
  intros render check fuel cs d r d' R H N1 N2 N3 p x Nx (A & B).
  destruct (C77_frame_partial render check fuel cs d r d' R H) as (F & _).
  assert (Dec : forall a b : option text, {a = b} + {a <> b}) by (decide equality; apply String.string_dec).
  destruct (Dec (dk_file d' (sub p (x ++ ".rs")%string)) (dk_file d (sub p (x ++ ".rs")%string))) as [Ea|Ea];
    destruct (Dec (dk_file d' (sub (sub p x) "mod.rs")) (dk_file d (sub (sub p x) "mod.rs"))) as [Eb|Eb].
  - split; congruence.
  - exfalso. destruct (F _ Eb) as (_ & c & dirs & stem & I & P & [E|(l & l' & E & E')]).
    + destruct (plan_names check cs d R c dirs stem I P) as (_ & _ & Nm). symmetry in E. now apply (output_not_mod c dirs stem _ Nm) in E.
    + apply sub_inj in E'. destruct E' as (E' & _). apply A. rewrite Ea. now apply (N3 c dirs stem l l').
  - exfalso. destruct (F _ Ea) as (_ & c & dirs & stem & I & P & [E|(l & l' & E & E')]).
    + apply sub_inj in E. destruct E as (-> & E). apply rs_inj in E. subst x. apply B. rewrite Eb. now apply N2.
    + apply sub_inj in E'. destruct E' as (-> & E'). apply (rs_inj x "mod") in E'. contradiction.
  - exfalso. destruct (F _ Ea) as (_ & c1 & dirs1 & stem1 & I1 & P1 & K1). destruct (F _ Eb) as (_ & c2 & dirs2 & stem2 & I2 & P2 & K2).
    destruct K2 as [E2|(l & l' & E2 & E2')].
    + destruct (plan_names check cs d R c2 dirs2 stem2 I2 P2) as (_ & _ & Nm). symmetry in E2. now apply (output_not_mod c2 dirs2 stem2 _ Nm) in E2.
    + apply sub_inj in E2'. destruct E2' as (E2' & _). destruct K1 as [E1|(l1 & l1' & E1 & E1')].
      * apply sub_inj in E1. destruct E1 as (-> & E1). apply rs_inj in E1. subst x. now apply (N1 c1 dirs1 stem1 c2 dirs2 stem2 l l').
      * apply sub_inj in E1'. destruct E1' as (_ & E1'). apply (rs_inj x "mod") in E1'. contradiction.
Qed.
Print Assumptions C77_unambiguous_partial.

(** ** Small disks *)
Definition small_disk (dirs : list text) (files : list (text * text)) : disk :=
  mkDisk (fun p => existsb (fun s => path_eqb (path_of s) p) dirs)
         (fun p => option_map snd (find (fun x => path_eqb (path_of (fst x)) p) files)).
Definition closed_ok (dirs : list text) (files : list (text * text)) : bool :=
  forallb (fun s => match parent (path_of s) with Some q => is_dir (small_disk dirs files) q | None => true end) (dirs ++ map fst files).
Lemma small_closed dirs files : closed_ok dirs files = true -> closed (small_disk dirs files).
Proof.
  intros H p s E. unfold closed_ok in H. rewrite forallb_forall in H.
  assert (X : exists t, In t (dirs ++ map fst files) /\ path_of t = sub p s).
  { unfold path_exists in E. apply Bool.orb_true_iff in E. destruct E as [E|E].
    - rewrite is_dir_sub in E. cbn in E. apply existsb_exists in E. destruct E as (t & I & E). exists t. split; [apply in_app_iff; now left|].
      now destruct (path_eqb_spec (path_of t) (sub p s)).
    - unfold file_exists in E. cbn in E. destruct (find _ files) as [x|] eqn:F; [|discriminate]. apply find_some in F. destruct F as (I & F).
      exists (fst x). split; [apply in_app_iff; right; now apply in_map|]. now destruct (path_eqb_spec (path_of (fst x)) (sub p s)). }
  destruct X as (t & I & E'). specialize (H t I). rewrite E' in H. unfold parent in H. destruct (sub_parts p s) as (y & l & Ep). rewrite Ep in H.
  pose proof (pop_sub p s) as Ps. unfold pop, parent in Ps. rewrite Ep in Ps. now rewrite Ps in H.
Qed.
Definition ends_ok (p : fpath) : bool :=
  let n := last (fp_parts p) "" in String.eqb (String.substring (String.length n - 3) 3 n) ".rs".
Lemma ends_ok_rs p : ends_ok p = false -> ~ ends_rs p.
Proof.
  intros H (q & s & ->). unfold ends_ok in H. rewrite last_sub in H. unfold rs in H. rewrite length_append in H.
  replace (String.length s + String.length ".rs" - 3)%nat with (String.length s + 0)%nat in H by (cbn; lia).
  assert (E : String.substring (String.length s + 0) 3 (s ++ ".rs") = ".rs").
  { clear. induction s as [|a s IH]; [reflexivity|exact IH]. }
  rewrite E in H. discriminate.
Qed.
(** the plan, computed *)
Definition plan_of (check : bool) (d : disk) (c : gen_config) : option (list text * text) :=
  match dk_file d (g_in c) with
  | None => None
  | Some s =>
    match p_file check s with
    | POk rest p =>
      if String.eqb (trim rest) ""
      then match rev (segments (counts c p)) with
           | [] => option_map (fun s => ([], s)) (get_file_stem (g_out c))
           | x :: l => Some (rev l, sanitize_segment x)
           end
      else None
    | _ => None
    end
  end.
Lemma plan_of_ok check d c dirs stem : plan_of check d c = Some (dirs, stem) -> plan check d c dirs stem.
Proof.
  unfold plan_of. destruct (dk_file d (g_in c)) as [s|] eqn:Es; [|discriminate]. destruct (p_file check s) as [rest p| | |] eqn:Ep; try discriminate.
  destruct (String.eqb_spec (trim rest) "") as [Et|]; [|discriminate]. intros H. exists p. split; [now exists s, rest|].
  destruct (rev (segments (counts c p))) as [|x l] eqn:R.
  - destruct (get_file_stem (g_out c)) eqn:G; [|discriminate]. injection H as <- <-. constructor; [|exact G]. now rewrite <- (rev_involutive (segments _)), R.
  - injection H as <- <-. constructor. rewrite <- (rev_involutive (segments _)), R. reflexivity.
Qed.
Definition ready_ok (check : bool) (dirs : list text) (files : list (text * text)) (cs : list gen_config) : bool :=
  let d := small_disk dirs files in
  closed_ok dirs files &&
  forallb (fun c => negb (ends_ok (g_in c)) && forallb (fun x => negb (String.eqb x "")) (fp_parts (g_out c)) && is_dir d (base c) &&
    match plan_of check d c with
    | None => false
    | Some (ds, _) =>
      forallb (fun n => negb (path_exists d (sub (subs (base c) (firstn n ds)) "mod.rs"))) (seq 0 (S (List.length ds))) &&
      forallb (fun n => negb (path_exists d (subs (base c) (firstn n ds)))) (seq 1 (List.length ds))
    end) cs.
Lemma small_ready check dirs files cs : ready_ok check dirs files cs = true -> ready check (small_disk dirs files) cs.
Proof.
  intros H. unfold ready_ok in H. apply Bool.andb_true_iff in H. destruct H as (H1 & H2). rewrite forallb_forall in H2. set (d := small_disk dirs files) in *.
  assert (X : forall c, In c cs -> ~ ends_rs (g_in c) /\ Forall (fun x => x <> "") (fp_parts (g_out c)) /\ is_dir d (base c) = true /\
    exists ds st, plan check d c ds st /\ (forall l l', ds = l ++ l' -> path_exists d (sub (subs (base c) l) "mod.rs") = false) /\
      (forall l x l', ds = l ++ x :: l' -> path_exists d (sub (subs (base c) l) x) = false)).
  { intros c I. specialize (H2 c I). rewrite !Bool.andb_true_iff in H2. destruct H2 as (((A & B) & C) & D). split; [|split; [|split; [exact C|]]].
    - apply ends_ok_rs. now apply Bool.negb_true_iff.
    - apply Forall_forall. rewrite forallb_forall in B. intros x Ix. specialize (B x Ix). destruct (String.eqb_spec x ""); [discriminate|assumption].
    - destruct (plan_of check d c) as [(ds & st)|] eqn:P; [|discriminate]. exists ds, st. split; [now apply plan_of_ok|].
      apply Bool.andb_true_iff in D. destruct D as (D1 & D2). rewrite forallb_forall in D1, D2. split.
      + intros l l' ->. specialize (D1 (List.length l)). rewrite in_seq, app_length, firstn_app, Nat.sub_diag, firstn_all in D1. cbn [firstn] in D1.
        rewrite app_nil_r in D1. apply Bool.negb_true_iff, D1. lia.
      + intros l x l' ->. specialize (D2 (List.length (l ++ [x]))). change (x :: l') with ([x] ++ l') in D2. rewrite app_assoc in D2.
        rewrite in_seq, (app_length (l ++ [x])), firstn_app, Nat.sub_diag, firstn_all in D2. cbn [firstn] in D2. rewrite app_nil_r, subs_snoc in D2.
        apply Bool.negb_true_iff, D2. rewrite app_length. cbn. lia. }
  constructor.
  - now apply small_closed.
  - intros c I. now destruct (X c I).
  - intros c I. now destruct (X c I) as (_ & A & B & _).
  - intros c ds st l l' I P E. destruct (X c I) as (_ & _ & _ & ds' & st' & P' & A & _). destruct (plan_fun _ _ _ _ _ _ _ P P') as (-> & ->).
    specialize (A l l' E). unfold path_exists in A. apply Bool.orb_false_iff in A. destruct A as (A1 & A2). split; [exact A1|].
    intros s Hs. unfold file_exists in A2. now rewrite Hs in A2.
  - intros c ds st l x l' I P E Y. destruct (X c I) as (_ & _ & _ & ds' & st' & P' & _ & B). destruct (plan_fun _ _ _ _ _ _ _ P P') as (-> & ->).
    rewrite (B l x l' E) in Y. discriminate.
Qed.
Definition no_imports (check : bool) (d : disk) (c : gen_config) : bool :=
  match dk_file d (g_in c) with
  | None => false
  | Some s => match p_file check s with POk _ p => match p_imports p with [] => true | _ => false end | _ => false end
  end.
Lemma small_apart check d c : ends_ok (g_in c) = false -> no_imports check d c = true -> sources_apart check d c.
Proof.
  intros E N. split; [now apply ends_ok_rs|].
  assert (Z : forall p i, content check (dk_file d) (g_in c) p -> ~ In i (p_imports p)).
  { intros p i (s & rest & A & B & _). unfold no_imports in N. rewrite A, B in N. destruct (p_imports p); [intros []|discriminate]. }
  intros g p i dir h Rt C I. exfalso. assert (G : g = g_in c).
  { apply clos_rt_rt1n in Rt. inversion Rt as [|y z (q & j & Cq & Iq & _) _]; [reflexivity|]. now apply (Z q j) in Cq. }
  subst g. now apply (Z p i).
Qed.

(** the messages of the file, as a stand-in for the generated code *)
Definition names_of : renderer := fun _ desc => (String.concat " " (map m_name (d_messages (in_desc desc))), WOk).
Definition to_dir (file out : text) (dry : bool) : gen_config :=
  mkGenConfig (path_of file) (path_of out) [path_of "."] dry true (mkConfig false false false false) [] None false false false false false.
Definition two (p1 p2 : text) : disk :=
  small_disk ["out"] [("m.proto", (p1 ++ " message M { }")%string); ("n.proto", (p2 ++ " message N { }")%string)].
Definition two_configs : list gen_config := [to_dir "m.proto" "out/m.rs" false; to_dir "n.proto" "out/n.rs" false].

Example C77_case : forall check, exists d',
  ready check (two "package a.b;" "package a.c;") two_configs /\
  (forall c, In c two_configs -> sources_apart check (two "package a.b;" "package a.c;") c) /\
  run names_of check 2 two_configs (two "package a.b;" "package a.c;") = (WOk, d') /\
  plan check (two "package a.b;" "package a.c;") (to_dir "m.proto" "out/m.rs" false) ["a"] "b" /\
  leads_to d' (path_of "out") ["a"; "b"] (path_of "out/a/b.rs") /\ dk_file d' (path_of "out/a/b.rs") = Some "M" /\
  leads_to d' (path_of "out") ["a"; "c"] (path_of "out/a/c.rs") /\ dk_file d' (path_of "out/a/c.rs") = Some "N".
Proof.
  intros check. set (d := two "package a.b;" "package a.c;").
  assert (R : ready check d two_configs) by (apply small_ready; destruct check; vm_compute; reflexivity).
  assert (Rn : exists d', run names_of check 2 two_configs d = (WOk, d')) by (destruct check; eexists; vm_compute; reflexivity).
  destruct Rn as (d' & Rn). exists d'. split; [exact R|]. split.
  { intros c [<-|[<-|[]]]; apply small_apart; destruct check; vm_compute; reflexivity. }
  split; [exact Rn|].
  assert (P1 : plan check d (to_dir "m.proto" "out/m.rs" false) ["a"] "b") by (apply plan_of_ok; destruct check; vm_compute; reflexivity).
  assert (P2 : plan check d (to_dir "n.proto" "out/n.rs" false) ["a"] "c") by (apply plan_of_ok; destruct check; vm_compute; reflexivity).
  split; [exact P1|].
  assert (L : forall c ds st, In c two_configs -> plan check d c ds st -> g_no_output c = false -> leads_to d' (base c) (ds ++ [st]) (output_file c ds st)).
  { intros c ds st I P No. destruct (C77_reachable_partial names_of check 2 two_configs d d' R Rn c I) as (ds' & st' & P' & L).
    destruct (plan_fun _ _ _ _ _ _ _ P P') as (-> & ->). now apply L. }
  split; [exact (L (to_dir "m.proto" "out/m.rs" false) ["a"] "b" (or_introl eq_refl) P1 eq_refl)|]. split.
  { assert (E : option_map (fun x => dk_file (snd x) (path_of "out/a/b.rs")) (Some (run names_of check 2 two_configs d)) = Some (Some "M")) by (destruct check; vm_compute; reflexivity).
    rewrite Rn in E. cbn in E. congruence. }
  split; [exact (L (to_dir "n.proto" "out/n.rs" false) ["a"] "c" (or_intror (or_introl eq_refl)) P2 eq_refl)|].
  assert (E : option_map (fun x => dk_file (snd x) (path_of "out/a/c.rs")) (Some (run names_of check 2 two_configs d)) = Some (Some "N")) by (destruct check; vm_compute; reflexivity).
  rewrite Rn in E. cbn in E. congruence.
Qed.

(** Two inputs in the same package have the same output: a successful run loses
    the code of the first one. *)
Theorem C77_overwritten_refuted : forall check, exists d d' c1 c2 desc,
  ready check d [c1; c2] /\ sources_apart check d c1 /\ sources_apart check d c2 /\
  run names_of check 2 [c1; c2] d = (WOk, d') /\ g_in c1 <> g_in c2 /\ g_out c1 <> g_out c2 /\
  describe check 2 c1 d = inl desc /\ fst (names_of c1 desc) = "M" /\
  plan check d c1 [] "a" /\ plan check d c2 [] "a" /\ dk_file d' (output_file c1 [] "a") = Some "N" /\
  forall p, dk_file d' p <> Some "M".
Proof.
  intros check. exists (two "package a;" "package a;").
  assert (X : exists d', run names_of check 2 two_configs (two "package a;" "package a;") = (WOk, d') /\
     dk_file d' (path_of "out/a.rs") = Some "N" /\ forall p, dk_file d' p <> Some "M").
  { destruct check; (eexists; split; [vm_compute; reflexivity|]; split; [vm_compute; reflexivity|]); intros p;
      cbn -[path_eqb two]; repeat (match goal with |- context [if ?b then _ else _] => destruct b end; try discriminate);
      unfold two; cbn -[path_eqb path_of]; repeat (match goal with |- context [if ?b then _ else _] => destruct b end; cbn; try discriminate). }
  destruct X as (d' & X1 & X2 & X3). exists d', (to_dir "m.proto" "out/m.rs" false), (to_dir "n.proto" "out/n.rs" false).
  eexists. split; [apply small_ready; destruct check; vm_compute; reflexivity|].
  split; [apply small_apart; destruct check; vm_compute; reflexivity|]. split; [apply small_apart; destruct check; vm_compute; reflexivity|].
  split; [exact X1|]. split; [discriminate|]. split; [discriminate|]. split; [destruct check; vm_compute; reflexivity|]. split; [vm_compute; reflexivity|].
  split; [apply plan_of_ok; destruct check; vm_compute; reflexivity|]. split; [apply plan_of_ok; destruct check; vm_compute; reflexivity|].
  split; [exact X2|exact X3].
Qed.
Print Assumptions C77_overwritten_refuted.

(** A package and a package inside it: the module of the outer one gets two
    files. *)
Theorem C77_unambiguous_refuted : forall check, exists d d',
  ready check d two_configs /\ run names_of check 2 two_configs d = (WOk, d') /\
  (forall p x, ~ ambiguous d p x) /\ ambiguous d' (path_of "out") "a".
Proof.
  intros check. exists (two "package a;" "package a.b;").
  assert (X : exists d', run names_of check 2 two_configs (two "package a;" "package a.b;") = (WOk, d') /\ ambiguous d' (path_of "out") "a").
  { destruct check; (eexists; split; [vm_compute; reflexivity|]); split; vm_compute; discriminate. }
  destruct X as (d' & X1 & X2). exists d'. split; [apply small_ready; destruct check; vm_compute; reflexivity|]. split; [exact X1|]. split; [|exact X2].
  intros p x (A & _). apply A. unfold two, small_disk. cbn [dk_file find fst].
  destruct (path_eqb_spec (path_of "m.proto") (sub p (x ++ ".rs")%string)) as [E|_].
  - exfalso. apply (ends_ok_rs (path_of "m.proto") eq_refl). now exists p, x.
  - destruct (path_eqb_spec (path_of "n.proto") (sub p (x ++ ".rs")%string)) as [E|_]; [|reflexivity].
    exfalso. apply (ends_ok_rs (path_of "n.proto") eq_refl). now exists p, x.
Qed.
Print Assumptions C77_unambiguous_refuted.

(** A directory of a package that is already there is not declared: the run
    succeeds, but nothing leads to its output. *)
Theorem C77_reachable_refuted : forall check, exists d d' c,
  closed d /\ run names_of check 2 [c] d = (WOk, d') /\ plan check d c ["a"] "b" /\
  dk_file d' (output_file c ["a"] "b") = Some "M" /\ forall f, ~ leads_to d' (base c) ["a"; "b"] f.
Proof.
  intros check. exists (small_disk ["out"; "out/a"] [("m.proto", "package a.b; message M { }")]).
  assert (X : exists d', run names_of check 2 [to_dir "m.proto" "out/m.rs" false] (small_disk ["out"; "out/a"] [("m.proto", "package a.b; message M { }")]) = (WOk, d') /\
     dk_file d' (path_of "out/a/b.rs") = Some "M" /\ dk_file d' (path_of "out/mod.rs") = None).
  { destruct check; (eexists; split; [vm_compute; reflexivity|]); split; vm_compute; reflexivity. }
  destruct X as (d' & X1 & X2 & X3). exists d', (to_dir "m.proto" "out/m.rs" false). split; [apply small_closed; vm_compute; reflexivity|].
  split; [exact X1|]. split; [apply plan_of_ok; destruct check; vm_compute; reflexivity|]. split; [exact X2|].
  intros f L. inversion L as [|p x l f' (s & D & _) _ _]; subst. change (sub (base _) "mod.rs") with (path_of "out/mod.rs") in D. congruence.
Qed.
Print Assumptions C77_reachable_refuted.

(** The directories of a package are not escaped: a keyword becomes the name of
    a module. *)
Theorem C77_keyword_refuted : forall check, exists d d' c,
  ready check d [c] /\ run names_of check 2 [c] d = (WOk, d') /\ declares_module d' (base c) "type" /\ In "type" rust_keywords.
Proof.
  intros check. exists (small_disk ["out"] [("m.proto", "package type.b; message M { }")]).
  assert (R : ready check (small_disk ["out"] [("m.proto", "package type.b; message M { }")]) [to_dir "m.proto" "out/m.rs" false])
    by (apply small_ready; destruct check; vm_compute; reflexivity).
  assert (X : exists d', run names_of check 2 [to_dir "m.proto" "out/m.rs" false] (small_disk ["out"] [("m.proto", "package type.b; message M { }")]) = (WOk, d')).
  { destruct check; eexists; vm_compute; reflexivity. }
  destruct X as (d' & X). exists d', (to_dir "m.proto" "out/m.rs" false). split; [exact R|]. split; [exact X|]. split; [|apply is_keyword_In; reflexivity].
  destruct (C77_reachable_partial names_of check 2 _ _ d' R X _ (or_introl eq_refl)) as (ds & st & P & L).
  assert (P' : plan check (small_disk ["out"] [("m.proto", "package type.b; message M { }")]) (to_dir "m.proto" "out/m.rs" false) ["type"] "b")
    by (apply plan_of_ok; destruct check; vm_compute; reflexivity).
  destruct (plan_fun _ _ _ _ _ _ _ P P') as (-> & ->). specialize (L eq_refl). inversion L; subst. assumption.
Qed.
Print Assumptions C77_keyword_refuted.

(** With no_output, for a file without a package or with directories that are
    there, nothing changes.  Missing: directories of a package that are not there. *)
Theorem C77_dry_run_partial : forall render check fuel cs d r d',
  ready check d cs -> (forall c, In c cs -> g_no_output c = true) ->
  (forall c dirs stem l x l', In c cs -> plan check d c dirs stem -> dirs = l ++ x :: l' -> path_exists d (sub (subs (base c) l) x) = true) ->
  run render check fuel cs d = (r, d') -> d' = d.
Proof.
  intros render check fuel cs d r d' R Dry There H.
  assert (X : forall l, incl l cs -> run render check fuel l d = (r, d') -> d' = d).
  { clear H. induction l as [|c l IH]; intros I H; cbn [run] in H; [now injection H|].
    assert (Ic : In c cs) by (apply I; now left). assert (W : snd (write_proto render check fuel c d) = d).
    { unfold write_proto. destruct (describe check fuel c d) as [desc|e] eqn:D; [|reflexivity].
      destruct (describe_package _ _ _ _ _ D) as (p & C & Ep & Fp). destruct (rd_out _ _ _ R c Ic) as (Np & Db).
      assert (Pl : get_file_stem (g_out c) = None /\ counts c p = "" \/ exists dirs stem, placed_file (counts c p) (g_out c) dirs stem).
      { destruct Fp as [E|Ty].
        - destruct (get_file_stem (g_out c)) as [st|] eqn:G; [|now left]. right. exists [], st. rewrite E. now constructor.
        - right. destruct (package_place _ Ty) as (prefix & ds & z & _ & S & _). exists ds, (sanitize_segment z). now constructor. }
      destruct Pl as [(G & E)|(dirs & stem & Pl)].
      - unfold emit. rewrite Ep, E. cbn [split_package String.eqb]. now rewrite G.
      - assert (P : plan check d c dirs stem) by (now exists p). rewrite <- Ep in Pl, Fp. rewrite (emit_eq render c desc d dirs stem Fp Np Pl Db).
        destruct (run_dirs check cs d c dirs stem Ic P) as (Di & _). rewrite (make_dirs_there _ _ (run_inner_scope check cs d R) d dirs (base c) Di).
        + now rewrite (Dry c Ic).
        + assert (Y : forall l2 l1, dirs = l1 ++ l2 -> all_exist d (subs (base c) l1) l2).
          { induction l2 as [|x l2 IH2]; intros l1 E; [exact Logic.I|]. cbn. split; [exact (There c dirs stem l1 x l2 Ic P E)|].
            rewrite <- subs_snoc. apply IH2. now rewrite <- app_assoc. }
          rewrite <- (subs_nil (base c)). now apply (Y dirs []). }
    destruct (write_proto render check fuel c d) as (r1, d1). cbn [snd] in W. subst d1.
    destruct r1; try (now injection H). apply IH; [|exact H]. intros y Iy. apply I. now right. }
  exact (X cs (incl_refl _) H).
Qed.
Print Assumptions C77_dry_run_partial.

(** Otherwise it writes to the disk though no code is generated. *)
Theorem C77_dry_run_refuted : forall check, exists d d' c,
  ready check d [c] /\ g_no_output c = true /\ run names_of check 2 [c] d = (WOk, d') /\
  dk_file d (path_of "out/mod.rs") = None /\ is_dir d (path_of "out/a") = false /\
  dk_file d' (path_of "out/mod.rs") <> None /\ is_dir d' (path_of "out/a") = true.
Proof.
  intros check. exists (small_disk ["out"] [("m.proto", "package a.b; message M { }")]).
  assert (X : exists d', run names_of check 2 [to_dir "m.proto" "out/m.rs" true] (small_disk ["out"] [("m.proto", "package a.b; message M { }")]) = (WOk, d') /\
     dk_file d' (path_of "out/mod.rs") <> None /\ is_dir d' (path_of "out/a") = true).
  { destruct check; (eexists; split; [vm_compute; reflexivity|]); split; vm_compute; congruence. }
  destruct X as (d' & X1 & X2 & X3). exists d', (to_dir "m.proto" "out/m.rs" true). split; [apply small_ready; destruct check; vm_compute; reflexivity|].
  split; [reflexivity|]. split; [exact X1|]. split; [reflexivity|]. split; [reflexivity|]. split; [exact X2|exact X3].
Qed.
Print Assumptions C77_dry_run_refuted.
