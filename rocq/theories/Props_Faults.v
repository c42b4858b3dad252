(** C96: what a run of pb-rs leaves behind, and which exit code it has, when
    writing the output file fails. *)
From Coq Require Import String Ascii Arith ZArith Lia Bool Relations.
From Verif Require Import Props_EndToEnd Props_Safety Props_Paths Props_Passes Props_Accepted Props_Generated Props_Defaults Props_TypeCheck Props_Literals Props_Text.
From Verif Require Import Base Schema Keywords Modules Passes Pipeline Parser Import Output OutputFacts Props_Output Props_Config Props_Meaning Props_Run Props_Success Props_Total BufOut.
Import Schema StringSyntax.
Local Open Scope string_scope.
Local Open Scope list_scope.
Local Open Scope nat_scope.

(** main.rs:172-187 [main]: the exit code; a panic has its own.  [None] is the
    fuel of the model. *)
Definition exit_code (r : wres + build_error) : option Z :=
  match r with
  | inl WOk => Some 0%Z
  | inl WPanic => Some 101%Z
  | inl WFuel => None
  | _ => Some 1%Z
  end.

(** types.rs:2653-2655 when [write] may fail: [os c] is the system while the
    output of [c] is written, [pieces c x] the arguments of [write_all].  The last
    flush comes after [update_mod_file]; that makes no difference, because no
    output is named mod.rs.  The one or two lines that update_mod_file itself
    writes go to the File directly and their errors are reported; they are taken
    to succeed here. *)
Definition on_system (os : gen_config -> system) (pieces : gen_config -> input -> list (list ascii)) (render : renderer) : renderer :=
  fun c x => let (ok, file) := write_output (os c) (pieces c x) in
             (string_of_list_ascii file, if ok then snd (render c x) else WIo).
(** the pieces are the text *)
Definition cut_up (pieces : gen_config -> input -> list (list ascii)) (render : renderer) : Prop :=
  forall c x, concat (pieces c x) = list_ascii_of_string (fst (render c x)).

Lemma string_app a b : string_of_list_ascii (a ++ b) = (string_of_list_ascii a ++ string_of_list_ascii b)%string.
Proof. induction a as [|x a IH]; [reflexivity|]. cbn. now rewrite IH. Qed.
Lemma string_length a : String.length (string_of_list_ascii a) = List.length a.
Proof. induction a as [|x a IH]; [reflexivity|]. cbn. now rewrite IH. Qed.
Lemma list_length s : List.length (list_ascii_of_string s) = String.length s.
Proof. induction s as [|a s IH]; [reflexivity|]. cbn. now rewrite IH. Qed.

Lemma run_same r1 r2 check fuel : (forall c x, r1 c x = r2 c x) -> forall cs d, Output.run r1 check fuel cs d = Output.run r2 check fuel cs d.
Proof.
  intros E. induction cs as [|c cs IH]; intros d; [reflexivity|]. cbn [Output.run].
  assert (W : write_proto r1 check fuel c d = write_proto r2 check fuel c d).
  { unfold write_proto. destruct (describe check fuel c d) as [x|]; [|reflexivity]. unfold emit. now rewrite E. }
  rewrite W. destruct (write_proto r2 check fuel c d) as [[] d1]; try reflexivity. apply IH.
Qed.

(** ** C96 *)

(** A system that always takes something, however little at a time: pb-rs does
    what the model without faults does. *)
Theorem C96_no_faults : forall os pieces render check fuel o d, cut_up pieces render -> (forall c, never_fails (os c)) ->
  cli (on_system os pieces render) check fuel o d = cli render check fuel o d.
Proof.
  intros os pieces render check fuel o d C N. unfold cli. destruct (configure d o) as [cs|[e|]]; try reflexivity.
  rewrite (run_same _ render check fuel); [reflexivity|]. intros c x. unfold on_system. rewrite (output_complete _ _ (N c)), C, string_of_list_ascii_of_string.
  now destruct (render c x).
Qed.
Print Assumptions C96_no_faults.

(** Whatever the system does: after a run that reports nothing, an output file
    holds the beginning of the text, and at most 8192 bytes of it are missing. *)
Theorem C96_missing_partial : forall os pieces render check fuel l1 c l2 d d' dirs stem, cut_up pieces render ->
  ready check d (l1 ++ c :: l2) -> (forall c', In c' (l1 ++ c :: l2) -> sources_apart check d c') ->
  Output.run (on_system os pieces render) check fuel (l1 ++ c :: l2) d = (WOk, d') ->
  plan check d c dirs stem -> g_no_output c = false ->
  (forall c' dirs' stem', In c' l2 -> g_no_output c' = false -> plan check d c' dirs' stem' -> output_file c' dirs' stem' <> output_file c dirs stem) ->
  exists x file rest, describe check fuel c d = inl x /\ dk_file d' (output_file c dirs stem) = Some file /\
    fst (render c x) = (file ++ rest)%string /\ String.length rest <= 8 * 1024.
Proof.
  intros os pieces render check fuel l1 c l2 d d' dirs stem Cu R A H P No Nx.
  destruct (C77_content_partial _ check fuel l1 c l2 d d' dirs stem R A H P No Nx) as (x & D & W & F).
  unfold on_system in W, F. destruct (write_output (os c) (pieces c x)) as [ok file] eqn:E. cbn [fst snd] in *.
  destruct (output_spec _ _ _ _ E) as (rest & Q & L). destruct ok; [|discriminate].
  exists x, (string_of_list_ascii file), (string_of_list_ascii rest). split; [exact D|]. split; [exact F|].
  rewrite <- string_app, <- Q, Cu, string_of_list_ascii_of_string, string_length. now split.
Qed.
Print Assumptions C96_missing_partial.

(** A reported error is no false alarm: something is missing in the file. *)
Theorem C96_error : forall os ps file, write_output os ps = (false, file) ->
  exists rest, concat ps = file ++ rest /\ rest <> [].
Proof. intros os ps file H. exact (output_spec _ _ _ _ H). Qed.
Print Assumptions C96_error.

(** If all texts are shorter than the buffer, the exit code says nothing about
    the system: the run ends well exactly if it would on a system without faults. *)
Theorem C96_silent_partial : forall os pieces check fuel cs d, cut_up pieces text_of ->
  ready check d cs -> room check d cs -> (forall c, In c cs -> sources_apart check d c) ->
  (forall c x, In c cs -> describe check fuel c d = inl x -> String.length (fst (text_of c x)) < 8 * 1024) ->
  (fst (Output.run (on_system os pieces text_of) check fuel cs d) = WOk <-> fst (Output.run text_of check fuel cs d) = WOk).
Proof.
  intros os pieces check fuel cs d Cu R Rm A S. rewrite !(fun r => C87_run_partial r check fuel cs d R Rm A).
  assert (K : forall c x, In c cs -> describe check fuel c d = inl x -> snd (on_system os pieces text_of c x) = snd (text_of c x)).
  { intros c x I D. specialize (S c x I D). unfold on_system. pose proof (output_silent (os c) (pieces c x)) as O.
    rewrite Cu, list_length in O. specialize (O S). destruct (write_output _ _) as [ok file]. cbn in O. now subst ok. }
  split; intros H c I; destruct (H c I) as (x & D & W); exists x; (split; [exact D|]); intros No; rewrite <- (W No); [symmetry|]; now apply K.
Qed.
Print Assumptions C96_silent_partial.

(** ** The concrete case: a full disk

    The system takes nothing.  pb-rs says nothing, its exit code is 0, and the
    output is an empty file. *)
Definition full : system := fun _ => None.
Definition whole : gen_config -> input -> list (list ascii) := fun c x => [list_ascii_of_string (fst (text_of c x))].
Definition fault_options : options :=
  mkOptions ["b.proto"] None (Some "out") [] false false false false None None false false false false false false false.
Definition fault_disk : disk := small_disk ["out"] [("b.proto", "message B { optional int32 x = 1; }")].
Lemma whole_cut : cut_up whole text_of.
Proof. intros c x. unfold whole. cbn [concat]. now rewrite app_nil_r. Qed.
Theorem C96_full_disk_refuted : exists o d os pieces d1 d2 s, cut_up pieces text_of /\ options_valid o = true /\
  cli text_of true 2 o d = (inl WOk, d1) /\ dk_file d1 (path_of "out/b.rs") = Some s /\ String.length s = 1370 /\
  cli (on_system os pieces text_of) true 2 o d = (inl WOk, d2) /\ exit_code (inl WOk) = Some 0%Z /\
  dk_file d2 (path_of "out/b.rs") = Some "".
Proof.
  exists fault_options, fault_disk, (fun _ => full), whole.
  destruct (cli text_of true 2 fault_options fault_disk) as [r1 d1] eqn:E1.
  destruct (cli (on_system (fun _ => full) whole text_of) true 2 fault_options fault_disk) as [r2 d2] eqn:E2.
  assert (K1 : (fst (cli text_of true 2 fault_options fault_disk), option_map String.length (dk_file (snd (cli text_of true 2 fault_options fault_disk)) (path_of "out/b.rs"))) = (inl WOk, Some 1370)) by (vm_compute; reflexivity).
  assert (K2 : (let r := cli (on_system (fun _ => full) whole text_of) true 2 fault_options fault_disk in (fst r, dk_file (snd r) (path_of "out/b.rs"))) = (inl WOk, Some "")) by (vm_compute; reflexivity).
  rewrite E1 in K1. cbn [fst snd] in K1. injection K1 as -> K1. cbv zeta in K2. rewrite E2 in K2. injection K2 as -> K2.
  destruct (dk_file d1 (path_of "out/b.rs")) as [s|] eqn:F; [|discriminate]. injection K1 as K1. exists d1, d2, s.
  repeat match goal with |- _ /\ _ => split end; try assumption; try reflexivity. exact whole_cut.
Qed.
Print Assumptions C96_full_disk_refuted.

(** The hypotheses of the two partial theorems hold here, for every system. *)
Definition fault_config : gen_config := to_dir "b.proto" "out/b.rs" false.
Example C96_case : ready true fault_disk [fault_config] /\ room true fault_disk [fault_config] /\ (forall c, In c [fault_config] -> sources_apart true fault_disk c) /\
  (exists dirs stem, plan true fault_disk fault_config dirs stem) /\
  (forall c x, In c [fault_config] -> describe true 2 c fault_disk = inl x -> String.length (fst (text_of c x)) < 8 * 1024) /\
  forall os, fst (Output.run (on_system os whole text_of) true 2 [fault_config] fault_disk) = WOk.
Proof.
  assert (R : ready true fault_disk [fault_config]) by (apply small_ready; vm_compute; reflexivity).
  assert (Rm : room true fault_disk [fault_config]) by (apply small_room; vm_compute; reflexivity).
  assert (A : forall c, In c [fault_config] -> sources_apart true fault_disk c) by (intros c [<-|[]]; apply small_apart; vm_compute; reflexivity).
  assert (L : forall c x, In c [fault_config] -> describe true 2 c fault_disk = inl x -> String.length (fst (text_of c x)) < 8 * 1024).
  { intros c x [<-|[]] D.
    assert (K : match describe true 2 fault_config fault_disk with inl y => (String.length (fst (text_of fault_config y)) <? 8 * 1024) | inr _ => false end = true) by (vm_compute; reflexivity).
    rewrite D in K. now apply Nat.ltb_lt. }
  repeat match goal with |- _ /\ _ => split end; try assumption.
  - destruct (plan_of true fault_disk fault_config) as [[dirs stem]|] eqn:E; [|vm_compute in E; discriminate]. exists dirs, stem.
    now apply plan_of_ok.
  - intros os. apply (C96_silent_partial os whole true 2 [fault_config] fault_disk whole_cut R Rm A L). vm_compute. reflexivity.
Qed.
