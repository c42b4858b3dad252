(** C91 and C92: which fields are boxed, and whether that depends on the order of
    the messages. *)
From Coq Require Import String Arith Lia Relations.
From Verif Require Import Props_EndToEnd Props_Safety Props_Paths Props_Text.
From Verif Require Import Base Schema Passes Scc SccFacts GenSem GenCheck Cycles CycleFacts BreakFacts IndexFacts Props_Cycles.
From Verif Require Import Parser ProtoText FileText ParserOut Import Paths Pipeline RustTypes Emit Literals Output GenText RustLex RustAst RustParse GenAst LexFacts GenGood Props_Success.
Import Schema StringSyntax.
Local Open Scope string_scope.
Local Open Scope list_scope.
Local Open Scope nat_scope.

(** ** Specification *)

(** [x] stands in the list [c] at a place from [p] to [q] *)
Definition between (p q : nat) (x : midx) (c : list midx) : Prop :=
  exists k, nth_error c k = Some x /\ p <= k <= q.
(** A field, of any kind, goes from a message of the component [c] to one at the
    same place or later in it, and both [i] and [j] stand from the one to the other. *)
Definition spanned (d : file_descriptor) (c : list midx) (i j : midx) : Prop :=
  exists p q v u, nth_error c p = Some v /\ nth_error c q = Some u /\ p <= q /\ has_field (fun _ => True) d v u /\
    between p q i c /\ between p q j c.

(** ** The slices that [break_cycles] works on *)
Definition slice_of (d : file_descriptor) (scc : list midx) (i j : midx) : Prop :=
  exists l1 v rest u e, scc = l1 ++ v :: rest /\ has_field (fun _ => True) d v u /\ position u (v :: rest) = Some e /\
    inside (firstn (S e) (v :: rest)) i j.

Lemma has_field_rel ec E d d' v u : desc_rel (evo ec E) d d' -> has_field (fun _ => True) d v u <-> has_field (fun _ => True) d' v u.
Proof.
  intros R. split.
  - intros (m & f & G & Hf & T & _). destruct (desc_rel_fwd _ _ _ _ _ R G) as (m' & G' & M).
    destruct (Forall2_in_l _ _ _ (msg_rel_fields _ _ _ M) f Hf) as (f' & Hf' & Ev). exists m', f'. rewrite (evo_typ _ _ _ _ _ Ev). auto.
  - intros (m' & f' & G' & Hf' & T & _). destruct (desc_rel_back _ _ _ _ _ R G') as (m & G & M).
    destruct (Forall2_in_r _ _ _ (msg_rel_fields _ _ _ M) f' Hf') as (f & Hf & Ev). exists m, f. rewrite <- (evo_typ _ _ _ _ _ Ev). auto.
Qed.
Lemma slice_of_rel ec E d d' scc i j : desc_rel (evo ec E) d d' -> slice_of d scc i j <-> slice_of d' scc i j.
Proof.
  intros R. split; intros (l1 & v & rest & u & e & A & B & C); exists l1, v, rest, u, e; (split; [exact A|split; [|exact C]]);
    apply (has_field_rel _ _ _ _ v u R); exact B.
Qed.

Lemma break_ends_evo ec scc : forall ends d d', Forall (fun v => get_message d v <> None) scc -> break_ends ec scc ends d = GOk d' ->
  desc_rel (evo ec (fun p j => exists e, In e ends /\ inside (firstn (S e) scc) p j)) d d'.
Proof.
  induction ends as [|e ends IH]; intros d d' F H; cbn [break_ends] in H.
  - injection H as <-. apply desc_rel_refl. intros. apply evo_refl.
  - destruct (break_cycle_ok ec (firstn (S e) scc) d (Forall_firstn _ _ _ F)) as [(d1 & E1 & R1 & T1)|(-> & names & E1 & W)]; rewrite E1 in H; [|discriminate H].
    cbn [gbind] in H. pose proof (IH d1 d' (Forall_exists_rel _ _ _ _ R1 F) H) as R2.
    eapply (desc_rel_trans _ _ _ d d1 d'); [intros p x y z; apply evo_trans| |].
    + eapply desc_rel_impl; [|exact R1]. intros p f f'. apply evo_mono. intros j J. exists e. split; [now left|exact J].
    + eapply desc_rel_impl; [|exact R2]. intros p f f'. apply evo_mono. intros j (e' & He & J). exists e'. split; [now right|exact J].
Qed.

Definition boxes (d' : file_descriptor) (i j : midx) : Prop :=
  fields_at d' i (fun f => f_typ f = TMessage j -> freq_is_repeated (f_freq f) = false -> f_boxed f = true).
Lemma boxes_rel ec E d d' i j : desc_rel (evo ec E) d d' -> boxes d i j -> boxes d' i j.
Proof.
  intros R H m' f' G Hf T Rp. destruct (desc_rel_back _ _ _ _ _ R G) as (m & G0 & M).
  destruct (Forall2_in_r _ _ _ (msg_rel_fields _ _ _ M) f' Hf) as (f & Hf0 & Ev).
  apply (evo_boxed _ _ _ _ _ Ev), (H m f G0 Hf0).
  - now rewrite <- (evo_typ _ _ _ _ _ Ev).
  - now rewrite <- (evo_repeated _ _ _ _ _ Ev).
Qed.

Lemma break_scc_exact ec : forall scc d d', Forall (fun v => get_message d v <> None) scc -> break_scc ec scc d = GOk d' ->
  desc_rel (evo ec (slice_of d scc)) d d' /\ forall i j, slice_of d scc i j -> boxes d' i j.
Proof.
  induction scc as [|v rest IH]; intros d d' F H; cbn [break_scc] in H.
  - injection H as <-. split; [apply desc_rel_refl; intros; apply evo_refl|]. intros i j (l1 & v & rest & u & e & A & _). destruct l1; discriminate A.
  - pose proof F as F0. inversion F as [|? ? Fv Fr]; subst. destruct (get_message d v) as [m|] eqn:G; [|congruence].
    destruct (break_ends_ok ec (v :: rest) (cycle_ends m (v :: rest)) d F0) as [(d1 & E1 & R1 & T1)|(-> & names & E1 & W)]; rewrite E1 in H; [|discriminate H].
    cbn [gbind] in H. pose proof (break_ends_evo ec _ _ _ _ F0 E1) as R1'.
    destruct (IH d1 d' (Forall_exists_rel _ _ _ _ R1 Fr) H) as (R2 & T2).
    assert (Ends : forall u e, has_field (fun _ => True) d v u -> position u (v :: rest) = Some e -> In e (cycle_ends m (v :: rest))).
    { intros u e (m0 & f & G0 & Hf & T & _) P. rewrite G in G0. injection G0 as <-. unfold cycle_ends. apply in_filter_map. exists u. split; [|exact P].
      apply in_filter_map. exists f. split; [exact Hf|]. rewrite T. reflexivity. }
    split.
    + eapply (desc_rel_trans _ _ _ d d1 d'); [intros p x y z; apply evo_trans| |].
      * eapply desc_rel_impl; [|exact R1']. intros p f f'. apply evo_mono. intros j (e & He & J). unfold cycle_ends in He.
        apply in_filter_map in He. destruct He as (u & Hu & P). apply in_filter_map in Hu. destruct Hu as (g & Hg & Tg).
        exists [], v, rest, u, e. split; [reflexivity|]. split; [|auto]. exists m, g. split; [exact G|]. split; [exact Hg|].
        split; [|exact Logic.I]. destruct (f_typ g); cbn in Tg; try discriminate Tg. now injection Tg as ->.
      * eapply desc_rel_impl; [|exact R2]. intros p f f'. apply evo_mono. intros j (l1 & w & r2 & u & e & A & B & C).
        exists (v :: l1), w, r2, u, e. split; [now rewrite A|]. split; [now apply (has_field_rel _ _ _ _ w u R1)|exact C].
    + intros i j ([|a l1] & w & r2 & u & e & A & B & C & D).
      * cbn [app] in A. injection A as <- <-. apply (boxes_rel _ _ _ _ i j R2). intros m' f' G' Hf' T' Rp.
        destruct D as (Di & Dj). apply (T1 e i (Ends u e B C) Di m' f' G' Hf'); [|exact Rp]. apply in_cycle_iff. eauto.
      * cbn [app] in A. injection A as <- A. apply T2. exists l1, w, r2, u, e. split; [exact A|].
        split; [now apply (has_field_rel _ _ _ _ w u R1)|auto].
Qed.

Lemma break_sccs_exact ec : forall cs d d', Forall (fun v => get_message d v <> None) (List.concat cs) -> break_sccs ec cs d = GOk d' ->
  desc_rel (evo ec (fun i j => exists c, In c cs /\ slice_of d c i j)) d d' /\ forall c i j, In c cs -> slice_of d c i j -> boxes d' i j.
Proof.
  induction cs as [|c cs IH]; intros d d' F H; cbn [break_sccs] in H.
  - injection H as <-. split; [apply desc_rel_refl; intros; apply evo_refl|]. intros c i j [].
  - cbn in F. apply Forall_app in F. destruct F as (F1 & F2).
    destruct (break_scc ec c d) as [d1|] eqn:E1; [|discriminate H]. cbn [gbind] in H.
    destruct (break_scc_exact ec c d d1 F1 E1) as (R1 & T1). destruct (IH d1 d' (Forall_exists_rel _ _ _ _ R1 F2) H) as (R2 & T2). split.
    + eapply (desc_rel_trans _ _ _ d d1 d'); [intros p x y z; apply evo_trans| |].
      * eapply desc_rel_impl; [|exact R1]. intros p f f'. apply evo_mono. intros j J. exists c. split; [now left|exact J].
      * eapply desc_rel_impl; [|exact R2]. intros p f f'. apply evo_mono. intros j (c' & Hc & J). exists c'. split; [now right|].
        now apply (slice_of_rel _ _ _ _ c' p j R1).
    + intros c' i j [<-|Hc] J; [exact (boxes_rel _ _ _ _ i j R2 (T1 i j J))|].
      apply (T2 c' i j Hc). now apply (slice_of_rel _ _ _ _ c' i j R1).
Qed.

(** ** From slices to places *)
Lemma in_firstn_nth {A} (l : list A) n x : In x (firstn n l) <-> exists k, nth_error l k = Some x /\ k < n.
Proof.
  revert l. induction n as [|n IH]; intros l; [cbn; split; [intros []|intros (k & _ & K); lia]|].
  destruct l as [|y l]; cbn [firstn In]; [split; [intros []|intros ([|k] & K & _); discriminate K]|]. rewrite (IH l). split.
  - intros [->|(k & K & L)]; [exists 0; split; [reflexivity|lia]|exists (S k); split; [exact K|lia]].
  - intros ([|k] & K & L); [left; cbn in K; now injection K|right; exists k; split; [exact K|lia]].
Qed.
Lemma slice_spanned d c i j : NoDup c -> slice_of d c i j <-> spanned d c i j.
Proof.
  intros N. split.
  - intros (l1 & v & rest & u & e & -> & B & P & (Di & Dj)). apply position_some in P. destruct P as (P & _).
    exists (length l1), (length l1 + e), v, u. rewrite nth_error_app2 by lia. rewrite Nat.sub_diag.
    rewrite nth_error_app2 by lia. replace (length l1 + e - length l1) with e by lia.
    split; [reflexivity|]. split; [exact P|]. split; [lia|]. split; [exact B|].
    assert (K : forall x, In x (firstn (S e) (v :: rest)) -> between (length l1) (length l1 + e) x (l1 ++ v :: rest)).
    { intros x Hx. apply in_firstn_nth in Hx. destruct Hx as (k & Hk & L). exists (length l1 + k). rewrite nth_error_app2 by lia.
      replace (length l1 + k - length l1) with k by lia. split; [exact Hk|lia]. }
    split; apply K; assumption.
  - intros (p & q & v & u & Hp & Hq & L & B & Di & Dj). destruct (nth_error_split c p Hp) as (l1 & rest & Ec & El).
    assert (Nq : nth_error (v :: rest) (q - p) = Some u). { rewrite Ec, nth_error_app2 in Hq by lia. rewrite El in Hq. exact Hq. }
    assert (Nv : NoDup (v :: rest)). { rewrite Ec in N. clear - N. induction l1 as [|a l1 IH]; [exact N|]. inversion N; subst. auto. }
    destruct (position_in u (v :: rest) (nth_error_In _ _ Nq)) as (e & Pe). pose proof (position_some _ _ _ Pe) as (Pe' & _).
    assert (e = q - p). { apply (proj1 (NoDup_nth_error (v :: rest)) Nv); [apply nth_error_Some; congruence|congruence]. } subst e.
    assert (K : forall x, between p q x c -> In x (firstn (S (q - p)) (v :: rest))).
    { intros x (k & Hk & L1). apply in_firstn_nth. exists (k - p). split; [|lia]. rewrite Ec, nth_error_app2 in Hk by lia. rewrite El in Hk. exact Hk. }
    exists l1, v, rest, u, (q - p). split; [exact Ec|]. split; [exact B|]. split; [exact Pe|]. split; apply K; assumption.
Qed.

(* ====================================================================== *)
(** * C91 *)

(** exactly which fields are boxed *)
Theorem C91_exact : forall d0 d error_cycle d' cs i m m', resolve_types d0 = GOk d -> sccs d = GOk cs ->
  break_cycles error_cycle d = GOk d' -> get_message d i = Some m -> get_message d' i = Some m' ->
  Forall2 (fun f f' => f_boxed f' = true <->
    f_boxed f = true \/
    (freq_is_repeated (f_freq f) = false /\ exists j c, f_typ f = TMessage j /\ In c cs /\ spanned d c i j))
    (all_fields m) (all_fields m').
Proof.
  intros d0 d ec d' cs i m m' H Es E G G'. destruct (sccs_ok d (resolve_types_indexed _ _ H)) as (cs' & Es' & N & V & _ & _).
  rewrite Es in Es'. injection Es' as <-. unfold break_cycles in E. rewrite Es in E. cbn [gbind] in E.
  destruct (break_sccs_exact ec cs d d') as (R & T); [|exact E|].
  { apply Forall_forall. intros p Hp. apply V in Hp. destruct Hp as (x & ->). discriminate. }
  assert (Nc : forall c, In c cs -> NoDup c).
  { intros c Hc. apply in_split in Hc. destruct Hc as (a & b & ->). rewrite concat_app in N. cbn in N. clear - N.
    induction (List.concat a) as [|x l IH]; [|inversion N; subst; auto]. cbn in N. induction c as [|y c IHc]; [constructor|].
    cbn in N. inversion N as [|? ? N1 N2]; subst. constructor; [intros K; apply N1, in_or_app; now left|exact (IHc N2)]. }
  destruct (desc_rel_fwd _ _ _ _ _ R G) as (m1 & G1 & M). rewrite G' in G1. injection G1 as <-.
  assert (Q : forall f', In f' (all_fields m') -> forall j c, f_typ f' = TMessage j -> freq_is_repeated (f_freq f') = false -> In c cs -> spanned d c i j -> f_boxed f' = true).
  { intros f' Hf' j c Tf Rf Hc Sp. apply (T c i j Hc (proj2 (slice_spanned d c i j (Nc c Hc)) Sp) m' f' G' Hf' Tf Rf). }
  pose proof (msg_rel_fields _ _ _ M) as F. clear - F Q Nc. induction F as [|f f' l l' Ev F IH]; constructor.
  - split.
    + destruct Ev as [->|(j & T & (c & Hc & J) & Rp & _ & ->)]; [now left|]. intros _. right. split; [exact Rp|]. exists j, c.
      split; [exact T|]. split; [exact Hc|]. now apply slice_spanned; [apply Nc|].
    + intros [B|(Rp & j & c & T & Hc & Sp)]; [exact (evo_boxed _ _ _ _ _ Ev B)|].
      apply (Q f' (or_introl eq_refl) j c); [now rewrite (evo_typ _ _ _ _ _ Ev)|now rewrite (evo_repeated _ _ _ _ _ Ev)|exact Hc|exact Sp].
  - apply IH. intros g Hg. apply (Q g). now right.
Qed.
Print Assumptions C91_exact.

(** the field [b] of [A] in the graph of C37 is spanned by itself *)
Example C91_case : exists d d' m m', resolve_types gDesc = GOk d /\ sccs d = GOk [ [[2%nat]]; [[1%nat; 0%nat]; [1%nat]; [0%nat]]; [[3%nat]] ] /\
  break_cycles false d = GOk d' /\ get_message d [0%nat] = Some m /\ get_message d' [0%nat] = Some m' /\
  spanned d [[1%nat; 0%nat]; [1%nat]; [0%nat]] [0%nat] [1%nat] /\
  map f_boxed (all_fields m) = [false; false] /\ map f_boxed (all_fields m') = [true; false].
Proof.
  do 4 eexists. do 3 (split; [vm_compute; reflexivity|]). split; [reflexivity|]. split; [reflexivity|]. split; [|split; reflexivity].
  exists 1, 2, [1%nat], [0%nat]. split; [reflexivity|]. split; [reflexivity|]. split; [lia|].
  split; [|split; [exists 2|exists 1]; split; auto].
  eexists; eexists; split; [reflexivity|]; split; [right; right; left; reflexivity|]; split; reflexivity.
Qed.

(* ====================================================================== *)
(** * C92: all fields inside a component, so in any order of the messages *)

(** A field between two messages that refer to each other directly is boxed
    wherever the two stand: when [j], the type of the field, contains [i] by value
    by a field of its own.  Missing from the claim that all optional
    fields inside a component are boxed: components of three and more messages
    (see the witnesses below). *)
Theorem C92_direct_partial : forall d0 d error_cycle d' i j, resolve_types d0 = GOk d ->
  break_cycles error_cycle d = GOk d' ->
  contains d j i ->
  forall m' f', get_message d' i = Some m' -> In f' (all_fields m') -> f_typ f' = TMessage j ->
    freq_is_repeated (f_freq f') = false -> f_boxed f' = true.
Proof.
  intros d0 d ec d' i j H E Cji m' f' G' Hf' T' Rp'.
  pose proof (C36_conservative d0 d ec d' H E) as (R & _). specialize (R i). rewrite G' in R.
  inversion R as [|m m1 M E1 E2]; subst. symmetry in E1.
  destruct (Forall2_in_r _ _ _ (msg_rel_fields _ _ _ M) f' Hf') as (f & Hf & C).
  destruct C as [->|(u & _ & _ & _ & ->)]; [|reflexivity].
  destruct (C37_each_message_once d0 d H) as (cs & Es & N & V).
  assert (Ej : exists_in d j) by (destruct Cji as (a & b & K1 & _); exists a; exact K1).
  assert (Ei : exists_in d i) by (exists m; exact E1).
  pose proof (C91_exact d0 d ec d' cs i m m' H Es E E1 G') as X.
  destruct (f_boxed f) eqn:B; [reflexivity|].
  assert (Cij : contains d i j) by (exists m, f; unfold by_val; auto 10).
  destruct (proj2 (C37_mutual d0 d cs i j H Es Ei Ej)) as (c & Hc & Ic & Jc).
  { split; [apply (Relation_Operators.rt1n_trans _ _ i j j Cij)|apply (Relation_Operators.rt1n_trans _ _ j i i Cji)]; constructor. }
  assert (Sp : spanned d c i j).
  { apply In_nth_error in Ic, Jc. destruct Ic as (p & Hp), Jc as (q & Hq).
    assert (F1 : has_field (fun _ => True) d i j) by (destruct Cij as (a & b & K1 & K2 & K3 & _); exists a, b; auto).
    assert (F2 : has_field (fun _ => True) d j i) by (destruct Cji as (a & b & K1 & K2 & K3 & _); exists a, b; auto).
    destruct (Nat.le_ge_cases p q) as [L|L].
    - exists p, q, i, j. repeat match goal with |- _ /\ _ => split end; auto; [exists p|exists q]; auto.
    - exists q, p, j, i. repeat match goal with |- _ /\ _ => split end; auto; [exists p|exists q]; auto. }
  (* the fields of [m] and [m'] correspond one to one; use the one opposite [f] *)
  assert (Q : Forall2 (fun a b => f_typ b = f_typ a /\ freq_is_repeated (f_freq b) = freq_is_repeated (f_freq a)) (all_fields m) (all_fields m')).
  { pose proof (msg_rel_fields _ _ _ M) as F. clear - F. induction F as [|a b l l' C F IH]; constructor; [|exact IH].
    destruct C as [->|(u & T & _ & Rp & ->)]; [auto|]. split; [reflexivity|]. cbn. rewrite Rp. now destruct (f_freq a). }
  assert (K : forall l l', Forall2 (fun a b => f_typ b = f_typ a /\ freq_is_repeated (f_freq b) = freq_is_repeated (f_freq a)) l l' ->
     Forall2 (fun a b => f_boxed b = true <-> f_boxed a = true \/ (freq_is_repeated (f_freq a) = false /\ exists j0 c0, f_typ a = TMessage j0 /\ In c0 cs /\ spanned d c0 i j0)) l l' ->
     forall b, In b l' -> f_typ b = TMessage j -> freq_is_repeated (f_freq b) = false -> f_boxed b = true).
  { intros l l' F1. induction F1 as [|a b l l' (A1 & A2) F1 IH]; intros F2 b0 Hb Tb Rb; [contradiction|]. inversion F2; subst.
    destruct Hb as [<-|Hb]; [|exact (IH ltac:(assumption) b0 Hb Tb Rb)].
    match goal with W : _ <-> _ |- _ => apply W end. right. split; [congruence|]. exists j, c. split; [congruence|]. auto. }
  pose proof (K _ _ Q X f Hf' T' Rp'). congruence.
Qed.
Print Assumptions C92_direct_partial.

Example C92_case : exists d d' cs, resolve_types gDesc = GOk d /\ sccs d = GOk cs /\ break_cycles false d = GOk d' /\
  has_field (fun f => freq_is_repeated (f_freq f) = false) d [0%nat] [1%nat] /\ contains d [1%nat] [0%nat] /\ exists_in d [1%nat].
Proof.
  eexists. eexists. eexists. split; [vm_compute; reflexivity|]. split; [vm_compute; reflexivity|]. split; [vm_compute; reflexivity|].
  split; [eexists; eexists; split; [reflexivity|]; split; [left; reflexivity|]; split; reflexivity|].
  split; [|eexists; reflexivity].
  eexists; eexists; split; [reflexivity|]; split; [right; right; left; reflexivity|]; split; [reflexivity|split; reflexivity].
Qed.

(** ** The order of the messages *)

(** Three messages that contain each other. *)
Definition ordA : text := "message A { optional X x = 1; optional B b = 2; } "%string.
Definition ordX : text := "message X { optional A a = 1; } "%string.
Definition ordB : text := "message B { optional X x = 1; } "%string.
(** types.rs:2821-2823: "we decide [..] to box all optional fields within a scc.
    We favor generated code stability".  With the messages in the order [B X A]
    the optional field [b] of [A] lies inside the component and is not boxed; in
    the order [A X B] it is, so the generated struct depends on the order. *)
Theorem C92_order_refuted : exists d1 d2 s1 s2 f1 f2,
  read_one (ordA ++ ordX ++ ordB)%string = ROk d1 /\ read_one (ordB ++ ordX ++ ordA)%string = ROk d2 /\
  (forall m, In m (d_messages d1) <-> In m (d_messages d2)) /\
  generated textConfig d1 "a.proto" 0 = (s1, None) /\ generated textConfig d2 "a.proto" 0 = (s2, None) /\
  parse_rust s1 = Some f1 /\ parse_rust s2 = Some f2 /\
  (exists attrs pub fields fld, In (RIStruct attrs pub "A" [] fields) (file_items f1) /\ In fld fields /\ rf_name fld = "b" /\
     rf_type fld = RTPath false [PSeg "Option" [GType (RTPath false [PSeg "Box" [GType (RTPath false [PSeg "B" []])]])]]) /\
  exists attrs pub fields fld, In (RIStruct attrs pub "A" [] fields) (file_items f2) /\ In fld fields /\ rf_name fld = "b" /\
     rf_type fld = RTPath false [PSeg "Option" [GType (RTPath false [PSeg "B" []])]].
Proof.
  let r := eval vm_compute in (match read_one (ordA ++ ordX ++ ordB)%string, read_one (ordB ++ ordX ++ ordA)%string with
    | ROk d, ROk dL => let s := fst (generated textConfig d "a.proto" 0) in let sL := fst (generated textConfig dL "a.proto" 0) in
                       Some (d, dL, s, sL, parse_rust s, parse_rust sL)
    | _, _ => None end) in
  match r with Some (?d, ?dL, ?s, ?sL, Some ?f, Some ?fL) => exists d, dL, s, sL, f, fL end.
  split; [vm_compute; reflexivity|]. split; [vm_compute; reflexivity|]. split; [cbn; tauto|].
  do 4 (split; [vm_compute; reflexivity|]). split.
  - eexists _, _, _, _. split; [repeat first [left; reflexivity|right]|]. split; [right; left; reflexivity|]. split; reflexivity.
  - eexists _, _, _, _. split; [repeat first [left; reflexivity|right]|]. split; [right; left; reflexivity|]. split; reflexivity.
Qed.
Print Assumptions C92_order_refuted.

(** The same with a required field: whether --error-cycle refuses the file
    depends on the order of its messages; and without the option, whether the
    required field silently becomes an optional one. *)
Definition ordReq : text := "message A { optional X x = 1; required B b = 2; } "%string.
Theorem C92_required_refuted : exists d1 d2 r1 r2 e1 e2 names m1 m2,
  read_one (ordReq ++ ordX ++ ordB)%string = ROk d1 /\ read_one (ordB ++ ordX ++ ordReq)%string = ROk d2 /\
  (forall m, In m (d_messages d1) <-> In m (d_messages d2)) /\
  resolve_types d1 = GOk r1 /\ resolve_types d2 = GOk r2 /\
  break_cycles true r1 = GErr (ErrCycle names) /\ (exists e, break_cycles true r2 = GOk e) /\
  break_cycles false r1 = GOk e1 /\ break_cycles false r2 = GOk e2 /\
  get_message e1 [0%nat] = Some m1 /\ get_message e2 [2%nat] = Some m2 /\ m_name m1 = "A" /\ m_name m2 = "A" /\
  map (fun f => (f_name f, f_boxed f, f_freq f)) (all_fields m1) = [("x", true, P2Optional); ("b", true, P2Optional)] /\
  map (fun f => (f_name f, f_boxed f, f_freq f)) (all_fields m2) = [("x", true, P2Optional); ("b", false, P2Required)].
Proof.
  do 9 eexists. split; [vm_compute; reflexivity|]. split; [vm_compute; reflexivity|]. split; [cbn; tauto|].
  do 3 (split; [vm_compute; reflexivity|]). split; [eexists; vm_compute; reflexivity|]. do 4 (split; [vm_compute; reflexivity|]).
  repeat match goal with |- _ /\ _ => split end; reflexivity.
Qed.
Print Assumptions C92_required_refuted.

(* ====================================================================== *)
(** * C94: when --error-cycle refuses, and what becomes of a field *)

(** every field of [i] with the type [j] is boxed, repeated or not *)
Definition boxes_all (d' : file_descriptor) (i j : midx) : Prop :=
  fields_at d' i (fun f => f_typ f = TMessage j -> f_boxed f = true).
Lemma boxes_all_rel ec E d d' i j : desc_rel (evo ec E) d d' -> boxes_all d i j -> boxes_all d' i j.
Proof.
  intros R H m' f' G Hf T. destruct (desc_rel_back _ _ _ _ _ R G) as (m & G0 & M).
  destruct (Forall2_in_r _ _ _ (msg_rel_fields _ _ _ M) f' Hf) as (f & Hf0 & Ev).
  apply (evo_boxed _ _ _ _ _ Ev), (H m f G0 Hf0). now rewrite <- (evo_typ _ _ _ _ _ Ev).
Qed.

(** a field that --error-cycle objects to: neither boxed nor optional *)
Definition stuck (f : field) : Prop := f_boxed f = false /\ freq_is_optional (f_freq f) = false.
Lemma stuck_fwd E d d' i j : desc_rel (evo true E) d d' -> has_field stuck d i j -> has_field stuck d' i j.
Proof.
  intros R (m & f & G & Hf & T & B & O). destruct (desc_rel_fwd _ _ _ _ _ R G) as (m' & G' & M).
  destruct (Forall2_in_l _ _ _ (msg_rel_fields _ _ _ M) f Hf) as (f' & Hf' & Ev).
  destruct Ev as [->|(k & _ & _ & _ & Op & _)]; [exists m', f; repeat split; assumption|]. rewrite (Op eq_refl) in O. discriminate O.
Qed.
Lemma stuck_back ec E d d' i j : desc_rel (evo ec E) d d' -> has_field stuck d' i j -> has_field stuck d i j.
Proof.
  intros R (m' & f' & G' & Hf' & T & B & O). destruct (desc_rel_back _ _ _ _ _ R G') as (m & G & M).
  destruct (Forall2_in_r _ _ _ (msg_rel_fields _ _ _ M) f' Hf') as (f & Hf & Ev).
  destruct Ev as [->|(k & _ & _ & _ & _ & ->)]; [exists m, f; repeat split; assumption|discriminate B].
Qed.

Lemma break_cycle_all cycle d d' : Forall (fun v => get_message d v <> None) cycle -> break_cycle true cycle d = GOk d' ->
  forall i j, inside cycle i j -> boxes_all d' i j.
Proof.
  intros F H i j (Hi & Hj) m f G Hf T. unfold break_cycle in H.
  destruct (upd_all cycle (box_optional cycle) d) as [d1|]; [|discriminate H]. cbn [gbind] in H.
  unfold is_cycle in H. destruct (messages_of d1 cycle) as [ms|] eqn:Em; [|discriminate H]. cbn [gbind] in H.
  destruct (existsb (fun f => negb (f_boxed f) && in_cycle cycle f) (flat_map all_fields ms)) eqn:Ex; [discriminate H|]. injection H as ->.
  destruct (f_boxed f) eqn:B; [reflexivity|]. exfalso. rewrite <- not_true_iff_false in Ex. apply Ex. apply existsb_exists.
  exists f. split.
  - apply in_flat_map. pose proof (proj1 (messages_of_ok _ _ _) Em) as Fm. destruct (Forall2_in_l _ _ _ Fm i Hi) as (m1 & Hm & G1).
    exists m1. split; [exact Hm|]. congruence.
  - rewrite B. cbn [negb andb]. apply in_cycle_iff. eauto.
Qed.
Lemma break_ends_all scc : forall ends d d', Forall (fun v => get_message d v <> None) scc -> break_ends true scc ends d = GOk d' ->
  forall e i j, In e ends -> inside (firstn (S e) scc) i j -> boxes_all d' i j.
Proof.
  induction ends as [|e ends IH]; intros d d' F H e0 i j He J; [contradiction He|]. cbn [break_ends] in H.
  destruct (break_cycle_ok true (firstn (S e) scc) d (Forall_firstn _ _ _ F)) as [(d1 & E1 & R1 & T1)|(_ & names & E1 & W)]; rewrite E1 in H; [|discriminate H].
  cbn [gbind] in H. pose proof (Forall_exists_rel _ _ _ _ R1 F) as F1. destruct He as [<-|He].
  - apply (boxes_all_rel _ _ _ _ i j (break_ends_evo true scc ends d1 d' F1 H)). exact (break_cycle_all _ _ _ (Forall_firstn _ _ _ F) E1 i j J).
  - exact (IH d1 d' F1 H e0 i j He J).
Qed.
Lemma break_ends_error scc : forall ends d e, Forall (fun v => get_message d v <> None) scc -> break_ends true scc ends d = GErr e ->
  exists n i j, In n ends /\ inside (firstn (S n) scc) i j /\ has_field stuck d i j.
Proof.
  induction ends as [|n ends IH]; intros d e F H; cbn [break_ends] in H; [discriminate H|].
  destruct (break_cycle_ok true (firstn (S n) scc) d (Forall_firstn _ _ _ F)) as [(d1 & E1 & R1 & _)|(_ & names & E1 & W)]; rewrite E1 in H; cbn [gbind] in H.
  - destruct (IH d1 e (Forall_exists_rel _ _ _ _ R1 F) H) as (n' & i & j & Hn & J & B). exists n', i, j. split; [now right|]. split; [exact J|].
    exact (stuck_back _ _ _ _ i j R1 B).
  - destruct W as (v & m & f & j & Hv & G & Hf & T & Hj & B & O). exists n, v, j. split; [now left|]. split; [split; assumption|].
    exists m, f. repeat split; assumption.
Qed.
Lemma cycle_ends_in d v m scc n : get_message d v = Some m -> In n (cycle_ends m scc) <-> exists u, has_field (fun _ => True) d v u /\ position u scc = Some n.
Proof.
  intros G. unfold cycle_ends. rewrite in_filter_map. split.
  - intros (u & Hu & P). apply in_filter_map in Hu. destruct Hu as (g & Hg & Tg). exists u. split; [|exact P]. exists m, g.
    split; [exact G|]. split; [exact Hg|]. split; [|exact Logic.I]. destruct (f_typ g); cbn in Tg; try discriminate Tg. now injection Tg as ->.
  - intros (u & (m0 & f & G0 & Hf & T & _) & P). rewrite G in G0. injection G0 as <-. exists u. split; [|exact P].
    apply in_filter_map. exists f. split; [exact Hf|]. rewrite T. reflexivity.
Qed.
Lemma break_scc_all : forall scc d d', Forall (fun v => get_message d v <> None) scc -> break_scc true scc d = GOk d' ->
  forall i j, slice_of d scc i j -> boxes_all d' i j.
Proof.
  induction scc as [|v rest IH]; intros d d' F H i j S; cbn [break_scc] in H.
  { destruct S as (l1 & v & rest & u & e & A & _). destruct l1; discriminate A. }
  pose proof F as F0. inversion F as [|? ? Fv Fr]; subst. destruct (get_message d v) as [m|] eqn:G; [|congruence].
  destruct (break_ends_ok true (v :: rest) (cycle_ends m (v :: rest)) d F0) as [(d1 & E1 & R1 & T1)|(_ & names & E1 & W)]; rewrite E1 in H; [|discriminate H].
  cbn [gbind] in H. pose proof (Forall_exists_rel _ _ _ _ R1 Fr) as F1. destruct S as ([|a l1] & w & r2 & u & e & A & B & C & D).
  - cbn [app] in A. injection A as <- <-. apply (boxes_all_rel true (slice_of d1 rest) d1 d' i j); [exact (proj1 (break_scc_exact true rest d1 d' F1 H))|].
    apply (break_ends_all (v :: rest) _ d d1 F0 E1 e i j); [|exact D]. apply (cycle_ends_in d v m _ e G). eauto.
  - cbn [app] in A. injection A as <- A. apply (IH d1 d' F1 H). exists l1, w, r2, u, e. split; [exact A|].
    split; [now apply (has_field_rel _ _ _ _ w u R1)|auto].
Qed.
Lemma break_scc_error : forall scc d e, Forall (fun v => get_message d v <> None) scc -> break_scc true scc d = GErr e ->
  exists i j, slice_of d scc i j /\ has_field stuck d i j.
Proof.
  induction scc as [|v rest IH]; intros d e F H; cbn [break_scc] in H; [discriminate H|].
  pose proof F as F0. inversion F as [|? ? Fv Fr]; subst. destruct (get_message d v) as [m|] eqn:G; [|congruence].
  destruct (break_ends true (v :: rest) (cycle_ends m (v :: rest)) d) as [d1|e1] eqn:E1; cbn [gbind] in H.
  - pose proof (break_ends_evo true _ _ _ _ F0 E1) as R1.
    destruct (IH d1 e (Forall_exists_rel _ _ _ _ R1 Fr) H) as (i & j & (l1 & w & r2 & u & n & A & B & C) & S). exists i, j. split.
    + exists (v :: l1), w, r2, u, n. split; [now rewrite A|]. split; [now apply (has_field_rel _ _ _ _ w u R1)|exact C].
    + exact (stuck_back _ _ _ _ i j R1 S).
  - destruct (break_ends_error _ _ _ _ F0 E1) as (n & i & j & Hn & J & S). exists i, j. split; [|exact S].
    apply (cycle_ends_in d v m _ n G) in Hn. destruct Hn as (u & B & P). exists [], v, rest, u, n. auto.
Qed.
Lemma break_sccs_all : forall cs d d', Forall (fun v => get_message d v <> None) (List.concat cs) -> break_sccs true cs d = GOk d' ->
  forall c i j, In c cs -> slice_of d c i j -> boxes_all d' i j.
Proof.
  induction cs as [|c cs IH]; intros d d' F H c0 i j Hc S; [contradiction Hc|]. cbn [break_sccs] in H. cbn in F. apply Forall_app in F. destruct F as (F1 & F2).
  destruct (break_scc true c d) as [d1|] eqn:E1; [|discriminate H]. cbn [gbind] in H.
  destruct (break_scc_exact true c d d1 F1 E1) as (R1 & _). pose proof (Forall_exists_rel _ _ _ _ R1 F2) as F3. destruct Hc as [<-|Hc].
  - apply (boxes_all_rel true _ d1 d' i j (proj1 (break_sccs_exact true cs d1 d' F3 H))). exact (break_scc_all c d d1 F1 E1 i j S).
  - apply (IH d1 d' F3 H c0 i j Hc). now apply (slice_of_rel _ _ _ _ c0 i j R1).
Qed.
Lemma break_sccs_error : forall cs d e, Forall (fun v => get_message d v <> None) (List.concat cs) -> break_sccs true cs d = GErr e ->
  exists c i j, In c cs /\ slice_of d c i j /\ has_field stuck d i j.
Proof.
  induction cs as [|c cs IH]; intros d e F H; cbn [break_sccs] in H; [discriminate H|]. cbn in F. apply Forall_app in F. destruct F as (F1 & F2).
  destruct (break_scc true c d) as [d1|e1] eqn:E1; cbn [gbind] in H.
  - destruct (break_scc_exact true c d d1 F1 E1) as (R1 & _). destruct (IH d1 e (Forall_exists_rel _ _ _ _ R1 F2) H) as (c0 & i & j & Hc & S & B).
    exists c0, i, j. split; [now right|]. split; [now apply (slice_of_rel _ _ _ _ c0 i j R1)|exact (stuck_back _ _ _ _ i j R1 B)].
  - destruct (break_scc_error _ _ _ F1 E1) as (i & j & S & B). exists c, i, j. split; [now left|]. auto.
Qed.

Lemma sccs_nodup d0 d cs : resolve_types d0 = GOk d -> sccs d = GOk cs ->
  (forall c, In c cs -> NoDup c) /\ Forall (fun v => get_message d v <> None) (List.concat cs).
Proof.
  intros H Es. destruct (sccs_ok d (resolve_types_indexed _ _ H)) as (cs' & Es' & N & V & _ & _). rewrite Es in Es'. injection Es' as <-. split.
  - intros c Hc. apply in_split in Hc. destruct Hc as (a & b & ->). rewrite concat_app in N. cbn in N. clear - N.
    induction (List.concat a) as [|x l IH]; [|inversion N; subst; auto]. cbn in N. induction c as [|y c IHc]; [constructor|].
    cbn in N. inversion N as [|? ? N1 N2]; subst. constructor; [intros K; apply N1, in_or_app; now left|exact (IHc N2)].
  - apply Forall_forall. intros p Hp. apply V in Hp. destruct Hp as (x & ->). discriminate.
Qed.

(** With --error-cycle a file is refused exactly if some field that is neither optional nor
    boxed - it may be repeated - stands inside a span of a component. *)
Theorem C94_error : forall d0 d cs, resolve_types d0 = GOk d -> sccs d = GOk cs ->
  (exists names, break_cycles true d = GErr (ErrCycle names)) <->
  exists c i j, In c cs /\ spanned d c i j /\
    has_field (fun f => f_boxed f = false /\ freq_is_optional (f_freq f) = false) d i j.
Proof.
  intros d0 d cs H Es. destruct (sccs_nodup d0 d cs H Es) as (Nc & F). split.
  - intros (names & E). unfold break_cycles in E. rewrite Es in E. cbn [gbind] in E.
    destruct (break_sccs_error cs d _ F E) as (c & i & j & Hc & S & B). exists c, i, j. split; [exact Hc|]. split; [|exact B].
    apply slice_spanned; [exact (Nc c Hc)|exact S].
  - intros (c & i & j & Hc & S & B). destruct (C36_total d0 d true H) as [(d' & E)|(_ & names & E)]; [|eauto]. exfalso.
    unfold break_cycles in E. rewrite Es in E. cbn [gbind] in E.
    pose proof (break_sccs_all cs d d' F E c i j Hc (proj2 (slice_spanned d c i j (Nc c Hc)) S)) as K.
    destruct (stuck_fwd _ d d' i j (proj1 (break_sccs_exact true cs d d' F E)) B) as (m & f & G & Hf & T & Bf & _).
    rewrite (K m f G Hf T) in Bf. discriminate Bf.
Qed.
Print Assumptions C94_error.

(** the frequency of a boxed field *)
Definition made_optional (q : frequency) : frequency :=
  match q with P2Required | P2Map => P2Optional | P3Default | P3Map => P3Optional | _ => q end.
(** What becomes of a field that was not boxed: one that is not repeated and stands
    inside a span is boxed and becomes optional, any other stays as it is. *)
Theorem C94_field : forall d0 d error_cycle d' cs i m m', resolve_types d0 = GOk d -> sccs d = GOk cs ->
  break_cycles error_cycle d = GOk d' -> get_message d i = Some m -> get_message d' i = Some m' ->
  Forall2 (fun f f' => f_boxed f = false ->
    let inside_span := freq_is_repeated (f_freq f) = false /\ exists j c, f_typ f = TMessage j /\ In c cs /\ spanned d c i j in
    (inside_span /\ f' = mkField (f_name f) (made_optional (f_freq f)) (f_typ f) (f_number f) (f_default f) (f_packed f) true (f_deprecated f))
    \/ (~ inside_span /\ f' = f)) (all_fields m) (all_fields m').
Proof.
  intros d0 d ec d' cs i m m' H Es E G G'. pose proof (C91_exact d0 d ec d' cs i m m' H Es E G G') as X.
  destruct (sccs_nodup d0 d cs H Es) as (Nc & F). unfold break_cycles in E. rewrite Es in E. cbn [gbind] in E.
  destruct (break_sccs_exact ec cs d d' F E) as (R & _). destruct (desc_rel_fwd _ _ _ _ _ R G) as (m1 & G1 & M). rewrite G' in G1. injection G1 as <-.
  pose proof (msg_rel_fields _ _ _ M) as Ev. clear - X Ev. induction Ev as [|f f' l l' Hf Hl IH]; inversion X as [|? ? ? ? X1 X2]; subst; constructor; [|exact (IH X2)].
  intros B. cbn zeta. destruct Hf as [->|(j & T & _ & Rp & _ & ->)].
  - right. split; [|reflexivity]. intros K. pose proof (proj2 X1 (or_intror K)). congruence.
  - left. split; [|unfold set_boxed; f_equal; destruct (f_freq f); try discriminate Rp; reflexivity].
    destruct (proj1 X1 eq_refl) as [K|K]; [congruence|exact K].
Qed.
Print Assumptions C94_field.

(** The graph of C37: the file is refused because of the required field of the third
    message; without --error-cycle that field becomes optional. *)
Example C94_case : exists d cs d' names m m', resolve_types gDesc = GOk d /\ sccs d = GOk cs /\ break_cycles true d = GErr (ErrCycle names) /\
  In [[2%nat]] cs /\ spanned d [[2%nat]] [2%nat] [2%nat] /\ has_field (fun f => f_boxed f = false /\ freq_is_optional (f_freq f) = false) d [2%nat] [2%nat] /\
  break_cycles false d = GOk d' /\ get_message d [2%nat] = Some m /\ get_message d' [2%nat] = Some m' /\
  map (fun f => (f_freq f, f_boxed f)) (all_fields m) = [(P2Required, false)] /\ map (fun f => (f_freq f, f_boxed f)) (all_fields m') = [(P2Optional, true)].
Proof.
  do 6 eexists. do 3 (split; [vm_compute; reflexivity|]). split; [left; reflexivity|].
  split; [|split; [|do 3 (split; [vm_compute; reflexivity|]); split; reflexivity]].
  - exists 0, 0, [2%nat], [2%nat]. split; [reflexivity|]. split; [reflexivity|]. split; [lia|]. split; [|split; exists 0; split; auto].
    eexists; eexists; split; [reflexivity|]; split; [left; reflexivity|]; split; reflexivity.
  - eexists; eexists; split; [reflexivity|]; split; [left; reflexivity|]; split; [reflexivity|split; reflexivity].
Qed.
