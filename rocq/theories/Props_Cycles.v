(** Properties of the component search and of cycle breaking. *)
From Coq Require Import String Arith Lia Relations.
From Verif Require Import Base Schema Passes Scc SccFacts GenSem GenCheck Cycles CycleFacts BreakFacts IndexFacts.
Import StringSyntax.
Local Open Scope string_scope.
Local Open Scope list_scope.

(** ** Specification *)

(** Message [i] has a field (also inside a oneof) of type message [j] with the
    property [P]. *)
Definition has_field (P : field -> Prop) (d : file_descriptor) (i j : midx) : Prop :=
  exists m f, get_message d i = Some m /\ In f (all_fields m) /\ f_typ f = TMessage j /\ P f.
(** The generated struct stores the value itself: neither a [Vec] nor a [Box]. *)
Definition by_val (f : field) : Prop := f_boxed f = false /\ freq_is_repeated (f_freq f) = false.
Definition contains (d : file_descriptor) : midx -> midx -> Prop := has_field by_val d.
Definition exists_in (d : file_descriptor) (i : midx) : Prop := exists m, get_message d i = Some m.

Lemma contains_by_value d i j : contains d i j <-> by_value d i j.
Proof.
  split.
  - intros (m & f & G & H & T & B & R). exists m, f. auto 10.
  - intros (m & f & G & H & B & R & T). exists m, f. unfold by_val. auto 10.
Qed.
Lemma contains_path d i j : clos_refl_trans_1n _ (contains d) i j <-> value_path d i j.
Proof.
  split; induction 1 as [i|i j k B _ IH]; try constructor.
  - apply (vp_step d i j k); [now apply contains_by_value|exact IH].
  - apply (Relation_Operators.rt1n_trans _ _ i j k); [now apply contains_by_value|exact IH].
Qed.
Lemma rt1n_trans' {A} (R : A -> A -> Prop) x y z : clos_refl_trans_1n _ R x y -> clos_refl_trans_1n _ R y z -> clos_refl_trans_1n _ R x z.
Proof. induction 1 as [|x w y H _ IH]; intros K; [exact K|]. exact (Relation_Operators.rt1n_trans _ _ x w z H (IH K)). Qed.

(* ====================================================================== *)
(** * C37: strongly connected components *)

(** every message is in exactly one component, exactly once *)
Theorem C37_each_message_once : forall d0 d, resolve_types d0 = GOk d ->
  exists cs, sccs d = GOk cs /\ NoDup (List.concat cs) /\ forall i, In i (List.concat cs) <-> exists_in d i.
Proof.
  intros d0 d H. destruct (sccs_ok d (resolve_types_indexed _ _ H)) as (cs & E & N & V & _). exists cs. auto.
Qed.
Print Assumptions C37_each_message_once.

(** fields stored by value lead to the same or an earlier component *)
Theorem C37_order : forall d0 d cs before c after i j, resolve_types d0 = GOk d -> sccs d = GOk cs ->
  cs = before ++ c :: after -> In i c -> contains d i j -> exists_in d j ->
  exists c', In c' (before ++ [c]) /\ In j c'.
Proof.
  intros d0 d cs b c a i j H E Ec Hi C Hj. destruct (sccs_ok d (resolve_types_indexed _ _ H)) as (cs' & E' & _ & _ & O & _).
  rewrite E in E'. injection E' as <-. apply contains_by_value in C.
  pose proof (O b c a i j Ec Hi C Hj) as R. apply in_concat in R. exact R.
Qed.
Print Assumptions C37_order.

(** two messages share a component iff each reaches the other by value *)
Theorem C37_mutual : forall d0 d cs i j, resolve_types d0 = GOk d -> sccs d = GOk cs -> exists_in d i -> exists_in d j ->
  ((exists c, In c cs /\ In i c /\ In j c) <->
   (clos_refl_trans_1n _ (contains d) i j /\ clos_refl_trans_1n _ (contains d) j i)).
Proof.
  intros d0 d cs i j H E Hi Hj. destruct (sccs_ok d (resolve_types_indexed _ _ H)) as (cs' & E' & N & V & O & St).
  rewrite E in E'. injection E' as <-. split.
  - intros (c & Hc & Ic & Jc). split; apply contains_path; apply (St c); assumption.
  - intros (P1 & P2).
    assert (Up : forall x y, clos_refl_trans_1n _ (contains d) x y -> exists_in d y ->
       forall b c a, cs = b ++ c :: a -> In x c -> In y (List.concat (b ++ [c]))).
    { intros x y P. induction P as [x|x w y C P IH]; intros Hy b c a Ec Hx.
      - rewrite concat_app. apply in_or_app. right. cbn. rewrite app_nil_r. exact Hx.
      - assert (Hw : exists_in d w).
        { inversion P as [|? ? C' P']; subst; [exact Hy|]. destruct C' as (m & _ & G & _). now exists m. }
        apply contains_by_value in C. pose proof (O b c a x w Ec Hx C Hw) as R.
        apply in_concat in R. destruct R as (cw & Hcw & Rw). apply in_split in Hcw. destruct Hcw as (b' & a' & Eb).
        assert (Ec' : cs = b' ++ cw :: (a' ++ a)).
        { rewrite Ec. change (c :: a) with ([c] ++ a). rewrite app_assoc, Eb, <- app_assoc. reflexivity. }
        pose proof (IH Hy b' cw (a' ++ a) Ec' Rw) as R. rewrite Eb.
        change (cw :: a') with ([cw] ++ a'). rewrite app_assoc, concat_app. apply in_or_app. now left. }
    assert (Ii : In i (List.concat cs)) by (apply V; exact Hi). apply in_concat in Ii. destruct Ii as (c & Hc & Ic).
    exists c. split; [exact Hc|]. split; [exact Ic|].
    apply in_split in Hc. destruct Hc as (b & a & Ec).
    pose proof (Up i j P1 Hj b c a Ec Ic) as R. rewrite concat_app in R. apply in_app_or in R. cbn in R. rewrite app_nil_r in R.
    destruct R as [R|R]; [|exact R]. exfalso.
    apply in_concat in R. destruct R as (cj & Hcj & Rj). apply in_split in Hcj. destruct Hcj as (b1 & b2 & Eb).
    assert (Ec' : cs = b1 ++ cj :: (b2 ++ c :: a)) by (rewrite Ec, Eb, <- app_assoc; reflexivity).
    pose proof (Up j i P2 Hi b1 cj _ Ec' Rj) as R2.
    rewrite Ec, concat_app in N. cbn in N.
    assert (In1 : In i (List.concat b)).
    { rewrite Eb. change (cj :: b2) with ([cj] ++ b2). rewrite app_assoc, concat_app. apply in_or_app. now left. }
    assert (In2 : In i (c ++ List.concat a)) by (apply in_or_app; now left).
    clear - N In1 In2. induction (List.concat b) as [|x l IH]; [contradiction|]. cbn in N. inversion N as [|? ? N1 N2]; subst.
    destruct In1 as [->|In1]; [apply N1, in_or_app; now right|exact (IH N2 In1)].
Qed.
Print Assumptions C37_mutual.

(** ** A concrete graph: a cycle through required, optional, oneof and nested
    messages, a self reference and an acyclic part
{v
package p;
message A { required B b = 1; repeated D ds = 2; }
message B { optional C c = 1; oneof x { A a = 2; int32 n = 3; }
            message N { required B b = 1; } optional N n = 4; }
message C { required C self = 1; }
message D { optional A a = 1; optional C c = 2; }
v} *)
Definition rf (n : text) (q : frequency) (t : text) (k : Z) : field :=
  mkField n q (TMessageOrEnum t) k None None false false.
Definition gm (n : text) (fs : list field) (os : list oneof) (pkg : text) (ms : list message) : message :=
  mkMessage n fs os None None false pkg ms [] "" [].
Definition gN := gm "N" [rf "b" P2Required "B" 1] [] "p.B" [].
Definition gA := gm "A" [rf "b" P2Required "B" 1; rf "ds" P2Repeated "D" 2] [] "p" [].
Definition gB := gm "B" [rf "c" P2Optional "C" 1; rf "n" P2Optional "N" 4]
  [mkOneof "x" [rf "a" P2Optional "A" 2; mkField "n" P2Optional TInt32 3 None None false false] "" "" false] "p" [gN].
Definition gC := gm "C" [rf "self" P2Required "C" 1] [] "p" [].
Definition gD := gm "D" [rf "a" P2Optional "A" 1; rf "c" P2Optional "C" 2] [] "p" [].
Definition gDesc : file_descriptor := mkDesc "p" Proto2 [gA; gB; gC; gD] [] "".

Example C37_case : exists d, resolve_types gDesc = GOk d /\
  sccs d = GOk [ [[2%nat]]; [[1%nat; 0%nat]; [1%nat]; [0%nat]]; [[3%nat]] ].
Proof. eexists. split; vm_compute; reflexivity. Qed.

(* ====================================================================== *)
(** * C36: generated types are finite *)

(** no message contains itself, at any depth of containment by value *)
Theorem C36_finite : forall d0 d error_cycle d', resolve_types d0 = GOk d ->
  break_cycles error_cycle d = GOk d' ->
  forall i, ~ clos_trans_1n _ (contains d') i i.
Proof.
  intros d0 d ec d' H E i C. destruct (break_cycles_rank ec d d' (resolve_types_indexed _ _ H) E) as (rank & Hr).
  assert (Ex : forall x y, clos_trans_1n _ (contains d') x y -> exists_in d' x).
  { intros x y P. inversion P as [? B|? ? B P']; subst; destruct B as (m & _ & G & _); now exists m. }
  assert (D : forall x y, clos_trans_1n _ (contains d') x y -> exists_in d' y -> (rank y < rank x)%nat).
  { intros x y P. induction P as [x y B|x w y B P IH]; intros Hy.
    - apply Hr; [now apply contains_by_value|exact Hy].
    - pose proof (IH Hy). assert (rank w < rank x)%nat; [|lia]. apply Hr; [now apply contains_by_value|exact (Ex w y P)]. }
  pose proof (D i i C (Ex i i C)). lia.
Qed.
Print Assumptions C36_finite.

(** without --error-cycle breaking never fails; with it, the only error is a
    reported cycle *)
Theorem C36_total : forall d0 d error_cycle, resolve_types d0 = GOk d ->
  (exists d', break_cycles error_cycle d = GOk d') \/
  (error_cycle = true /\ exists names, break_cycles error_cycle d = GErr (ErrCycle names)).
Proof.
  intros d0 d ec H. destruct (break_cycles_ok ec d (resolve_types_indexed _ _ H)) as (cs & _ & [(d' & E & _)|(-> & names & E & _)]); eauto.
Qed.
Print Assumptions C36_total.

(** [f'] is what becomes of [f] in message [i]: the same field, or the same
    field boxed and optional - and then the message it refers to contains [i]
    again, so the box cuts a cycle *)
Definition cut_if_needed (d : file_descriptor) (i : midx) (f f' : field) : Prop :=
  f' = f \/
  exists j, f_typ f = TMessage j /\ clos_refl_trans_1n _ (contains d) j i /\
    freq_is_repeated (f_freq f) = false /\
    f' = mkField (f_name f)
           match f_freq f with P2Optional | P2Repeated | P2Required | P2Map => P2Optional | _ => P3Optional end
           (f_typ f) (f_number f) (f_default f) (f_packed f) true (f_deprecated f).
(** everything else is unchanged *)
Theorem C36_conservative : forall d0 d error_cycle d', resolve_types d0 = GOk d ->
  break_cycles error_cycle d = GOk d' -> desc_rel (cut_if_needed d) d d'.
Proof.
  intros d0 d ec d' H E. destruct (break_cycles_ok ec d (resolve_types_indexed _ _ H)) as (cs & Es & [(d1 & E1 & R & _)|(-> & names & E1 & _)]); [|congruence].
  rewrite E in E1. injection E1 as <-. destruct (sccs_ok d (resolve_types_indexed _ _ H)) as (cs' & Es' & _ & _ & _ & St).
  rewrite Es in Es'. injection Es' as <-.
  apply (desc_rel_impl (evo ec (inside_any cs))); [|exact R]. intros p f f' [->|(j & T & (c & Hc & Pc & Jc) & Rp & _ & ->)]; [now left|].
  right. exists j. split; [exact T|]. split; [apply contains_path, (St c); assumption|]. split; [exact Rp|].
  unfold set_boxed. now destruct (f_freq f).
Qed.
Print Assumptions C36_conservative.

(** a schema without recursion by value is left alone *)
Theorem C36_acyclic_untouched : forall d0 d error_cycle d', resolve_types d0 = GOk d ->
  (forall i, ~ clos_trans_1n _ (contains d) i i) ->
  (forall i m f, get_message d i = Some m -> In f (all_fields m) -> f_boxed f = false) ->
  break_cycles error_cycle d = GOk d' -> d' = d.
Proof.
  intros d0 d ec d' H A B E. apply desc_eq. pose proof (C36_conservative d0 d ec d' H E) as (R & R').
  split; [|exact R']. intros p. specialize (R p). inversion R as [|m m' M E1 E2]; constructor.
  assert (Q : forall f f', In f (all_fields m) -> cut_if_needed d p f f' -> f = f').
  { intros f f' Hf [->|(j & T & P & Rp & _)]; [reflexivity|]. exfalso. apply (A p).
    assert (C : contains d p j). { exists m, f. split; [now symmetry|]. split; [exact Hf|]. split; [exact T|]. split; [apply (B p m f); auto|exact Rp]. }
    assert (K : forall x y, clos_refl_trans_1n _ (contains d) x y -> forall z, contains d z x -> clos_trans_1n _ (contains d) z y).
    { intros x y Q. induction Q as [x|x w y S Q IH]; intros z Z; [now apply t1n_step|]. exact (Relation_Operators.t1n_trans _ _ z x y Z (IH x S)). }
    exact (K j p P p C). }
  destruct M as (M1 & M2 & M3). split; [|split; [|exact M3]].
  - assert (Sub : forall f, In f (m_fields m) -> In f (all_fields m)) by (intros f Hf; apply in_or_app; now left).
    clear - M1 Q Sub. induction M1 as [|f f' l l' C F IH]; constructor; [apply Q; [apply Sub; now left|exact C]|].
    apply IH. intros g Hg. apply Sub. now right.
  - assert (Sub : forall o f, In o (m_oneofs m) -> In f (o_fields o) -> In f (all_fields m)).
    { intros o f Ho Hf. apply in_or_app. right. apply in_flat_map. eauto. }
    clear - M2 Q Sub. induction M2 as [|o o' l l' (O1 & O2) F IH]; constructor.
    + split; [|exact O2]. assert (Sub' : forall f, In f (o_fields o) -> In f (all_fields m)) by (intros f Hf; apply (Sub o); [now left|exact Hf]).
      clear - O1 Q Sub'. induction O1 as [|f f' l l' C F IH]; constructor; [apply Q; [apply Sub'; now left|exact C]|].
      apply IH. intros g Hg. apply Sub'. now right.
    + apply IH. intros o1 f Ho Hf. apply (Sub o1); [now right|exact Hf].
Qed.
Print Assumptions C36_acyclic_untouched.

(** the fields of every message as (boxed, frequency) *)
Definition shape (d : file_descriptor) : list (text * list (text * bool * frequency)) :=
  map (fun '(_, m) => (m_name m, map (fun f => (f_name f, f_boxed f, f_freq f)) (all_fields m))) (all_messages d).
Example C36_case : exists d d', resolve_types gDesc = GOk d /\ break_cycles false d = GOk d' /\
  clos_trans_1n _ (contains d) [0%nat] [0%nat] /\
  shape d' =
  [ ("A", [("b", true, P2Optional); ("ds", false, P2Repeated)]);
    ("B", [("c", false, P2Optional); ("n", true, P2Optional); ("a", true, P2Optional); ("n", false, P2Optional)]);
    ("N", [("b", true, P2Optional)]);
    ("C", [("self", true, P2Optional)]);
    ("D", [("a", false, P2Optional); ("c", false, P2Optional)]) ].
Proof.
  eexists. eexists. split; [vm_compute; reflexivity|]. split; [vm_compute; reflexivity|]. split; [|vm_compute; reflexivity].
  apply (Relation_Operators.t1n_trans _ _ _ [1%nat]).
  - eexists. eexists. split; [reflexivity|]. split; [left; reflexivity|]. split; [reflexivity|split; reflexivity].
  - apply t1n_step. eexists. eexists. split; [reflexivity|]. split; [right; right; left; reflexivity|]. split; [reflexivity|split; reflexivity].
Qed.

(* ====================================================================== *)
(** * C38: --error-cycle *)

(** a field that must be present: not optional, not repeated, not boxed *)
Definition mandatory (f : field) : Prop := by_val f /\ freq_is_optional (f_freq f) = false.

(** completeness: a message that contains itself through mandatory fields is
    reported *)
Theorem C38_complete : forall d0 d i, resolve_types d0 = GOk d ->
  clos_trans_1n _ (has_field mandatory d) i i ->
  exists names, break_cycles true d = GErr (ErrCycle names).
Proof.
  intros d0 d i H C. destruct (C36_total d0 d true H) as [(d' & E)|(_ & names & E)]; [|eauto]. exfalso.
  apply (C36_finite d0 d true d' H E i).
  destruct (break_cycles_ok true d (resolve_types_indexed _ _ H)) as (cs & _ & [(d1 & E1 & R & _)|(_ & names & E1 & _)]); [|congruence].
  rewrite E in E1. injection E1 as <-.
  assert (K : forall x y, has_field mandatory d x y -> contains d' x y).
  { intros x y (m & f & G & Hf & T & B & O). destruct (desc_rel_fwd _ _ _ _ _ R G) as (m' & G' & M).
    destruct (Forall2_in_l _ _ _ (msg_rel_fields _ _ _ M) f Hf) as (f' & Hf' & Ev).
    destruct Ev as [->|(j & _ & _ & _ & Op & _)]; [exists m', f; auto|]. rewrite (Op eq_refl) in O. discriminate. }
  clear - C K. revert C. generalize i at 1 3. intros i' C. induction C as [x y S|x w y S C IH]; [apply t1n_step; auto|apply (Relation_Operators.t1n_trans _ _ x w y); auto].
Qed.
Print Assumptions C38_complete.

(** what an error does tell: some message [i] has a field that is not optional
    (it may be repeated) of message type [j], and [j] contains [i] by value or
    is [i].  Missing from C38: that the cycle consists of mandatory fields. *)
Theorem C38_error_partial : forall d0 d names, resolve_types d0 = GOk d ->
  break_cycles true d = GErr (ErrCycle names) ->
  exists i j, has_field (fun f => f_boxed f = false /\ freq_is_optional (f_freq f) = false) d i j /\
    clos_refl_trans_1n _ (contains d) j i.
Proof.
  intros d0 d names H E. destruct (break_cycles_ok true d (resolve_types_indexed _ _ H)) as (cs & Es & [(d1 & E1 & _)|(_ & names' & _ & c & Hc & W)]); [congruence|].
  destruct (sccs_ok d (resolve_types_indexed _ _ H)) as (cs' & Es' & _ & _ & _ & St). rewrite Es in Es'. injection Es' as <-.
  destruct W as (v & m & f & j & Hv & G & Hf & T & Hj & B & O). exists v, j. split.
  - exists m, f. auto.
  - apply contains_path, (St c); assumption.
Qed.
Print Assumptions C38_error_partial.

(** with --error-cycle, success changes no frequency: only optional fields are
    boxed *)
Theorem C38_success : forall d0 d d', resolve_types d0 = GOk d -> break_cycles true d = GOk d' ->
  desc_rel (fun _ f f' => f' = f \/ (freq_is_optional (f_freq f) = true /\
    f' = mkField (f_name f) (f_freq f) (f_typ f) (f_number f) (f_default f) (f_packed f) true (f_deprecated f))) d d'.
Proof.
  intros d0 d d' H E. destruct (break_cycles_ok true d (resolve_types_indexed _ _ H)) as (cs & _ & [(d1 & E1 & R & _)|(_ & names & E1 & _)]); [|congruence].
  rewrite E in E1. injection E1 as <-. apply (desc_rel_impl (evo true (inside_any cs))); [|exact R].
  intros p f f' [->|(j & _ & _ & _ & O & ->)]; [now left|]. right. specialize (O eq_refl). split; [exact O|].
  now rewrite (optional_of_same _ O).
Qed.
Print Assumptions C38_success.

(** [message M { repeated M children = 1; }] is a finite type - no message
    contains anything by value - and is rejected *)
Definition treeDesc : file_descriptor :=
  mkDesc "" Proto2 [gm "M" [rf "children" P2Repeated "M" 1] [] "" []] [] "".
Theorem C38_refuted : exists d0 d names, resolve_types d0 = GOk d /\
  break_cycles true d = GErr (ErrCycle names) /\
  forall i j, ~ contains d i j.
Proof.
  exists treeDesc. eexists. exists ["M"]. split; [vm_compute; reflexivity|]. split; [vm_compute; reflexivity|].
  intros i j (m & f & G & Hf & _ & _ & R). apply get_message_in in G. cbn in G. destruct G as [G|[]]. injection G as <- <-.
  cbn in Hf. destruct Hf as [<-|[]]. discriminate R.
Qed.
Print Assumptions C38_refuted.

(** [message A { required B b = 1; } message B { optional A a = 1; }]: boxing
    the optional field makes the types finite, no message contains itself
    through mandatory fields, and still the schema is rejected *)
Definition pairDesc : file_descriptor :=
  mkDesc "" Proto2 [gm "A" [rf "b" P2Required "B" 1] [] "" []; gm "B" [rf "a" P2Optional "A" 1] [] "" []] [] "".
Theorem C38_optional_refuted : exists d0 d names, resolve_types d0 = GOk d /\
  break_cycles true d = GErr (ErrCycle names) /\
  forall i, ~ clos_trans_1n _ (has_field mandatory d) i i.
Proof.
  exists pairDesc. eexists. eexists. split; [vm_compute; reflexivity|]. split; [vm_compute; reflexivity|].
  intros i C.
  assert (K : forall x y, has_field mandatory (mkDesc "" Proto2
     [set_index (gm "A" [mkField "b" P2Required (TMessage [1%nat]) 1 None None false false] [] "" []) [0%nat];
      set_index (gm "B" [mkField "a" P2Optional (TMessage [0%nat]) 1 None None false false] [] "" []) [1%nat]] [] "") x y ->
     x = [0%nat] /\ y = [1%nat]).
  { intros x y (m & f & G & Hf & T & _ & O). apply get_message_in in G. cbn in G. destruct G as [G|[G|[]]]; injection G as <- <-; cbn in Hf; destruct Hf as [<-|[]].
    - cbn in T. injection T as <-. auto.
    - discriminate O. }
  inversion C as [? S|y ? S C']; subst; apply K in S; destruct S as (-> & Hy); [discriminate|]. subst y.
  inversion C' as [? S|y ? S C'']; subst; apply K in S; destruct S; discriminate.
Qed.
Print Assumptions C38_optional_refuted.

Example C38_case : exists d names, resolve_types gDesc = GOk d /\ break_cycles true d = GErr (ErrCycle names) /\
  clos_trans_1n _ (has_field mandatory d) [2%nat] [2%nat].
Proof.
  eexists. eexists. split; [vm_compute; reflexivity|]. split; [vm_compute; reflexivity|].
  apply t1n_step. eexists. eexists. split; [reflexivity|]. split; [left; reflexivity|]. split; [reflexivity|]. split; [split; reflexivity|reflexivity].
Qed.
