(** C100: how many activations of from_reader decoding needs. *)
From Coq Require Import String Arith ZArith Lia Relations Operators_Properties.
From Verif Require Import Base BaseFacts Reader PackedFixed Writer Spec Schema Gen GenSem WriterFacts Sizeofs DelimFacts SimFacts GenSpec GenCheck GenEmit GenSame GenSim LifetimeFacts MeanSize Stack StackDeep Examples Props_Generated.
Import StringSyntax.
Local Open Scope string_scope.
Local Open Scope list_scope.
Local Open Scope Z_scope.

(** [on_stack] is the decoder of GenSem.v: whatever it gives without running out is
    what from_reader gives, and whatever from_reader gives it gives with enough
    frames. *)
Theorem C100_same_program : forall D c lit t m bs r o,
  o <> NoFuel ->
  (exists n, fst (from_reader D c lit t n m bs r) = o) <->
  (exists frames fuel, fst (on_stack D c lit t frames fuel m bs r) = o).
Proof.
  intros D c lit t m bs r o Ho. split.
  - intros (n & E). exists n, n. rewrite (mono_to_stack D c lit t n m bs r); [exact E|congruence].
  - intros (f & k & E). exists (f + k)%nat. rewrite (mono_of_stack D c lit t f k m bs r); [exact E|congruence].
Qed.
Print Assumptions C100_same_program.

(** A schema in which references go down: the activations of from_reader are bounded by
    the rank of the message, whatever the input, the target and the state of the reader;
    a bigger stack changes nothing.  Missing: the size of a frame, the calls of the
    reader below from_reader (a fixed number), and recursive schemas (below). *)
Theorem C100_bounded_partial : forall D c lit t (rank : midx -> nat),
  (forall i j, refers D c i j -> (rank j < rank i)%nat) ->
  forall i bs r,
  (forall frames fuel, (rank i < frames)%nat -> on_stack D c lit t frames fuel i bs r = on_stack D c lit t (S (rank i)) fuel i bs r) /\
  (forall n, fst (from_reader D c lit t n i bs r) <> NoFuel -> on_stack D c lit t (S (rank i)) n i bs r = from_reader D c lit t n i bs r).
Proof.
  intros D c lit t rank R' i bs r.
  split; [intros frames fuel H; exact (ranked D c lit t rank R' frames i fuel H bs r)|].
  intros n H. pose proof (mono_to_stack D c lit t n i bs r H) as E. destruct (Nat.le_gt_cases n (rank i)) as [L|L].
  - pose proof (mono_on_stack D c lit t n (S (rank i)) n n i ltac:(lia) ltac:(lia) bs r) as M. rewrite E in M. exact (M H).
  - rewrite <- (ranked D c lit t rank R' n i n L bs r). exact E.
Qed.
Print Assumptions C100_bounded_partial.

(** With overflow checks, an input of [n] bytes needs at most [n + 1] activations,
    whatever the schema. *)
Theorem C100_input_length : forall D c lit t m bs, overflow_checks t = true -> buf_ok t bs ->
  forall frames fuel, (length bs < frames)%nat -> (length bs < fuel)%nat ->
  fst (on_stack D c lit t frames fuel m bs (from_bytes bs)) = decode D c lit t (S (length bs)) m bs /\
  fst (on_stack D c lit t frames fuel m bs (from_bytes bs)) <> NoFuel.
Proof.
  intros D c lit t m bs CH Hb frames fuel Hf Hk.
  destruct (C16_terminates_checked_partial D c lit t m bs CH Hb (S (length bs)) ltac:(lia)) as (N & _ & _). unfold decode in *.
  pose proof (mono_to_stack D c lit t (S (length bs)) m bs (from_bytes bs) N) as E.
  pose proof (mono_on_stack D c lit t (S (length bs)) frames (S (length bs)) fuel m ltac:(lia) ltac:(lia) bs (from_bytes bs)) as M.
  rewrite E in M. rewrite (M N). split; [reflexivity|exact N].
Qed.
Print Assumptions C100_input_length.

(** Exactly which stacks are big enough: [N] frames are too few for some input that can be
    decoded with more frames iff there are [N] references one after the other from the
    message.  (The limit on [N] is for the length of the input.) *)
Theorem C100_exact : forall D c lit t N i, schema_wf D c lit -> get_message D i <> None -> Z.of_nat N <= 2 ^ 26 ->
  (chain D c N i <->
   exists bs, buf_ok t bs /\ (forall fuel, fst (on_stack D c lit t N fuel i bs (from_bytes bs)) = NoFuel) /\
     exists frames fuel, fst (on_stack D c lit t frames fuel i bs (from_bytes bs)) <> NoFuel).
Proof.
  intros D c lit t N i WF G HN. split.
  - intros C. destruct (deep_input t D c lit WF N i C G HN) as (b & L & S & R). exists b.
    assert (U : 2 ^ 31 <= usize_mod t / 2) by (destruct t as [[] []]; vm_compute; discriminate).
    assert (Hb : buf_ok t b) by (unfold buf_ok; change (2 ^ 26) with 67108864 in HN; change (2 ^ 31) with 2147483648 in U; lia).
    split; [exact Hb|]. assert (Hh : here b 0 b) by (exists [], []; rewrite app_nil_r; auto). unfold from_bytes. split.
    + intros fuel. exact (S fuel b 0 Hh Hb).
    + exists (Datatypes.S N), (Datatypes.S (length b)). destruct (R (Datatypes.S (length b)) ltac:(lia)) as (ss & Rs).
      destruct (here_reads_window t _ b ss b 0 Rs Hh Hb) as (s' & E). cbn [Z.add] in E. rewrite E. discriminate.
  - intros (bs & Hb & S & frames & fuel & F). destruct (chain_dec D c N i) as [C|C]; [exact C|]. contradiction F.
    destruct (Nat.le_gt_cases N frames) as [L|L].
    + rewrite <- (chained D c lit t N frames i fuel L C bs (from_bytes bs)). apply S.
    + exfalso. apply F. destruct (fst (on_stack D c lit t frames fuel i bs (from_bytes bs))) eqn:E; try reflexivity.
      all: pose proof (mono_on_stack D c lit t frames N fuel fuel i ltac:(lia) ltac:(lia) bs (from_bytes bs) ltac:(congruence)) as M; pose proof (S fuel); congruence.
Qed.
Print Assumptions C100_exact.

(** The inputs that need the frames are short and decoded without an error when there is
    one frame more. *)
Theorem C100_deep_inputs : forall D c lit t N i, schema_wf D c lit -> get_message D i <> None -> Z.of_nat N <= 2 ^ 26 -> chain D c N i ->
  exists bs ss, zlen bs <= 16 * Z.of_nat N /\
    (forall fuel, fst (on_stack D c lit t N fuel i bs (from_bytes bs)) = NoFuel) /\
    (forall frames fuel, (N < frames)%nat -> (length bs < fuel)%nat -> fst (on_stack D c lit t frames fuel i bs (from_bytes bs)) = Ok ss) /\
    (forall n, (N + 1 + length bs < n)%nat -> decode D c lit t n i bs = Ok ss).
Proof.
  intros D c lit t N i WF G HN C. destruct (deep_input t D c lit WF N i C G HN) as (b & L & S & R).
  assert (U : 2 ^ 31 <= usize_mod t / 2) by (destruct t as [[] []]; vm_compute; discriminate).
  assert (Hb : buf_ok t b) by (unfold buf_ok; change (2 ^ 26) with 67108864 in HN; change (2 ^ 31) with 2147483648 in U; lia).
  assert (Hh : here b 0 b) by (exists [], []; rewrite app_nil_r; auto).
  destruct (R (Datatypes.S (length b)) ltac:(lia)) as (ss & Rs). destruct (here_reads_window t _ b ss b 0 Rs Hh Hb) as (s' & E). cbn [Z.add] in E.
  assert (X : forall frames fuel, (N < frames)%nat -> (length b < fuel)%nat -> fst (on_stack D c lit t frames fuel i b (from_bytes b)) = Ok ss).
  { intros frames fuel Hf Hk. pose proof (mono_on_stack D c lit t (Datatypes.S N) frames (Datatypes.S (length b)) fuel i ltac:(lia) ltac:(lia) b (mkR 0 (zlen b))) as M.
    rewrite E in M. unfold from_bytes. rewrite (M ltac:(discriminate)). reflexivity. }
  exists b, ss. split; [exact L|]. split; [intros fuel; exact (S fuel b 0 Hh Hb)|]. split; [exact X|].
  intros n Hn. pose proof (X (Datatypes.S N) (Datatypes.S (length b)) ltac:(lia) ltac:(lia)) as Y. unfold decode.
  pose proof (mono_of_stack D c lit t (Datatypes.S N) (Datatypes.S (length b)) i b (from_bytes b)) as M. rewrite Y in M. specialize (M ltac:(discriminate)).
  destruct (Nat.le_gt_cases (Datatypes.S N + Datatypes.S (length b)) n) as [Le|Lt].
  - pose proof (mono_from_reader D c lit t (Datatypes.S N + Datatypes.S (length b)) n i Le b (from_bytes b)) as M2. rewrite M in M2.
    rewrite Y in M2. rewrite (M2 ltac:(discriminate)). exact Y.
  - lia.
Qed.
Print Assumptions C100_deep_inputs.

(** A message that is reached from itself has chains of every length, so that every stack
    is too small for some input. *)
Theorem C100_recursive : forall D c i, clos_trans midx (refers D c) i i -> forall N, chain D c N i.
Proof.
  intros D c i R. assert (X : forall N a b, clos_trans midx (refers D c) a b -> chain D c N b -> exists k, chain D c (Datatypes.S k) a /\ (N <= k)%nat).
  { intros N a b P. revert N. apply clos_trans_t1n in P. induction P as [a b H|a x b H P IH]; intros N C.
    - exists N. split; [exact (chain_step D c N a b H C)|lia].
    - destruct (IH N C) as (k & Ck & L). exists (Datatypes.S k). split; [exact (chain_step D c _ a x H Ck)|lia]. }
  assert (Y : forall k n a, (n <= k)%nat -> chain D c k a -> chain D c n a).
  { induction k as [|k IH]; intros n a L C; [destruct n; [constructor|lia]|]. destruct n as [|n]; [constructor|]. inversion C as [|? ? j H Cj]; subst.
    exact (chain_step D c n a j H (IH n j ltac:(lia) Cj)). }
  induction N as [|N IH]; [constructor|]. destruct (X N i i R IH) as (k & Ck & L). apply (Y (Datatypes.S k)); [lia|exact Ck].
Qed.
Print Assumptions C100_recursive.

(** A value with [n] messages inside each other is only decoded with [n] frames, not
    counting the nesting of default values. *)
Theorem C100_depth : forall D c lit t K, (forall i d, message_default D c lit i = Some d -> (slots_depth d <= K)%nat) ->
  forall frames fuel m bs r ss r', on_stack D c lit t frames fuel m bs r = (Ok ss, r') -> (slots_depth ss <= frames + K)%nat.
Proof. intros D c lit t K S frames fuel m bs r ss r' E. exact (depth_on_stack D c lit t K S frames fuel m bs r ss r' E). Qed.
Print Assumptions C100_depth.

(** ** A recursive schema *)
(** {v
syntax = "proto2";
message Node { optional Node next = 1; }
    v} *)
Definition nodeM : message := msg_of "Node" [ fld "next" P2Optional (TMessage [0%nat]) 1 None true ] [] [0%nat].
Definition nodeD : file_descriptor := mkDesc "" Proto2 [nodeM] [] "".
Lemma nodeD_wf : schema_wf nodeD cfg0 nolit.
Proof. apply schema_wfb_sound. vm_compute. reflexivity. Qed.
Fixpoint nodes (n : nat) : list slot := match n with O => [SlNone] | S n => [SlSome (VMsg (nodes n))] end.

Lemma node_none : forall i, i <> [0%nat] -> get_message nodeD i = None.
Proof.
  assert (X : forall l, fold_left (fun cur next => match cur with Some m => nth_error (m_messages m) next | None => None end) l None = None) by (induction l; auto).
  intros [|k i] H; [reflexivity|]. cbn [get_message]. destruct k as [|k]; [|destruct k; apply X].
  destruct i as [|j i]; [now contradiction H|]. cbn [nth_error d_messages nodeD fold_left]. destruct j; apply X.
Qed.
Lemma node_shallow : forall i d, message_default nodeD cfg0 nolit i = Some d -> (slots_depth d <= 0)%nat.
Proof.
  intros i d E. destruct (list_eq_dec Nat.eq_dec i [0%nat]) as [->|N]; [vm_compute in E; injection E as <-; auto|].
  unfold message_default in E. cbn [default_depth] in E. unfold default_depth in E. cbn [default_msg] in E. rewrite (node_none i N) in E. discriminate.
Qed.
Lemma nodes_depth n : slots_depth (nodes n) = n.
Proof. induction n as [|n IH]; [reflexivity|]. cbn [nodes slots_depth fold_right slot_depth value_depth]. fold (slots_depth (nodes n)). rewrite IH. lia. Qed.
Lemma nodes_ok n : message_ok nodeD cfg0 [0%nat] (nodes n).
Proof.
  induction n as [|n IH]; [cbn; auto|]. unfold message_ok. replace (get_message nodeD [0%nat]) with (Some nodeM) by reflexivity.
  change (struct_def cfg0 nodeM) with [TyOptionBox (TMessage [0%nat])]. cbn [nodes slots_ok]. split; [|exact Logic.I].
  change (val_ok nodeD cfg0 (TMessage [0%nat]) (VMsg (nodes n))). rewrite val_ok_msg. exact IH.
Qed.
Lemma nodes_nnz n : no_negative_zero nodeD cfg0 [0%nat] (nodes n).
Proof.
  induction n as [|n IH]; [cbn; auto|]. unfold no_negative_zero. replace (get_message nodeD [0%nat]) with (Some nodeM) by reflexivity.
  change (descs cfg0 nodeM) with [SdField (fld "next" P2Optional (TMessage [0%nat]) 1 None true)]. cbn [nodes nnz_slots]. split; [|exact Logic.I].
  change (nnz_value nodeD cfg0 (TMessage [0%nat]) (VMsg (nodes n))). rewrite nnz_value_msg. exact IH.
Qed.
Lemma nodeD_no_default : no_proto3_default nodeD.
Proof.
  intros i m f G Hin _. destruct (list_eq_dec Nat.eq_dec i [0%nat]) as [->|N]; [|rewrite (node_none i N) in G; discriminate].
  injection G as <-. destruct Hin as [<-|[]]. reflexivity.
Qed.
Lemma nodes_same n : forall ss, Forall2 same_slot (nodes n) ss -> ss = nodes n.
Proof.
  induction n as [|n IH]; intros ss H; cbn [nodes] in *; inversion H as [|? x ? ? S F]; subst; inversion F; subst; inversion S as [| |? w V| | | | |]; subst; [reflexivity|].
  inversion V as [| | |? s' W]; subst. now rewrite (IH s' W).
Qed.
Lemma nodes_enc n : enc_message nodeD cfg0 nolit [0%nat] (nodes (S n)) = x0a :: enc_len (enc_message nodeD cfg0 nolit [0%nat] (nodes n)).
Proof.
  rewrite <- (enc_value_msg nodeD cfg0 nolit [0%nat] (nodes n) nodeM eq_refl).
  unfold enc_message at 1. replace (get_message nodeD [0%nat]) with (Some nodeM) by reflexivity.
  cbn [nodes]. set (v := VMsg (nodes n)). change (descs cfg0 nodeM) with [SdField (fld "next" P2Optional (TMessage [0%nat]) 1 None true)].
  cbn [enc_slots enc_slot f_typ fld]. rewrite app_nil_r. reflexivity.
Qed.
Lemma nodes_len n : Z.of_nat n <= 2 ^ 29 -> zlen (enc_message nodeD cfg0 nolit [0%nat] (nodes n)) <= 6 * Z.of_nat n.
Proof.
  induction n as [|n IH]; intros H; [cbn; lia|]. rewrite nodes_enc. unfold zlen in *. cbn [length].
  specialize (IH ltac:(lia)). set (e := enc_message nodeD cfg0 nolit [0%nat] (nodes n)) in *. unfold enc_len. rewrite app_length, Nat2Z.inj_succ, Nat2Z.inj_add.
  fold (zlen (enc_varint (zlen e))). rewrite enc_varint_len by (unfold zlen; lia). unfold sizeof_varint, zlen.
  repeat match goal with |- context [?a <=? ?b] => destruct (Z.leb_spec a b) end; lia.
Qed.

(** With a recursive message no stack is big enough: for every number of frames [N] (up
    to 2^28, because of the limits on the length of a message) there is an input of at
    most 6 bytes a level that is the encoding of a proper value, that from_reader accepts
    with a bigger stack, and for which [N] frames are too few, however long the loops may
    run.  There is no limit on recursion in the generated code or the reader. *)
Theorem C100_unbounded_refuted : exists D c lit m, schema_wf D c lit /\
  forall t N, Z.of_nat N <= 2 ^ 28 -> exists bs ss, buf_ok t bs /\ zlen bs <= 6 * (Z.of_nat N + 1) /\ message_ok D c m ss /\
    emits (message_write D c lit m ss) bs /\
    (forall n, (length bs < n)%nat -> decode D c lit t n m bs = Ok ss) /\
    (forall fuel, fst (on_stack D c lit t N fuel m bs (from_bytes bs)) = NoFuel).
Proof.
  exists nodeD, cfg0, nolit, [0%nat]. split; [exact nodeD_wf|]. intros t N HN.
  set (ss := nodes (S N)). set (bs := enc_message nodeD cfg0 nolit [0%nat] ss).
  assert (L : zlen bs <= 6 * Z.of_nat (S N)) by (apply nodes_len; lia). assert (L0 : 0 <= zlen bs) by apply zlen_nonneg.
  assert (U : 2 ^ 31 <= usize_mod t / 2) by (destruct t as [[] []]; vm_compute; discriminate).
  assert (Hb : buf_ok t bs) by (unfold buf_ok; change (2 ^ 28) with 268435456 in HN; change (2 ^ 31) with 2147483648 in U; lia).
  pose proof (nodes_ok (S N)) as Ho. fold ss in Ho.
  destruct (message_emit nodeD cfg0 nolit nodeD_wf [0%nat] nodeM ss eq_refl Ho ltac:(fold bs; lia)) as (E & _). fold bs in E.
  assert (Z : no_negative_zero nodeD cfg0 [0%nat] ss) by apply nodes_nnz.
  assert (P : no_proto3_default nodeD) by exact nodeD_no_default.
  destruct (C26_roundtrip_partial nodeD cfg0 nolit t nodeD_wf P [0%nat] ss Ho Z ltac:(fold bs; lia)) as (R & _).
  destruct (R bs E Hb) as (ss' & S & Dec). apply nodes_same in S. subst ss'.
  exists bs, ss. split; [exact Hb|]. split; [lia|]. split; [exact Ho|]. split; [exact E|]. split; [exact Dec|].
  intros fuel. destruct (on_stack nodeD cfg0 nolit t N fuel [0%nat] bs (from_bytes bs)) as (o, r') eqn:Eo. cbn [fst].
  assert (X : o <> NoFuel -> o = Ok ss).
  { intros Hn. pose proof (mono_of_stack nodeD cfg0 nolit t N fuel [0%nat] bs (from_bytes bs)) as M. rewrite Eo in M. specialize (M Hn).
    pose proof (mono_from_reader nodeD cfg0 nolit t (N + fuel) (N + fuel + S (length bs)) [0%nat] ltac:(lia) bs (from_bytes bs)) as M'. rewrite M in M'. specialize (M' Hn).
    pose proof (Dec (N + fuel + S (length bs))%nat ltac:(lia)) as G. unfold decode in G. rewrite M' in G. exact G. }
  destruct o; try reflexivity; try (now discriminate X). assert (a = ss) by (injection (X ltac:(discriminate)); auto). subst a.
  pose proof (C100_depth nodeD cfg0 nolit t 0 node_shallow N fuel [0%nat] bs (from_bytes bs) ss r' Eo) as B.
  unfold ss in B. rewrite nodes_depth in B. lia.
Qed.
Print Assumptions C100_unbounded_refuted.

(** {v
syntax = "proto3";
message Top { Mid mid = 1; map<string, Mid> mids = 2; oneof o { Low low = 3; } }
message Mid { repeated Low lows = 1; }
message Low { int32 id = 1; }
    v} *)
Definition downD : file_descriptor := mkDesc "" Proto3
  [ msg_of "Top" [ fld "mid" P3Default (TMessage [1%nat]) 1 None false; fld "mids" P3Map (TMap TStringCow (TMessage [1%nat])) 2 None false ]
      [ mkOneof "o" [ fld "low" P3Optional (TMessage [2%nat]) 3 None false ] "" "" false ] [0%nat];
    msg_of "Mid" [ fld "lows" P3Repeated (TMessage [2%nat]) 1 (Some false) false ] [] [1%nat];
    msg_of "Low" [ fld "id" P3Default TInt32 1 None false ] [] [2%nat] ] [] "".
Definition downRank (i : midx) : nat := match i with [O] => 2 | [S O] => 1 | _ => 0 end.
(** mids { key: "k" value { lows { id: 7 } } } *)
Definition downBytes : bytes := [x12; x09; x0a; x01; x6b; x12; x04; x0a; x02; x08; x07].

(** The hypotheses are met by schemas with nested, repeated, mapped and chosen messages;
    rank + 1 frames are needed (one fewer is too few for [downBytes]), and a list of three
    nodes needs four. *)
Example C100_case :
  schema_wf downD cfg0 nolit /\
  (forall i j, refers downD cfg0 i j -> (downRank j < downRank i)%nat) /\
  chain downD cfg0 2 [0%nat] /\ ~ chain downD cfg0 3 [0%nat] /\ clos_trans midx (refers nodeD cfg0) [0%nat] [0%nat] /\
  (exists ss, on_stack downD cfg0 nolit (checked W64) 3 12 [0%nat] downBytes (from_bytes downBytes) = (Ok ss, mkR 11 11) /\ slots_depth ss = 2%nat) /\
  fst (on_stack downD cfg0 nolit (checked W64) 2 12 [0%nat] downBytes (from_bytes downBytes)) = NoFuel /\
  (let bs := enc_message nodeD cfg0 nolit [0%nat] (nodes 3) in bs = [x0a; x04; x0a; x02; x0a; x00] /\
   fst (on_stack nodeD cfg0 nolit (unchecked W32) 4 7 [0%nat] bs (from_bytes bs)) = Ok (nodes 3) /\
   fst (on_stack nodeD cfg0 nolit (unchecked W32) 3 100 [0%nat] bs (from_bytes bs)) = NoFuel).
Proof.
  assert (Q : forall i j, refers downD cfg0 i j -> (downRank j < downRank i)%nat).
  { intros i j (m & f & G & F & _ & L). apply get_message_in in G. cbn in G.
    assert (F' : In f (all_fields m)).
    { apply in_or_app. destruct F as [F|F]; [now left|right]. now apply in_flat_map. }
    clear F. rename F' into F.
    repeat (destruct G as [G|G]; [injection G as <- <-; cbn in F; repeat (destruct F as [<-|F]; [cbn in L; repeat (destruct L as [L|L]; [try discriminate L; injection L as <-; cbn; lia|]); contradiction|]); contradiction|]).
    contradiction. }
  split; [apply schema_wfb_sound; vm_compute; reflexivity|]. split; [exact Q|]. split; [|split; [|split]].
  - apply (chain_step _ _ 1 [0%nat] [1%nat]); [apply in_nexts; vm_compute; now left|].
    apply (chain_step _ _ 0 [1%nat] [2%nat]); [apply in_nexts; vm_compute; now left|constructor].
  - intros C. inversion C as [|? ? j R C1]; subst. inversion C1 as [|? ? j2 R2 C2]; subst. inversion C2 as [|? ? j3 R3 C3]; subst.
    apply Q in R, R2, R3. cbn in R. lia.
  - apply t_step. apply in_nexts. vm_compute. now left.
  - split; [eexists; split; vm_compute; reflexivity|]. split; [vm_compute; reflexivity|]. cbv zeta. split; [vm_compute; reflexivity|]. split; vm_compute; reflexivity.
Qed.
