(** C93: what comes back from a round trip, for every value; and the same through
    the text of the generated file (C82). *)
From Coq Require Import String Ascii Arith ZArith Lia Bool.
From Verif Require Import Props_EndToEnd Props_Safety Props_Paths Props_Passes Props_Accepted Props_Generated Props_Wire Props_Defaults Props_TypeCheck Props_Literals Props_Text.
From Verif Require Import Base BaseFacts Utf8Facts Reader PackedFixed Writer Sizeofs Spec WriterFacts ScalarFacts DelimFacts VarintFacts SimFacts Schema Keywords Modules Passes Gen GenSem GenSpec
  GenEmit GenRead GenRecords GenType GenSame GenCheck GenBack Examples.
From Verif Require Import Cycles CycleFacts BreakFacts IndexFacts Pipeline PassFacts ResolveFacts AcceptFacts Parser ProtoText FileText ParserOut Import
  Paths PathFacts PlaceFacts.
From Verif Require Import RustTypes Emit Literals Output GenText RustLex RustAst RustParse GenAst LexFacts GenGood RustLit RustSem Meaning
  MeanFacts MeanSize MeanWrite MeanRead MeanConst MeanNames Props_Meaning.
Import Schema StringSyntax.
Local Open Scope string_scope.
Local Open Scope list_scope.
Local Open Scope Z_scope.

(** ** C93 *)

(** Every value of less than 2^32 bytes is written and read again as [ss'], which
    [back] describes; it is the same value iff every field that is left out because
    it equals its default holds zero ([kept]); and this is so of [ss'].
    The same [ss'] comes back whatever the machine and the build. *)
Theorem C93_roundtrip_exact : forall D c lit, schema_wf D c lit -> one_syntax D ->
  forall m ss, message_ok D c m ss -> zlen (enc_message D c lit m ss) < 2 ^ 32 ->
  let size := message_size D c lit m ss in let write := message_write D c lit m ss in
  exists enc full ss', emits write enc /\ serialize_into_vec size write = Ok full /\
    back D c lit m ss ss' /\ (Forall2 same_slot ss ss' <-> kept D c lit m ss) /\ kept D c lit m ss' /\
    (forall t n, buf_ok t enc -> (length enc < n)%nat -> decode D c lit t n m enc = Ok ss') /\
    (forall t n, buf_ok t full -> (length full <= n)%nat -> deserialize_from_slice t (from_reader D c lit t n m) full = Ok ss').
Proof.
  intros D c lit WF OS m ss Ho Hl size write.
  destruct (get_message D m) as [msg|] eqn:G; [|unfold GenSpec.message_ok in Ho; rewrite G in Ho; contradiction].
  pose proof (zlen_nonneg (enc_message D c lit m ss)) as N0.
  destruct (message_emit D c lit WF m msg ss G Ho ltac:(lia)) as [E S].
  pose proof (back_message D c lit WF OS m ss Ho) as B.
  exists (enc_message D c lit m ss), (enc_len (enc_message D c lit m ss)), (canon_message D c lit m ss).
  split; [exact E|]. split.
  { unfold serialize_into_vec, write_message, size. rewrite S, wrapU_small by lia.
    assert (M : emits (write_varint (zlen (enc_message D c lit m ss)) ++ write) (enc_len (enc_message D c lit m ss))).
    { apply emits_app; [apply write_varint_emits; lia|exact E]. }
    rewrite M. reflexivity. }
  split; [exact B|]. split; [exact (back_length_same D c lit m _ _ B)|]. split; [exact (proj1 (back_kept D c lit) _ _ _ B)|]. split.
  - intros t n Hb Hn. eapply roundtrip_from_reader; eassumption.
  - intros t n Hb Hn.
    assert (length (enc_message D c lit m ss) < n)%nat as Hn'.
    { unfold enc_len in Hn. rewrite app_length in Hn. pose proof (enc_varint_len (zlen (enc_message D c lit m ss)) ltac:(lia)) as L.
      pose proof (sizeof_varint_range (zlen (enc_message D c lit m ss))) as L2. unfold zlen at 1 in L. lia. }
    pose proof (from_reader_ok D c lit t WF n m msg ss G Ho Hn' Hl) as R.
    pose proof (run_alone _ _ _ _ (reads_len_varint t _ _ _ Hl R) Hb) as A.
    unfold deserialize_from_slice, Reader.read_message, from_bytes. rewrite A. reflexivity.
Qed.
Print Assumptions C93_roundtrip_exact.

(** In a schema that obeys protobuf (no [default] in proto3) the only values that do not
    come back are negative zeros in fields without presence. *)
Theorem C93_negative_zero : forall D c lit, schema_wf D c lit -> no_proto3_default D ->
  forall m ss, message_ok D c m ss -> (kept D c lit m ss <-> no_negative_zero D c m ss).
Proof. intros D c lit WF ND m ss Ho. exact (kept_no_negative_zero D c lit WF ND m ss Ho). Qed.
Print Assumptions C93_negative_zero.

(** A second round trip changes nothing: what was read is written and read again as the
    same value. *)
Theorem C93_second_roundtrip : forall D c lit t, schema_wf D c lit -> one_syntax D -> enums_ok D ->
  (forall ty s v, lit ty s = Some v -> val_ok D c ty v) ->
  forall m ss, message_ok D c m ss -> zlen (enc_message D c lit m ss) < 2 ^ 32 ->
  forall enc ss' n, emits (message_write D c lit m ss) enc -> buf_ok t enc -> (length enc < n)%nat -> decode D c lit t n m enc = Ok ss' ->
  zlen (enc_message D c lit m ss') < 2 ^ 32 ->
  forall enc', emits (message_write D c lit m ss') enc' -> buf_ok t enc' ->
  exists ss'', Forall2 same_slot ss' ss'' /\ forall k, (length enc' < k)%nat -> decode D c lit t k m enc' = Ok ss''.
Proof.
  intros D c lit t WF OS EN LIT m ss Ho Hl enc ss' n E Hb Hn Dc Hl' enc' E' Hb'.
  assert (Hm : get_message D m <> None) by (unfold GenSpec.message_ok in Ho; destruct (get_message D m); [discriminate|contradiction]).
  destruct (C93_roundtrip_exact D c lit WF OS m ss Ho Hl) as (enc0 & full0 & s0 & E0 & _ & _ & _ & K0 & R0 & _).
  pose proof (emits_det _ _ _ E E0) as ->. rewrite (R0 t n Hb Hn) in Dc. injection Dc as ->.
  assert (Ho' : message_ok D c m ss') by (exact (proj1 (C51_decoded_well_typed D c lit t WF EN LIT n m enc0 ss' Hm) (R0 t n Hb Hn))).
  destruct (C93_roundtrip_exact D c lit WF OS m ss' Ho' Hl') as (enc1 & full1 & s1 & E1 & _ & _ & I1 & _ & R1 & _).
  pose proof (emits_det _ _ _ E' E1) as ->. exists s1. split; [apply I1, K0|]. intros k Hk. exact (R1 t k Hb' Hk).
Qed.
Print Assumptions C93_second_roundtrip.

(** The schema of C33, with [int32 n = 1 [default = 42]]: 42 is left out and comes back as 0,
    -0.0 comes back as 0.0; the second time nothing changes.  And a message in which
    nothing is lost. *)
Example C93_case :
  (schema_wf ddD cfg0 ddlit /\ one_syntax ddD /\ message_ok ddD cfg0 [0%nat] [SlOne (VZ 42); SlOne (VZ (2 ^ 31))]) /\
  (back ddD cfg0 ddlit [0%nat] [SlOne (VZ 42); SlOne (VZ (2 ^ 31))] [SlOne (VZ 0); SlOne (VZ 0)] /\
   ~ kept ddD cfg0 ddlit [0%nat] [SlOne (VZ 42); SlOne (VZ (2 ^ 31))] /\ kept ddD cfg0 ddlit [0%nat] [SlOne (VZ 0); SlOne (VZ 0)]) /\
  (decode ddD cfg0 ddlit (checked W64) 9 [0%nat] (enc_message ddD cfg0 ddlit [0%nat] [SlOne (VZ 0); SlOne (VZ 0)]) = Ok [SlOne (VZ 0); SlOne (VZ 0)] /\
   enc_message ddD cfg0 ddlit [0%nat] [SlOne (VZ 0); SlOne (VZ 0)] = [x08; x00]) /\
  kept exD cfg0 nolit [0%nat] exVal.
Proof.
  split; [split; [exact ddD_wf|]; split; [left; reflexivity|cbn; repeat split; discriminate]|].
  split; [|split; [split; vm_compute; reflexivity|]].
  - split; [|split].
    + eapply bv_msg; [reflexivity|]. apply bs_cons; [apply bs_omitted; reflexivity|].
      apply bs_cons; [apply bs_omitted; reflexivity|apply bs_nil].
    + intros K. destruct K as [[K _] _]. specialize (K eq_refl). discriminate K.
    + cbn. repeat split; intros; try discriminate; reflexivity.
  - apply (C93_negative_zero exD cfg0 nolit exD_wf exD_no_default [0%nat] exVal exVal_ok). apply C26_case.
Qed.

(** ** C82, for every value *)

(** As C82_roundtrip_partial, for every message: [ss'] is what [back] says, and it is the
    same message iff no field without presence holds -0.0.  Missing: imports (C90), [-C],
    and messages of 2^32 bytes and more. *)
Theorem C82_exact_partial : forall check fs search n file d g d4 root stem filename services s t,
  good_file check fs search n file d g d4 root stem ->
  generated g d filename services = (s, None) -> config_ok g = true -> all_chars not_newline filename = true ->
  let c := g_passes g in let d' := after_escape c d4 in let prog := generated_program g d' d4 in
  exists f, parse_rust s = Some f /\ program_in prog d' (file_items f) /\
  forall i m ss depth, get_message d' i = Some m -> message_ok d' c i ss -> (slots_depth ss < depth)%nat ->
    zlen (enc_message d' c (rust_lit d') i ss) < 2 ^ 32 ->
  exists size write full ss',
    struct_size t (crate_names root d' stem) prog (default_depth d') depth i (rust_struct d' c i m ss) = Some size /\
    struct_write t (crate_names root d' stem) prog (default_depth d') depth i (rust_struct d' c i m ss) = Some write /\
    serialize_into_vec size write = Ok full /\
    back d' c (rust_lit d') i ss ss' /\ (Forall2 same_slot ss ss' <-> no_negative_zero d' c i ss) /\
    (buf_ok t full -> forall k, (length full <= k)%nat ->
      deserialize_from_slice t (struct_from t (crate_names root d' stem) prog (default_depth d') k i) full = Ok (rust_struct d' c i m ss')).
Proof.
  intros check fs search n file d g d4 root stem filename services s t Good H C F c d' prog.
  pose proof (good_process _ _ _ _ _ _ _ _ _ _ Good) as P.
  destruct (C80_program_in_file g d filename services s _ H (gf_names _ _ _ _ _ _ _ _ _ _ Good) C F P) as (d4' & f & B & _ & Q & In).
  assert (d4' = d4) as -> by (rewrite (gf_before _ _ _ _ _ _ _ _ _ _ Good) in B; congruence).
  exists f. split; [exact Q|]. split; [exact In|]. intros i m ss depth G Ok Dp Hl.
  destruct (C80_functions_partial _ _ _ _ _ _ _ _ _ _ t Good) as (_ & _ & _ & Fn). destruct (Fn i m ss depth G Ok Dp) as (Sz & Wr).
  destruct (good_schema _ _ _ _ _ _ _ _ _ _ Good) as (Wf & _ & N3).
  destruct (C93_roundtrip_exact _ _ _ Wf (or_intror (or_introl N3)) i ss Ok Hl) as (enc & full & ss' & _ & S & Bk & Kp & _ & _ & R).
  eexists _, _, full, ss'. split; [exact Sz|]. split; [exact Wr|]. split; [exact S|]. split; [exact Bk|].
  split; [rewrite Kp; exact (C93_negative_zero _ _ _ Wf N3 i ss Ok)|]. intros Bo k Lk. specialize (R t k Bo Lk).
  rewrite (deserialize_lifts (rust_struct d' c i m) t (GenSem.from_reader d' c (rust_lit d') t k i)).
  - fold c in R. fold d' in R. rewrite R. reflexivity.
  - intros bs r. exact (C81_from_reader_partial _ _ _ _ _ _ _ _ _ _ t Good k i m bs r G).
Qed.
Print Assumptions C82_exact_partial.
