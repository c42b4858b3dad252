(** Property theorems C15, C17, C51, C52: what decoding arbitrary and truncated
    input can and cannot do. *)
From Coq Require Import String ZifyBool ZifyNat ZifyN.
From Verif Require Import Base BaseFacts Utf8 Reader PackedFixed Writer Sizeofs Spec VarintFacts
  WriterFacts ScalarFacts DelimFacts Utf8Facts PackedFixedFacts ExactFacts SimFacts Schema Gen GenSem GenSpec GenEmit
  GenRead GenSame GenEnc GenCheck GenType GenCut Examples Props_Generated.
Import StringSyntax.
Local Open Scope string_scope.
Local Open Scope list_scope.
Local Open Scope Z_scope.

(** ** C15 *)

(** the call returns Ok or Err (or runs on: C16), from every state of the
    reader and on every buffer *)
Definition no_panic {A} (m : rd A) : Prop :=
  forall bs r, fst (m bs r) <> Panic /\ fst (m bs r) <> UB.

Lemma post_no_panic {A} (P : A -> Prop) (m : rd A) : post False P m -> no_panic m.
Proof. intros H bs r. specialize (H bs r). destruct (fst (m bs r)); split; intros E; try discriminate; contradiction. Qed.
Lemma no_panic_post {A} (m : rd A) : no_panic m -> post False (fun _ => True) m.
Proof. intros H bs r. specialize (H bs r). destruct (fst (m bs r)); try exact I; destruct H; congruence. Qed.

(** The read functions of the runtime, without overflow checks.
    Missing: read_packed_fixed, and builds with overflow checks; both panic,
    see below. *)
Theorem C15_readers_partial : forall t, overflow_checks t = false ->
  no_panic read_varint32 /\ no_panic read_varint64 /\ no_panic next_tag /\
  no_panic read_int32 /\ no_panic read_int64 /\ no_panic read_uint32 /\ no_panic read_uint64 /\
  no_panic read_sint32 /\ no_panic read_sint64 /\ no_panic read_bool /\
  no_panic (read_fixed32 t) /\ no_panic (read_fixed64 t) /\ no_panic (read_sfixed32 t) /\ no_panic (read_sfixed64 t) /\
  no_panic (read_float t) /\ no_panic (read_double t) /\ no_panic (read_bytes t) /\ no_panic (read_string t) /\
  (forall tag, no_panic (read_unknown t tag)) /\ no_panic read_to_end /\
  (forall E (from : Z -> E), no_panic (read_enum from)) /\
  (forall M (read : rd M) n, no_panic read -> no_panic (read_packed t n read)) /\
  (forall M (read : rd M), no_panic read -> no_panic (read_message t read)) /\
  (forall M (read : rd M) len, no_panic read -> no_panic (read_message_by_len t read len)) /\
  (forall K V n kd vd (rk : rd K) (rv : rd V), no_panic rk -> no_panic rv -> no_panic (read_map t n kd vd rk rv)).
Proof.
  intros t CH. assert (PA : overflow_checks t = true -> False) by congruence.
  repeat match goal with |- _ /\ _ => split end; intros;
    repeat match goal with H : no_panic _ |- _ => apply no_panic_post in H end;
    try (eapply post_no_panic; first [apply post_varint32|apply post_varint64|apply post_int32|apply post_int64
      |apply post_sint32|apply post_sint64|apply post_fixed32, PA|apply post_fixed64, PA|apply post_sfixed32, PA
      |apply post_sfixed64, PA|apply post_float, PA|apply post_double, PA|apply post_bytes, PA|apply post_string, PA
      |apply post_unknown, PA]; fail).
  - apply (post_no_panic (fun _ => True)). eapply post_rmap; [apply post_varint32|auto].
  - apply (post_no_panic (fun _ => True)). unfold read_to_end. eapply post_bind; [apply post_any_end|]. intros e _. apply post_set_start.
  - apply (post_no_panic (fun _ => True)). eapply post_rmap; [apply post_int32|auto].
  - eapply post_no_panic. apply (post_packed False t PA (fun _ => True)). assumption.
  - eapply post_no_panic. apply (post_len_varint False t PA (fun _ => True)). assumption.
  - eapply post_no_panic. apply (post_len False t PA (fun _ => True)). assumption.
  - eapply post_no_panic. apply (post_map False t PA (fun _ => True) (fun _ => True)); auto.
Qed.
Print Assumptions C15_readers_partial.
Example C15_readers_case : fst (read_bytes (unchecked W32) [xff; xff; xff; xff; x0f; x01] (mkR 0 6)) = Err EUnexpectedEndOfBuffer /\
  fst (read_unknown (unchecked W64) 122 loopBytes (mkR 2 2)) = Ok tt.
Proof. split; vm_compute; reflexivity. Qed.

(** Generated code never panics on any input, without overflow checks, for
    schemas without packed fixed-size fields.  Missing: those two. *)
Theorem C15_generated_partial : forall D c lit t, schema_wf D c lit -> enums_ok D ->
  (forall ty s v, lit ty s = Some v -> val_ok D c ty v) ->
  overflow_checks t = false -> ~ has_packed_fixed D c ->
  forall n m, get_message D m <> None -> no_panic (from_reader D c lit t n m).
Proof.
  intros D c lit t WF EN LIT CH NPF n m Hm. eapply post_no_panic.
  apply (post_from_reader D c lit WF EN LIT t False); [congruence|exact NPF|exact Hm].
Qed.
Print Assumptions C15_generated_partial.

(** Whatever the schema and the target, decoding has no undefined behaviour. *)
Theorem C15_no_undefined_behaviour : forall D c lit t, schema_wf D c lit -> enums_ok D ->
  (forall ty s v, lit ty s = Some v -> val_ok D c ty v) ->
  forall n m bs r, get_message D m <> None -> fst (from_reader D c lit t n m bs r) <> UB.
Proof.
  intros D c lit t WF EN LIT n m bs r Hm.
  pose proof (post_from_reader D c lit WF EN LIT t True (fun _ => I) (fun _ => I) n m Hm bs r) as H.
  destruct (fst (from_reader D c lit t n m bs r)); congruence || contradiction.
Qed.
Print Assumptions C15_no_undefined_behaviour.

(** exD without the packed fixed-size field *)
Definition npD : file_descriptor :=
  mkDesc "" Proto3 [msg_of "Outer"
  [ fld "name" P3Default TStringCow 1 None false;
    fld "inners" P3Repeated (TMessage [1%nat]) 3 (Some false) false;
    fld "ps" P3Repeated TSint64 5 (Some true) false;
    fld "mp" P3Map (TMap TStringCow (TMessage [1%nat])) 6 None false;
    fld "color" P3Default (TEnum (mkEidx [] 0)) 16 None false ] [] [0%nat]; exInner]
    [mkEnum "Color" [("RED"%string, 0); ("GREEN"%string, 1); ("DARK"%string, -5)] false "" ""] "".
Lemma npD_wf : schema_wf npD cfg0 nolit.
Proof. apply schema_wfb_sound. vm_compute. reflexivity. Qed.
Lemma color_enums D : d_enums D = [mkEnum "Color" [("RED"%string, 0); ("GREEN"%string, 1); ("DARK"%string, -5)] false "" ""] ->
  (forall m msg, In (m, msg) (all_messages D) -> m_enums msg = []) -> enums_ok D.
Proof.
  intros E H e en G. unfold get_enum in G.
  assert (X : en = mkEnum "Color" [("RED"%string, 0); ("GREEN"%string, 1); ("DARK"%string, -5)] false "" "").
  { destruct (e_msg e) as [|i l] eqn:Em.
    - rewrite E in G. destruct (e_pos e) as [|[]]; cbn in G; congruence.
    - destruct (get_message D (i :: l)) as [msg|] eqn:GM; [|discriminate]. rewrite (H _ _ (get_message_in _ _ _ GM)) in G.
      destruct (e_pos e); discriminate G. }
  subst en. cbn. split; [discriminate|]. repeat constructor; unfold is_s; lia.
Qed.
Lemma exD_enums : enums_ok exD.
Proof. apply color_enums; [reflexivity|]. cbn. intros m msg [H|[H|[]]]; injection H as <- <-; reflexivity. Qed.
Example C15_generated_case : schema_wf npD cfg0 nolit /\ enums_ok npD /\ ~ has_packed_fixed npD cfg0 /\
  decode npD cfg0 nolit (unchecked W32) 20 [0%nat] [x32; x05; x0a; x01; x6b; x12; x02] = Err EUnexpectedEndOfBuffer.
Proof.
  split; [exact npD_wf|]. split; [|split; [|vm_compute; reflexivity]].
  - apply color_enums; [reflexivity|]. cbn. intros m msg [H|[H|[]]]; injection H as <- <-; reflexivity.
  - intros (m & msg & f & G & Hin & P1 & P2 & P3). apply get_message_in in G. cbn in G.
    destruct G as [G|[G|[]]]; injection G as <- <-; cbn in Hin;
      repeat (destruct Hin as [Hin|Hin]; [injection Hin as <-; cbn in *; discriminate|]); contradiction.
Qed.

(** Panics: by overflow checks (the subtraction in read_unknown once the reader
    has run over the end of a nested message), and without them by the slice in
    read_packed_fixed. *)
Theorem C15_checked_refuted : exists D c lit m bs, schema_wf D c lit /\ buf_ok (checked W64) bs /\
  forall n, (length bs < n)%nat -> deserialize_from_slice (checked W64) (from_reader D c lit (checked W64) n m) bs = Panic.
Proof.
  exists exD, cfg0, nolit, [1%nat], loopBytes. split; [exact exD_wf|]. split; [vm_compute; reflexivity|].
  intros n Hn. cbn in Hn. do 13 (destruct n as [|n]; [lia|]). vm_compute. reflexivity.
Qed.
Print Assumptions C15_checked_refuted.
Definition cutBytes : bytes := [x06; x22; x04; x01].
Theorem C15_packed_fixed_refuted : exists D c lit m bs, schema_wf D c lit /\
  forall t, buf_ok t bs /\ forall n, (length bs < n)%nat ->
    deserialize_from_slice t (from_reader D c lit t n m) bs = Panic.
Proof.
  exists exD, cfg0, nolit, [0%nat], cutBytes. split; [exact exD_wf|].
  intros t. split; [destruct t as [[] []]; vm_compute; reflexivity|].
  intros n Hn. cbn in Hn. do 5 (destruct n as [|n]; [lia|]). destruct t as [[] []]; vm_compute; reflexivity.
Qed.
Print Assumptions C15_packed_fixed_refuted.

(** ** C17 *)

(** every strict prefix of a length-delimited encoding is refused.  Missing:
    when the schema has packed fixed-size fields the refusal can be a panic. *)
Theorem C17_truncated_partial : forall D c lit t, schema_wf D c lit ->
  forall m ss, message_ok D c m ss -> zlen (enc_message D c lit m ss) < 2 ^ 32 ->
  exists full, serialize_into_vec (message_size D c lit m ss) (message_write D c lit m ss) = Ok full /\
  forall cut rest, full = cut ++ rest -> rest <> [] -> buf_ok t full ->
  forall n, (length full <= n)%nat ->
  let r := deserialize_from_slice t (from_reader D c lit t n m) cut in
  ((exists e, r = Err e) \/ r = Panic) /\ (~ has_packed_fixed D c -> exists e, r = Err e).
Proof.
  intros D c lit t WF m ss Ho Hl.
  destruct (get_message D m) as [msg|] eqn:G; [|unfold message_ok in Ho; rewrite G in Ho; contradiction].
  pose proof (zlen_nonneg (enc_message D c lit m ss)) as N0.
  destruct (message_emit D c lit WF m msg ss G Ho ltac:(lia)) as [E S].
  exists (enc_len (enc_message D c lit m ss)). split.
  { unfold serialize_into_vec, write_message. rewrite S, wrapU_small by lia.
    assert (M : emits (write_varint (zlen (enc_message D c lit m ss)) ++ message_write D c lit m ss) (enc_len (enc_message D c lit m ss))).
    { apply emits_app; [apply write_varint_emits; lia|exact E]. }
    rewrite M. reflexivity. }
  intros cut rest Ec Nr Hb n Hn r.
  assert (X : forall pa : Prop, (has_packed_fixed D c -> pa) -> bad pa r).
  { intros pa PF. unfold r, deserialize_from_slice, read_message, from_bytes.
    set (body := enc_message D c lit m ss) in *.
    (* the window of the reader is the cut buffer, but read_len replaces it *)
    assert (W : cuts_window pa t (from_reader D c lit t n m) body).
    { apply (from_reader_cut D c lit t pa WF PF n m msg ss G Ho); [|exact Hl].
      fold body. pose proof (enc_len_gt body ltac:(lia)). lia. }
    assert (C : cuthere cut 0 (enc_len body)) by (exists [], cut, rest; auto).
    assert (L : 0 + zlen (enc_len body) < usize_mod t / 2) by (unfold buf_ok in Hb; lia).
    unfold enc_len in C, L. rewrite zlen_app in L. pose proof (half_le t). unfold read_len_varint.
    destruct (cuthere_app _ _ _ _ C) as [H1|[H1 H2]].
    - apply bad_bind. destruct (cut_varint (zlen body) cut 0 ltac:(lia) H1) as (l & K1 & K2 & K3 & K4).
      rewrite (read_varint32_eob _ _ _ l K1 K2 K3 K4). exact I.
    - erewrite bind_ok by (eapply here_reads_any; [apply (reads_varint32 (zlen body)); lia|exact H1]).
      rewrite Z.mod_small by lia. pose proof (cuthere_nonneg _ _ _ H2).
      unfold read_len. unfold bind at 1, get_end at 1. cbn [r_end]. unfold bind at 1, get_start at 1. cbn [r_start].
      unfold bind at 1, lift at 1. rewrite uadd_ok by lia. unfold bind at 1, set_end at 1. cbn [r_start].
      apply bad_bind. apply W; [exact H2|lia]. }
  split.
  - specialize (X True (fun _ => I)). unfold bad in X. destruct r; try contradiction; eauto.
  - intros NP. specialize (X False NP). unfold bad in X. destruct r; try contradiction; eauto.
Qed.
Print Assumptions C17_truncated_partial.
Example C17_case : message_ok exD cfg0 [0%nat] exVal /\ zlen exEnc = 110 /\
  map (fun k => deserialize_from_slice (checked W64) (from_reader exD cfg0 nolit (checked W64) 111 [0%nat]) (firstn k (x6e :: exEnc)))
      [0; 1; 5; 60; 110]%nat = repeat (Err EUnexpectedEndOfBuffer) 5.
Proof. split; [exact exVal_ok|]. split; vm_compute; reflexivity. Qed.

Theorem C17_rejected_with_error_refuted : exists D c lit m ss cut rest, schema_wf D c lit /\ message_ok D c m ss /\
  serialize_into_vec (message_size D c lit m ss) (message_write D c lit m ss) = Ok (cut ++ rest) /\ rest <> [] /\
  forall t n, (length (cut ++ rest) < n)%nat -> deserialize_from_slice t (from_reader D c lit t n m) cut = Panic.
Proof.
  exists exD, cfg0, nolit, [0%nat],
    [SlOne (VB []); SlOne (VMsg [SlOne (VZ 0); SlOne (VZ 0)]); SlVec []; SlPF (Owned [1]); SlVec []; SlMap [];
     SlNone; SlOne (VZ 0); SlVec []; SlOneofNone], [x08; x12; x00; x22; x04; x01], [x00; x00; x00].
  split; [exact exD_wf|]. split.
  { cbn. repeat match goal with |- _ /\ _ => split end; try exact I; try (unfold is_s, is_u; lia); auto.
    - exists []. split; [constructor|reflexivity].
    - exists [1]. split; [reflexivity|]. repeat constructor; unfold fk_range, is_u; cbn; lia.
    - constructor. }
  split; [vm_compute; reflexivity|]. split; [discriminate|].
  intros t n Hn. cbn in Hn. do 10 (destruct n as [|n]; [lia|]). destruct t as [[] []]; vm_compute; reflexivity.
Qed.
Print Assumptions C17_rejected_with_error_refuted.

(** A truncated message is accepted if the cut is in a field the message does
    not know, or in the body of a message without fields. *)
Theorem C17_foreign_truncation_refuted : exists D c lit m bs, schema_wf D c lit /\
  (* a length of 100 and a field of number 15 of 98 bytes, none of which is there *)
  bs = [x64; x7a; x62] /\
  forall t n, (length bs < n)%nat -> exists ss, deserialize_from_slice t (from_reader D c lit t n m) bs = Ok ss.
Proof.
  exists exD, cfg0, nolit, [1%nat], [x64; x7a; x62]. split; [exact exD_wf|]. split; [reflexivity|].
  intros t n Hn. cbn in Hn. do 4 (destruct n as [|n]; [lia|]). exists [SlOne (VZ 0); SlOne (VZ 0)].
  destruct t as [[] []]; vm_compute; reflexivity.
Qed.
Print Assumptions C17_foreign_truncation_refuted.

(** ** C51 *)
(** What decoding returns is a value of the generated type: numbers in range,
    strings UTF-8, enums declared, distinct map keys; whatever the input. *)
Theorem C51_decoded_well_typed : forall D c lit t, schema_wf D c lit -> enums_ok D ->
  (forall ty s v, lit ty s = Some v -> val_ok D c ty v) ->
  forall n m bs ss, get_message D m <> None ->
  (decode D c lit t n m bs = Ok ss -> message_ok D c m ss) /\
  (deserialize_from_slice t (from_reader D c lit t n m) bs = Ok ss -> message_ok D c m ss).
Proof.
  intros D c lit t WF EN LIT n m bs ss Hm.
  pose proof (post_from_reader D c lit WF EN LIT t True (fun _ => I) (fun _ => I) n m Hm) as H. split; intros E.
  - specialize (H bs (from_bytes bs)). unfold decode in E. rewrite E in H. exact H.
  - apply (post_len_varint True t (fun _ => I)) in H. specialize (H bs (from_bytes bs)).
    unfold deserialize_from_slice, read_message in E. rewrite E in H. exact H.
Qed.
Print Assumptions C51_decoded_well_typed.
Example C51_case : decode exD cfg0 nolit (unchecked W64) 20 [0%nat] [x80; x01; x63; x32; x02; x10; x05] = Err EUnexpectedEndOfBuffer /\
  exists ss, decode exD cfg0 nolit (unchecked W64) 20 [0%nat] [x80; x01; x63; x32; x02; x12; x00; x32; x00] = Ok ss /\
    nth_error ss 7 = Some (SlOne (VZ 0)) /\
    nth_error ss 5 = Some (SlMap [(VB [], VMsg [SlOne (VZ 0); SlOne (VZ 0)])]).
Proof. split; [vm_compute; reflexivity|]. eexists. split; [vm_compute; reflexivity|]. split; reflexivity. Qed.

(** ** C52 *)
(** Re-encoding a decoded message and decoding again gives the same message,
    whatever bytes it was decoded from.  Missing: as C26. *)
Theorem C52_transcode_partial : forall D c lit t, schema_wf D c lit -> no_proto3_default D -> enums_ok D ->
  (forall ty s v, lit ty s = Some v -> val_ok D c ty v) ->
  forall t' k m bs ss, get_message D m <> None -> decode D c lit t' k m bs = Ok ss -> no_negative_zero D c m ss ->
  zlen (enc_message D c lit m ss) < 2 ^ 32 ->
  forall enc, emits (message_write D c lit m ss) enc -> buf_ok t enc ->
  exists ss', Forall2 same_slot ss ss' /\ forall n, (length enc < n)%nat -> decode D c lit t n m enc = Ok ss'.
Proof.
  intros D c lit t WF P3 EN LIT t' k m bs ss Hm Hd Hz Hl enc He Hb.
  assert (Ho : message_ok D c m ss) by (exact (proj1 (C51_decoded_well_typed D c lit t' WF EN LIT k m bs ss Hm) Hd)).
  destruct (C26_roundtrip_partial D c lit t WF P3 m ss Ho Hz Hl) as [H _]. exact (H enc He Hb).
Qed.
Print Assumptions C52_transcode_partial.
Example C52_case : exists ss, decode exD cfg0 nolit (checked W32) 20 [0%nat] [x80; x01; x63; x0a; x01; x61; x82; x7d; x00; x0a; x01; x62] = Ok ss /\
  run vec_step (message_write exD cfg0 nolit [0%nat] ss) [] = (Ok tt, [x0a; x01; x62; x12; x00; x82; x7d; x00]) /\
  decode exD cfg0 nolit (checked W32) 20 [0%nat] [x0a; x01; x62; x12; x00; x82; x7d; x00] = Ok ss.
Proof. eexists. split; [vm_compute; reflexivity|]. split; vm_compute; reflexivity. Qed.
