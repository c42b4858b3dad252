(** The encoding of a message is a sequence of well-formed records, each
    belonging to its struct field. *)
From Coq Require Import ZifyBool ZifyNat ZifyN.
From Verif Require Import Base BaseFacts Utf8 Reader PackedFixed Writer Sizeofs Spec VarintFacts
  WriterFacts ScalarFacts DelimFacts PackedFixedFacts ExactFacts Schema Gen GenSem GenSpec GenEmit GenRead
  GenRecords GenLaws.

Lemma enc_varint_rec v : 0 <= v < 2 ^ 64 -> is_varint (enc_varint v) /\ (length (enc_varint v) <= 10)%nat /\ varint_value (enc_varint v) = v.
Proof.
  intros H. destruct (enc_varint_ok v H) as [A B]. split; [exact A|]. split; [|exact B].
  pose proof (enc_varint_len v H). pose proof (sizeof_varint_range v). unfold zlen in *. lia.
Qed.
Lemma payload_len b : zlen b < 2 ^ 64 -> field_payload 2 (enc_len b).
Proof.
  intros H. pose proof (zlen_nonneg b). destruct (enc_varint_rec (zlen b) ltac:(lia)) as (A & B & C).
  constructor; [exact A|exact B|]. rewrite C. apply Z.mod_small. lia.
Qed.
Lemma enc_len_le b : zlen b <= zlen (enc_len b).
Proof. unfold enc_len. rewrite zlen_app. pose proof (zlen_nonneg (enc_varint (zlen b))). lia. Qed.

(** the key of a field and a payload of its wire type *)
Lemma key_rec f p : field_payload (wire_type_num (f_typ f) (f_is_packed f)) p -> zlen p < 2 ^ 32 ->
  wrec_ok (mkRec (enc_key f) p) /\ rtag (mkRec (enc_key f) p) = field_tag f.
Proof.
  intros P L. pose proof (field_tag_range f) as R. unfold is_u in R. destruct (enc_varint_rec (field_tag f) ltac:(lia)) as (A & B & C).
  assert (T : rtag (mkRec (enc_key f) p) = field_tag f).
  { unfold rtag. cbn [rkey]. unfold enc_key. rewrite C. apply Z.mod_small. lia. }
  split; [|exact T]. split; [exact A|]. split; [exact B|]. split; [|exact L].
  rewrite T. unfold field_tag. rewrite wire_type_mod.
  pose proof (wire_type_range (f_typ f) (f_is_packed f)). rewrite Z.mod_small by lia. exact P.
Qed.

Section Enc.
Variable D : file_descriptor.
Variable c : config.
Variable lit : field_type -> text -> option value.
Notation val_ok := (val_ok D c).
Notation slot_ok := (slot_ok D c).
Notation enc_value := (enc_value D c lit).
Notation enc_slot := (enc_slot D c lit).

Lemma value_payload ty v : typ_ok D ty -> val_ok ty v -> zlen (enc_value ty v) < 2 ^ 32 ->
  field_payload (wire_type_num_non_packed ty) (enc_value ty v).
Proof.
  intros Ht Hv L.
  assert (V : forall z, field_payload 0 (enc_varint (wrapU 64 z))).
  { intros z. pose proof (Z.mod_pos_bound z (2 ^ 64) ltac:(lia)). destruct (enc_varint_rec (wrapU 64 z) ltac:(unfold wrapU; lia)) as (A & B & _).
    constructor; assumption. }
  destruct v as [z|b|b|ss].
  - destruct ty; cbn [GenSpec.val_ok] in Hv; try contradiction; cbn [GenSpec.enc_value wire_type_num_non_packed]; try apply V.
    + assert (field_payload 0 (enc_varint (zigzag z))); [|assumption].
      assert (0 <= zigzag z < 2 ^ 64) as R by (unfold zigzag, is_s in *; destruct (Z.leb_spec 0 z); lia).
      destruct (enc_varint_rec _ R) as (A & B & _). constructor; assumption.
    + constructor. apply le_bytes_length.
    + constructor. apply le_bytes_length.
    + constructor. apply le_bytes_length.
    + constructor. apply le_bytes_length.
    + constructor. apply le_bytes_length.
    + constructor. apply le_bytes_length.
  - cbn in Hv. subst ty. cbn. constructor; [|cbn; lia]. constructor. destruct b; vm_compute; reflexivity.
  - destruct ty; cbn in Hv; try contradiction; cbn [GenSpec.enc_value wire_type_num_non_packed] in *; apply payload_len; pose proof (enc_len_le b); lia.
  - destruct ty; cbn in Hv; try contradiction. cbn [typ_ok] in Ht. destruct (get_message D m) as [msg|] eqn:G; [|contradiction].
    rewrite (enc_value_msg D c lit m ss msg G) in *. apply payload_len. pose proof (enc_len_le (enc_message D c lit m ss)). lia.
Qed.

Lemma recs_one k p : recs_bytes [mkRec k p] = k ++ p.
Proof. unfold recs_bytes, rec_bytes. cbn. apply app_nil_r. Qed.

Definition recs_for (d : sdesc) (enc : bytes) : Prop :=
  exists rs, recs_bytes rs = enc /\ Forall wrec_ok rs /\ Forall (fun r => belongs d r = true) rs.

Lemma recs_for_nil d : recs_for d [].
Proof. exists []. auto. Qed.
Lemma recs_for_app d a b : recs_for d a -> recs_for d b -> recs_for d (a ++ b).
Proof.
  intros (r1 & <- & A1 & B1) (r2 & <- & A2 & B2). exists (r1 ++ r2). rewrite recs_bytes_app. rewrite !Forall_app. auto.
Qed.
Lemma recs_for_one d f p : In f (desc_fields d) -> field_payload (wire_type_num (f_typ f) (f_is_packed f)) p -> zlen (enc_key f ++ p) < 2 ^ 32 ->
  recs_for d (enc_key f ++ p).
Proof.
  intros Hf P L. rewrite zlen_app in L. pose proof (zlen_nonneg (enc_key f)).
  destruct (key_rec f p P ltac:(lia)) as [W T]. exists [mkRec (enc_key f) p]. rewrite recs_one. split; [reflexivity|].
  split; [constructor; auto|]. constructor; [|constructor]. unfold belongs. rewrite T. apply existsb_exists.
  exists (field_tag f). split; [apply in_map, Hf|apply Z.eqb_refl].
Qed.
Lemma recs_for_flat {A} d (g : A -> bytes) l : zlen (flat_map g l) < 2 ^ 32 ->
  (forall x, In x l -> zlen (g x) < 2 ^ 32 -> recs_for d (g x)) -> recs_for d (flat_map g l).
Proof.
  induction l as [|x l IH]; intros L H; cbn [flat_map] in *; [apply recs_for_nil|]. rewrite zlen_app in L.
  pose proof (zlen_nonneg (g x)). pose proof (zlen_nonneg (flat_map g l)).
  apply recs_for_app; [apply H; [left; reflexivity|lia]|]. apply IH; [lia|]. intros y Hy. apply H. right. exact Hy.
Qed.

Lemma slot_recs d s : desc_ok D c lit d -> packed_ok d -> slot_ok (sd_type c d) s -> zlen (enc_slot d s) < 2 ^ 32 ->
  recs_for d (enc_slot d s).
Proof.
  intros O P K L. destruct d as [f|vs].
  - cbn [desc_ok packed_ok sd_type] in *. destruct O as (O1 & O2 & O3 & _). rewrite enc_slot_field_eq in *.
    assert (Unp : freq_is_repeated (f_freq f) = false -> freq_is_map (f_freq f) = false -> f_is_packed f = false).
    { intros H1 H2. destruct (f_is_packed f); [|reflexivity]. destruct (P eq_refl); congruence. }
    assert (One : forall v, freq_is_repeated (f_freq f) = false -> freq_is_map (f_freq f) = false -> val_ok (f_typ f) v ->
       zlen (enc_key f ++ enc_value (f_typ f) v) < 2 ^ 32 -> recs_for (SdField f) (enc_key f ++ enc_value (f_typ f) v)).
    { intros v H1 H2 Hv Hl. apply recs_for_one; [left; reflexivity| |exact Hl]. rewrite (Unp H1 H2). rewrite H2 in O2.
      rewrite zlen_app in Hl. pose proof (zlen_nonneg (enc_key f)). apply value_payload; [exact O2|exact Hv|lia]. }
    unfold get_type, generated_type_of in K.
    destruct s as [v| |v|l|p|l| |i v]; try apply recs_for_nil.
    + destruct (elided D c lit f v); [apply recs_for_nil|]. destruct (f_boxed f); [contradiction K|].
      destruct (freq_is_map (f_freq f)) eqn:M; [destruct (f_typ f); contradiction K|].
      destruct (freq_is_repeated (f_freq f)) eqn:R; [destruct (f_is_packed f && is_fixed_size (f_typ f) && negb (c_dont_use_cow c)); contradiction K|].
      destruct (freq_is_optional (f_freq f)); [contradiction K|]. apply One; auto.
    + assert (freq_is_map (f_freq f) = false /\ freq_is_repeated (f_freq f) = false /\ val_ok (f_typ f) v) as (M & R & Hv).
      { destruct (f_boxed f).
        - specialize (O1 eq_refl). destruct (f_freq f); try discriminate O1; auto.
        - destruct (freq_is_map (f_freq f)); [destruct (f_typ f); contradiction K|].
          destruct (freq_is_repeated (f_freq f)); [destruct (f_is_packed f && is_fixed_size (f_typ f) && negb (c_dont_use_cow c)); contradiction K|].
          destruct (freq_is_optional (f_freq f)); [auto|contradiction K]. }
      apply One; auto.
    + destruct (f_boxed f); [contradiction K|]. destruct (freq_is_map (f_freq f)) eqn:M; [destruct (f_typ f); contradiction K|].
      destruct (freq_is_repeated (f_freq f)) eqn:R; [|destruct (freq_is_optional (f_freq f)); contradiction K].
      assert (Forall (val_ok (f_typ f)) l) as F.
      { destruct (f_is_packed f && is_fixed_size (f_typ f) && negb (c_dont_use_cow c)); [contradiction K|]. apply fold_right_Forall. exact K. }
      destruct (f_is_packed f) eqn:Pk.
      * destruct l as [|v l]; [apply recs_for_nil|]. apply recs_for_one; [left; reflexivity| |exact L].
        rewrite Pk. cbn [wire_type_num]. apply payload_len. rewrite zlen_app in L. pose proof (zlen_nonneg (enc_key f)).
        pose proof (enc_len_le (flat_map (enc_value (f_typ f)) (v :: l))). lia.
      * apply recs_for_flat; [exact L|]. intros v Hv Hl. rewrite Forall_forall in F. apply recs_for_one; [left; reflexivity| |exact Hl].
        rewrite Pk. rewrite zlen_app in Hl. pose proof (zlen_nonneg (enc_key f)). apply value_payload; [exact O2|apply F, Hv|lia].
    + destruct (pf_is_empty p); [apply recs_for_nil|]. destruct (f_boxed f); [contradiction K|].
      destruct (freq_is_map (f_freq f)) eqn:M; [destruct (f_typ f); contradiction K|].
      destruct (freq_is_repeated (f_freq f)) eqn:R; [|destruct (freq_is_optional (f_freq f)); contradiction K].
      destruct (f_is_packed f) eqn:Pk; [|contradiction K].
      apply recs_for_one; [left; reflexivity| |exact L]. rewrite Pk. cbn [wire_type_num]. apply payload_len.
      rewrite zlen_app in L. pose proof (zlen_nonneg (enc_key f)). pose proof (enc_len_le (pf_raw (fixed_kind_of (f_typ f)) p)). lia.
    + destruct (f_boxed f); [contradiction K|]. destruct (freq_is_map (f_freq f)) eqn:M.
      2: { destruct (freq_is_repeated (f_freq f)); [destruct (f_is_packed f && is_fixed_size (f_typ f) && negb (c_dont_use_cow c)); contradiction K|].
           destruct (freq_is_optional (f_freq f)); contradiction K. }
      destruct (f_typ f) as [| | | | | | | | | | | | | | | | | | | |tk tv] eqn:Ty; try contradiction K.
      apply recs_for_flat; [exact L|]. intros [k v] Hin Hl. apply recs_for_one; [left; reflexivity| |exact Hl]. rewrite Ty.
      assert (wire_type_num (TMap tk tv) (f_is_packed f) = 2) as -> by (unfold wire_type_num; destruct (f_is_packed f); reflexivity).
      apply payload_len. rewrite zlen_app in Hl. pose proof (zlen_nonneg (enc_key f)).
      match type of Hl with context [enc_len ?b] => pose proof (enc_len_le b) end. lia.
  - cbn [desc_ok packed_ok sd_type] in *. rewrite enc_slot_oneof_eq in *. destruct s; try apply recs_for_nil.
    destruct (nth_error vs variant) as [f|] eqn:N; [|apply recs_for_nil]. cbn in K. rewrite N in K. apply nth_error_In in N.
    rewrite Forall_forall in O, P. apply recs_for_one; [exact N| |exact L]. rewrite (P _ N).
    rewrite zlen_app in L. pose proof (zlen_nonneg (enc_key f)). apply value_payload; [apply O, N|exact K|lia].
Qed.

Lemma slots_recs ds : forall ss, Forall (desc_ok D c lit) ds -> Forall packed_ok ds -> slots_ok D c (map (sd_type c) ds) ss ->
  zlen (enc_slots D c lit ds ss) < 2 ^ 32 -> exists rs, recs_bytes rs = enc_slots D c lit ds ss /\ Forall wrec_ok rs.
Proof.
  induction ds as [|d ds IH]; intros [|s ss] O P K L; cbn [slots_ok map enc_slots] in *; try contradiction.
  - exists []. auto.
  - inversion O; subst. inversion P; subst. destruct K as [K1 K2]. rewrite zlen_app in L.
    pose proof (zlen_nonneg (enc_slot d s)). pose proof (zlen_nonneg (enc_slots D c lit ds ss)).
    destruct (slot_recs d s) as (r1 & E1 & W1 & _); [assumption..|lia|].
    destruct (IH ss) as (r2 & E2 & W2); [assumption..|lia|]. exists (r1 ++ r2). rewrite recs_bytes_app, E1, E2, Forall_app. auto.
Qed.

Theorem message_recs m ss : schema_wf D c lit -> schema_packed_ok D c -> message_ok D c m ss ->
  zlen (enc_message D c lit m ss) < 2 ^ 32 ->
  exists rs, recs_bytes rs = enc_message D c lit m ss /\ Forall wrec_ok rs.
Proof.
  intros WF P K L. unfold message_ok, enc_message in *. destruct (get_message D m) as [msg|] eqn:G; [|contradiction].
  destruct (WF m msg G) as [W1 _ _]. apply slots_recs; [exact W1|exact (P m msg G)| |exact L].
  rewrite <- struct_def_descs. exact K.
Qed.
End Enc.
