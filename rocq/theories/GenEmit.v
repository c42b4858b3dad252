(** The generated write_message emits the specified encoding and get_size is
    its length. *)
From Coq Require Import ZifyBool ZifyNat ZifyN.
From Verif Require Import Base BaseFacts Utf8 Reader PackedFixed Writer Sizeofs Spec VarintFacts
  WriterFacts ScalarFacts DelimFacts PackedFixedFacts Schema Gen GenSem GenSpec.

(** the statements for a struct field *)
Definition sd_size (c : config) (d : sdesc) : size_stmt :=
  match d with
  | SdField f => field_size c f
  | SdOneof vs => ZsOneof (map (fun f => (gen_sizeof_varint (field_tag f), size_fn (f_typ f))) vs)
  end.
Definition sd_write (c : config) (d : sdesc) : write_stmt :=
  match d with
  | SdField f => field_write c f
  | SdOneof vs => WsOneof (map (fun f => (field_tag f, write_fn (f_typ f))) vs)
  end.

Lemma size_stmts_descs c msg : size_stmts c msg = map (sd_size c) (descs c msg).
Proof. unfold size_stmts, descs. rewrite map_app, !map_map. reflexivity. Qed.
Lemma write_stmts_descs c msg : write_stmts c msg = map (sd_write c) (descs c msg).
Proof. unfold write_stmts, descs. rewrite map_app, !map_map. reflexivity. Qed.
Lemma struct_def_descs c msg : struct_def c msg = map (sd_type c) (descs c msg).
Proof. unfold struct_def, descs. rewrite map_app, !map_map. reflexivity. Qed.

Lemma is_unit_descs c msg : is_unit msg = true -> descs c msg = [].
Proof.
  destruct msg as [n fs os ? ? ? ? ms ? ? ?]. cbn [is_unit m_fields m_oneofs].
  unfold descs, visible_fields. cbn [m_fields m_oneofs].
  destruct fs; [|discriminate]. destruct os; [|discriminate]. reflexivity.
Qed.

(** ** Tags *)
Lemma lor_small a w : 0 <= a -> 0 <= w < 8 -> Z.lor (a * 8) w = a * 8 + w.
Proof.
  intros Ha Hw. rewrite Z.lor_comm. replace (a * 8) with (Z.shiftl a 3) by (rewrite Z.shiftl_mul_pow2 by lia; reflexivity).
  rewrite lor_add by lia. rewrite Z.shiftl_mul_pow2 by lia. lia.
Qed.

Lemma wire_type_range t p : 0 <= wire_type_num t p < 8.
Proof. unfold wire_type_num. destruct p; [lia|]. destruct t; cbn; lia. Qed.

Lemma gen_tag_eq n t p : 0 <= n < 2 ^ 29 -> gen_tag n t p = 8 * n + wire_type_num t p.
Proof.
  intros H. unfold gen_tag. rewrite Z.shiftl_mul_pow2 by lia. change (2 ^ 3) with 8.
  rewrite wrapU_small by lia. rewrite lor_small; [lia|lia|apply wire_type_range].
Qed.

Lemma gen_tag_range n t p : is_u 32 (gen_tag n t p).
Proof.
  unfold gen_tag, wrapU, is_u. rewrite Z.shiftl_mul_pow2 by lia. change (2 ^ 3) with 8.
  change (2 ^ 32) with (2 ^ 29 * 8). rewrite Z.mul_mod_distr_r by lia.
  pose proof (Z.mod_pos_bound n (2 ^ 29) ltac:(lia)). pose proof (wire_type_range t p).
  rewrite lor_small; lia.
Qed.

Lemma field_tag_range f : is_u 32 (field_tag f).
Proof. apply gen_tag_range. Qed.

Lemma gen_sizeof_varint_eq v : is_u 32 v -> gen_sizeof_varint v = sizeof_varint v.
Proof.
  unfold is_u, gen_sizeof_varint, sizeof_varint. intros H.
  repeat match goal with |- context [?a <=? ?b] => destruct (Z.leb_spec a b); try lia end.
Qed.

Lemma enc_key_len f : zlen (enc_key f) = gen_sizeof_varint (field_tag f).
Proof.
  pose proof (field_tag_range f) as H. rewrite gen_sizeof_varint_eq by assumption.
  apply enc_varint_len. unfold is_u in H. lia.
Qed.

Lemma write_tag_emits n : is_u 32 n -> emits (write_tag n) (enc_varint n).
Proof.
  unfold is_u. intros H. unfold write_tag. rewrite wrapU_small by lia. apply write_varint_emits. lia.
Qed.

Lemma write_key_emits f p enc : emits p enc -> emits (write_with_tag (field_tag f) p) (enc_key f ++ enc).
Proof. intros H. apply emits_app; [apply write_tag_emits, field_tag_range|exact H]. Qed.

Lemma fold_right_Forall {A} (P : A -> Prop) l : fold_right (fun x acc => P x /\ acc) True l <-> Forall P l.
Proof.
  induction l; simpl; split; intros H; auto.
  - constructor; [apply H|apply IHl, H].
  - inversion H; subst. split; [assumption|apply IHl; assumption].
Qed.
Lemma fold_right_Forall2 {A B} (P : A -> B -> Prop) l :
  fold_right (fun '(x, y) acc => P x y /\ acc) True l <-> Forall (fun kv => P (fst kv) (snd kv)) l.
Proof.
  induction l as [|[a b] l IHl]; simpl; split; intros H; auto.
  - constructor; [apply H|apply IHl, H].
  - inversion H; subst. split; [assumption|apply IHl; assumption].
Qed.

Section Emit.
Variable D : file_descriptor.
Variable c : config.
Variable lit : field_type -> text -> option value.
Notation val_ok := (val_ok D c).
Notation slot_ok := (slot_ok D c).
Notation enc_value := (enc_value D c lit).
Notation enc_slot := (enc_slot D c lit).
Notation enc_slots := (enc_slots D c lit).
Notation value_size := (value_size D c lit).
Notation slot_size := (slot_size D c lit).
Notation value_write := (value_write D c lit).
Notation slot_write := (slot_write D c lit).

(** slot lists *)
Lemma slots_emit ds ss :
  Forall (fun s => forall d, desc_ok D c lit d -> slot_ok (sd_type c d) s -> zlen (enc_slot d s) < 2 ^ 64 ->
            emits (slot_write (sd_write c d) s) (enc_slot d s) /\ slot_size (sd_size c d) s = zlen (enc_slot d s)) ss ->
  Forall (desc_ok D c lit) ds -> slots_ok D c (map (sd_type c) ds) ss -> zlen (enc_slots ds ss) < 2 ^ 64 ->
  emits (slots_write D c lit (map (sd_write c) ds) ss) (enc_slots ds ss) /\
  slots_size D c lit (map (sd_size c) ds) ss = zlen (enc_slots ds ss).
Proof.
  intros H. revert ds. induction H as [|s ss Hs Hss IH]; intros ds Hd Ho Hl; destruct ds as [|d ds]; try (cbn in Ho; contradiction).
  - split; [apply emits_nil|reflexivity].
  - cbn [map slots_ok] in Ho. destruct Ho as [Ho1 Ho2]. inversion Hd as [|? ? Hd1 Hd2]; subst.
    cbn [GenSpec.enc_slots] in *. rewrite zlen_app in *.
    pose proof (zlen_nonneg (enc_slot d s)). pose proof (zlen_nonneg (enc_slots ds ss)).
    destruct (Hs d) as [E1 E2]; [assumption|assumption|lia|].
    destruct (IH ds) as [E3 E4]; [assumption|assumption|lia|].
    split.
    + apply (emits_app _ _ _ _ E1 E3).
    + change (slot_size (sd_size c d) s + slots_size D c lit (map (sd_size c) ds) ss
              = zlen (enc_slot d s) + zlen (enc_slots ds ss)). lia.
Qed.

Lemma codec_enc {A} t w (r : rd A) size v enc : codec t w r size v -> emits w enc -> zlen enc = size.
Proof. intros (enc' & H & _ & H2 & _) E. rewrite (emits_det _ _ _ E H). exact H2. Qed.

Lemma zlen_enc_len body : zlen body < 2 ^ 64 -> zlen (enc_len body) = sizeof_len (zlen body).
Proof. apply enc_len_size. Qed.
Lemma enc_len_ge body : zlen body <= zlen (enc_len body).
Proof. unfold enc_len. rewrite zlen_app. pose proof (zlen_nonneg (enc_varint (zlen body))). lia. Qed.

Definition value_emit_stmt v := forall t, typ_ok D t -> val_ok t v -> zlen (enc_value t v) < 2 ^ 64 ->
  emits (value_write (write_fn t) v) (enc_value t v) /\ value_size (size_fn t) v = zlen (enc_value t v).
Definition slot_emit_stmt s := forall d, desc_ok D c lit d -> slot_ok (sd_type c d) s -> zlen (enc_slot d s) < 2 ^ 64 ->
  emits (slot_write (sd_write c d) s) (enc_slot d s) /\ slot_size (sd_size c d) s = zlen (enc_slot d s).

Lemma scalar_emit z : value_emit_stmt (VZ z).
Proof.
  intros t _ H _.
  assert (V : forall z, emits (write_varint (wrapU 64 z)) (enc_varint (wrapU 64 z))
                   /\ sizeof_varint (wrapU 64 z) = zlen (enc_varint (wrapU 64 z))).
  { intros. split; [apply write_varint_emits, w64|symmetry; apply enc_varint_len, w64]. }
  destruct t; cbn in H; try contradiction;
    cbn [write_fn size_fn GenSem.value_write write_scalar GenSem.value_size GenSpec.enc_value].
  - apply V.
  - apply V.
  - apply V.
  - unfold write_uint64. rewrite <- (wrapU_small 64 z) at 1 by exact H. apply V.
  - unfold write_sint32, sizeof_sint32. change 31 with (32 - 1). rewrite zigzag_code by (lia || exact H). apply V.
  - unfold write_sint64, sizeof_sint64. change 63 with (64 - 1). rewrite zigzag_code by (lia || exact H).
    replace (wrapU 64 (wrapS 64 (zigzag z))) with (zigzag z).
    2:{ unfold wrapU. rewrite wrapS_mod by lia. symmetry. apply Z.mod_small, (zigzag_range 64); [lia|exact H]. }
    pose proof (zigzag_range 64 z ltac:(lia) H).
    split; [apply write_varint_emits; lia|symmetry; apply enc_varint_len; lia].
  - unfold write_enum, write_int32. rewrite wrapS_small by (lia || apply H). apply V.
  - split; [apply (emits_op (OpU64 z)); discriminate|rewrite le_bytes_zlen; reflexivity].
  - split; [apply (emits_op (OpI64 z)); discriminate|rewrite le_bytes_zlen; reflexivity].
  - split; [apply (emits_op (OpF64 z)); discriminate|rewrite le_bytes_zlen; reflexivity].
  - split; [apply (emits_op (OpU32 z)); discriminate|rewrite le_bytes_zlen; reflexivity].
  - split; [apply (emits_op (OpI32 z)); discriminate|rewrite le_bytes_zlen; reflexivity].
  - split; [apply (emits_op (OpF32 z)); discriminate|rewrite le_bytes_zlen; reflexivity].
Qed.

(** the default a field is compared with *)
Lemma get_field_default_value f :
  freq_is_map (f_freq f) = false -> freq_is_optional (f_freq f) = false -> freq_is_repeated (f_freq f) = false ->
  f_boxed f = false -> typ_ok D (f_typ f) ->
  dexpr_value D c lit (get_field_default c f) = implicit_default D c lit f.
Proof.
  intros H1 H2 H3 H4 H5. unfold get_field_default, generated_type_of, implicit_default, dexpr_value.
  rewrite H1, H2, H3, H4. destruct (f_default f) as [s|].
  - cbn [dexpr_slot]. destruct (lit (f_typ f) s); reflexivity.
  - destruct (f_typ f); cbn in H5; try contradiction; try reflexivity.
    cbn [dexpr_slot type_default]. destruct (message_default D c lit m); reflexivity.
Qed.

Lemma implicit_default_some f : typ_ok D (f_typ f) ->
  (forall s, f_default f = Some s -> exists w, lit (f_typ f) s = Some w) ->
  implicit_presence f = true -> exists w, implicit_default D c lit f = Some w.
Proof.
  intros H1 H2 H3. unfold implicit_default, implicit_presence in *.
  destruct (f_default f) as [s|]; [apply H2; reflexivity|].
  destruct (f_freq f); try discriminate.
  destruct (f_typ f); cbn in *; try contradiction; try discriminate; eauto.
Qed.

Lemma get_type_opt f t : get_type c f = TyOption t \/ get_type c f = TyOptionBox t -> field_ok D c lit f ->
  t = f_typ f /\ typ_ok D t /\ freq_is_optional (f_freq f) = true /\ freq_is_map (f_freq f) = false /\
  freq_is_repeated (f_freq f) = false /\ has_presence f = true.
Proof.
  intros H (O1 & O2 & _). unfold get_type, generated_type_of in H.
  assert (E : freq_is_optional (f_freq f) = true /\ t = f_typ f).
  { destruct (f_boxed f).
    - destruct H as [H|H]; try discriminate. injection H as <-. auto.
    - destruct (f_freq f); cbn in H |- *;
        repeat match goal with
        | H : context [if ?b then _ else _] |- _ => destruct b
        | H : context [match f_typ f with _ => _ end] |- _ => destruct (f_typ f)
        | H : _ \/ _ |- _ => destruct H
        end; try discriminate; injection H as <-; auto. }
  destruct E as [E ->]. split; [reflexivity|].
  assert (M : freq_is_map (f_freq f) = false) by (destruct (f_freq f); try discriminate; reflexivity).
  rewrite M in O2. split; [exact O2|]. split; [exact E|]. split; [exact M|].
  split; [destruct (f_freq f); try discriminate; reflexivity|].
  unfold has_presence. destruct (f_freq f); try discriminate; destruct (f_typ f); try reflexivity; contradiction O2.
Qed.

Lemma get_type_plain f t : get_type c f = TyPlain t -> field_ok D c lit f ->
  t = f_typ f /\ typ_ok D t /\ (f_freq f = P2Required \/ f_freq f = P3Default) /\ f_boxed f = false.
Proof.
  intros H (O1 & O2 & _). unfold get_type, generated_type_of in H.
  destruct (f_boxed f); [discriminate|].
  destruct (f_freq f); cbn in H, O2 |- *; try discriminate;
    repeat match goal with
    | H : context [if ?b then _ else _] |- _ => destruct b
    | H : context [match f_typ f with _ => _ end] |- _ => destruct (f_typ f)
    end; try discriminate; injection H as <-; auto.
Qed.

Lemma get_type_vec f t : get_type c f = TyVec t -> field_ok D c lit f ->
  t = f_typ f /\ typ_ok D t /\ freq_is_map (f_freq f) = false /\ freq_is_repeated (f_freq f) = true /\ f_boxed f = false /\
  f_is_packed f && is_fixed_size (f_typ f) = false.
Proof.
  intros H (O1 & O2 & O3 & _). unfold get_type, generated_type_of in H.
  destruct (f_boxed f); [discriminate|].
  destruct (f_freq f); cbn in H, O2, O3 |- *; try discriminate;
    try (destruct (f_typ f); discriminate);
    (destruct (f_is_packed f && is_fixed_size (f_typ f)) eqn:E;
      [rewrite O3 in H by reflexivity; discriminate|]);
    injection H as <-; auto 8.
Qed.

Lemma get_type_pf f k : get_type c f = TyPackedFixed k -> field_ok D c lit f ->
  k = fixed_kind_of (f_typ f) /\ freq_is_map (f_freq f) = false /\ freq_is_repeated (f_freq f) = true /\
  f_boxed f = false /\ f_is_packed f = true /\ is_fixed_size (f_typ f) = true.
Proof.
  intros H (O1 & O2 & O3 & _). unfold get_type, generated_type_of in H.
  destruct (f_boxed f); [discriminate|].
  destruct (f_freq f); cbn in H, O2, O3 |- *; try discriminate;
    try (destruct (f_typ f); discriminate);
    (destruct (f_is_packed f); [|discriminate]; destruct (is_fixed_size (f_typ f)); [|discriminate];
     destruct (c_dont_use_cow c); [discriminate|]); injection H as <-; auto 8.
Qed.

Lemma get_type_map f k v : get_type c f = TyMap k v -> field_ok D c lit f ->
  f_typ f = TMap k v /\ key_ok k /\ typ_ok D v /\ freq_is_map (f_freq f) = true /\ f_boxed f = false.
Proof.
  intros H (O1 & O2 & O3 & _). unfold get_type, generated_type_of in H.
  destruct (f_boxed f); [discriminate|].
  destruct (f_freq f); cbn in H, O2, O3 |- *; try discriminate;
    try (destruct (f_is_packed f && is_fixed_size (f_typ f) && negb (c_dont_use_cow c)); discriminate);
    destruct (f_typ f); try discriminate; injection H as <- <-; intuition.
Qed.

Lemma get_type_oneof f vs : get_type c f <> TyOneof vs.
Proof.
  unfold get_type, generated_type_of. destruct (f_boxed f); [discriminate|].
  destruct (f_freq f); cbn; try discriminate;
    try (destruct (f_is_packed f && is_fixed_size (f_typ f) && negb (c_dont_use_cow c)); discriminate);
    destruct (f_typ f); discriminate.
Qed.

Lemma key_typ_ok k : key_ok k -> typ_ok D k.
Proof. destruct k; cbn; auto; contradiction. Qed.

Lemma fixed_size_width f : is_fixed_size (f_typ f) = true ->
  wire_type_num_non_packed (f_typ f) = 1 /\ fk_size (fixed_kind_of (f_typ f)) = 8 \/
  wire_type_num_non_packed (f_typ f) = 5 /\ fk_size (fixed_kind_of (f_typ f)) = 4.
Proof. destruct (f_typ f); cbn; try discriminate; auto. Qed.

Lemma pf_raw_rep k p l : represents k p l -> pf_raw k p = flat_map (fk_encode k) l.
Proof. intros [R _]. destruct p; simpl in *; subst; reflexivity. Qed.

Lemma flat_map_len_const {A} (f : A -> bytes) l n : (forall x, In x l -> zlen (f x) = n) -> zlen (flat_map f l) = n * zlen l.
Proof.
  induction l as [|x l IH]; intros H; [cbn; lia|]. cbn [flat_map]. rewrite zlen_app, zlen_cons, (H x) by (left; reflexivity).
  rewrite IH by (intros; apply H; right; assumption). lia.
Qed.

Lemma flat_map_in_len {A} (f : A -> bytes) l x : In x l -> zlen (f x) <= zlen (flat_map f l).
Proof.
  induction l as [|y l IH]; intros H; [contradiction|]. cbn [flat_map]. rewrite zlen_app.
  pose proof (zlen_nonneg (f y)). pose proof (zlen_nonneg (flat_map f l)).
  destruct H as [-> |H]; [lia|]. specialize (IH H). lia.
Qed.

Lemma sum_map_fold {A} (g : A -> Z) l : fold_right (fun x acc => g x + acc) 0 l = sum_sizes g l.
Proof. reflexivity. Qed.

Lemma small_tag n t : n = 1 \/ n = 2 -> gen_tag n t false = 8 * n + wire_type_num_non_packed t /\
  0 <= gen_tag n t false < 128.
Proof.
  intros H. rewrite gen_tag_eq by lia. unfold wire_type_num. split; [reflexivity|].
  pose proof (wire_type_range t false). unfold wire_type_num in *. lia.
Qed.

Lemma fixed_value_len t v : is_fixed_size t = true -> val_ok t v ->
  zlen (enc_value t v) = if wire_type_num_non_packed t =? 1 then 8 else 4.
Proof.
  intros H1 H2. destruct t; cbn in H1; try discriminate;
    (destruct v; cbn in H2; try contradiction; try discriminate; cbn [GenSpec.enc_value]; rewrite le_bytes_zlen; reflexivity).
Qed.

(** the expected encoding of all elements *)
Lemma emit_all l t : Forall value_emit_stmt l -> typ_ok D t -> Forall (val_ok t) l ->
  zlen (flat_map (enc_value t) l) < 2 ^ 64 ->
  forall v, In v l -> emits (value_write (write_fn t) v) (enc_value t v) /\ zlen (enc_value t v) = value_size (size_fn t) v.
Proof.
  intros F Ht Ho Hl v Hin. rewrite Forall_forall in F, Ho.
  pose proof (flat_map_in_len (enc_value t) l v Hin).
  destruct (F v Hin t) as [E1 E2]; [assumption|apply Ho, Hin|lia|]. auto.
Qed.

Hypothesis WF : schema_wf D c lit.

Theorem value_slot_emit : (forall v, value_emit_stmt v) /\ (forall s, slot_emit_stmt s).
Proof.
  apply value_slot_ind.
  - (* VZ *) exact scalar_emit.
  - (* VBool *) intros b t _ H _. cbn in H. subst t. cbn.
    split; [apply (emits_op (OpU8 _)); discriminate|]. destruct b; reflexivity.
  - (* VB *) intros b t _ H Hl. cbn [GenSpec.enc_value] in *. pose proof (enc_len_ge b).
    assert (zlen b < 2 ^ 64) by lia.
    destruct t; cbn in H; try contradiction; cbn [write_fn size_fn GenSem.value_write GenSem.value_size];
      (split; [apply write_bytes_emits; lia|symmetry; apply enc_len_size; lia]).
  - (* VMsg *) intros ss Hss t Ht H Hl. destruct t; try contradiction H.
    rewrite val_ok_msg in H. cbn [typ_ok] in Ht.
    destruct (get_message D m) as [msg|] eqn:G; [|congruence].
    rewrite (enc_value_msg D c lit _ _ _ G) in *.
    cbn [write_fn size_fn]. rewrite value_write_msg, value_size_msg.
    pose proof (enc_len_ge (enc_message D c lit m ss)).
    destruct (WF m msg G) as [W1 _ _].
    assert (S : emits (message_write D c lit m ss) (enc_message D c lit m ss) /\
                message_size D c lit m ss = zlen (enc_message D c lit m ss)).
    { unfold message_write, message_size, enc_message, message_ok in *. rewrite G in *.
      destruct (is_unit msg) eqn:U.
      - rewrite (is_unit_descs c msg U) in *. rewrite struct_def_descs, (is_unit_descs c msg U) in H.
        destruct ss; [|contradiction H]. split; [apply emits_nil|reflexivity].
      - rewrite write_stmts_descs, size_stmts_descs. rewrite struct_def_descs in H.
        apply slots_emit; [exact Hss|exact W1|exact H|lia]. }
    destruct S as [S1 S2]. rewrite S2. split.
    + unfold write_message, enc_len. pose proof (zlen_nonneg (enc_message D c lit m ss)).
      rewrite wrapU_small by lia. apply emits_app; [apply write_varint_emits; lia|exact S1].
    + symmetry. apply enc_len_size. lia.
  - (* SlOne *) intros v IH d Hd Ho Hl. destruct d as [f|vs]; [|rewrite slot_ok_eq in Ho; contradiction Ho].
    cbn [sd_type sd_size sd_write desc_ok] in *. rewrite slot_ok_eq in Ho. rewrite enc_slot_field_eq in *.
    destruct (get_type c f) as [| |t| | | | |] eqn:G; try contradiction Ho.
    destruct (get_type_plain f t G Hd) as (-> & Ht & F & Hb).
    assert (HF : freq_is_map (f_freq f) = false /\ freq_is_repeated (f_freq f) = false /\ freq_is_optional (f_freq f) = false)
      by (destruct F as [-> | ->]; auto).
    destruct HF as (F1 & F2 & F3).
    assert (W : elided D c lit f v = false ->
      emits (write_with_tag (field_tag f) (value_write (write_fn (f_typ f)) v)) (enc_key f ++ enc_value (f_typ f) v) /\
      gen_sizeof_varint (field_tag f) + value_size (size_fn (f_typ f)) v = zlen (enc_key f ++ enc_value (f_typ f) v)).
    { intros E. rewrite E in Hl. rewrite zlen_app in Hl |- *. pose proof (zlen_nonneg (enc_key f)).
      destruct (IH (f_typ f)) as [E1 E2]; [assumption|assumption|lia|].
      split; [apply write_key_emits, E1|]. rewrite enc_key_len, E2. reflexivity. }
    unfold field_size, field_write, generated_type_of. rewrite F1, F2, F3.
    destruct (implicit_presence f) eqn:IP.
    + assert (HP : has_presence f = false).
      { unfold has_presence, implicit_presence in *. destruct (f_freq f); try discriminate. destruct (f_typ f); try discriminate; reflexivity. }
      rewrite HP. rewrite slot_size_eq, slot_write_eq.
      rewrite get_field_default_value by assumption.
      destruct (implicit_default_some f Ht (proj2 (proj2 (proj2 Hd))) IP) as (w & Hw).
      unfold elided in *. rewrite IP, Hw in *. cbn [andb] in *.
      destruct (rust_eq (f_typ f) v w); [split; [apply emits_nil|reflexivity]|apply W; reflexivity].
    + assert (HP : has_presence f = true).
      { unfold has_presence, implicit_presence in *. destruct F as [F | F]; rewrite F in *;
          destruct (f_typ f); try discriminate; try reflexivity; contradiction Ht. }
      rewrite HP. rewrite slot_size_eq, slot_write_eq.
      unfold elided in *. rewrite IP in *. cbn [andb] in *. apply W. reflexivity.
  - (* SlNone *) intros d Hd Ho _. destruct d as [f|vs]; [|rewrite slot_ok_eq in Ho; contradiction Ho].
    cbn [sd_type sd_size sd_write desc_ok] in *. rewrite slot_ok_eq in Ho. rewrite enc_slot_field_eq in *.
    destruct (get_type c f) as [t|t|t| | | | |] eqn:G; try contradiction Ho.
    all: destruct (get_type_opt f t ltac:(auto) Hd) as (-> & Ht & F1 & F2 & F3 & HP).
    all: unfold field_size, field_write, generated_type_of; rewrite F1, F2, F3, HP.
    all: split; [apply emits_nil|reflexivity].
  - (* SlSome *) intros v IH d Hd Ho Hl. destruct d as [f|vs]; [|rewrite slot_ok_eq in Ho; contradiction Ho].
    cbn [sd_type sd_size sd_write desc_ok] in *. rewrite slot_ok_eq in Ho. rewrite enc_slot_field_eq in *.
    assert (W : typ_ok D (f_typ f) -> val_ok (f_typ f) v ->
      emits (write_with_tag (field_tag f) (value_write (write_fn (f_typ f)) v)) (enc_key f ++ enc_value (f_typ f) v) /\
      gen_sizeof_varint (field_tag f) + value_size (size_fn (f_typ f)) v = zlen (enc_key f ++ enc_value (f_typ f) v)).
    { intros Ht Hv. rewrite zlen_app in *. pose proof (zlen_nonneg (enc_key f)).
      destruct (IH (f_typ f)) as [E1 E2]; [assumption|assumption|lia|].
      split; [apply write_key_emits, E1|]. rewrite enc_key_len, E2. reflexivity. }
    destruct (get_type c f) as [t|t|t| | | | |] eqn:G; try contradiction Ho.
    all: destruct (get_type_opt f t ltac:(auto) Hd) as (-> & Ht & F1 & F2 & F3 & HP).
    all: unfold field_size, field_write, generated_type_of; rewrite F1, F2, F3, HP.
    all: apply W; assumption.
  - (* SlVec *) intros l IH d Hd Ho Hl. destruct d as [f|vs]; [|rewrite slot_ok_eq in Ho; contradiction Ho].
    cbn [sd_type sd_size sd_write desc_ok] in *. rewrite slot_ok_eq in Ho. rewrite enc_slot_field_eq in *.
    destruct (get_type c f) as [t|t|t| |t| | |] eqn:G; try contradiction Ho.
    destruct (get_type_vec f t G Hd) as (-> & Ht & F1 & F2 & Hb & Hpf).
    apply fold_right_Forall in Ho.
    unfold field_size, field_write, generated_type_of. rewrite F1, F2.
    destruct (f_is_packed f) eqn:Pk.
    + cbn [andb] in Hpf. rewrite Hpf. unfold is_fixed_size in Hpf.
      assert (ST : match wire_type_num_non_packed (f_typ f) with
                   | 1 => ZsPackedFixed (gen_sizeof_varint (field_tag f)) (fixed_kind_of (f_typ f)) 8
                   | 5 => ZsPackedFixed (gen_sizeof_varint (field_tag f)) (fixed_kind_of (f_typ f)) 4
                   | _ => ZsPacked (gen_sizeof_varint (field_tag f)) (size_fn (f_typ f))
                   end = ZsPacked (gen_sizeof_varint (field_tag f)) (size_fn (f_typ f))).
      { destruct (f_typ f); try discriminate; reflexivity. }
      rewrite ST. rewrite slot_size_eq, slot_write_eq. unfold write_packed_with_tag.
      destruct l as [|v0 l0] eqn:El; [split; [apply emits_nil|reflexivity]|]. rewrite <- El in *.
      rewrite zlen_app in *. pose proof (enc_len_ge (flat_map (enc_value (f_typ f)) l)).
      pose proof (zlen_nonneg (enc_key f)).
      assert (L64 : zlen (flat_map (enc_value (f_typ f)) l) < 2 ^ 64) by lia.
      pose proof (emit_all l (f_typ f) IH Ht Ho L64) as EA.
      split.
      * apply emits_app; [apply write_tag_emits, field_tag_range|].
        pose proof (write_packed_emits (value_write (write_fn (f_typ f))) (value_size (size_fn (f_typ f))) (enc_value (f_typ f)) l) as WP.
        unfold write_packed in WP. rewrite El in WP. rewrite <- El in WP. apply WP; [rewrite El; discriminate|exact EA|exact L64].
      * rewrite enc_key_len, zlen_enc_len by lia. f_equal. f_equal.
        apply sum_sizes_flat_map. intros; apply EA; assumption.
    + assert (EA : forall v, In v l -> emits (write_with_tag (field_tag f) (value_write (write_fn (f_typ f)) v)) (enc_key f ++ enc_value (f_typ f) v)
                 /\ zlen (enc_key f ++ enc_value (f_typ f) v) = gen_sizeof_varint (field_tag f) + value_size (size_fn (f_typ f)) v).
      { intros v Hin. rewrite Forall_forall in IH, Ho.
        pose proof (flat_map_in_len (fun v => enc_key f ++ enc_value (f_typ f) v) l v Hin) as HL. cbv beta in HL.
        rewrite zlen_app in *. pose proof (zlen_nonneg (enc_key f)).
        destruct (IH v Hin (f_typ f)) as [E1 E2]; [assumption|apply Ho, Hin|lia|].
        split; [apply write_key_emits, E1|]. rewrite enc_key_len. lia. }
      rewrite slot_write_eq. split.
      * apply emits_flat_map. intros; apply EA; assumption.
      * destruct (is_fixed_size (f_typ f)) eqn:FS.
        -- assert (FL : zlen (flat_map (fun v => enc_key f ++ enc_value (f_typ f) v) l)
                = (gen_sizeof_varint (field_tag f) + (if wire_type_num_non_packed (f_typ f) =? 1 then 8 else 4)) * zlen l).
           { apply flat_map_len_const. intros v Hin. rewrite zlen_app, enc_key_len.
             rewrite fixed_value_len; [reflexivity|assumption|]. rewrite Forall_forall in Ho. apply Ho, Hin. }
           rewrite FL. unfold is_fixed_size in FS.
           destruct (fixed_size_width f FS) as [[-> _]|[-> _]]; reflexivity.
        -- unfold is_fixed_size in FS.
           assert (ST : match wire_type_num_non_packed (f_typ f) with
                   | 1 => ZsRepeatedFixed (gen_sizeof_varint (field_tag f)) 8
                   | 5 => ZsRepeatedFixed (gen_sizeof_varint (field_tag f)) 4
                   | _ => ZsRepeated (gen_sizeof_varint (field_tag f)) (size_fn (f_typ f))
                   end = ZsRepeated (gen_sizeof_varint (field_tag f)) (size_fn (f_typ f)))
             by (destruct (f_typ f); try discriminate; reflexivity).
           rewrite ST. rewrite slot_size_eq.
           apply sum_sizes_flat_map. intros; apply EA; assumption.
  - (* SlPF *) intros p d Hd Ho Hl. destruct d as [f|vs]; [|rewrite slot_ok_eq in Ho; contradiction Ho].
    cbn [sd_type sd_size sd_write desc_ok] in *. rewrite slot_ok_eq in Ho. rewrite enc_slot_field_eq in *.
    destruct (get_type c f) as [t|t|t|k|t| | |] eqn:G; try contradiction Ho.
    destruct (get_type_pf f k G Hd) as (-> & F1 & F2 & Hb & Pk & FS).
    destruct Ho as (l & R).
    unfold field_size, field_write, generated_type_of. rewrite F1, F2, Pk, FS.
    rewrite (pf_raw_rep _ _ _ R) in *. rewrite (rep_empty _ _ _ R) in *.
    assert (ST : exists w, w = fk_size (fixed_kind_of (f_typ f)) /\
       match wire_type_num_non_packed (f_typ f) with
       | 1 => ZsPackedFixed (gen_sizeof_varint (field_tag f)) (fixed_kind_of (f_typ f)) 8
       | 5 => ZsPackedFixed (gen_sizeof_varint (field_tag f)) (fixed_kind_of (f_typ f)) 4
       | _ => ZsPacked (gen_sizeof_varint (field_tag f)) (size_fn (f_typ f))
       end = ZsPackedFixed (gen_sizeof_varint (field_tag f)) (fixed_kind_of (f_typ f)) w).
    { destruct (f_typ f); try discriminate FS; eexists; split; reflexivity. }
    destruct ST as (w & -> & ->). rewrite slot_size_eq, slot_write_eq.
    rewrite (rep_empty _ _ _ R), (rep_len _ _ _ R).
    assert (L : match l with [] => True | _ => zlen l * fk_size (fixed_kind_of (f_typ f)) < 2 ^ 64 end).
    { destruct l; [exact I|]. rewrite zlen_app in Hl.
      match goal with H : context [enc_len ?b] |- _ => pose proof (enc_len_ge b) as HL end.
      rewrite fk_flat_len in HL. pose proof (zlen_nonneg (enc_key f)). lia. }
    split.
    + pose proof (rep_write_with_tag _ _ _ R (field_tag f) (field_tag_range f)) as E.
      destruct l; [apply E; change (@zlen Z []) with 0; lia|apply E, L].
    + destruct l as [|x l']; [reflexivity|]. rewrite zlen_app, enc_key_len, zlen_enc_len; rewrite fk_flat_len; [reflexivity|exact L].
  - (* SlMap *) intros l IH d Hd Ho Hl. destruct d as [f|vs]; [|rewrite slot_ok_eq in Ho; contradiction Ho].
    cbn [sd_type sd_size sd_write desc_ok] in *. rewrite slot_ok_eq in Ho. rewrite enc_slot_field_eq in *.
    destruct (get_type c f) as [t|t|t|k|t|tk tv| |] eqn:G; try contradiction Ho.
    destruct (get_type_map f tk tv G Hd) as (T & Hk & Hv & F1 & Hb).
    destruct Ho as [Ho _]. apply (fold_right_Forall2 (fun k v => val_ok tk k /\ val_ok tv v)) in Ho.
    unfold field_size, field_write, generated_type_of. rewrite F1, T in *.
    rewrite slot_size_eq, slot_write_eq.
    set (body := fun kv : value * value => (enc_varint (8 + wire_type_num_non_packed tk) ++ enc_value tk (fst kv)) ++
                     (enc_varint (16 + wire_type_num_non_packed tv) ++ enc_value tv (snd kv))).
    assert (FE : flat_map (fun '(k, v) => enc_key f ++ enc_len
          ((enc_varint (8 + wire_type_num_non_packed tk) ++ enc_value tk k) ++
           (enc_varint (16 + wire_type_num_non_packed tv) ++ enc_value tv v))) l
          = flat_map (fun kv => enc_key f ++ enc_len (body kv)) l).
    { apply flat_map_ext. intros [k v]. reflexivity. }
    rewrite FE in *.
    assert (EA : forall kv, In kv l ->
       (emits (value_write (write_fn tk) (fst kv)) (enc_value tk (fst kv)) /\ value_size (size_fn tk) (fst kv) = zlen (enc_value tk (fst kv))) /\
       (emits (value_write (write_fn tv) (snd kv)) (enc_value tv (snd kv)) /\ value_size (size_fn tv) (snd kv) = zlen (enc_value tv (snd kv))) /\
       zlen (body kv) = 2 + value_size (size_fn tk) (fst kv) + value_size (size_fn tv) (snd kv) /\ zlen (body kv) < 2 ^ 64).
    { intros kv Hin. rewrite Forall_forall in IH, Ho. destruct (IH kv Hin) as [IH1 IH2]. destruct (Ho kv Hin) as [O1 O2].
      pose proof (flat_map_in_len (fun kv => enc_key f ++ enc_len (body kv)) l kv Hin) as HL. cbv beta in HL.
      rewrite zlen_app in HL. pose proof (zlen_nonneg (enc_key f)). pose proof (enc_len_ge (body kv)).
      assert (BL : zlen (body kv) = 1 + zlen (enc_value tk (fst kv)) + (1 + zlen (enc_value tv (snd kv)))).
      { unfold body. pose proof (wire_type_range tk false). pose proof (wire_type_range tv false).
        unfold wire_type_num in *. rewrite !enc_varint_byte by lia. rewrite !zlen_app. reflexivity. }
      pose proof (zlen_nonneg (enc_value tk (fst kv))). pose proof (zlen_nonneg (enc_value tv (snd kv))).
      destruct (IH1 tk) as [E1 E2]; [apply key_typ_ok, Hk|assumption|lia|].
      destruct (IH2 tv) as [E3 E4]; [assumption|assumption|lia|].
      rewrite E2, E4. repeat match goal with |- _ /\ _ => split end; auto; lia. }
    split.
    + apply emits_flat_map. intros [k v] Hin. apply write_key_emits.
      destruct (EA _ Hin) as ((E1 & E2) & (E3 & E4) & BL & B64). cbn [fst snd] in *.
      unfold write_map, map_entry_of, enc_len. cbn [me_size_k me_size_v me_tag_k me_tag_v me_write_k me_write_v].
      rewrite <- BL. pose proof (zlen_nonneg (body (k, v))). rewrite wrapU_small by lia.
      destruct (small_tag 1 tk) as [T1 T1r]; [auto|]. destruct (small_tag 2 tv) as [T2 T2r]; [auto|].
      apply emits_app; [apply write_varint_emits; lia|].
      unfold body. rewrite <- app_assoc. cbn [fst snd].
      replace (8 + wire_type_num_non_packed tk) with (gen_tag 1 tk false) by lia.
      replace (16 + wire_type_num_non_packed tv) with (gen_tag 2 tv false) by lia.
      apply emits_app; [apply write_tag_emits; unfold is_u; lia|].
      apply emits_app; [exact E1|].
      apply emits_app; [apply write_tag_emits; unfold is_u; lia|exact E3].
    + transitivity (sum_sizes (fun kv => gen_sizeof_varint (field_tag f) +
          sizeof_len (2 + value_size (size_fn tk) (fst kv) + value_size (size_fn tv) (snd kv))) l).
      { clear. induction l as [|[k v] l IH]; [reflexivity|]. cbn [fold_right sum_sizes]. unfold sum_sizes in IH. rewrite <- IH. reflexivity. }
      apply sum_sizes_flat_map. intros kv Hin. destruct (EA _ Hin) as (_ & _ & BL & B64).
      rewrite zlen_app, enc_key_len, zlen_enc_len, BL by assumption. reflexivity.
  - (* SlOneofNone *) intros d Hd Ho _. destruct d as [f|vs].
    + cbn [sd_type] in Ho. rewrite slot_ok_eq in Ho. destruct (get_type c f) eqn:G; try contradiction Ho. contradiction (get_type_oneof f variants G).
    + split; [apply emits_nil|reflexivity].
  - (* SlOneof *) intros i v IH d Hd Ho Hl. destruct d as [f|vs].
    + cbn [sd_type] in Ho. rewrite slot_ok_eq in Ho. destruct (get_type c f) eqn:G; try contradiction Ho. contradiction (get_type_oneof f variants G).
    + cbn [sd_type sd_size sd_write desc_ok] in *. rewrite slot_ok_eq in Ho. rewrite enc_slot_oneof_eq in *. rewrite slot_size_eq, slot_write_eq.
      rewrite !nth_error_map. destruct (nth_error vs i) as [f|] eqn:N; [|contradiction Ho].
      cbn [option_map]. rewrite Forall_forall in Hd. specialize (Hd f (nth_error_In _ _ N)).
      rewrite zlen_app in *. pose proof (zlen_nonneg (enc_key f)).
      destruct (IH (f_typ f)) as [E1 E2]; [assumption|assumption|lia|].
      split; [apply write_key_emits, E1|]. rewrite enc_key_len, E2. reflexivity.
Qed.

Lemma message_emit m msg ss : get_message D m = Some msg -> message_ok D c m ss ->
  zlen (enc_message D c lit m ss) < 2 ^ 64 ->
  emits (message_write D c lit m ss) (enc_message D c lit m ss) /\
  message_size D c lit m ss = zlen (enc_message D c lit m ss).
Proof.
  intros G H Hl. destruct (WF m msg G) as [W1 _ _].
  unfold message_write, message_size, enc_message, message_ok in *. rewrite G in *.
  destruct (is_unit msg) eqn:U.
  - rewrite (is_unit_descs c msg U) in *. rewrite struct_def_descs, (is_unit_descs c msg U) in H.
    destruct ss; [|contradiction H]. split; [apply emits_nil|reflexivity].
  - rewrite write_stmts_descs, size_stmts_descs. rewrite struct_def_descs in H.
    apply slots_emit; [apply Forall_forall; intros s _; apply value_slot_emit|exact W1|exact H|lia].
Qed.

End Emit.
