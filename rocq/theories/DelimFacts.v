(** Length-delimited reads. *)
From Coq Require Import ZifyBool ZifyNat ZifyN.
From Verif Require Import Base BaseFacts Utf8 Reader PackedFixed Writer Sizeofs Spec
  VarintFacts WriterFacts ScalarFacts.
Ltac Zify.zify_post_hook ::= Z.div_mod_to_equations.

(** [m], run with the window ending exactly after [body], returns [v] and
    leaves the end of the window alone. *)
Definition reads_window {A} (t : target) (m : rd A) (body : bytes) (v : A) : Prop :=
  forall pre post, buf_ok t (pre ++ body ++ post) ->
    exists s', m (pre ++ body ++ post) (mkR (zlen pre) (zlen pre + zlen body))
               = (Ok v, mkR s' (zlen pre + zlen body)).

(** the length prefix *)
Definition enc_len (body : bytes) : bytes := enc_varint (zlen body) ++ body.

Lemma here_reads_any {A} (m : rd A) enc v bs s e :
  reads_any m enc v -> here bs s enc -> m bs (mkR s e) = (Ok v, mkR (s + zlen enc) e).
Proof. intros R (pre & post & -> & ->). apply R. Qed.

Lemma here_reads {A} t (m : rd A) enc v bs s e :
  reads t m enc v -> here bs s enc -> buf_ok t bs -> s + zlen enc <= e ->
  m bs (mkR s e) = (Ok v, mkR (s + zlen enc) e).
Proof. intros R (pre & post & -> & ->). intros. apply R; assumption. Qed.

Lemma here_reads_window {A} t (m : rd A) body v bs s :
  reads_window t m body v -> here bs s body -> buf_ok t bs ->
  exists s', m bs (mkR s (s + zlen body)) = (Ok v, mkR s' (s + zlen body)).
Proof. intros R (pre & post & -> & ->) H. apply R. assumption. Qed.

Lemma reads_intro {A} t (m : rd A) enc v :
  (forall bs s e, here bs s enc -> buf_ok t bs -> s + zlen enc <= e ->
     m bs (mkR s e) = (Ok v, mkR (s + zlen enc) e)) -> reads t m enc v.
Proof. intros H pre post e Hb He. apply H; auto. apply here_intro. Qed.

Lemma buf_bound t bs s l : buf_ok t bs -> here bs s l -> 0 <= s /\ s + zlen l < usize_mod t / 2.
Proof.
  intros H1 H2. pose proof (here_bound _ _ _ H2). pose proof (here_nonneg _ _ _ H2).
  unfold buf_ok in H1. lia.
Qed.

Lemma read_len_window {A} t (m : rd A) body v bs s e :
  reads_window t m body v -> here bs s body -> buf_ok t bs ->
  read_len t m (zlen body) bs (mkR s e) = (Ok v, mkR (s + zlen body) e).
Proof.
  intros R H Hb. destruct (buf_bound _ _ _ _ Hb H). pose proof (usize_mod_ge t).
  unfold read_len. unfold bind at 1, get_end at 1. cbn [r_end].
  unfold bind at 1, get_start at 1. cbn [r_start].
  unfold bind at 1, lift at 1. rewrite uadd_ok by lia.
  unfold bind at 1, set_end at 1. cbn [r_start].
  destruct (here_reads_window _ _ _ _ _ _ R H Hb) as (s' & E).
  erewrite bind_ok by exact E. reflexivity.
Qed.

Lemma reads_len_varint {A} t (m : rd A) body v :
  zlen body < 2 ^ 32 -> reads_window t m body v ->
  reads t (read_len_varint t m) (enc_len body) v.
Proof.
  intros Hl R. apply reads_intro. intros bs s e H Hb He.
  pose proof (zlen_nonneg body).
  apply here_app in H. destruct H as [H1 H2].
  unfold read_len_varint.
  erewrite bind_ok.
  2:{ eapply here_reads_any; [apply (reads_varint32 (zlen body)); lia|exact H1]. }
  rewrite Z.mod_small by lia.
  erewrite read_len_window; [|exact R|exact H2|exact Hb].
  unfold enc_len. rewrite zlen_app, Z.add_assoc. reflexivity.
Qed.

Lemma enc_len_size body : zlen body < 2 ^ 64 -> zlen (enc_len body) = sizeof_len (zlen body).
Proof.
  intros H. pose proof (zlen_nonneg body). unfold enc_len, sizeof_len. rewrite zlen_app, enc_varint_len by lia.
  rewrite wrapU_small by lia. reflexivity.
Qed.

(** ** bytes and strings *)
Lemma write_bytes_emits b : zlen b < 2 ^ 64 -> emits (write_bytes b) (enc_len b).
Proof.
  intros H. pose proof (zlen_nonneg b). unfold write_bytes, enc_len. rewrite wrapU_small by lia.
  apply emits_app; [apply write_varint_emits; lia|].
  apply (emits_op (OpAll b)); discriminate.
Qed.

Lemma window_bytes t b :
  reads_window t (s <- get_start ;; e <- get_end ;; get_or_eob (fun bs => slice bs s e)) b b.
Proof.
  intros pre post H. exists (zlen pre).
  unfold bind, get_start, get_end, get_or_eob. cbn [r_start r_end].
  rewrite (slice_here _ _ _ (here_intro pre b post)). reflexivity.
Qed.

Lemma reads_bytes t b : zlen b < 2 ^ 32 -> reads t (read_bytes t) (enc_len b) b.
Proof. intros H. apply reads_len_varint; [assumption|apply window_bytes]. Qed.

Lemma reads_string t b : zlen b < 2 ^ 32 -> utf8_valid b = true ->
  reads t (read_string t) (enc_len b) b.
Proof.
  intros H U. apply reads_len_varint; [assumption|].
  intros pre post Hb. exists (zlen pre).
  unfold bind, get_start, get_end, get_or_eob. cbn [r_start r_end].
  rewrite (slice_here _ _ _ (here_intro pre b post)), U. reflexivity.
Qed.

Lemma codec_bytes t b : zlen b < 2 ^ 32 ->
  codec t (write_bytes b) (read_bytes t) (sizeof_len (zlen b)) b.
Proof.
  intros H. pose proof (zlen_nonneg b). exists (enc_len b). split; [|split; [|split]].
  - apply write_bytes_emits. lia.
  - apply reads_bytes, H.
  - apply enc_len_size. lia.
  - apply nonempty_zlen. unfold enc_len. rewrite zlen_app.
    pose proof (enc_varint_nonempty (zlen b)). lia.
Qed.

Lemma codec_string t b : zlen b < 2 ^ 32 -> utf8_valid b = true ->
  codec t (write_string b) (read_string t) (sizeof_len (zlen b)) b.
Proof.
  intros H U. pose proof (zlen_nonneg b). exists (enc_len b). split; [|split; [|split]].
  - apply write_bytes_emits. lia.
  - apply reads_string; assumption.
  - apply enc_len_size. lia.
  - apply nonempty_zlen. unfold enc_len. rewrite zlen_app.
    pose proof (enc_varint_nonempty (zlen b)). lia.
Qed.

(** ** packed *)
Lemma packed_loop_ok {M} t (read : rd M) (f : M -> bytes) l :
  (forall m, In m l -> reads t read (f m) m /\ f m <> []) ->
  forall fuel acc bs s,
  (length l < fuel)%nat -> here bs s (flat_map f l) -> buf_ok t bs ->
  let e := s + zlen (flat_map f l) in
  packed_loop fuel read acc bs (mkR s e) = (Ok (rev acc ++ l), mkR e e).
Proof.
  induction l as [|m l IH]; intros Hl fuel acc bs s Hf H Hb; destruct fuel as [|fuel]; try (simpl in Hf; lia).
  - simpl flat_map. rewrite zlen_nil, Z.add_0_r. cbn [packed_loop].
    unfold bind, is_eof. cbn [r_start r_end]. rewrite Z.eqb_refl. rewrite app_nil_r. reflexivity.
  - simpl flat_map in *. rewrite zlen_app. destruct (Hl m (or_introl eq_refl)) as [R N].
    apply zlen_nonempty in N. pose proof (zlen_nonneg (flat_map f l)).
    apply here_app in H. destruct H as [H1 H2].
    cbn [packed_loop]. unfold bind at 1, is_eof. cbn [r_start r_end].
    destruct (Z.eqb_spec s (s + (zlen (f m) + zlen (flat_map f l)))); [lia|].
    erewrite bind_ok by (eapply here_reads; [exact R|exact H1|exact Hb|lia]).
    rewrite Z.add_assoc.
    rewrite IH; [|intros; apply Hl; right; assumption|simpl in Hf; lia|exact H2|exact Hb].
    simpl rev. rewrite <- app_assoc. reflexivity.
Qed.

Lemma reads_packed {M} t (read : rd M) (f : M -> bytes) l fuel :
  (forall m, In m l -> reads t read (f m) m /\ f m <> []) ->
  (length l < fuel)%nat -> zlen (flat_map f l) < 2 ^ 32 ->
  reads t (read_packed t fuel read) (enc_len (flat_map f l)) l.
Proof.
  intros Hl Hf H32. apply reads_len_varint; [assumption|].
  intros pre post Hb. eexists.
  rewrite (packed_loop_ok t read f l Hl); [reflexivity|assumption|apply here_intro|assumption].
Qed.

Lemma sum_sizes_flat_map {M} (size : M -> Z) (f : M -> bytes) l :
  (forall m, In m l -> zlen (f m) = size m) -> sum_sizes size l = zlen (flat_map f l).
Proof.
  induction l as [|m l IH]; intros H; [reflexivity|].
  simpl. rewrite zlen_app, (H m) by (left; reflexivity).
  rewrite <- IH; [reflexivity|]. intros; apply H; right; assumption.
Qed.

Lemma write_packed_emits {M} (w : M -> wprog) (size : M -> Z) (f : M -> bytes) l :
  l <> [] ->
  (forall m, In m l -> emits (w m) (f m) /\ zlen (f m) = size m) ->
  zlen (flat_map f l) < 2 ^ 64 ->
  emits (write_packed l w size) (enc_len (flat_map f l)).
Proof.
  intros Hne H H64. unfold write_packed. destruct l as [|m0 l0] eqn:El; [congruence|]. rewrite <- El in *.
  unfold enc_len. rewrite (sum_sizes_flat_map size f) by (intros; apply H; assumption).
  pose proof (zlen_nonneg (flat_map f l)).
  rewrite wrapU_small by lia.
  apply emits_app; [apply write_varint_emits; lia|].
  apply emits_flat_map. intros; apply H; assumption.
Qed.

(** ** maps *)
Lemma read_u8_key bs s e b l f :
  here bs s (b :: l) -> Z.shiftr (bz b) 3 = f ->
  read_u8 bs (mkR s e) = (Ok (bz b), mkR (s + 1) e) /\ Z.shiftr (bz b) 3 = f.
Proof. intros H1 H2. split; [eapply read_u8_here; exact H1|exact H2]. Qed.

(** One entry field on the wire: the one-byte tag with field number 1 (key) or
    2 (value), then the payload. *)
Inductive map_item (K V : Type) :=
| MKey (tag : byte) (k : K) (enc : bytes)
| MVal (tag : byte) (v : V) (enc : bytes).
Arguments MKey {K V}. Arguments MVal {K V}.

Definition item_bytes {K V} (i : map_item K V) : bytes :=
  match i with MKey b _ e => b :: e | MVal b _ e => b :: e end.
Definition item_ok {K V} t (rk : rd K) (rv : rd V) (i : map_item K V) : Prop :=
  match i with
  | MKey b k e => bz b / 8 = 1 /\ reads t rk e k
  | MVal b v e => bz b / 8 = 2 /\ reads t rv e v
  end.
Definition item_apply {K V} (kv : K * V) (i : map_item K V) : K * V :=
  match i with MKey _ k _ => (k, snd kv) | MVal _ v _ => (fst kv, v) end.

Lemma map_loop_ok {K V} t (rk : rd K) (rv : rd V) items :
  Forall (item_ok t rk rv) items ->
  forall fuel k v bs s,
  (length items < fuel)%nat -> here bs s (flat_map item_bytes items) -> buf_ok t bs ->
  let e := s + zlen (flat_map item_bytes items) in
  map_loop fuel rk rv k v bs (mkR s e) = (Ok (fold_left item_apply items (k, v)), mkR e e).
Proof.
  induction items as [|i items IH]; intros Hi fuel k v bs s Hf H Hb;
    destruct fuel as [|fuel]; try (simpl in Hf; lia).
  - simpl flat_map. rewrite zlen_nil, Z.add_0_r. cbn [map_loop].
    unfold bind, is_eof. cbn [r_start r_end]. rewrite Z.eqb_refl. reflexivity.
  - simpl flat_map in *. rewrite zlen_app. inversion Hi as [|? ? Hi1 Hi2]; subst.
    pose proof (zlen_nonneg (flat_map item_bytes items)).
    apply here_app in H. destruct H as [H1 H2].
    cbn [map_loop]. unfold bind at 1, is_eof. cbn [r_start r_end].
    assert (1 <= zlen (item_bytes i)) by (destruct i; simpl; rewrite zlen_cons;
      match goal with |- context [zlen ?x] => pose proof (zlen_nonneg x) end; lia).
    destruct (Z.eqb_spec s (s + (zlen (item_bytes i) + zlen (flat_map item_bytes items)))); [lia|].
    destruct i as [b k' enc|b v' enc]; simpl item_bytes in *; simpl in Hi1; destruct Hi1 as [Ht R];
      rewrite zlen_cons in *; pose proof (zlen_nonneg enc);
      erewrite bind_ok by (eapply read_u8_here; exact H1);
      apply here_cons in H1; destruct H1 as [_ H1];
      rewrite Z.shiftr_div_pow2 by lia; change (2 ^ 3) with 8; rewrite Ht; cbn [Z.eqb Pos.eqb];
      (erewrite bind_ok by (eapply here_reads; [exact R|exact H1|exact Hb|lia]));
      replace (s + (1 + zlen enc + zlen (flat_map item_bytes items)))
        with (s + (1 + zlen enc) + zlen (flat_map item_bytes items)) by lia;
      replace (s + 1 + zlen enc) with (s + (1 + zlen enc)) by lia;
      (rewrite IH; [reflexivity|assumption|simpl in Hf; lia|exact H2|exact Hb]).
Qed.

Lemma reads_map_items {K V} t fuel (kd : K) (vd : V) rk rv items :
  Forall (item_ok t rk rv) items ->
  (length items < fuel)%nat -> zlen (flat_map item_bytes items) < 2 ^ 32 ->
  reads t (read_map t fuel kd vd rk rv) (enc_len (flat_map item_bytes items))
        (fold_left item_apply items (kd, vd)).
Proof.
  intros Hi Hf H32. apply reads_len_varint; [assumption|].
  intros pre post Hb. eexists.
  rewrite (map_loop_ok t rk rv items Hi); [reflexivity|assumption|apply here_intro|assumption].
Qed.

(** tags below 16 are one byte *)
Lemma enc_varint_byte v : 0 <= v < 128 -> enc_varint v = [zb v].
Proof.
  intros H. unfold enc_varint. cbn [enc_varint_n]. destruct (Z.leb_spec 128 v); [lia|reflexivity].
Qed.

(** ** unknown fields *)
Lemma skip_ok t offset bs s e :
  0 <= s -> 0 <= offset -> s + offset <= e -> e < usize_mod t ->
  skip t offset bs (mkR s e) = (Ok tt, mkR (s + offset) e).
Proof.
  intros. unfold skip, bind, get_start, get_end, lift, set_start. cbn [r_start r_end].
  rewrite usub_ok by lia. destruct (Z.ltb_spec (e - s) offset); [lia|].
  rewrite uadd_ok by lia. reflexivity.
Qed.

Lemma skip_short t offset bs s e :
  0 <= s <= e -> e < s + offset ->
  skip t offset bs (mkR s e) = (Err EVarint, mkR s e).
Proof.
  intros. unfold skip, bind, get_start, get_end, lift, set_start. cbn [r_start r_end].
  rewrite usub_ok by lia. destruct (Z.ltb_spec (e - s) offset); [|lia]. reflexivity.
Qed.
