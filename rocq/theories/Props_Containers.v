(** Property theorems C09-C14: packed fields, PackedFixed, maps, unknown fields. *)
From Coq Require Import ZifyBool ZifyNat ZifyN.
From Verif Require Import Base BaseFacts Utf8 Reader PackedFixed Writer Sizeofs Spec
  VarintFacts WriterFacts ScalarFacts DelimFacts BackendFacts PackedFixedFacts ExactFacts SimFacts.

(** A round trip for one value: [w] emits some non-empty bytes, [size] is their
    number and [r] reads them back. *)
Definition roundtrips {A} (t : target) (w : wprog) (r : rd A) (size : Z) (v : A) : Prop :=
  exists enc, emits w enc /\ reads t r enc v /\ zlen enc = size /\ enc <> [].

Lemma roundtrips_prog {A} t w (r : rd A) size v : roundtrips t w r size v ->
  emits w (prog_bytes w) /\ reads t r (prog_bytes w) v /\ zlen (prog_bytes w) = size /\ prog_bytes w <> [].
Proof. intros (enc & E & R & L & N). destruct (emits_clean _ _ E) as [_ ->]. auto. Qed.

(** ** C09 *)
Theorem C09_packed_roundtrip : forall M t (write : M -> wprog) (read : rd M) (size : M -> Z) l fuel,
  (forall m, In m l -> roundtrips t (write m) read (size m) m) ->
  l <> [] -> sum_sizes size l < 2 ^ 32 -> (length l < fuel)%nat ->
  exists enc, emits (write_packed l write size) enc /\ reads t (read_packed t fuel read) enc l /\
    forall tag, is_u 32 tag -> exists tag_enc, emits (write_tag tag) tag_enc /\
      emits (write_packed_with_tag tag l write size) (tag_enc ++ enc).
Proof.
  intros M t write read size l fuel H Hne Hs Hf.
  set (f := fun m => prog_bytes (write m)).
  assert (P : forall m, In m l -> emits (write m) (f m) /\ reads t read (f m) m /\ zlen (f m) = size m /\ f m <> [])
    by (intros m Hm; apply (roundtrips_prog t (write m) read (size m)); apply H; exact Hm).
  assert (S : sum_sizes size l = zlen (flat_map f l)).
  { apply sum_sizes_flat_map. intros m Hm. apply P. exact Hm. }
  pose proof (zlen_nonneg (flat_map f l)).
  assert (E : emits (write_packed l write size) (enc_len (flat_map f l))).
  { apply write_packed_emits; [exact Hne| |lia]. intros m Hm. destruct (P m Hm) as (a & _ & b & _). auto. }
  exists (enc_len (flat_map f l)). split; [exact E|]. split.
  - apply reads_packed; [|exact Hf|lia]. intros m Hm. destruct (P m Hm) as (_ & a & _ & b). auto.
  - intros tag Ht. unfold is_u in Ht. exists (enc_varint tag).
    assert (T : emits (write_tag tag) (enc_varint tag)).
    { unfold write_tag. rewrite wrapU_small by lia. apply write_varint_emits. lia. }
    split; [exact T|]. unfold write_packed_with_tag, write_packed in *. destruct l as [|m0 l0]; [congruence|].
    apply emits_app; assumption.
Qed.
Print Assumptions C09_packed_roundtrip.
Theorem C09_packed_empty : forall M tag (write : M -> wprog) (size : M -> Z),
  emits (write_packed_with_tag tag [] write size) [] /\ emits (write_packed [] write size) [].
Proof. intros. split; apply emits_nil. Qed.
Print Assumptions C09_packed_empty.
Example C09_case : forall t m, In m [300; -1] -> roundtrips t (write_int32 m) read_int32 (sizeof_int32 m) m.
Proof. intros t m H. apply codec_int32. unfold is_s. simpl in H. lia. Qed.

(** ** C10 *)
(** [advancing t m]: whenever [m] succeeds, it decoded some non-empty bytes that
    stand at its position and moved exactly past them. *)
Definition advancing {A} (t : target) (m : rd A) : Prop :=
  forall bs s e v r', buf_ok t bs -> 0 <= s -> m bs (mkR s e) = (Ok v, r') ->
  exists enc, here bs s enc /\ enc <> [] /\ r' = mkR (s + zlen enc) e /\ reads t m enc v.

(** Whatever the build target: if read_packed returns Ok, the reader stands
    after a length prefix and that many bytes, all inside the buffer, and those
    bytes are the concatenation of encodings of the returned elements. *)
Theorem C10_read_packed_exact : forall M t (m : rd M) fuel bs s e l r',
  advancing t m -> buf_ok t bs -> 0 <= s ->
  read_packed t fuel m bs (mkR s e) = (Ok l, r') ->
  exists p body encs,
    here bs s (p ++ body) /\ is_varint p /\ (length p <= 10)%nat /\
    zlen body = varint_value p mod 2 ^ 32 /\ r' = mkR (s + zlen p + zlen body) e /\
    body = concat encs /\ Forall2 (fun enc x => reads t m enc x) encs l.
Proof.
  intros M t m fuel bs s e l r' X Hb Hs H.
  destruct (read_packed_inv t m fuel bs s e l r' X Hb Hs H) as (p & encs & A & B & C & D & F & ->).
  exists p, (concat encs), encs. rewrite zlen_app, Z.add_assoc. repeat (split; auto).
  clear - F. induction F; constructor; tauto.
Qed.
Print Assumptions C10_read_packed_exact.

(** the same for bytes, strings and map entries *)
Theorem C10_delimited_exact : forall t bs s e r', buf_ok t bs -> 0 <= s ->
  (forall v, read_bytes t bs (mkR s e) = (Ok v, r') \/ read_string t bs (mkR s e) = (Ok v, r') ->
     exists p, here bs s (p ++ v) /\ is_varint p /\ zlen v = varint_value p mod 2 ^ 32 /\
       r' = mkR (s + zlen p + zlen v) e) /\
  (forall K V (rk : rd K) (rv : rd V) kd vd fuel kv, advancing t rk -> advancing t rv ->
     read_map t fuel kd vd rk rv bs (mkR s e) = (Ok kv, r') ->
     exists p body, here bs s (p ++ body) /\ is_varint p /\ zlen body = varint_value p mod 2 ^ 32 /\
       r' = mkR (s + zlen p + zlen body) e).
Proof.
  intros t bs s e r' Hb Hs. split.
  - intros v [H|H].
    + destruct (read_bytes_inv _ _ _ _ _ _ Hb Hs H) as (p & A & B & _ & C & D). exists p. auto.
    + destruct (read_string_inv _ _ _ _ _ _ Hb Hs H) as (p & A & B & _ & C & D & _). exists p. auto.
  - intros K V rk rv kd vd fuel kv Xk Xv H.
    destruct (read_map_inv _ _ _ _ _ _ _ _ _ _ _ Xk Xv Hb Hs H) as (p & items & A & B & _ & C & _ & _ & ->).
    exists p, (flat_map item_bytes items). rewrite zlen_app, Z.add_assoc. auto.
Qed.
Print Assumptions C10_delimited_exact.

(** All scalar, bytes and string readers are advancing. *)
Theorem C10_readers_advance : forall t,
  advancing t read_int32 /\ advancing t read_int64 /\ advancing t read_uint32 /\ advancing t read_uint64 /\
  advancing t read_sint32 /\ advancing t read_sint64 /\ advancing t read_bool /\
  (forall E (f : Z -> E), advancing t (read_enum f)) /\
  advancing t (read_fixed32 t) /\ advancing t (read_fixed64 t) /\ advancing t (read_sfixed32 t) /\
  advancing t (read_sfixed64 t) /\ advancing t (read_float t) /\ advancing t (read_double t) /\
  advancing t (read_bytes t) /\ advancing t (read_string t).
Proof.
  intros t. repeat match goal with |- _ /\ _ => split end; intros.
  all: first [apply exact_int32|apply exact_int64|apply exact_varint32|apply exact_varint64
    |apply exact_sint32|apply exact_sint64|apply exact_bool|apply exact_enum
    |apply exact_fixed32|apply exact_fixed64|apply exact_sfixed32|apply exact_sfixed64
    |apply exact_float|apply exact_double|apply exact_bytes|apply exact_string].
Qed.
Print Assumptions C10_readers_advance.
Example C10_case : read_packed (checked W64) 4 read_int32 [x03; x96; x01; x07; x08] (mkR 0 5)
  = (Ok [150; 7], mkR 4 5).
Proof. reflexivity. Qed.

(** ** C11 *)
(** the elements held by a PackedFixed: [Owned] holds them, [Borrowed] holds
    their little-endian bytes *)
Definition holds (k : fixed_kind) (p : packed_fixed) (l : list Z) : Prop :=
  match p with
  | NoDataYet => l = []
  | Owned v => v = l
  | Borrowed bs => exists encs, bs = concat encs /\
                     Forall2 (fun x enc => is_le (Z.to_nat (fk_size k)) x enc) l encs
  end /\ Forall (fk_range k) l.

Lemma is_le_unique n z a b : is_le n z a -> is_le n z b -> a = b.
Proof.
  intros [La Ea] [Lb Eb]. rewrite Ea in Eb. clear Ea.
  revert z n b La Lb Eb. induction a as [|x a IH]; intros z n [|y b] La Lb E; cbn [length fold_right] in *; try congruence.
  destruct n as [|n]; [discriminate|]. pose proof (bz_range x). pose proof (bz_range y).
  assert (bz x = bz y /\ fold_right (fun b acc => bz b + 256 * acc) 0 a = fold_right (fun b acc => bz b + 256 * acc) 0 b) as [E1 E2] by lia.
  f_equal; [apply bz_inj, E1|]. apply (IH z n); congruence.
Qed.

Lemma holds_represents k p l : holds k p l <-> represents k p l.
Proof.
  unfold holds, represents. destruct p as [|bs|v]; try tauto.
  split; intros [H F]; (split; [|exact F]).
  - destruct H as (encs & -> & H). clear F. induction H as [|x enc l encs Hx H IH]; [reflexivity|].
    simpl. rewrite <- IH. f_equal. eapply is_le_unique; [exact Hx|]. apply le_bytes_is_le.
  - subst bs. exists (map (fk_encode k) l). split; [apply flat_map_concat_map|].
    clear F. induction l; simpl; constructor; [apply le_bytes_is_le|assumption].
Qed.

(** reading what was written, from either representation, gives the same elements *)
Theorem C11_packed_fixed_roundtrip : forall t k p l,
  holds k p l -> p <> NoDataYet -> zlen l * fk_size k < 2 ^ 32 ->
  exists enc q, emits (write_packed_fixed k p) enc /\ reads t (read_packed_fixed_k t k) enc q /\ holds k q l.
Proof.
  intros t k p l H Hn Hl. apply holds_represents in H. pose proof (zlen_nonneg l). pose proof (fk_size_pos k).
  exists (enc_len (flat_map (fk_encode k) l)), (Borrowed (flat_map (fk_encode k) l)).
  split; [apply (rep_write k p l H); [exact Hn|lia]|]. destruct H as [_ F].
  split; [apply reads_packed_fixed; assumption|]. apply holds_represents. split; [reflexivity|exact F].
Qed.
Print Assumptions C11_packed_fixed_roundtrip.
Theorem C11_packed_fixed_with_tag : forall t k p l tag,
  holds k p l -> is_u 32 tag -> zlen l * fk_size k < 2 ^ 32 ->
  exists enc, emits (write_packed_fixed_with_tag k tag p) enc /\
    (l = [] -> enc = []) /\
    (l <> [] -> exists tag_enc body q, enc = tag_enc ++ body /\ emits (write_tag tag) tag_enc /\
       reads t (read_packed_fixed_k t k) body q /\ holds k q l).
Proof.
  intros t k p l tag H Ht Hl. apply holds_represents in H. pose proof (zlen_nonneg l). pose proof (fk_size_pos k).
  eexists. split; [apply (rep_write_with_tag k p l H tag Ht); lia|]. split; [intros ->; reflexivity|].
  intros Hne. destruct l as [|x l0] eqn:El; [congruence|]. rewrite <- El in *.
  exists (enc_varint tag), (enc_len (flat_map (fk_encode k) l)), (Borrowed (flat_map (fk_encode k) l)).
  unfold is_u in Ht. destruct H as [_ F].
  split; [reflexivity|]. split; [unfold write_tag; rewrite wrapU_small by lia; apply write_varint_emits; lia|].
  split; [apply reads_packed_fixed; assumption|]. apply holds_represents. split; [reflexivity|exact F].
Qed.
Print Assumptions C11_packed_fixed_with_tag.
Example C11_case : holds KI32 (Borrowed [xff; xff; xff; xff; x02; x00; x00; x00]) [-1; 2] /\
  holds KI32 (Owned [-1; 2]) [-1; 2].
Proof.
  split; (split; [|repeat constructor; vm_compute; congruence]); [|reflexivity].
  exists [[xff; xff; xff; xff]; [x02; x00; x00; x00]]. split; [reflexivity|]. repeat constructor.
Qed.

(** ** C12 *)
(** For whole elements (no leftover bytes) the two representations answer alike.
    Missing: byte slices whose length is not a multiple of the element size
    (refuted below), and indexes so large that [index * size] overflows. *)
Theorem C12_packed_fixed_access_partial : forall t k p l, holds k p l -> zlen l * fk_size k < usize_mod t ->
  pf_len k p = zlen l /\
  pf_is_empty p = (zlen l =? 0) /\
  (forall i, 0 <= i -> i * fk_size k < usize_mod t ->
     pf_at t k p i = match nth_error l (Z.to_nat i) with Some x => Ok x | None => Panic end) /\
  pf_collect t k p = Ok l /\ pf_into_vec k p = Ok l /\ pf_to_slice k p = Ok l /\
  (exists q, pf_own k p = Ok q /\ q = Owned l) /\
  (forall q m eqT, holds k q m -> zlen m * fk_size k < usize_mod t ->
     exists b, pf_eq t k eqT p q = Ok b /\
       (b = true <-> Forall2 (fun x y => eqT x y = true) l m)).
Proof.
  intros t k p l H Hl. apply holds_represents in H.
  split; [apply (rep_len k p l H)|]. split.
  { rewrite (rep_empty k p l H). destruct l as [|x l']; [reflexivity|]. rewrite zlen_cons. pose proof (zlen_nonneg l'). lia. }
  split; [intros; apply (rep_at t k p l H); assumption|].
  split; [apply (rep_collect t k p l H Hl)|]. split; [apply (rep_into_vec k p l H)|].
  split; [apply (rep_to_slice k p l H)|]. split; [exists (Owned l); split; [apply (rep_own k p l H)|reflexivity]|].
  intros q m eqT Hq Hm. apply holds_represents in Hq.
  exists (iter_eq eqT l m). split; [apply rep_eq; assumption|].
  clear. revert m; induction l as [|x l IH]; intros [|y m]; simpl.
  - split; [constructor|reflexivity].
  - split; [discriminate|intros H; inversion H].
  - split; [discriminate|intros H; inversion H].
  - rewrite andb_true_iff, IH. split; [intros [A B]; constructor; assumption|intros H; inversion H; auto].
Qed.
Print Assumptions C12_packed_fixed_access_partial.

(** With leftover bytes: reading out of bounds, overflowing the heap buffer,
    len = 0 but not is_empty; and a huge index wraps around to element 0. *)
Theorem C12_packed_fixed_access_refuted : exists t k bs,
  pf_len k (pf_from_bytes bs) = 0 /\ pf_is_empty (pf_from_bytes bs) = false /\
  pf_at t k (pf_from_bytes bs) 0 = UB /\ pf_into_vec k (pf_from_bytes bs) = UB /\
  pf_own k (pf_from_bytes bs) = UB.
Proof. exists (unchecked W64), KU32, [x01; x02; x03]. repeat split; reflexivity. Qed.
Print Assumptions C12_packed_fixed_access_refuted.
Theorem C12_packed_fixed_index_refuted : exists t k v i,
  pf_at t k (Owned v) i = Panic /\
  pf_at t k (Borrowed (flat_map (fun x => fk_encode k x) v)) i = Ok 7 /\ zlen v < i.
Proof. exists (unchecked W64), KU64, [7], (2 ^ 61). repeat split; reflexivity. Qed.
Print Assumptions C12_packed_fixed_index_refuted.

(** ** C13 *)
(** both orders, either field absent, through tags of any wire type *)
Definition entry_field (n : Z) (payload : bytes) (enc : bytes) : Prop :=
  exists tag, 0 <= tag < 256 /\ tag / 8 = n /\ enc = zb tag :: payload.

Theorem C13_map_roundtrip : forall K V t (rk : rd K) (rv : rd V) kd vd fuel size kt vt wk wv ks vs k v,
  roundtrips t wk rk ks k -> roundtrips t wv rv vs v ->
  kt / 8 = 1 -> vt / 8 = 2 -> size = 2 + ks + vs -> size < 2 ^ 32 -> (3 <= fuel)%nat ->
  exists enc, emits (write_map size kt wk vt wv) enc /\
    reads t (read_map t fuel kd vd rk rv) enc (k, v).
Proof.
  intros K V t rk rv kd vd fuel size kt vt wk wv ks vs k v HK HV Hkt Hvt -> Hsz Hf.
  apply roundtrips_prog in HK, HV. destruct HK as (Ek & Rk & Lk & Nk). destruct HV as (Ev & Rv & Lv & Nv).
  assert (8 <= kt < 16) by (pose proof (Z.div_mod kt 8 ltac:(lia)); pose proof (Z.mod_pos_bound kt 8 ltac:(lia)); lia).
  assert (16 <= vt < 24) by (pose proof (Z.div_mod vt 8 ltac:(lia)); pose proof (Z.mod_pos_bound vt 8 ltac:(lia)); lia).
  set (items := [MKey (zb kt) k (prog_bytes wk); MVal (zb vt) v (prog_bytes wv)]).
  assert (E : flat_map item_bytes items = [zb kt] ++ prog_bytes wk ++ [zb vt] ++ prog_bytes wv).
  { simpl. rewrite app_nil_r. reflexivity. }
  assert (L : zlen (flat_map item_bytes items) = 2 + ks + vs).
  { rewrite E, !zlen_app. change (zlen [zb kt]) with 1. change (zlen [zb vt]) with 1. lia. }
  pose proof (zlen_nonneg (flat_map item_bytes items)).
  exists (enc_len (flat_map item_bytes items)). split.
  - unfold write_map, enc_len. rewrite L, wrapU_small by lia. rewrite E.
    apply emits_app; [apply write_varint_emits; lia|].
    assert (T : forall x, 0 <= x < 128 -> emits (write_tag x) [zb x]).
    { intros x Hx. rewrite <- enc_varint_byte by assumption. unfold write_tag.
      rewrite wrapU_small by lia. apply write_varint_emits. lia. }
    apply emits_app; [apply T; lia|]. apply emits_app; [exact Ek|]. apply emits_app; [apply T; lia|exact Ev].
  - change (k, v) with (fold_left item_apply items (kd, vd)).
    apply reads_map_items; [|simpl; lia|lia].
    repeat constructor; simpl; try assumption; rewrite bz_zb, Z.mod_small by lia; assumption.
Qed.
Print Assumptions C13_map_roundtrip.

Theorem C13_map_any_order : forall K V t (rk : rd K) (rv : rd V) kd vd fuel k v ke ve kf vf p body,
  reads t rk ke k -> reads t rv ve v -> entry_field 1 ke kf -> entry_field 2 ve vf ->
  is_varint p -> (length p <= 10)%nat -> varint_value p mod 2 ^ 32 = zlen body -> (3 <= fuel)%nat ->
  (body = kf ++ vf \/ body = vf ++ kf -> reads t (read_map t fuel kd vd rk rv) (p ++ body) (k, v)) /\
  (body = kf -> reads t (read_map t fuel kd vd rk rv) (p ++ body) (k, vd)) /\
  (body = vf -> reads t (read_map t fuel kd vd rk rv) (p ++ body) (kd, v)) /\
  (body = [] -> reads t (read_map t fuel kd vd rk rv) (p ++ body) (kd, vd)).
Proof.
  intros K V t rk rv kd vd fuel k v ke ve kf vf p body Rk Rv (kt & Hkt & Ek & ->) (vt & Hvt & Ev & ->) Hp Hn Hb Hf.
  set (I1 := MKey (V:=V) (zb kt) k ke). set (I2 := MVal (K:=K) (zb vt) v ve).
  assert (O1 : item_ok t rk rv I1) by (split; [rewrite bz_zb, Z.mod_small by lia; exact Ek|exact Rk]).
  assert (O2 : item_ok t rk rv I2) by (split; [rewrite bz_zb, Z.mod_small by lia; exact Ev|exact Rv]).
  assert (G : forall items, Forall (item_ok t rk rv) items -> (length items < 3)%nat -> body = flat_map item_bytes items ->
              reads t (read_map t fuel kd vd rk rv) (p ++ body) (fold_left item_apply items (kd, vd))).
  { intros items Hi Hl ->. apply reads_prefixed; auto. intros pre post Hbuf. eexists.
    rewrite (map_loop_ok t rk rv items Hi); [reflexivity|lia|apply here_intro|assumption]. }
  split; [|split; [|split]].
  - intros [E|E].
    + apply (G [I1; I2]); [auto|simpl; lia|rewrite E; simpl; rewrite app_nil_r; reflexivity].
    + apply (G [I2; I1]); [auto|simpl; lia|rewrite E; simpl; rewrite app_nil_r; reflexivity].
  - intros E. apply (G [I1]); [auto|simpl; lia|rewrite E; simpl; rewrite app_nil_r; reflexivity].
  - intros E. apply (G [I2]); [auto|simpl; lia|rewrite E; simpl; rewrite app_nil_r; reflexivity].
  - intros E. apply (G []); [auto|simpl; lia|rewrite E; reflexivity].
Qed.
Print Assumptions C13_map_any_order.
Example C13_case : forall t,
  roundtrips t (write_int32 (-5)) read_int32 10 (-5) /\ roundtrips t (write_bytes [x61]) (read_bytes t) 2 [x61] /\
  10 / 8 = 1 /\ 18 / 8 = 2 /\ entry_field 1 [x61] [x08; x61].
Proof.
  intros t. split; [apply (codec_int32 t (-5)); unfold is_s; lia|]. split; [apply (codec_bytes t [x61]); reflexivity|].
  split; [reflexivity|]. split; [reflexivity|]. exists 8. repeat split; lia.
Qed.

(** ** C14 *)
Theorem C14_unknown_skipped_exactly : forall t tag payload, field_payload (tag mod 8) payload ->
  reads t (read_unknown t tag) payload tt.
Proof. exact reads_unknown. Qed.
Print Assumptions C14_unknown_skipped_exactly.
Theorem C14_unknown_rejected : forall t tag bs r,
  (tag mod 8 = 3 \/ tag mod 8 = 4 -> read_unknown t tag bs r = (Err EDeprecated, r)) /\
  (tag mod 8 = 6 \/ tag mod 8 = 7 -> read_unknown t tag bs r = (Err (EUnknownWireType (tag mod 8)), r)).
Proof. intros. split; [apply unknown_group|apply unknown_bad]. Qed.
Print Assumptions C14_unknown_rejected.
Example C14_case : field_payload (0x12 mod 8) ([x02] ++ [x61; x62]) /\ field_payload (0x0d mod 8) [x01; x02; x03; x04].
Proof. split; [apply (fp_len [x02] [x61; x62]); [constructor; reflexivity|simpl; lia|reflexivity]|apply fp_32; reflexivity]. Qed.

(** Conversely a skip that succeeds went over exactly one payload of that wire
    type inside the buffer, and (but for varints, which are not checked against
    the window) inside the window.  Without overflow checks this needs a window
    that ends with the buffer: see [C14_window_refuted]. *)
Theorem C14_skipped_is_payload : forall t tag bs s e r', buf_ok t bs -> 0 <= s <= e -> e <= zlen bs ->
  overflow_checks t = true \/ e = zlen bs ->
  read_unknown t tag bs (mkR s e) = (Ok tt, r') ->
  exists payload, here bs s payload /\ field_payload (tag mod 8) payload /\
    r' = mkR (s + zlen payload) e /\ (tag mod 8 <> 0 -> s + zlen payload <= e).
Proof.
  intros t tag bs s e r' Hb Hs He Ho H. unfold read_unknown in H. rewrite land_7 in H.
  set (w := tag mod 8) in *. unfold buf_ok in Hb. pose proof (half_le t) as Hh.
  assert (S : forall off q, 0 <= q <= e -> 0 <= off ->
    skip t off bs (mkR q e) = (Ok tt, r') -> q + off <= e /\ r' = mkR (q + off) e).
  { intros off q Hq Hoff E. destruct (Z.le_gt_cases (q + off) e).
    - rewrite (skip_ok' t off bs q e) in E by lia. injection E as <-. auto.
    - rewrite (skip_short t off bs q e) in E by lia. discriminate. }
  assert (P : forall q n, 0 <= q -> 0 <= n -> q + n <= e -> exists payload, here bs q payload /\ zlen payload = n).
  { intros q n Hq Hn Hl. destruct (here_split bs q ltac:(lia)) as (l & Hl1 & Hl2).
    rewrite <- (firstn_skipn (Z.to_nat n) l) in Hl1. apply here_app in Hl1. destruct Hl1 as [Hl1 _].
    exists (firstn (Z.to_nat n) l). split; [exact Hl1|]. unfold zlen in *. rewrite firstn_length. lia. }
  destruct (Z.eqb_spec w 0) as [W|W0].
  { destruct (bind_inv _ _ _ _ _ _ H) as (v & r1 & E1 & E2).
    destruct (read_varint64_inv _ _ _ _ _ (proj1 Hs) E1) as (l & A & B & C & _ & ->).
    cbv [ret] in E2. injection E2 as <-. exists l. rewrite W. repeat split; auto; [constructor; auto|lia]. }
  destruct (Z.eqb_spec w 1) as [W|W1].
  { apply S in H; [|lia|lia]. destruct H as [L ->]. destruct (P s 8) as (l & A & B); [lia..|].
    exists l. rewrite W, B. repeat split; auto. apply fp_64. unfold zlen in B. lia. }
  destruct (Z.eqb_spec w 5) as [W|W5].
  { apply S in H; [|lia|lia]. destruct H as [L ->]. destruct (P s 4) as (l & A & B); [lia..|].
    exists l. rewrite W, B. repeat split; auto. apply fp_32. unfold zlen in B. lia. }
  destruct (Z.eqb_spec w 2) as [W|W2].
  { destruct (bind_inv _ _ _ _ _ _ H) as (v & r1 & E1 & E2).
    destruct (read_varint64_inv _ _ _ _ _ (proj1 Hs) E1) as (l & A & B & C & V & ->).
    destruct (v <? usize_mod t) eqn:Ev; [|discriminate].
    pose proof (Z.mod_pos_bound (varint_value l) (2 ^ 64) ltac:(lia)).
    pose proof (here_start _ _ _ A). pose proof (zlen_nonneg l).
    assert (Q : s + zlen l <= e).
    { destruct (Z.le_gt_cases (s + zlen l) e) as [|G]; [assumption|]. exfalso.
      destruct Ho as [O| ->].
      - unfold skip, bind, get_start, get_end, lift in E2. cbn [r_start r_end] in E2.
        unfold usub in E2. rewrite O in E2. destruct (Z.leb_spec (s + zlen l) e); [lia|discriminate].
      - apply here_bound in A. lia. }
    apply S in E2; [|lia|lia]. destruct E2 as [L ->].
    destruct (P (s + zlen l) v) as (b & A' & B'); [lia..|].
    exists (l ++ b). rewrite W, zlen_app. split; [apply here_app_inv; assumption|]. split; [apply fp_len; auto; lia|].
    split; [f_equal; lia|lia]. }
  destruct ((w =? 3) || (w =? 4))%bool; discriminate.
Qed.
Print Assumptions C14_skipped_is_payload.
(** a payload that does not fit in the window is an error *)
Theorem C14_truncated_rejected : forall t tag bs s e, 0 <= s <= e ->
  (tag mod 8 = 1 -> e < s + 8 -> read_unknown t tag bs (mkR s e) = (Err EVarint, mkR s e)) /\
  (tag mod 8 = 5 -> e < s + 4 -> read_unknown t tag bs (mkR s e) = (Err EVarint, mkR s e)) /\
  (forall p, tag mod 8 = 2 -> here bs s p -> is_varint p -> (length p <= 10)%nat -> s + zlen p <= e ->
     e < s + zlen p + varint_value p mod 2 ^ 64 ->
     read_unknown t tag bs (mkR s e) = (Err EVarint, mkR (s + zlen p) e)).
Proof.
  intros t tag bs s e Hs. unfold read_unknown. rewrite land_7. split; [|split].
  - intros -> H. apply skip_short; assumption.
  - intros -> H. apply skip_short; assumption.
  - intros p -> Hh Hv Hl H1 H2. cbn [Z.eqb Pos.eqb].
    erewrite bind_ok by (eapply read_varint64_ok; eassumption).
    destruct (_ <? _); [apply skip_short; pose proof (zlen_nonneg p); lia|reflexivity].
Qed.
Print Assumptions C14_truncated_rejected.
Example C14_truncated_case : read_unknown (unchecked W64) 0x12 [x05; x61] (mkR 0 2) = (Err EVarint, mkR 1 2) /\
  read_unknown (unchecked W64) 0x12 [x01; x61] (mkR 0 2) = (Ok tt, mkR 2 2).
Proof. split; reflexivity. Qed.
(** When the window ends before the buffer (inside an embedded message) and
    overflow checks are off, a length prefix that crosses the end of the window
    makes the remaining length wrap around: the skip succeeds and leaves the
    reader behind the end of the buffer. *)
Theorem C14_window_refuted : exists t tag bs s e s', buf_ok t bs /\ 0 <= s <= e /\ e <= zlen bs /\
  read_unknown t tag bs (mkR s e) = (Ok tt, mkR s' e) /\ zlen bs < s'.
Proof.
  exists (unchecked W64), 0x12, [x85; x00], 0, 1, 7.
  repeat match goal with |- _ /\ _ => split end; try reflexivity; cbv; discriminate.
Qed.
Print Assumptions C14_window_refuted.
