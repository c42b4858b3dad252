(** Decoding record by record: a successful decode of a sequence of wire-format
    records is the record-wise update of the default struct. *)
From Coq Require Import ZifyBool ZifyNat ZifyN.
From Verif Require Import Base BaseFacts Utf8 Reader PackedFixed Writer Sizeofs Spec VarintFacts
  WriterFacts ScalarFacts DelimFacts PackedFixedFacts ExactFacts SimFacts Schema Gen GenSem GenSpec GenRead
  GenSim GenExact.

(** ** Records *)

(** one field on the wire: its key and its payload *)
Record wrec := mkRec { rkey : bytes; rpay : bytes }.
Definition rec_bytes (r : wrec) : bytes := rkey r ++ rpay r.
(** the key as the reader sees it, a u32 *)
Definition rtag (r : wrec) : Z := varint_value (rkey r) mod 2 ^ 32.
Definition wrec_ok (r : wrec) : Prop :=
  is_varint (rkey r) /\ (length (rkey r) <= 10)%nat /\
  field_payload (rtag r mod 8) (rpay r) /\ zlen (rpay r) < 2 ^ 32.
Definition recs_bytes (rs : list wrec) : bytes := concat (map rec_bytes rs).

(** what the readers of known fields accept as a payload: lengths are taken
    modulo 2^32 *)
Inductive payload32 : Z -> bytes -> Prop :=
| p32_varint l : is_varint l -> payload32 0 l
| p32_64 l : length l = 8%nat -> payload32 1 l
| p32_len p b : is_varint p -> varint_value p mod 2 ^ 32 = zlen b -> payload32 2 (p ++ b)
| p32_32 l : length l = 4%nat -> payload32 5 l.

Lemma varint_prefix a : is_varint a -> forall b x y, is_varint b -> a ++ x = b ++ y -> a = b /\ x = y.
Proof.
  induction 1 as [c H|c l H I IH]; intros b x y Hb E; inversion Hb as [c' H'|c' l' H' I']; subst; cbn in E;
    injection E as E1 E2; subst.
  - auto.
  - lia.
  - lia.
  - destruct (IH _ _ _ I' E2) as [-> ->]. auto.
Qed.
Lemma length_prefix {A} (a b x y : list A) : length a = length b -> a ++ x = b ++ y -> a = b /\ x = y.
Proof.
  revert b; induction a as [|c a IH]; intros [|d b] L E; cbn in *; try lia; [auto|].
  injection E as -> E. destruct (IH b ltac:(lia) E) as [-> ->]. auto.
Qed.
Lemma payload32_prefix w a b x y : payload32 w a -> payload32 w b -> a ++ x = b ++ y -> a = b /\ x = y.
Proof.
  intros Ha Hb E. inversion Ha; subst; inversion Hb; subst; try lia.
  - eapply varint_prefix; eassumption.
  - eapply length_prefix; [|exact E]. lia.
  - rewrite <- !app_assoc in E. destruct (varint_prefix _ H p0 _ _ ltac:(assumption) E) as [-> E2].
    destruct (length_prefix b0 b1 x y) as [-> ->]; [unfold zlen in *; lia|exact E2|]. auto.
  - eapply length_prefix; [|exact E]. lia.
Qed.
Lemma field_payload_prefix w a b x y : field_payload w a -> field_payload w b -> a ++ x = b ++ y -> a = b /\ x = y.
Proof.
  intros Ha Hb E. inversion Ha; subst; inversion Hb; subst; try lia.
  - eapply varint_prefix; eassumption.
  - eapply length_prefix; [|exact E]. lia.
  - rewrite <- !app_assoc in E. destruct (varint_prefix _ H p0 _ _ ltac:(assumption) E) as [-> E2].
    destruct (length_prefix b0 b1 x y) as [-> ->]; [unfold zlen in *; lia|exact E2|]. auto.
  - eapply length_prefix; [|exact E]. lia.
Qed.
Lemma field_payload_32 w p : field_payload w p -> zlen p < 2 ^ 32 -> payload32 w p.
Proof.
  intros H L. inversion H; subst; constructor; auto. rewrite zlen_app in L. pose proof (zlen_nonneg b). pose proof (zlen_nonneg p0).
  rewrite <- (mod_mod_pow _ 32 64) by lia. rewrite H2. apply Z.mod_small. lia.
Qed.

(** ** Splitting what was read *)
Section Split.
Variable t : target.

Lemma run_alone {A} (m : rd A) enc v : reads t m enc v -> buf_ok t enc -> m enc (mkR 0 (zlen enc)) = (Ok v, mkR (zlen enc) (zlen enc)).
Proof.
  intros R Hb. specialize (R [] [] (zlen enc)). cbn [app] in R. rewrite app_nil_r, zlen_nil in R. apply R; [exact Hb|lia].
Qed.
Lemma here_all enc : here enc 0 enc.
Proof. exists [], []. rewrite app_nil_r. auto. Qed.
Lemma reads_det {A} (m : rd A) enc v v' : reads t m enc v -> reads t m enc v' -> buf_ok t enc -> v = v'.
Proof. intros R1 R2 Hb. pose proof (run_alone _ _ _ R1 Hb) as E1. rewrite (run_alone _ _ _ R2 Hb) in E1. congruence. Qed.

(** a successful run over the whole buffer *)
Lemma adv_reads {A} (m : rd A) enc v : adv0 t m -> buf_ok t enc ->
  m enc (mkR 0 (zlen enc)) = (Ok v, mkR (zlen enc) (zlen enc)) -> reads t m enc v.
Proof.
  intros X Hb E. destruct (X _ _ _ _ _ Hb (Z.le_refl 0) E) as (s' & E' & _ & R). injection E' as <-.
  destruct (R ltac:(lia)) as (enc' & Hh & L & R'). rewrite (here_unique enc 0 enc enc'); [exact R'|apply here_all|exact Hh|lia].
Qed.

Lemma reads_bind_inv {A B} (m : rd A) (f : A -> rd B) enc v :
  adv0 t m -> (forall a, adv0 t (f a)) -> buf_ok t enc -> reads t (bind m f) enc v ->
  exists e1 e2 a, enc = e1 ++ e2 /\ reads t m e1 a /\ reads t (f a) e2 v.
Proof.
  intros Xm Xf Hb R. apply run_alone in R; [|exact Hb]. apply bind_inv in R. destruct R as (a & r1 & H1 & H2).
  destruct (Xm _ _ _ _ _ Hb (Z.le_refl 0) H1) as (s1 & -> & L1 & X1).
  assert (0 <= s1) as Hs1 by lia.
  destruct (Xf a _ _ _ _ _ Hb Hs1 H2) as (s2 & E & L2 & X2). injection E as <-.
  destruct (X1 ltac:(lia)) as (e1 & Hh1 & E1 & R1). destruct (X2 ltac:(lia)) as (e2 & Hh2 & E2 & R2).
  exists e1, e2, a. split; [|auto]. subst s1.
  eapply here_unique; [apply here_all|apply here_app_inv; [exact Hh1|exact Hh2]|]. rewrite zlen_app. lia.
Qed.
Lemma reads_rmap_inv {A B} (f : A -> B) m enc v : adv0 t m -> buf_ok t enc -> reads t (rmap f m) enc v ->
  exists u, reads t m enc u /\ f u = v.
Proof.
  intros X Hb R. apply run_alone in R; [|exact Hb]. unfold rmap in R. apply bind_inv in R. destruct R as (u & r1 & H1 & H2).
  injection H2 as <- ->. exists u. split; [apply adv_reads; assumption|reflexivity].
Qed.

(** ** The shape of payloads *)
Hypothesis CH : overflow_checks t = true.

Lemma shape_varint32 enc v : buf_ok t enc -> reads t read_varint32 enc v ->
  is_varint enc /\ (length enc <= 10)%nat /\ v = varint_value enc mod 2 ^ 32.
Proof.
  intros Hb R. apply run_alone in R; [|exact Hb].
  destruct (read_varint32_inv _ _ _ _ _ (Z.le_refl 0) R) as (l & Hh & Hv & Hn & -> & E). injection E as E.
  rewrite (here_unique enc 0 enc l (here_all enc) Hh) by lia. auto.
Qed.
Lemma shape_varint64 enc v : buf_ok t enc -> reads t read_varint64 enc v -> is_varint enc /\ (length enc <= 10)%nat /\ v = varint_value enc mod 2 ^ 64.
Proof.
  intros Hb R. apply run_alone in R; [|exact Hb].
  destruct (read_varint64_inv _ _ _ _ _ (Z.le_refl 0) R) as (l & Hh & Hv & Hn & -> & E). injection E as E.
  rewrite (here_unique enc 0 enc l (here_all enc) Hh) by lia. auto.
Qed.
Lemma shape_fixed {M} n (f : bytes -> M) enc v : buf_ok t enc -> reads t (read_fixed t n f) enc v -> zlen enc = n.
Proof.
  intros Hb R. apply run_alone in R; [|exact Hb]. unfold read_fixed, bind, get_start, lift, get_or_eob, set_start, ret in R.
  cbn [r_start r_end] in R. destruct (uadd t 0 n) as [e| | | |] eqn:U; try discriminate R.
  destruct (slice enc 0 e); [|discriminate R]. cbn [r_end] in R. injection R as _ R. lia.
Qed.
Lemma shape_len {A} (m : rd A) enc v : advw t m -> buf_ok t enc -> reads t (read_len_varint t m) enc v -> payload32 2 enc.
Proof.
  intros W Hb R. apply run_alone in R; [|exact Hb].
  destruct (read_len_varint_inv _ _ _ _ _ _ _ (Z.le_refl 0) R) as (p & e1 & s2 & e2 & Hp & Hv & Hn & U & M & E).
  cbv zeta in U. apply uadd_checked in U; [|exact CH]. injection E as E.
  pose proof (is_varint_nonempty _ Hv). pose proof (Z.mod_pos_bound (varint_value p) (2 ^ 32) ltac:(lia)).
  assert (0 <= 0 + zlen p <= e1) as B by lia.
  destruct (W _ _ _ _ _ Hb B M) as [E1 X]. cbn [r_end] in E1. subst e2.
  destruct (X ltac:(lia)) as (body & Hh & E2 & _). assert (enc = p ++ body) as ->.
  { eapply here_unique; [apply here_all|apply here_app_inv; eassumption|]. rewrite zlen_app. lia. }
  constructor; [exact Hv|lia].
Qed.
Lemma shape_packed_fixed n enc v : 0 < n -> buf_ok t enc -> reads t (read_packed_fixed t n) enc v -> payload32 2 enc.
Proof.
  intros Hn0 Hb R. apply run_alone in R; [|exact Hb].
  destruct (adv_packed_fixed t CH n Hn0) as [X _].
  unfold read_packed_fixed in R. apply bind_inv in R. destruct R as (len & r1 & H1 & H).
  destruct (read_varint32_inv _ _ _ _ _ (Z.le_refl 0) H1) as (p & Hp & Hv & Hn & -> & ->).
  set (len := varint_value p mod 2 ^ 32) in *.
  unfold rlen, bind, get_start, get_end, lift, set_start, ret in H. cbn [r_start r_end] in H.
  destruct (usub t (zlen enc) (0 + zlen p)) as [d'| | | |] eqn:U; try discriminate H.
  destruct (d' <? len); [discriminate H|]. cbn [r_start r_end] in H.
  destruct (uadd t (0 + zlen p) (len / n * n)) as [d2| | | |]; try discriminate H.
  destruct (slice enc (0 + zlen p) d2); [|discriminate H].
  destruct (uadd t (0 + zlen p) len) as [d3| | | |] eqn:U3; try discriminate H.
  cbn [r_end] in H. injection H as _ H. rewrite H in U3. apply uadd_checked in U3; [|exact CH].
  destruct Hp as (pre & post & E & L). destruct pre; [|rewrite zlen_cons in L; pose proof (zlen_nonneg pre); lia].
  cbn [app] in E. subst enc. rewrite zlen_app in U3. constructor; [exact Hv|]. fold len. lia.
Qed.
Lemma shape_skip n enc v : 0 <= n -> buf_ok t enc -> reads t (skip t n) enc v -> zlen enc = n.
Proof.
  intros Hn Hb R. apply run_alone in R; [|exact Hb]. unfold skip, bind, get_start, get_end, lift, set_start in R. cbn [r_start r_end] in R.
  destruct (usub t (zlen enc) 0) as [d| | | |]; try discriminate R. destruct (d <? n); [discriminate R|].
  destruct (uadd t 0 n) as [d2| | | |] eqn:U; try discriminate R. apply uadd_checked in U; [|exact CH].
  cbn [r_end] in R. injection R as _ R. lia.
Qed.
Lemma shape_unknown tag enc v : buf_ok t enc -> reads t (read_unknown t tag) enc v -> field_payload (tag mod 8) enc.
Proof.
  intros Hb R. unfold read_unknown in R. rewrite land_7 in R. cbv zeta in R. pose proof (Z.mod_pos_bound tag 8 ltac:(lia)).
  destruct (Z.eqb_spec (tag mod 8) 0) as [->|N0].
  { apply reads_rmap_inv in R; [|apply exact_adv1, exact_varint64|exact Hb]. destruct R as (u & R & _).
    apply shape_varint64 in R; [|exact Hb]. constructor; apply R. }
  destruct (Z.eqb_spec (tag mod 8) 1) as [->|N1].
  { apply shape_skip in R; [|lia|exact Hb]. constructor. unfold zlen in R. lia. }
  destruct (Z.eqb_spec (tag mod 8) 5) as [->|N5].
  { apply shape_skip in R; [|lia|exact Hb]. constructor. unfold zlen in R. lia. }
  destruct (Z.eqb_spec (tag mod 8) 2) as [->|N2].
  { apply run_alone in R; [|exact Hb]. apply bind_inv in R. destruct R as (n & r1 & H1 & H2).
    destruct (read_varint64_inv _ _ _ _ _ (Z.le_refl 0) H1) as (l & Hh & Hv & Hn & -> & ->).
    destruct (_ <? usize_mod t); [|discriminate H2].
    unfold skip, bind, get_start, get_end, lift, set_start in H2. cbn [r_start r_end] in H2.
    destruct (usub t (zlen enc) (0 + zlen l)) as [d| | | |]; try discriminate H2. destruct (d <? _); [discriminate H2|].
    destruct (uadd t (0 + zlen l) (varint_value l mod 2 ^ 64)) as [d2| | | |] eqn:U; try discriminate H2. apply uadd_checked in U; [|exact CH].
    cbn [r_end] in H2. injection H2 as _ H2. rewrite H2 in U.
    destruct Hh as (pre & post & E & L). destruct pre; [|rewrite zlen_cons in L; pose proof (zlen_nonneg pre); lia].
    cbn [app] in E. subst enc. rewrite zlen_app in U. constructor; auto. lia. }
  apply run_alone in R; [|exact Hb]. destruct (_ || _); discriminate R.
Qed.
End Split.

(** the wire type a read call expects *)
Definition scalar_wire (s : scalar) : Z :=
  match s with
  | SInt32 | SInt64 | SUint32 | SUint64 | SSint32 | SSint64 | SBool => 0
  | SFixed64 | SSfixed64 | SDouble => 1
  | SFixed32 | SSfixed32 | SFloat => 5
  end.
Definition rexpr_wire (r : rexpr) : Z :=
  match r with RScalar s => scalar_wire s | REnum _ => 0 | _ => 2 end.
Definition action_wire (a : action) : Z :=
  match a with
  | ASetSomeBox r | ASetSome r | ASet r | APush r | AOneof _ r => rexpr_wire r
  | _ => 2
  end.

(** ** Updates: what an arm does, apart from the field's old contents *)
Inductive update := USet (s : slot) | UPush (v : value) | UIns (k v : value).
Definition apply_upd (u : update) (s : slot) : option slot :=
  match u, s with
  | USet x, _ => Some x
  | UPush v, SlVec l => Some (SlVec (l ++ [v]))
  | UIns k v, SlMap l => Some (SlMap (map_insert k v l))
  | _, _ => None
  end.

(** a field with [packed] set is repeated (or a map), never a oneof member *)
Definition packed_ok (d : sdesc) : Prop :=
  match d with
  | SdField f => f_is_packed f = true -> freq_is_repeated (f_freq f) = true \/ freq_is_map (f_freq f) = true
  | SdOneof vs => Forall (fun f => f_is_packed f = false) vs
  end.
Definition schema_packed_ok (D : file_descriptor) (c : config) : Prop :=
  forall m msg, get_message D m = Some msg -> Forall packed_ok (descs c msg).

Lemma wire_type_mod number ty b : gen_tag number ty b mod 8 = wire_type_num ty b mod 8.
Proof.
  unfold gen_tag. rewrite <- !land_7. rewrite Z.land_lor_distr_l.
  replace (Z.land (wrapU 32 (Z.shiftl number 3)) 7) with 0; [apply Z.lor_0_l|].
  rewrite land_7. unfold wrapU. rewrite Z.shiftl_mul_pow2 by lia.
  change (2 ^ 32) with (2 ^ 29 * 2 ^ 3). rewrite Z.mul_mod_distr_r by lia. change (2 ^ 3) with 8. rewrite Z.mod_mul by lia. reflexivity.
Qed.

Section Records.
Variable D : file_descriptor.
Variable c : config.
Variable lit : field_type -> text -> option value.
Variable t : target.
Hypothesis CH : overflow_checks t = true.

Notation from n := (from_reader D c lit t n).

Definition read_upd (n : nat) (a : action) : rd update :=
  match a with
  | ASetSomeBox r | ASetSome r => rmap (fun v => USet (SlSome v)) (read_value D t (from n) r)
  | ASet r => rmap (fun v => USet (SlOne v)) (read_value D t (from n) r)
  | ASetPackedFixed k => rmap (fun p => USet (SlPF p)) (read_packed_fixed_k t k)
  | ASetPacked r => rmap (fun l => USet (SlVec l)) (read_packed t n (read_value D t (from n) r))
  | APush r => rmap UPush (read_value D t (from n) r)
  | AInsert tk tv rk rv =>
    match type_default D (message_default D c lit) tk, type_default D (message_default D c lit) tv with
    | Some kd, Some vd => rmap (fun '(k, v) => UIns k v)
                               (read_map t n kd vd (read_value D t (from n) rk) (read_value D t (from n) rv))
    | _, _ => lift Panic
    end
  | AOneof j r => rmap (fun v => USet (SlOneof j v)) (read_value D t (from n) r)
  | ABad => lift Panic
  end.

Lemma advw_from n m : advw t (from n m). Proof. apply advw_from_reader, CH. Qed.
Lemma adv_val n r : adv1 t (read_value D t (from n) r). Proof. apply adv_value; [exact CH|]. intros; apply advw_from. Qed.
Lemma adv_pf k : adv1 t (read_packed_fixed_k t k).
Proof. unfold read_packed_fixed_k. apply adv1_rmap, adv_packed_fixed; [exact CH|]. destruct k; cbn; lia. Qed.
Lemma adv_upd n a : adv1 t (read_upd n a).
Proof.
  destruct a; cbn [read_upd]; try (apply adv1_rmap, adv_val); try apply adv1_panic.
  - apply adv1_rmap, adv_pf.
  - apply adv1_rmap, adv_packed; [exact CH|apply adv_val].
  - destruct (type_default D (message_default D c lit) tk); [|apply adv1_panic].
    destruct (type_default D (message_default D c lit) tv); [|apply adv1_panic].
    apply adv1_rmap, adv_map; [exact CH|apply adv_val|apply adv_val].
Qed.

Ltac inv_rmap R Hb := apply reads_rmap_inv in R; [destruct R as (?u & R & <-)| |exact Hb].

Lemma action_upd n a s enc s' : buf_ok t enc -> reads t (run_action D c lit t n (from n) a s) enc s' ->
  exists u, reads t (read_upd n a) enc u /\ apply_upd u s = Some s'.
Proof.
  intros Hb R. destruct a; cbn [run_action read_upd] in *;
    try (inv_rmap R Hb; [eexists; split; [apply reads_rmap; exact R|reflexivity]|apply adv_val]).
  - inv_rmap R Hb; [eexists; split; [apply reads_rmap; exact R|reflexivity]|apply adv_pf].
  - inv_rmap R Hb; [eexists; split; [apply reads_rmap; exact R|reflexivity]|apply adv_packed; [exact CH|apply adv_val]].
  - destruct s; try (apply run_alone in R; [discriminate R|exact Hb]).
    inv_rmap R Hb; [eexists; split; [apply reads_rmap; exact R|reflexivity]|apply adv_val].
  - destruct s; try (apply run_alone in R; [discriminate R|exact Hb]).
    destruct (type_default D (message_default D c lit) tk); [|apply run_alone in R; [discriminate R|exact Hb]].
    destruct (type_default D (message_default D c lit) tv); [|apply run_alone in R; [discriminate R|exact Hb]].
    inv_rmap R Hb; [|apply adv_map; [exact CH|apply adv_val|apply adv_val]].
    eexists; split; [apply reads_rmap; exact R|]. destruct u; reflexivity.
  - apply run_alone in R; [discriminate R|exact Hb].
Qed.
Lemma upd_action n a s enc u s' : buf_ok t enc -> reads t (read_upd n a) enc u -> apply_upd u s = Some s' ->
  reads t (run_action D c lit t n (from n) a s) enc s'.
Proof.
  intros Hb R E. destruct a; cbn [run_action read_upd] in *;
    try (inv_rmap R Hb; [injection E as <-; apply reads_rmap; exact R|apply adv_val]).
  - inv_rmap R Hb; [injection E as <-; apply reads_rmap; exact R|apply adv_pf].
  - inv_rmap R Hb; [injection E as <-; apply reads_rmap; exact R|apply adv_packed; [exact CH|apply adv_val]].
  - inv_rmap R Hb; [|apply adv_val]. destruct s; try discriminate E. injection E as <-.
    apply (reads_rmap t (fun v => SlVec (l ++ [v]))). exact R.
  - destruct (type_default D (message_default D c lit) tk); [|apply run_alone in R; [discriminate R|exact Hb]].
    destruct (type_default D (message_default D c lit) tv); [|apply run_alone in R; [discriminate R|exact Hb]].
    inv_rmap R Hb; [|apply adv_map; [exact CH|apply adv_val|apply adv_val]].
    destruct u0 as [k v']. destruct s; try discriminate E. injection E as <-.
    apply (reads_rmap t (fun '(k, v) => SlMap (map_insert k v l)) _ _ (k, v')). exact R.
  - apply run_alone in R; [discriminate R|exact Hb].
Qed.

(** the shape of the payloads of known fields *)
Lemma shape_scalar s enc v : buf_ok t enc -> reads t (read_scalar t s) enc v -> payload32 (scalar_wire s) enc.
Proof.
  intros Hb R.
  assert (F : forall n (f : bytes -> Z), reads t (rmap VZ (read_fixed t n f)) enc v -> 0 < n <= 8 -> zlen enc = n).
  { intros n f R' Hn. inv_rmap R' Hb; [|apply exact_adv1, exact_fixed; exact Hn]. eapply shape_fixed; [exact Hb|exact R']. }
  assert (V32 : forall A (f : Z -> A) (g : A -> value), reads t (rmap g (rmap f read_varint32)) enc v -> is_varint enc).
  { intros A f g R'. inv_rmap R' Hb; [|apply adv1_rmap, exact_adv1, exact_varint32].
    inv_rmap R' Hb; [|apply exact_adv1, exact_varint32]. apply shape_varint32 in R'; [apply R'|exact Hb]. }
  assert (V64 : forall A (f : Z -> A) (g : A -> value), reads t (rmap g (rmap f read_varint64)) enc v -> is_varint enc).
  { intros A f g R'. inv_rmap R' Hb; [|apply adv1_rmap, exact_adv1, exact_varint64].
    inv_rmap R' Hb; [|apply exact_adv1, exact_varint64]. apply shape_varint64 in R'; [apply R'|exact Hb]. }
  destruct s; cbn [read_scalar scalar_wire] in *; constructor.
  - eapply V32; exact R.
  - eapply V64; exact R.
  - inv_rmap R Hb; [|apply exact_adv1, exact_varint32]. apply shape_varint32 in R; [apply R|exact Hb].
  - inv_rmap R Hb; [|apply exact_adv1, exact_varint64]. apply shape_varint64 in R; [apply R|exact Hb].
  - eapply V32; exact R.
  - eapply V64; exact R.
  - eapply V32; exact R.
  - apply F in R; [unfold zlen in R; lia|lia].
  - apply F in R; [unfold zlen in R; lia|lia].
  - apply F in R; [unfold zlen in R; lia|lia].
  - apply F in R; [unfold zlen in R; lia|lia].
  - apply F in R; [unfold zlen in R; lia|lia].
  - apply F in R; [unfold zlen in R; lia|lia].
Qed.
Lemma advw_bytes : advw t (s <- get_start ;; e <- get_end ;; get_or_eob (fun bs => slice bs s e)).
Proof.
  intros bs s e v r' Hb Hs H. unfold bind, get_start, get_end, get_or_eob in H. cbn [r_start r_end] in H.
  destruct (slice bs s e) as [x|] eqn:S; [|discriminate H]. injection H as <- <-. split; [reflexivity|]. intros _.
  apply here_slice in S. destruct S as (Hh & E & _). exists x. split; [exact Hh|]. split; [exact E|]. apply window_bytes.
Qed.
Lemma shape_value n r enc v : buf_ok t enc -> reads t (read_value D t (from n) r) enc v -> payload32 (rexpr_wire r) enc.
Proof.
  intros Hb R. destruct r; cbn [read_value rexpr_wire] in *.
  - eapply shape_scalar; eassumption.
  - inv_rmap R Hb; [|apply exact_adv1, exact_enum]. unfold read_enum, read_int32 in R.
    inv_rmap R Hb; [|apply adv1_rmap, exact_adv1, exact_varint32]. inv_rmap R Hb; [|apply exact_adv1, exact_varint32].
    apply shape_varint32 in R; [constructor; apply R|exact Hb].
  - inv_rmap R Hb; [|apply exact_adv1, exact_string]. apply run_alone in R; [|exact Hb].
    destruct (read_string_inv _ _ _ _ _ _ Hb (Z.le_refl 0) R) as (p & Hp & Hv & Hn & Hl & E & Hu).
    injection E as E. assert (enc = p ++ u) as -> by (eapply here_unique; [apply here_all|exact Hp|rewrite zlen_app; lia]). constructor; auto.
  - inv_rmap R Hb; [|apply exact_adv1, exact_bytes]. eapply shape_len; [exact CH|apply advw_bytes|exact Hb|exact R].
  - inv_rmap R Hb; [|apply adv_len; [exact CH|apply advw_from]]. eapply shape_len; [exact CH|apply advw_from|exact Hb|exact R].
  - apply run_alone in R; [discriminate R|exact Hb].
Qed.
Lemma shape_upd n a enc u : buf_ok t enc -> reads t (read_upd n a) enc u -> payload32 (action_wire a) enc.
Proof.
  intros Hb R. destruct a; cbn [read_upd action_wire] in *;
    try (inv_rmap R Hb; [eapply shape_value; eassumption|apply adv_val]).
  - inv_rmap R Hb; [|apply adv_pf]. unfold read_packed_fixed_k in R.
    inv_rmap R Hb; [|apply adv_packed_fixed; [exact CH|destruct k; cbn; lia]].
    eapply shape_packed_fixed; [exact CH| |exact Hb|exact R]. destruct k; cbn; lia.
  - inv_rmap R Hb; [|apply adv_packed; [exact CH|apply adv_val]].
    eapply shape_len; [exact CH| |exact Hb|exact R].
    eapply advw_same; [apply packed_loop_eq|]. apply advw_rmap, loop_advw. intros st. apply adv1_rmap, adv_val.
  - destruct (type_default D (message_default D c lit) tk); [|apply run_alone in R; [discriminate R|exact Hb]].
    destruct (type_default D (message_default D c lit) tv); [|apply run_alone in R; [discriminate R|exact Hb]].
    inv_rmap R Hb; [|apply adv_map; [exact CH|apply adv_val|apply adv_val]].
    eapply shape_len; [exact CH| |exact Hb|exact R].
    eapply advw_same; [apply map_loop_eq|]. apply loop_advw. intros [kk vv].
    apply adv1_bind; [apply adv_u8|]. intros b. cbv zeta.
    destruct (Z.shiftr b 3 =? 1); [apply adv0_rmap, adv_val|].
    destruct (Z.shiftr b 3 =? 2); [apply adv0_rmap, adv_val|apply adv0_fail].
  - apply run_alone in R; [discriminate R|exact Hb].
Qed.

(** ** Rounds *)
Variable msg : message.
Notation arms := (match_arms c msg).
Definition round_of n (ss : list slot) : rd (list slot) := round t D c lit n (from n) arms ss.
Lemma adv_round_of n ss : adv1 t (round_of n ss).
Proof. apply adv_round; [exact CH|]. intros. apply advw_from. Qed.

Lemma arm_inv tag k i a : find (fun '(n, _) => n =? tag) arms = Some (k, (i, a)) ->
  k = tag /\ exists d, nth_error (descs c msg) i = Some d /\ In (tag, (i, a)) (desc_arms i d).
Proof.
  intros F. apply find_some in F. destruct F as [F E]. apply Z.eqb_eq in E. subst k. split; [reflexivity|].
  rewrite match_arms_descs in F. apply in_flat_map in F. destruct F as ([j d] & F & H).
  assert (j = i) as ->.
  { destruct d as [f|vs]; cbn [desc_arms] in H; [destruct H as [H|[]]; congruence|].
    apply in_map_iff in H. destruct H as ([? ?] & H & _). congruence. }
  exists d. split; [|exact H]. clear -F. revert F. assert (G : forall k, In (i, d) (number_from k (descs c msg)) -> (k <= i)%nat /\ nth_error (descs c msg) (i - k) = Some d).
  { induction (descs c msg) as [|x l IH]; intros k H; [contradiction|]. cbn [number_from] in H. destruct H as [H|H].
    - injection H as -> ->. rewrite Nat.sub_diag. auto.
    - apply IH in H. destruct H as [L H]. split; [lia|]. replace (i - k)%nat with (S (i - S k)) by lia. exact H. }
  intros F. apply G in F. rewrite Nat.sub_0_r in F. apply F.
Qed.
Lemma read_fn_wire ty : typ_ok D ty -> rexpr_wire (read_fn ty) = wire_type_num ty false mod 8.
Proof. destruct ty; cbn; try contradiction; reflexivity. Qed.

Hypothesis DOK : Forall (desc_ok D c lit) (descs c msg).
Hypothesis POK : Forall packed_ok (descs c msg).

Lemma arm_wire tag k i a : find (fun '(n, _) => n =? tag) arms = Some (k, (i, a)) -> action_wire a = tag mod 8.
Proof.
  intros F. destruct (arm_inv _ _ _ _ F) as (_ & d & N & H). clear F.
  apply nth_error_In in N. rewrite Forall_forall in DOK, POK. pose proof (DOK _ N) as O. pose proof (POK _ N) as P.
  destruct d as [f|vs]; cbn [desc_arms desc_ok packed_ok] in *.
  - destruct H as [H|[]]. injection H as <- <-. unfold field_tag. rewrite wire_type_mod.
    destruct O as (O1 & O2 & O3 & _). unfold field_arm, generated_type_of in *. destruct (f_boxed f).
    { specialize (O1 eq_refl). destruct (f_freq f); try discriminate O1; cbn [freq_is_map freq_is_repeated freq_is_optional action_wire] in *;
        (destruct (f_is_packed f); [destruct (P eq_refl); discriminate|]); apply read_fn_wire; exact O2. }
    destruct (f_freq f); cbn [freq_is_map freq_is_repeated freq_is_optional action_wire] in *;
      try ((destruct (f_is_packed f); [destruct (P eq_refl); discriminate|]); apply read_fn_wire; exact O2).
    all: try (destruct (f_is_packed f); [destruct (is_fixed_size (f_typ f)); reflexivity|cbn [action_wire]; apply read_fn_wire; exact O2]).
    all: destruct (f_typ f); try contradiction O2; cbn [action_wire]; destruct (f_is_packed f); reflexivity.
  - apply in_map_iff in H. destruct H as ([j f] & H & Hin). injection H as <- <-.
    assert (In f vs) as Hf.
    { clear -Hin. revert Hin. generalize 0%nat. induction vs as [|x vs IH]; intros k H; [contradiction|]. cbn in H. destruct H as [H|H]; [left; congruence|right; eauto]. }
    rewrite Forall_forall in O, P. cbn [action_wire]. unfold field_tag. rewrite wire_type_mod, (P _ Hf). apply read_fn_wire, O, Hf.
Qed.

(** ** The effect of one record *)
Definition step_rec (n : nat) (ss : list slot) (r : wrec) (ss' : list slot) : Prop :=
  match find (fun '(k, _) => k =? rtag r) arms with
  | None => ss' = ss
  | Some (_, (i, a)) => exists s u s', nth_error ss i = Some s /\ reads t (read_upd n a) (rpay r) u /\
                        apply_upd u s = Some s' /\ ss' = set_nth i s' ss
  end.

Lemma buf_ok_app a b : buf_ok t (a ++ b) -> buf_ok t a /\ buf_ok t b.
Proof. unfold buf_ok. rewrite zlen_app. pose proof (zlen_nonneg a). pose proof (zlen_nonneg b). lia. Qed.

Lemma round_rec n ss enc ss' r x y : wrec_ok r -> reads t (round_of n ss) enc ss' -> buf_ok t enc ->
  enc ++ x = rec_bytes r ++ y -> enc = rec_bytes r /\ x = y /\ step_rec n ss r ss'.
Proof.
  intros (K1 & K2 & K3 & K4) R Hb E. unfold round_of, round in R.
  apply reads_bind_inv in R; [|apply exact_adv1, exact_varint32|intros; apply adv_field; [exact CH|intros; apply advw_from]|exact Hb].
  destruct R as (e1 & e2 & tag & -> & R1 & R2). destruct (buf_ok_app _ _ Hb) as [Hb1 Hb2].
  apply shape_varint32 in R1; [|exact Hb1]. destruct R1 as (V1 & _ & ->).
  unfold rec_bytes in E. rewrite <- !app_assoc in E. destruct (varint_prefix _ V1 _ _ _ K1 E) as [-> E2].
  fold (rtag r) in R2. unfold run_field in R2. unfold step_rec.
  destruct (find (fun '(n, _) => n =? rtag r) arms) as [[k [i a]]|] eqn:F.
  - destruct (nth_error ss i) as [s|] eqn:N; [|apply run_alone in R2; [discriminate R2|exact Hb2]].
    apply reads_rmap_inv in R2; [|apply adv_action; [exact CH|intros; apply advw_from]|exact Hb2].
    destruct R2 as (s' & R2 & <-). apply action_upd in R2; [|exact Hb2]. destruct R2 as (u & R2 & Eu).
    pose proof (shape_upd _ _ _ _ Hb2 R2) as S. rewrite (arm_wire _ _ _ _ F) in S.
    destruct (payload32_prefix _ _ _ _ _ S (field_payload_32 _ _ K3 K4) E2) as [-> ->].
    unfold rec_bytes. split; [reflexivity|]. split; [reflexivity|]. exists s, u, s'. auto.
  - apply reads_bind_inv in R2; [|apply adv_unknown; exact CH|intros; apply adv0_ret|exact Hb2].
    destruct R2 as (e3 & e4 & [] & -> & R3 & R4). destruct (buf_ok_app _ _ Hb2) as [Hb3 Hb4].
    pose proof (run_alone _ _ _ _ R4 Hb4) as R5. injection R5 as <- R5. symmetry in R5. apply zlen_0_nil in R5. subst e4.
    rewrite app_nil_r in *. apply shape_unknown in R3; [|exact CH|exact Hb3].
    destruct (field_payload_prefix _ _ _ _ _ R3 K3 E2) as [-> ->]. auto.
Qed.

Lemma step_round n ss r ss' : wrec_ok r -> buf_ok t (rec_bytes r) -> step_rec n ss r ss' -> reads t (round_of n ss) (rec_bytes r) ss'.
Proof.
  intros (K1 & K2 & K3 & K4) Hb S. destruct (buf_ok_app _ _ Hb) as [Hb1 Hb2]. unfold round_of, round, rec_bytes.
  eapply reads_bind.
  - apply reads_intro. intros bs s e Hh _ _. apply read_varint32_ok; [exact Hh|exact K1|exact K2].
  - fold (rtag r). unfold run_field. unfold step_rec in S.
    destruct (find (fun '(n, _) => n =? rtag r) arms) as [[k [i a]]|].
    + destruct S as (s & u & s' & N & R & Eu & ->). rewrite N.
      apply (reads_rmap t (fun s' => set_nth i s' ss)). eapply upd_action; eassumption.
    + subst ss'. rewrite <- (app_nil_r (rpay r)). eapply reads_bind; [apply reads_unknown; exact K3|apply reads_ret].
Qed.

(** a sequence of records *)
Inductive steps_rec (n : nat) : list slot -> list wrec -> list slot -> Prop :=
| sr_nil ss : steps_rec n ss [] ss
| sr_cons ss r ss1 rs ss2 : step_rec n ss r ss1 -> steps_rec n ss1 rs ss2 -> steps_rec n ss (r :: rs) ss2.

Lemma steps_rec_app n rs1 rs2 ss ss2 : steps_rec n ss (rs1 ++ rs2) ss2 <-> exists ss1, steps_rec n ss rs1 ss1 /\ steps_rec n ss1 rs2 ss2.
Proof.
  revert ss; induction rs1 as [|r rs1 IH]; intros ss; cbn [app].
  - split; [intros H; exists ss; split; [constructor|exact H]|intros (ss1 & H1 & H2); inversion H1; subst; exact H2].
  - split.
    + intros H. inversion H as [|? ? ss1 ? ? H1 H2]; subst. apply IH in H2. destruct H2 as (x & H2 & H3). exists x. split; [econstructor; eassumption|exact H3].
    + intros (x & H1 & H2). inversion H1 as [|? ? ss1 ? ? H3 H4]; subst. econstructor; [exact H3|]. apply IH. eauto.
Qed.

Lemma rec_nonempty r : wrec_ok r -> rec_bytes r <> [].
Proof. intros (K & _). unfold rec_bytes. apply is_varint_nonempty in K. destruct (rkey r); [cbn in K; lia|discriminate]. Qed.

Lemma trace_steps n rs : Forall wrec_ok rs -> forall ss encs ss', buf_ok t (recs_bytes rs) ->
  trace t (round_of n) ss encs ss' -> concat encs = recs_bytes rs -> steps_rec n ss rs ss'.
Proof.
  unfold recs_bytes. induction 1 as [|r rs Hr Hrs IH]; intros ss encs ss' Hb T E; cbn [map concat] in *.
  - inversion T; subst; [constructor|]. exfalso. destruct enc; [congruence|discriminate E].
  - inversion T as [|? enc st1 encs' ? R Ne T']; subst.
    + exfalso. cbn in E. pose proof (rec_nonempty r Hr). destruct (rec_bytes r); [congruence|discriminate E].
    + cbn [concat] in E. rewrite <- E in Hb. destruct (buf_ok_app _ _ Hb) as [Hb1 Hb2].
      destruct (round_rec _ _ _ _ _ _ _ Hr R Hb1 E) as (-> & E2 & S). rewrite E2 in Hb2.
      econstructor; [exact S|]. eapply IH; eassumption.
Qed.
Lemma steps_trace n rs : Forall wrec_ok rs -> forall ss ss', buf_ok t (recs_bytes rs) -> steps_rec n ss rs ss' ->
  trace t (round_of n) ss (map rec_bytes rs) ss'.
Proof.
  unfold recs_bytes. induction 1 as [|r rs Hr Hrs IH]; intros ss ss' Hb S; inversion S as [|? ? ss1 ? ? S1 S2]; subst; cbn [map concat] in *.
  - constructor.
  - destruct (buf_ok_app _ _ Hb) as [Hb1 Hb2]. econstructor; [apply step_round; eassumption|apply rec_nonempty; exact Hr|apply IH; assumption].
Qed.

Lemma recs_length rs : Forall wrec_ok rs -> (length rs <= length (recs_bytes rs))%nat.
Proof.
  induction 1 as [|r rs Hr Hrs IH]; [cbn; lia|]. unfold recs_bytes in *. cbn [map concat length]. rewrite app_length.
  pose proof (rec_nonempty r Hr). destruct (rec_bytes r); [congruence|cbn [length]; lia].
Qed.

(** ** Decoding a sequence of records *)
Variable m : midx.
Hypothesis G : get_message D m = Some msg.
Hypothesis NU : is_unit msg = false.
Variable d : list slot.
Hypothesis DF : message_default D c lit m = Some d.

Theorem decode_recs n rs ss : Forall wrec_ok rs -> buf_ok t (recs_bytes rs) -> (length (recs_bytes rs) <= n)%nat ->
  decode D c lit t (S n) m (recs_bytes rs) = Ok ss <-> steps_rec n d rs ss.
Proof.
  intros Hrs Hb Hn. unfold decode, from_bytes.
  assert (E : forall r, from_reader D c lit t (S n) m (recs_bytes rs) r = loop (S n) (round_of n) d (recs_bytes rs) r).
  { intros r. cbn [from_reader]. rewrite G, DF, NU. symmetry. apply (msg_loop_eq (S n) (run_field D c lit t n (from n) arms) d). }
  rewrite E. split.
  - intros H. destruct (loop (S n) (round_of n) d (recs_bytes rs) (mkR 0 (zlen (recs_bytes rs)))) as [o r'] eqn:L. cbn [fst] in H. subst o.
    destruct (loop_inv t (round_of n) (adv_round_of n) _ _ _ _ _ _ _ Hb (Z.le_refl 0) L) as (_ & -> & T).
    destruct (T ltac:(lia)) as (encs & T1 & Hh & E1 & _).
    eapply trace_steps; [exact Hrs|exact Hb|exact T1|]. eapply here_unique; [exact Hh|apply here_all|lia].
  - intros H. apply steps_trace in H; [|exact Hrs|exact Hb].
    pose proof (recs_length rs Hrs).
    pose proof (trace_loop _ _ _ _ _ H (S n) (recs_bytes rs) 0 ltac:(rewrite map_length; lia) (here_all _) Hb) as L.
    fold (recs_bytes rs) in L. rewrite Z.add_0_l in L. rewrite L. reflexivity.
Qed.
End Records.
