(** What a successful read says about the buffer (the converse of [reads]),
    and skipping of unknown fields. *)
From Coq Require Import ZifyBool ZifyNat ZifyN.
From Verif Require Import Base BaseFacts Utf8 Reader PackedFixed Writer Sizeofs Spec
  VarintFacts WriterFacts ScalarFacts DelimFacts.
Ltac Zify.zify_post_hook ::= Z.div_mod_to_equations.

(** ** Unknown fields *)

Lemma skip_ok' t offset bs s e :
  0 <= s -> 0 <= offset -> s + offset <= e -> s + offset < usize_mod t ->
  skip t offset bs (mkR s e) = (Ok tt, mkR (s + offset) e).
Proof.
  intros. unfold skip, bind, get_start, get_end, lift, set_start. cbn [r_start r_end].
  rewrite usub_ok by lia. destruct (Z.ltb_spec (e - s) offset); [lia|].
  rewrite uadd_ok by lia. reflexivity.
Qed.

Lemma half_le t : usize_mod t / 2 <= usize_mod t - 2.
Proof. pose proof (usize_mod_ge t). lia. Qed.

Lemma reads_unknown t tag enc : field_payload (tag mod 8) enc -> reads t (read_unknown t tag) enc tt.
Proof.
  intros H. apply reads_intro. intros bs s e Hh Hb He.
  destruct (buf_bound _ _ _ _ Hb Hh) as [Hs Hu]. pose proof (half_le t).
  unfold read_unknown. rewrite land_7. remember (tag mod 8) as w eqn:Ew. clear Ew.
  destruct H as [l Hv Hl|l Hl|p b Hv Hl Hb2|l Hl]; cbn [Z.eqb Pos.eqb orb].
  - erewrite bind_ok by (eapply read_varint64_ok; eassumption). reflexivity.
  - replace (zlen l) with 8 in * by (unfold zlen; lia). apply skip_ok'; lia.
  - pose proof (here_app _ _ _ _ Hh) as [H1 H2].
    erewrite bind_ok by (eapply read_varint64_ok; eassumption). rewrite Hb2.
    rewrite zlen_app in *. pose proof (zlen_nonneg p). pose proof (zlen_nonneg b).
    destruct (Z.ltb_spec (zlen b) (usize_mod t)); [|lia].
    rewrite Z.add_assoc. apply skip_ok'; lia.
  - replace (zlen l) with 4 in * by (unfold zlen; lia). apply skip_ok'; lia.
Qed.

Lemma unknown_group t tag bs r : tag mod 8 = 3 \/ tag mod 8 = 4 ->
  read_unknown t tag bs r = (Err EDeprecated, r).
Proof. intros H. unfold read_unknown. rewrite land_7. destruct H as [-> | ->]; reflexivity. Qed.
Lemma unknown_bad t tag bs r : tag mod 8 = 6 \/ tag mod 8 = 7 ->
  read_unknown t tag bs r = (Err (EUnknownWireType (tag mod 8)), r).
Proof. intros H. unfold read_unknown. rewrite land_7. destruct H as [-> | ->]; reflexivity. Qed.

(** ** Converse of the varint lemmas *)
Lemma read_varint64_inv bs s e v r' :
  0 <= s -> read_varint64 bs (mkR s e) = (Ok v, r') ->
  exists l, here bs s l /\ is_varint l /\ (length l <= 10)%nat /\
            v = varint_value l mod 2 ^ 64 /\ r' = mkR (s + zlen l) e.
Proof.
  intros Hs H. destruct (Z.le_gt_cases (zlen bs) s) as [Hle|Hgt].
  { rewrite read_varint64_beyond in H by lia. discriminate. }
  destruct (here_split bs s ltac:(lia)) as (l & Hl & Hend).
  destruct (varint_cases l 10) as [(l1 & l2 & -> & Hv & Hn)|[(l1 & l2 & -> & Hc & Hn)|(Hc & Hn)]].
  - apply here_app in Hl. destruct Hl as [Hl _].
    rewrite (read_varint64_ok _ _ _ _ Hl Hv Hn) in H. injection H as <- <-.
    exists l1. auto.
  - apply here_app in Hl. destruct Hl as [Hl _].
    rewrite (read_varint64_long _ _ _ _ Hl Hc Hn) in H. discriminate.
  - rewrite (read_varint64_eob _ _ _ _ Hl Hc Hn Hend) in H. discriminate.
Qed.

Lemma read_varint32_inv bs s e v r' :
  0 <= s -> read_varint32 bs (mkR s e) = (Ok v, r') ->
  exists l, here bs s l /\ is_varint l /\ (length l <= 10)%nat /\
            v = varint_value l mod 2 ^ 32 /\ r' = mkR (s + zlen l) e.
Proof.
  intros Hs H. destruct (Z.le_gt_cases (zlen bs) s) as [Hle|Hgt].
  { rewrite read_varint32_beyond in H by lia. discriminate. }
  destruct (here_split bs s ltac:(lia)) as (l & Hl & Hend).
  destruct (varint_cases l 10) as [(l1 & l2 & -> & Hv & Hn)|[(l1 & l2 & -> & Hc & Hn)|(Hc & Hn)]].
  - apply here_app in Hl. destruct Hl as [Hl _].
    rewrite (read_varint32_ok _ _ _ _ Hl Hv Hn) in H. injection H as <- <-.
    exists l1. auto.
  - apply here_app in Hl. destruct Hl as [Hl _].
    rewrite (read_varint32_long _ _ _ _ Hl Hc Hn) in H. discriminate.
  - rewrite (read_varint32_eob _ _ _ _ Hl Hc Hn Hend) in H. discriminate.
Qed.

Lemma is_varint_nonempty l : is_varint l -> 1 <= zlen l.
Proof. intros H. destruct H; rewrite zlen_cons; match goal with |- context [zlen ?x] => pose proof (zlen_nonneg x) end; lia. Qed.

(** [exact t m]: whenever [m] succeeds it has read some non-empty bytes standing
    at its position, moved just past them, and would read the same value from
    the same bytes anywhere else. *)
Definition exact_reader {A} (t : target) (m : rd A) : Prop :=
  forall bs s e v r', buf_ok t bs -> 0 <= s -> m bs (mkR s e) = (Ok v, r') ->
  exists enc, here bs s enc /\ enc <> [] /\ r' = mkR (s + zlen enc) e /\ reads t m enc v.

Lemma exact_varint64 t : exact_reader t read_varint64.
Proof.
  intros bs s e v r' Hb Hs H. destruct (read_varint64_inv _ _ _ _ _ Hs H) as (l & Hl & Hv & Hn & -> & ->).
  exists l. split; [exact Hl|]. split; [apply nonempty_zlen, is_varint_nonempty, Hv|]. split; [reflexivity|].
  apply reads_any_reads. intros pre post e'. apply read_varint64_ok; auto using here_intro.
Qed.
Lemma exact_varint32 t : exact_reader t read_varint32.
Proof.
  intros bs s e v r' Hb Hs H. destruct (read_varint32_inv _ _ _ _ _ Hs H) as (l & Hl & Hv & Hn & -> & ->).
  exists l. split; [exact Hl|]. split; [apply nonempty_zlen, is_varint_nonempty, Hv|]. split; [reflexivity|].
  apply reads_any_reads. intros pre post e'. apply read_varint32_ok; auto using here_intro.
Qed.

Lemma bind_inv {A B} (m : rd A) (f : A -> rd B) bs r v r' :
  bind m f bs r = (Ok v, r') -> exists a r1, m bs r = (Ok a, r1) /\ f a bs r1 = (Ok v, r').
Proof. unfold bind. destruct (m bs r) as [[a| | | |] r1]; try discriminate. eauto. Qed.

Lemma exact_rmap {A B} t (f : A -> B) m : exact_reader t m -> exact_reader t (rmap f m).
Proof.
  intros X bs s e v r' Hb Hs H. unfold rmap in H. apply bind_inv in H.
  destruct H as (a & r1 & H1 & H2). injection H2 as <- <-.
  destruct (X _ _ _ _ _ Hb Hs H1) as (enc & Hh & Hne & -> & R). exists enc.
  split; [exact Hh|]. split; [exact Hne|]. split; [reflexivity|].
  intros pre post e' Hb' He'. unfold rmap. erewrite bind_ok by (apply R; assumption). reflexivity.
Qed.

Lemma exact_ext {A} t (m m' : rd A) : (forall bs r, m bs r = m' bs r) -> exact_reader t m -> exact_reader t m'.
Proof.
  intros E X bs s e v r' Hb Hs H. rewrite <- E in H. destruct (X _ _ _ _ _ Hb Hs H) as (enc & a & b & c & d).
  exists enc. repeat (split; [assumption|]). eapply reads_ext; eassumption.
Qed.

Lemma exact_fixed {M} t n (f : bytes -> M) : 0 < n <= 8 -> exact_reader t (read_fixed t n f).
Proof.
  intros Hn bs s e v r' Hb Hs H. unfold read_fixed in H.
  apply bind_inv in H. destruct H as (s0 & r0 & H0 & H). injection H0 as <- <-.
  apply bind_inv in H. destruct H as (e0 & r0 & H0 & H). cbn [r_start] in *.
  apply bind_inv in H. destruct H as (x & r1 & H1 & H).
  unfold get_or_eob in H1. destruct (slice bs s e0) as [y|] eqn:S; [|discriminate]. injection H1 as <- <-.
  apply here_slice in S. destruct S as (Hh & He & _).
  assert (r0 = mkR s e). { unfold lift in H0. destruct (uadd t s n); congruence. } subst r0.
  assert (e0 = s + n).
  { unfold lift, uadd in H0. pose proof (usize_mod_ge t). pose proof (zlen_nonneg y).
    destruct (Z.ltb_spec (s + n) (usize_mod t)); [congruence|].
    destruct (overflow_checks t); [discriminate|]. injection H0 as H0.
    pose proof (here_bound _ _ _ Hh). unfold buf_ok in Hb. lia. }
  unfold bind, set_start, ret in H. cbn [r_end] in H. injection H as <- <-.
  assert (n = zlen y) by lia. subst n. exists y.
  split; [exact Hh|]. split; [apply nonempty_zlen; lia|]. split; [reflexivity|].
  apply reads_intro. intros. apply read_fixed_here; assumption.
Qed.

Lemma exact_int32 t : exact_reader t read_int32. Proof. apply exact_rmap, exact_varint32. Qed.
Lemma exact_int64 t : exact_reader t read_int64. Proof. apply exact_rmap, exact_varint64. Qed.
Lemma exact_sint32 t : exact_reader t read_sint32.
Proof. apply (exact_rmap t (fun n => Z.lxor (wrapS 32 (Z.shiftr n 1)) (- (wrapS 32 (Z.land n 1))))), exact_varint32. Qed.
Lemma exact_sint64 t : exact_reader t read_sint64.
Proof. apply (exact_rmap t (fun n => Z.lxor (wrapS 64 (Z.shiftr n 1)) (- (wrapS 64 (Z.land n 1))))), exact_varint64. Qed.
Lemma exact_bool t : exact_reader t read_bool. Proof. apply exact_rmap, exact_varint32. Qed.
Lemma exact_enum {E} t (f : Z -> E) : exact_reader t (read_enum f). Proof. apply exact_rmap, exact_int32. Qed.
Lemma exact_fixed64 t : exact_reader t (read_fixed64 t). Proof. apply exact_fixed; lia. Qed.
Lemma exact_fixed32 t : exact_reader t (read_fixed32 t). Proof. apply exact_fixed; lia. Qed.
Lemma exact_sfixed64 t : exact_reader t (read_sfixed64 t). Proof. apply exact_fixed; lia. Qed.
Lemma exact_sfixed32 t : exact_reader t (read_sfixed32 t). Proof. apply exact_fixed; lia. Qed.
Lemma exact_float t : exact_reader t (read_float t). Proof. apply exact_fixed; lia. Qed.
Lemma exact_double t : exact_reader t (read_double t). Proof. apply exact_fixed; lia. Qed.

(** what a successful [read_len_varint] decomposes into *)
Lemma read_len_varint_inv {A} t (m : rd A) bs s e v r' :
  0 <= s -> read_len_varint t m bs (mkR s e) = (Ok v, r') ->
  exists p e1 s2 e2, here bs s p /\ is_varint p /\ (length p <= 10)%nat /\
    let len := varint_value p mod 2 ^ 32 in
    uadd t (s + zlen p) len = Ok e1 /\
    m bs (mkR (s + zlen p) e1) = (Ok v, mkR s2 e2) /\ r' = mkR e2 e.
Proof.
  intros Hs H. unfold read_len_varint in H. apply bind_inv in H. destruct H as (len & r1 & H1 & H).
  destruct (read_varint32_inv _ _ _ _ _ Hs H1) as (p & Hp & Hv & Hn & -> & ->).
  unfold read_len in H.
  apply bind_inv in H. destruct H as (? & ? & H0 & H). injection H0 as <- <-. cbn [r_end] in H.
  apply bind_inv in H. destruct H as (? & ? & H0 & H). injection H0 as <- <-. cbn [r_start] in H.
  apply bind_inv in H. destruct H as (e1 & r2 & H0 & H).
  destruct (uadd t (s + zlen p) (varint_value p mod 2 ^ 32)) as [e1'| | | |] eqn:U; unfold lift in H0; try discriminate.
  injection H0 as <- <-.
  apply bind_inv in H. destruct H as (? & ? & H0 & H). injection H0 as <- <-. cbn [r_start] in H.
  apply bind_inv in H. destruct H as (v0 & r3 & H0 & H). destruct r3 as [s2 e2].
  unfold bind, get_end, set_start, set_end, ret in H. cbn [r_start r_end] in H. injection H as <- <-.
  exists p, e1', s2, e2. auto 8.
Qed.

Lemma uadd_inv t a b c : 0 <= a -> 0 <= b -> uadd t a b = Ok c -> c = a + b \/ (c < a /\ c < b /\ usize_mod t <= a + b /\ overflow_checks t = false) \/ usize_mod t <= a \/ usize_mod t <= b.
Proof.
  intros Ha Hb H. unfold uadd in H. destruct (Z.ltb_spec (a + b) (usize_mod t)).
  - injection H as <-. left; reflexivity.
  - destruct (overflow_checks t); [discriminate|]. injection H as <-.
    pose proof (usize_mod_ge t).
    destruct (Z.le_gt_cases (usize_mod t) a); [tauto|]. destruct (Z.le_gt_cases (usize_mod t) b); [tauto|].
    right; left. rewrite <- (Z.mod_unique (a + b) (usize_mod t) 1 (a + b - usize_mod t)) by lia. lia.
Qed.

Lemma uadd_inv' t a b c : 0 <= a < usize_mod t -> 0 <= b < 2 ^ 32 -> uadd t a b = Ok c ->
  c = a + b \/ (c < a /\ usize_mod t <= a + b /\ overflow_checks t = false).
Proof. intros Ha Hb H. pose proof (usize_mod_ge t). destruct (uadd_inv t a b c) as [?|[(?&?&?&?)|[?|?]]]; try lia; auto. Qed.

(** Bytes and strings *)
Lemma read_bytes_inv t bs s e v r' : buf_ok t bs -> 0 <= s -> read_bytes t bs (mkR s e) = (Ok v, r') ->
  exists p, here bs s (p ++ v) /\ is_varint p /\ (length p <= 10)%nat /\ varint_value p mod 2 ^ 32 = zlen v /\
            r' = mkR (s + zlen p + zlen v) e.
Proof.
  intros Hb Hs H. unfold read_bytes in H. destruct (read_len_varint_inv _ _ _ _ _ _ _ Hs H) as (p & e1 & s2 & e2 & Hp & Hv & Hn & U & M & ->).
  apply bind_inv in M. destruct M as (? & ? & M0 & M). injection M0 as <- <-. cbn [r_start] in M.
  apply bind_inv in M. destruct M as (? & ? & M0 & M). injection M0 as <- <-. cbn [r_end] in M.
  unfold get_or_eob in M. destruct (slice bs (s + zlen p) e1) as [x|] eqn:S; [|discriminate].
  injection M as <- <- <-. apply here_slice in S. destruct S as (Hh & He & _).
  pose proof (here_bound _ _ _ Hh). unfold buf_ok in Hb. pose proof (zlen_nonneg x). pose proof (zlen_nonneg p).
  pose proof (half_le t).
  apply uadd_inv' in U; [|lia|apply Z.mod_pos_bound; lia]; destruct U as [E|E]; [|lia].
  exists p. split; [apply here_app_inv; assumption|]. repeat split; auto; [lia|]. f_equal. lia.
Qed.

Lemma read_string_inv t bs s e v r' : buf_ok t bs -> 0 <= s -> read_string t bs (mkR s e) = (Ok v, r') ->
  exists p, here bs s (p ++ v) /\ is_varint p /\ (length p <= 10)%nat /\ varint_value p mod 2 ^ 32 = zlen v /\
            r' = mkR (s + zlen p + zlen v) e /\ utf8_valid v = true.
Proof.
  intros Hb Hs H. unfold read_string in H. destruct (read_len_varint_inv _ _ _ _ _ _ _ Hs H) as (p & e1 & s2 & e2 & Hp & Hv & Hn & U & M & ->).
  apply bind_inv in M. destruct M as (? & ? & M0 & M). injection M0 as <- <-. cbn [r_start] in M.
  apply bind_inv in M. destruct M as (? & ? & M0 & M). injection M0 as <- <-. cbn [r_end] in M.
  apply bind_inv in M. destruct M as (y & r9 & M0 & M).
  unfold get_or_eob in M0. destruct (slice bs (s + zlen p) e1) as [w|] eqn:S; [|discriminate].
  injection M0 as <- <-. destruct (utf8_valid w) eqn:UV; [|discriminate].
  injection M as <- <- <-. apply here_slice in S. destruct S as (Hh & He & _).
  pose proof (here_bound _ _ _ Hh). unfold buf_ok in Hb. pose proof (zlen_nonneg w). pose proof (zlen_nonneg p).
  pose proof (half_le t).
  apply uadd_inv' in U; [|lia|apply Z.mod_pos_bound; lia]; destruct U as [E|E]; [|lia].
  exists p. split; [apply here_app_inv; assumption|]. repeat split; auto; [lia|]. f_equal. lia.
Qed.

(** a varint-prefixed payload read back, for any (not only minimal) prefix *)
Lemma reads_prefixed {A} t (m : rd A) p body v :
  is_varint p -> (length p <= 10)%nat -> varint_value p mod 2 ^ 32 = zlen body ->
  reads_window t m body v -> reads t (read_len_varint t m) (p ++ body) v.
Proof.
  intros Hv Hn Hl R. apply reads_intro. intros bs s e H Hb He.
  apply here_app in H. destruct H as [H1 H2].
  unfold read_len_varint. erewrite bind_ok by (eapply read_varint32_ok; eassumption).
  rewrite Hl. erewrite read_len_window; [|exact R|exact H2|exact Hb].
  rewrite zlen_app, Z.add_assoc. reflexivity.
Qed.

Lemma prefixed_nonempty (p b : bytes) : is_varint p -> p ++ b <> [].
Proof. intros H. apply nonempty_zlen. rewrite zlen_app. pose proof (is_varint_nonempty _ H). pose proof (zlen_nonneg b). lia. Qed.

Lemma exact_bytes t : exact_reader t (read_bytes t).
Proof.
  intros bs s e v r' Hb Hs H. destruct (read_bytes_inv _ _ _ _ _ _ Hb Hs H) as (p & Hh & Hv & Hn & Hl & ->).
  exists (p ++ v). split; [exact Hh|]. split; [apply prefixed_nonempty, Hv|].
  split; [rewrite zlen_app, Z.add_assoc; reflexivity|]. apply reads_prefixed; auto using window_bytes.
Qed.

Lemma exact_string t : exact_reader t (read_string t).
Proof.
  intros bs s e v r' Hb Hs H. destruct (read_string_inv _ _ _ _ _ _ Hb Hs H) as (p & Hh & Hv & Hn & Hl & -> & U).
  exists (p ++ v). split; [exact Hh|]. split; [apply prefixed_nonempty, Hv|].
  split; [rewrite zlen_app, Z.add_assoc; reflexivity|]. apply reads_prefixed; auto.
  intros pre post Hb2. exists (zlen pre).
  unfold bind, get_start, get_end, get_or_eob. cbn [r_start r_end].
  rewrite (slice_here _ _ _ (here_intro pre v post)), U. reflexivity.
Qed.

(** ** Packed *)
Lemma here_nil bs s : 0 <= s <= zlen bs -> here bs s [].
Proof. intros H. destruct (here_split bs s H) as (l & Hl & _). apply (here_app bs s [] l). exact Hl. Qed.

Lemma here_start bs s l : here bs s l -> 0 <= s <= zlen bs.
Proof. intros H. pose proof (here_bound _ _ _ H). pose proof (here_nonneg _ _ _ H). pose proof (zlen_nonneg l). lia. Qed.

Lemma packed_loop_inv {M} t (m : rd M) : exact_reader t m ->
  forall fuel acc bs s e l r', buf_ok t bs -> 0 <= s <= zlen bs ->
  packed_loop fuel m acc bs (mkR s e) = (Ok l, r') ->
  exists encs xs, l = rev acc ++ xs /\ here bs s (concat encs) /\ e = s + zlen (concat encs) /\
    Forall2 (fun enc x => enc <> [] /\ reads t m enc x) encs xs /\ r' = mkR e e.
Proof.
  intros X. induction fuel as [|fuel IH]; intros acc bs s e l r' Hb Hs H; [discriminate|].
  cbn [packed_loop] in H. apply bind_inv in H. destruct H as (eof & r0 & H0 & H).
  injection H0 as <- <-. cbn [r_start r_end] in H.
  destruct (Z.eqb_spec s e) as [E|E].
  - injection H as <- <-. subst e. exists [], []. rewrite app_nil_r. simpl. rewrite zlen_nil, Z.add_0_r.
    split; [reflexivity|]. split; [apply here_nil; assumption|]. auto.
  - apply bind_inv in H. destruct H as (x & r1 & H1 & H).
    destruct (X _ _ _ _ _ Hb (proj1 Hs) H1) as (enc & Hh & Hne & -> & R).
    pose proof (here_bound _ _ _ Hh). pose proof (zlen_nonneg enc).
    assert (Hin : 0 <= s + zlen enc <= zlen bs) by lia.
    destruct (IH _ _ _ _ _ _ Hb Hin H) as (encs & xs & -> & Hh2 & -> & F & ->).
    exists (enc :: encs), (x :: xs). simpl. rewrite zlen_app, <- app_assoc, Z.add_assoc. simpl.
    split; [reflexivity|]. split; [apply here_app_inv; assumption|]. split; [reflexivity|].
    split; [constructor; auto|reflexivity].
Qed.

Lemma read_packed_inv {M} t (m : rd M) fuel bs s e l r' : exact_reader t m -> buf_ok t bs -> 0 <= s ->
  read_packed t fuel m bs (mkR s e) = (Ok l, r') ->
  exists p encs, here bs s (p ++ concat encs) /\ is_varint p /\ (length p <= 10)%nat /\
    varint_value p mod 2 ^ 32 = zlen (concat encs) /\
    Forall2 (fun enc x => enc <> [] /\ reads t m enc x) encs l /\
    r' = mkR (s + zlen (p ++ concat encs)) e.
Proof.
  intros X Hb Hs H. unfold read_packed in H.
  destruct (read_len_varint_inv _ _ _ _ _ _ _ Hs H) as (p & e1 & s2 & e2 & Hp & Hv & Hn & U & M0 & ->).
  pose proof (here_bound _ _ _ Hp). pose proof (zlen_nonneg p).
  assert (Hin : 0 <= s + zlen p <= zlen bs) by lia.
  destruct (packed_loop_inv t m X _ _ _ _ _ _ _ Hb Hin M0) as (encs & xs & E & Hh & E1 & F & E2).
  simpl in E. subst xs. injection E2 as -> ->. exists p, encs.
  pose proof (here_bound _ _ _ Hh). pose proof (zlen_nonneg (concat encs)). pose proof (half_le t). unfold buf_ok in Hb.
  split; [apply here_app_inv; assumption|]. split; [exact Hv|]. split; [exact Hn|].
  apply uadd_inv' in U; [|lia|apply Z.mod_pos_bound; lia]; destruct U as [E|E]; [|lia].
  split; [lia|]. split; [exact F|]. rewrite zlen_app. f_equal. lia.
Qed.

(** ** Map entries *)
Lemma map_loop_inv {K V} t (rk : rd K) (rv : rd V) : exact_reader t rk -> exact_reader t rv ->
  forall fuel k v bs s e kv r', buf_ok t bs -> 0 <= s <= zlen bs ->
  map_loop fuel rk rv k v bs (mkR s e) = (Ok kv, r') ->
  exists items, Forall (item_ok t rk rv) items /\ here bs s (flat_map item_bytes items) /\
    e = s + zlen (flat_map item_bytes items) /\ kv = fold_left item_apply items (k, v) /\ r' = mkR e e.
Proof.
  intros Xk Xv. induction fuel as [|fuel IH]; intros k v bs s e kv r' Hb Hs H; [discriminate|].
  cbn [map_loop] in H. apply bind_inv in H. destruct H as (eof & r0 & H0 & H).
  injection H0 as <- <-. cbn [r_start r_end] in H.
  destruct (Z.eqb_spec s e) as [E|E].
  - injection H as <- <-. subst e. exists []. simpl. rewrite zlen_nil, Z.add_0_r.
    split; [constructor|]. split; [apply here_nil; assumption|]. auto.
  - apply bind_inv in H. destruct H as (x & r1 & H1 & H).
    unfold read_u8 in H1. apply bind_inv in H1. destruct H1 as (? & ? & H0 & H1). injection H0 as <- <-. cbn [r_start] in H1.
    apply bind_inv in H1. destruct H1 as (b & ? & H0 & H1). unfold get_or_eob in H0.
    destruct (get bs s) as [b'|] eqn:G; [|discriminate]. injection H0 as <- <-.
    unfold bind, set_start, ret in H1. cbn [r_end] in H1. injection H1 as <- <-.
    pose proof (get_some_lt _ _ _ G). apply get_here in G.
    rewrite Z.shiftr_div_pow2 in H by lia. change (2 ^ 3) with 8 in H.
    destruct (Z.eqb_spec (bz b') 1) as [|_]; [|]. 1:{ destruct (Z.eqb_spec (bz b' / 8) 1); [lia|]. destruct (Z.eqb_spec (bz b' / 8) 2); [lia|discriminate]. }
    destruct (Z.eqb_spec (bz b' / 8) 1) as [E1|E1]; [|destruct (Z.eqb_spec (bz b' / 8) 2) as [E2|E2]; [|discriminate]].
    + apply bind_inv in H. destruct H as (k' & r1 & H1 & H).
      assert (Hs1 : 0 <= s + 1) by lia.
      destruct (Xk _ _ _ _ _ Hb Hs1 H1) as (enc & Hh & Hne & -> & R).
      pose proof (here_bound _ _ _ Hh). pose proof (zlen_nonneg enc).
      assert (Hin : 0 <= s + 1 + zlen enc <= zlen bs) by lia.
      destruct (IH _ _ _ _ _ _ _ Hb Hin H) as (items & F & Hh2 & -> & -> & ->).
      exists (MKey b' k' enc :: items). cbn [flat_map item_bytes fold_left item_apply fst snd].
      rewrite zlen_app, zlen_cons.
      split; [constructor; [split; assumption|exact F]|]. split.
      { apply here_app_inv; [apply (here_app_inv bs s [b'] enc); assumption|].
        rewrite zlen_cons, Z.add_assoc. exact Hh2. }
      split; [lia|]. auto.
    + apply bind_inv in H. destruct H as (v' & r1 & H1 & H).
      assert (Hs1 : 0 <= s + 1) by lia.
      destruct (Xv _ _ _ _ _ Hb Hs1 H1) as (enc & Hh & Hne & -> & R).
      pose proof (here_bound _ _ _ Hh). pose proof (zlen_nonneg enc).
      assert (Hin : 0 <= s + 1 + zlen enc <= zlen bs) by lia.
      destruct (IH _ _ _ _ _ _ _ Hb Hin H) as (items & F & Hh2 & -> & -> & ->).
      exists (MVal b' v' enc :: items). cbn [flat_map item_bytes fold_left item_apply fst snd].
      rewrite zlen_app, zlen_cons.
      split; [constructor; [split; assumption|exact F]|]. split.
      { apply here_app_inv; [apply (here_app_inv bs s [b'] enc); assumption|].
        rewrite zlen_cons, Z.add_assoc. exact Hh2. }
      split; [lia|]. auto.
Qed.

Lemma read_map_inv {K V} t (rk : rd K) (rv : rd V) fuel kd vd bs s e kv r' :
  exact_reader t rk -> exact_reader t rv -> buf_ok t bs -> 0 <= s ->
  read_map t fuel kd vd rk rv bs (mkR s e) = (Ok kv, r') ->
  exists p items, here bs s (p ++ flat_map item_bytes items) /\ is_varint p /\ (length p <= 10)%nat /\
    varint_value p mod 2 ^ 32 = zlen (flat_map item_bytes items) /\
    Forall (item_ok t rk rv) items /\ kv = fold_left item_apply items (kd, vd) /\
    r' = mkR (s + zlen (p ++ flat_map item_bytes items)) e.
Proof.
  intros Xk Xv Hb Hs H. unfold read_map in H.
  destruct (read_len_varint_inv _ _ _ _ _ _ _ Hs H) as (p & e1 & s2 & e2 & Hp & Hv & Hn & U & M0 & ->).
  pose proof (here_bound _ _ _ Hp). pose proof (zlen_nonneg p).
  assert (Hin : 0 <= s + zlen p <= zlen bs) by lia.
  destruct (map_loop_inv t rk rv Xk Xv _ _ _ _ _ _ _ _ Hb Hin M0) as (items & F & Hh & E1 & E & E2).
  injection E2 as -> ->. exists p, items.
  pose proof (here_bound _ _ _ Hh). pose proof (zlen_nonneg (flat_map item_bytes items)). pose proof (half_le t). unfold buf_ok in Hb.
  split; [apply here_app_inv; assumption|]. split; [exact Hv|]. split; [exact Hn|].
  apply uadd_inv' in U; [|lia|apply Z.mod_pos_bound; lia]; destruct U as [E3|E3]; [|lia].
  split; [lia|]. split; [exact F|]. split; [exact E|]. rewrite zlen_app. f_equal. lia.
Qed.
