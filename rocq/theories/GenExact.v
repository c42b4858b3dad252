(** With overflow checks, a reader that succeeds has moved forward over exactly
    the bytes it decoded, and it terminates. *)
From Coq Require Import ZifyBool ZifyNat ZifyN.
From Verif Require Import Base BaseFacts Utf8 Reader PackedFixed Writer Sizeofs Spec VarintFacts
  WriterFacts ScalarFacts DelimFacts PackedFixedFacts ExactFacts SimFacts Schema Gen GenSem GenSpec GenRead.

(** The reader moves forward; if it ends inside the buffer it would read the
    same value from the bytes it passed, wherever they stand. *)
Definition adv0 {A} (t : target) (m : rd A) : Prop :=
  forall bs s e v r', buf_ok t bs -> 0 <= s -> m bs (mkR s e) = (Ok v, r') ->
  exists s', r' = mkR s' e /\ s <= s' /\
    (s' <= zlen bs -> exists enc, here bs s enc /\ s' = s + zlen enc /\ reads t m enc v).
(** and it starts inside the buffer and moves at least one byte *)
Definition moves {A} (t : target) (m : rd A) : Prop :=
  forall bs s e v r', buf_ok t bs -> 0 <= s -> m bs (mkR s e) = (Ok v, r') -> s < zlen bs /\ s < r_start r'.
Definition adv1 {A} t (m : rd A) : Prop := adv0 t m /\ moves t m.

(** the same for the body of a length-delimited read *)
Definition advw {A} (t : target) (m : rd A) : Prop :=
  forall bs s e v r', buf_ok t bs -> 0 <= s <= e -> m bs (mkR s e) = (Ok v, r') ->
  r_end r' = e /\
  (e <= zlen bs -> exists enc, here bs s enc /\ e = s + zlen enc /\ reads_window t m enc v).

Lemma here_unique bs s l l' : here bs s l -> here bs s l' -> zlen l = zlen l' -> l = l'.
Proof.
  intros H1 H2 E. apply slice_here in H1. apply slice_here in H2. rewrite E in H1. congruence.
Qed.

Lemma reads_ret {A} t (a : A) : reads t (ret a) [] a.
Proof. apply reads_intro. intros. rewrite zlen_nil, Z.add_0_r. reflexivity. Qed.
Lemma reads_bind {A B} t (m : rd A) (f : A -> rd B) e1 e2 a b :
  reads t m e1 a -> reads t (f a) e2 b -> reads t (bind m f) (e1 ++ e2) b.
Proof.
  intros R1 R2. apply reads_intro. intros bs s e H Hb He. rewrite zlen_app in *. pose proof (zlen_nonneg e2).
  apply here_app in H. destruct H as [H1 H2].
  erewrite bind_ok by (eapply here_reads; [exact R1|exact H1|exact Hb|lia]).
  rewrite Z.add_assoc. eapply here_reads; [exact R2|exact H2|exact Hb|lia].
Qed.

Lemma adv0_ret {A} t (a : A) : adv0 t (ret a).
Proof.
  intros bs s e v r' Hb Hs H. injection H as <- <-. exists s. split; [reflexivity|]. split; [lia|].
  intros L. exists []. split; [apply here_nil; lia|]. split; [rewrite zlen_nil; lia|]. apply reads_ret.
Qed.
Lemma adv0_panic {A} t : adv0 t (lift (A:=A) Panic).
Proof. intros bs s e v r' Hb Hs H. discriminate. Qed.
Lemma adv1_panic {A} t : adv1 t (lift (A:=A) Panic).
Proof. split; [apply adv0_panic|]. intros bs s e v r' Hb Hs H. discriminate. Qed.
Lemma adv0_bind {A B} t (m : rd A) (f : A -> rd B) : adv0 t m -> (forall a, adv0 t (f a)) -> adv0 t (bind m f).
Proof.
  intros Hm Hf bs s e v r' Hb Hs H. apply bind_inv in H. destruct H as (a & r1 & H1 & H2).
  destruct (Hm _ _ _ _ _ Hb Hs H1) as (s1 & -> & L1 & X1).
  assert (0 <= s1) as Hs1 by lia.
  destruct (Hf a _ _ _ _ _ Hb Hs1 H2) as (s2 & -> & L2 & X2).
  exists s2. split; [reflexivity|]. split; [lia|]. intros L.
  destruct (X1 ltac:(lia)) as (e1 & E1 & -> & R1). destruct (X2 L) as (e2 & E2 & -> & R2).
  exists (e1 ++ e2). split; [apply here_app_inv; assumption|]. split; [rewrite zlen_app; lia|]. eapply reads_bind; eassumption.
Qed.
Lemma moves_bind {A B} t (m : rd A) (f : A -> rd B) : adv1 t m -> (forall a, adv0 t (f a)) -> moves t (bind m f).
Proof.
  intros [Hm Mm] Hf bs s e v r' Hb Hs H. apply bind_inv in H. destruct H as (a & r1 & H1 & H2).
  destruct (Mm _ _ _ _ _ Hb Hs H1) as [L1 L2]. destruct (Hm _ _ _ _ _ Hb Hs H1) as (s1 & -> & L3 & X1).
  assert (0 <= s1) as Hs1 by lia.
  destruct (Hf a _ _ _ _ _ Hb Hs1 H2) as (s2 & -> & L4 & X2). cbn [r_start] in *. lia.
Qed.
Lemma adv1_bind {A B} t (m : rd A) (f : A -> rd B) : adv1 t m -> (forall a, adv0 t (f a)) -> adv1 t (bind m f).
Proof. intros H1 H2. split; [apply adv0_bind; [apply H1|exact H2]|apply moves_bind; assumption]. Qed.
Lemma adv1_rmap {A B} t (f : A -> B) m : adv1 t m -> adv1 t (rmap f m).
Proof. intros H. apply adv1_bind; [exact H|]. intros a. apply adv0_ret. Qed.
Lemma adv0_rmap {A B} t (f : A -> B) m : adv0 t m -> adv0 t (rmap f m).
Proof. intros H. apply adv0_bind; [exact H|]. intros a. apply adv0_ret. Qed.

Lemma exact_adv1 {A} t (m : rd A) : exact_reader t m -> adv1 t m.
Proof.
  intros X. split; intros bs s e v r' Hb Hs H; destruct (X _ _ _ _ _ Hb Hs H) as (enc & Hh & Ne & -> & R);
    apply zlen_nonempty in Ne; pose proof (here_bound _ _ _ Hh).
  - exists (s + zlen enc). split; [reflexivity|]. split; [lia|]. intros _. exists enc. auto.
  - cbn [r_start]. lia.
Qed.

(** ** Loops *)

(** [while !r.is_eof() { st = body(st)? }] *)
Fixpoint loop {S} (fuel : nat) (body : S -> rd S) (st : S) : rd S :=
  match fuel with
  | O => lift NoFuel
  | Datatypes.S fuel' =>
    eof <- is_eof ;; if (eof : bool) then ret st else st' <- body st ;; loop fuel' body st'
  end.

(** the chunks the rounds of a loop decode *)
Inductive trace {S} (t : target) (body : S -> rd S) : S -> list bytes -> S -> Prop :=
| tr_nil st : trace t body st [] st
| tr_cons st enc st1 encs st2 : reads t (body st) enc st1 -> enc <> [] ->
    trace t body st1 encs st2 -> trace t body st (enc :: encs) st2.

Lemma trace_app {S} t (body : S -> rd S) a x b y d : trace t body a x b -> trace t body b y d -> trace t body a (x ++ y) d.
Proof. induction 1; [auto|]. intros. cbn. econstructor; eauto. Qed.
Lemma trace_app_inv {S} t (body : S -> rd S) x y a d : trace t body a (x ++ y) d -> exists b, trace t body a x b /\ trace t body b y d.
Proof.
  revert a; induction x as [|c x IH]; intros a H; cbn in H; [exists a; split; [constructor|exact H]|].
  inversion H as [|? ? st1 ? ? R Ne T]; subst. destruct (IH _ T) as (b & H1 & H2). exists b. split; [econstructor; eassumption|exact H2].
Qed.

Lemma trace_loop {S} t (body : S -> rd S) st encs st' : trace t body st encs st' ->
  forall fuel bs s, (length encs < fuel)%nat -> here bs s (concat encs) -> buf_ok t bs ->
  loop fuel body st bs (mkR s (s + zlen (concat encs)))
  = (Ok st', mkR (s + zlen (concat encs)) (s + zlen (concat encs))).
Proof.
  induction 1 as [st|st enc st1 encs st2 R Ne T IH]; intros fuel bs s Hf Hh Hb; (destruct fuel as [|fuel]; [cbn in Hf; lia|]).
  - cbn [loop concat]. unfold bind, is_eof. cbn [r_start r_end]. rewrite zlen_nil, Z.add_0_r, Z.eqb_refl. reflexivity.
  - cbn [concat length] in *. rewrite zlen_app. apply here_app in Hh. destruct Hh as [H1 H2].
    apply zlen_nonempty in Ne. pose proof (zlen_nonneg (concat encs)).
    cbn [loop]. unfold bind at 1, is_eof. cbn [r_start r_end].
    match goal with |- context [s =? ?b] => destruct (Z.eqb_spec s b); [lia|] end.
    erewrite bind_ok by (eapply here_reads; [exact R|exact H1|exact Hb|lia]).
    rewrite Z.add_assoc. apply IH; [lia|exact H2|exact Hb].
Qed.
Lemma trace_window {S} t (body : S -> rd S) st encs st' fuel : trace t body st encs st' -> (length encs < fuel)%nat ->
  reads_window t (loop fuel body st) (concat encs) st'.
Proof.
  intros T Hf pre post Hb. eexists. rewrite (trace_loop _ _ _ _ _ T _ _ _ Hf (here_intro pre _ post) Hb). reflexivity.
Qed.

Lemma loop_inv {S} t (body : S -> rd S) : (forall st, adv1 t (body st)) ->
  forall fuel st bs s e st' r', buf_ok t bs -> 0 <= s -> loop fuel body st bs (mkR s e) = (Ok st', r') ->
  s <= e /\ r' = mkR e e /\
  (e <= zlen bs -> exists encs, trace t body st encs st' /\ here bs s (concat encs) /\
     e = s + zlen (concat encs) /\ (length encs < fuel)%nat).
Proof.
  intros X. induction fuel as [|fuel IH]; intros st bs s e st' r' Hb Hs H; [discriminate|].
  cbn [loop] in H. apply bind_inv in H. destruct H as (eof & r0 & H0 & H). injection H0 as <- <-. cbn [r_start r_end] in H.
  destruct (Z.eqb_spec s e) as [E|E].
  - injection H as <- <-. subst e. split; [lia|]. split; [reflexivity|]. intros L. exists []. cbn [concat length].
    split; [constructor|]. split; [apply here_nil; lia|]. split; [rewrite zlen_nil; lia|lia].
  - apply bind_inv in H. destruct H as (st1 & r1 & H1 & H). destruct (X st) as [X0 X1].
    destruct (X1 _ _ _ _ _ Hb Hs H1) as [L1 L2]. destruct (X0 _ _ _ _ _ Hb Hs H1) as (s1 & -> & L3 & R).
    cbn [r_start] in L2. assert (0 <= s1) as Hs1 by lia. destruct (IH _ _ _ _ _ _ Hb Hs1 H) as (L4 & -> & T).
    split; [lia|]. split; [reflexivity|]. intros L. destruct (T L) as (encs & T1 & Hh & E1 & Hl).
    destruct (R ltac:(lia)) as (enc & Hh1 & E2 & R1). exists (enc :: encs). subst s1. cbn [concat length]. rewrite zlen_app.
    split; [econstructor; [exact R1| |exact T1]|]. { intros ->. rewrite zlen_nil in L2. lia. }
    split; [apply here_app_inv; assumption|]. split; [lia|lia].
Qed.

Lemma loop_advw {S} t (body : S -> rd S) fuel st : (forall st, adv1 t (body st)) -> advw t (loop fuel body st).
Proof.
  intros X bs s e v r' Hb Hs H. destruct (loop_inv t body X _ _ _ _ _ _ _ Hb (proj1 Hs) H) as (_ & -> & T).
  split; [reflexivity|]. intros L. destruct (T L) as (encs & T1 & Hh & E & Hl). exists (concat encs).
  split; [exact Hh|]. split; [exact E|]. eapply trace_window; eassumption.
Qed.

Definition same_rd {A} (m1 m2 : rd A) : Prop := forall bs r, m1 bs r = m2 bs r.
Lemma same_bind {A B} (m1 m2 : rd A) (f1 f2 : A -> rd B) : same_rd m1 m2 -> (forall a, same_rd (f1 a) (f2 a)) -> same_rd (bind m1 f1) (bind m2 f2).
Proof. intros H1 H2 bs r. unfold bind. rewrite H1. destruct (m2 bs r) as [[| | | |] ?]; try reflexivity. apply H2. Qed.

Lemma bind_assoc {A B C} (m : rd A) (f : A -> rd B) (g : B -> rd C) : same_rd (bind (bind m f) g) (bind m (fun a => bind (f a) g)).
Proof. intros bs r. unfold bind. destruct (m bs r) as [[| | | |] ?]; reflexivity. Qed.

Lemma advw_same {A} t (m1 m2 : rd A) : same_rd m1 m2 -> advw t m1 -> advw t m2.
Proof.
  intros E X bs s e v r' Hb Hs H. rewrite <- E in H. destruct (X _ _ _ _ _ Hb Hs H) as [H1 H2]. split; [exact H1|].
  intros L. destruct (H2 L) as (enc & Hh & He & W). exists enc. split; [exact Hh|]. split; [exact He|].
  intros pre post Hbf. destruct (W pre post Hbf) as (s' & Hw). exists s'. rewrite <- E. exact Hw.
Qed.

Lemma bind_eof {B} (f : bool -> rd B) bs r : bind is_eof f bs r = f (r_start r =? r_end r) bs r.
Proof. reflexivity. Qed.
Lemma bind_cong {A B} (m : rd A) (f g : A -> rd B) bs r : (forall a r', f a bs r' = g a bs r') -> bind m f bs r = bind m g bs r.
Proof. intros H. unfold bind. destruct (m bs r) as [[a| | | |] r']; try reflexivity. apply H. Qed.

Lemma packed_loop_eq {M} fuel (m : rd M) acc :
  same_rd (rmap (@rev M) (loop fuel (fun acc => rmap (fun x => x :: acc) m) acc)) (packed_loop fuel m acc).
Proof.
  revert acc; induction fuel as [|fuel IH]; intros acc bs r; [reflexivity|].
  cbn [loop packed_loop]. unfold rmap at 1. rewrite bind_assoc, !bind_eof.
  destruct (r_start r =? r_end r); [reflexivity|]. unfold rmap at 1. rewrite !bind_assoc. apply bind_cong. intros x r'.
  apply (IH (x :: acc) bs r').
Qed.
Lemma map_loop_eq {K V} fuel (rk : rd K) (rv : rd V) k v :
  same_rd (loop fuel (fun '(k, v) => b <- read_u8 ;;
             if Z.shiftr b 3 =? 1 then rmap (fun k' => (k', v)) rk
             else if Z.shiftr b 3 =? 2 then rmap (fun v' => (k, v')) rv
             else fail (EMap (Z.shiftr b 3))) (k, v))
          (map_loop fuel rk rv k v).
Proof.
  revert k v; induction fuel as [|fuel IH]; intros k v bs r; [reflexivity|].
  cbn [loop map_loop]. rewrite !bind_eof.
  destruct (r_start r =? r_end r); [reflexivity|]. rewrite bind_assoc. apply bind_cong. intros b r1. cbv zeta.
  destruct (Z.shiftr b 3 =? 1).
  - unfold rmap. rewrite bind_assoc. apply bind_cong. intros k' r2. apply IH.
  - destruct (Z.shiftr b 3 =? 2); [|reflexivity].
    unfold rmap. rewrite bind_assoc. apply bind_cong. intros k' r2. apply IH.
Qed.
Lemma msg_loop_eq fuel step ss : same_rd (loop fuel (fun ss => tag <- next_tag ;; step tag ss) ss) (msg_loop fuel step ss).
Proof.
  revert ss; induction fuel as [|fuel IH]; intros ss bs r; [reflexivity|].
  cbn [loop msg_loop]. rewrite !bind_eof. destruct (r_start r =? r_end r); [reflexivity|].
  rewrite bind_assoc. apply bind_cong. intros tag r1. apply bind_cong. intros x r2. apply IH.
Qed.

Lemma advw_rmap {A B} t (f : A -> B) m : advw t m -> advw t (rmap f m).
Proof.
  intros X bs s e v r' Hb Hs H. unfold rmap in H. apply bind_inv in H. destruct H as (a & r1 & H1 & H2). injection H2 as <- <-.
  destruct (X _ _ _ _ _ Hb Hs H1) as [E W]. split; [exact E|]. intros L. destruct (W L) as (enc & Hh & He & R).
  exists enc. split; [exact Hh|]. split; [exact He|]. intros pre post Hbf. destruct (R pre post Hbf) as (s' & Hw).
  exists s'. unfold rmap. erewrite bind_ok by exact Hw. reflexivity.
Qed.

Section Checked.
Variable t : target.
Hypothesis CH : overflow_checks t = true.

Lemma uadd_checked a b c : uadd t a b = Ok c -> c = a + b.
Proof. unfold uadd. rewrite CH. destruct (a + b <? usize_mod t); congruence. Qed.
Lemma usub_checked a b c : usub t a b = Ok c -> c = a - b /\ b <= a.
Proof. unfold usub. rewrite CH. destruct (Z.leb_spec b a); [intros H1; injection H1; lia|discriminate]. Qed.

Lemma adv_len {A} (m : rd A) : advw t m -> adv1 t (read_len_varint t m).
Proof.
  intros W. split; intros bs s e v r' Hb Hs H;
    destruct (read_len_varint_inv _ _ _ _ _ _ _ Hs H) as (p & e1 & s2 & e2 & Hp & Hv & Hn & U & M & ->);
    cbv zeta in U; apply uadd_checked in U; pose proof (here_bound _ _ _ Hp); pose proof (is_varint_nonempty _ Hv);
    pose proof (Z.mod_pos_bound (varint_value p) (2 ^ 32) ltac:(lia));
    assert (0 <= s + zlen p <= e1) as Hw by lia;
    destruct (W _ _ _ _ _ Hb Hw M) as [E X]; cbn [r_end] in E; subst e2.
  - exists e1. split; [reflexivity|]. split; [lia|]. intros L. destruct (X L) as (enc & Hh & E & R).
    exists (p ++ enc). split; [apply here_app_inv; assumption|]. split; [rewrite zlen_app; lia|].
    apply reads_prefixed; auto. lia.
  - cbn [r_start]. lia.
Qed.

Lemma adv_packed {M} fuel (m : rd M) : adv1 t m -> adv1 t (read_packed t fuel m).
Proof.
  intros H. apply adv_len. eapply advw_same; [apply packed_loop_eq|]. apply advw_rmap, loop_advw.
  intros st. apply adv1_rmap, H.
Qed.
Lemma adv_u8 : adv1 t read_u8.
Proof.
  assert (X : forall bs s e v r', read_u8 bs (mkR s e) = (Ok v, r') ->
    exists b, get bs s = Some b /\ v = bz b /\ r' = mkR (s + 1) e).
  { intros bs s e v r'. unfold read_u8, bind, get_start, get_or_eob, set_start, ret. cbn [r_start r_end].
    destruct (get bs s) as [b|]; [|discriminate]. intros H. injection H as <- <-. exists b. auto. }
  split; intros bs s e v r' Hb Hs H; destruct (X _ _ _ _ _ H) as (b & G & -> & ->);
    pose proof (get_some_lt _ _ _ G); apply get_here in G.
  - exists (s + 1). split; [reflexivity|]. split; [lia|]. intros L. exists [b]. split; [exact G|]. split; [reflexivity|].
    apply reads_intro. intros bs' s' e' Hh _ _. apply here_cons in Hh. destruct Hh as [Hg _].
    unfold read_u8, bind, get_start, get_or_eob, set_start, ret. cbn [r_start r_end]. rewrite Hg. reflexivity.
  - cbn [r_start]. lia.
Qed.
Lemma adv0_fail {A} e : adv0 t (fail (A:=A) e).
Proof. intros bs s e' v r' Hb Hs H. discriminate. Qed.
Lemma adv_map {K V} fuel kd vd (rk : rd K) (rv : rd V) : adv1 t rk -> adv1 t rv -> adv1 t (read_map t fuel kd vd rk rv).
Proof.
  intros Hk Hv. apply adv_len. eapply advw_same; [apply map_loop_eq|]. apply loop_advw.
  intros [k v]. apply adv1_bind; [apply adv_u8|]. intros b. cbv zeta.
  destruct (Z.shiftr b 3 =? 1); [apply adv0_rmap, Hk|].
  destruct (Z.shiftr b 3 =? 2); [apply adv0_rmap, Hv|apply adv0_fail].
Qed.

Lemma adv_skip n : 0 <= n -> adv0 t (skip t n).
Proof.
  intros Hn bs s e v r' Hb Hs H. unfold skip in H.
  apply bind_inv in H. destruct H as (? & ? & H0 & H). injection H0 as <- <-. cbn [r_start] in H.
  apply bind_inv in H. destruct H as (? & ? & H0 & H). injection H0 as <- <-. cbn [r_end] in H.
  apply bind_inv in H. destruct H as (d & r1 & H0 & H).
  destruct (usub t e s) as [d'| | | |] eqn:U; unfold lift in H0; try discriminate. injection H0 as <- <-.
  apply usub_checked in U. destruct U as [-> L].
  destruct (Z.ltb_spec (e - s) n) as [|Le]; [discriminate|].
  apply bind_inv in H. destruct H as (s1 & r1 & H0 & H).
  destruct (uadd t s n) as [d'| | | |] eqn:U; try discriminate. injection H0 as <- <-.
  apply uadd_checked in U. subst d'. unfold set_start in H. cbn [r_end] in H. injection H as <- <-.
  exists (s + n). split; [reflexivity|]. split; [lia|]. intros L2.
  destruct (here_split bs s ltac:(lia)) as (l & Hl & El).
  destruct (slice bs s (s + n)) as [enc|] eqn:S.
  - apply here_slice in S. destruct S as (Hh & E & _). exists enc. split; [exact Hh|]. split; [exact E|].
    assert (zlen enc = n) as En by lia. apply reads_intro. intros bs' s' e' Hh' Hb' He'.
    destruct (buf_bound _ _ _ _ Hb' Hh') as [Hs' Hu']. pose proof (half_le t).
    rewrite En in *. apply skip_ok'; lia.
  - apply slice_none in S; lia.
Qed.

Lemma adv_unknown tag : adv0 t (read_unknown t tag).
Proof.
  unfold read_unknown. cbv zeta.
  destruct (_ =? 0); [apply adv0_bind; [apply exact_adv1, exact_varint64|intros; apply adv0_ret]|].
  destruct (_ =? 1); [apply adv_skip; lia|]. destruct (_ =? 5); [apply adv_skip; lia|].
  destruct (_ =? 2); [|destruct (_ || _); apply adv0_fail].
  (* the length is not negative *)
  intros bs s e v r' Hb Hs H. pose proof H as H'. apply bind_inv in H. destruct H as (n & r1 & H1 & H2).
  destruct (read_varint64_inv _ _ _ _ _ Hs H1) as (l & Hl & Hv & Hn & -> & ->).
  pose proof (Z.mod_pos_bound (varint_value l) (2 ^ 64) ltac:(lia)) as P.
  revert H'. change (bind read_varint64 ?f bs (mkR s e)) with (bind read_varint64 f bs (mkR s e)). intros H'.
  destruct (varint_value l mod 2 ^ 64 <? usize_mod t) eqn:Lt; [|discriminate H2].
  pose proof (here_bound _ _ _ Hl). pose proof (here_nonneg _ _ _ Hl). pose proof (zlen_nonneg l).
  assert (0 <= s + zlen l) as Hs1 by lia.
  destruct (adv_skip _ (proj1 P) _ _ _ _ _ Hb Hs1 H2) as (s2 & -> & L2 & X2).
  exists s2. split; [reflexivity|]. split; [lia|]. intros L. destruct (X2 L) as (e2 & E2 & -> & R2).
  exists (l ++ e2). split; [apply here_app_inv; assumption|]. split; [rewrite zlen_app; lia|].
  eapply reads_bind; [apply reads_any_reads; intros pre post e'; apply read_varint64_ok; auto using here_intro|].
  rewrite Lt. exact R2.
Qed.

Lemma adv_packed_fixed n : 0 < n -> adv1 t (read_packed_fixed t n).
Proof.
  intros Hn0.
  assert (X : forall bs s e v r', buf_ok t bs -> 0 <= s -> read_packed_fixed t n bs (mkR s e) = (Ok v, r') ->
    exists p len, here bs s p /\ is_varint p /\ (length p <= 10)%nat /\ len = varint_value p mod 2 ^ 32 /\
      here bs (s + zlen p) v /\ zlen v = len / n * n /\ r' = mkR (s + zlen p + len) e).
  { intros bs s e v r' Hb Hs H. unfold read_packed_fixed in H.
    apply bind_inv in H. destruct H as (len & r1 & H1 & H).
    destruct (read_varint32_inv _ _ _ _ _ Hs H1) as (p & Hp & Hv & Hn & -> & ->). exists p, (varint_value p mod 2 ^ 32).
    set (len := varint_value p mod 2 ^ 32) in *.
    apply bind_inv in H. destruct H as (d & r1 & H0 & H). unfold rlen in H0.
    apply bind_inv in H0. destruct H0 as (? & ? & Ha & H0). injection Ha as <- <-.
    apply bind_inv in H0. destruct H0 as (? & ? & Ha & H0). injection Ha as <- <-. cbn [r_start r_end] in *.
    destruct (usub t e (s + zlen p)) as [d'| | | |] eqn:U; unfold lift in H0; try discriminate. injection H0 as <- <-.
    destruct (d' <? len); [discriminate|]. cbv zeta in H.
    apply bind_inv in H. destruct H as (? & ? & Ha & H). injection Ha as <- <-. cbn [r_start] in H.
    apply bind_inv in H. destruct H as (e0 & r1 & H0 & H).
    destruct (uadd t (s + zlen p) (len / n * n)) as [d2| | | |] eqn:U2; unfold lift in H0; try discriminate. injection H0 as <- <-.
    apply uadd_checked in U2. subst d2.
    apply bind_inv in H. destruct H as (tg & r1 & H0 & H).
    destruct (slice bs (s + zlen p) (s + zlen p + len / n * n)) as [x|] eqn:S; [|discriminate]. injection H0 as <- <-.
    apply here_slice in S. destruct S as (Hh & E & _).
    apply bind_inv in H. destruct H as (s1 & r1 & H0 & H).
    destruct (uadd t (s + zlen p) len) as [d2| | | |] eqn:U2; unfold lift in H0; try discriminate. injection H0 as <- <-.
    apply uadd_checked in U2. subst d2. unfold bind, set_start, ret in H. cbn [r_end] in H. injection H as <- <-.
    split; [exact Hp|]. split; [exact Hv|]. split; [exact Hn|]. split; [reflexivity|]. split; [exact Hh|]. split; [lia|reflexivity]. }
  split; intros bs s e v r' Hb Hs H; destruct (X _ _ _ _ _ Hb Hs H) as (p & len & Hp & Hv & Hn & El & Hh & Ev & ->);
    pose proof (is_varint_nonempty _ Hv); pose proof (here_bound _ _ _ Hp);
    pose proof (Z.mod_pos_bound (varint_value p) (2 ^ 32) ltac:(lia)).
  - exists (s + zlen p + len). split; [reflexivity|]. split; [lia|]. intros L.
    destruct (slice bs (s + zlen p) (s + zlen p + len)) as [body|] eqn:S; [|apply slice_none in S; lia].
    apply here_slice in S. destruct S as (Hb1 & Eb & _).
    exists (p ++ body). split; [apply here_app_inv; assumption|]. split; [rewrite zlen_app; lia|].
    assert (PF : exists rest, body = v ++ rest).
    { assert (zlen v <= zlen body) as LL.
      { rewrite Ev. replace (zlen body) with len by lia. pose proof (Z.mul_div_le len n ltac:(lia)). lia. }
      exists (skipn (length v) body). rewrite <- (firstn_skipn (length v) body) at 1. f_equal.
      rewrite <- (firstn_skipn (length v) body) in Hb1. apply here_app in Hb1. destruct Hb1 as [Hb1 _].
      eapply here_unique; [exact Hb1|exact Hh|]. unfold zlen in *. rewrite firstn_length. lia. }
    destruct PF as (rest & ->). rewrite zlen_app in Eb.
    apply reads_intro. intros bs' s' e' Hh' Hb' He'. apply here_app in Hh'. destruct Hh' as [G1 G2].
    rewrite !zlen_app in *. pose proof (zlen_nonneg v). pose proof (zlen_nonneg rest). pose proof (here_bound _ _ _ G2) as B2. rewrite zlen_app in B2.
    pose proof (here_nonneg _ _ _ G1). unfold buf_ok in Hb'. pose proof (half_le t).
    unfold read_packed_fixed. erewrite bind_ok by (eapply read_varint32_ok; eassumption). rewrite <- El.
    unfold rlen, bind, get_start, get_end, lift, set_start, ret. cbn [r_start r_end].
    rewrite usub_ok by lia. destruct (Z.ltb_spec (e' - (s' + zlen p)) len); [lia|].
    cbn [r_start r_end]. rewrite <- Ev. rewrite (uadd_ok t (s' + zlen p) (zlen v)) by lia. apply here_app in G2. destruct G2 as [G2 _]. rewrite (slice_here _ _ _ G2).
    rewrite (uadd_ok t (s' + zlen p) len) by lia. cbn [r_end]. f_equal. f_equal. lia.
  - cbn [r_start]. lia.
Qed.

(** ** Termination *)

(** [m] does not run out of fuel when fewer than [k] bytes are left *)
Definition tot {A} (k : nat) (m : rd A) : Prop :=
  forall bs s e, buf_ok t bs -> 0 <= s -> zlen bs - s < Z.of_nat k -> (0 < k)%nat -> fst (m bs (mkR s e)) <> NoFuel.
(** [m] needs no fuel *)
Definition fueless {A} (m : rd A) : Prop := forall bs r, fst (m bs r) <> NoFuel.

Lemma fueless_tot {A} k (m : rd A) : fueless m -> tot k m.
Proof. intros H bs s e _ _ _ _. apply H. Qed.
Lemma tot_less {A} k k' (m : rd A) : (k' <= k)%nat -> tot k m -> tot k' m.
Proof. intros Hk H bs s e Hb Hs Hl H0. apply H; lia || assumption. Qed.
Lemma fueless_ret {A} (a : A) : fueless (ret a). Proof. intros bs r. discriminate. Qed.
Lemma fueless_bind {A B} (m : rd A) (f : A -> rd B) : fueless m -> (forall a, fueless (f a)) -> fueless (bind m f).
Proof.
  intros H1 H2 bs r. specialize (H1 bs r). unfold bind. destruct (m bs r) as [[a| | | |] r1]; cbn in *; try discriminate; [apply H2|congruence].
Qed.
Lemma fueless_lift {A} (o : outcome A) : o <> NoFuel -> fueless (lift o).
Proof. intros H bs r. unfold lift. destruct o; cbn; congruence. Qed.
Lemma fueless_get {A} (f : bytes -> option A) : fueless (get_or_eob f).
Proof. intros bs r. unfold get_or_eob. destruct (f bs); discriminate. Qed.
Lemma uadd_fueless a b : uadd t a b <> NoFuel.
Proof. unfold uadd. destruct (a + b <? usize_mod t), (overflow_checks t); discriminate. Qed.
Lemma usub_fueless a b : usub t a b <> NoFuel.
Proof. unfold usub. destruct (b <=? a), (overflow_checks t); discriminate. Qed.
Ltac fl := repeat (intros; cbv zeta; first
  [ apply fueless_bind | apply fueless_ret | apply fueless_get | apply fueless_lift, uadd_fueless | apply fueless_lift, usub_fueless
  | match goal with
    | |- fueless (if ?b then _ else _) => destruct b
    | |- fueless (get_start) => intros ? ?; discriminate
    | |- fueless (get_end) => intros ? ?; discriminate
    | |- fueless (set_start _) => intros ? ?; discriminate
    | |- fueless (fail _) => intros ? ?; discriminate
    end ]).
Lemma fueless_u8 : fueless read_u8. Proof. unfold read_u8. fl. Qed.
Lemma fueless_discard n r : fueless (discard_extra n r).
Proof. revert r; induction n as [|n IH]; intros r; cbn [discard_extra]; fl. apply IH. Qed.
Lemma fueless_varint32 : fueless read_varint32.
Proof. unfold read_varint32. fl; apply fueless_discard. Qed.
Lemma fueless_varint64 : fueless read_varint64.
Proof. unfold read_varint64. fl. Qed.
Lemma fueless_rmap {A B} (f : A -> B) m : fueless m -> fueless (rmap f m).
Proof. intros H. apply fueless_bind; [exact H|]. intros. apply fueless_ret. Qed.
Lemma fueless_fixed {M} n (f : bytes -> M) : fueless (read_fixed t n f).
Proof. unfold read_fixed. fl. Qed.
Lemma fueless_set_end e : fueless (set_end e). Proof. intros ? ?; discriminate. Qed.
Lemma fueless_len_varint {A} (m : rd A) : fueless m -> fueless (read_len_varint t m).
Proof. intros H. unfold read_len_varint, read_len. fl; first [apply fueless_discard|apply fueless_set_end|assumption]. Qed.
Lemma fueless_bytes : fueless (read_bytes t).
Proof. apply fueless_len_varint. fl. Qed.
Lemma fueless_string : fueless (read_string t).
Proof. apply fueless_len_varint. fl. Qed.
Lemma fueless_unknown tag : fueless (read_unknown t tag).
Proof. unfold read_unknown, skip. fl. Qed.
Lemma fueless_packed_fixed n : fueless (read_packed_fixed t n).
Proof.
  unfold read_packed_fixed, rlen. fl.
  intros bs r. destruct (slice _ _ _); discriminate.
Qed.
Lemma fueless_scalar s : fueless (read_scalar t s).
Proof.
  destruct s; cbn [read_scalar]; apply fueless_rmap; try apply fueless_fixed;
    first [apply fueless_rmap|apply fueless_bind; [|intros; apply fueless_ret]|idtac];
    auto using fueless_varint32, fueless_varint64.
Qed.

Lemma tot_bind {A B} k (m : rd A) (f : A -> rd B) : adv0 t m -> tot k m -> (forall a, tot k (f a)) -> tot k (bind m f).
Proof.
  intros Xm Tm Tf bs s e Hb Hs Hl H0. specialize (Tm bs s e Hb Hs Hl H0). unfold bind.
  destruct (m bs (mkR s e)) as [[a| | | |] r1] eqn:E; cbn in *; try discriminate; [|congruence].
  destruct (Xm _ _ _ _ _ Hb Hs E) as (s1 & -> & L & _). apply Tf; try assumption; lia.
Qed.
(** after a byte has been read one unit of fuel less is needed *)
Lemma tot_bind_moves {A B} k (m : rd A) (f : A -> rd B) : adv1 t m -> tot (S k) m -> (forall a, tot k (f a)) -> tot (S k) (bind m f).
Proof.
  intros [Xm Mm] Tm Tf bs s e Hb Hs Hl H0. specialize (Tm bs s e Hb Hs Hl H0). unfold bind.
  destruct (m bs (mkR s e)) as [[a| | | |] r1] eqn:E; cbn in *; try discriminate; [|congruence].
  destruct (Mm _ _ _ _ _ Hb Hs E) as [L1 L2]. destruct (Xm _ _ _ _ _ Hb Hs E) as (s1 & -> & L & _). cbn [r_start] in L2.
  apply Tf; try assumption; lia.
Qed.
Lemma tot_loop {S} k (body : S -> rd S) st : (forall st, adv1 t (body st)) -> (forall st, tot k (body st)) -> tot k (loop k body st).
Proof.
  intros Xb Tb. assert (G : forall f, (f <= k)%nat -> forall st, tot f (loop f body st)).
  { induction f as [|f IH]; intros Hf st0 bs s e Hb Hs Hl H0; [lia|]. cbn [loop].
    unfold bind at 1, is_eof. cbn [r_start r_end]. destruct (s =? e); [discriminate|].
    eapply (tot_bind_moves f (body st0)); try eassumption; [apply Xb|eapply tot_less; [|apply Tb]; lia|]. intros st'. apply IH. lia. }
  apply (G k). lia.
Qed.
Lemma tot_len {A} k (m : rd A) : tot k m -> tot k (read_len_varint t m).
Proof.
  intros Tm. unfold read_len_varint. destruct k as [|k]; [intros bs s e _ _ _ H0; lia|].
  apply tot_bind_moves; [apply exact_adv1, exact_varint32| |].
  - apply fueless_tot, fueless_varint32.
  - apply (tot_less (S k) k) in Tm; [|lia]. intros len bs s e Hb Hs Hl H0. unfold read_len. unfold bind at 1 2, get_start, get_end. cbn [r_start r_end].
    unfold bind at 1. destruct (uadd t s len) as [e1| | | |] eqn:U; cbn; try discriminate.
    2:{ unfold uadd in U. destruct (s + len <? usize_mod t), (overflow_checks t); discriminate. }
    unfold bind at 1, set_end. cbn [r_start]. unfold bind at 1.
    assert (Tm' : fst (m bs (mkR s e1)) <> NoFuel) by (apply Tm; lia || assumption).
    destruct (m bs (mkR s e1)) as [[a| | | |] r1]; cbn in *; try discriminate. congruence.
Qed.
Lemma tot_same {A} k (m1 m2 : rd A) : same_rd m1 m2 -> tot k m1 -> tot k m2.
Proof. intros E T bs s e Hb Hs Hl H0. rewrite <- E. apply T; assumption. Qed.
Lemma tot_rmap {A B} k (f : A -> B) m : tot k m -> tot k (rmap f m).
Proof.
  intros T bs s e Hb Hs Hl H0. specialize (T bs s e Hb Hs Hl H0). unfold rmap, bind.
  destruct (m bs (mkR s e)) as [[a| | | |] r1]; cbn in *; congruence.
Qed.
Lemma tot_packed {M} k (m : rd M) : adv1 t m -> tot k m -> tot k (read_packed t k m).
Proof.
  intros X T. apply tot_len. eapply tot_same; [apply packed_loop_eq|]. apply tot_rmap, tot_loop.
  - intros st. apply adv1_rmap, X.
  - intros st. apply tot_rmap, T.
Qed.
Lemma tot_map {K V} k kd vd (rk : rd K) (rv : rd V) : adv1 t rk -> adv1 t rv -> tot k rk -> tot k rv -> tot k (read_map t k kd vd rk rv).
Proof.
  intros Hk Hv Tk Tv. apply tot_len. eapply tot_same; [apply map_loop_eq|]. apply tot_loop.
  - intros [a b]. apply adv1_bind; [apply adv_u8|]. intros x. cbv zeta.
    destruct (Z.shiftr x 3 =? 1); [apply adv0_rmap, Hk|].
    destruct (Z.shiftr x 3 =? 2); [apply adv0_rmap, Hv|apply adv0_fail].
  - intros [a b]. apply tot_bind; [apply adv_u8|apply fueless_tot, fueless_u8|]. intros x. cbv zeta.
    destruct (Z.shiftr x 3 =? 1); [apply tot_rmap, Tk|].
    destruct (Z.shiftr x 3 =? 2); [apply tot_rmap, Tv|]. intros ? ? ? ? ? ? ?. discriminate.
Qed.

(** ** The generated readers *)
Variable D : file_descriptor.
Variable c : config.
Variable lit : field_type -> text -> option value.

Lemma adv_scalar s : adv1 t (read_scalar t s).
Proof.
  destruct s; cbn [read_scalar]; apply adv1_rmap, exact_adv1;
    auto using exact_int32, exact_int64, exact_sint32, exact_sint64, exact_bool, exact_fixed64, exact_fixed32,
      exact_sfixed64, exact_sfixed32, exact_float, exact_double.
  - apply exact_varint32.
  - apply exact_varint64.
Qed.
Lemma adv_value from r : (forall m, advw t (from m)) -> adv1 t (read_value D t from r).
Proof.
  intros F. destruct r; cbn [read_value]; try apply adv1_rmap.
  - apply adv_scalar.
  - apply exact_adv1, exact_enum.
  - apply exact_adv1, exact_string.
  - apply exact_adv1, exact_bytes.
  - apply adv_len, F.
  - apply adv1_panic.
Qed.
Lemma adv_action fuel from a s : (forall m, advw t (from m)) -> adv1 t (run_action D c lit t fuel from a s).
Proof.
  intros F. destruct a; cbn [run_action]; try (apply adv1_rmap, adv_value, F).
  - apply adv1_rmap. unfold read_packed_fixed_k. apply adv1_rmap, adv_packed_fixed. destruct k; cbn; lia.
  - apply adv1_rmap, adv_packed, adv_value, F.
  - destruct s; try apply adv1_panic. apply adv1_rmap, adv_value, F.
  - destruct s; try apply adv1_panic.
    destruct (type_default D (message_default D c lit) tk); [|apply adv1_panic].
    destruct (type_default D (message_default D c lit) tv); [|apply adv1_panic].
    apply adv1_rmap, adv_map; apply adv_value, F.
  - apply adv1_panic.
Qed.
Lemma adv_field fuel from arms tag ss : (forall m, advw t (from m)) -> adv0 t (run_field D c lit t fuel from arms tag ss).
Proof.
  intros F. unfold run_field. destruct (find _ arms) as [[n [i a]]|].
  - destruct (nth_error ss i); [|apply adv0_panic]. apply adv0_rmap, adv_action, F.
  - apply adv0_bind; [apply adv_unknown|]. intros. apply adv0_ret.
Qed.

(** one round of the loop of a message *)
Definition round fuel from arms (ss : list slot) : rd (list slot) :=
  tag <- next_tag ;; run_field D c lit t fuel from arms tag ss.
Lemma adv_round fuel from arms ss : (forall m, advw t (from m)) -> adv1 t (round fuel from arms ss).
Proof. intros F. apply adv1_bind; [apply exact_adv1, exact_varint32|]. intros tag. apply adv_field, F. Qed.

Lemma advw_from_reader n m : advw t (from_reader D c lit t n m).
Proof.
  revert m; induction n as [|n IH]; intros m; [intros bs s e v r' Hb Hs H; discriminate|].
  cbn [from_reader]. destruct (get_message D m) as [msg|]; [|intros bs s e v r' Hb Hs H; discriminate].
  destruct (message_default D c lit m) as [d|]; [|intros bs s e v r' Hb Hs H; discriminate].
  destruct (is_unit msg).
  - intros bs s e v r' Hb Hs H. unfold read_to_end, bind, get_end, set_start, ret in H. cbn [r_end] in H. injection H as <- <-.
    split; [reflexivity|]. intros L. destruct (slice bs s e) as [enc|] eqn:S; [|apply slice_none in S; lia].
    apply here_slice in S. destruct S as (Hh & E & _). exists enc. split; [exact Hh|]. split; [exact E|].
    intros pre post _. eexists. reflexivity.
  - eapply advw_same; [apply msg_loop_eq|]. apply loop_advw. intros ss. apply (adv_round n (from_reader D c lit t n)), IH.
Qed.

Lemma tot_value k from r : (forall m, tot k (from m)) -> tot k (read_value D t from r).
Proof.
  intros F. destruct r; cbn [read_value].
  - apply fueless_tot, fueless_scalar.
  - apply fueless_tot, fueless_rmap, fueless_rmap, fueless_rmap, fueless_varint32.
  - apply fueless_tot, fueless_rmap, fueless_string.
  - apply fueless_tot, fueless_rmap, fueless_bytes.
  - apply tot_rmap, tot_len, F.
  - intros ? ? ? ? ? ? ?. discriminate.
Qed.
Lemma tot_action k from a s : (forall m, advw t (from m)) -> (forall m, tot k (from m)) -> tot k (run_action D c lit t k from a s).
Proof.
  intros X F. destruct a; cbn [run_action]; try (apply tot_rmap, tot_value, F).
  - apply fueless_tot, fueless_rmap, fueless_rmap, fueless_packed_fixed.
  - apply tot_rmap, tot_packed; [apply adv_value, X|apply tot_value, F].
  - destruct s; try (intros ? ? ? ? ? ? ?; discriminate). apply tot_rmap, tot_value, F.
  - destruct s; try (intros ? ? ? ? ? ? ?; discriminate).
    destruct (type_default D (message_default D c lit) tk); [|intros ? ? ? ? ? ? ?; discriminate].
    destruct (type_default D (message_default D c lit) tv); [|intros ? ? ? ? ? ? ?; discriminate].
    apply tot_rmap, tot_map; first [apply adv_value, X|apply tot_value, F].
  - intros ? ? ? ? ? ? ?; discriminate.
Qed.
Lemma tot_field k from arms tag ss : (forall m, advw t (from m)) -> (forall m, tot k (from m)) ->
  tot k (run_field D c lit t k from arms tag ss).
Proof.
  intros X F. unfold run_field. destruct (find _ arms) as [[n [i a]]|].
  - destruct (nth_error ss i); [|intros ? ? ? ? ? ? ?; discriminate]. apply tot_rmap, tot_action; assumption.
  - apply fueless_tot, fueless_bind; [apply fueless_unknown|]. intros. apply fueless_ret.
Qed.

(** with overflow checks decoding terminates: as much fuel as there are bytes
    left, plus one, always suffices *)
Theorem tot_from_reader n m : tot n (from_reader D c lit t n m).
Proof.
  revert m; induction n as [|n IH]; intros m; [intros bs s e _ _ _ H; lia|].
  cbn [from_reader]. destruct (get_message D m) as [msg|]; [|intros ? ? ? ? ? ? ?; discriminate].
  destruct (message_default D c lit m) as [d|]; [|intros ? ? ? ? ? ? ?; discriminate].
  destruct (is_unit msg); [intros ? ? ? ? ? ? ?; discriminate|].
  eapply tot_same; [apply msg_loop_eq|]. apply tot_loop.
  - intros ss. apply (adv_round n (from_reader D c lit t n)), advw_from_reader.
  - intros ss. apply tot_bind_moves; [apply exact_adv1, exact_varint32|apply fueless_tot, fueless_varint32|].
    intros tag. apply tot_field; [intros; apply advw_from_reader|exact IH].
Qed.
End Checked.
