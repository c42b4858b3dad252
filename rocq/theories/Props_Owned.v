(** C75: programs that use the owned structs. *)
From Coq Require Import Permutation.
From Verif Require Import Base Reader PackedFixed Writer Schema Gen GenSem GenSpec GenSame GenCheck GenType ExactFacts SimFacts Examples Props_Generated Props_Safety Props_Memory Owned OwnedGen OwnedFacts.
Local Open Scope nat_scope.
Local Open Scope list_scope.

Section Steps.
Variable shape : Type.
Variable dec : bytes -> option (shape * list piece).
Hypothesis dec_in : forall bs s ps, dec bs = Some (s, ps) -> Forall (piece_in bs) ps.
Variable enc : shape -> list bytes -> option bytes.
Variable dflt : shape * list bytes.

Definition agree (g' : tenv) (a : result (mstate shape)) (b : result (penv shape * list (printed shape))) : Prop :=
  match a, b with
  | Next (h, e, out), Next (p, out') => out = out' /\ inv shape [] g' h e p
  | Stop (h, e, out), Stop (p, out') => out = out' /\ exists g2, inv shape [] g2 h e p
  | _, _ => False
  end.

Ltac vget g x G := destruct (tget g x) as [[| |?L]|] eqn:G; try discriminate.
Ltac use_var V G := let v := fresh "v" in let q := fresh "q" in let M := fresh "M" in let Q := fresh "Q" in let R := fresh "R" in
  destruct (V _ _ G) as (v & q & M & Q & R).

Lemma no_cows_owned h l r a : cows_ok h l r -> In a (owned_cows l) -> mem h a <> None.
Proof. intros C H. apply (cows_live h l r a C). apply targets_in. auto. Qed.

Lemma step_ok i g g' h e p out : check true i g = Some g' -> inv shape [] g h e p -> agree g' (mstep shape dec enc dflt i (h, e, out)) (pstep shape dec enc dflt i p out).
Proof.
  intros C I. pose proof (inv_vars _ _ _ _ _ _ I) as V. destruct i as [bs|v|v|o|m|m|o|x|o|o m|o w|v bs|x|o|x]; cbn [check] in C; cbn [mstep pstep].
  - (* SNew *) injection C as <-. pose proof (inv_alloc shape [] bs g h e p I) as A. destruct (alloc h bs) as [a h'] eqn:E. destruct A as (A1 & A2 & A3).
    split; [reflexivity|]. refine (inv_new _ _ _ _ _ _ TyVec (HVec shape a) (PVec shape bs) A1 _). now constructor.
  - (* SDecode *) vget g v G. injection C as <-. destruct (V _ _ G) as (w & q & M & Q & R). inversion R; subst. rewrite M, Q, H.
    destruct (dec bs) as [[s ps]|] eqn:D; [|split; [reflexivity|eauto]].
    split; [reflexivity|]. refine (inv_new _ _ _ _ _ _ (TyMsg [v]) (HMsg shape (s, map (piece_cow a) ps)) _ _ _).
    + cbn [vowns]. rewrite owned_piece. exact I.
    + constructor; [exact (cows_piece _ _ _ _ H (dec_in _ _ _ D))|]. intros b Hb. apply borrows_piece in Hb. subst b.
      exists v, (HVec shape a). split; [now left|]. split; [now apply mget_nth|reflexivity].
  - (* STryFrom *) vget g v G. injection C as <-. destruct (V _ _ G) as (w & q & M & Q & R).
    destruct (inv_out _ _ _ _ _ _ _ _ _ _ I G M Q R) as (I1 & R1). inversion R; subst. rewrite M, Q. unfold owned_new. rewrite H.
    destruct (dec bs) as [[s ps]|] eqn:D.
    + split; [reflexivity|]. refine (inv_new _ _ _ _ _ _ TyOwned (HOwned shape a (Some (s, map (piece_cow a) ps))) _ _ _).
      * cbn [vowns]. rewrite owned_piece. exact I1.
      * constructor; [exact H|exact (cows_piece _ _ _ _ H (dec_in _ _ _ D))|]. intros b Hb. exact (borrows_piece _ _ _ Hb).
    + cbn [vowns]. destruct (inv_free_all _ [a] _ _ _ _ _ I1) as (h' & -> & I2 & _). split; [reflexivity|eauto].
  - (* SClone *) vget g o G. injection C as <-. destruct (V _ _ G) as (w & q & M & Q & R). inversion R; subst. rewrite M, Q. cbn [owned_proto].
    destruct (inv_clone _ false _ _ _ _ _ _ _ I H0) as (l' & h' & -> & I1 & C1 & A1 & B1). split; [reflexivity|].
    refine (inv_new _ _ _ _ _ _ (TyMsg [o]) (HMsg shape (s, l')) _ I1 _). constructor; [exact C1|].
    intros b Hb. apply B1, H1 in Hb. subst b. exists o, (HOwned shape a (Some (s, l))). split; [now left|]. split; [now apply mget_nth|reflexivity].
  - (* SCopy *) vget g m G. injection C as <-. destruct (V _ _ G) as (w & q & M & Q & R). inversion R; subst. rewrite M, Q.
    destruct (inv_clone _ true _ _ _ _ _ _ _ I H0) as (l' & h' & -> & I1 & C1 & A1 & B1). split; [reflexivity|].
    refine (inv_new _ _ _ _ _ _ (TyMsg []) (HMsg shape (s, l')) _ I1 _). constructor; [exact C1|]. intros b Hb. destruct (B1 b Hb).
  - (* SFrom *) vget g m G. destruct L; [|discriminate]. injection C as <-. destruct (V _ _ G) as (w & q & M & Q & R).
    destruct (inv_out _ _ _ _ _ _ _ _ _ _ I G M Q R) as (I1 & R1). inversion R; subst. rewrite M, Q. unfold owned_from.
    assert (NB : borrows l = []). { destruct (borrows l) as [|b bl]; [reflexivity|]. destruct (H1 b (or_introl eq_refl)) as (j & w & [] & _). }
    pose proof (inv_alloc shape _ [] _ _ _ _ I1) as A. destruct (alloc h []) as [a h'] eqn:E. destruct A as (A1 & A2 & A3).
    split; [reflexivity|]. refine (inv_new _ _ _ _ _ _ TyOwned (HOwned shape a (Some (s, l))) _ A1 _).
    constructor; [exact A2| |rewrite NB; intros b []]. refine (cows_agree h h' l r _ H0). intros b Hb. apply A3. exact (cows_live _ _ _ _ H0 Hb).
  - (* STryInto *) vget g o G. injection C as <-. destruct (V _ _ G) as (w & q & M & Q & R).
    destruct (inv_out _ _ _ _ _ _ _ _ _ _ I G M Q R) as (I1 & R1). inversion R; subst. rewrite M, Q. unfold owned_try_into. cbn [owned_proto].
    rewrite (read_ok _ _ _ H0). destruct (enc s r) as [out1|].
    + pose proof (inv_alloc shape _ out1 _ _ _ _ I1) as A. destruct (alloc h out1) as [b h'] eqn:E. destruct A as (A1 & A2 & A3).
      assert (NI : ~ In b (vowns shape (HOwned shape a (Some (s, l))))).
      { intros Hb. pose proof (inv_nodup _ _ _ _ _ _ A1) as ND. inversion ND as [|? ? NI _]; subst. apply NI. cbn in Hb |- *. rewrite !in_app_iff. tauto. }
      assert (A1' : inv shape (vowns shape (HOwned shape a (Some (s, l))) ++ [b]) (kill o (put o None g)) h' (put o None e) (put o None p)).
      { refine (inv_hand_perm _ _ _ _ _ _ _ _ A1). rewrite app_nil_r. apply Permutation_cons_append. }
      destruct (inv_free_all _ _ _ _ _ _ _ A1') as (h2 & -> & I2 & A4). split; [reflexivity|].
      refine (inv_new _ _ _ _ _ _ TyVec (HVec shape b) _ I2 _). constructor. rewrite A4 by exact NI. exact A2.
    + destruct (inv_free_all _ _ _ _ _ _ _ I1) as (h2 & -> & I2 & A4). split; [reflexivity|eauto].
  - (* SMove *) destruct (tget g x) as [T|] eqn:G; [|discriminate]. injection C as <-. destruct (V _ _ G) as (w & q & M & Q & R).
    destruct (inv_out _ _ _ _ _ _ _ _ _ _ I G M Q R) as (I1 & R1). rewrite M, Q. split; [reflexivity|]. exact (inv_new _ _ _ _ _ _ _ _ _ I1 R1).
  - (* STake *) vget g o G. injection C as <-. destruct (V _ _ G) as (w & q & M & Q & R).
    destruct (inv_out _ _ _ _ _ _ _ _ _ _ I G M Q R) as (I1 & R1). inversion R; subst. rewrite M, Q. cbn [owned_proto]. split; [reflexivity|].
    assert (X : nth_error (put o None e) o = Some None). { apply put_same. apply mget_nth in M. apply nth_error_Some. congruence. }
    assert (I2 : inv shape (owned_cows l) (put o (Some TyOwned) (kill o (put o None g))) h (put o (Some (HOwned shape a (Some (fst dflt, map Static (snd dflt))))) (put o None e))
        (put o (Some (POwned shape bs (fst dflt) (snd dflt))) (put o None p))).
    { refine (inv_in _ _ _ _ _ _ _ _ _ _ _ X _).
      - refine (inv_hand_perm _ _ _ _ _ _ _ _ I1). cbn. rewrite owned_static, app_nil_r. reflexivity.
      - constructor; [exact H|apply cows_static|]. rewrite borrows_static. intros b []. }
    rewrite !put_put in I2. refine (inv_new _ _ _ _ _ _ (TyMsg [o]) (HMsg shape (s, l)) _ _ _).
    + cbn [vowns]. rewrite app_nil_r. refine (inv_weaken _ _ _ _ _ _ _ _ _ I2); [|now rewrite put_len, !kill_len, put_len].
      intros y T Gy. destruct (Nat.eq_dec o y) as [<-|NE].
      * unfold tget. rewrite put_same by (rewrite kill_len, put_len; exact (tget_lt _ _ _ G)). apply kill_get in Gy. destruct Gy as [Gy _]. congruence.
      * rewrite tget_put_other by exact NE. apply kill_get. apply kill_get in Gy. now rewrite tget_put_other.
    + constructor; [exact H0|]. intros b Hb. apply H1 in Hb. subst b. exists o. eexists. split; [now left|].
      split; [apply put_same; apply mget_nth in M; apply nth_error_Some; congruence|reflexivity].
  - (* SReplace *) vget g o G. vget (kill o g) m Gm. destruct L; [|discriminate]. cbn in C. injection C as <-.
    destruct (V _ _ G) as (w & q & M & Q & R). pose proof (inv_kill _ _ _ _ _ _ o I) as IK. apply kill_get in Gm. destruct Gm as [Gm _]. destruct (V _ _ Gm) as (wm & qm & Mm & Qm & Rm).
    assert (NE : o <> m) by (intros ->; congruence).
    destruct (inv_out _ _ _ _ _ _ _ _ _ _ I Gm Mm Qm Rm) as (I1 & R1).
    assert (G1 : tget (kill m (put m None g)) o = Some TyOwned). { apply kill_get. rewrite tget_put_other by congruence. split; [exact G|discriminate]. }
    destruct (inv_vars _ _ _ _ _ _ I1 _ _ G1) as (w' & q' & M' & Q' & R').
    assert (w' = w). { unfold mget in *. rewrite put_other in M' by congruence. congruence. } subst w'.
    assert (q' = q). { unfold pget in *. rewrite put_other in Q' by congruence. congruence. } subst q'.
    destruct (inv_out _ _ _ _ _ _ _ _ _ _ I1 G1 M' Q' R') as (I2 & R2). inversion R; subst. inversion Rm; subst. rewrite M, Q, Mm, Qm. cbn [owned_proto].
    assert (NB : borrows l0 = []). { destruct (borrows l0) as [|b bl]; [reflexivity|]. destruct (H4 b (or_introl eq_refl)) as (j & w & [] & _). }
    assert (I2' : inv shape (owned_cows l ++ a :: owned_cows l0) (kill o (put o None (kill m (put m None g)))) h (put o None (put m None e)) (put o None (put m None p))).
    { refine (inv_hand_perm _ _ _ _ _ _ _ _ I2). cbn. rewrite app_nil_r. apply Permutation_middle. }
    pose proof (inv_nodup _ _ _ _ _ _ I2') as ND.
    destruct (inv_free_all _ _ _ _ _ _ _ I2') as (h' & -> & I3 & A3). split; [reflexivity|].
    assert (DJ : forall b, In b (a :: owned_cows l0) -> ~ In b (owned_cows l)).
    { intros b Hb Hl. rewrite <- app_assoc in ND. clear - Hb Hl ND. apply in_split in Hl. destruct Hl as (l1 & l2 & E). rewrite E, <- app_assoc in ND. cbn in ND. apply NoDup_remove_2 in ND.
      apply ND. rewrite !in_app_iff. destruct Hb as [->|Hb]; [right; right; now left|]. right. right. right. apply in_or_app. now left. }
    assert (X : nth_error (put o None (put m None e)) o = Some None). { apply put_same. rewrite put_len. apply mget_nth in M. apply nth_error_Some. congruence. }
    pose proof (inv_in _ [] _ _ _ _ o TyOwned (HOwned shape a (Some (s0, l0))) (POwned shape bs s0 r0)
      ltac:(cbn [vowns]; rewrite app_nil_r; exact I3) X) as I4.
    rewrite !put_put in I4. refine (inv_weaken _ _ _ _ _ _ _ _ _ (I4 _)).
    + intros y T Gy. apply kill_get in Gy. destruct Gy as [Gy Km]. destruct (Nat.eq_dec m y) as [<-|N2]; [now rewrite tget_put_none in Gy|]. rewrite tget_put_other in Gy by exact N2.
      apply kill_get in Gy. destruct Gy as [Gy K]. destruct (Nat.eq_dec o y) as [<-|N3].
      * unfold tget. rewrite put_same by (rewrite kill_len, put_len, kill_len, put_len; exact (tget_lt _ _ _ G)). congruence.
      * rewrite tget_put_other by exact N3. apply kill_get. rewrite tget_put_other by exact N3. split; [|exact K].
        apply kill_get. rewrite tget_put_other by exact N2. now split.
    + now rewrite !put_len, !kill_len, !put_len, !kill_len, !put_len.
    + constructor.
      * rewrite A3; [exact H|]. apply DJ. now left.
      * refine (cows_agree h h' l0 r0 _ H3). intros b Hb. apply A3, DJ. right. apply targets_in in Hb. rewrite NB in Hb. now destruct Hb.
      * rewrite NB. intros b [].
  - (* SSwap *) vget g o G. vget g w Gw.
  - (* SPush *) vget g v G. injection C as <-. destruct (V _ _ G) as (w & q & M & Q & R).
    destruct (inv_out _ _ _ _ _ _ _ _ _ _ I G M Q R) as (I1 & R1). inversion R; subst. rewrite M, Q, H.
    pose proof (inv_alloc shape _ (bs0 ++ bs) _ _ _ _ I1) as A. destruct (alloc h (bs0 ++ bs)) as [b h1] eqn:E. destruct A as (A1 & A2 & A3).
    assert (NE : b <> a). { intros ->. pose proof (inv_nodup _ _ _ _ _ _ A1) as ND. inversion ND as [|? ? NI _]; subst. apply NI. now left. }
    destruct (inv_free shape [b] a _ h1 _ _ (inv_hand_perm _ _ _ _ _ _ _ (perm_swap a b []) A1)) as (h2 & -> & I2 & A4). split; [reflexivity|].
    assert (X : nth_error (put v None e) v = Some None). { apply put_same. apply mget_nth in M. apply nth_error_Some. congruence. }
    pose proof (inv_in _ [] _ _ _ _ v TyVec (HVec shape b) (PVec shape (bs0 ++ bs)) I2 X) as I3. rewrite !put_put in I3.
    refine (inv_weaken _ _ _ _ _ _ _ _ _ (I3 _)); [|now rewrite put_len, !kill_len, put_len|constructor; rewrite A4 by exact NE; exact A2].
    intros y T Gy. destruct (Nat.eq_dec v y) as [<-|N2].
    + unfold tget. rewrite put_same by (rewrite kill_len, put_len; exact (tget_lt _ _ _ G)). apply kill_get in Gy. destruct Gy as [Gy _]. congruence.
    + rewrite tget_put_other by exact N2. apply kill_get. apply kill_get in Gy. now rewrite tget_put_other.
  - (* SRead *) destruct (tget g x) as [T|] eqn:G; [|discriminate]. injection C as <-. destruct (V _ _ G) as (w & q & M & Q & R). rewrite M, Q. inversion R; subst.
    + rewrite H. now split.
    + cbn [owned_proto]. rewrite (read_ok _ _ _ H0). now split.
    + rewrite (read_ok _ _ _ H). now split.
  - (* SBuf *) vget g o G. injection C as <-. destruct (V _ _ G) as (w & q & M & Q & R). rewrite M, Q. inversion R; subst. cbn [owned_buf]. rewrite H. now split.
  - (* SDrop *) destruct (tget g x) as [T|] eqn:G; [|discriminate]. injection C as <-. destruct (V _ _ G) as (w & q & M & Q & R). rewrite M, Q.
    destruct (inv_out _ _ _ _ _ _ _ _ _ _ I G M Q R) as (I1 & R1). destruct (inv_free_all _ _ _ _ _ _ _ I1) as (h' & -> & I2 & _). now split.
Qed.

(** at the end everything is freed *)
Lemma drop_ok g h e p out : inv shape [] g h e p -> exists h', drop_all shape (h, e, out) = Some (h', out) /\ forall a, mem h' a = None.
Proof.
  intros [L1 L2 ND LV NX V]. unfold drop_all. change (flat_map _ e) with (owns shape e).
  assert (I : inv shape (owns shape e ++ []) [] h [] []).
  { rewrite app_nil_r. constructor; auto; [cbn; now rewrite app_nil_r|intros a; cbn; rewrite app_nil_r; apply LV|]. intros [|x] T G; discriminate. }
  destruct (inv_free_all _ _ _ _ _ _ _ I) as (h' & -> & I2 & _). exists h'. split; [reflexivity|]. intros a.
  destruct (mem h' a) eqn:E; [|reflexivity]. exfalso. apply (proj1 (inv_live _ _ _ _ _ _ I2 a)). congruence.
Qed.

Lemma run_ok prog : forall g h e p out, accepted true prog g = true -> inv shape [] g h e p ->
  exists out' p' st h', drop_all shape st = Some (h', out') /\ (forall a, mem h' a = None) /\
    (mrun shape dec enc dflt prog (h, e, out) = Next st /\ prun shape dec enc dflt prog p out = Next (p', out') \/
     mrun shape dec enc dflt prog (h, e, out) = Stop st /\ prun shape dec enc dflt prog p out = Stop (p', out')).
Proof.
  induction prog as [|i prog IH]; intros g h e p out A I; cbn [accepted mrun prun] in *.
  - destruct (drop_ok _ _ _ _ out I) as (h' & D & F). exists out, p, (h, e, out), h'. auto.
  - destruct (check true i g) as [g'|] eqn:C; [|discriminate]. pose proof (step_ok i g g' h e p out C I) as S1. unfold agree in S1.
    destruct (mstep _ _ _ _ i (h, e, out)) as [[[h1 e1] o1]|[[h1 e1] o1]| | |], (pstep _ _ _ _ i p out) as [[p1 o2]|[p1 o2]| | |]; try destruct S1.
    + subst o2. exact (IH _ _ _ _ _ A H0).
    + subst o2. destruct H0 as (g2 & I2). destruct (drop_ok _ _ _ _ o1 I2) as (h' & D & F). exists o1, p1, (h1, e1, o1), h'. auto.
Qed.
End Steps.

(** ** C75 *)

(** A program that the borrow checker accepts, and that only stores messages that
    borrow nothing through [proto_mut], uses no memory that is not allocated, frees
    everything once, does not panic, and prints what the semantics without memory
    prints.  It holds for every decoder whose strings are pieces of its input
    (C74) or literals, and every encoder.
    Missing: assigning through [proto_mut] a message that borrows, and swapping
    two [proto_mut]; see below. *)
Theorem C75_safe_partial : forall (shape : Type) dec enc dflt, (forall bs s ps, dec bs = Some (s, ps) -> Forall (piece_in bs) ps) ->
  forall prog, accepted true prog [] = true ->
  exists out p st h, drop_all shape st = Some (h, out) /\ (forall a, mem h a = None) /\
    (mrun shape dec enc dflt prog (empty_heap, [], []) = Next st /\ prun shape dec enc dflt prog [] [] = Next (p, out) \/
     mrun shape dec enc dflt prog (empty_heap, [], []) = Stop st /\ prun shape dec enc dflt prog [] [] = Stop (p, out)).
Proof.
  intros shape dec enc dflt DI prog A. apply (run_ok shape dec DI enc dflt prog [] _ _ _ _ A).
  constructor; auto; cbn; [constructor|intros a; split; [congruence|intros []]|congruence|]. intros [|x] T G; discriminate.
Qed.
Print Assumptions C75_safe_partial.

(** The generated messages: the decoder gives back what [decode] gives, the pieces
    that are not in the input are strings of [default] options, and so every
    accepted program on owned structs of any schema is safe. *)
Theorem C75_generated_partial : forall D c lit t m,
  (forall bs ss, decode D c lit t (S (length bs)) m bs = Ok ss ->
     exists s ps, gen_dec D c lit t m bs = Some (s, ps) /\ fill s (map (piece_bytes bs) ps) = ss /\ (forall l, In (Lit l) ps -> literal_piece lit l)) /\
  forall prog, accepted true prog [] = true ->
  exists out p st h, drop_all _ st = Some (h, out) /\ (forall a, mem h a = None) /\
    (mrun _ (gen_dec D c lit t m) (gen_enc D c lit m) (gen_dflt D c lit m) prog (empty_heap, [], []) = Next st /\
     prun _ (gen_dec D c lit t m) (gen_enc D c lit m) (gen_dflt D c lit m) prog [] [] = Next (p, out) \/
     mrun _ (gen_dec D c lit t m) (gen_enc D c lit m) (gen_dflt D c lit m) prog (empty_heap, [], []) = Stop st /\
     prun _ (gen_dec D c lit t m) (gen_enc D c lit m) (gen_dflt D c lit m) prog [] [] = Stop (p, out)).
Proof.
  intros D c lit t m. split; [|exact (C75_safe_partial _ _ _ _ (gen_dec_in D c lit t m))].
  intros bs ss E. unfold gen_dec. rewrite E. do 2 eexists. split; [reflexivity|]. split.
  - rewrite map_map. rewrite (map_ext _ (fun b => b)); [rewrite map_id; apply fill_erase|]. intros b. apply locate_ok.
  - intros l Hl. apply in_map_iff in Hl. destruct Hl as (b & L & Hb). apply locate_lit in L. destruct L as [-> NP].
    destruct (C74_zero_copy D c lit t _ m bs ss b Hb (or_introl E)) as [P|P]; [contradiction|exact P].
Qed.
Print Assumptions C75_generated_partial.

(** [try_from], [try_into] and [try_from] again: the message is the same. *)
Theorem C75_roundtrip_partial : forall D c lit t, schema_wf D c lit -> no_proto3_default D -> enums_ok D ->
  (forall ty s v, lit ty s = Some v -> val_ok D c ty v) ->
  forall m bs ss, get_message D m <> None -> decode D c lit t (S (length bs)) m bs = Ok ss -> no_negative_zero D c m ss ->
  (zlen (enc_message D c lit m ss) < 2 ^ 32)%Z -> buf_ok t (enc_message D c lit m ss) ->
  exists st s s' strings strings' ss', mrun _ (gen_dec D c lit t m) (gen_enc D c lit m) (gen_dflt D c lit m)
      [SNew bs; STryFrom 0; SRead 1; SBuf 1; STryInto 1; SRead 2; STryFrom 2; SRead 3] (empty_heap, [], []) = Next st /\
    snd st = [PrMsg s strings; PrBytes bs; PrBytes (enc_message D c lit m ss); PrMsg s' strings'] /\
    fill s strings = ss /\ fill s' strings' = ss' /\ Forall2 same_slot ss ss'.
Proof.
  intros D c lit t WF P3 EN LIT m bs ss Hm Hd Hz Hl Hb.
  assert (Ho : message_ok D c m ss) by (exact (proj1 (C51_decoded_well_typed D c lit t WF EN LIT _ m bs ss Hm) Hd)).
  pose proof (C25_encoding D c lit WF m ss Ho ltac:(lia)) as E.
  destruct (C26_roundtrip_partial D c lit t WF P3 m ss Ho Hz Hl) as [H _]. destruct (H _ E Hb) as (ss' & Same & Dec). specialize (Dec (S (length (enc_message D c lit m ss))) ltac:(lia)).
  destruct (gen_dec_ok D c lit t m bs ss Hd) as (s & ps & G1 & P1 & F1). destruct (gen_dec_ok D c lit t m _ ss' Dec) as (s' & ps' & G2 & P2 & F2).
  assert (G3 : gen_enc D c lit m s (pieces ss) = Some (enc_message D c lit m ss)). { unfold gen_enc. rewrite F1, E. reflexivity. }
  set (prog := [SNew bs; STryFrom 0; SRead 1; SBuf 1; STryInto 1; SRead 2; STryFrom 2; SRead 3]).
  assert (A : accepted true prog [] = true) by reflexivity.
  destruct (C75_safe_partial _ _ (gen_enc D c lit m) (gen_dflt D c lit m) (gen_dec_in D c lit t m) prog A) as (out & p & st & h & Hd1 & _ & R).
  assert (PR : exists p, prun _ (gen_dec D c lit t m) (gen_enc D c lit m) (gen_dflt D c lit m) prog [] [] =
     Next (p, [PrMsg s (pieces ss); PrBytes bs; PrBytes (enc_message D c lit m ss); PrMsg s' (pieces ss')])).
  { unfold prog. cbn [prun pstep pget nth_error app put]. rewrite G1. cbn [prun pstep pget nth_error app put]. rewrite P1, G3. cbn [prun pstep pget nth_error app put].
    rewrite G2, P2. cbn [prun pstep pget nth_error app put]. eauto. }
  destruct PR as (p' & PR). destruct R as [[R1 R2]|[R1 R2]]; [|congruence]. rewrite PR in R2. injection R2 as <- <-.
  exists st, s, s', (pieces ss), (pieces ss'), ss'. split; [exact R1|]. split; [|auto]. unfold drop_all in Hd1. destruct st as [[h1 e1] o1].
  destruct (free_all h1 _) as [h2|]; [|discriminate]. now injection Hd1 as _ <-.
Qed.
Print Assumptions C75_roundtrip_partial.

(** a program with every statement but [SSwap], on messages of the schema of Examples.v *)
Definition c75_bytes : bytes := [x0a; x02; x61; x62; x22; x04; x01; x00; x00; x00; x82; x7d; x01; x7a].
Definition c75_run := mrun _ (gen_dec exD cfg0 nolit (checked W64) [0]) (gen_enc exD cfg0 nolit [0]) (gen_dflt exD cfg0 nolit [0]).
Definition c75_prog : program :=
  [SNew c75_bytes; SDecode 0; SRead 1; SCopy 1; STryFrom 0; SClone 3; SRead 4; SBuf 3; SMove 3; SReplace 5 2; SRead 5; STake 5; SCopy 6; SRead 6; SDrop 5;
   SFrom 7; STryInto 8; SPush 9 [x82; x7d; x00]; SDecode 9; SRead 10].
Example C75_case : accepted true c75_prog [] = true /\ exists st, c75_run c75_prog (empty_heap, [], []) = Next st /\
  map (fun p => match p with PrBytes b => [b] | PrMsg _ l => l end) (snd st) =
    [[[x61; x62]; [x01; x00; x00; x00]; [x7a]]; [[x61; x62]; [x01; x00; x00; x00]; [x7a]]; [c75_bytes]; [[x61; x62]; [x01; x00; x00; x00]; [x7a]];
     [[x61; x62]; [x01; x00; x00; x00]; [x7a]]; [[x61; x62]; [x01; x00; x00; x00]; [x7a]; []]].
Proof. split; [reflexivity|]. eexists. split; vm_compute; reflexivity. Qed.

(** The borrow checker accepts, and undefined behaviour follows:
    {v
let mut o = OuterOwned::try_from(v)?;
let w = vec![..];
let m = Outer::from_reader(&mut BytesReader::from_bytes(&w), &w)?;
*o.proto_mut() = m;
drop(w);
println!("{:?}", o.proto());
    v}
    The lifetime in [proto_mut<'a>(&'a mut self) -> &'a mut Name<'a>] need not be
    longer than the assignment. *)
Theorem C75_proto_mut_refuted : exists prog, accepted false prog [] = true /\ ~ In true (map (fun i => match i with SSwap _ _ => true | _ => false end) prog) /\
  c75_run prog (empty_heap, [], []) = Undefined.
Proof.
  exists [SNew c75_bytes; STryFrom 0; SNew c75_bytes; SDecode 2; SReplace 1 3; SDrop 2; SRead 1].
  split; [reflexivity|]. split; [cbn; intuition discriminate|]. vm_compute. reflexivity.
Qed.
Print Assumptions C75_proto_mut_refuted.

(** The same without any message of its own lifetime:
    {v
let mut o = OuterOwned::try_from(v)?;
let mut p = OuterOwned::try_from(w)?;
core::mem::swap(o.proto_mut(), p.proto_mut());
drop(p);
println!("{:?}", o.proto());
    v} *)
Theorem C75_swap_refuted : exists prog, accepted false prog [] = true /\ ~ In true (map (fun i => match i with SReplace _ _ => true | _ => false end) prog) /\
  c75_run prog (empty_heap, [], []) = Undefined.
Proof.
  exists [SNew c75_bytes; STryFrom 0; SNew c75_bytes; STryFrom 2; SSwap 1 3; SDrop 3; SRead 1].
  split; [reflexivity|]. split; [cbn; intuition discriminate|]. vm_compute. reflexivity.
Qed.
Print Assumptions C75_swap_refuted.
