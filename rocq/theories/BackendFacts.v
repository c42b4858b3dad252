(** Facts about running writer programs on the three kinds of backend. *)
From Coq Require Import ZifyBool ZifyNat ZifyN.
From Verif Require Import Base BaseFacts Reader PackedFixed Writer Sizeofs Spec
  VarintFacts WriterFacts ScalarFacts DelimFacts FileIo.

Definition clean_op (o : wop) : bool := match o with OpPanic | OpUB => false | _ => true end.
Definition prog_bytes (p : wprog) : bytes := flat_map op_bytes p.

Lemma run_vec_clean p : forallb clean_op p = true ->
  forall out, run vec_step p out = (Ok tt, out ++ prog_bytes p).
Proof.
  induction p as [|o p IH]; intros H out; simpl.
  - rewrite app_nil_r. reflexivity.
  - simpl in H. apply andb_prop in H. destruct H as [H1 H2].
    destruct o; try discriminate; simpl; rewrite IH by assumption; rewrite <- app_assoc; reflexivity.
Qed.

Lemma emits_clean p enc : emits p enc -> forallb clean_op p = true /\ enc = prog_bytes p.
Proof.
  intros H.
  assert (C : forallb clean_op p = true).
  { specialize (H []). revert H. generalize (@nil byte) at 1 as out.
    intros out H. assert (G : fst (run vec_step p out) = Ok tt) by (rewrite H; reflexivity).
    clear H. revert out G. induction p as [|o p IH]; intros out G; [reflexivity|].
    destruct o; simpl in *; try discriminate; eapply IH; exact G. }
  split; [exact C|].
  specialize (H []). rewrite (run_vec_clean p C) in H. simpl in H. congruence.
Qed.

Lemma emits_prog p : forallb clean_op p = true -> emits p (prog_bytes p).
Proof. intros H out. apply run_vec_clean. exact H. Qed.

Lemma op_need_len o : op_need o = zlen (op_bytes o).
Proof. destruct o; simpl; rewrite ?le_bytes_zlen; reflexivity. Qed.

Lemma bw_step_fits o a b d :
  zlen b = zlen (op_bytes o) ->
  bw_step o (mkBW (a ++ b ++ d) (zlen a)) =
  (Ok tt, mkBW (a ++ op_bytes o ++ d) (zlen a + zlen (op_bytes o))).
Proof.
  intros Hb. unfold bw_step. cbn [bw_buf bw_cursor]. rewrite op_need_len, !zlen_app.
  pose proof (zlen_nonneg d).
  destruct (Z.ltb_spec (zlen a + (zlen b + zlen d) - zlen a) (zlen (op_bytes o))); [lia|].
  do 2 f_equal. unfold put. rewrite <- Hb.
  replace (Z.to_nat (zlen a)) with (length a) by (unfold zlen; lia).
  replace (Z.to_nat (zlen a + zlen b)) with (length (a ++ b)) by (rewrite app_length; unfold zlen; lia).
  rewrite firstn_app, Nat.sub_diag, firstn_all, firstn_O, app_nil_r.
  rewrite (app_assoc a b d), skipn_app, skipn_all, Nat.sub_diag. reflexivity.
Qed.

Lemma bw_step_full o buf c :
  zlen buf - c < zlen (op_bytes o) ->
  bw_step o (mkBW buf c) = (Err EUnexpectedEndOfBuffer, mkBW buf c).
Proof.
  intros H. unfold bw_step. cbn [bw_buf bw_cursor]. rewrite op_need_len.
  destruct (Z.ltb_spec (zlen buf - c) (zlen (op_bytes o))); [reflexivity|lia].
Qed.

Lemma split_at {A} (l : list A) n : 0 <= n <= zlen l ->
  exists a b, l = a ++ b /\ zlen a = n.
Proof.
  intros H. exists (firstn (Z.to_nat n) l), (skipn (Z.to_nat n) l).
  rewrite firstn_skipn. split; [reflexivity|]. unfold zlen in *. rewrite firstn_length. lia.
Qed.

Lemma run_cons_clean {S} (step : wop -> S -> outcome unit * S) o p s :
  clean_op o = true ->
  run step (o :: p) s = match step o s with (Ok _, s') => run step p s' | r => r end.
Proof. intros H. destruct o; try discriminate; reflexivity. Qed.

(** the whole behaviour of a slice writer *)
Lemma run_bw p : forallb clean_op p = true -> forall a buf2,
  (exists b d, buf2 = b ++ d /\ zlen b = zlen (prog_bytes p) /\
     run bw_step p (mkBW (a ++ buf2) (zlen a)) =
     (Ok tt, mkBW (a ++ prog_bytes p ++ d) (zlen a + zlen (prog_bytes p)))) \/
  (zlen buf2 < zlen (prog_bytes p) /\
   exists p1 o p2 b d, p = p1 ++ o :: p2 /\ buf2 = b ++ d /\ zlen b = zlen (prog_bytes p1) /\
     zlen d < zlen (op_bytes o) /\
     run bw_step p (mkBW (a ++ buf2) (zlen a)) =
     (Err EUnexpectedEndOfBuffer, mkBW (a ++ prog_bytes p1 ++ d) (zlen a + zlen (prog_bytes p1)))).
Proof.
  induction p as [|o p IH]; intros H a buf2.
  - left. exists [], buf2. simpl. rewrite zlen_nil, Z.add_0_r. auto.
  - simpl in H. apply andb_prop in H. destruct H as [H1 H2].
    destruct (Z.ltb_spec (zlen buf2) (zlen (op_bytes o))) as [L|L].
    + right. split.
      { simpl. rewrite zlen_app. pose proof (zlen_nonneg (prog_bytes p)). unfold prog_bytes in *. lia. }
      exists [], o, p, [], buf2. simpl. repeat split; auto.
      pose proof (run_cons_clean bw_step o p (mkBW (a ++ buf2) (zlen a)) H1) as R. simpl in R. rewrite R.
      rewrite bw_step_full by (rewrite zlen_app; lia). rewrite zlen_nil, Z.add_0_r. reflexivity.
    + destruct (split_at buf2 (zlen (op_bytes o))) as (b & d & -> & Hb);
        [split; [apply zlen_nonneg|assumption]|].
      rewrite run_cons_clean by assumption. rewrite bw_step_fits by assumption.
      destruct (IH H2 (a ++ op_bytes o) d) as [(b' & d' & -> & Hb' & R)|(Hs & p1 & o' & p2 & b' & d' & -> & -> & Hb' & Hd' & R)];
        rewrite <- app_assoc, zlen_app in R.
      * left. exists (b ++ b'), d'. rewrite R. simpl. rewrite <- !app_assoc, !zlen_app.
        repeat split; [unfold prog_bytes in *; lia|]. rewrite Z.add_assoc. reflexivity.
      * right. simpl. rewrite !zlen_app in *. split; [unfold prog_bytes in *; lia|].
        exists (o :: p1), o', p2, (b ++ b'), d'. rewrite R. simpl. rewrite <- !app_assoc, !zlen_app.
        repeat split; auto; [unfold prog_bytes in *; lia|]. rewrite Z.add_assoc. reflexivity.
Qed.

(** memory safety, also for programs that panic half way *)
Lemma run_bw_bounds p : forall buf c,
  0 <= c <= zlen buf ->
  let '(_, s') := run bw_step p (mkBW buf c) in
  zlen (bw_buf s') = zlen buf /\ c <= bw_cursor s' <= zlen buf /\
  firstn (Z.to_nat c) (bw_buf s') = firstn (Z.to_nat c) buf /\
  skipn (Z.to_nat (bw_cursor s')) (bw_buf s') = skipn (Z.to_nat (bw_cursor s')) buf.
Proof.
  induction p as [|o p IH]; intros buf c Hc; [simpl; repeat split; lia|].
  destruct (clean_op o) eqn:Co.
  2:{ destruct o; try discriminate; simpl; repeat split; lia. }
  rewrite run_cons_clean by assumption.
  destruct (Z.ltb_spec (zlen buf - c) (zlen (op_bytes o))) as [L|L].
  - rewrite bw_step_full by assumption. repeat split; simpl; lia.
  - destruct (split_at buf c Hc) as (a & r & -> & Ha). rewrite zlen_app in *.
    destruct (split_at r (zlen (op_bytes o))) as (b & d & -> & Hb);
      [split; [apply zlen_nonneg|lia]|].
    rewrite <- Ha. rewrite bw_step_fits by assumption.
    pose proof (zlen_nonneg (op_bytes o)). pose proof (zlen_nonneg d).
    specialize (IH (a ++ op_bytes o ++ d) (zlen a + zlen (op_bytes o))).
    rewrite !zlen_app in *. specialize (IH ltac:(lia)).
    destruct (run bw_step p _) as [x s'].
    destruct IH as (I1 & I2 & I3 & I4).
    split; [lia|]. split; [lia|]. split.
    + assert (E : firstn (Z.to_nat (zlen a)) (firstn (Z.to_nat (zlen a + zlen (op_bytes o))) (bw_buf s'))
              = firstn (Z.to_nat (zlen a)) (firstn (Z.to_nat (zlen a + zlen (op_bytes o))) (a ++ op_bytes o ++ d)))
        by (rewrite I3; reflexivity).
      rewrite !firstn_firstn in E.
      replace (min (Z.to_nat (zlen a)) (Z.to_nat (zlen a + zlen (op_bytes o)))) with (Z.to_nat (zlen a)) in E by lia.
      rewrite E. replace (Z.to_nat (zlen a)) with (length a) by (unfold zlen; lia).
      rewrite !firstn_app, Nat.sub_diag, !firstn_O. reflexivity.
    + rewrite I4. set (c' := Z.to_nat (bw_cursor s')).
      assert (length a + length b <= c')%nat by (unfold c', zlen in *; lia).
      rewrite !skipn_app.
      replace (skipn c' a) with (@nil byte) by (symmetry; apply skipn_all2; lia).
      replace (skipn (c' - length a) b) with (@nil byte) by (symmetry; apply skipn_all2; lia).
      replace (skipn (c' - length a) (op_bytes o)) with (@nil byte)
        by (symmetry; apply skipn_all2; unfold zlen in *; lia).
      do 2 f_equal. unfold zlen in *. simpl. f_equal. lia.
Qed.

(** sinks that fail *)
Lemma run_sink p : forallb clean_op p = true -> forall data plan,
  let '(o, s) := run sink_step p (mkSink data plan) in
  exists sent rest, prog_bytes p = sent ++ rest /\ sk_data s = data ++ sent /\
    ((o = Ok tt /\ rest = []) \/ o = Err EIo) /\
    (Forall (fun x => x = None) plan -> o = Ok tt) /\
    ((length p <= length plan)%nat -> Exists (fun x => x <> None) (firstn (length p) plan) -> o = Err EIo).
Proof.
  induction p as [|o p IH]; intros H data plan.
  - simpl. exists [], []. simpl. rewrite app_nil_r. repeat split; auto.
    intros _ X. inversion X.
  - simpl in H. apply andb_prop in H. destruct H as [H1 H2].
    rewrite run_cons_clean by assumption. unfold sink_step at 1. cbn [sk_plan sk_data].
    destruct plan as [|[k|] plan].
    + specialize (IH H2 (data ++ op_bytes o) []). destruct (run sink_step p _) as [x s].
      destruct IH as (sent & rest & E & D & R & N & X).
      exists (op_bytes o ++ sent), rest. simpl. unfold prog_bytes in *. rewrite E, D, <- !app_assoc.
      repeat split; auto. intros; simpl in *; lia.
    + exists (firstn k (op_bytes o)), (skipn k (op_bytes o) ++ prog_bytes p).
      simpl. rewrite app_assoc, firstn_skipn. repeat split; auto.
      intros F. inversion F; congruence.
    + specialize (IH H2 (data ++ op_bytes o) plan). destruct (run sink_step p _) as [x s].
      destruct IH as (sent & rest & E & D & R & N & X).
      exists (op_bytes o ++ sent), rest. simpl. unfold prog_bytes in *. rewrite E, D, <- !app_assoc.
      repeat split; auto.
      * intros F. inversion F; auto.
      * intros L Y. apply X; [lia|]. simpl in Y. inversion Y; subst; [congruence|assumption].
Qed.

(** ** BufWriter *)
Definition bfw_all (s : buf_writer) : bytes := sk_data (bfw_file s) ++ bfw_pending s.

Lemma bfw_flush_spec s :
  (exists f', bfw_flush s = (Ok tt, mkBufW [] f') /\ sk_data f' = bfw_all s) \/
  (exists f' k, bfw_flush s = (Err EIo, mkBufW (skipn k (bfw_pending s)) f') /\
     sk_data f' = sk_data (bfw_file s) ++ firstn k (bfw_pending s) /\
     exists x, In (Some x) (sk_plan (bfw_file s))).
Proof.
  unfold bfw_flush, bfw_all. destruct s as [pend [data plan]]. cbn [bfw_pending bfw_file sk_data sk_plan].
  destruct pend as [|b pend'].
  - left. eexists. split; [reflexivity|]. simpl. rewrite app_nil_r. reflexivity.
  - set (pend := b :: pend'). unfold file_write, sink_step. cbn [op_bytes sk_plan sk_data].
    destruct plan as [|[k|] plan].
    + left. eexists. split; [reflexivity|]. reflexivity.
    + right. exists (mkSink (data ++ firstn k pend) plan), (length (firstn k pend)).
      cbn [sk_data].
      replace (Z.to_nat (zlen (data ++ firstn k pend) - zlen data)) with (length (firstn k pend))
        by (rewrite zlen_app; unfold zlen; lia).
      split; [reflexivity|]. split.
      * f_equal. rewrite firstn_length. destruct (Nat.le_ge_cases k (length pend)).
        -- rewrite Nat.min_l by assumption. reflexivity.
        -- rewrite Nat.min_r by assumption. rewrite !firstn_all2 by lia. reflexivity.
      * exists k. left. reflexivity.
    + left. eexists. split; [reflexivity|]. reflexivity.
Qed.

Lemma sink_no_fail d f : Forall (fun x => x = None) (sk_plan f) ->
  exists f', file_write d f = (Ok tt, f') /\ sk_data f' = sk_data f ++ d /\
             Forall (fun x => x = None) (sk_plan f').
Proof.
  intros H. unfold file_write, sink_step. destruct f as [data [|[k|] plan]]; cbn [sk_plan sk_data] in *.
  - eexists. repeat split; auto.
  - inversion H. congruence.
  - inversion H. eexists. repeat split; auto.
Qed.

Definition plan_ok (s : buf_writer) : Prop := Forall (fun x => x = None) (sk_plan (bfw_file s)).

Lemma bfw_flush_ok s : plan_ok s ->
  exists f', bfw_flush s = (Ok tt, mkBufW [] f') /\ sk_data f' = bfw_all s /\ plan_ok (mkBufW [] f').
Proof.
  intros H. unfold bfw_flush, bfw_all. destruct s as [pend f]. unfold plan_ok in *. cbn [bfw_pending bfw_file] in *.
  destruct pend as [|b pend'].
  - exists f. rewrite app_nil_r. auto.
  - destruct (sink_no_fail (b :: pend') f H) as (f' & -> & D & P). exists f'. auto.
Qed.

(** one write_all keeps data ++ pending a prefix of what was asked *)
Lemma bfw_write_all_spec d s :
  let '(o, s') := bfw_write_all d s in
  (o = Ok tt /\ bfw_all s' = bfw_all s ++ d) \/
  (o = Err EIo /\ exists sent rest, sk_data (bfw_file s') = sent /\ bfw_all s ++ d = sent ++ rest /\
     (exists sent' rest', bfw_all s' = sent' /\ bfw_all s ++ d = sent' ++ rest')).
Proof.
  unfold bfw_write_all.
  destruct (zlen d <? buf_capacity - zlen (bfw_pending s)) eqn:E1.
  { left. split; [reflexivity|]. unfold bfw_all. cbn [bfw_file bfw_pending]. apply app_assoc. }
  destruct (buf_capacity - zlen (bfw_pending s) <? zlen d) eqn:E2.
  - destruct (bfw_flush_spec s) as [(f' & -> & D)|(f' & k & -> & D & _)].
    + destruct (buf_capacity <=? zlen d) eqn:E3.
      * cbn [bfw_file bfw_pending]. unfold file_write, sink_step. cbn [op_bytes].
        destruct (sk_plan f') as [|[k|] plan].
        -- left. split; [reflexivity|]. unfold bfw_all at 1. cbn [bfw_file bfw_pending sk_data].
           rewrite app_nil_r, D. reflexivity.
        -- right. split; [reflexivity|]. cbn [bfw_file sk_data]. rewrite D.
           assert (G : bfw_all s ++ d = (bfw_all s ++ firstn k d) ++ skipn k d)
             by (rewrite <- app_assoc, firstn_skipn; reflexivity).
           eexists _, _. split; [reflexivity|]. split; [exact G|].
           eexists _, _. split; [unfold bfw_all at 1; cbn [bfw_file bfw_pending sk_data]; rewrite app_nil_r; reflexivity|exact G].
        -- left. split; [reflexivity|]. unfold bfw_all at 1. cbn [bfw_file bfw_pending sk_data].
           rewrite app_nil_r, D. reflexivity.
      * left. split; [reflexivity|]. unfold bfw_all at 1. cbn [bfw_file bfw_pending].
        rewrite D. reflexivity.
    + right. split; [reflexivity|]. cbn [bfw_file]. rewrite D.
      eexists _, (skipn k (bfw_pending s) ++ d). split; [reflexivity|]. split.
      * unfold bfw_all. rewrite <- !app_assoc. f_equal. rewrite app_assoc, firstn_skipn. reflexivity.
      * eexists _, d. split; [reflexivity|].
        unfold bfw_all at 2. cbn [bfw_file bfw_pending]. rewrite D, <- !app_assoc.
        unfold bfw_all. rewrite <- !app_assoc. f_equal. rewrite app_assoc, firstn_skipn. reflexivity.
  - destruct (buf_capacity <=? zlen d) eqn:E3.
    + (* pending is empty: zlen d = capacity - pending >= capacity *)
      assert (bfw_pending s = []) as P0.
      { apply zlen_0_nil. pose proof (zlen_nonneg (bfw_pending s)). unfold buf_capacity in *. lia. }
      unfold file_write, sink_step. cbn [op_bytes].
      assert (A0 : bfw_all s = sk_data (bfw_file s)) by (unfold bfw_all; rewrite P0, app_nil_r; reflexivity).
      destruct (sk_plan (bfw_file s)) as [|[k|] plan].
      * left. split; [reflexivity|]. unfold bfw_all at 1. cbn [bfw_file bfw_pending sk_data].
        rewrite P0, app_nil_r, A0. reflexivity.
      * right. split; [reflexivity|]. cbn [bfw_file sk_data]. rewrite A0.
        assert (G : sk_data (bfw_file s) ++ d = (sk_data (bfw_file s) ++ firstn k d) ++ skipn k d)
          by (rewrite <- app_assoc, firstn_skipn; reflexivity).
        eexists _, _. split; [reflexivity|]. split; [exact G|].
        eexists _, _. split; [unfold bfw_all; cbn [bfw_file bfw_pending sk_data]; rewrite P0, app_nil_r; reflexivity|exact G].
      * left. split; [reflexivity|]. unfold bfw_all at 1. cbn [bfw_file bfw_pending sk_data].
        rewrite P0, app_nil_r, A0. reflexivity.
    + left. split; [reflexivity|]. unfold bfw_all. cbn [bfw_file bfw_pending]. apply app_assoc.
Qed.

Lemma bfw_write_all_ok d s : plan_ok s ->
  let '(o, s') := bfw_write_all d s in o = Ok tt /\ bfw_all s' = bfw_all s ++ d /\ plan_ok s'.
Proof.
  intros H. unfold bfw_write_all.
  destruct (zlen d <? buf_capacity - zlen (bfw_pending s)).
  { split; [reflexivity|]. unfold bfw_all, plan_ok in *. cbn [bfw_file bfw_pending]. rewrite app_assoc. auto. }
  assert (G : exists s1, (if buf_capacity - zlen (bfw_pending s) <? zlen d then bfw_flush s else (Ok tt, s)) = (Ok tt, s1)
     /\ bfw_all s1 = bfw_all s /\ plan_ok s1 /\ (bfw_pending s1 = [] \/ zlen d <= buf_capacity - zlen (bfw_pending s1))).
  { destruct (buf_capacity - zlen (bfw_pending s) <? zlen d) eqn:E.
    - destruct (bfw_flush_ok s H) as (f' & -> & D & P). eexists. split; [reflexivity|].
      unfold bfw_all at 1. cbn [bfw_file bfw_pending]. rewrite app_nil_r. auto.
    - exists s. repeat split; auto. right. lia. }
  destruct G as (s1 & -> & A & P & N).
  destruct (buf_capacity <=? zlen d) eqn:E3.
  - assert (N1 : bfw_pending s1 = []).
    { destruct N as [N|N]; [exact N|]. apply zlen_0_nil. pose proof (zlen_nonneg (bfw_pending s1)). unfold buf_capacity in *; lia. }
    destruct (sink_no_fail d (bfw_file s1) P) as (f' & -> & D & P').
    split; [reflexivity|]. split; [|exact P'].
    unfold bfw_all at 1. cbn [bfw_file bfw_pending]. rewrite N1, app_nil_r, D, <- A. unfold bfw_all.
    rewrite N1, app_nil_r. reflexivity.
  - split; [reflexivity|]. split; [|exact P].
    unfold bfw_all at 1. cbn [bfw_file bfw_pending]. rewrite <- A. unfold bfw_all. apply app_assoc.
Qed.

Lemma run_bfw_ok p : forallb clean_op p = true -> forall s, plan_ok s ->
  exists s', run bfw_step p s = (Ok tt, s') /\ bfw_all s' = bfw_all s ++ prog_bytes p /\ plan_ok s'.
Proof.
  induction p as [|o p IH]; intros H s Hs.
  - exists s. simpl. rewrite app_nil_r. auto.
  - simpl in H. apply andb_prop in H. destruct H as [H1 H2].
    rewrite run_cons_clean by assumption. unfold bfw_step at 1.
    pose proof (bfw_write_all_ok (op_bytes o) s Hs) as W.
    destruct (bfw_write_all (op_bytes o) s) as [x s1]. destruct W as (-> & A & P).
    destruct (IH H2 s1 P) as (s' & -> & A' & P'). exists s'.
    split; [reflexivity|]. split; [|exact P']. rewrite A', A. simpl. unfold prog_bytes. rewrite <- app_assoc. reflexivity.
Qed.

Definition is_prefix (a b : bytes) : Prop := exists c, b = a ++ c.

Lemma run_bfw_prefix p : forallb clean_op p = true -> forall s,
  let '(o, s') := run bfw_step p s in
  is_prefix (bfw_all s') (bfw_all s ++ prog_bytes p) /\
  ((o = Ok tt /\ bfw_all s' = bfw_all s ++ prog_bytes p) \/ o = Err EIo).
Proof.
  induction p as [|o p IH]; intros H s.
  - simpl. rewrite app_nil_r. split; [exists []; rewrite app_nil_r; reflexivity|auto].
  - simpl in H. apply andb_prop in H. destruct H as [H1 H2].
    rewrite run_cons_clean by assumption. unfold bfw_step at 1.
    pose proof (bfw_write_all_spec (op_bytes o) s) as W.
    destruct (bfw_write_all (op_bytes o) s) as [x s1].
    destruct W as [(-> & A)|(-> & sent & rest & D & E & sent' & rest' & A & E')].
    + specialize (IH H2 s1). destruct (run bfw_step p s1) as [y s'].
      simpl. unfold prog_bytes in *. rewrite A in IH. rewrite <- app_assoc in IH. exact IH.
    + split; [|right; reflexivity]. exists (rest' ++ prog_bytes p). simpl. unfold prog_bytes.
      rewrite A, !app_assoc, <- E', <- app_assoc. reflexivity.
Qed.

Lemma bfw_drop_prefix s : is_prefix (sk_data (bfw_drop s)) (bfw_all s).
Proof.
  unfold bfw_drop. destruct (bfw_flush_spec s) as [(f' & -> & D)|(f' & k & -> & D & _)]; cbn [snd bfw_file]; rewrite D.
  - exists []. rewrite app_nil_r. reflexivity.
  - exists (skipn k (bfw_pending s)). unfold bfw_all. rewrite <- app_assoc, firstn_skipn. reflexivity.
Qed.

Lemma write_file_no_fail w enc plan : emits w enc -> Forall (fun x => x = None) plan ->
  exists f, write_file (Some plan) w = (Ok tt, Some f) /\ sk_data f = enc.
Proof.
  intros H P. apply emits_clean in H. destruct H as [C ->].
  destruct (run_bfw_ok w C (mkBufW [] (mkSink [] plan)) P) as (s' & E & A & P').
  unfold write_file. rewrite E. eexists. split; [reflexivity|].
  destruct (bfw_flush_ok s' P') as (f' & F & D & _). unfold bfw_drop. rewrite F. cbn [snd bfw_file].
  rewrite D, A. reflexivity.
Qed.

Lemma write_file_prefix w enc plan : emits w enc ->
  exists o f, write_file (Some plan) w = (o, Some f) /\ is_prefix (sk_data f) enc /\ (o = Ok tt \/ o = Err EIo).
Proof.
  intros H. apply emits_clean in H. destruct H as [C ->].
  pose proof (run_bfw_prefix w C (mkBufW [] (mkSink [] plan))) as R.
  unfold write_file. destruct (run bfw_step w _) as [o s]. destruct R as [(c & R1) R2].
  exists o, (bfw_drop s). split; [reflexivity|]. split.
  - destruct (bfw_drop_prefix s) as (c' & D). exists (c' ++ c). rewrite app_assoc, <- D, <- R1. reflexivity.
  - destruct R2 as [[-> _]| ->]; auto.
Qed.
