(** The decoded struct, field by field: every struct field depends only on the
    records that belong to it, in their order. *)
From Coq Require Import ZifyBool ZifyNat ZifyN.
From Verif Require Import Base BaseFacts Utf8 Reader PackedFixed Writer Sizeofs Spec VarintFacts
  WriterFacts ScalarFacts DelimFacts PackedFixedFacts ExactFacts SimFacts Schema Gen GenSem GenSpec GenEmit GenRead
  GenSim GenExact GenRecords.

(** [r] is an occurrence of the field, or of a member of the oneof *)
Definition belongs (d : sdesc) (r : wrec) : bool := existsb (Z.eqb (rtag r)) (map field_tag (desc_fields d)).

Lemma Forall2_len {A B} (R : A -> B -> Prop) l l' : Forall2 R l l' -> length l = length l'.
Proof. induction 1; cbn; congruence. Qed.

Lemma Forall2_nth {A B} (R : A -> B -> Prop) l l' : Forall2 R l l' ->
  forall i a b, nth_error l i = Some a -> nth_error l' i = Some b -> R a b.
Proof. induction 1 as [|x y l l' H F IH]; intros [|i] a b N1 N2; cbn in *; try discriminate; [congruence|eauto]. Qed.
Lemma filter_none {A} (f : A -> bool) l : filter f l = [] <-> existsb f l = false.
Proof. induction l as [|a l IH]; cbn; [tauto|]. destruct (f a); cbn; [split; discriminate|exact IH]. Qed.
Lemma choose_list {A B} (P : A -> B -> B -> B -> B -> Prop) (l : list A) : forall s x y : list B,
  length s = length l -> length x = length l -> length y = length l ->
  (forall i d si xi yi, nth_error l i = Some d -> nth_error s i = Some si -> nth_error x i = Some xi -> nth_error y i = Some yi ->
     exists zi, P d si xi yi zi) ->
  exists z, length z = length l /\ forall i d si xi yi zi, nth_error l i = Some d -> nth_error s i = Some si ->
      nth_error x i = Some xi -> nth_error y i = Some yi -> nth_error z i = Some zi -> P d si xi yi zi.
Proof.
  induction l as [|d l IH]; intros df x y Ld La Lb K.
  - exists []. split; [reflexivity|]. intros [|i] ? ? ? ? ? H; discriminate H.
  - destruct df as [|s df]; [discriminate Ld|]. destruct x as [|xi x]; [discriminate La|]. destruct y as [|yi y]; [discriminate Lb|].
    cbn [length] in *. destruct (IH df x y) as (z & Lz & Hz); [lia|lia|lia|intros i; apply (K (S i))|].
    destruct (K 0%nat d s xi yi eq_refl eq_refl eq_refl eq_refl) as (zi & H). exists (zi :: z). split; [cbn; lia|].
    intros [|i] d' s' xi' yi' zi' N1 N2 N3 N4 N5; cbn in *; [|eapply Hz; eassumption].
    injection N1 as <-. injection N2 as <-. injection N3 as <-. injection N4 as <-. injection N5 as <-. exact H.
Qed.

Section Laws.
Variable D : file_descriptor.
Variable c : config.
Variable lit : field_type -> text -> option value.
Hypothesis WF : schema_wf D c lit.
Hypothesis POK : schema_packed_ok D c.
Variable t : target.
Hypothesis CH : overflow_checks t = true.

(** ** Enough fuel *)
Lemma decode_fuel m bs n : buf_ok t bs -> (length bs < n)%nat ->
  decode D c lit t n m bs = decode D c lit t (S (length bs)) m bs.
Proof.
  intros Hb Hn. unfold decode, from_bytes.
  pose proof (tot_from_reader t CH D c lit (S (length bs)) m bs 0 (zlen bs) Hb (Z.le_refl 0) ltac:(unfold zlen; lia) ltac:(lia)) as T.
  pose proof (mono_from_reader D c lit t (S (length bs)) n m ltac:(lia) bs (mkR 0 (zlen bs)) T) as M. rewrite M. reflexivity.
Qed.
Lemma decode_total m bs n : buf_ok t bs -> (length bs < n)%nat -> decode D c lit t n m bs <> NoFuel.
Proof.
  intros Hb Hn. rewrite decode_fuel by assumption. unfold decode, from_bytes.
  apply (tot_from_reader t CH D c lit (S (length bs)) m bs 0 (zlen bs) Hb (Z.le_refl 0)); unfold zlen; lia.
Qed.

Section Message.
Variable m : midx.
Variable msg : message.
Hypothesis G : get_message D m = Some msg.
Notation arms := (match_arms c msg).
Notation step_rec n := (step_rec D c lit t msg n).
Notation steps_rec n := (steps_rec D c lit t msg n).

(** the update a record stands for *)
Definition rec_upd (n : nat) (r : wrec) (u : update) : Prop :=
  match find (fun '(k, _) => k =? rtag r) arms with
  | Some (_, (_, a)) => reads t (read_upd D c lit t n a) (rpay r) u
  | None => False
  end.
Fixpoint apply_upds (us : list update) (s : slot) : option slot :=
  match us with
  | [] => Some s
  | u :: us' => match apply_upd u s with Some s' => apply_upds us' s' | None => None end
  end.
Definition slot_run n (rs : list wrec) (s s' : slot) : Prop :=
  exists us, Forall2 (rec_upd n) rs us /\ apply_upds us s = Some s'.

Lemma In_number_from {A} (l : list A) k j x : In (j, x) (number_from k l) -> nth_error l (j - k) = Some x /\ (k <= j)%nat.
Proof.
  revert k; induction l as [|y l IH]; intros k H; [contradiction|]. cbn in H. destruct H as [H|H].
  - injection H as -> ->. rewrite Nat.sub_diag. auto.
  - apply IH in H. destruct H as [H L]. split; [|lia]. replace (j - k)%nat with (S (j - S k)) by lia. exact H.
Qed.
(** the arm found is that of the struct field the record belongs to *)
Lemma find_belongs i d r : nth_error (descs c msg) i = Some d -> belongs d r = true ->
  exists a, find (fun '(k, _) => k =? rtag r) arms = Some (rtag r, (i, a)) /\ In (rtag r, (i, a)) (desc_arms i d).
Proof.
  intros N B. unfold belongs in B. apply existsb_exists in B. destruct B as (x & Hx & E). apply Z.eqb_eq in E. subst x.
  apply in_map_iff in Hx. destruct Hx as (f & E & Hf).
  assert (exists a, In (rtag r, (i, a)) (desc_arms i d)) as [a Ha].
  { destruct d as [f0|vs]; cbn [desc_fields desc_arms] in *.
    - destruct Hf as [->|[]]. rewrite E. eexists. left. reflexivity.
    - apply In_nth_error in Hf. destruct Hf as [j Hj]. apply (number_from_nth _ 0) in Hj. cbn in Hj.
      exists (AOneof j (read_fn (f_typ f))). apply in_map_iff. exists (j, f). rewrite E. auto. }
  exists a. split; [|exact Ha]. rewrite <- E in *. eapply (find_arm D c lit WF m msg G); eassumption.
Qed.
Lemma found_belongs i k j a r d : find (fun '(k, _) => k =? rtag r) arms = Some (k, (j, a)) ->
  nth_error (descs c msg) i = Some d -> belongs d r = (j =? i)%nat.
Proof.
  intros F N. destruct (belongs d r) eqn:B.
  - destruct (find_belongs _ _ _ N B) as (a' & F' & _). rewrite F in F'. injection F' as _ -> _. symmetry. apply Nat.eqb_refl.
  - destruct (Nat.eqb_spec j i) as [->|]; [|reflexivity]. exfalso.
    destruct (arm_inv _ _ _ _ _ _ F) as (_ & d' & N' & H). rewrite N in N'. injection N' as <-.
    assert (In (rtag r) (map field_tag (desc_fields d))) as Hin.
    { rewrite <- (desc_arms_tags i). change (rtag r) with (fst (rtag r, (i, a))). apply in_map, H. }
    unfold belongs in B. assert (existsb (Z.eqb (rtag r)) (map field_tag (desc_fields d)) = true); [|congruence].
    apply existsb_exists. exists (rtag r). split; [exact Hin|apply Z.eqb_refl].
Qed.
Lemma unfound_belongs i r d : find (fun '(k, _) => k =? rtag r) arms = None -> nth_error (descs c msg) i = Some d -> belongs d r = false.
Proof.
  intros F N. destruct (belongs d r) eqn:B; [|reflexivity]. destruct (find_belongs _ _ _ N B) as (a & F' & _). congruence.
Qed.

Lemma nth_set_nth_eq {A} i x (l : list A) : (i < length l)%nat -> nth_error (set_nth i x l) i = Some x.
Proof. revert i; induction l as [|y l IH]; intros [|i] H; cbn in *; try lia; [reflexivity|apply IH; lia]. Qed.
Lemma nth_set_nth_ne {A} i j x (l : list A) : i <> j -> nth_error (set_nth i x l) j = nth_error l j.
Proof.
  revert i j; induction l as [|y l IH]; intros [|i] [|j] H; cbn in *; try congruence; try reflexivity.
  apply IH. congruence.
Qed.
Lemma length_set_nth {A} i x (l : list A) : length (set_nth i x l) = length l.
Proof. revert i; induction l as [|y l IH]; intros [|i]; cbn; [reflexivity..|]. rewrite IH. reflexivity. Qed.

Lemma nth_ext_some {A} (l l' : list A) : length l = length l' -> (forall i x y, nth_error l i = Some x -> nth_error l' i = Some y -> x = y) -> l = l'.
Proof.
  revert l'; induction l as [|x l IH]; intros [|y l'] L H; cbn in L; try lia; [reflexivity|].
  f_equal; [apply (H 0%nat); reflexivity|]. apply IH; [lia|]. intros i a b. apply (H (S i)).
Qed.

Lemma steps_rec_length n ss rs ss' : steps_rec n ss rs ss' -> length ss' = length ss.
Proof.
  induction 1 as [|ss r ss1 rs ss2 S _ IH]; [reflexivity|]. rewrite IH. unfold GenRecords.step_rec in S.
  destruct (find _ arms) as [[k [i a]]|]; [destruct S as (s & u & s' & _ & _ & _ & ->); apply length_set_nth|subst; reflexivity].
Qed.

Lemma slot_run_nil n s : slot_run n [] s s.
Proof. exists []. split; [constructor|reflexivity]. Qed.

(** record by record is field by field *)
Theorem steps_iff n rs : forall ss ss', length ss = length (descs c msg) ->
  steps_rec n ss rs ss' <->
  length ss' = length ss /\
  forall i d s s', nth_error (descs c msg) i = Some d -> nth_error ss i = Some s -> nth_error ss' i = Some s' ->
    slot_run n (filter (belongs d) rs) s s'.
Proof.
  induction rs as [|r rs IH]; intros ss ss' L.
  - split.
    + intros H. inversion H; subst. split; [reflexivity|]. intros i d s s' _ N1 N2. rewrite N1 in N2. injection N2 as <-. apply slot_run_nil.
    + intros [L' H]. assert (ss = ss') as <-; [|constructor]. apply nth_ext_some; [lia|]. intros i x y N1 N2.
      destruct (nth_error (descs c msg) i) as [d|] eqn:Nd; [|apply nth_error_None in Nd; assert (i < length ss)%nat by (apply nth_error_Some; congruence); lia].
      destruct (H _ _ _ _ Nd N1 N2) as (us & F & A). inversion F; subst. cbn in A. congruence.
  - split.
    + intros H. pose proof (steps_rec_length _ _ _ _ H) as L'. split; [exact L'|]. inversion H as [|? ? ss1 ? ? S1 S2]; subst.
      intros i d s s' Nd N1 N2. unfold GenRecords.step_rec in S1.
      destruct (find (fun '(k, _) => k =? rtag r) arms) as [[k [j a]]|] eqn:F.
      * destruct S1 as (s0 & u & s1 & Nj & R & Eu & ->). assert (j < length ss)%nat as Lj by (apply nth_error_Some; congruence).
        apply IH in S2; [|rewrite length_set_nth; exact L]. destruct S2 as [_ S2]. cbn [filter].
        rewrite (found_belongs _ _ _ _ _ _ F Nd). destruct (Nat.eqb_spec j i) as [->|Ne].
        -- rewrite N1 in Nj. injection Nj as <-. specialize (S2 i d s1 s' Nd (nth_set_nth_eq _ _ _ Lj) N2).
           destruct S2 as (us & F2 & A). exists (u :: us). split; [constructor; [unfold rec_upd; rewrite F; exact R|exact F2]|].
           cbn [apply_upds]. rewrite Eu. exact A.
        -- apply (S2 i d s s' Nd); [rewrite nth_set_nth_ne by exact Ne; exact N1|exact N2].
      * subst ss1. apply IH in S2; [|exact L]. cbn [filter]. rewrite (unfound_belongs _ _ _ F Nd). eapply S2; eassumption.
    + intros [L' H]. destruct (find (fun '(k, _) => k =? rtag r) arms) as [[k [j a]]|] eqn:F.
      * destruct (arm_inv _ _ _ _ _ _ F) as (_ & d & Nd & _).
        assert (j < length ss)%nat as Lj by (rewrite L; apply nth_error_Some; congruence).
        destruct (nth_error ss j) as [s|] eqn:N1; [|apply nth_error_None in N1; lia].
        destruct (nth_error ss' j) as [s'|] eqn:N2; [|apply nth_error_None in N2; lia].
        pose proof (H _ _ _ _ Nd N1 N2) as R. cbn [filter] in R. rewrite (found_belongs _ _ _ _ _ _ F Nd), Nat.eqb_refl in R.
        destruct R as (us & F2 & A). inversion F2 as [|? u ? us' U F3]; subst. cbn [apply_upds] in A.
        destruct (apply_upd u s) as [s1|] eqn:Eu; [|discriminate A].
        apply (sr_cons _ _ _ _ _ _ _ _ (set_nth j s1 ss)).
        -- unfold GenRecords.step_rec. rewrite F. unfold rec_upd in U. rewrite F in U. exists s, u, s1. auto.
        -- apply IH; [rewrite length_set_nth; exact L|]. split; [rewrite length_set_nth; exact L'|].
           intros i di si si' Ndi Ni1 Ni2. destruct (Nat.eq_dec j i) as [<-|Ne].
           ++ rewrite nth_set_nth_eq in Ni1 by exact Lj. injection Ni1 as <-. rewrite N2 in Ni2. injection Ni2 as <-.
              rewrite Nd in Ndi. injection Ndi as <-. exists us'. auto.
           ++ rewrite nth_set_nth_ne in Ni1 by exact Ne. pose proof (H _ _ _ _ Ndi Ni1 Ni2) as R. cbn [filter] in R.
              rewrite (found_belongs _ _ _ _ _ _ F Ndi) in R. destruct (Nat.eqb_spec j i); [congruence|exact R].
      * apply (sr_cons _ _ _ _ _ _ _ _ ss); [unfold GenRecords.step_rec; rewrite F; reflexivity|].
        apply IH; [exact L|]. split; [exact L'|]. intros i di si si' Ndi Ni1 Ni2. pose proof (H _ _ _ _ Ndi Ni1 Ni2) as R. cbn [filter] in R.
        rewrite (unfound_belongs _ _ _ F Ndi) in R. exact R.
Qed.

Variable df : list slot.
Hypothesis DF : message_default D c lit m = Some df.

Lemma df_length : length df = length (descs c msg).
Proof. symmetry. eapply Forall2_len, (message_default_blank D c lit WF m msg df G DF). Qed.

(** decoding, field by field *)
Theorem decode_fields n rs ss : Forall wrec_ok rs -> buf_ok t (recs_bytes rs) -> (length (recs_bytes rs) <= n)%nat ->
  decode D c lit t (S (length (recs_bytes rs))) m (recs_bytes rs) = Ok ss <->
  length ss = length (descs c msg) /\
  forall i d s s', nth_error (descs c msg) i = Some d -> nth_error df i = Some s -> nth_error ss i = Some s' ->
    slot_run n (filter (belongs d) rs) s s'.
Proof.
  intros Hr Hb Hn. rewrite <- (decode_fuel m (recs_bytes rs) (S n) Hb) by lia.
  destruct (WF m msg G) as [W1 _ _]. destruct (is_unit msg) eqn:U.
  - pose proof df_length as L. pose proof (is_unit_descs c msg U) as E. rewrite E in *. destruct df; [|discriminate L].
    unfold decode, from_bytes. cbn [from_reader]. rewrite G, DF, U. cbn. split.
    + intros H. injection H as <-. split; [reflexivity|]. intros [|i] ? ? ? H; discriminate H.
    + intros [H _]. destruct ss; [reflexivity|discriminate H].
  - rewrite (decode_recs D c lit t CH msg W1 (POK m msg G) m G U df DF n rs ss Hr Hb Hn). rewrite (steps_iff n rs df ss df_length), df_length. reflexivity.
Qed.

(** two record sequences that agree on every struct field decode alike *)
Theorem decode_same_fields rs rs' ss : Forall wrec_ok rs -> Forall wrec_ok rs' ->
  buf_ok t (recs_bytes rs) -> buf_ok t (recs_bytes rs') ->
  (forall d, In d (descs c msg) -> filter (belongs d) rs = filter (belongs d) rs') ->
  decode D c lit t (S (length (recs_bytes rs))) m (recs_bytes rs) = Ok ss <->
  decode D c lit t (S (length (recs_bytes rs'))) m (recs_bytes rs') = Ok ss.
Proof.
  intros H1 H2 B1 B2 E. set (n := (length (recs_bytes rs) + length (recs_bytes rs'))%nat).
  rewrite (decode_fields n rs), (decode_fields n rs') by (assumption || lia).
  assert (X : forall i d, nth_error (descs c msg) i = Some d -> filter (belongs d) rs = filter (belongs d) rs').
  { intros i d N. apply E. eapply nth_error_In; exact N. }
  split; intros [L H]; (split; [exact L|]); intros i d s s' Nd N1 N2; [rewrite <- (X _ _ Nd)|rewrite (X _ _ Nd)]; eapply H; eassumption.
Qed.

(** ** Concatenation *)

Lemma apply_upds_app us vs s : apply_upds (us ++ vs) s = match apply_upds us s with Some s' => apply_upds vs s' | None => None end.
Proof. revert s; induction us as [|u us IH]; intros s; cbn; [reflexivity|]. destruct (apply_upd u s); [apply IH|reflexivity]. Qed.
Lemma slot_run_app n r1 r2 s s1 s2 : slot_run n r1 s s1 -> slot_run n r2 s1 s2 -> slot_run n (r1 ++ r2) s s2.
Proof.
  intros (u1 & F1 & A1) (u2 & F2 & A2). exists (u1 ++ u2). split; [apply Forall2_app; assumption|].
  rewrite apply_upds_app, A1. exact A2.
Qed.

(** the kind of update of a struct field *)
Inductive kind := KSet | KPush | KInsert.
Definition field_kind (d : sdesc) : kind :=
  match d with
  | SdField f => if freq_is_map (f_freq f) then KInsert
                 else if freq_is_repeated (f_freq f) && negb (f_is_packed f) then KPush else KSet
  | SdOneof _ => KSet
  end.
Definition upd_kind (u : update) : kind := match u with USet _ => KSet | UPush _ => KPush | UIns _ _ => KInsert end.

Lemma upd_kind_ok n i d r u : nth_error (descs c msg) i = Some d -> belongs d r = true -> buf_ok t (rpay r) -> rec_upd n r u ->
  upd_kind u = field_kind d.
Proof.
  intros Nd B Hb U. destruct (find_belongs _ _ _ Nd B) as (a & F & Hin). unfold rec_upd in U. rewrite F in U.
  destruct (WF m msg G) as [W1 _ _]. rewrite Forall_forall in W1. pose proof (W1 _ (nth_error_In _ _ Nd)) as O. clear F B Nd W1.
  assert (K : upd_kind u = match a with APush _ => KPush | AInsert _ _ _ _ => KInsert | _ => KSet end).
  { destruct a; cbn [read_upd] in U;
      try (apply reads_rmap_inv in U; [destruct U as (? & _ & <-); reflexivity|apply adv_val; exact CH|exact Hb]).
    - apply reads_rmap_inv in U; [destruct U as (? & _ & <-); reflexivity|apply adv_pf; exact CH|exact Hb].
    - apply reads_rmap_inv in U; [destruct U as (? & _ & <-); reflexivity|apply adv_packed; [exact CH|apply adv_val; exact CH]|exact Hb].
    - destruct (type_default D (message_default D c lit) tk); [|apply run_alone in U; [discriminate U|exact Hb]].
      destruct (type_default D (message_default D c lit) tv); [|apply run_alone in U; [discriminate U|exact Hb]].
      apply reads_rmap_inv in U; [|apply adv_map; [exact CH|apply adv_val; exact CH|apply adv_val; exact CH]|exact Hb].
      destruct U as ([kk vv] & _ & <-). reflexivity.
    - apply run_alone in U; [discriminate U|exact Hb]. }
  rewrite K. clear K U. destruct d as [f|vs]; cbn [desc_arms field_kind desc_ok] in *.
  - destruct Hin as [H|[]]. injection H as _ <-. destruct O as (O1 & O2 & _). unfold field_arm, generated_type_of.
    destruct (f_boxed f); [specialize (O1 eq_refl); destruct (f_freq f); try discriminate O1; reflexivity|].
    destruct (f_freq f); cbn [freq_is_map freq_is_repeated negb andb] in *; try reflexivity;
      try (destruct (f_is_packed f); [destruct (is_fixed_size (f_typ f)); reflexivity|reflexivity]).
    all: destruct (f_typ f); try contradiction O2; reflexivity.
  - apply in_map_iff in Hin. destruct Hin as ([j f] & H & _). injection H as _ <-. reflexivity.
Qed.

Lemma sets_run us : Forall (fun u => upd_kind u = KSet) us -> us <> [] -> exists s', forall s, apply_upds us s = Some s'.
Proof.
  intros F. induction F as [|u us H F IH]; [congruence|]. intros _. destruct u; try discriminate H. cbn [apply_upds apply_upd].
  destruct us as [|u us]; [exists s; reflexivity|]. destruct (IH ltac:(discriminate)) as (s' & E). exists s'. intros x. apply E.
Qed.
Lemma push_run us : Forall (fun u => upd_kind u = KPush) us ->
  exists l, forall l0, apply_upds us (SlVec l0) = Some (SlVec (l0 ++ l)).
Proof.
  induction 1 as [|u us H F (l & IH)]; [exists []; intros; rewrite app_nil_r; reflexivity|].
  destruct u; try discriminate H. exists (v :: l). intros l0. cbn [apply_upds apply_upd]. rewrite IH, <- app_assoc. reflexivity.
Qed.
Definition inserts (kvs : list (value * value)) (l : list (value * value)) : list (value * value) :=
  fold_left (fun acc '(k, v) => map_insert k v acc) kvs l.
Lemma insert_run us : Forall (fun u => upd_kind u = KInsert) us ->
  exists kvs, forall l0, apply_upds us (SlMap l0) = Some (SlMap (inserts kvs l0)).
Proof.
  induction 1 as [|u us H F (l & IH)]; [exists []; reflexivity|].
  destruct u; try discriminate H. exists ((k, v) :: l). intros l0. cbn [apply_upds apply_upd inserts fold_left]. apply IH.
Qed.

(** looking up a key *)
Definition map_lookup (k : value) (l : list (value * value)) : option value :=
  option_map snd (find (fun kv => plain_eq k (fst kv)) l).
Lemma lookup_insert k k' v l : map_lookup k (map_insert k' v l) = if plain_eq k k' then Some v else map_lookup k l.
Proof.
  unfold map_lookup. induction l as [|[k1 v1] l IH]; cbn [map_insert find fst].
  - destruct (plain_eq k k'); reflexivity.
  - destruct (plain_eq k' k1) eqn:E1; cbn [find fst].
    + apply plain_eq_true in E1. subst k1. destruct (plain_eq k k'); reflexivity.
    + destruct (plain_eq k k1) eqn:E2.
      * destruct (plain_eq k k') eqn:E3; [|reflexivity]. exfalso. apply plain_eq_true in E3. subst k'. congruence.
      * exact IH.
Qed.
Lemma lookup_inserts k kvs l : map_lookup k (inserts kvs l) =
  match map_lookup k (inserts kvs []) with Some v => Some v | None => map_lookup k l end.
Proof.
  unfold inserts. rewrite <- !fold_left_rev_right. induction (rev kvs) as [|[k' v] x IH]; cbn [fold_right]; [reflexivity|].
  rewrite !lookup_insert. destruct (plain_eq k k'); [reflexivity|exact IH].
Qed.

(** How the contents [x] of a struct field and the contents [y] decoded from
    later records combine; [occurs] says whether any of the later records
    belongs to the field. *)
Definition merged (d : sdesc) (occurs : bool) (x y z : slot) : Prop :=
  match field_kind d with
  | KSet => z = if occurs then y else x
  | KPush => exists l1 l2, x = SlVec l1 /\ y = SlVec l2 /\ z = SlVec (l1 ++ l2)
  | KInsert => exists l1 l2 l3, x = SlMap l1 /\ y = SlMap l2 /\ z = SlMap l3 /\
               forall k, map_lookup k l3 = match map_lookup k l2 with Some v => Some v | None => map_lookup k l1 end
  end.

Lemma blank_kind d s : desc_ok D c lit d -> blank (sd_type c d) s ->
  match field_kind d with KSet => True | KPush => s = SlVec [] | KInsert => s = SlMap [] end.
Proof.
  destruct d as [f|vs]; cbn [field_kind desc_ok sd_type]; [|auto]. intros (O1 & O2 & O3 & _). unfold get_type, generated_type_of.
  destruct (f_boxed f).
  - specialize (O1 eq_refl). destruct (f_freq f); try discriminate O1; cbn; auto.
  - destruct (f_freq f); cbn [freq_is_map freq_is_repeated freq_is_optional andb] in *; auto.
    1,3: destruct (f_is_packed f); cbn; auto.
    all: destruct (f_typ f); try contradiction; cbn; auto.
Qed.

Lemma recs_bytes_app a b : recs_bytes (a ++ b) = recs_bytes a ++ recs_bytes b.
Proof. unfold recs_bytes. rewrite map_app, concat_app. reflexivity. Qed.
Lemma rec_in_bytes rs r : In r rs -> exists x y, recs_bytes rs = x ++ rpay r ++ y.
Proof.
  intros H. apply in_split in H. destruct H as (a & b & ->). rewrite recs_bytes_app. unfold recs_bytes at 2. cbn [map concat].
  unfold rec_bytes at 1. exists (recs_bytes a ++ rkey r), (concat (map rec_bytes b)). rewrite <- !app_assoc. reflexivity.
Qed.
Lemma rec_buf_ok rs r : buf_ok t (recs_bytes rs) -> In r rs -> buf_ok t (rpay r).
Proof.
  intros Hb Hin. destruct (rec_in_bytes _ _ Hin) as (x & y & E). rewrite E in Hb. apply buf_ok_app in Hb. destruct Hb as [_ Hb].
  apply buf_ok_app in Hb. apply Hb.
Qed.

Lemma slot_run_kinds n i d rs us : nth_error (descs c msg) i = Some d -> buf_ok t (recs_bytes rs) ->
  Forall2 (rec_upd n) (filter (belongs d) rs) us -> Forall (fun u => upd_kind u = field_kind d) us.
Proof.
  intros Nd Hb F. assert (X : forall r, In r (filter (belongs d) rs) -> belongs d r = true /\ buf_ok t (rpay r)).
  { intros r H. apply filter_In in H. destruct H as [H1 H2]. split; [exact H2|]. eapply rec_buf_ok; eassumption. }
  revert X. induction F as [|r u l us' H F IH]; intros X; constructor.
  - destruct (X r (or_introl eq_refl)) as [B Hr]. eapply upd_kind_ok; eassumption.
  - apply IH. intros r' Hr'. apply X. right. exact Hr'.
Qed.

Theorem decode_concat ra rb x y : Forall wrec_ok ra -> Forall wrec_ok rb -> buf_ok t (recs_bytes ra ++ recs_bytes rb) ->
  decode D c lit t (S (length (recs_bytes ra))) m (recs_bytes ra) = Ok x ->
  decode D c lit t (S (length (recs_bytes rb))) m (recs_bytes rb) = Ok y ->
  exists z, decode D c lit t (S (length (recs_bytes ra ++ recs_bytes rb))) m (recs_bytes ra ++ recs_bytes rb) = Ok z /\
    length z = length (descs c msg) /\
    forall i d xi yi zi, nth_error (descs c msg) i = Some d -> nth_error x i = Some xi -> nth_error y i = Some yi -> nth_error z i = Some zi ->
      merged d (existsb (belongs d) rb) xi yi zi.
Proof.
  intros Ha Hb0 Hb Ea Eb. destruct (buf_ok_app _ _ _ Hb) as [Hba Hbb].
  set (n := length (recs_bytes ra ++ recs_bytes rb)).
  apply (decode_fields n) in Ea; [|assumption|assumption|unfold n; rewrite app_length; lia].
  apply (decode_fields n) in Eb; [|assumption|assumption|unfold n; rewrite app_length; lia].
  destruct Ea as [La Ea]. destruct Eb as [Lb Eb]. destruct (WF m msg G) as [W1 _ _].
  pose proof (message_default_blank D c lit WF m msg df G DF) as BL.
  (* field by field *)
  assert (K : forall i d s xi yi, nth_error (descs c msg) i = Some d -> nth_error df i = Some s -> nth_error x i = Some xi -> nth_error y i = Some yi ->
    exists zi, slot_run n (filter (belongs d) (ra ++ rb)) s zi /\ merged d (existsb (belongs d) rb) xi yi zi).
  { intros i d s xi yi Nd Ns Nx Ny. specialize (Ea _ _ _ _ Nd Ns Nx). specialize (Eb _ _ _ _ Nd Ns Ny).
    assert (blank (sd_type c d) s) as Bs.
    { eapply (Forall2_nth _ _ _ BL); eassumption. }
    rewrite Forall_forall in W1. pose proof (blank_kind _ _ (W1 _ (nth_error_In _ _ Nd)) Bs) as Bk.
    destruct Ea as (ua & Fa & Aa). destruct Eb as (ub & Fb & Ab).
    pose proof (slot_run_kinds _ _ _ _ _ Nd Hba Fa) as Ka. pose proof (slot_run_kinds _ _ _ _ _ Nd Hbb Fb) as Kb.
    rewrite filter_app. unfold merged. destruct (field_kind d).
    - destruct (existsb (belongs d) rb) eqn:Ex.
      + assert (ub <> []) as Ne.
        { apply existsb_exists in Ex. destruct Ex as (r & Hr & B). intros ->. inversion Fb as [E|].
          assert (In r (filter (belongs d) rb)) as Hin by (apply filter_In; auto). rewrite <- E in Hin. contradiction. }
        destruct (sets_run _ Kb Ne) as (s' & Es). exists yi. split; [|reflexivity]. exists (ua ++ ub). split; [apply Forall2_app; assumption|].
        rewrite apply_upds_app, Aa. rewrite Es in *. congruence.
      + assert (filter (belongs d) rb = []) as E.
        { clear -Ex. induction rb as [|r l IH]; [reflexivity|]. cbn in *. destruct (belongs d r); [discriminate|auto]. }
        exists xi. split; [|reflexivity]. rewrite E, app_nil_r. exists ua. auto.
    - subst s. destruct (push_run _ Ka) as (l1 & E1). destruct (push_run _ Kb) as (l2 & E2). rewrite E1 in Aa. rewrite E2 in Ab.
      injection Aa as <-. injection Ab as <-. exists (SlVec (l1 ++ l2)). split; [|exists l1, l2; auto].
      exists (ua ++ ub). split; [apply Forall2_app; assumption|]. rewrite apply_upds_app, E1, E2. reflexivity.
    - subst s. destruct (insert_run _ Ka) as (l1 & E1). destruct (insert_run _ Kb) as (l2 & E2). rewrite E1 in Aa. rewrite E2 in Ab.
      injection Aa as <-. injection Ab as <-. exists (SlMap (inserts l2 (inserts l1 []))). split.
      + exists (ua ++ ub). split; [apply Forall2_app; assumption|]. rewrite apply_upds_app, E1, E2. reflexivity.
      + exists (inserts l1 []), (inserts l2 []), (inserts l2 (inserts l1 [])). repeat match goal with |- _ /\ _ => split end; try reflexivity.
        intros k. apply lookup_inserts. }
  (* the struct *)
  assert (exists z, length z = length (descs c msg) /\ forall i d s xi yi zi, nth_error (descs c msg) i = Some d -> nth_error df i = Some s ->
      nth_error x i = Some xi -> nth_error y i = Some yi -> nth_error z i = Some zi ->
      slot_run n (filter (belongs d) (ra ++ rb)) s zi /\ merged d (existsb (belongs d) rb) xi yi zi) as (z & Lz & Hz).
  { apply (choose_list (fun d s xi yi zi => slot_run n (filter (belongs d) (ra ++ rb)) s zi /\ merged d (existsb (belongs d) rb) xi yi zi));
      auto using df_length. }
  pose proof df_length as Ld.
  assert (Full : forall (A B : Type) (l : list A) (l' : list B) i a, length l' = length l -> nth_error l i = Some a -> exists b, nth_error l' i = Some b).
  { intros A B l l' i a L N. destruct (nth_error l' i) as [b|] eqn:E; [eauto|]. apply nth_error_None in E.
    assert (i < length l)%nat by (apply nth_error_Some; congruence). lia. }
  exists z. split; [|split; [exact Lz|]].
  - unfold n. rewrite <- recs_bytes_app.
    assert (P1 : Forall wrec_ok (ra ++ rb)) by (apply Forall_app; auto).
    assert (P2 : buf_ok t (recs_bytes (ra ++ rb))) by (rewrite recs_bytes_app; exact Hb).
    assert (P3 : (length (recs_bytes (ra ++ rb)) <= n)%nat) by (rewrite recs_bytes_app; unfold n; lia).
    apply (proj2 (decode_fields n (ra ++ rb) z P1 P2 P3)).
    split; [exact Lz|]. intros i d s zi Nd Ns Nz. destruct (Full _ _ _ x i d La Nd) as (xi & Nx). destruct (Full _ _ _ y i d Lb Nd) as (yi & Ny).
    apply (Hz i d s xi yi zi); assumption.
  - intros i d xi yi zi Nd Nx Ny Nz. destruct (Full _ _ _ df i d Ld Nd) as (s & Ns). apply (Hz i d s xi yi zi); assumption.
Qed.

(** ** Oneofs *)

(** the last member decides; without a member the oneof is None *)
Theorem decode_oneof rs ss i vs s : Forall wrec_ok rs -> buf_ok t (recs_bytes rs) ->
  decode D c lit t (S (length (recs_bytes rs))) m (recs_bytes rs) = Ok ss ->
  nth_error (descs c msg) i = Some (SdOneof vs) -> nth_error ss i = Some s ->
  (filter (belongs (SdOneof vs)) rs = [] /\ s = SlOneofNone) \/
  (exists a r b sr, rs = a ++ r :: b /\ belongs (SdOneof vs) r = true /\ existsb (belongs (SdOneof vs)) b = false /\
     decode D c lit t (S (length (rec_bytes r))) m (rec_bytes r) = Ok sr /\ nth_error sr i = Some s /\
     exists j f v, s = SlOneof j v /\ nth_error vs j = Some f /\ field_tag f = rtag r).
Proof.
  intros Hr Hb E Nd Ns. set (n := length (recs_bytes rs)). apply (decode_fields n) in E; [|assumption|assumption|unfold n; lia].
  destruct E as [L E]. pose proof df_length as Ld.
  destruct (nth_error df i) as [s0|] eqn:N0; [|apply nth_error_None in N0; assert (i < length (descs c msg))%nat by (apply nth_error_Some; congruence); lia].
  pose proof (message_default_blank D c lit WF m msg df G DF) as BL.
  assert (blank (sd_type c (SdOneof vs)) s0) as Bs.
  { eapply (Forall2_nth _ _ _ BL); eassumption. }
  cbn in Bs. subst s0. pose proof (E _ _ _ _ Nd N0 Ns) as (us & F & A).
  (* the last member *)
  assert (LM : filter (belongs (SdOneof vs)) rs = [] \/ exists a r b, rs = a ++ r :: b /\ belongs (SdOneof vs) r = true /\ existsb (belongs (SdOneof vs)) b = false).
  { clear. induction rs as [|r rs IH]; [left; reflexivity|]. destruct IH as [IH|(a & r' & b & -> & B & X)].
    - cbn [filter]. destruct (belongs (SdOneof vs) r) eqn:B; [|left; exact IH]. right. exists [], r, rs. split; [reflexivity|]. split; [exact B|].
      apply filter_none. exact IH.
    - right. exists (r :: a), r', b. auto. }
  destruct LM as [LM|(a & r & b & -> & B & X)].
  - left. rewrite LM in F. inversion F; subst. cbn in A. injection A as <-. auto.
  - right. assert (Hr1 : wrec_ok r) by (rewrite Forall_forall in Hr; apply Hr; apply in_elt).
    assert (Hbr : buf_ok t (recs_bytes [r])).
    { rewrite recs_bytes_app in Hb. apply buf_ok_app in Hb. destruct Hb as [_ Hb]. unfold recs_bytes in *. cbn [map concat] in *.
      apply buf_ok_app in Hb. rewrite app_nil_r. apply Hb. }
    assert (Er : rec_bytes r = recs_bytes [r]) by (unfold recs_bytes; cbn; rewrite app_nil_r; reflexivity).
    assert (Fb : filter (belongs (SdOneof vs)) b = []).
    { apply filter_none. exact X. }
    rewrite filter_app in F. cbn [filter] in F. rewrite B, Fb in F. apply Forall2_app_inv_l in F.
    destruct F as (u1 & u2 & F1 & F2 & ->). inversion F2 as [|? u ? u3 U F3]; subst. inversion F3; subst.
    assert (Hbp : buf_ok t (rpay r)) by (eapply rec_buf_ok; [exact Hbr|left; reflexivity]).
    pose proof (upd_kind_ok _ _ _ _ _ Nd B Hbp U) as K. destruct u as [x| |]; try discriminate K.
    rewrite apply_upds_app in A. destruct (apply_upds u1 SlOneofNone) as [s1|]; [|discriminate A]. cbn in A. injection A as ->.
    (* decoding the record alone *)
    assert (Ex : exists sr, length sr = length (descs c msg) /\ nth_error sr i = Some s /\
       (forall j d sj sj', nth_error (descs c msg) j = Some d -> nth_error df j = Some sj -> nth_error sr j = Some sj' -> slot_run n (filter (belongs d) [r]) sj sj')).
    { assert (i < length df)%nat as Li by (apply nth_error_Some; congruence).
      exists (set_nth i s df). split; [rewrite length_set_nth; exact Ld|]. split; [apply nth_set_nth_eq; exact Li|].
      intros j d sj sj' Nj Nsj Nsj'. destruct (find_belongs _ _ _ Nd B) as (a0 & Fa & _). cbn [filter]. rewrite (found_belongs _ _ _ _ _ _ Fa Nj).
      destruct (Nat.eqb_spec i j) as [<-|Ne].
      - rewrite nth_set_nth_eq in Nsj' by exact Li. injection Nsj' as <-. exists [USet s]. split; [constructor; [exact U|constructor]|reflexivity].
      - rewrite nth_set_nth_ne in Nsj' by exact Ne. rewrite Nsj in Nsj'. injection Nsj' as <-. apply slot_run_nil. }
    destruct Ex as (sr & Lsr & Nsr & Hsr). exists a, r, b, sr. split; [reflexivity|]. split; [exact B|]. split; [exact X|].
    split.
    { rewrite Er.
      assert (P1 : Forall wrec_ok [r]) by (constructor; [exact Hr1|constructor]).
      assert (P3 : (length (recs_bytes [r]) <= n)%nat).
      { unfold n. rewrite recs_bytes_app, app_length. unfold recs_bytes. cbn [map concat]. rewrite app_nil_r, app_length. lia. }
      apply (proj2 (decode_fields n [r] sr P1 Hbr P3)). auto. }
    split; [exact Nsr|].
    destruct (find_belongs _ _ _ Nd B) as (a0 & Fa & Hin). cbn [desc_arms] in Hin. apply in_map_iff in Hin.
    destruct Hin as ([j f] & H & Hin). injection H as Ht <-. apply In_number_from in Hin. rewrite Nat.sub_0_r in Hin. destruct Hin as [Nf _].
    unfold rec_upd in U. rewrite Fa in U. cbn [read_upd] in U.
    apply reads_rmap_inv in U; [|apply adv_val; exact CH|exact Hbp]. destruct U as (v & _ & H). injection H as <-.
    exists j, f, v. auto.
Qed.
End Message.
End Laws.
