(** The generated from_reader reads back what write_message wrote. *)
From Coq Require Import ZifyBool ZifyNat ZifyN.
From Verif Require Import Base BaseFacts Utf8 Reader PackedFixed Writer Sizeofs Spec VarintFacts
  WriterFacts ScalarFacts DelimFacts Utf8Facts PackedFixedFacts Schema Gen GenSem GenSpec GenEmit.

(** [number_from] *)
Lemma number_from_app {A} (l1 l2 : list A) i :
  number_from i (l1 ++ l2) = number_from i l1 ++ number_from (i + length l1) l2.
Proof.
  revert i; induction l1 as [|x l1 IH]; intros i; simpl; [rewrite Nat.add_0_r; reflexivity|].
  rewrite IH, Nat.add_succ_r. reflexivity.
Qed.
Lemma number_from_map {A B} (f : A -> B) l i :
  number_from i (map f l) = map (fun '(j, x) => (j, f x)) (number_from i l).
Proof. revert i; induction l as [|x l IH]; intros i; simpl; [reflexivity|]. rewrite IH. reflexivity. Qed.
Lemma number_from_nth {A} (l : list A) i j x : nth_error l j = Some x -> In ((i + j)%nat, x) (number_from i l).
Proof.
  revert i j; induction l as [|y l IH]; intros i j H; [destruct j; discriminate|].
  destruct j as [|j]; simpl in *.
  - injection H as ->. left. rewrite Nat.add_0_r. reflexivity.
  - right. rewrite Nat.add_succ_r. apply (IH (S i)). exact H.
Qed.

(** the match arms, struct field by struct field *)
Definition desc_arms (i : nat) (d : sdesc) : list (Z * (nat * action)) :=
  match d with
  | SdField f => [(field_tag f, (i, field_arm f))]
  | SdOneof vs => map (fun '(j, f) => (field_tag f, (i, AOneof j (read_fn (f_typ f))))) (number_from 0 vs)
  end.

Lemma match_arms_descs c msg :
  match_arms c msg = flat_map (fun '(i, d) => desc_arms i d) (number_from 0 (descs c msg)).
Proof.
  unfold match_arms, descs. rewrite number_from_app, flat_map_app, !number_from_map, map_length. f_equal.
  - generalize 0%nat. induction (visible_fields c msg) as [|f l IH]; intros i; simpl; [reflexivity|].
    rewrite IH. reflexivity.
  - cbn [Nat.add]. generalize (length (visible_fields c msg)).
    induction (m_oneofs msg) as [|o l IH]; intros i; simpl; [reflexivity|]. rewrite IH. reflexivity.
Qed.

Lemma desc_arms_tags i d : map fst (desc_arms i d) = map field_tag (desc_fields d).
Proof.
  destruct d as [f|vs]; [reflexivity|]. simpl. rewrite map_map. generalize 0%nat.
  induction vs as [|f vs IH]; intros j; simpl; [reflexivity|]. rewrite IH. reflexivity.
Qed.

Lemma arms_tags ds i :
  map fst (flat_map (fun '(i, d) => desc_arms i d) (number_from i ds)) = map field_tag (flat_map desc_fields ds).
Proof.
  revert i; induction ds as [|d ds IH]; intros i; simpl; [reflexivity|].
  rewrite !map_app, IH, desc_arms_tags. reflexivity.
Qed.

Lemma find_tag {A} (l : list (Z * A)) k x :
  NoDup (map fst l) -> In (k, x) l -> find (fun '(n, _) => n =? k) l = Some (k, x).
Proof.
  induction l as [|[n y] l IH]; intros Hn Hin; [contradiction|]. simpl in *. inversion Hn as [|? ? Hn1 Hn2]; subst.
  destruct Hin as [E|Hin].
  - injection E as -> ->. rewrite Z.eqb_refl. reflexivity.
  - destruct (Z.eqb_spec n k) as [->|]; [|apply IH; assumption].
    exfalso. apply Hn1. change k with (fst (k, x)). apply in_map. exact Hin.
Qed.

Lemma find_tag_none {A} (l : list (Z * A)) k :
  ~ In k (map fst l) -> find (fun '(n, _) => n =? k) l = None.
Proof.
  induction l as [|[n y] l IH]; intros H; [reflexivity|]. simpl in *.
  destruct (Z.eqb_spec n k); [tauto|]. apply IH. tauto.
Qed.

Lemma set_nth_app {A} (a : list A) x y b : set_nth (length a) y (a ++ x :: b) = a ++ y :: b.
Proof. induction a as [|z a IH]; simpl; [reflexivity|]. rewrite IH. reflexivity. Qed.

Lemma nth_app_len {A} (a : list A) x b : nth_error (a ++ x :: b) (length a) = Some x.
Proof. induction a; simpl; auto. Qed.

Lemma reads_rmap {A B} t (f : A -> B) m enc v : reads t m enc v -> reads t (rmap f m) enc (f v).
Proof. intros R pre post e H1 H2. unfold rmap. erewrite bind_ok by (apply R; assumption). reflexivity. Qed.

Lemma enc_len_gt b : zlen b < 2 ^ 64 -> (length b < length (enc_len b))%nat.
Proof.
  intros H. pose proof (zlen_nonneg b). pose proof (enc_varint_nonempty (zlen b) ltac:(lia)) as N.
  unfold enc_len. rewrite app_length. unfold zlen at 1 in N. lia.
Qed.

Lemma plain_eq_true a b : plain_eq a b = true -> a = b.
Proof.
  destruct a, b; cbn; try discriminate.
  - intros H. f_equal. lia.
  - intros H. f_equal. apply eqb_prop. exact H.
  - intros H. f_equal. revert b0 H; induction b as [|x b IHb]; intros [|y b0]; cbn; try discriminate; auto.
    intros H. apply andb_prop in H. destruct H as [H1 H2]. apply Byte.byte_dec_bl in H1. subst. f_equal. auto.
Qed.

Lemma map_insert_new k v l : ~ In k (map fst l) -> map_insert k v l = l ++ [(k, v)].
Proof.
  induction l as [|[k' v'] l IHl]; intros H; [reflexivity|]. cbn [map_insert]. simpl in H.
  destruct (plain_eq k k') eqn:E; [apply plain_eq_true in E; subst; tauto|].
  rewrite IHl by tauto. reflexivity.
Qed.

(** ** The loop *)
Definition steps (t : target) (step : Z -> list slot -> rd (list slot)) (ss : list slot) (enc : bytes) (ss' : list slot) : Prop :=
  exists n, (n <= length enc)%nat /\
  forall bs s e fuel, here bs s enc -> buf_ok t bs -> s + zlen enc <= e ->
    msg_loop (n + fuel) step ss bs (mkR s e) = msg_loop fuel step ss' bs (mkR (s + zlen enc) e).

Lemma steps_nil t step ss : steps t step ss [] ss.
Proof. exists 0%nat. split; [simpl; lia|]. intros. rewrite zlen_nil, Z.add_0_r. reflexivity. Qed.

Lemma steps_app t step a x b y d : steps t step a x b -> steps t step b y d -> steps t step a (x ++ y) d.
Proof.
  intros (n & Hn & H1) (k & Hk & H2). exists (n + k)%nat. rewrite app_length. split; [lia|].
  intros bs s e fuel Hh Hb He. rewrite zlen_app in *. pose proof (zlen_nonneg y).
  apply here_app in Hh. destruct Hh as [Ha Hc].
  rewrite <- Nat.add_assoc, H1 by (assumption || lia). rewrite H2 by (assumption || lia).
  rewrite Z.add_assoc. reflexivity.
Qed.

Lemma steps_one t step tag ss payload ss' : is_u 32 tag ->
  reads t (step tag ss) payload ss' -> steps t step ss (enc_varint tag ++ payload) ss'.
Proof.
  unfold is_u. intros Ht R. exists 1%nat.
  pose proof (enc_varint_nonempty tag ltac:(lia)) as N.
  split; [rewrite app_length; unfold zlen in N; lia|].
  intros bs s e fuel Hh Hb He. rewrite zlen_app in *. pose proof (zlen_nonneg payload).
  apply here_app in Hh. destruct Hh as [Ha Hc].
  cbn [Nat.add msg_loop]. unfold bind at 1, is_eof. cbn [r_start r_end].
  destruct (Z.eqb_spec s e); [lia|].
  unfold next_tag. erewrite bind_ok by (eapply here_reads_any; [apply (reads_varint32 tag); lia|exact Ha]).
  rewrite Z.mod_small by lia.
  erewrite bind_ok by (eapply here_reads; [exact R|exact Hc|exact Hb|lia]).
  rewrite Z.add_assoc. reflexivity.
Qed.

Lemma steps_window t step ss enc ss' fuel : steps t step ss enc ss' -> (length enc < fuel)%nat ->
  reads_window t (msg_loop fuel step ss) enc ss'.
Proof.
  intros (n & Hn & H) Hf pre post Hb. exists (zlen pre + zlen enc).
  replace fuel with (n + S (fuel - n - 1))%nat by lia.
  rewrite H; [|apply here_intro|exact Hb|lia].
  cbn [msg_loop]. unfold bind, is_eof. cbn [r_start r_end]. rewrite Z.eqb_refl. reflexivity.
Qed.

Section Read.
Variable D : file_descriptor.
Variable c : config.
Variable lit : field_type -> text -> option value.
Variable t : target.
Notation val_ok := (val_ok D c).
Notation slot_ok := (slot_ok D c).
Notation enc_value := (enc_value D c lit).
Notation enc_slot := (enc_slot D c lit).
Notation enc_slots := (enc_slots D c lit).
Notation canon_value := (canon_value D c lit).
Notation canon_slot := (canon_slot D c lit).
Hypothesis WF : schema_wf D c lit.

(** ** Defaults *)
Definition blank (ty : slot_type) (s : slot) : Prop :=
  match ty with
  | TyOption _ | TyOptionBox _ => s = SlNone
  | TyVec _ => s = SlVec []
  | TyMap _ _ => s = SlMap []
  | TyOneof _ => s = SlOneofNone
  | TyPackedFixed _ => s = SlPF NoDataYet \/ s = SlPF (Owned [])
  | TyPlain _ => exists v, s = SlOne v
  | _ => True
  end.

Lemma all_some_map {A B} (f : A -> option B) l r : all_some (map f l) = Some r ->
  Forall2 (fun x y => f x = Some y) l r.
Proof.
  revert r; induction l as [|x l IH]; simpl; intros r H; [injection H as <-; constructor|].
  destruct (f x) as [y|] eqn:E; [|discriminate].
  destruct (all_some (map f l)) as [r'|] eqn:E2; [|discriminate]. injection H as <-.
  constructor; [assumption|]. apply IH. reflexivity.
Qed.

Definition sd_init (b : bool) (d : sdesc) : default_init :=
  if b then match d with SdField f => IExpr (get_field_default c f) | SdOneof _ => IOneofNone end
  else IDerived (sd_type c d).

Lemma default_inits_descs syn msg :
  default_inits syn c msg = map (sd_init (message_must_generate_impl_default syn c msg)) (descs c msg).
Proof.
  unfold default_inits, sd_init. destruct (message_must_generate_impl_default syn c msg).
  - unfold descs. rewrite map_app, !map_map. reflexivity.
  - rewrite struct_def_descs, map_map. reflexivity.
Qed.

Lemma init_blank dm b d s : desc_ok D c lit d -> init_slot D lit dm (sd_init b d) = Some s -> blank (sd_type c d) s.
Proof.
  intros Hd H. unfold sd_init in H. destruct b.
  - destruct d as [f|vs]; [|injection H as <-; reflexivity].
    cbn [init_slot sd_type desc_ok] in *.
    unfold get_field_default, get_type, generated_type_of in *.
    destruct Hd as (O1 & O2 & O3 & _).
    destruct (f_boxed f).
    { specialize (O1 eq_refl). destruct (f_freq f); try discriminate O1; cbn in H; injection H as <-; reflexivity. }
    destruct (f_freq f); cbn [freq_is_map freq_is_repeated freq_is_optional] in *;
      try (destruct (f_is_packed f && is_fixed_size (f_typ f) && negb (c_dont_use_cow c)); cbn in H; injection H as <-; cbn; auto; fail);
      try (cbn in H; injection H as <-; reflexivity);
      try (cbn in H; injection H as <-; destruct (f_typ f); cbn; auto; fail).
    all: cbn [blank].
    all: destruct (f_default f) as [x|]; [cbn in H; destruct (lit (f_typ f) x); [injection H as <-; eauto|discriminate H]|].
    all: destruct (f_typ f); try discriminate H; cbn in H; try (injection H as <-; eauto).
    all: destruct (dm m); [injection H as <-; eauto|discriminate H].
  - cbn [init_slot] in H. destruct (sd_type c d); cbn in H |- *; try (injection H as <-; auto; fail).
    + destruct (type_default D dm t0); [injection H as <-; eauto|discriminate H].
    + discriminate H.
Qed.

Lemma message_default_blank m msg d : get_message D m = Some msg -> message_default D c lit m = Some d ->
  Forall2 (fun ds s => blank (sd_type c ds) s) (descs c msg) d.
Proof.
  intros G H. unfold message_default in H. destruct (default_depth D) as [|n] eqn:Dd; [discriminate|].
  cbn [default_msg] in H. rewrite G in H. rewrite default_inits_descs, map_map in H.
  apply all_some_map in H. destruct (WF m msg G) as [W _ _]. clear -W H.
  revert W; induction H as [|x y l l' H1 H2 IH]; intros W; constructor; inversion W; subst.
  - eapply init_blank; eassumption.
  - apply IH. assumption.
Qed.

Lemma type_default_some ty : typ_ok D ty -> exists w, type_default D (message_default D c lit) ty = Some w.
Proof.
  intros H. destruct ty; cbn [type_default typ_ok] in *; try contradiction; eauto.
  destruct (get_message D m) as [msg|] eqn:G; [|congruence].
  destruct (WF m msg G) as [_ _ W]. destruct (message_default D c lit m); [cbn; eauto|congruence].
Qed.

(** ** Values *)

(** what the recursion provides for nested messages *)
Definition reads_messages (n : nat) : Prop :=
  forall m msg ss, get_message D m = Some msg -> message_ok D c m ss ->
    (length (enc_message D c lit m ss) < n)%nat -> zlen (enc_message D c lit m ss) < 2 ^ 32 ->
    reads_window t (from_reader D c lit t n m) (enc_message D c lit m ss) (canon_message D c lit m ss).

Lemma codec_reads {A} (w : wprog) (r : rd A) size v enc : codec t w r size v -> emits w enc -> reads t r enc v.
Proof. intros (enc' & H & R & _) E. rewrite (emits_det _ _ _ E H). exact R. Qed.

Lemma enum_from_declared e z en : get_enum D e = Some en -> In z (map snd (en_fields en)) -> enum_from_i32 D e z = z.
Proof.
  intros G H. unfold enum_from_i32. rewrite G.
  destruct (find (fun '(_, y) => z =? y) (en_fields en)) as [[nm y]|] eqn:F.
  - apply find_some in F. destruct F as [_ F]. lia.
  - exfalso. apply in_map_iff in H. destruct H as ([nm y] & <- & H).
    apply (find_none _ _ F) in H. cbn in H. lia.
Qed.

Lemma read_value_ok n v ty : reads_messages n -> typ_ok D ty -> val_ok ty v ->
  (length (enc_value ty v) <= n)%nat -> zlen (enc_value ty v) < 2 ^ 32 ->
  reads t (read_value D t (from_reader D c lit t n) (read_fn ty)) (enc_value ty v) (canon_value ty v) /\ enc_value ty v <> [].
Proof.
  intros IH Ht Hv Hn H32. destruct v as [z|b|b|ss].
  - (* numbers *)
    assert (E : emits (value_write D c lit (write_fn ty) (VZ z)) (enc_value ty (VZ z))).
    { apply scalar_emit; [assumption|assumption|lia]. }
    replace (canon_value ty (VZ z)) with (VZ z) by reflexivity.
    assert (X : forall w (r : rd Z) size, codec t w r size z -> emits w (enc_value ty (VZ z)) ->
       reads t (rmap VZ r) (enc_value ty (VZ z)) (VZ z) /\ enc_value ty (VZ z) <> []).
    { intros w r size C Ew. split; [apply reads_rmap; eapply codec_reads; eassumption|].
      destruct C as (enc' & E' & _ & _ & N). rewrite (emits_det _ _ _ Ew E'). exact N. }
    destruct ty; cbn in Hv; try contradiction; cbn [read_fn read_value read_scalar];
      cbn [write_fn GenSem.value_write write_scalar] in E;
      try (eapply X; [first [apply codec_int32|apply codec_int64|apply codec_uint32|apply codec_uint64|apply codec_sint32
           |apply codec_sint64|apply codec_fixed64|apply codec_sfixed64|apply codec_double|apply codec_fixed32|apply codec_sfixed32|apply codec_float]; exact Hv|exact E]).
    destruct Hv as [Hr Hin]. destruct (get_enum D e) as [en|] eqn:G; [|contradiction].
    rewrite wrapS_small in E by (lia || exact Hr).
    rewrite <- (enum_from_declared e z en G Hin) at 2.
    pose proof (codec_enum t (enum_from_i32 D e) z Hr) as C.
    split; [apply reads_rmap; eapply codec_reads; [exact C|exact E]|].
    destruct C as (enc' & E' & _ & _ & N). rewrite (emits_det _ _ _ E E'). exact N.
  - (* bools *)
    cbn in Hv. subst ty. cbn [read_fn read_value read_scalar].
    destruct (codec_bool t b) as (enc & E1 & E2 & _ & N).
    assert (enc = [zb (if b then 1 else 0)]) as ->.
    { eapply emits_det; [exact E1|]. apply (emits_op (OpU8 _)); discriminate. }
    split; [apply (reads_rmap t VBool _ _ _ E2)|discriminate].
  - (* strings and bytes *)
    assert (N : enc_value ty (VB b) <> []).
    { cbn [GenSpec.enc_value]. apply nonempty_zlen. unfold enc_len. rewrite zlen_app.
      pose proof (zlen_nonneg b). cbn [GenSpec.enc_value] in H32. pose proof (enc_len_ge b).
      pose proof (enc_varint_nonempty (zlen b) ltac:(lia)). lia. }
    split; [|exact N].
    cbn [GenSpec.enc_value] in *. pose proof (enc_len_ge b).
    destruct ty; cbn in Hv; try contradiction; cbn [read_fn read_value];
      replace (GenSpec.canon_value D c lit _ (VB b)) with (VB b) by reflexivity; apply reads_rmap;
      first [apply reads_bytes; lia | apply reads_string; [lia|apply utf8_valid_iff, Hv]].
  - (* messages *)
    destruct ty; try contradiction Hv. rewrite val_ok_msg in Hv. cbn [typ_ok] in Ht.
    destruct (get_message D m) as [msg|] eqn:G; [|congruence].
    rewrite (enc_value_msg D c lit _ _ _ G) in *. rewrite canon_value_msg.
    cbn [read_fn read_value].
    assert (L : zlen (enc_message D c lit m ss) < 2 ^ 32) by (pose proof (enc_len_ge (enc_message D c lit m ss)); lia).
    pose proof (zlen_nonneg (enc_message D c lit m ss)).
    pose proof (enc_varint_nonempty (zlen (enc_message D c lit m ss)) ltac:(lia)) as N.
    assert (L2 : (length (enc_message D c lit m ss) < n)%nat).
    { pose proof (enc_len_gt (enc_message D c lit m ss) ltac:(lia)). lia. }
    split.
    + apply reads_rmap. apply reads_len_varint; [exact L|]. apply (IH m msg ss G Hv L2 L).
    + apply nonempty_zlen. unfold enc_len. rewrite zlen_app. lia.
Qed.

(** ** Struct fields *)
Section Step.
Variables (m : midx) (msg : message) (n : nat).
Hypothesis G : get_message D m = Some msg.
Hypothesis IH : reads_messages n.
Let step := run_field D c lit t n (from_reader D c lit t n) (match_arms c msg).

Lemma find_arm i d a f : nth_error (descs c msg) i = Some d -> In (field_tag f, (i, a)) (desc_arms i d) ->
  find (fun '(k, _) => k =? field_tag f) (match_arms c msg) = Some (field_tag f, (i, a)).
Proof.
  intros N Hin. destruct (WF m msg G) as [_ W _]. apply find_tag.
  - rewrite match_arms_descs, arms_tags. exact W.
  - rewrite match_arms_descs. apply in_flat_map. exists (i, d). split; [|exact Hin].
    apply (number_from_nth _ 0 i d N).
Qed.

Lemma step_reads i d a f done cur rest payload new :
  nth_error (descs c msg) i = Some d -> In (field_tag f, (i, a)) (desc_arms i d) -> length done = i ->
  reads t (run_action D c lit t n (from_reader D c lit t n) a cur) payload new ->
  steps t step (done ++ cur :: rest) (enc_key f ++ payload) (done ++ new :: rest).
Proof.
  intros N Hin <- R. apply steps_one; [apply field_tag_range|].
  unfold step, run_field. rewrite (find_arm _ _ _ _ N Hin), nth_app_len.
  rewrite <- (set_nth_app done cur new rest).
  apply (reads_rmap t (fun s' => set_nth (length done) s' (done ++ cur :: rest))). exact R.
Qed.

Lemma slot_steps i d done cur rest s :
  nth_error (descs c msg) i = Some d -> length done = i -> blank (sd_type c d) cur ->
  slot_ok (sd_type c d) s -> (length (enc_slot d s) <= n)%nat -> zlen (enc_slot d s) < 2 ^ 32 ->
  steps t step (done ++ cur :: rest) (enc_slot d s) (done ++ canon_slot d cur s :: rest).
Proof.
  intros N Hi Hb Ho Hl H32.
  assert (Hd : desc_ok D c lit d).
  { destruct (WF m msg G) as [W _ _]. rewrite Forall_forall in W. apply W. eapply nth_error_In; exact N. }
  destruct d as [f|vs].
  2:{ cbn [sd_type desc_ok] in *. rewrite slot_ok_eq in Ho. rewrite enc_slot_oneof_eq in *. rewrite canon_slot_oneof_eq.
      destruct s; try contradiction Ho.
      - cbn in Hb. subst cur. apply steps_nil.
      - destruct (nth_error vs variant) as [f|] eqn:Nv; [|contradiction Ho].
        rewrite Forall_forall in Hd. specialize (Hd f (nth_error_In _ _ Nv)).
        rewrite app_length in Hl. rewrite zlen_app in H32. pose proof (zlen_nonneg (enc_key f)).
        destruct (read_value_ok n v (f_typ f) IH Hd Ho) as [R _]; [lia|lia|].
        eapply step_reads; [exact N| |exact Hi|].
        + cbn [desc_arms]. apply in_map_iff. exists (variant, f). split; [reflexivity|].
          apply (number_from_nth vs 0 variant f Nv).
        + cbn [run_action]. apply (reads_rmap t (SlOneof variant)). exact R. }
  cbn [sd_type desc_ok] in *. rewrite slot_ok_eq in Ho. rewrite enc_slot_field_eq in *. rewrite canon_slot_field_eq.
  assert (ARM : In (field_tag f, (i, field_arm f)) (desc_arms i (SdField f))) by (left; reflexivity).
  destruct s as [v| |v|l|p|l| |j v]; try contradiction Ho;
    try (destruct (get_type c f) eqn:GT; try contradiction Ho; contradiction (get_type_oneof c f _ GT)).
  - (* plain *)
    destruct (get_type c f) as [| |ty| | | | |] eqn:GT; try contradiction Ho.
    destruct (get_type_plain D c lit f ty GT Hd) as (-> & Ht & F & Hbx).
    destruct (elided D c lit f v) eqn:E; [apply steps_nil|].
    rewrite app_length in Hl. rewrite zlen_app in H32. pose proof (zlen_nonneg (enc_key f)).
    destruct (read_value_ok n v (f_typ f) IH Ht Ho) as [R _]; [lia|lia|].
    eapply step_reads; [exact N|exact ARM|exact Hi|].
    unfold field_arm, generated_type_of. rewrite Hbx.
    destruct F as [-> | ->]; cbn [freq_is_map freq_is_repeated run_action]; apply reads_rmap; exact R.
  - (* none *)
    destruct (get_type c f) as [| |ty| | | | |] eqn:GT; try contradiction Ho; cbn in Hb; subst cur; apply steps_nil.
  - (* some *)
    rewrite app_length in Hl. rewrite zlen_app in H32. pose proof (zlen_nonneg (enc_key f)).
    assert (Hx : exists ty, (get_type c f = TyOption ty \/ get_type c f = TyOptionBox ty) /\ val_ok ty v).
    { destruct (get_type c f) as [ty|ty|ty| | | | |] eqn:GT; try contradiction Ho; exists ty; auto. }
    destruct Hx as (ty & GT & Hv). destruct (get_type_opt D c lit f ty GT Hd) as (-> & Ht & F1 & F2 & F3 & HP).
    destruct (read_value_ok n v (f_typ f) IH Ht Hv) as [R _]; [lia|lia|].
    eapply step_reads; [exact N|exact ARM|exact Hi|].
    unfold field_arm, generated_type_of.
    destruct (f_boxed f); [apply (reads_rmap t SlSome); exact R|].
    destruct (f_freq f); try discriminate F1; cbn [freq_is_map freq_is_repeated run_action]; apply reads_rmap; exact R.
  - (* vec *)
    destruct (get_type c f) as [| |ty| |ty| | |] eqn:GT; try contradiction Ho.
    destruct (get_type_vec D c lit f ty GT Hd) as (-> & Ht & F1 & F2 & Hbx & Hpf).
    cbn [blank] in Hb. subst cur. apply fold_right_Forall in Ho.
    destruct (f_is_packed f) eqn:Pk.
    + cbn [andb] in Hpf. destruct l as [|v0 l0] eqn:El; [apply steps_nil|]. rewrite <- El in *.
      rewrite app_length in Hl. rewrite zlen_app in H32. pose proof (zlen_nonneg (enc_key f)).
      set (body := flat_map (enc_value (f_typ f)) l) in *. pose proof (enc_len_ge body).
      assert (Hlb : (length body <= length (enc_len body))%nat) by (unfold enc_len; rewrite app_length; lia).
      assert (RA : forall v, In v l -> reads t (read_value D t (from_reader D c lit t n) (read_fn (f_typ f))) (enc_value (f_typ f) v) (canon_value (f_typ f) v)
                   /\ enc_value (f_typ f) v <> []).
      { intros v Hin. rewrite Forall_forall in Ho. pose proof (flat_map_in_len (enc_value (f_typ f)) l v Hin) as HL.
        fold body in HL. apply read_value_ok; auto; unfold zlen in *; lia. }
      assert (LL : (length l <= length body)%nat).
      { unfold body. clear -RA. induction l as [|x l IHl]; [simpl; lia|]. cbn [flat_map]. rewrite app_length.
        destruct (RA x (or_introl eq_refl)) as [_ Ne]. specialize (IHl (fun v H => RA v (or_intror H))).
        destruct (enc_value (f_typ f) x); [congruence|]. simpl in *. lia. }
      eapply step_reads; [exact N|exact ARM|exact Hi|].
      unfold field_arm, generated_type_of. rewrite Hbx, F1, F2, Pk, Hpf. cbn [run_action].
      apply (reads_rmap t SlVec). unfold body.
      (* read_packed of the decoded elements *)
      set (m' := read_value D t (from_reader D c lit t n) (read_fn (f_typ f))) in *.
      assert (Hp : forall fuel acc bs s l, (forall v, In v l -> reads t m' (enc_value (f_typ f) v) (canon_value (f_typ f) v) /\ enc_value (f_typ f) v <> []) ->
         (length l < fuel)%nat -> here bs s (flat_map (enc_value (f_typ f)) l) -> buf_ok t bs ->
         packed_loop fuel m' acc bs (mkR s (s + zlen (flat_map (enc_value (f_typ f)) l)))
         = (Ok (rev acc ++ map (canon_value (f_typ f)) l), mkR (s + zlen (flat_map (enc_value (f_typ f)) l)) (s + zlen (flat_map (enc_value (f_typ f)) l)))).
      { clear. intros fuel acc bs s l. revert fuel acc s. induction l as [|x l IHl]; intros fuel acc s Hx Hf Hh Hb;
          destruct fuel as [|fuel]; try (simpl in Hf; lia).
        - simpl flat_map. rewrite zlen_nil, Z.add_0_r. cbn [packed_loop].
          unfold bind, is_eof. cbn [r_start r_end]. rewrite Z.eqb_refl. simpl map. rewrite app_nil_r. reflexivity.
        - simpl flat_map in *. rewrite zlen_app. destruct (Hx x (or_introl eq_refl)) as [R Ne].
          apply zlen_nonempty in Ne. pose proof (zlen_nonneg (flat_map (enc_value (f_typ f)) l)).
          apply here_app in Hh. destruct Hh as [H1 H2].
          cbn [packed_loop]. unfold bind at 1, is_eof. cbn [r_start r_end].
          match goal with |- context [s =? ?b] => destruct (Z.eqb_spec s b); [lia|] end.
          erewrite bind_ok by (eapply here_reads; [exact R|exact H1|exact Hb|lia]).
          rewrite Z.add_assoc.
          rewrite IHl; [|intros; apply Hx; right; assumption|simpl in Hf; lia|exact H2|exact Hb].
          simpl rev. rewrite <- app_assoc. reflexivity. }
      unfold read_packed. apply reads_len_varint; [fold body; lia|].
      intros pre post Hbf. eexists.
      rewrite Hp; [reflexivity|exact RA| |apply here_intro|exact Hbf].
      unfold enc_key in *. pose proof (field_tag_range f) as FR. unfold is_u in FR.
      pose proof (enc_varint_nonempty (field_tag f) ltac:(lia)). unfold zlen in *. lia.
    + (* unpacked *)
      assert (X : forall acc, steps t step (done ++ SlVec acc :: rest)
                     (flat_map (fun v => enc_key f ++ enc_value (f_typ f) v) l)
                     (done ++ SlVec (acc ++ map (canon_value (f_typ f)) l) :: rest)).
      { clear Hpf. induction Ho as [|v l Hv Hvs IHl]; intros acc.
        - simpl. rewrite app_nil_r. apply steps_nil.
        - cbn [flat_map] in *. rewrite !app_length in Hl. rewrite !zlen_app in H32.
          pose proof (zlen_nonneg (enc_key f)). pose proof (zlen_nonneg (enc_value (f_typ f) v)).
          pose proof (zlen_nonneg (flat_map (fun v => enc_key f ++ enc_value (f_typ f) v) l)).
          destruct (read_value_ok n v (f_typ f) IH Ht Hv) as [R _]; [lia|lia|].
          eapply steps_app.
          + eapply step_reads; [exact N|exact ARM|exact Hi|].
            unfold field_arm, generated_type_of. rewrite Hbx, F1, F2, Pk. cbn [run_action].
            apply (reads_rmap t (fun v => SlVec (acc ++ [v]))). exact R.
          + cbn [map]. replace (acc ++ canon_value (f_typ f) v :: map (canon_value (f_typ f)) l)
              with ((acc ++ [canon_value (f_typ f) v]) ++ map (canon_value (f_typ f)) l) by (rewrite <- app_assoc; reflexivity).
            apply IHl; lia. }
      apply (X []).
  - (* packed fixed *)
    destruct (get_type c f) as [| |ty|k|ty| | |] eqn:GT; try contradiction Ho.
    destruct (get_type_pf D c lit f k GT Hd) as (-> & F1 & F2 & Hbx & Pk & FS).
    destruct Ho as (l & R). rewrite (pf_raw_rep _ _ _ R) in *. rewrite (rep_empty _ _ _ R) in *.
    destruct l as [|x l'] eqn:El; [apply steps_nil|]. rewrite <- El in *.
    rewrite zlen_app in H32. pose proof (zlen_nonneg (enc_key f)).
    eapply step_reads; [exact N|exact ARM|exact Hi|].
    unfold field_arm, generated_type_of. rewrite Hbx, F1, F2, Pk, FS. cbn [run_action].
    apply (reads_rmap t SlPF). apply reads_packed_fixed; [apply R|].
    match goal with H : context [enc_len ?b] |- _ => pose proof (enc_len_ge b) as HL end.
    rewrite fk_flat_len in HL. lia.
  - (* map *)
    destruct (get_type c f) as [| |ty|k|ty|tk tv| |] eqn:GT; try contradiction Ho.
    destruct (get_type_map D c lit f tk tv GT Hd) as (T & Hk & Hv & F1 & Hbx).
    cbn [blank] in Hb. subst cur. destruct Ho as [Ho ND].
    apply (fold_right_Forall2 (fun k v => val_ok tk k /\ val_ok tv v)) in Ho. rewrite T in *.
    destruct (type_default_some tk (key_typ_ok D tk Hk)) as (kd & Kd).
    destruct (type_default_some tv Hv) as (vd & Vd).
    set (ent := fun kv : value * value => enc_key f ++ enc_len
        ((enc_varint (8 + wire_type_num_non_packed tk) ++ enc_value tk (fst kv)) ++
         (enc_varint (16 + wire_type_num_non_packed tv) ++ enc_value tv (snd kv)))).
    assert (FE : flat_map (fun '(k, v) => enc_key f ++ enc_len
        ((enc_varint (8 + wire_type_num_non_packed tk) ++ enc_value tk k) ++
         (enc_varint (16 + wire_type_num_non_packed tv) ++ enc_value tv v))) l = flat_map ent l).
    { apply flat_map_ext. intros [k v]. reflexivity. }
    rewrite FE in *. clear FE.
    assert (X : forall acc, NoDup (map fst acc ++ map fst l) ->
                   steps t step (done ++ SlMap acc :: rest) (flat_map ent l)
                     (done ++ SlMap (acc ++ map (fun '(k, v) => (k, canon_value tv v)) l) :: rest)).
    { clear ND. induction Ho as [|[k v] l [Hkv Hvv] Hvs IHl]; intros acc ND.
      - simpl. rewrite app_nil_r. apply steps_nil.
      - cbn [flat_map] in *. rewrite app_length in Hl. rewrite zlen_app in H32. cbn [fst snd] in *.
        pose proof (zlen_nonneg (ent (k, v))). pose proof (zlen_nonneg (flat_map ent l)).
        assert (NI : ~ In k (map fst acc)).
        { cbn [map fst] in ND. apply NoDup_remove_2 in ND. intros Hin. apply ND. apply in_or_app. left. exact Hin. }
        eapply steps_app.
        + eapply step_reads; [exact N|exact ARM|exact Hi|].
          unfold field_arm, generated_type_of. rewrite Hbx, F1, T. cbn [run_action]. rewrite Kd, Vd.
          apply (reads_rmap t (fun '(k, v) => SlMap (map_insert k v acc)) _ _ (k, canon_value tv v)).
          cbn [fst snd].
          pose proof (wire_type_range tk false) as W1. pose proof (wire_type_range tv false) as W2. unfold wire_type_num in W1, W2.
          match goal with |- reads _ _ (enc_len ?b) _ => set (body := b) end.
          assert (EK : ent (k, v) = enc_key f ++ enc_len body) by reflexivity.
          rewrite EK in Hl, H32. rewrite app_length in Hl. rewrite zlen_app in H32.
          pose proof (enc_len_ge body). pose proof (zlen_nonneg (enc_key f)).
          assert (Hlb : (length body <= length (enc_len body))%nat) by (unfold enc_len; rewrite app_length; lia).
          assert (HB : body = flat_map item_bytes [MKey (zb (8 + wire_type_num_non_packed tk)) k (enc_value tk k);
                                  MVal (zb (16 + wire_type_num_non_packed tv)) (canon_value tv v) (enc_value tv v)]).
          { unfold body. rewrite !enc_varint_byte by lia. cbn [flat_map item_bytes]. rewrite app_nil_r. reflexivity. }
          assert (LB : zlen body = 2 + zlen (enc_value tk k) + zlen (enc_value tv v)).
          { rewrite HB. cbn [flat_map item_bytes]. rewrite app_nil_r, zlen_app, !zlen_cons. lia. }
          assert (LN : length body = (2 + length (enc_value tk k) + length (enc_value tv v))%nat) by (unfold zlen in LB; lia).
          pose proof (zlen_nonneg (enc_value tk k)). pose proof (zlen_nonneg (enc_value tv v)).
          pose proof (enc_len_gt body ltac:(lia)) as GT2.
          assert (GT3 : (1 <= length (enc_key f))%nat).
          { pose proof (field_tag_range f) as FR. unfold is_u in FR.
            pose proof (enc_varint_nonempty (field_tag f) ltac:(lia)) as Ne. unfold enc_key, zlen in *. lia. }
          destruct (read_value_ok n k tk IH (key_typ_ok D tk Hk) Hkv) as [Rk _]; [lia|lia|].
          destruct (read_value_ok n v tv IH Hv Hvv) as [Rv _]; [lia|lia|].
          replace (canon_value tk k) with k in Rk
            by (destruct k; try reflexivity; destruct tk; try reflexivity; contradiction Hk).
          rewrite HB.
          apply (reads_map_items t n kd vd _ _ [MKey (zb (8 + wire_type_num_non_packed tk)) k (enc_value tk k);
                                  MVal (zb (16 + wire_type_num_non_packed tv)) (canon_value tv v) (enc_value tv v)]).
          * constructor; [|constructor; [|constructor]]; cbn [item_ok]; rewrite bz_zb; (split; [|assumption]).
            -- rewrite Z.mod_small by lia. symmetry. apply (Z.div_unique _ _ _ (wire_type_num_non_packed tk)); lia.
            -- rewrite Z.mod_small by lia. symmetry. apply (Z.div_unique _ _ _ (wire_type_num_non_packed tv)); lia.
          * cbn [length]. lia.
          * rewrite <- HB. lia.
        + cbn beta iota. rewrite map_insert_new by exact NI. cbn [map].
          replace (acc ++ (k, canon_value tv v) :: map (fun '(k, v) => (k, canon_value tv v)) l)
            with ((acc ++ [(k, canon_value tv v)]) ++ map (fun '(k, v) => (k, canon_value tv v)) l)
            by (rewrite <- app_assoc; reflexivity).
          apply IHl; [lia|lia|]. rewrite map_app. cbn [map fst] in *. rewrite <- app_assoc. exact ND. }
    apply (X []). exact ND.
Qed.

Lemma slots_steps ds ss : forall done df,
  descs c msg = done ++ ds -> forall dn, length dn = length done ->
  Forall2 (fun d s => blank (sd_type c d) s) ds df ->
  slots_ok D c (map (sd_type c) ds) ss ->
  (length (enc_slots ds ss) <= n)%nat -> zlen (enc_slots ds ss) < 2 ^ 32 ->
  steps t step (dn ++ df) (enc_slots ds ss) (dn ++ canon_slots D c lit ds df ss).
Proof.
  revert ds; induction ss as [|s ss IHs]; intros ds done df E dn Hdn Hb Ho Hl H32; destruct ds as [|d ds]; try contradiction Ho.
  - inversion Hb; subst. apply steps_nil.
  - inversion Hb as [|? cur ? df' Hb1 Hb2]; subst. cbn [map slots_ok] in Ho. destruct Ho as [Ho1 Ho2].
    cbn [GenSpec.enc_slots GenSpec.canon_slots] in *. rewrite app_length in Hl. rewrite zlen_app in H32.
    pose proof (zlen_nonneg (enc_slot d s)). pose proof (zlen_nonneg (enc_slots ds ss)).
    eapply steps_app.
    + eapply (slot_steps (length done)).
      * rewrite E. apply nth_app_len.
      * exact Hdn.
      * exact Hb1.
      * exact Ho1.
      * lia.
      * lia.
    + specialize (IHs ds (done ++ [d]) df'). rewrite <- app_assoc in IHs. specialize (IHs E (dn ++ [canon_slot d cur s])).
      rewrite !app_length in IHs. cbn [length] in IHs. specialize (IHs ltac:(lia) Hb2 Ho2).
      rewrite <- !app_assoc in IHs. cbn [app] in IHs. apply IHs; lia.
Qed.
End Step.

Theorem from_reader_ok n : reads_messages n.
Proof.
  induction n as [|n IH]; intros m msg ss G Ho Hl H32; [lia|].
  destruct (WF m msg G) as [W1 W2 W3].
  destruct (message_default D c lit m) as [df|] eqn:Df; [|congruence].
  pose proof (message_default_blank m msg df G Df) as Hb.
  unfold enc_message, canon_message, message_ok in *. cbn [from_reader]. rewrite G, Df in *.
  rewrite struct_def_descs in Ho.
  destruct (is_unit msg) eqn:U.
  - rewrite (is_unit_descs c msg U) in *. destruct ss; [|contradiction Ho]. inversion Hb; subst.
    intros pre post Hbf. eexists. reflexivity.
  - apply steps_window; [|lia].
    apply (slots_steps m msg n G IH (descs c msg) ss [] df eq_refl [] eq_refl Hb Ho); [lia|lia].
Qed.

End Read.
