(** Truncated encodings are rejected: every read of an encoding of which only
    a strict prefix is in the buffer fails. *)
From Coq Require Import ZifyBool ZifyNat ZifyN.
From Verif Require Import Base BaseFacts Utf8 Reader PackedFixed Writer Sizeofs Spec VarintFacts
  WriterFacts ScalarFacts DelimFacts Utf8Facts PackedFixedFacts ExactFacts SimFacts Schema Gen GenSem GenSpec GenEmit GenRead GenEnc GenType.

(** only a strict prefix of [enc] stands at [s], at the end of the buffer *)
Definition cuthere (bs : bytes) (s : Z) (enc : bytes) : Prop :=
  exists pre cut rest, bs = pre ++ cut /\ s = zlen pre /\ enc = cut ++ rest /\ rest <> [].

Lemma cuthere_nil bs s : ~ cuthere bs s [].
Proof. intros (pre & cut & rest & _ & _ & E & N). symmetry in E. apply app_eq_nil in E. tauto. Qed.
Lemma cuthere_nonneg bs s l : cuthere bs s l -> 0 <= s.
Proof. intros (pre & cut & rest & _ & -> & _). apply zlen_nonneg. Qed.
Lemma cuthere_len bs s l : cuthere bs s l -> s <= zlen bs < s + zlen l.
Proof.
  intros (pre & cut & rest & -> & -> & -> & N). rewrite !zlen_app. apply zlen_nonempty in N. pose proof (zlen_nonneg cut). lia.
Qed.
Lemma cuthere_app bs s a b : cuthere bs s (a ++ b) -> cuthere bs s a \/ (here bs s a /\ cuthere bs (s + zlen a) b).
Proof.
  intros (pre & cut & rest & -> & -> & E & N). apply app_eq_app in E. destruct E as (l & [[-> ->]|[-> ->]]).
  - destruct l as [|x l].
    + right. rewrite app_nil_r. split; [exists pre, []; rewrite app_nil_r; auto|].
      exists (pre ++ cut), [], b. rewrite !app_nil_r, zlen_app. auto.
    + left. exists pre, cut, (x :: l). repeat split. discriminate.
  - right. split; [exists pre, l; auto|]. exists (pre ++ a), l, rest. rewrite <- app_assoc, zlen_app. auto.
Qed.

(** the read fails; [pa] says whether by a panic *)
Definition bad {A} (pa : Prop) (o : outcome A) : Prop :=
  match o with Err _ => True | Panic => pa | _ => False end.

Section Cut.
Variable pa : Prop.
Variable t : target.

Definition cuts {A} (m : rd A) (enc : bytes) : Prop :=
  forall bs s e, cuthere bs s enc -> s + zlen enc < usize_mod t / 2 -> s + zlen enc <= e -> e < usize_mod t -> bad pa (fst (m bs (mkR s e))).
(** the same with the window ending after [body] *)
Definition cuts_window {A} (m : rd A) (body : bytes) : Prop :=
  forall bs s, cuthere bs s body -> s + zlen body < usize_mod t / 2 -> bad pa (fst (m bs (mkR s (s + zlen body)))).

Lemma bad_bind {A B} (m : rd A) (f : A -> rd B) bs r : bad pa (fst (m bs r)) -> bad pa (fst (bind m f bs r)).
Proof. unfold bind. destruct (m bs r) as [[] ?]; cbn; intros H; try exact H; contradiction. Qed.
Lemma cuts_rmap {A B} (f : A -> B) m enc : cuts m enc -> cuts (rmap f m) enc.
Proof. intros H bs s e H1 H2 H3 H4. apply bad_bind. apply H; assumption. Qed.
Lemma cut_buf bs s enc : cuthere bs s enc -> s + zlen enc < usize_mod t / 2 -> buf_ok t bs.
Proof. intros H L. apply cuthere_len in H. unfold buf_ok. lia. Qed.
Lemma half_le : usize_mod t / 2 <= usize_mod t.
Proof. pose proof (usize_mod_ge t). apply Z.div_le_upper_bound; lia. Qed.

Lemma varint_cut l a b : is_varint l -> l = a ++ b -> b <> [] -> all_cont a.
Proof.
  intros H. revert a; induction H as [x Hx|x l Hx H IH]; intros a E N.
  - destruct a as [|y a]; [constructor|]. injection E as <- E. symmetry in E. apply app_eq_nil in E. tauto.
  - destruct a as [|y a]; [constructor|]. injection E as <- E. constructor; [exact Hx|apply (IH a E N)].
Qed.
Lemma cut_varint v bs s : 0 <= v < 2 ^ 64 -> cuthere bs s (enc_varint v) ->
  exists l, here bs s l /\ all_cont l /\ (length l < 10)%nat /\ s + zlen l = zlen bs.
Proof.
  intros Hv (pre & cut & rest & -> & -> & E & N). destruct (enc_varint_rec v Hv) as (I & L & _).
  exists cut. split; [exists pre, []; rewrite app_nil_r; auto|]. split; [eapply varint_cut; eassumption|].
  rewrite E, app_length in L. destruct rest; [congruence|]. cbn [length] in L. rewrite zlen_app. split; [lia|reflexivity].
Qed.
Lemma cuts_varint32 v : 0 <= v < 2 ^ 64 -> cuts read_varint32 (enc_varint v).
Proof.
  intros Hv bs s e H _ _ _. destruct (cut_varint v bs s Hv H) as (l & H1 & H2 & H3 & H4).
  rewrite (read_varint32_eob bs s e l H1 H2 H3 H4). exact I.
Qed.
Lemma cuts_varint64 v : 0 <= v < 2 ^ 64 -> cuts read_varint64 (enc_varint v).
Proof.
  intros Hv bs s e H _ _ _. destruct (cut_varint v bs s Hv H) as (l & H1 & H2 & H3 & H4).
  rewrite (read_varint64_eob bs s e l H1 H2 H3 H4). exact I.
Qed.
Lemma cuts_fixed {M} n (f : bytes -> M) enc : zlen enc = n -> cuts (read_fixed t n f) enc.
Proof.
  intros <- bs s e H L _ _. pose proof (cuthere_len _ _ _ H). pose proof (cuthere_nonneg _ _ _ H). pose proof half_le. pose proof (zlen_nonneg enc).
  unfold read_fixed. unfold bind at 1, get_start at 1. cbn [r_start]. unfold bind at 1, lift at 1. rewrite uadd_ok by lia.
  unfold bind at 1, get_or_eob. unfold slice. destruct (Z.leb_spec (s + zlen enc) (zlen bs)); [lia|]. rewrite andb_false_r. exact I.
Qed.

Lemma cuts_len_varint {A} (m : rd A) body : zlen body < 2 ^ 32 -> cuts_window m body -> cuts (read_len_varint t m) (enc_len body).
Proof.
  intros H32 W bs s e H L He Hu. pose proof (zlen_nonneg body). unfold enc_len in *. rewrite zlen_app in *. unfold read_len_varint.
  destruct (cuthere_app _ _ _ _ H) as [H1|[H1 H2]].
  - apply bad_bind. apply (cuts_varint32 (zlen body)); [lia|exact H1|lia..].
  - erewrite bind_ok by (eapply here_reads_any; [apply (reads_varint32 (zlen body)); lia|exact H1]).
    rewrite Z.mod_small by lia. pose proof (cuthere_nonneg _ _ _ H2). pose proof half_le.
    unfold read_len. unfold bind at 1, get_end at 1. cbn [r_end]. unfold bind at 1, get_start at 1. cbn [r_start].
    unfold bind at 1, lift at 1. rewrite uadd_ok by lia. unfold bind at 1, set_end at 1. cbn [r_start].
    apply bad_bind. apply W; [exact H2|lia].
Qed.
Lemma slice_cut bs s body : cuthere bs s body -> slice bs s (s + zlen body) = None.
Proof. intros H. apply cuthere_len in H. unfold slice. destruct (Z.leb_spec (s + zlen body) (zlen bs)); [lia|]. rewrite andb_false_r. reflexivity. Qed.
Lemma cuts_bytes b : zlen b < 2 ^ 32 -> cuts (read_bytes t) (enc_len b).
Proof.
  intros H. apply cuts_len_varint; [exact H|]. intros bs s Hc _. unfold bind, get_start, get_end, get_or_eob. cbn [r_start r_end].
  rewrite (slice_cut _ _ _ Hc). exact I.
Qed.
Lemma cuts_string b : zlen b < 2 ^ 32 -> cuts (read_string t) (enc_len b).
Proof.
  intros H. apply cuts_len_varint; [exact H|]. intros bs s Hc _. unfold bind, get_start, get_end, get_or_eob. cbn [r_start r_end].
  rewrite (slice_cut _ _ _ Hc). exact I.
Qed.
(** read_packed_fixed panics *)
Lemma cuts_packed_fixed size body : pa -> 0 < size <= 8 -> zlen body mod size = 0 -> zlen body < 2 ^ 32 ->
  cuts (read_packed_fixed t size) (enc_len body).
Proof.
  intros HP Hs Hm H32 bs s e H L He Hu. pose proof (zlen_nonneg body). unfold enc_len in *. rewrite zlen_app in *. unfold read_packed_fixed.
  destruct (cuthere_app _ _ _ _ H) as [H1|[H1 H2]].
  - apply bad_bind. apply (cuts_varint32 (zlen body)); [lia|exact H1|lia..].
  - erewrite bind_ok by (eapply here_reads_any; [apply (reads_varint32 (zlen body)); lia|exact H1]).
    rewrite Z.mod_small by lia. pose proof (cuthere_nonneg _ _ _ H2). pose proof half_le.
    unfold bind at 1, rlen, bind at 1, get_start at 1, bind at 1, get_end at 1, lift at 1. cbn [r_start r_end].
    rewrite usub_ok by lia.
    destruct (Z.ltb_spec (e - (s + zlen (enc_varint (zlen body)))) (zlen body)); [lia|].
    unfold bind at 1, get_start at 1. cbn [r_start].
    assert (E : zlen body / size * size = zlen body)
      by (rewrite (Z.div_mod (zlen body) size) at 2 by lia; lia).
    rewrite E. unfold bind at 1, lift at 1. rewrite uadd_ok by lia.
    unfold bind at 1. rewrite (slice_cut _ _ _ H2). exact HP.
Qed.

(** *** Loops *)
Lemma cut_packed_loop {M} (read : rd M) (f : M -> bytes) (h : M -> M) l :
  (forall m, In m l -> reads t read (f m) (h m) /\ cuts read (f m) /\ f m <> []) ->
  forall fuel acc bs s, (length l < fuel)%nat -> cuthere bs s (flat_map f l) -> s + zlen (flat_map f l) < usize_mod t / 2 ->
  bad pa (fst (packed_loop fuel read acc bs (mkR s (s + zlen (flat_map f l))))).
Proof.
  induction l as [|m l IH]; intros Hl fuel acc bs s Hf H L; [destruct (cuthere_nil _ _ H)|].
  destruct fuel as [|fuel]; [simpl in Hf; lia|]. cbn [flat_map] in *. pose proof (cut_buf _ _ _ H L) as B. rewrite zlen_app in *.
  destruct (Hl m (or_introl eq_refl)) as (R & C & N). apply zlen_nonempty in N. pose proof (zlen_nonneg (flat_map f l)). pose proof half_le.
  cbn [packed_loop]. unfold bind at 1, is_eof. cbn [r_start r_end].
  destruct (Z.eqb_spec s (s + (zlen (f m) + zlen (flat_map f l)))); [lia|].
  destruct (cuthere_app _ _ _ _ H) as [K1|[K1 K2]].
  - apply bad_bind. apply C; [exact K1|lia..].
  - erewrite bind_ok by (eapply here_reads; [exact R|exact K1|exact B|lia]).
    rewrite Z.add_assoc. apply IH; [intros; apply Hl; right; assumption|simpl in Hf; lia|exact K2|lia].
Qed.
Definition item_cut {K V} (rk : rd K) (rv : rd V) (i : map_item K V) : Prop :=
  match i with MKey _ _ e => cuts rk e | MVal _ _ e => cuts rv e end.
Lemma cut_map_loop {K V} (rk : rd K) (rv : rd V) items :
  Forall (item_ok t rk rv) items -> Forall (item_cut rk rv) items ->
  forall fuel k v bs s, (length items < fuel)%nat -> cuthere bs s (flat_map item_bytes items) ->
  s + zlen (flat_map item_bytes items) < usize_mod t / 2 ->
  bad pa (fst (map_loop fuel rk rv k v bs (mkR s (s + zlen (flat_map item_bytes items))))).
Proof.
  induction items as [|i items IH]; intros Hi Hc fuel k v bs s Hf H L; [destruct (cuthere_nil _ _ H)|].
  destruct fuel as [|fuel]; [simpl in Hf; lia|]. cbn [flat_map] in *. pose proof (cut_buf _ _ _ H L) as B. rewrite zlen_app in *.
  inversion Hi as [|? ? Hi1 Hi2]; subst. inversion Hc as [|? ? Hc1 Hc2]; subst.
  pose proof (zlen_nonneg (flat_map item_bytes items)). pose proof half_le.
  assert (1 <= zlen (item_bytes i)) by (destruct i; simpl; rewrite zlen_cons;
      match goal with |- context [zlen ?x] => pose proof (zlen_nonneg x) end; lia).
  cbn [map_loop]. unfold bind at 1, is_eof. cbn [r_start r_end].
  destruct (Z.eqb_spec s (s + (zlen (item_bytes i) + zlen (flat_map item_bytes items)))); [lia|].
  destruct i as [b k' enc|b v' enc]; cbn [item_bytes item_ok item_cut] in *; destruct Hi1 as [Ht R];
    rewrite zlen_cons in *; pose proof (zlen_nonneg enc);
    (change (b :: enc) with ([b] ++ enc) in H; rewrite <- app_assoc in H;
     destruct (cuthere_app _ _ _ _ H) as [K1|[K1 K2]];
     [ apply bad_bind; unfold read_u8, bind, get_start, get_or_eob; cbn [r_start];
       assert (G : get bs s = None) by
         (destruct (get bs s) eqn:G; [|reflexivity]; apply get_here in G; apply here_bound in G; apply cuthere_len in K1;
          rewrite zlen_cons, zlen_nil in *; lia);
       rewrite G; exact I
     | erewrite bind_ok by (eapply read_u8_here; exact K1); rewrite zlen_cons, zlen_nil in K2; cbn zeta;
       rewrite Z.shiftr_div_pow2 by lia; change (2 ^ 3) with 8; rewrite Ht; cbn [Z.eqb Pos.eqb];
       destruct (cuthere_app _ _ _ _ K2) as [K3|[K3 K4]];
       [ apply bad_bind; apply Hc1; [replace (s + 1) with (s + (1 + 0)) by lia; exact K3|lia..]
       | replace (s + (1 + 0)) with (s + 1) in * by lia;
         (erewrite bind_ok by (eapply here_reads; [exact R|exact K3|exact B|lia]));
         replace (s + (1 + zlen enc + zlen (flat_map item_bytes items)))
           with (s + 1 + zlen enc + zlen (flat_map item_bytes items)) by lia;
         apply IH; [assumption|assumption|simpl in Hf; lia|exact K4|lia] ] ]).
Qed.

Definition cut_steps (step : Z -> list slot -> rd (list slot)) (ss : list slot) (enc : bytes) : Prop :=
  forall fuel bs s e, (length enc <= fuel)%nat -> cuthere bs s enc -> s + zlen enc < usize_mod t / 2 -> s + zlen enc <= e -> e < usize_mod t ->
  bad pa (fst (msg_loop fuel step ss bs (mkR s e))).
Lemma cut_steps_nil step ss : cut_steps step ss [].
Proof. intros fuel bs s e _ H. destruct (cuthere_nil _ _ H). Qed.
Lemma cut_steps_app step a x b y : steps t step a x b -> cut_steps step a x -> cut_steps step b y -> cut_steps step a (x ++ y).
Proof.
  intros (n & Hn & S) C1 C2 fuel bs s e Hf H L He Hu. pose proof (cut_buf _ _ _ H L) as B. rewrite app_length in Hf. rewrite zlen_app in *.
  pose proof (zlen_nonneg y). destruct (cuthere_app _ _ _ _ H) as [H1|[H1 H2]].
  - apply C1; [lia|exact H1|lia..].
  - replace fuel with (n + (fuel - n))%nat by lia. rewrite S by (assumption || lia). apply C2; [lia|exact H2|lia..].
Qed.
Lemma cut_steps_one step tag ss payload : is_u 32 tag -> cuts (step tag ss) payload -> cut_steps step ss (enc_varint tag ++ payload).
Proof.
  unfold is_u. intros Ht C fuel bs s e Hf H L He Hu. pose proof (enc_varint_nonempty tag ltac:(lia)) as N.
  rewrite app_length in Hf. rewrite zlen_app in *. pose proof (zlen_nonneg payload).
  destruct fuel as [|fuel]; [unfold zlen in N; lia|]. cbn [msg_loop]. unfold bind at 1, is_eof. cbn [r_start r_end].
  destruct (Z.eqb_spec s e); [lia|]. unfold next_tag. destruct (cuthere_app _ _ _ _ H) as [H1|[H1 H2]].
  - apply bad_bind. apply (cuts_varint32 tag); [lia|exact H1|lia..].
  - erewrite bind_ok by (eapply here_reads_any; [apply (reads_varint32 tag); lia|exact H1]).
    rewrite Z.mod_small by lia. apply bad_bind. apply C; [exact H2|lia..].
Qed.
End Cut.

(** ** Generated code *)
Section GenCut.
Variable D : file_descriptor.
Variable c : config.
Variable lit : field_type -> text -> option value.
Variable t : target.
Variable pa : Prop.
Hypothesis WF : schema_wf D c lit.
Hypothesis PF : has_packed_fixed D c -> pa.
Notation val_ok := (val_ok D c).
Notation slot_ok := (slot_ok D c).
Notation enc_value := (enc_value D c lit).
Notation enc_slot := (enc_slot D c lit).
Notation enc_slots := (enc_slots D c lit).
Notation canon_value := (canon_value D c lit).
Notation canon_slot := (canon_slot D c lit).
Notation cuts := (cuts pa t).
Notation cuts_window := (cuts_window pa t).
Notation cut_steps := (cut_steps pa t).

Definition cuts_messages (n : nat) : Prop :=
  forall m msg ss, get_message D m = Some msg -> message_ok D c m ss ->
    (length (enc_message D c lit m ss) < n)%nat -> zlen (enc_message D c lit m ss) < 2 ^ 32 ->
    cuts_window (from_reader D c lit t n m) (enc_message D c lit m ss).

Lemma read_value_cut n v ty : cuts_messages n -> typ_ok D ty -> val_ok ty v ->
  (length (enc_value ty v) <= n)%nat -> zlen (enc_value ty v) < 2 ^ 32 ->
  cuts (read_value D t (from_reader D c lit t n) (read_fn ty)) (enc_value ty v).
Proof.
  intros IH Ht Hv Hn H32. destruct v as [z|b|b|ss].
  - assert (U : forall x, 0 <= wrapU 64 x < 2 ^ 64) by (intros x; unfold wrapU; apply Z.mod_pos_bound; lia).
    assert (ZZ : is_s 64 z -> 0 <= zigzag z < 2 ^ 64) by (unfold is_s, zigzag; intros; destruct (Z.leb_spec 0 z); lia).
    destruct ty; cbn in Hv; try contradiction; cbn [read_fn read_value read_scalar GenSpec.enc_value];
      unfold read_int32, read_int64, read_sint32, read_sint64, read_uint32, read_uint64, read_enum, read_fixed32, read_fixed64,
        read_sfixed32, read_sfixed64, read_float, read_double;
      repeat apply cuts_rmap; try (apply cuts_varint32; auto); try (apply cuts_varint64; auto);
      try (apply cuts_fixed; unfold zlen; rewrite le_bytes_length; reflexivity);
      (intros bs s e' K1 K2 K3 K4; apply bad_bind; first [apply (cuts_varint32 pa t (wrapU 64 (wrapS 32 (zigzag z)))); auto | apply (cuts_varint64 pa t (zigzag z)); auto]).
  - cbn in Hv. subst ty. cbn [read_fn read_value read_scalar GenSpec.enc_value]. unfold read_bool. repeat apply cuts_rmap.
    rewrite <- (enc_varint_byte (if b then 1 else 0)) by (destruct b; lia). apply cuts_varint32. destruct b; lia.
  - cbn [GenSpec.enc_value] in *. pose proof (enc_len_ge b).
    destruct ty; cbn in Hv; try contradiction; cbn [read_fn read_value]; apply cuts_rmap;
      first [apply cuts_bytes; lia | apply cuts_string; lia].
  - destruct ty; try contradiction Hv. rewrite val_ok_msg in Hv. cbn [typ_ok] in Ht.
    destruct (get_message D m) as [msg|] eqn:G; [|congruence].
    rewrite (enc_value_msg D c lit _ _ _ G) in *. cbn [read_fn read_value].
    assert (L : zlen (enc_message D c lit m ss) < 2 ^ 32) by (pose proof (enc_len_ge (enc_message D c lit m ss)); lia).
    pose proof (zlen_nonneg (enc_message D c lit m ss)).
    apply cuts_rmap. apply cuts_len_varint; [exact L|]. apply (IH m msg ss G Hv); [|exact L].
    pose proof (enc_len_gt (enc_message D c lit m ss) ltac:(lia)). lia.
Qed.

Section Step.
Variables (m : midx) (msg : message) (n : nat).
Hypothesis G : get_message D m = Some msg.
Hypothesis IH : cuts_messages n.
Let step := run_field D c lit t n (from_reader D c lit t n) (match_arms c msg).
Let RM : reads_messages D c lit t n := from_reader_ok D c lit t WF n.

Lemma step_cuts i d a f done cur rest payload :
  nth_error (descs c msg) i = Some d -> In (field_tag f, (i, a)) (desc_arms i d) -> length done = i ->
  cuts (run_action D c lit t n (from_reader D c lit t n) a cur) payload ->
  cut_steps step (done ++ cur :: rest) (enc_key f ++ payload).
Proof.
  intros N Hin <- R. apply cut_steps_one; [apply field_tag_range|].
  unfold step, run_field. rewrite (find_arm D c lit WF m msg G _ _ _ _ N Hin), nth_app_len.
  apply cuts_rmap. exact R.
Qed.

Lemma slot_cuts i d done cur rest s :
  nth_error (descs c msg) i = Some d -> length done = i -> blank (sd_type c d) cur ->
  slot_ok (sd_type c d) s -> (length (enc_slot d s) <= n)%nat -> zlen (enc_slot d s) < 2 ^ 32 ->
  cut_steps step (done ++ cur :: rest) (enc_slot d s).
Proof.
  intros N Hi Hb Ho Hl H32.
  assert (Hd : desc_ok D c lit d).
  { destruct (WF m msg G) as [W _ _]. rewrite Forall_forall in W. apply W. eapply nth_error_In; exact N. }
  destruct d as [f|vs].
  2:{ cbn [sd_type desc_ok] in *. rewrite slot_ok_eq in Ho. rewrite enc_slot_oneof_eq in *.
      destruct s; try contradiction Ho.
      - apply cut_steps_nil.
      - destruct (nth_error vs variant) as [f|] eqn:Nv; [|contradiction Ho].
        rewrite Forall_forall in Hd. specialize (Hd f (nth_error_In _ _ Nv)).
        rewrite app_length in Hl. rewrite zlen_app in H32. pose proof (zlen_nonneg (enc_key f)).
        eapply step_cuts; [exact N| |exact Hi|].
        + cbn [desc_arms]. apply in_map_iff. exists (variant, f). split; [reflexivity|].
          apply (number_from_nth vs 0 variant f Nv).
        + cbn [run_action]. apply cuts_rmap. apply read_value_cut; auto; lia. }
  cbn [sd_type desc_ok] in *. rewrite slot_ok_eq in Ho. rewrite enc_slot_field_eq in *.
  assert (ARM : In (field_tag f, (i, field_arm f)) (desc_arms i (SdField f))) by (left; reflexivity).
  assert (PFF : packed_fixed_field f -> pa).
  { intros X. apply PF. exists m, msg, f. split; [exact G|]. split; [eapply nth_error_In, N|exact X]. }
  destruct s as [v| |v|l|p|l| |j v]; try contradiction Ho;
    try (destruct (get_type c f) eqn:GT; try contradiction Ho; contradiction (get_type_oneof c f _ GT)).
  - (* plain *)
    destruct (get_type c f) as [| |ty| | | | |] eqn:GT; try contradiction Ho.
    destruct (get_type_plain D c lit f ty GT Hd) as (-> & Ht & F & Hbx).
    destruct (elided D c lit f v) eqn:E; [apply cut_steps_nil|].
    rewrite app_length in Hl. rewrite zlen_app in H32. pose proof (zlen_nonneg (enc_key f)).
    assert (R : cuts (read_value D t (from_reader D c lit t n) (read_fn (f_typ f))) (enc_value (f_typ f) v))
      by (apply read_value_cut; auto; lia).
    eapply step_cuts; [exact N|exact ARM|exact Hi|].
    unfold field_arm, generated_type_of. rewrite Hbx.
    destruct F as [-> | ->]; cbn [freq_is_map freq_is_repeated run_action]; apply cuts_rmap; exact R.
  - (* none *) apply cut_steps_nil.
  - (* some *)
    rewrite app_length in Hl. rewrite zlen_app in H32. pose proof (zlen_nonneg (enc_key f)).
    assert (Hx : exists ty, (get_type c f = TyOption ty \/ get_type c f = TyOptionBox ty) /\ val_ok ty v).
    { destruct (get_type c f) as [ty|ty|ty| | | | |] eqn:GT; try contradiction Ho; exists ty; auto. }
    destruct Hx as (ty & GT & Hv). destruct (get_type_opt D c lit f ty GT Hd) as (-> & Ht & F1 & F2 & F3 & HP).
    assert (R : cuts (read_value D t (from_reader D c lit t n) (read_fn (f_typ f))) (enc_value (f_typ f) v))
      by (apply read_value_cut; auto; lia).
    eapply step_cuts; [exact N|exact ARM|exact Hi|].
    unfold field_arm, generated_type_of.
    destruct (f_boxed f); [apply cuts_rmap; exact R|].
    destruct (f_freq f); try discriminate F1; cbn [freq_is_map freq_is_repeated run_action]; apply cuts_rmap; exact R.
  - (* vec *)
    destruct (get_type c f) as [| |ty| |ty| | |] eqn:GT; try contradiction Ho.
    destruct (get_type_vec D c lit f ty GT Hd) as (-> & Ht & F1 & F2 & Hbx & Hpf).
    cbn [blank] in Hb. subst cur. apply fold_right_Forall in Ho.
    destruct (f_is_packed f) eqn:Pk.
    + cbn [andb] in Hpf. destruct l as [|v0 l0] eqn:El; [apply cut_steps_nil|]. rewrite <- El in *.
      rewrite app_length in Hl. rewrite zlen_app in H32. pose proof (zlen_nonneg (enc_key f)).
      set (body := flat_map (enc_value (f_typ f)) l) in *. pose proof (enc_len_ge body).
      assert (Hlb : (length body <= length (enc_len body))%nat) by (unfold enc_len; rewrite app_length; lia).
      assert (RA : forall v, In v l -> reads t (read_value D t (from_reader D c lit t n) (read_fn (f_typ f))) (enc_value (f_typ f) v) (canon_value (f_typ f) v)
                   /\ cuts (read_value D t (from_reader D c lit t n) (read_fn (f_typ f))) (enc_value (f_typ f) v) /\ enc_value (f_typ f) v <> []).
      { intros v Hin. rewrite Forall_forall in Ho. pose proof (flat_map_in_len (enc_value (f_typ f)) l v Hin) as HL.
        fold body in HL. destruct (read_value_ok D c lit t n v (f_typ f) RM Ht (Ho v Hin)) as [R1 R2]; [unfold zlen in *; lia..|].
        split; [exact R1|]. split; [|exact R2]. apply read_value_cut; auto; unfold zlen in *; lia. }
      assert (LL : (length l <= length body)%nat).
      { unfold body. clear -RA. induction l as [|x l IHl]; [simpl; lia|]. cbn [flat_map]. rewrite app_length.
        destruct (RA x (or_introl eq_refl)) as (_ & _ & Ne). specialize (IHl (fun v H => RA v (or_intror H))).
        destruct (enc_value (f_typ f) x); [congruence|]. simpl in *. lia. }
      eapply step_cuts; [exact N|exact ARM|exact Hi|].
      unfold field_arm, generated_type_of. rewrite Hbx, F1, F2, Pk, Hpf. cbn [run_action].
      apply cuts_rmap. unfold read_packed. apply cuts_len_varint; [lia|].
      intros bs s Hc Hu. apply (cut_packed_loop pa t _ (enc_value (f_typ f)) (canon_value (f_typ f)) l RA); [|exact Hc|exact Hu].
      unfold enc_key in *. pose proof (field_tag_range f) as FR. unfold is_u in FR.
      pose proof (enc_varint_nonempty (field_tag f) ltac:(lia)). unfold zlen in *. lia.
    + (* unpacked *)
      assert (X : forall acc, cut_steps step (done ++ SlVec acc :: rest)
                     (flat_map (fun v => enc_key f ++ enc_value (f_typ f) v) l)).
      { clear Hpf. induction Ho as [|v l Hv Hvs IHl]; intros acc.
        - apply cut_steps_nil.
        - cbn [flat_map] in *. rewrite !app_length in Hl. rewrite !zlen_app in H32.
          pose proof (zlen_nonneg (enc_key f)). pose proof (zlen_nonneg (enc_value (f_typ f) v)).
          pose proof (zlen_nonneg (flat_map (fun v => enc_key f ++ enc_value (f_typ f) v) l)).
          destruct (read_value_ok D c lit t n v (f_typ f) RM Ht Hv) as [R _]; [lia|lia|].
          eapply cut_steps_app.
          + eapply (step_reads D c lit t WF m msg n G); [exact N|exact ARM|exact Hi|].
            unfold field_arm, generated_type_of. rewrite Hbx, F1, F2, Pk. cbn [run_action].
            apply (reads_rmap t (fun v => SlVec (acc ++ [v]))). exact R.
          + eapply step_cuts; [exact N|exact ARM|exact Hi|].
            unfold field_arm, generated_type_of. rewrite Hbx, F1, F2, Pk. cbn [run_action].
            apply cuts_rmap. apply read_value_cut; auto; lia.
          + apply IHl; lia. }
      apply (X []).
  - (* packed fixed *)
    destruct (get_type c f) as [| |ty|k|ty| | |] eqn:GT; try contradiction Ho.
    destruct (get_type_pf D c lit f k GT Hd) as (-> & F1 & F2 & Hbx & Pk & FS).
    destruct Ho as (l & R). rewrite (pf_raw_rep _ _ _ R) in *. rewrite (rep_empty _ _ _ R) in *.
    destruct l as [|x l'] eqn:El; [apply cut_steps_nil|]. rewrite <- El in *.
    rewrite zlen_app in H32. pose proof (zlen_nonneg (enc_key f)).
    eapply step_cuts; [exact N|exact ARM|exact Hi|].
    unfold field_arm, generated_type_of. rewrite Hbx, F1, F2, Pk, FS. cbn [run_action].
    match goal with H : context [enc_len ?b] |- _ => pose proof (enc_len_ge b) as HL end. match goal with |- context [read_packed_fixed_k t ?k] => pose proof (fk_size_pos k) end.
    apply cuts_rmap. apply cuts_rmap. apply cuts_packed_fixed; [apply PFF; repeat split; assumption|lia| |lia].
    rewrite fk_flat_len. apply Z.mod_mul. lia.
  - (* map *)
    destruct (get_type c f) as [| |ty|k|ty|tk tv| |] eqn:GT; try contradiction Ho.
    destruct (get_type_map D c lit f tk tv GT Hd) as (T & Hk & Hv & F1 & Hbx).
    cbn [blank] in Hb. subst cur. destruct Ho as [Ho ND].
    apply (fold_right_Forall2 (fun k v => val_ok tk k /\ val_ok tv v)) in Ho. rewrite T in *.
    destruct (type_default_some D c lit WF tk (key_typ_ok D tk Hk)) as (kd & Kd).
    destruct (type_default_some D c lit WF tv Hv) as (vd & Vd).
    set (ent := fun kv : value * value => enc_key f ++ enc_len
        ((enc_varint (8 + wire_type_num_non_packed tk) ++ enc_value tk (fst kv)) ++
         (enc_varint (16 + wire_type_num_non_packed tv) ++ enc_value tv (snd kv)))).
    assert (FE : flat_map (fun '(k, v) => enc_key f ++ enc_len
        ((enc_varint (8 + wire_type_num_non_packed tk) ++ enc_value tk k) ++
         (enc_varint (16 + wire_type_num_non_packed tv) ++ enc_value tv v))) l = flat_map ent l).
    { apply flat_map_ext. intros [k v]. reflexivity. }
    rewrite FE in *. clear FE.
    assert (X : forall acc, cut_steps step (done ++ SlMap acc :: rest) (flat_map ent l)).
    { clear ND. induction Ho as [|[k v] l [Hkv Hvv] Hvs IHl]; intros acc.
      - apply cut_steps_nil.
      - cbn [flat_map] in *. rewrite app_length in Hl. rewrite zlen_app in H32. cbn [fst snd] in *.
        pose proof (zlen_nonneg (ent (k, v))). pose proof (zlen_nonneg (flat_map ent l)).
        assert (RC : reads t (run_action D c lit t n (from_reader D c lit t n) (field_arm f) (SlMap acc))
                       (enc_len ((enc_varint (8 + wire_type_num_non_packed tk) ++ enc_value tk k) ++
                                 (enc_varint (16 + wire_type_num_non_packed tv) ++ enc_value tv v)))
                       (SlMap (map_insert k (canon_value tv v) acc)) /\
                     cuts (run_action D c lit t n (from_reader D c lit t n) (field_arm f) (SlMap acc))
                       (enc_len ((enc_varint (8 + wire_type_num_non_packed tk) ++ enc_value tk k) ++
                                 (enc_varint (16 + wire_type_num_non_packed tv) ++ enc_value tv v)))).
        { unfold field_arm, generated_type_of. rewrite Hbx, F1, T. cbn [run_action]. rewrite Kd, Vd.
          pose proof (wire_type_range tk false) as W1. pose proof (wire_type_range tv false) as W2. unfold wire_type_num in W1, W2.
          match goal with |- reads _ _ (enc_len ?b) _ /\ _ => set (body := b) end.
          assert (EK : ent (k, v) = enc_key f ++ enc_len body) by reflexivity.
          rewrite EK in Hl, H32. rewrite app_length in Hl. rewrite zlen_app in H32.
          pose proof (enc_len_ge body). pose proof (zlen_nonneg (enc_key f)).
          assert (Hlb : (length body <= length (enc_len body))%nat) by (unfold enc_len; rewrite app_length; lia).
          set (items := [MKey (zb (8 + wire_type_num_non_packed tk)) k (enc_value tk k);
                         MVal (zb (16 + wire_type_num_non_packed tv)) (canon_value tv v) (enc_value tv v)]).
          assert (HB : body = flat_map item_bytes items).
          { unfold body. rewrite !enc_varint_byte by lia. cbn [items flat_map item_bytes]. rewrite app_nil_r. reflexivity. }
          assert (LB : zlen body = 2 + zlen (enc_value tk k) + zlen (enc_value tv v)).
          { rewrite HB. cbn [items flat_map item_bytes]. rewrite app_nil_r, zlen_app, !zlen_cons. lia. }
          assert (LN : length body = (2 + length (enc_value tk k) + length (enc_value tv v))%nat) by (unfold zlen in LB; lia).
          pose proof (zlen_nonneg (enc_value tk k)). pose proof (zlen_nonneg (enc_value tv v)).
          pose proof (enc_len_gt body ltac:(lia)) as GT2.
          assert (GT3 : (1 <= length (enc_key f))%nat).
          { pose proof (field_tag_range f) as FR. unfold is_u in FR.
            pose proof (enc_varint_nonempty (field_tag f) ltac:(lia)) as Ne. unfold enc_key, zlen in *. lia. }
          destruct (read_value_ok D c lit t n k tk RM (key_typ_ok D tk Hk) Hkv) as [Rk _]; [lia|lia|].
          destruct (read_value_ok D c lit t n v tv RM Hv Hvv) as [Rv _]; [lia|lia|].
          replace (canon_value tk k) with k in Rk
            by (destruct k; try reflexivity; destruct tk; try reflexivity; contradiction Hk).
          assert (OK : Forall (item_ok t (read_value D t (from_reader D c lit t n) (read_fn tk)) (read_value D t (from_reader D c lit t n) (read_fn tv))) items).
          { constructor; [|constructor; [|constructor]]; cbn [item_ok]; rewrite bz_zb; (split; [|assumption]).
            - rewrite Z.mod_small by lia. symmetry. apply (Z.div_unique _ _ _ (wire_type_num_non_packed tk)); lia.
            - rewrite Z.mod_small by lia. symmetry. apply (Z.div_unique _ _ _ (wire_type_num_non_packed tv)); lia. }
          split.
          - apply (reads_rmap t (fun '(k, v) => SlMap (map_insert k v acc)) _ _ (k, canon_value tv v)). rewrite HB.
            apply (reads_map_items t n kd vd _ _ items OK); [cbn [items length]; lia|rewrite <- HB; lia].
          - apply cuts_rmap. unfold read_map. apply cuts_len_varint; [lia|]. rewrite HB. intros bs s Hc Hu.
            apply (cut_map_loop pa t _ _ items OK); [|cbn [items length]; lia|exact Hc|exact Hu].
            constructor; [|constructor; [|constructor]]; cbn [item_cut]; apply read_value_cut; auto using key_typ_ok; lia. }
        destruct RC as [R C]. eapply cut_steps_app.
        + eapply (step_reads D c lit t WF m msg n G); [exact N|exact ARM|exact Hi|exact R].
        + eapply step_cuts; [exact N|exact ARM|exact Hi|exact C].
        + apply IHl; lia. }
    apply (X []).
Qed.

Lemma slots_cuts ds ss : forall done df,
  descs c msg = done ++ ds -> forall dn, length dn = length done ->
  Forall2 (fun d s => blank (sd_type c d) s) ds df ->
  slots_ok D c (map (sd_type c) ds) ss ->
  (length (enc_slots ds ss) <= n)%nat -> zlen (enc_slots ds ss) < 2 ^ 32 ->
  cut_steps step (dn ++ df) (enc_slots ds ss).
Proof.
  revert ds; induction ss as [|s ss IHs]; intros ds done df E dn Hdn Hb Ho Hl H32; destruct ds as [|d ds]; try contradiction Ho.
  - apply cut_steps_nil.
  - inversion Hb as [|? cur ? df' Hb1 Hb2]; subst. cbn [map slots_ok] in Ho. destruct Ho as [Ho1 Ho2].
    cbn [GenSpec.enc_slots] in *. rewrite app_length in Hl. rewrite zlen_app in H32.
    pose proof (zlen_nonneg (enc_slot d s)). pose proof (zlen_nonneg (enc_slots ds ss)).
    assert (Nd : nth_error (descs c msg) (length done) = Some d) by (rewrite E; apply nth_app_len).
    eapply cut_steps_app.
    + eapply (slot_steps D c lit t WF m msg n G RM (length done)); [exact Nd|exact Hdn|exact Hb1|exact Ho1|lia|lia].
    + eapply (slot_cuts (length done)); [exact Nd|exact Hdn|exact Hb1|exact Ho1|lia|lia].
    + specialize (IHs ds (done ++ [d]) df'). rewrite <- app_assoc in IHs. specialize (IHs E (dn ++ [canon_slot d cur s])).
      rewrite !app_length in IHs. cbn [length] in IHs. specialize (IHs ltac:(lia) Hb2 Ho2).
      rewrite <- !app_assoc in IHs. cbn [app] in IHs. apply IHs; lia.
Qed.
End Step.

Theorem from_reader_cut n : cuts_messages n.
Proof.
  induction n as [|n IH]; intros m msg ss G Ho Hl H32; [lia|].
  destruct (WF m msg G) as [W1 W2 W3].
  destruct (message_default D c lit m) as [df|] eqn:Df; [|congruence].
  pose proof (message_default_blank D c lit WF m msg df G Df) as Hb.
  unfold enc_message, message_ok in *. cbn [from_reader]. rewrite G, Df in *.
  rewrite struct_def_descs in Ho.
  destruct (is_unit msg) eqn:U.
  - rewrite (is_unit_descs c msg U) in *. destruct ss; [|contradiction Ho].
    intros bs s Hc. destruct (cuthere_nil _ _ Hc).
  - intros bs s Hc Hu. pose proof (half_le t).
    apply (slots_cuts m msg n G IH (descs c msg) ss [] df eq_refl [] eq_refl Hb Ho); [lia|lia|lia|exact Hc|exact Hu|lia|lia].
Qed.
End GenCut.
