(** The decoded value is the same value as the encoded one. *)
From Coq Require Import ZifyBool ZifyNat ZifyN.
From Verif Require Import Base BaseFacts Utf8 Reader PackedFixed Writer Sizeofs Spec VarintFacts
  WriterFacts ScalarFacts DelimFacts PackedFixedFacts Schema Gen GenSem GenSpec GenEmit GenRead.

(** Same contents: equality, except that a PackedFixed is compared by its
    elements and not by whether it owns or borrows them. *)
Inductive same_value : value -> value -> Prop :=
| sv_z z : same_value (VZ z) (VZ z)
| sv_bool b : same_value (VBool b) (VBool b)
| sv_b b : same_value (VB b) (VB b)
| sv_msg ss ss' : Forall2 same_slot ss ss' -> same_value (VMsg ss) (VMsg ss')
with same_slot : slot -> slot -> Prop :=
| ss_one v w : same_value v w -> same_slot (SlOne v) (SlOne w)
| ss_none : same_slot SlNone SlNone
| ss_some v w : same_value v w -> same_slot (SlSome v) (SlSome w)
| ss_vec l l' : Forall2 same_value l l' -> same_slot (SlVec l) (SlVec l')
| ss_pf k p q l : represents k p l -> represents k q l -> same_slot (SlPF p) (SlPF q)
| ss_map l l' : Forall2 (fun a b => fst a = fst b /\ same_value (snd a) (snd b)) l l' ->
    same_slot (SlMap l) (SlMap l')
| ss_oneof_none : same_slot SlOneofNone SlOneofNone
| ss_oneof i v w : same_value v w -> same_slot (SlOneof i v) (SlOneof i w).

Section Same.
Variable D : file_descriptor.
Variable c : config.
Variable lit : field_type -> text -> option value.

(** no field of a proto3 message has a [default] option *)
Definition no_proto3_default : Prop :=
  forall m msg f, get_message D m = Some msg -> In f (m_fields msg) -> f_freq f = P3Default -> f_default f = None.

(** -0.0 *)
Definition negative_zero (t : field_type) (v : value) : Prop :=
  match t, v with
  | TFloat, VZ z => z = 2 ^ 31
  | TDouble, VZ z => z = 2 ^ 63
  | _, _ => False
  end.

(** no proto3 field without presence holds -0.0, at any depth *)
Fixpoint nnz_value (t : field_type) (v : value) {struct v} : Prop :=
  match v with
  | VMsg ss =>
    match t with
    | TMessage m =>
      match get_message D m with
      | Some msg =>
        (fix go (ds : list sdesc) (ss : list slot) {struct ss} : Prop :=
           match ss, ds with
           | s :: ss', d :: ds' => nnz_slot d s /\ go ds' ss'
           | _, _ => True
           end) (descs c msg) ss
      | None => True
      end
    | _ => True
    end
  | _ => True
  end
with nnz_slot (d : sdesc) (s : slot) {struct s} : Prop :=
  match s with
  | SlOne v => match d with
               | SdField f => (implicit_presence f = true -> ~ negative_zero (f_typ f) v) /\ nnz_value (f_typ f) v
               | _ => True
               end
  | SlSome v => match d with SdField f => nnz_value (f_typ f) v | _ => True end
  | SlVec l => match d with
               | SdField f => fold_right (fun v acc => nnz_value (f_typ f) v /\ acc) True l
               | _ => True
               end
  | SlMap l => match d with
               | SdField f => match f_typ f with
                              | TMap _ tv => fold_right (fun '(_, v) acc => nnz_value tv v /\ acc) True l
                              | _ => True
                              end
               | _ => True
               end
  | SlOneof i v => match d with
                   | SdOneof vs => match nth_error vs i with Some f => nnz_value (f_typ f) v | None => True end
                   | _ => True
                   end
  | _ => True
  end.
Fixpoint nnz_slots (ds : list sdesc) (ss : list slot) {struct ss} : Prop :=
  match ss, ds with
  | s :: ss', d :: ds' => nnz_slot d s /\ nnz_slots ds' ss'
  | _, _ => True
  end.
Definition no_negative_zero (m : midx) (ss : list slot) : Prop :=
  match get_message D m with Some msg => nnz_slots (descs c msg) ss | None => True end.

Lemma nnz_value_msg m ss : nnz_value (TMessage m) (VMsg ss) = no_negative_zero m ss.
Proof. reflexivity. Qed.
Lemma nnz_slot_eq d s : nnz_slot d s =
  match s with
  | SlOne v => match d with
               | SdField f => (implicit_presence f = true -> ~ negative_zero (f_typ f) v) /\ nnz_value (f_typ f) v
               | _ => True
               end
  | SlSome v => match d with SdField f => nnz_value (f_typ f) v | _ => True end
  | SlVec l => match d with
               | SdField f => fold_right (fun v acc => nnz_value (f_typ f) v /\ acc) True l
               | _ => True
               end
  | SlMap l => match d with
               | SdField f => match f_typ f with
                              | TMap _ tv => fold_right (fun '(_, v) acc => nnz_value tv v /\ acc) True l
                              | _ => True
                              end
               | _ => True
               end
  | SlOneof i v => match d with
                   | SdOneof vs => match nth_error vs i with Some f => nnz_value (f_typ f) v | None => True end
                   | _ => True
                   end
  | _ => True
  end.
Proof. destruct s; reflexivity. Qed.

Hypothesis WF : schema_wf D c lit.
Hypothesis ND : no_proto3_default.

(** the default of a field without presence *)
Definition default_agrees (d : sdesc) (s : slot) : Prop :=
  match d with
  | SdField f => implicit_presence f = true -> freq_is_map (f_freq f) = false -> f_boxed f = false ->
                 exists w, implicit_default D c lit f = Some w /\ s = SlOne w
  | _ => True
  end.

Lemma implicit_p3 f : implicit_presence f = true -> f_freq f = P3Default /\ (forall m, f_typ f <> TMessage m).
Proof. unfold implicit_presence. destruct (f_freq f), (f_typ f); try discriminate; split; congruence. Qed.

Lemma type_default_dm dm dm' ty : (forall m, ty <> TMessage m) -> type_default D dm ty = type_default D dm' ty.
Proof. intros H. destruct ty; try reflexivity. exfalso. eapply H; reflexivity. Qed.

Lemma desc_in_fields msg f : In (SdField f) (descs c msg) -> In f (m_fields msg).
Proof.
  unfold descs. intros H. apply in_app_or in H. destruct H as [H|H].
  - apply in_map_iff in H. destruct H as (g & E & H). injection E as ->. unfold visible_fields in H. apply filter_In in H. tauto.
  - apply in_map_iff in H. destruct H as (g & E & _). discriminate.
Qed.

Lemma init_agrees m msg dm b d s : get_message D m = Some msg -> In d (descs c msg) ->
  init_slot D lit dm (sd_init c b d) = Some s -> default_agrees d s.
Proof.
  intros G Hin H. destruct d as [f|vs]; [|exact I]. intros IP _ Hbx. cbn [default_agrees] in *.
  destruct (implicit_p3 f IP) as [P3 NM]. pose proof (ND m msg f G (desc_in_fields _ _ Hin) P3) as Nd.
  unfold implicit_default. rewrite Nd.
  unfold sd_init in H. destruct b; cbn [init_slot sd_type] in H.
  - unfold get_field_default, generated_type_of in H. rewrite P3, Hbx, Nd in H. cbn [freq_is_map freq_is_repeated freq_is_optional] in H.
    rewrite (type_default_dm _ dm _ NM). destruct (f_typ f); try discriminate H; cbn in H; try (injection H as <-; eexists; split; reflexivity).
    exfalso; eapply NM; reflexivity.
  - unfold get_type, generated_type_of in H. rewrite P3, Hbx in H. cbn [freq_is_map freq_is_repeated freq_is_optional derived_slot] in H.
    rewrite (type_default_dm _ dm _ NM). destruct (type_default D dm (f_typ f)) as [w|]; [|discriminate H].
    injection H as <-. eauto.
Qed.

Lemma Forall2_in_l {A B} (P Q : A -> B -> Prop) l l' : Forall2 P l l' ->
  (forall x y, In x l -> P x y -> Q x y) -> Forall2 Q l l'.
Proof.
  induction 1 as [|x y l l' H1 H2 IH]; intros H; constructor.
  - apply H; [left; reflexivity|assumption].
  - apply IH. intros; apply H; [right|]; assumption.
Qed.

Lemma message_default_agrees m msg df : get_message D m = Some msg -> message_default D c lit m = Some df ->
  Forall2 default_agrees (descs c msg) df.
Proof.
  intros G H. unfold message_default in H. destruct (default_depth D) as [|n] eqn:Dd; [discriminate|].
  cbn [default_msg] in H. rewrite G in H. rewrite default_inits_descs, map_map in H.
  apply all_some_map in H. eapply Forall2_in_l; [exact H|]. cbn beta. intros d s Hin E.
  eapply init_agrees; eassumption.
Qed.

Lemma rust_eq_default ty v w dm : val_ok D c ty v -> ~ negative_zero ty v -> (forall m, ty <> TMessage m) ->
  type_default D dm ty = Some w -> rust_eq ty v w = true -> v = w.
Proof.
  intros Hv Hz NM Hw He.
  assert (P : match ty with TFloat | TDouble => False | _ => True end -> v = w).
  { intros Hf. assert (plain_eq v w = true) as E by (destruct ty; try contradiction Hf; exact He). apply plain_eq_true. exact E. }
  destruct ty; try (apply P; exact I).
  - destruct v; cbn in Hv; try contradiction; [|discriminate Hv]. cbn in Hw. injection Hw as <-. cbn in He, Hz.
    unfold float_eq in He. unfold is_u in Hv. rewrite Zmod_0_l in He.
    f_equal. assert (z mod 2 ^ (11 + 52) = 0) as M by lia. change (11 + 52) with 63 in M.
    pose proof (Z.div_mod z (2 ^ 63) ltac:(lia)). assert (0 <= z / 2 ^ 63 < 2) by (split; [apply Z.div_pos|apply Z.div_lt_upper_bound]; lia). lia.
  - destruct v; cbn in Hv; try contradiction; [|discriminate Hv]. cbn in Hw. injection Hw as <-. cbn in He, Hz.
    unfold float_eq in He. unfold is_u in Hv. rewrite Zmod_0_l in He.
    f_equal. assert (z mod 2 ^ (8 + 23) = 0) as M by lia. change (8 + 23) with 31 in M.
    pose proof (Z.div_mod z (2 ^ 31) ltac:(lia)). assert (0 <= z / 2 ^ 31 < 2) by (split; [apply Z.div_pos|apply Z.div_lt_upper_bound]; lia). lia.
Qed.

Lemma pf_empty_rep k p l q : represents k p l -> pf_is_empty p = true -> q = NoDataYet \/ q = Owned [] -> represents k q l.
Proof.
  intros R E Q. rewrite (rep_empty _ _ _ R) in E. destruct l; [|discriminate E].
  destruct Q as [-> | ->]; (split; [|constructor]); reflexivity.
Qed.

Lemma same_all :
  (forall v ty, typ_ok D ty -> val_ok D c ty v -> nnz_value ty v -> same_value v (canon_value D c lit ty v)) /\
  (forall s d df, desc_ok D c lit d -> slot_ok D c (sd_type c d) s -> nnz_slot d s ->
     blank (sd_type c d) df -> default_agrees d df ->
     (forall f, d = SdField f -> implicit_presence f = true -> f_default f = None) ->
     same_slot s (canon_slot D c lit d df s)).
Proof.
  apply value_slot_ind.
  - intros z ty Ht Hv Hn. apply sv_z.
  - intros b ty Ht Hv Hn. apply sv_bool.
  - intros b ty Ht Hv Hn. apply sv_b.
  - intros ss IH ty Ht Hv Hn. destruct ty; try contradiction Hv.
    rewrite val_ok_msg in Hv. rewrite nnz_value_msg in Hn. rewrite canon_value_msg. apply sv_msg.
    unfold message_ok, no_negative_zero, canon_message in *. destruct (get_message D m) as [msg|] eqn:G; [|contradiction].
    destruct (WF m msg G) as [W1 _ W3]. destruct (message_default D c lit m) as [df|] eqn:Df; [|congruence].
    pose proof (message_default_blank D c lit WF m msg df G Df) as B.
    pose proof (message_default_agrees m msg df G Df) as A. rewrite struct_def_descs in Hv.
    assert (Fd : forall f, In (SdField f) (descs c msg) -> implicit_presence f = true -> f_default f = None).
    { intros f Hin IP. eapply (ND m msg f G (desc_in_fields _ _ Hin)). apply implicit_p3, IP. }
    clear W3 Ht Df. revert df B A. revert Fd W1 Hn Hv. generalize (descs c msg). intros ds. revert ds.
    clear -IH WF ND. induction IH as [|s ss Hs Hss IHs]; intros ds Fd W1 Hn Hv df B A; destruct ds as [|d ds]; try contradiction Hv.
    + inversion B; subst. constructor.
    + inversion B; subst. inversion A; subst. inversion W1; subst. cbn [map slots_ok nnz_slots canon_slots] in *.
      destruct Hv, Hn. constructor.
      * apply Hs; auto. intros f ->. apply Fd. left; reflexivity.
      * apply IHs; auto. intros f Hin. apply Fd. right; exact Hin.
  - (* SlOne *)
    intros v IH d df Hd Ho Hn Hb Ha Hf. destruct d as [f|vs]; [|contradiction Ho].
    cbn [sd_type] in *. rewrite slot_ok_eq in Ho. rewrite nnz_slot_eq in Hn. rewrite canon_slot_field_eq.
    destruct (get_type c f) as [| |ty| | | | |] eqn:GT; try contradiction Ho.
    destruct (get_type_plain D c lit f ty GT Hd) as (-> & Ht & F & Hbx). destruct Hn as [Hn1 Hn2].
    destruct (elided D c lit f v) eqn:E.
    + unfold elided in E. apply andb_prop in E. destruct E as [E1 E2].
      destruct (implicit_p3 f E1) as [P3 NM].
      cbn [default_agrees] in Ha. destruct (Ha E1) as (w & Hw & ->); [rewrite P3; reflexivity|exact Hbx|]. rewrite Hw in E2.
      unfold implicit_default in Hw. rewrite (Hf f eq_refl E1) in Hw.
      assert (v = w) as <- by (eapply rust_eq_default; eauto).
      apply ss_one. assert (canon_value D c lit (f_typ f) v = v) as <- by
        (destruct v; try reflexivity; destruct (f_typ f); try reflexivity; exfalso; eapply NM; reflexivity).
      destruct v; try constructor. exfalso. destruct (f_typ f); try contradiction Ho. eapply NM; reflexivity.
    + apply ss_one. apply IH; assumption.
  - intros d df Hd Ho Hn Hb Ha Hf. destruct d as [f|vs]; [|contradiction Ho]. apply ss_none.
  - intros v IH d df Hd Ho Hn Hb Ha Hf. destruct d as [f|vs]; [|contradiction Ho].
    cbn [sd_type] in *. rewrite slot_ok_eq in Ho. rewrite nnz_slot_eq in Hn. rewrite canon_slot_field_eq. apply ss_some.
    assert (Hx : exists ty, (get_type c f = TyOption ty \/ get_type c f = TyOptionBox ty) /\ val_ok D c ty v).
    { destruct (get_type c f) as [ty|ty|ty| | | | |] eqn:GT; try contradiction Ho; exists ty; auto. }
    destruct Hx as (ty & GT & Hv). destruct (get_type_opt D c lit f ty GT Hd) as (-> & Ht & _). apply IH; assumption.
  - intros l IH d df Hd Ho Hn Hb Ha Hf. destruct d as [f|vs]; [|contradiction Ho].
    cbn [sd_type] in *. rewrite slot_ok_eq in Ho. rewrite nnz_slot_eq in Hn. rewrite canon_slot_field_eq. apply ss_vec.
    destruct (get_type c f) as [| |ty| |ty| | |] eqn:GT; try contradiction Ho.
    destruct (get_type_vec D c lit f ty GT Hd) as (-> & Ht & _).
    apply fold_right_Forall in Ho. apply fold_right_Forall in Hn.
    induction IH as [|v l Hv Hl IHl]; [constructor|]. inversion Ho; subst. inversion Hn; subst. constructor; auto.
  - intros p d df Hd Ho Hn Hb Ha Hf. destruct d as [f|vs]; [|contradiction Ho].
    cbn [sd_type] in *. rewrite slot_ok_eq in Ho. rewrite canon_slot_field_eq.
    destruct (get_type c f) as [| |ty|k|ty| | |] eqn:GT; try contradiction Ho.
    destruct (get_type_pf D c lit f k GT Hd) as (-> & _). destruct Ho as (l & R).
    destruct (pf_is_empty p) eqn:E.
    + cbn in Hb. destruct Hb as [-> | ->]; eapply ss_pf; eauto; eapply pf_empty_rep; eauto.
    + eapply ss_pf; [exact R|]. rewrite (pf_raw_rep _ _ _ R). split; [reflexivity|apply R].
  - intros l IH d df Hd Ho Hn Hb Ha Hf. destruct d as [f|vs]; [|contradiction Ho].
    cbn [sd_type] in *. rewrite slot_ok_eq in Ho. rewrite nnz_slot_eq in Hn. rewrite canon_slot_field_eq.
    destruct (get_type c f) as [| |ty|k|ty|tk tv| |] eqn:GT; try contradiction Ho.
    destruct (get_type_map D c lit f tk tv GT Hd) as (T & Hk & Hv & _). rewrite T in *. apply ss_map.
    destruct Ho as [Ho _]. apply (fold_right_Forall2 (fun k v => val_ok D c tk k /\ val_ok D c tv v)) in Ho.
    apply (fold_right_Forall2 (fun _ v => nnz_value tv v)) in Hn.
    induction IH as [|[k v] l Hkv Hl IHl]; [constructor|]. inversion Ho; subst. inversion Hn; subst. constructor; auto.
    cbn [fst snd] in *. split; [reflexivity|]. apply Hkv; tauto.
  - intros d df Hd Ho Hn Hb Ha Hf. destruct d as [f|vs]; [|apply ss_oneof_none].
    cbn [sd_type] in *. rewrite slot_ok_eq in Ho. destruct (get_type c f) eqn:GT; try contradiction Ho. contradiction (get_type_oneof c f _ GT).
  - intros i v IH d df Hd Ho Hn Hb Ha Hf. destruct d as [f|vs].
    { cbn [sd_type] in *. rewrite slot_ok_eq in Ho. destruct (get_type c f) eqn:GT; try contradiction Ho. contradiction (get_type_oneof c f _ GT). }
    cbn [sd_type desc_ok] in *. rewrite slot_ok_eq in Ho. rewrite nnz_slot_eq in Hn. rewrite canon_slot_oneof_eq.
    destruct (nth_error vs i) as [f|] eqn:Nv; [|contradiction Ho].
    rewrite Forall_forall in Hd. specialize (Hd f (nth_error_In _ _ Nv)). apply ss_oneof. apply IH; assumption.
Qed.

Theorem same_message m ss : message_ok D c m ss -> no_negative_zero m ss ->
  Forall2 same_slot ss (canon_message D c lit m ss).
Proof.
  intros Ho Hn. destruct same_all as [S _].
  assert (G : get_message D m <> None) by (unfold message_ok in Ho; destruct (get_message D m); [discriminate|contradiction]).
  specialize (S (VMsg ss) (TMessage m) G Ho Hn). rewrite canon_value_msg in S. inversion S; subst. assumption.
Qed.
End Same.
