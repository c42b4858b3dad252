(** What comes back from a round trip, for every value.

    The relation [back] says it on the schema alone; [kept] says for which values
    that is the same value. *)
From Coq Require Import ZifyBool ZifyNat ZifyN.
From Verif Require Import Base BaseFacts Utf8 Reader PackedFixed Writer Sizeofs Spec VarintFacts
  WriterFacts ScalarFacts DelimFacts PackedFixedFacts Schema Gen GenSem GenSpec GenEmit GenRead GenSame.

Section Back.
Variable D : file_descriptor.
Variable c : config.
Variable lit : field_type -> text -> option value.

(** the zero of a type: what a field without presence holds if nothing was read *)
Definition zero_of (t : field_type) (v : value) : Prop :=
  match t with
  | TInt32 | TInt64 | TUint32 | TUint64 | TSint32 | TSint64
  | TFixed64 | TSfixed64 | TDouble | TFixed32 | TSfixed32 | TFloat => v = VZ 0
  | TBool => v = VBool false
  | TStringCow | TBytesCow | TString | TBytes => v = VB []
  | TEnum e => exists z, v = VZ z /\ match get_enum D e with
                                     | Some en => match en_fields en with (_, z') :: _ => z = z' | [] => z = 0 end
                                     | None => z = 0
                                     end
  | _ => False
  end.

(** [back_value t v w]: a value [v] of type [t] is written and read again as [w] *)
Inductive back_value : field_type -> value -> value -> Prop :=
| bv_z t z : back_value t (VZ z) (VZ z)
| bv_bool t b : back_value t (VBool b) (VBool b)
| bv_b t b : back_value t (VB b) (VB b)
| bv_msg m msg ss ss' : get_message D m = Some msg -> back_slots (descs c msg) ss ss' ->
    back_value (TMessage m) (VMsg ss) (VMsg ss')
with back_slots : list sdesc -> list slot -> list slot -> Prop :=
| bs_nil : back_slots [] [] []
| bs_cons d ds s ss s' ss' : back_slot d s s' -> back_slots ds ss ss' -> back_slots (d :: ds) (s :: ss) (s' :: ss')
with back_slot : sdesc -> slot -> slot -> Prop :=
| bs_written f v w : elided D c lit f v = false -> back_value (f_typ f) v w ->
    back_slot (SdField f) (SlOne v) (SlOne w)
| bs_omitted f v w : elided D c lit f v = true -> zero_of (f_typ f) w ->
    back_slot (SdField f) (SlOne v) (SlOne w)
| bs_none d : back_slot d SlNone SlNone
| bs_some f v w : back_value (f_typ f) v w -> back_slot (SdField f) (SlSome v) (SlSome w)
| bs_vec f l l' : Forall2 (back_value (f_typ f)) l l' -> back_slot (SdField f) (SlVec l) (SlVec l')
| bs_pf d k p q l : represents k p l -> represents k q l -> back_slot d (SlPF p) (SlPF q)
| bs_map f tk tv l l' : f_typ f = TMap tk tv ->
    Forall2 (fun a b => fst a = fst b /\ back_value tv (snd a) (snd b)) l l' ->
    back_slot (SdField f) (SlMap l) (SlMap l')
| bs_oneof_none d : back_slot d SlOneofNone SlOneofNone
| bs_oneof vs i f v w : nth_error vs i = Some f -> back_value (f_typ f) v w ->
    back_slot (SdOneof vs) (SlOneof i v) (SlOneof i w).

Definition back (m : midx) (ss ss' : list slot) : Prop := back_value (TMessage m) (VMsg ss) (VMsg ss').

(** every field, at any depth, that is left out because it equals its default holds zero *)
Fixpoint kept_value (t : field_type) (v : value) {struct v} : Prop :=
  match v with
  | VMsg ss =>
    match t with
    | TMessage m =>
      match get_message D m with
      | Some msg =>
        (fix go (ds : list sdesc) (ss : list slot) {struct ss} : Prop :=
           match ss, ds with
           | s :: ss', d :: ds' => kept_slot d s /\ go ds' ss'
           | _, _ => True
           end) (descs c msg) ss
      | None => True
      end
    | _ => True
    end
  | _ => True
  end
with kept_slot (d : sdesc) (s : slot) {struct s} : Prop :=
  match s with
  | SlOne v => match d with
               | SdField f => (elided D c lit f v = true -> zero_of (f_typ f) v) /\ kept_value (f_typ f) v
               | _ => True
               end
  | SlSome v => match d with SdField f => kept_value (f_typ f) v | _ => True end
  | SlVec l => match d with
               | SdField f => fold_right (fun v acc => kept_value (f_typ f) v /\ acc) True l
               | _ => True
               end
  | SlMap l => match d with
               | SdField f => match f_typ f with
                              | TMap _ tv => fold_right (fun '(_, v) acc => kept_value tv v /\ acc) True l
                              | _ => True
                              end
               | _ => True
               end
  | SlOneof i v => match d with
                   | SdOneof vs => match nth_error vs i with Some f => kept_value (f_typ f) v | None => True end
                   | _ => True
                   end
  | _ => True
  end.
Fixpoint kept_slots (ds : list sdesc) (ss : list slot) {struct ss} : Prop :=
  match ss, ds with
  | s :: ss', d :: ds' => kept_slot d s /\ kept_slots ds' ss'
  | _, _ => True
  end.
Definition kept (m : midx) (ss : list slot) : Prop :=
  match get_message D m with Some msg => kept_slots (descs c msg) ss | None => True end.

Lemma kept_value_msg m ss : kept_value (TMessage m) (VMsg ss) = kept m ss.
Proof. reflexivity. Qed.
Lemma kept_slot_eq d s : kept_slot d s =
  match s with
  | SlOne v => match d with
               | SdField f => (elided D c lit f v = true -> zero_of (f_typ f) v) /\ kept_value (f_typ f) v
               | _ => True
               end
  | SlSome v => match d with SdField f => kept_value (f_typ f) v | _ => True end
  | SlVec l => match d with
               | SdField f => fold_right (fun v acc => kept_value (f_typ f) v /\ acc) True l
               | _ => True
               end
  | SlMap l => match d with
               | SdField f => match f_typ f with
                              | TMap _ tv => fold_right (fun '(_, v) acc => kept_value tv v /\ acc) True l
                              | _ => True
                              end
               | _ => True
               end
  | SlOneof i v => match d with
                   | SdOneof vs => match nth_error vs i with Some f => kept_value (f_typ f) v | None => True end
                   | _ => True
                   end
  | _ => True
  end.
Proof. destruct s; reflexivity. Qed.

Lemma zero_unique t v w : zero_of t v -> zero_of t w -> v = w.
Proof.
  destruct t; cbn; try congruence; try contradiction.
  intros (z & -> & Z) (y & -> & Y). destruct (get_enum D e) as [en|]; [|congruence].
  destruct (en_fields en) as [|[n x] l]; congruence.
Qed.
Lemma zero_same t v w : zero_of t w -> same_value v w -> v = w.
Proof. intros Z S. destruct S; try reflexivity. destruct t; cbn in Z; try discriminate Z; try contradiction. destruct Z as (z & E & _). discriminate E. Qed.
Lemma zero_kept t w : zero_of t w -> kept_value t w.
Proof. destruct t; cbn; try contradiction; try (intros ->; exact I). intros (z & -> & _). exact I. Qed.
Lemma zero_refl t w : zero_of t w -> same_value w w.
Proof. destruct t; cbn; try contradiction; try (intros ->; constructor). intros (z & -> & _). constructor. Qed.

(** what comes back is the same iff it is [kept] *)
Lemma back_same :
  (forall v ty w, back_value ty v w -> (same_value v w <-> kept_value ty v)) /\
  (forall s d s', back_slot d s s' -> (same_slot s s' <-> kept_slot d s)).
Proof.
  apply value_slot_ind.
  - intros z ty w B. inversion B; subst. split; [intros _; exact I|intros _; constructor].
  - intros b ty w B. inversion B; subst. split; [intros _; exact I|intros _; constructor].
  - intros b ty w B. inversion B; subst. split; [intros _; exact I|intros _; constructor].
  - intros ss IH ty w B. inversion B as [| | |m msg ss0 ss' G Bs]; subst. rewrite kept_value_msg. unfold kept. rewrite G.
    assert (H : Forall2 same_slot ss ss' <-> kept_slots (descs c msg) ss).
    { clear B G. revert Bs. generalize (descs c msg). intros ds. revert ds ss'.
      induction IH as [|s ss Hs Hss IHs]; intros ds ss' Bs; inversion Bs as [|d ds1 s1 ss1 s2 ss2 B1 B2]; subst; cbn [kept_slots].
      - split; [intros _; exact I|intros _; constructor].
      - specialize (Hs _ _ B1). specialize (IHs _ _ B2). split.
        + intros F. inversion F; subst. tauto.
        + intros [K1 K2]. constructor; tauto. }
    split; [intros S; inversion S; subst; tauto|intros K; constructor; tauto].
  - intros v IH d s' B. rewrite kept_slot_eq. inversion B as [f v0 w E Bv|f v0 w E Z| | | | | | |]; subst.
    + specialize (IH _ _ Bv). split.
      * intros S. inversion S; subst. split; [rewrite E; discriminate|tauto].
      * intros [_ K]. constructor. tauto.
    + split.
      * intros S. inversion S as [v0 w0 S0| | | | | | |]; subst. pose proof (zero_same _ _ _ Z S0) as ->. split; [intros _; exact Z|apply zero_kept, Z].
      * intros [K _]. specialize (K E). pose proof (zero_unique _ _ _ K Z) as ->. constructor. eapply zero_refl, Z.
  - intros d s' B. inversion B; subst. rewrite kept_slot_eq. split; [intros _; exact I|intros _; constructor].
  - intros v IH d s' B. inversion B as [| | |f v0 w Bv| | | | |]; subst. rewrite kept_slot_eq. specialize (IH _ _ Bv).
    split; [intros S; inversion S; subst; tauto|intros K; constructor; tauto].
  - intros l IH d s' B. inversion B as [| | | |f l0 l' Bl| | | |]; subst. rewrite kept_slot_eq. rewrite fold_right_Forall.
    assert (H : Forall2 same_value l l' <-> Forall (kept_value (f_typ f)) l).
    { clear B. revert l' Bl. induction IH as [|v l Hv Hl IHl]; intros l' Bl; inversion Bl; subst.
      - split; intros _; constructor.
      - specialize (Hv _ _ ltac:(eassumption)). specialize (IHl _ ltac:(eassumption)). split; intros F; inversion F; subst; constructor; tauto. }
    split; [intros S; inversion S; subst; tauto|intros K; constructor; tauto].
  - intros p d s' B. inversion B as [| | | | |d0 k p0 q l R1 R2| | |]; subst. rewrite kept_slot_eq. split; [intros _; exact I|intros _; econstructor; eassumption].
  - intros l IH d s' B. inversion B as [| | | | | |f tk tv l0 l' T Bl| |]; subst. rewrite kept_slot_eq, T.
    rewrite (fold_right_Forall2 (fun _ v => kept_value tv v)).
    assert (H : Forall2 (fun a b => fst a = fst b /\ same_value (snd a) (snd b)) l l' <-> Forall (fun kv => kept_value tv (snd kv)) l).
    { clear B. revert l' Bl. induction IH as [|[k v] l Hv Hl IHl]; intros l' Bl; inversion Bl as [|a b x y [E Bv] B2]; subst.
      - split; intros _; constructor.
      - specialize (IHl _ B2). destruct Hv as [_ Hv]. specialize (Hv _ _ Bv). cbn [fst snd] in *. split; intros F; inversion F; subst; constructor; cbn [fst snd] in *; tauto. }
    split; [intros S; inversion S; subst; tauto|intros K; constructor; tauto].
  - intros d s' B. inversion B; subst. rewrite kept_slot_eq. split; [intros _; exact I|intros _; constructor].
  - intros i v IH d s' B. inversion B as [| | | | | | | |vs i0 f v0 w N Bv]; subst. rewrite kept_slot_eq, N. specialize (IH _ _ Bv).
    split; [intros S; inversion S; subst; tauto|intros K; constructor; tauto].
Qed.

(** what comes back is [kept]: a second round trip changes nothing more *)
Lemma back_kept :
  (forall v ty w, back_value ty v w -> kept_value ty w) /\
  (forall s d s', back_slot d s s' -> kept_slot d s').
Proof.
  apply value_slot_ind.
  - intros z ty w B. inversion B; subst. exact I.
  - intros b ty w B. inversion B; subst. exact I.
  - intros b ty w B. inversion B; subst. exact I.
  - intros ss IH ty w B. inversion B as [| | |m msg ss0 ss' G Bs]; subst. rewrite kept_value_msg. unfold kept. rewrite G.
    clear B G. revert Bs. generalize (descs c msg). intros ds. revert ds ss'.
    induction IH as [|s ss Hs Hss IHs]; intros ds ss' Bs; inversion Bs as [|d ds1 s1 ss1 s2 ss2 B1 B2]; subst; cbn [kept_slots]; [exact I|].
    split; [exact (Hs _ _ B1)|exact (IHs _ _ B2)].
  - intros v IH d s' B. rewrite kept_slot_eq. inversion B as [f v0 w E Bv|f v0 w E Z| | | | | | |]; subst.
    + split; [|exact (IH _ _ Bv)]. intros E'. exfalso.
      assert (v = w) as <-; [|congruence].
      inversion Bv as [| | |m msg ss ss' G Bs T]; subst; try reflexivity. exfalso. unfold elided, implicit_presence in E'. rewrite <- T in E'.
      destruct (f_freq f); discriminate E'.
    + split; [intros _; exact Z|apply zero_kept, Z].
  - intros d s' B. inversion B; subst. exact I.
  - intros v IH d s' B. inversion B as [| | |f v0 w Bv| | | | |]; subst. rewrite kept_slot_eq. exact (IH _ _ Bv).
  - intros l IH d s' B. inversion B as [| | | |f l0 l' Bl| | | |]; subst. rewrite kept_slot_eq. rewrite fold_right_Forall.
    clear B. revert l' Bl. induction IH as [|v l Hv Hl IHl]; intros l' Bl; inversion Bl; subst; constructor; eauto.
  - intros p d s' B. inversion B; subst. exact I.
  - intros l IH d s' B. inversion B as [| | | | | |f tk tv l0 l' T Bl| |]; subst. rewrite kept_slot_eq, T.
    rewrite (fold_right_Forall2 (fun _ v => kept_value tv v)).
    clear B. revert l' Bl. induction IH as [|[k v] l Hv Hl IHl]; intros l' Bl; inversion Bl as [|a b x y [E Bv] B2]; subst; constructor.
    + destruct Hv as [_ Hv]. exact (Hv _ _ Bv).
    + exact (IHl _ B2).
  - intros d s' B. inversion B; subst. exact I.
  - intros i v IH d s' B. inversion B as [| | | | | | | |vs i0 f v0 w N Bv]; subst. rewrite kept_slot_eq, N. exact (IH _ _ Bv).
Qed.

Lemma back_length_same m ss ss' : back m ss ss' -> (Forall2 same_slot ss ss' <-> kept m ss).
Proof.
  intros B. pose proof (proj1 back_same _ _ _ B) as H. rewrite kept_value_msg in H. rewrite <- H.
  split; [apply sv_msg|]. intros S. inversion S; subst. assumption.
Qed.

(** ** The model's result is [back] *)
Hypothesis WF : schema_wf D c lit.
(** The file is a proto3 file, or no proto3 field has a [default] option (protobuf forbids
    it), or no message has both proto3 fields without presence and required proto2
    fields (a message comes from one file, of one syntax) *)
Definition one_syntax : Prop := d_syntax D = Proto3 \/ no_proto3_default D \/
  (forall m msg f g, get_message D m = Some msg -> In f (m_fields msg) -> In g (m_fields msg) ->
   f_freq f = P3Default -> f_freq g <> P2Required).
Hypothesis OS : one_syntax.

Definition default_zero (d : sdesc) (s : slot) : Prop :=
  match d with
  | SdField f => implicit_presence f = true -> f_boxed f = false -> typ_ok D (f_typ f) -> exists w, s = SlOne w /\ zero_of (f_typ f) w
  | _ => True
  end.

Lemma type_zero dm t w : (forall m, t <> TMessage m) -> type_default D dm t = Some w -> zero_of t w.
Proof.
  intros NM E. destruct t; cbn in E |- *; try discriminate E; try (injection E as <-; reflexivity).
  - injection E as <-. eexists. split; [reflexivity|]. unfold enum_default.
    destruct (get_enum D e) as [en|]; [|reflexivity]. destruct (en_fields en) as [|[a b] l]; reflexivity.
  - exfalso. eapply NM; reflexivity.
Qed.
Lemma message_default_zero m msg df : get_message D m = Some msg -> message_default D c lit m = Some df ->
  Forall2 default_zero (descs c msg) df.
Proof.
  intros G H.
  assert (K : no_proto3_default D -> Forall2 default_zero (descs c msg) df).
  { intros N. pose proof (message_default_agrees D c lit N m msg df G H) as A. eapply Forall2_in_l; [exact A|].
    intros d s Hin Ag. destruct d as [f|vs]; [|exact I]. intros IP Hbx Ht. destruct (implicit_p3 f IP) as [P3 NM].
    cbn [default_agrees] in Ag. destruct Ag as (w & W & ->); [exact IP|rewrite P3; reflexivity|exact Hbx|].
    exists w. split; [reflexivity|]. unfold implicit_default in W. rewrite (N m msg f G (desc_in_fields c msg f Hin) P3) in W.
    eapply type_zero; eassumption. }
  unfold message_default in H. destruct (default_depth D) as [|n] eqn:Dd; [discriminate|].
  cbn [default_msg] in H. rewrite G in H. rewrite default_inits_descs, map_map in H.
  apply all_some_map in H.
  assert (Q : no_proto3_default D \/ forall f, In f (m_fields msg) -> f_freq f = P3Default ->
    message_must_generate_impl_default (d_syntax D) c msg = false).
  { destruct OS as [S3|[N|OS']]; [right|left; exact N|right].
    - intros f _ _. unfold message_must_generate_impl_default. apply not_true_is_false. intros Ex. apply existsb_exists in Ex. destruct Ex as (g & Hg & Eg).
      unfold must_generate_impl_default, has_valid_visible_custom_default in Eg. rewrite S3, andb_false_r in Eg. discriminate Eg.
    - intros f Hf P3. unfold message_must_generate_impl_default. apply not_true_is_false. intros Ex. apply existsb_exists in Ex. destruct Ex as (g & Hg & Eg).
      unfold must_generate_impl_default in Eg. apply andb_prop in Eg. destruct Eg as [_ Eg].
      apply (OS' m msg f g G Hf Hg P3). destruct (f_freq g); try discriminate Eg. reflexivity. }
  destruct Q as [N|Q]; [exact (K N)|].
  eapply Forall2_in_l; [exact H|]. cbn beta. intros d s Hin E.
  destruct d as [f|vs]; [|exact I]. intros IP Hbx Ht.
  destruct (implicit_p3 f IP) as [P3 NM].
  rewrite (Q f (desc_in_fields c msg f Hin) P3) in E. unfold sd_init in E. cbn [init_slot sd_type] in E.
  unfold get_type, generated_type_of in E. rewrite P3, Hbx in E. cbn [freq_is_map freq_is_repeated freq_is_optional derived_slot] in E.
  destruct (type_default D (default_msg D c lit n) (f_typ f)) as [w|] eqn:W; [|discriminate E]. injection E as <-.
  exists w. split; [reflexivity|]. eapply type_zero; eassumption.
Qed.

Lemma back_canon :
  (forall v ty, typ_ok D ty -> val_ok D c ty v -> back_value ty v (canon_value D c lit ty v)) /\
  (forall s d df, desc_ok D c lit d -> slot_ok D c (sd_type c d) s ->
     blank (sd_type c d) df -> default_zero d df -> back_slot d s (canon_slot D c lit d df s)).
Proof.
  apply value_slot_ind.
  - intros z ty Ht Hv. constructor.
  - intros b ty Ht Hv. constructor.
  - intros b ty Ht Hv. constructor.
  - intros ss IH ty Ht Hv. destruct ty; try contradiction Hv.
    rewrite val_ok_msg in Hv. rewrite canon_value_msg.
    unfold message_ok, canon_message in *. destruct (get_message D m) as [msg|] eqn:G; [|contradiction]. apply (bv_msg m msg); [exact G|].
    destruct (WF m msg G) as [W1 _ W3]. destruct (message_default D c lit m) as [df|] eqn:Df; [|congruence].
    pose proof (message_default_blank D c lit WF m msg df G Df) as B.
    pose proof (message_default_zero m msg df G Df) as A. rewrite struct_def_descs in Hv.
    clear W3 Ht Df. revert df B A. revert W1 Hv. generalize (descs c msg). intros ds. revert ds.
    clear -IH. induction IH as [|s ss Hs Hss IHs]; intros ds W1 Hv df B A; destruct ds as [|d ds]; try contradiction Hv.
    + inversion B; subst. constructor.
    + inversion B; subst. inversion A; subst. inversion W1; subst. cbn [map slots_ok canon_slots] in *.
      destruct Hv. constructor; [apply Hs; auto|apply IHs; auto].
  - intros v IH d df Hd Ho Hb Ha. destruct d as [f|vs]; [|contradiction Ho].
    cbn [sd_type] in *. rewrite slot_ok_eq in Ho. rewrite canon_slot_field_eq.
    destruct (get_type c f) as [| |ty| | | | |] eqn:GT; try contradiction Ho.
    destruct (get_type_plain D c lit f ty GT Hd) as (-> & Ht & F & Hbx).
    destruct (elided D c lit f v) eqn:E.
    + assert (IP : implicit_presence f = true) by (unfold elided in E; apply andb_prop in E; tauto).
      destruct (Ha IP Hbx Ht) as (w & -> & Z). apply bs_omitted; assumption.
    + apply bs_written; [exact E|]. apply IH; assumption.
  - intros d df Hd Ho Hb Ha. destruct d as [f|vs]; [|contradiction Ho]. constructor.
  - intros v IH d df Hd Ho Hb Ha. destruct d as [f|vs]; [|contradiction Ho].
    cbn [sd_type] in *. rewrite slot_ok_eq in Ho. rewrite canon_slot_field_eq. apply bs_some.
    assert (Hx : exists ty, (get_type c f = TyOption ty \/ get_type c f = TyOptionBox ty) /\ val_ok D c ty v).
    { destruct (get_type c f) as [ty|ty|ty| | | | |] eqn:GT; try contradiction Ho; exists ty; auto. }
    destruct Hx as (ty & GT & Hv). destruct (get_type_opt D c lit f ty GT Hd) as (-> & Ht & _). apply IH; assumption.
  - intros l IH d df Hd Ho Hb Ha. destruct d as [f|vs]; [|contradiction Ho].
    cbn [sd_type] in *. rewrite slot_ok_eq in Ho. rewrite canon_slot_field_eq. apply bs_vec.
    destruct (get_type c f) as [| |ty| |ty| | |] eqn:GT; try contradiction Ho.
    destruct (get_type_vec D c lit f ty GT Hd) as (-> & Ht & _).
    apply fold_right_Forall in Ho.
    induction IH as [|v l Hv Hl IHl]; [constructor|]. inversion Ho; subst. constructor; auto.
  - intros p d df Hd Ho Hb Ha. destruct d as [f|vs]; [|contradiction Ho].
    cbn [sd_type] in *. rewrite slot_ok_eq in Ho. rewrite canon_slot_field_eq.
    destruct (get_type c f) as [| |ty|k|ty| | |] eqn:GT; try contradiction Ho.
    destruct (get_type_pf D c lit f k GT Hd) as (-> & _). destruct Ho as (l & R).
    destruct (pf_is_empty p) eqn:E.
    + cbn in Hb. destruct Hb as [-> | ->]; eapply bs_pf; eauto; eapply pf_empty_rep; eauto.
    + eapply bs_pf; [exact R|]. rewrite (pf_raw_rep _ _ _ R). split; [reflexivity|apply R].
  - intros l IH d df Hd Ho Hb Ha. destruct d as [f|vs]; [|contradiction Ho].
    cbn [sd_type] in *. rewrite slot_ok_eq in Ho. rewrite canon_slot_field_eq.
    destruct (get_type c f) as [| |ty|k|ty|tk tv| |] eqn:GT; try contradiction Ho.
    destruct (get_type_map D c lit f tk tv GT Hd) as (T & Hk & Hv & _). rewrite T in *. apply (bs_map f tk tv); [exact T|].
    destruct Ho as [Ho _]. apply (fold_right_Forall2 (fun k v => val_ok D c tk k /\ val_ok D c tv v)) in Ho.
    induction IH as [|[k v] l Hkv Hl IHl]; [constructor|]. inversion Ho; subst. constructor; auto.
    cbn [fst snd] in *. split; [reflexivity|]. apply Hkv; tauto.
  - intros d df Hd Ho Hb Ha. destruct d as [f|vs]; [|constructor].
    cbn [sd_type] in *. rewrite slot_ok_eq in Ho. destruct (get_type c f) eqn:GT; try contradiction Ho. contradiction (get_type_oneof c f _ GT).
  - intros i v IH d df Hd Ho Hb Ha. destruct d as [f|vs].
    { cbn [sd_type] in *. rewrite slot_ok_eq in Ho. destruct (get_type c f) eqn:GT; try contradiction Ho. contradiction (get_type_oneof c f _ GT). }
    cbn [sd_type desc_ok] in *. rewrite slot_ok_eq in Ho. rewrite canon_slot_oneof_eq.
    destruct (nth_error vs i) as [f|] eqn:Nv; [|contradiction Ho].
    rewrite Forall_forall in Hd. specialize (Hd f (nth_error_In _ _ Nv)). apply (bs_oneof vs i f); [exact Nv|]. apply IH; assumption.
Qed.

Lemma back_message m ss : message_ok D c m ss -> back m ss (canon_message D c lit m ss).
Proof.
  intros Ho. destruct back_canon as [S _].
  assert (G : typ_ok D (TMessage m)) by (cbn; unfold message_ok in Ho; destruct (get_message D m); [discriminate|contradiction]).
  specialize (S (VMsg ss) (TMessage m) G Ho). rewrite canon_value_msg in S. exact S.
Qed.

(** ** [kept], without [default] options: no -0.0 *)
Hypothesis ND : no_proto3_default D.

Lemma float_zero f v : implicit_presence f = true -> f_default f = None -> typ_ok D (f_typ f) -> val_ok D c (f_typ f) v ->
  (elided D c lit f v = true -> zero_of (f_typ f) v) <-> ~ negative_zero (f_typ f) v.
Proof.
  intros IP Nd Ht Hv. destruct (implicit_p3 f IP) as [P3 NM]. unfold elided. rewrite IP. unfold implicit_default. rewrite Nd. cbn [andb]. split.
  - intros Z N. destruct (f_typ f) eqn:T; try contradiction N; destruct v; try contradiction N; cbn in N; subst z; specialize (Z eq_refl); discriminate Z.
  - intros N E. destruct (type_default D (message_default D c lit) (f_typ f)) as [w|] eqn:W; [|discriminate E].
    assert (v = w) as -> by (eapply rust_eq_default; eassumption).
    eapply type_zero; eassumption.
Qed.

Lemma kept_nnz :
  (forall v ty, typ_ok D ty -> val_ok D c ty v -> (kept_value ty v <-> nnz_value D c ty v)) /\
  (forall s d, desc_ok D c lit d -> slot_ok D c (sd_type c d) s ->
     (forall f, d = SdField f -> implicit_presence f = true -> f_default f = None) ->
     (kept_slot d s <-> nnz_slot D c d s)).
Proof.
  apply value_slot_ind.
  - intros z ty Ht Hv. split; exact (fun x => x).
  - intros b ty Ht Hv. split; exact (fun x => x).
  - intros b ty Ht Hv. split; exact (fun x => x).
  - intros ss IH ty Ht Hv. destruct ty; try contradiction Hv.
    rewrite val_ok_msg in Hv. rewrite kept_value_msg, nnz_value_msg.
    unfold message_ok, kept, no_negative_zero in *. destruct (get_message D m) as [msg|] eqn:G; [|contradiction].
    destruct (WF m msg G) as [W1 _ _]. rewrite struct_def_descs in Hv.
    assert (Fd : forall f, In (SdField f) (descs c msg) -> implicit_presence f = true -> f_default f = None).
    { intros f Hin IP. eapply (ND m msg f G (desc_in_fields _ _ _ Hin)). apply implicit_p3, IP. }
    clear Ht. revert Fd W1 Hv. generalize (descs c msg). intros ds. revert ds.
    clear -IH. induction IH as [|s ss Hs Hss IHs]; intros ds Fd W1 Hv; destruct ds as [|d ds]; try contradiction Hv.
    + split; exact (fun x => x).
    + inversion W1; subst. cbn [map slots_ok kept_slots nnz_slots] in *. destruct Hv as [Hv1 Hv2].
      rewrite (Hs d); [|assumption..|intros f ->; apply Fd; left; reflexivity].
      rewrite (IHs ds); [reflexivity| |assumption..]. intros f Hin. apply Fd. right; exact Hin.
  - intros v IH d Hd Ho Hf. destruct d as [f|vs]; [|contradiction Ho].
    cbn [sd_type] in *. rewrite slot_ok_eq in Ho. rewrite kept_slot_eq, nnz_slot_eq.
    destruct (get_type c f) as [| |ty| | | | |] eqn:GT; try contradiction Ho.
    destruct (get_type_plain D c lit f ty GT Hd) as (-> & Ht & F & Hbx). rewrite (IH _ Ht Ho).
    destruct (implicit_presence f) eqn:IP.
    + rewrite (float_zero f v IP (Hf f eq_refl IP) Ht Ho). tauto.
    + unfold elided. rewrite IP. cbn [andb]. intuition discriminate.
  - intros d Hd Ho Hf. rewrite kept_slot_eq, nnz_slot_eq. reflexivity.
  - intros v IH d Hd Ho Hf. destruct d as [f|vs]; [|contradiction Ho].
    cbn [sd_type] in *. rewrite slot_ok_eq in Ho. rewrite kept_slot_eq, nnz_slot_eq.
    assert (Hx : exists ty, (get_type c f = TyOption ty \/ get_type c f = TyOptionBox ty) /\ val_ok D c ty v).
    { destruct (get_type c f) as [ty|ty|ty| | | | |] eqn:GT; try contradiction Ho; exists ty; auto. }
    destruct Hx as (ty & GT & Hv). destruct (get_type_opt D c lit f ty GT Hd) as (-> & Ht & _). apply IH; assumption.
  - intros l IH d Hd Ho Hf. destruct d as [f|vs]; [|contradiction Ho].
    cbn [sd_type] in *. rewrite slot_ok_eq in Ho. rewrite kept_slot_eq, nnz_slot_eq.
    destruct (get_type c f) as [| |ty| |ty| | |] eqn:GT; try contradiction Ho.
    destruct (get_type_vec D c lit f ty GT Hd) as (-> & Ht & _).
    apply fold_right_Forall in Ho. rewrite !fold_right_Forall.
    induction IH as [|v l Hv Hl IHl]; [split; constructor|]. inversion Ho; subst. rewrite !Forall_cons_iff, Hv, IHl by assumption. reflexivity.
  - intros p d Hd Ho Hf. rewrite kept_slot_eq, nnz_slot_eq. reflexivity.
  - intros l IH d Hd Ho Hf. destruct d as [f|vs]; [|contradiction Ho].
    cbn [sd_type] in *. rewrite slot_ok_eq in Ho. rewrite kept_slot_eq, nnz_slot_eq.
    destruct (get_type c f) as [| |ty|k|ty|tk tv| |] eqn:GT; try contradiction Ho.
    destruct (get_type_map D c lit f tk tv GT Hd) as (T & Hk & Hv & _). rewrite T in *.
    destruct Ho as [Ho _]. apply (fold_right_Forall2 (fun k v => val_ok D c tk k /\ val_ok D c tv v)) in Ho.
    rewrite (fold_right_Forall2 (fun _ v => kept_value tv v)), (fold_right_Forall2 (fun _ v => nnz_value D c tv v)).
    induction IH as [|[k v] l Hkv Hl IHl]; [split; constructor|]. inversion Ho; subst. rewrite !Forall_cons_iff, IHl by assumption.
    cbn [fst snd] in *. destruct Hkv as [_ Hkv]. rewrite (Hkv tv) by tauto. reflexivity.
  - intros d Hd Ho Hf. rewrite kept_slot_eq, nnz_slot_eq. reflexivity.
  - intros i v IH d Hd Ho Hf. destruct d as [f|vs].
    { cbn [sd_type] in *. rewrite slot_ok_eq in Ho. destruct (get_type c f) eqn:GT; try contradiction Ho. contradiction (get_type_oneof c f _ GT). }
    cbn [sd_type desc_ok] in *. rewrite slot_ok_eq in Ho. rewrite kept_slot_eq, nnz_slot_eq.
    destruct (nth_error vs i) as [f|] eqn:Nv; [|contradiction Ho].
    rewrite Forall_forall in Hd. specialize (Hd f (nth_error_In _ _ Nv)). apply IH; assumption.
Qed.

Lemma kept_no_negative_zero m ss : message_ok D c m ss -> (kept m ss <-> no_negative_zero D c m ss).
Proof.
  intros Ho. destruct kept_nnz as [S _].
  assert (G : typ_ok D (TMessage m)) by (cbn; unfold message_ok in Ho; destruct (get_message D m); [discriminate|contradiction]).
  specialize (S (VMsg ss) (TMessage m) G Ho). rewrite kept_value_msg, nnz_value_msg in S. exact S.
Qed.
End Back.
