(** Inputs that need a frame for every reference of a chain. *)
From Coq Require Import Arith ZArith Lia List.
From Verif Require Import Base BaseFacts Reader PackedFixed Writer Sizeofs Spec VarintFacts WriterFacts ScalarFacts DelimFacts Schema Gen GenSem GenSpec GenEmit GenRead GenSim LifetimeFacts Stack.
Import ListNotations.
Local Open Scope Z_scope.

Section Deep.
Variable t : target.
(** [m] runs out on [enc] *)
Definition starves {A} (m : rd A) (enc : bytes) : Prop :=
  forall bs s e, here bs s enc -> buf_ok t bs -> s + zlen enc <= e -> fst (m bs (mkR s e)) = NoFuel.
Definition starves_window {A} (m : rd A) (enc : bytes) : Prop :=
  forall bs s, here bs s enc -> buf_ok t bs -> fst (m bs (mkR s (s + zlen enc))) = NoFuel.

Lemma bind_starved {A B} (m : rd A) (f : A -> rd B) bs r : fst (m bs r) = NoFuel -> fst (bind m f bs r) = NoFuel.
Proof. unfold bind. destruct (m bs r) as ([x| | | |], r'); cbn; intros E; congruence || reflexivity. Qed.
Lemma starves_rmap {A B} (f : A -> B) m enc : starves m enc -> starves (rmap f m) enc.
Proof. intros H bs s e Hh Hb He. apply bind_starved, H; assumption. Qed.
Lemma starves_len {A} (m : rd A) body : zlen body < 2 ^ 32 -> starves_window m body -> starves (read_len_varint t m) (enc_len body).
Proof.
  intros Hl S bs s e H Hb He. pose proof (zlen_nonneg body). apply here_app in H. destruct H as [H1 H2]. unfold read_len_varint.
  erewrite bind_ok by (eapply here_reads_any; [apply (reads_varint32 (zlen body)); lia|exact H1]). rewrite Z.mod_small by lia.
  set (s1 := s + zlen (enc_varint (zlen body))) in *. destruct (buf_bound _ _ _ _ Hb H2). pose proof (usize_mod_ge t).
  unfold read_len. unfold bind at 1, get_end at 1. cbn [r_end]. unfold bind at 1, get_start at 1. cbn [r_start].
  unfold bind at 1, lift at 1. rewrite uadd_ok by lia. unfold bind at 1, set_end at 1. cbn [r_start].
  apply bind_starved, S; assumption.
Qed.
Lemma starves_packed {A} k (m : rd A) enc acc : enc <> [] -> starves m enc -> starves_window (packed_loop k m acc) enc.
Proof.
  intros N S bs s H Hb. apply zlen_nonempty in N. destruct k as [|k]; [reflexivity|]. cbn [packed_loop]. unfold bind at 1, is_eof. cbn [r_start r_end].
  destruct (Z.eqb_spec s (s + zlen enc)); [lia|]. apply bind_starved, S; [assumption..|lia].
Qed.
Lemma starves_map {K V} k (mk : rd K) (mv : rd V) kd vd enc : starves mv enc -> starves_window (map_loop k mk mv kd vd) (x12 :: enc).
Proof.
  intros S bs s H Hb. pose proof (zlen_nonneg enc). destruct k as [|k]; [reflexivity|]. cbn [map_loop]. unfold bind at 1, is_eof. cbn [r_start r_end].
  rewrite zlen_cons. destruct (Z.eqb_spec s (s + (1 + zlen enc))); [lia|].
  erewrite bind_ok by (eapply read_u8_here; exact H). apply here_cons in H. destruct H as (_ & H).
  change (Z.shiftr (bz x12) 3) with 2. cbn [Z.eqb Pos.eqb]. apply bind_starved, S; [assumption..|lia].
Qed.
Lemma starves_loop k step tag ss payload : is_u 32 tag -> starves (step tag ss) payload -> starves_window (msg_loop k step ss) (enc_varint tag ++ payload).
Proof.
  unfold is_u. intros Ht S bs s H Hb. pose proof (enc_varint_nonempty tag ltac:(lia)) as N. pose proof (zlen_nonneg payload).
  destruct k as [|k]; [reflexivity|]. rewrite zlen_app. apply here_app in H. destruct H as [Ha Hc]. cbn [msg_loop]. unfold bind at 1, is_eof. cbn [r_start r_end].
  destruct (Z.eqb_spec s (s + (zlen (enc_varint tag) + zlen payload))); [lia|].
  unfold next_tag. erewrite bind_ok by (eapply here_reads_any; [apply (reads_varint32 tag); lia|exact Ha]). rewrite Z.mod_small by lia.
  apply bind_starved, S; [assumption..|lia].
Qed.

Lemma varint5 v : 0 <= v < 2 ^ 32 -> zlen (enc_varint v) <= 5.
Proof.
  intros H. rewrite enc_varint_len by lia. unfold sizeof_varint. repeat match goal with |- context [?a <=? ?b] => destruct (Z.leb_spec a b) end; lia.
Qed.
Lemma enc_len5 b : zlen b < 2 ^ 32 -> zlen (enc_len b) <= zlen b + 5.
Proof. intros H. pose proof (zlen_nonneg b). unfold enc_len. rewrite zlen_app. pose proof (varint5 (zlen b)). lia. Qed.
Lemma enc_len_some b : zlen b < 2 ^ 32 -> enc_len b <> [].
Proof. intros H. pose proof (zlen_nonneg b). apply nonempty_zlen. unfold enc_len. rewrite zlen_app. pose proof (enc_varint_nonempty (zlen b) ltac:(lia)). lia. Qed.

Variables (D : file_descriptor) (c : config) (lit : field_type -> text -> option value).
Hypothesis WF : schema_wf D c lit.

(** the bytes after the tag that make the arm [a] read the message [b] *)
Definition wrap (a : action) (b : bytes) : bytes :=
  match a with
  | ASetPacked _ => enc_len (enc_len b)
  | AInsert _ _ _ _ => enc_len (x12 :: enc_len b)
  | _ => enc_len b
  end.
Lemma wrap_len a b : zlen b < 2 ^ 31 -> zlen (wrap a b) <= zlen b + 11.
Proof.
  intros H. pose proof (enc_len5 b ltac:(lia)). unfold wrap. destruct a; try lia.
  - pose proof (enc_len5 (enc_len b) ltac:(lia)). lia.
  - pose proof (enc_len5 (x12 :: enc_len b) ltac:(rewrite zlen_cons; lia)). rewrite zlen_cons in *. lia.
Qed.
(** an arm that reads messages [j] *)
Inductive reads_j (j : midx) : action -> slot -> Prop :=
| rj_box s : reads_j j (ASetSomeBox (RMessage j)) s
| rj_some s : reads_j j (ASetSome (RMessage j)) s
| rj_set s : reads_j j (ASet (RMessage j)) s
| rj_packed s : reads_j j (ASetPacked (RMessage j)) s
| rj_push l : reads_j j (APush (RMessage j)) (SlVec l)
| rj_insert tk tv rk l kd vd : type_default D (message_default D c lit) tk = Some kd -> type_default D (message_default D c lit) tv = Some vd ->
    reads_j j (AInsert tk tv rk (RMessage j)) (SlMap l)
| rj_oneof v s : reads_j j (AOneof v (RMessage j)) s.

Lemma act_starves k from j a s b : reads_j j a s -> zlen b < 2 ^ 31 -> starves_window (from j) b ->
  starves (run_action D c lit t k from a s) (wrap a b).
Proof.
  intros R Hl S. pose proof (enc_len5 b ltac:(lia)) as L5.
  assert (V : starves (read_value D t from (RMessage j)) (enc_len b)) by (cbn [read_value]; apply starves_rmap, starves_len; [lia|exact S]).
  destruct R; cbn [run_action wrap]; try (apply starves_rmap; exact V).
  - apply starves_rmap. unfold read_packed. apply starves_len; [lia|]. apply starves_packed; [apply enc_len_some; lia|exact V].
  - rewrite H, H0. apply starves_rmap. unfold read_map. apply starves_len; [rewrite zlen_cons; lia|]. apply starves_map. exact V.
Qed.
Lemma act_reads k from j a s b ss : reads_j j a s -> zlen b < 2 ^ 31 -> (length (wrap a b) < k)%nat -> reads_window t (from j) b ss ->
  exists s', reads t (run_action D c lit t k from a s) (wrap a b) s'.
Proof.
  intros R Hl Hk S. pose proof (enc_len5 b ltac:(lia)) as L5.
  assert (V : reads t (read_value D t from (RMessage j)) (enc_len b) (VMsg ss)) by (cbn [read_value]; apply reads_rmap, reads_len_varint; [lia|exact S]).
  destruct R; cbn [run_action wrap] in *; try (eexists; apply reads_rmap; exact V).
  - eexists. apply reads_rmap. unfold read_packed. apply reads_len_varint; [lia|]. intros pre post Hb. eexists.
    destruct k as [|[|k]]; [lia| |].
    { exfalso. pose proof (enc_len_some (enc_len b) ltac:(lia)). destruct (enc_len (enc_len b)); [congruence|cbn in Hk; lia]. }
    pose proof (enc_len_some b ltac:(lia)) as N. apply zlen_nonempty in N. cbn [packed_loop]. unfold bind at 1, is_eof at 1. cbn [r_start r_end].
    destruct (Z.eqb_spec (zlen pre) (zlen pre + zlen (enc_len b))); [lia|].
    erewrite bind_ok by (eapply here_reads; [exact V|apply here_intro|exact Hb|lia]). unfold bind, is_eof. cbn [r_start r_end]. rewrite Z.eqb_refl. reflexivity.
  - rewrite H, H0. eexists. apply reads_rmap.
    pose proof (reads_map_items t k kd vd (read_value D t from rk) (read_value D t from (RMessage j)) [MVal x12 (VMsg ss) (enc_len b)]) as M.
    cbn [flat_map item_bytes app] in M. rewrite app_nil_r in M. apply M.
    + constructor; [|constructor]. cbn. split; [reflexivity|exact V].
    + cbn [length]. pose proof (enc_len_gt (x12 :: enc_len b) ltac:(rewrite zlen_cons; lia)) as G. cbn [length] in G. lia.
    + rewrite zlen_cons. lia.
Qed.

Lemma leaves_message ty j : typ_ok D ty -> In (TMessage j) (leaves ty) -> ty = TMessage j.
Proof. destruct ty; cbn; try contradiction; intros _ [E|[]]; congruence. Qed.
(** a field that refers to [j] has such an arm *)
Lemma field_reads f j s : field_ok D c lit f -> In (TMessage j) (leaves (f_typ f)) -> blank (get_type c f) s -> reads_j j (field_arm f) s.
Proof.
  intros (O1 & O2 & O3 & _) L B. unfold field_arm, get_type, generated_type_of in *. destruct (f_boxed f).
  { specialize (O1 eq_refl). destruct (f_freq f); try discriminate O1; cbn in O2; rewrite (leaves_message _ _ O2 L); constructor. }
  destruct (f_freq f); cbn [freq_is_map freq_is_repeated freq_is_optional] in *;
    try (rewrite (leaves_message _ _ O2 L); constructor).
  all: try (rewrite (leaves_message _ _ O2 L) in *; cbn [is_fixed_size read_fn] in *; rewrite andb_false_r in B; cbn [andb negb blank] in B; subst s; destruct (f_is_packed f); constructor).
  all: destruct (f_typ f) as [| | | | | | | | | | | | | | | | | | | |tk tv]; try contradiction O2; destruct O2 as (Ok & Ov); cbn [leaves] in L; apply in_app_iff in L;
    destruct L as [L|L]; [destruct tk; try contradiction Ok; destruct L as [L|[]]; discriminate L|];
    pose proof (leaves_message _ _ Ov L) as E; subst tv; cbn [blank] in B; subst s; cbn [read_fn].
  all: destruct (type_default_some D c lit WF tk) as (kd & Ek); [destruct tk; try contradiction Ok; exact Logic.I|].
  all: destruct (type_default_some D c lit WF (TMessage j) Ov) as (vd & Ev).
  all: exact (rj_insert j tk (TMessage j) (read_fn tk) [] kd vd Ek Ev).
Qed.

Lemma forall2_nth {A B} (R : A -> B -> Prop) l l' i x : Forall2 R l l' -> nth_error l i = Some x -> exists y, nth_error l' i = Some y /\ R x y.
Proof.
  intros F. revert i. induction F as [|a b l l' H F IH]; intros [|i] E; try discriminate; [injection E as <-; now exists b|]. exact (IH i E).
Qed.
(** what a message with a reference does on a field with that message in it *)
Lemma refers_arm i j : refers D c i j -> exists m d f k a, get_message D i = Some m /\ message_default D c lit i = Some d /\ is_unit m = false /\
  find (fun '(n, _) => n =? field_tag f) (match_arms c m) = Some (field_tag f, (k, a)) /\ exists s, nth_error d k = Some s /\ reads_j j a s.
Proof.
  intros (m & f & G & F & Vi & L). apply visible_says in Vi. destruct (WF i m G) as [W _ Wd]. destruct (message_default D c lit i) as [d|] eqn:Ed; [|congruence].
  pose proof (message_default_blank D c lit WF i m d G Ed) as B. rewrite Forall_forall in W.
  assert (U : is_unit m = false).
  { destruct m as [? fs os]. cbn [m_fields m_oneofs is_unit] in *. destruct F as [F|(o & Io & F)]; [destruct fs; [contradiction|reflexivity]|]. destruct os; [contradiction|destruct fs; reflexivity]. }
  assert (X : exists q, In q (descs c m) /\ In f (desc_fields q)).
  { unfold descs. destruct F as [F|(o & Io & F)].
    - exists (SdField f). split; [|now left]. apply in_or_app. left. apply in_map. now apply filter_In.
    - exists (SdOneof (oneof_variants c o)). split; [|now apply filter_In]. apply in_or_app. right. apply in_map_iff. now exists o. }
  destruct X as (q & Iq & If). pose proof (W q Iq) as Wq. apply In_nth_error in Iq. destruct Iq as (k & Nk).
  destruct (forall2_nth _ _ _ _ _ B Nk) as (s & Ns & Bs).
  destruct q as [f'|vs].
  - destruct If as [->|[]]. exists m, d, f, k, (field_arm f). do 3 (split; [assumption || reflexivity|]). split.
    + apply (find_arm D c lit WF i m G k (SdField f) (field_arm f) f Nk). now left.
    + exists s. split; [exact Ns|]. now apply field_reads.
  - cbn [desc_fields] in If. apply In_nth_error in If. destruct If as (v & Nv). cbn [desc_ok] in Wq. rewrite Forall_forall in Wq.
    pose proof (leaves_message _ _ (Wq f (nth_error_In _ _ Nv)) L) as E.
    exists m, d, f, k, (AOneof v (read_fn (f_typ f))). do 3 (split; [assumption || reflexivity|]). split.
    + apply (find_arm D c lit WF i m G k (SdOneof vs) _ f Nk). cbn [desc_arms]. apply in_map_iff. exists (v, f). split; [reflexivity|]. apply (number_from_nth vs 0 v f Nv).
    + exists s. split; [exact Ns|]. rewrite E. constructor.
Qed.

(** a chain of [n] references: an input of at most 16 bytes a reference for which [n]
    frames are too few and [n + 1] are enough *)
Theorem deep_input : forall n i, chain D c n i -> get_message D i <> None -> Z.of_nat n <= 2 ^ 26 ->
  exists b, zlen b <= 16 * Z.of_nat n /\ (forall k, starves_window (on_stack D c lit t n k i) b) /\
    (forall k, (length b < k)%nat -> exists ss, reads_window t (on_stack D c lit t (S n) k i) b ss).
Proof.
  induction n as [|n IH]; intros i C Gi Hn.
  - exists []. split; [cbn; lia|]. split; [intros k bs s _ _; reflexivity|]. intros k Hk.
    destruct (get_message D i) as [m|] eqn:G; [|congruence]. destruct (WF i m G) as [_ _ Wd]. destruct (message_default D c lit i) as [d|] eqn:Ed; [|congruence].
    exists d. cbn [on_stack]. rewrite G, Ed. destruct (is_unit m).
    + intros pre post Hb. eexists. reflexivity.
    + apply steps_window; [apply steps_nil|exact Hk].
  - inversion C as [|? ? j R Cj]; subst. destruct (refers_arm i j R) as (m & d & f & k0 & a & G & Ed & U & Ef & s & Ns & Rj).
    assert (Gj : get_message D j <> None).
    { destruct R as (m' & f' & G' & F' & V' & L'). apply visible_says in V'. destruct (WF i m' G') as [W _ _]. rewrite Forall_forall in W. destruct F' as [F'|(o & Io & F')].
      - destruct (W (SdField f')) as (_ & O2 & _); [apply in_or_app; left; apply in_map; now apply filter_In|].
        destruct (freq_is_map (f_freq f')).
        + destruct (f_typ f') as [| | | | | | | | | | | | | | | | | | | |tk tv]; try contradiction O2. destruct O2 as (Ok & Ov). cbn [leaves] in L'. apply in_app_iff in L'.
          destruct L' as [L'|L']; [destruct tk; try contradiction Ok; destruct L' as [L'|[]]; discriminate L'|]. rewrite (leaves_message _ _ Ov L') in Ov. exact Ov.
        + rewrite (leaves_message _ _ O2 L') in O2. exact O2.
      - pose proof (W (SdOneof (oneof_variants c o)) ltac:(apply in_or_app; right; apply in_map_iff; now exists o)) as Q. cbn [desc_ok] in Q. rewrite Forall_forall in Q.
        pose proof (Q f' ltac:(now apply filter_In)) as Ov. rewrite (leaves_message _ _ Ov L') in Ov. exact Ov. }
    destruct (IH j Cj Gj ltac:(lia)) as (b & Lb & Sb & Rb). exists (enc_key f ++ wrap a b).
    pose proof (field_tag_range f) as FT. unfold enc_key. split; [|split].
    + rewrite zlen_app. pose proof (wrap_len a b ltac:(lia)). pose proof (varint5 (field_tag f) FT). lia.
    + intros k. cbn [on_stack]. rewrite G, Ed, U. apply starves_loop; [exact FT|]. unfold run_field. rewrite Ef, Ns. apply starves_rmap.
      apply (act_starves k _ j); [exact Rj|lia|apply Sb].
    + intros k Hk. rewrite app_length in Hk. destruct (Rb k) as (ss & Rs).
      { assert (length b <= length (wrap a b))%nat; [|lia]. unfold wrap, enc_len. destruct a; cbn [length]; rewrite ?app_length; cbn [length]; rewrite ?app_length; lia. }
      cbn [on_stack] in Rs |- *. rewrite G, Ed, U.
      destruct (act_reads k (on_stack D c lit t (S n) k) j a s b ss Rj ltac:(lia) ltac:(lia) Rs) as (s' & Ra).
      exists (set_nth k0 s' d). apply steps_window; [|rewrite app_length; exact Hk]. apply steps_one; [exact FT|]. unfold run_field. rewrite Ef, Ns.
      apply (reads_rmap t (fun s' => set_nth k0 s' d)). exact Ra.
Qed.
End Deep.
