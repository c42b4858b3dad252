(** Property theorem C53: a schema that follows the rules of the protobuf
    language and is accepted by the passes satisfies what the theorems about
    the generated code assume. *)
From Coq Require Import String Arith Lia ZifyBool.
From Verif Require Import Base Reader Writer Spec Schema Keywords Modules Passes Gen GenSem GenSpec GenRecords GenType GenSame GenCheck
  Cycles CycleFacts BreakFacts IndexFacts Pipeline PassFacts ResolveFacts AcceptFacts Props_Passes Props_Generated Props_Wire Examples.
Import StringSyntax.
Local Open Scope string_scope.
Local Open Scope list_scope.
Local Open Scope Z_scope.

(** Rules of the protobuf language for a parsed schema.  The passes check none
    of them. *)
Record protobuf_rules (d : file_descriptor) : Prop := mkRules {
  pr_range : forall p m f, get_message d p = Some m -> field_of m f -> 1 <= f_number f < 2 ^ 29;
  pr_distinct : forall p m, get_message d p = Some m -> NoDup (map f_number (m_fields m ++ flat_map o_fields (m_oneofs m)));
  pr_types : forall p m f, get_message d p = Some m -> field_of m f ->
    if freq_is_map (f_freq f)
    then exists k v, f_typ f = TMap k v /\ source_type v /\
           In k [TInt32; TInt64; TUint32; TUint64; TSint32; TSint64; TBool;
                 TFixed64; TSfixed64; TFixed32; TSfixed32; TStringCow]
    else source_type (f_typ f);
  pr_oneof : forall p m o f, get_message d p = Some m -> In o (m_oneofs m) -> In f (o_fields o) ->
    freq_is_repeated (f_freq f) = false /\ freq_is_map (f_freq f) = false;
  pr_packed : forall p m f, get_message d p = Some m -> field_of m f -> f_packed f = Some true -> freq_is_repeated (f_freq f) = true;
  (* not a rule: the parser sets [boxed] to false *)
  pr_unboxed : forall p m f, get_message d p = Some m -> field_of m f -> f_boxed f = false }.

(** the literals of the [default] options have values *)
Definition literals_ok (lit : field_type -> text -> option value) (d : file_descriptor) : Prop :=
  forall p m f s, get_message d p = Some m -> field_of m f -> f_default f = Some s -> lit (f_typ f) s <> None.

(** With --dont-use-cow the code for packed repeated fields of fixed size does
    not compile: the field is a Vec (types.rs:827), but from_reader assigns the
    PackedFixed that read_packed_fixed returns to it (types.rs:896-897). *)
Definition compiles (c : config) (d : file_descriptor) : Prop :=
  c_dont_use_cow c = true ->
  forall p m f, get_message d p = Some m -> field_of m f -> freq_is_repeated (f_freq f) = true -> is_fixed_size (f_typ f) = false.

Lemma process_field_back c d d' p m' f' : process c d = GOk d' -> get_message d' p = Some m' -> field_of m' f' ->
  exists m f, get_message d p = Some m /\ field_of m f /\ field_final c d p m f f'.
Proof.
  intros H G Hf. pose proof (process_message c d d' H p) as R. rewrite G in R. inversion R as [|m x F A B]; subst.
  destruct (fields_rel_back _ _ _ _ F Hf) as (f & Hf0 & FF). exists m, f. auto.
Qed.

Section Accepted.
Variables (c : config) (lit : field_type -> text -> option value) (d d' : file_descriptor).
Hypothesis Rules : protobuf_rules d.
Hypothesis Acc : process c d = GOk d'.
Hypothesis Lits : literals_ok lit d'.
Hypothesis Cow : compiles c d'.

Lemma own_plain t : typ_ok d' t -> own_type t = own1 t.
Proof. destruct t; try reflexivity. contradiction. Qed.

Lemma final_types p m f f' : get_message d p = Some m -> field_of m f -> field_final c d p m f f' ->
  if freq_is_map (f_freq f) then exists k v, f_typ f' = TMap k v /\ key_ok k /\ typ_ok d' v else typ_ok d' (f_typ f').
Proof.
  intros G Hf FF. pose proof (pr_types d Rules p m f G Hf) as T. destruct (ff_typ _ _ _ _ _ _ FF) as (t & R & E).
  destruct (freq_is_map (f_freq f)).
  - destruct T as (k & v & Et & Sv & Hk). rewrite Et in R. cbn [resolve_type] in R.
    apply gbind_ok in R. destruct R as (k' & Rk & R). apply gbind_ok in R. destruct R as (v' & Rv & R). injection R as <-.
    assert (Kk : key_ok k) by (cbn in Hk; decompose [or] Hk; subst; exact I || contradiction).
    apply key_stays in Rk; [|exact Kk]. subst k'. destruct (resolved_typ_ok c d d' _ _ _ _ Acc Sv Rv) as (V1 & V2).
    rewrite E. destruct (c_dont_use_cow c); cbn [own_type]; eexists; eexists; (split; [reflexivity|]); split; auto. now apply own1_key.
  - assert (Rn : resolve_name (full_msgs d) (full_enums d) (m_package m) (m_name m) (f_typ f) = GOk t) by (destruct (f_typ f); try exact R; contradiction).
    destruct (resolved_typ_ok c d d' _ _ _ _ Acc T Rn) as (V1 & V2). rewrite E. destruct (c_dont_use_cow c); [|exact V2]. now rewrite own_plain.
Qed.

Lemma final_map p m f f' : get_message d p = Some m -> field_of m f -> field_final c d p m f f' ->
  freq_is_map (f_freq f') = freq_is_map (f_freq f).
Proof.
  intros G Hf FF. destruct (ff_freq _ _ _ _ _ _ FF) as [(E & _)|(E & _ & Rp & j & T)]; rewrite E; [reflexivity|].
  pose proof (final_types p m f f' G Hf FF) as K. destruct (freq_is_map (f_freq f)) eqn:Fm.
  - destruct K as (k & v & E' & _). congruence.
  - destruct (f_freq f); try discriminate; reflexivity.
Qed.

Lemma final_field_ok p m f f' m' : get_message d p = Some m -> field_of m f -> get_message d' p = Some m' -> field_of m' f' ->
  field_final c d p m f f' -> field_ok d' c lit f'.
Proof.
  intros G Hf G' Hf' FF. pose proof (final_types p m f f' G Hf FF) as T. pose proof (final_map p m f f' G Hf FF) as Fm.
  split; [|split; [|split]].
  - intros B. destruct (ff_freq _ _ _ _ _ _ FF) as [(E & Eb)|(E & _ & Rp & j & Tj)].
    + rewrite Eb, (pr_unboxed d Rules p m f G Hf) in B. discriminate.
    + rewrite E. destruct (freq_is_map (f_freq f)) eqn:M; [destruct T as (k & v & E' & _); congruence|].
      destruct (f_freq f); try discriminate; reflexivity.
  - rewrite Fm. destruct (freq_is_map (f_freq f)); [|exact T]. destruct T as (k & v & -> & K). exact K.
  - intros P. destruct (c_dont_use_cow c) eqn:Dc; [|reflexivity]. pose proof (Cow Dc p m' f' G' Hf') as X.
    apply andb_prop in P. destruct P as (P & Fx). apply andb_prop in P. destruct P as (P & _). rewrite (X P) in Fx. discriminate.
  - intros s Ds. pose proof (Lits p m' f' s G' Hf' Ds) as L. destruct (lit (f_typ f') s); [eauto|congruence].
Qed.

Lemma visible_oneofs os : flat_map (fun o => oneof_variants c o) os = filter (visible c) (flat_map o_fields os).
Proof.
  induction os as [|o os IH]; [reflexivity|]. cbn. rewrite IH. unfold oneof_variants. now rewrite filter_app.
Qed.
Lemma desc_fields_all m : flat_map desc_fields (descs c m) = filter (visible c) (all_fields m).
Proof.
  unfold descs, all_fields. rewrite flat_map_app, filter_app. f_equal.
  - unfold visible_fields. induction (filter (visible c) (m_fields m)) as [|f l IH]; cbn; [reflexivity|]. now rewrite IH.
  - rewrite <- visible_oneofs. induction (m_oneofs m) as [|o l IH]; cbn; [reflexivity|]. now rewrite IH.
Qed.
Lemma nodup_map_filter {A B} (g : A -> B) h l : NoDup (map g l) -> NoDup (map g (filter h l)).
Proof.
  induction l as [|x l IH]; cbn; intros H; [constructor|]. inversion H as [|y z Hx Hl]; subst. destruct (h x); [|auto]. cbn.
  constructor; [|auto]. intros Hin. apply Hx. apply in_map_iff in Hin. destruct Hin as (y & <- & Hy). apply filter_In in Hy. apply in_map. tauto.
Qed.
Lemma final_numbers p m m' : get_message d p = Some m -> get_message d' p = Some m' -> map f_number (all_fields m') = map f_number (all_fields m).
Proof.
  intros G G'. pose proof (process_message c d d' Acc p) as R. rewrite G, G' in R. inversion R as [|x y F A B]; subst.
  apply fields_rel_all in F. induction F as [|f f' l l' FF F IH]; [reflexivity|]. cbn. now rewrite IH, (ff_number _ _ _ _ _ _ FF).
Qed.

Lemma accepted_wf : schema_wf d' c lit.
Proof.
  assert (Fok : forall i m' f', get_message d' i = Some m' -> In f' (m_fields m') -> field_ok d' c lit f').
  { intros i m' f' G Hf. destruct (process_field_back c d d' i m' f' Acc G (or_introl Hf)) as (m & f & G0 & Hf0 & FF).
    eapply final_field_ok; eauto. now left. }
  intros i m' G'. destruct (get_message d i) as [m|] eqn:G; [|apply (process_exists c d d' i Acc) in G; congruence].
  constructor.
  - unfold descs. apply Forall_app. split; apply Forall_forall; intros x Hx; apply in_map_iff in Hx.
    + destruct Hx as (f' & <- & Hf'). unfold visible_fields in Hf'. apply filter_In in Hf'. cbn. apply (Fok i m' f' G'). tauto.
    + destruct Hx as (o' & <- & Ho'). cbn. apply Forall_forall. intros f' Hf'. unfold oneof_variants in Hf'. apply filter_In in Hf'.
      destruct Hf' as (Hf' & _). pose proof (process_message c d d' Acc i) as R. rewrite G, G' in R. inversion R as [|x y F A B]; subst.
      destruct F as (_ & F). destruct (Forall2_in_r _ _ _ F o' Ho') as (o & Ho & Fo).
      destruct (Forall2_in_r _ _ _ Fo f' Hf') as (f & Hf & FF). destruct (pr_oneof d Rules i m o f G Ho Hf) as (_ & Nm).
      pose proof (final_types i m f f' G (or_intror (ex_intro _ o (conj Ho Hf))) FF) as T. now rewrite Nm in T.
  - apply (C35_tags_partial c m').
    + rewrite desc_fields_all. apply Forall_forall. intros f' Hf'. apply filter_In in Hf'. destruct Hf' as (Hf' & _).
      destruct (process_field_back c d d' i m' f' Acc G') as (m0 & f & G0 & Hf & FF); [now apply field_of_all|].
      rewrite (ff_number _ _ _ _ _ _ FF). now apply (pr_range d Rules i m0 f G0).
    + rewrite desc_fields_all. apply nodup_map_filter. rewrite (final_numbers i m m' G G'). apply (pr_distinct d Rules i m G).
  - destruct (process_rank c d d' Acc) as (rank & H1 & H2). exact (message_default_some d' c lit rank H1 Fok H2 i m' G').
Qed.

Lemma accepted_packed : schema_packed_ok d' c.
Proof.
  assert (P : forall i m f f', get_message d i = Some m -> field_of m f -> field_final c d i m f f' -> f_is_packed f' = true ->
            freq_is_repeated (f_freq f) = true).
  { intros i m f f' G Hf FF P. destruct (ff_packed _ _ _ _ _ _ FF) as (f0 & E & E1 & E2 & E3).
    pose proof (final_repeated _ _ _ _ _ _ FF) as Rp. unfold f_is_packed in P. rewrite E in P. unfold packed_after in P.
    assert (K : f_packed f0 = Some true -> freq_is_repeated (f_freq f) = true) by (rewrite E1; apply (pr_packed d Rules i m f G Hf)).
    rewrite E2, Rp in P. destruct (is_top i); [destruct (is_primitive (f_typ f0)); [|discriminate]|].
    - destruct (f_packed f0) as [b|]; [destruct (d_syntax d); subst b; now apply K|]. destruct (d_syntax d); [discriminate|].
      destruct (freq_is_repeated (f_freq f)); [reflexivity|discriminate].
    - destruct (f_packed f0) as [b|]; [|discriminate]. subst b. now apply K. }
  intros i m' G'. unfold descs. apply Forall_app. split; apply Forall_forall; intros x Hx; apply in_map_iff in Hx.
  - destruct Hx as (f' & <- & Hf'). unfold visible_fields in Hf'. apply filter_In in Hf'. destruct Hf' as (Hf' & _). cbn. intros Pk. left.
    destruct (process_field_back c d d' i m' f' Acc G' (or_introl Hf')) as (m & f & G & Hf & FF).
    rewrite (final_repeated _ _ _ _ _ _ FF). eapply P; eauto.
  - destruct Hx as (o' & <- & Ho'). cbn. apply Forall_forall. intros f' Hf'. unfold oneof_variants in Hf'. apply filter_In in Hf'.
    destruct Hf' as (Hf' & _). pose proof (process_message c d d' Acc i) as R. rewrite G' in R. inversion R as [|m y F A B]; subst. symmetry in A.
    destruct F as (_ & F). destruct (Forall2_in_r _ _ _ F o' Ho') as (o & Ho & Fo).
    destruct (Forall2_in_r _ _ _ Fo f' Hf') as (f & Hf & FF). destruct (pr_oneof d Rules i m o f A Ho Hf) as (Nr & _).
    destruct (f_is_packed f') eqn:E; [|reflexivity]. rewrite (P i m f f' A) in Nr; [discriminate|right; eauto|exact FF|exact E].
Qed.
End Accepted.

(** ** C53 *)
Theorem C53_accepted_well_formed : forall c lit d d', protobuf_rules d -> process c d = GOk d' ->
  literals_ok lit d' -> compiles c d' ->
  schema_wf d' c lit /\ schema_packed_ok d' c.
Proof. intros c lit d d' R A L C. split; [now apply accepted_wf with d|now apply accepted_packed with d]. Qed.
Print Assumptions C53_accepted_well_formed.

(** enums keep their numbers *)
Theorem C53_enums : forall c d d', process c d = GOk d' -> enums_ok d -> enums_ok d'.
Proof.
  intros c d d' A H q en G. rewrite (process_enum c d d' q A) in G. destruct (get_enum d q) as [e|] eqn:E; [|discriminate].
  injection G as <-. destruct (H q e E) as (H1 & H2). cbn. split.
  - intros X. apply map_eq_nil in X. contradiction.
  - rewrite map_map. exact H2.
Qed.
Print Assumptions C53_enums.

(** From the schema text to the bytes: for a schema that follows the rules and
    is accepted, serializing and deserializing a message of the generated type
    gives the message back.  Missing: as for C26, proto3 fields with a
    [default] option, -0.0 in fields without presence, 2^32 bytes and more. *)
Theorem C53_roundtrip_partial : forall c lit d d' t, protobuf_rules d -> process c d = GOk d' ->
  literals_ok lit d' -> compiles c d' ->
  (forall p m f, get_message d p = Some m -> field_of m f -> f_freq f = P3Default -> f_default f = None) ->
  forall i ss, message_ok d' c i ss -> no_negative_zero d' c i ss -> zlen (enc_message d' c lit i ss) < 2 ^ 32 ->
  exists full, serialize_into_vec (message_size d' c lit i ss) (message_write d' c lit i ss) = Ok full /\
    (buf_ok t full -> exists ss', Forall2 same_slot ss ss' /\
       forall n, (length full <= n)%nat -> deserialize_from_slice t (from_reader d' c lit t n i) full = Ok ss').
Proof.
  intros c lit d d' t R A L C P3 i ss Hok Hz Hl. destruct (C53_accepted_well_formed c lit d d' R A L C) as (W & _).
  assert (N : no_proto3_default d').
  { intros p m' f' G Hf E. destruct (process_field_back c d d' p m' f' A G (or_introl Hf)) as (m & f & G0 & Hf0 & FF).
    apply (ff_default _ _ _ _ _ _ FF). apply (P3 p m f G0 Hf0).
    destruct (ff_freq _ _ _ _ _ _ FF) as [(E' & _)|(E' & _)]; [congruence|]. rewrite E in E'. destruct (f_freq f); discriminate. }
  exact (proj2 (C26_roundtrip_partial d' c lit t W N i ss Hok Hz Hl)).
Qed.
Print Assumptions C53_roundtrip_partial.

(** ** The concrete case *)

(** {v
syntax = "proto3"; package p;
enum Color { RED = 0; DARK = -5; }
message Node {
  Leaf left = 1;  Node next = 2;  map<string, Leaf> kids = 3;
  oneof v { Color color = 4; Other other = 5; }
  repeated fixed32 nums = 6;
  message Leaf { string type = 1; repeated Node back = 2; }
}
message Other { Node node = 7; }
    v} *)
Definition srcD : file_descriptor := set_own_package (mkDesc "p" Proto3
  [msg "Node" [fd "left" P3Optional (TMessageOrEnum "Leaf") 1; fd "next" P3Optional (TMessageOrEnum "Node") 2;
               fd "kids" P3Map (TMap TStringCow (TMessageOrEnum "Node.Leaf")) 3; fd "nums" P3Repeated TFixed32 6]
              [mkOneof "v" [fd "color" P3Optional (TMessageOrEnum ".p.Color") 4; fd "other" P3Optional (TMessageOrEnum "Other") 5] "" "" false]
              [msg "Leaf" [fd "type" P3Default TStringCow 1; fd "back" P3Repeated (TMessageOrEnum "Node") 2] [] []];
   msg "Other" [fd "node" P3Optional (TMessageOrEnum "Node") 7] [] []]
  [mkEnum "Color" [("RED", 0); ("DARK", -5)] false "" ""] "p").
Lemma srcD_rules : protobuf_rules srcD.
Proof.
  assert (Q : forall (P : message -> field -> Prop), 
     (forall p m, In (p, m) (all_messages srcD) -> Forall (P m) (all_fields m)) ->
     forall p m f, get_message srcD p = Some m -> field_of m f -> P m f).
  { intros P H p m f G Hf. apply get_message_in in G. apply field_of_all in Hf. specialize (H p m G). rewrite Forall_forall in H. auto. }
  assert (E : forall (P : message -> Prop), (forall p m, In (p, m) (all_messages srcD) -> P m) -> forall p m, get_message srcD p = Some m -> P m).
  { intros P H p m G. apply (H p). now apply get_message_in. }
  constructor.
  - apply (Q (fun _ f => 1 <= f_number f < 2 ^ 29)). cbn. intros p m H. decompose [or] H; try contradiction;
      match goal with K : _ = _ |- _ => injection K as <- <- end; repeat (constructor; [cbn; lia|]); constructor.
  - apply (E (fun m => NoDup (map f_number (m_fields m ++ flat_map o_fields (m_oneofs m))))). cbn. intros p m H. decompose [or] H; try contradiction;
      match goal with K : _ = _ |- _ => injection K as <- <- end; cbn; repeat (constructor; [cbn; intuition discriminate|]); constructor.
  - apply (Q (fun _ f => if freq_is_map (f_freq f) then exists k v, f_typ f = TMap k v /\ source_type v /\
           In k [TInt32; TInt64; TUint32; TUint64; TSint32; TSint64; TBool; TFixed64; TSfixed64; TFixed32; TSfixed32; TStringCow]
         else source_type (f_typ f))). cbn. intros p m H. decompose [or] H; try contradiction;
      match goal with K : _ = _ |- _ => injection K as <- <- end; cbn;
      repeat (constructor; [cbn; first [exact I | eexists; eexists; split; [reflexivity|split; [exact I|cbn; tauto]]]|]); constructor.
  - intros p m o f G Ho Hf. apply get_message_in in G. cbn in G. decompose [or] G; try contradiction;
      match goal with K : _ = _ |- _ => injection K as <- <- end; cbn in Ho; try contradiction.
    destruct Ho as [<-|[]]. cbn in Hf. decompose [or] Hf; subst; try contradiction; split; reflexivity.
  - apply (Q (fun _ f => f_packed f = Some true -> freq_is_repeated (f_freq f) = true)). cbn. intros p m H. decompose [or] H; try contradiction;
      match goal with K : _ = _ |- _ => injection K as <- <- end; cbn; repeat (constructor; [cbn; discriminate|]); constructor.
  - apply (Q (fun _ f => f_boxed f = false)). cbn. intros p m H. decompose [or] H; try contradiction;
      match goal with K : _ = _ |- _ => injection K as <- <- end; cbn; repeat (constructor; [reflexivity|]); constructor.
Qed.
Example C53_case : protobuf_rules srcD /\
  match process cfgC srcD with
  | GOk d' => schema_wf d' cfgC nolit /\
      option_map (fun m => map (fun f => (f_name f, f_typ f, f_boxed f)) (m_fields m)) (get_message d' [0]%nat) =
        Some [("left", TMessage [0; 0]%nat, false); ("next", TMessage [0%nat], true);
              ("kids", TMap TStringCow (TMessage [0; 0]%nat), false); ("nums", TFixed32, false)] /\
      option_map (fun m => map f_name (m_fields m)) (get_message d' [0; 0]%nat) = Some ["type_pb"; "back"]
  | GErr _ => False
  end.
Proof.
  split; [exact srcD_rules|]. destruct (process cfgC srcD) as [d'|e] eqn:E; [|vm_compute in E; discriminate].
  pose proof E as E0. vm_compute in E. injection E as <-. split; [|split; vm_compute; reflexivity].
  apply (C53_accepted_well_formed cfgC nolit srcD _ srcD_rules E0); [|discriminate].
  intros p m f s G Hf. apply get_message_in in G. apply field_of_all in Hf. cbn in G. decompose [or] G; try contradiction;
      match goal with K : _ = _ |- _ => injection K as <- <- end; cbn in Hf; decompose [or] Hf; subst; try contradiction; discriminate.
Qed.
