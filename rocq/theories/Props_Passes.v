(** Property theorems C35, C41, C42, C44 about the passes between the parser
    and the writer, stated about the whole sequence of passes ([process]). *)
From Coq Require Import String Arith Lia ZifyBool.
From Verif Require Import Base Schema Keywords Modules Passes GenCheck Cycles CycleFacts BreakFacts IndexFacts
  Pipeline PassFacts GenSem GenSpec.
Import StringSyntax.
Local Open Scope string_scope.
Local Open Scope list_scope.

(** [field_of m f]: the message [m] has the field [f], possibly in a oneof *)
Definition field_of (m : message) (f : field) : Prop :=
  In f (m_fields m) \/ exists o, In o (m_oneofs m) /\ In f (o_fields o).
Lemma field_of_all m f : field_of m f <-> In f (all_fields m).
Proof.
  unfold field_of, all_fields. rewrite in_app_iff, in_flat_map. split; intros [H|(o & H)]; eauto.
Qed.
Lemma fields_rel_back R m m' f' : fields_rel R m m' -> field_of m' f' -> exists f, field_of m f /\ R f f'.
Proof.
  intros F H. apply field_of_all in H. destruct (Forall2_in_r _ _ _ (fields_rel_all _ _ _ F) f' H) as (f & Hf & Rf).
  exists f. split; [now apply field_of_all|exact Rf].
Qed.

(** shorthands for the examples *)
Definition cfgC : config := mkConfig false false false false.
Definition cfgOwn : config := mkConfig true false false false.
Definition cfgErr : config := mkConfig false false true false.
Definition fd (n : text) (q : frequency) (t : field_type) (num : Z) : field := mkField n q t num None None false false.
Definition msg (n : text) (fs : list field) (os : list oneof) (sub : list message) : message :=
  mkMessage n fs os None None false "" sub [] "" [].
Definition reserving (nums : list Z) (names : list text) (m : message) : message :=
  mkMessage (m_name m) (m_fields m) (m_oneofs m) (Some nums) (Some names) (m_imported m)
            (m_package m) (m_messages m) (m_enums m) (m_module m) (m_index m).
Definition file (s : syntax) (ms : list message) : file_descriptor :=
  set_own_package (mkDesc "pkg" s ms [] "pkg").

(* ====================================================================== *)
(** * C41: reserved numbers and names *)

(** the message uses a number or a name it reserves *)
Definition uses_reserved (m : message) : Prop :=
  exists f, field_of m f /\
    ((exists l, m_reserved_nums m = Some l /\ In (f_number f) l) \/
     (exists l, m_reserved_names m = Some l /\ In (f_name f) l)).

Lemma is_reserved_spec m f : is_reserved m f = true <->
  (exists l, m_reserved_nums m = Some l /\ In (f_number f) l) \/
  (exists l, m_reserved_names m = Some l /\ In (f_name f) l).
Proof.
  unfold is_reserved. rewrite Bool.orb_true_iff. split.
  - intros [H|H].
    + right. destruct (m_reserved_names m) as [l|]; [|discriminate]. exists l. split; [reflexivity|].
      apply existsb_exists in H. destruct H as (x & Hx & E). apply String.eqb_eq in E. now subst.
    + left. destruct (m_reserved_nums m) as [l|]; [|discriminate]. exists l. split; [reflexivity|].
      apply existsb_exists in H. destruct H as (x & Hx & E). apply Z.eqb_eq in E. now subst.
  - intros [(l & -> & H)|(l & -> & H)].
    + right. apply existsb_exists. exists (f_number f). split; [exact H|apply Z.eqb_refl].
    + left. apply existsb_exists. exists (f_name f). split; [exact H|apply String.eqb_refl].
Qed.

Lemma sanity_ok d m f : sanity_checks d = GOk tt -> In m (d_messages d) -> field_of m f -> field_sanity d m f = GOk tt.
Proof.
  unfold sanity_checks. intros H Hm Hf. apply gbind_ok in H. destruct H as (us & H & _). apply gmap_ok in H.
  destruct (Forall2_in_l _ _ _ H m Hm) as (u & _ & Hu). unfold message_sanity in Hu. apply gbind_ok in Hu.
  destruct Hu as (vs & Hu & _). apply gmap_ok in Hu. apply field_of_all in Hf.
  destruct (Forall2_in_l _ _ _ Hu f Hf) as ([] & _ & E). exact E.
Qed.

Lemma shell_reserved m m' : shell m' = shell m -> m_reserved_nums m' = m_reserved_nums m /\ m_reserved_names m' = m_reserved_names m.
Proof. intros E. split; [exact (f_equal m_reserved_nums E)|exact (f_equal m_reserved_names E)]. Qed.
Lemma msg_rel_reserved R m m' : msg_rel R m m' -> m_reserved_nums m' = m_reserved_nums m /\ m_reserved_names m' = m_reserved_names m.
Proof.
  intros (_ & _ & E). split; [exact (f_equal m_reserved_nums E)|exact (f_equal m_reserved_names E)].
Qed.

(** Missing for the full claim: nested messages, see [C41_nested_refuted]. *)
Theorem C41_top_level_partial : forall c d d' m, process c d = GOk d' ->
  In m (d_messages d) -> ~ uses_reserved m.
Proof.
  intros c d d' m H Hm (f & Hf & U). apply is_reserved_spec in U. apply process_stages in H.
  destruct H as (d1 & d2 & d4 & [E1 E2 E3 E4 _]).
  apply In_nth_error in Hm. destruct Hm as (k & Hk).
  assert (G : get_message d [k] = Some m) by (cbn; now rewrite Hk).
  pose proof (resolve_types_get d d1 [k] E1) as R1. rewrite get_assign, G in R1. inversion R1 as [|x m1 M1 A B]; subst.
  symmetry in B.
  destruct (break_cycles_ok (c_error_cycle c) d1 (resolve_types_indexed d d1 E1)) as (cs & _ & [(d2' & E2' & R2 & _)|(_ & names & E2' & _)]); [|congruence].
  rewrite E2 in E2'. injection E2' as <-. destruct (desc_rel_fwd _ _ _ [k] _ R2 B) as (m2 & G2 & M2).
  apply resolve_message_ok in M1. destruct M1 as (M1 & _).
  destruct (msg_rel_reserved _ _ _ M1) as (N1 & N2). destruct (msg_rel_reserved _ _ _ M2) as (N3 & N4).
  apply msg_fields_rel in M1, M2.
  assert (Hf' : In f (all_fields (set_indices [k] m))) by (rewrite set_indices_eq; now apply field_of_all).
  destruct (Forall2_in_l _ _ _ (fields_rel_all _ _ _ M1) f Hf') as (f1 & Hf1 & (t & _ & ->)).
  destruct (Forall2_in_l _ _ _ (fields_rel_all _ _ _ M2) _ Hf1) as (f2 & Hf2 & Ev).
  assert (S : is_reserved m2 f2 = true).
  { unfold is_reserved in *. rewrite N3, N4, N1, N2, set_indices_eq. cbn.
    destruct Ev as [->|(j & _ & _ & _ & _ & ->)]; exact U. }
  assert (Hm2 : In m2 (d_messages d2)) by (cbn in G2; now apply nth_error_In in G2).
  pose proof (sanity_ok d2 m2 f2 E3 Hm2 (proj2 (field_of_all _ _) Hf2)) as K. unfold field_sanity in K. rewrite S in K. discriminate.
Qed.
Print Assumptions C41_top_level_partial.

(** a schema with reserved numbers and names that is accepted, and the same
    with one of them used *)
Definition resOk : file_descriptor := file Proto3
  [reserving [2; 15] ["old"] (msg "M" [fd "a" P3Default TInt32 1; fd "b" P3Repeated TStringCow 3] [] [])].
Definition resBad : file_descriptor := file Proto3
  [reserving [2; 15] ["old"] (msg "M" [fd "a" P3Default TInt32 1] [mkOneof "o" [fd "old" P3Optional TBool 4] "" "" false] [])].
Example C41_case : (exists d', process cfgC resOk = GOk d') /\ process cfgC resBad = GErr (ErrInvalidMessage "M").
Proof. split; [eexists|]; vm_compute; reflexivity. Qed.

(** A nested message may use the numbers and names it reserves. *)
Theorem C41_nested_refuted : exists c d d' m sub,
  process c d = GOk d' /\ In m (d_messages d) /\ In sub (m_messages m) /\ uses_reserved sub.
Proof.
  exists cfgC, (file Proto3 [msg "M" [] [] [reserving [1] [] (msg "N" [fd "a" P3Default TInt32 1] [] [])]]).
  eexists. eexists. eexists. split; [vm_compute; reflexivity|]. split; [left; reflexivity|]. split; [left; reflexivity|].
  eexists. split; [left; left; reflexivity|]. left. eexists. split; [reflexivity|]. now left.
Qed.
Print Assumptions C41_nested_refuted.

(* ====================================================================== *)
(** * C42: packing *)

(** the types protobuf allows to be packed *)
Definition packable (t : field_type) : Prop :=
  In t [TInt32; TInt64; TUint32; TUint64; TSint32; TSint64; TBool;
        TFixed64; TSfixed64; TDouble; TFixed32; TSfixed32; TFloat] \/ exists e, t = TEnum e.
Definition resolved (t : field_type) : Prop := forall n, t <> TMessageOrEnum n.
Lemma packable_primitive t : resolved t -> (packable t <-> is_primitive t = true).
Proof.
  intros R. unfold packable. split.
  - intros [H|(e & ->)]; [|reflexivity]. cbn in H. decompose [or] H; subst; try reflexivity; contradiction.
  - destruct t; intros H; try discriminate; try (left; cbn; tauto); [right; eauto|now contradiction (R name)].
Qed.

Lemma first_match_resolved fm fe l t : first_match fm fe l = Some t -> resolved t.
Proof.
  induction l as [|n l IH]; cbn; [discriminate|]. destruct (lookup fm n); [intros H; injection H as <-; discriminate|].
  destruct (lookup fe n); [intros H; injection H as <-; discriminate|exact IH].
Qed.
Lemma resolve_name_resolved fm fe p m t t' : resolve_name fm fe p m t = GOk t' -> resolved t'.
Proof.
  unfold resolve_name. destruct t; intros H; try (injection H as <-; discriminate).
  destruct (first_match fm fe (test_names p m name)) eqn:E; [|discriminate]. injection H as <-. eapply first_match_resolved, E.
Qed.
Lemma resolve_type_resolved fm fe p m t t' : resolve_type fm fe p m t = GOk t' -> resolved t'.
Proof.
  unfold resolve_type. destruct t; try apply resolve_name_resolved.
  intros H. apply gbind_ok in H. destruct H as (k & _ & H). apply gbind_ok in H. destruct H as (v & _ & H). injection H as <-. discriminate.
Qed.
Lemma own_resolved t : resolved t -> resolved (own_type t).
Proof. intros R n. destruct t; cbn; try discriminate. intros E. now apply (R name). Qed.

Lemma final_resolved c d p m f f' : field_final c d p m f f' -> resolved (f_typ f').
Proof.
  intros F. destruct (ff_typ _ _ _ _ _ _ F) as (t & T & ->). apply resolve_type_resolved in T.
  destruct (c_dont_use_cow c); [now apply own_resolved|exact T].
Qed.
Lemma final_repeated c d p m f f' : field_final c d p m f f' -> freq_is_repeated (f_freq f') = freq_is_repeated (f_freq f).
Proof.
  intros F. destruct (ff_freq _ _ _ _ _ _ F) as [(E & _)|(E & _ & R & _)]; rewrite E; [reflexivity|].
  rewrite R. now destruct (f_freq f).
Qed.

(** what packing the fields of a top-level message get *)
Definition packing (s : syntax) (f f' : field) : Prop :=
  (* fields of other types are never packed *)
  (~ packable (f_typ f') -> f_packed f' = None) /\
  (packable (f_typ f') ->
     (* what the schema says is kept *)
     (forall b, f_packed f = Some b -> f_packed f' = Some b) /\
     (f_packed f = None ->
        (* by default, repeated fields are packed in proto3 only *)
        f_packed f' = match s with
                      | Proto3 => if freq_is_repeated (f_freq f) then Some true else None
                      | Proto2 => None
                      end)).

(** Missing for the full claim: nested messages, see [C42_nested_refuted]. *)
Theorem C42_top_level_partial : forall c d d' k m, process c d = GOk d' -> get_message d [k] = Some m ->
  exists m', get_message d' [k] = Some m' /\ fields_rel (packing (d_syntax d)) m m'.
Proof.
  intros c d d' k m H G. pose proof (process_message c d d' H [k]) as P. rewrite G in P. inversion P as [|x m' F A B]; subst.
  exists m'. split; [now symmetry|]. eapply fields_rel_impl; [|exact F]. intros f f' FF.
  pose proof (packable_primitive _ (final_resolved _ _ _ _ _ _ FF)) as Q. pose proof (final_repeated _ _ _ _ _ _ FF) as Rp.
  destruct (ff_packed _ _ _ _ _ _ FF) as (f0 & E & E1 & E2 & E3). cbn in E. unfold packing. rewrite E, E3, E2, Rp, E1. split.
  - intros N. destruct (is_primitive (f_typ f')) eqn:Ip; [|reflexivity]. now contradiction N; apply Q.
  - intros Y. apply Q in Y. rewrite Y. split.
    + intros b ->. now destruct (d_syntax d).
    + intros ->. now destruct (d_syntax d).
Qed.
Print Assumptions C42_top_level_partial.

(** Fields of nested messages keep exactly what the schema says: neither is
    packing the default, nor is it removed from types that cannot be packed. *)
Theorem C42_nested_as_written : forall c d d' p m, process c d = GOk d' -> (length p <> 1)%nat -> get_message d p = Some m ->
  exists m', get_message d' p = Some m' /\ fields_rel (fun f f' => f_packed f' = f_packed f) m m'.
Proof.
  intros c d d' p m H L G. pose proof (process_message c d d' H p) as P. rewrite G in P. inversion P as [|x m' F A B]; subst.
  exists m'. split; [reflexivity|]. eapply fields_rel_impl; [|exact F]. intros f f' FF.
  destruct (ff_packed _ _ _ _ _ _ FF) as (f0 & E & E1 & _). rewrite E. unfold packed_after.
  replace (is_top p) with false by (destruct p as [|? [|? ?]]; cbn in *; try reflexivity; lia). exact E1.
Qed.
Print Assumptions C42_nested_as_written.

Definition packDesc : file_descriptor := file Proto3
  [msg "M" [fd "a" P3Repeated TInt32 1; fd "b" P3Repeated TStringCow 2;
            mkField "c" P3Repeated TSint64 3 None (Some false) false false;
            mkField "d" P3Repeated TBytesCow 4 None (Some true) false false;
            fd "e" P3Default TInt32 5] []
           [msg "N" [fd "a" P3Repeated TInt32 1] [] []]].
Example C42_case : match process cfgC packDesc with
  | GOk d' => map (fun m => map f_packed (m_fields m)) (d_messages d') = [[Some true; None; Some false; None; None]]
              /\ option_map (fun m => map f_packed (m_fields m)) (get_message d' [0; 0]%nat) = Some [None]
  | GErr _ => False
  end.
Proof. vm_compute. split; reflexivity. Qed.

(** a repeated int32 of a nested proto3 message is not packed *)
Theorem C42_nested_refuted : exists c d d' p m' f', process c d = GOk d' /\ d_syntax d = Proto3 /\
  get_message d' p = Some m' /\ field_of m' f' /\ f_freq f' = P3Repeated /\ packable (f_typ f') /\ f_packed f' = None.
Proof.
  exists cfgC, packDesc. eexists. exists [0; 0]%nat. eexists. eexists.
  split; [vm_compute; reflexivity|]. split; [reflexivity|]. split; [cbn; reflexivity|]. split; [left; left; reflexivity|].
  split; [reflexivity|]. split; [|reflexivity]. left. cbn. now left.
Qed.
Print Assumptions C42_nested_refuted.

(** and a repeated string of a nested message marked packed stays so *)
Theorem C42_nested_string_refuted : exists c d d' p m' f', process c d = GOk d' /\ d_syntax d = Proto3 /\
  get_message d' p = Some m' /\ field_of m' f' /\ ~ packable (f_typ f') /\ f_packed f' = Some true.
Proof.
  exists cfgC, (file Proto3 [msg "M" [] [] [msg "N" [mkField "s" P3Repeated TStringCow 1 None (Some true) false false] [] []]]).
  eexists. exists [0; 0]%nat. eexists. eexists.
  split; [vm_compute; reflexivity|]. split; [reflexivity|]. split; [cbn; reflexivity|]. split; [left; left; reflexivity|].
  split; [|reflexivity]. cbn. intros [H|(e & H)]; [|discriminate]. cbn in H. decompose [or] H; try discriminate. contradiction.
Qed.
Print Assumptions C42_nested_string_refuted.

(* ====================================================================== *)
(** * C44: --dont-use-cow *)

(** a type that contains a Cow *)
Inductive borrows : field_type -> Prop :=
| bo_string : borrows TStringCow
| bo_bytes : borrows TBytesCow
| bo_key : forall k v, borrows k -> borrows (TMap k v)
| bo_value : forall k v, borrows v -> borrows (TMap k v).
(** what protobuf allows: no map in a map *)
Definition flat (t : field_type) : Prop :=
  match t with TMap (TMap _ _) _ | TMap _ (TMap _ _) => False | _ => True end.

Lemma own_flat t : flat t -> ~ borrows (own_type t).
Proof.
  intros F B. destruct t; cbn in B; try (now inversion B).
  destruct t1, t2; cbn in F; try contradiction; cbn in B; inversion B as [| |? ? B'|? ? B']; inversion B'.
Qed.
Lemma resolve_flat fm fe p m t t' : resolve_type fm fe p m t = GOk t' -> flat t -> flat t'.
Proof.
  assert (N : forall x y, resolve_name fm fe p m x = GOk y -> (forall a b, x <> TMap a b) -> forall a b, y <> TMap a b).
  { unfold resolve_name. intros x y H Nx a b ->. destruct x; try discriminate; try (now apply (Nx x1 x2)).
    destruct (first_match fm fe (test_names p m name)) eqn:E; [|discriminate]. injection H as ->.
    revert E. generalize (test_names p m name). induction l as [|n l IH]; cbn; [discriminate|].
    destruct (lookup fm n); [discriminate|]. destruct (lookup fe n); [discriminate|exact IH]. }
  assert (M : forall y, (forall a b, y <> TMap a b) -> flat y) by (intros y H; destruct y; try exact I; now contradiction (H y1 y2)).
  unfold resolve_type. destruct t; intros H F; try (apply M; eapply N; [exact H|discriminate]).
  apply gbind_ok in H. destruct H as (k & Hk & H). apply gbind_ok in H. destruct H as (v & Hv & H). injection H as <-.
  assert (Nk : forall a b, k <> TMap a b) by (apply (N _ _ Hk); intros a b ->; exact F).
  assert (Nv : forall a b, v <> TMap a b) by (apply (N _ _ Hv); intros a b ->; destruct t1; exact F).
  destruct k; try (now contradiction (Nk k1 k2)); destruct v; try exact I; now contradiction (Nv v1 v2).
Qed.

(** Missing for the full claim: maps whose key or value is again a map, which
    the parser of pb-rs accepts, see [C44_map_of_map_refuted]. *)
Theorem C44_no_cow_partial : forall c d d' p m', c_dont_use_cow c = true -> process c d = GOk d' ->
  (forall p m f, get_message d p = Some m -> field_of m f -> flat (f_typ f)) ->
  get_message d' p = Some m' -> forall f', field_of m' f' -> ~ borrows (f_typ f').
Proof.
  intros c d d' p m' Hc H Fl G f' Hf. pose proof (process_message c d d' H p) as P. rewrite G in P.
  inversion P as [|m x F A B]; subst. symmetry in A. destruct (fields_rel_back _ _ _ _ F Hf) as (f & Hf0 & FF).
  destruct (ff_typ _ _ _ _ _ _ FF) as (t & T & ->). rewrite Hc. apply own_flat. eapply resolve_flat; [exact T|]. now apply (Fl p m f).
Qed.
Print Assumptions C44_no_cow_partial.

(** the owned counterpart of a type without nested maps *)
Inductive owned : field_type -> field_type -> Prop :=
| ow_string : owned TStringCow TString
| ow_bytes : owned TBytesCow TBytes
| ow_map : forall k v k' v', owned k k' -> owned v v' -> owned (TMap k v) (TMap k' v')
| ow_other : forall t, ~ borrows t -> owned t t.
Lemma own1_owned t : (forall a b, t <> TMap a b) -> owned t (own1 t).
Proof.
  intros N. destruct t; try (apply ow_other; intros B; now inversion B); [apply ow_string|apply ow_bytes|now contradiction (N t1 t2)].
Qed.
Lemma own_owned t : flat t -> owned t (own_type t).
Proof.
  intros F. destruct t; try (apply own1_owned; discriminate). cbn.
  apply ow_map; apply own1_owned; intros a b ->; [exact F|destruct t1; exact F].
Qed.

(** The conversion changes only types, and only borrowed ones; and without the
    option nothing changes. *)
Theorem C44_only_borrowed : forall c d, 
  (forall p m f, get_message d p = Some m -> field_of m f -> flat (f_typ f)) ->
  (c_dont_use_cow c = false -> drop_cows c d = d) /\
  (c_dont_use_cow c = true -> forall p, opt_rel (fun m m' => fields_rel (fun f f' => exists t, owned (f_typ f) t /\
       f' = mkField (f_name f) (f_freq f) t (f_number f) (f_default f) (f_packed f) (f_boxed f) (f_deprecated f)) m m')
     (get_message d p) (get_message (drop_cows c d) p)).
Proof.
  intros c d Fl. split; intros Hc.
  - unfold drop_cows. now rewrite Hc.
  - intros p. destruct (drop_cows_rel c d) as (R & _). specialize (R p). rewrite Hc in R.
    destruct (get_message d p) as [m|] eqn:G; inversion R as [|x m' M A B]; subst; constructor.
    apply msg_fields_rel in M. destruct M as (M1 & M2).
    assert (Q : forall l l', (forall f, In f l -> flat (f_typ f)) -> Forall2 (fun f f' => f' = set_typ f (own_type (f_typ f))) l l' ->
      Forall2 (fun f f' => exists t, owned (f_typ f) t /\
       f' = mkField (f_name f) (f_freq f) t (f_number f) (f_default f) (f_packed f) (f_boxed f) (f_deprecated f)) l l').
    { intros l l' Hl F. induction F as [|f f' l l' E F IH]; constructor.
      - exists (own_type (f_typ f)). split; [apply own_owned, Hl; now left|exact E].
      - apply IH. intros g Hg. apply Hl. now right. }
    split.
    + apply Q; [|exact M1]. intros f Hf. apply (Fl p m f G). now left.
    + assert (Ho : forall o f, In o (m_oneofs m) -> In f (o_fields o) -> flat (f_typ f)) by (intros o f Ho Hf; apply (Fl p m f G); right; eauto).
      revert Ho. clear - M2 Q. induction M2 as [|o o' l l' E F IH]; intros Ho; constructor.
      * apply Q; [|exact E]. intros f Hf. apply (Ho o f); [now left|exact Hf].
      * apply IH. intros o0 f H0 Hf. apply (Ho o0 f); [now right|exact Hf].
Qed.
Print Assumptions C44_only_borrowed.

Definition cowDesc : file_descriptor := file Proto3
  [msg "M" [fd "a" P3Default TStringCow 1; fd "m" P3Map (TMap TStringCow TBytesCow) 2]
           [mkOneof "o" [fd "x" P3Optional TBytesCow 3] "" "" false]
           [msg "N" [fd "b" P3Repeated TBytesCow 1; fd "c" P3Map (TMap TInt32 TStringCow) 2] [] []]].
Example C44_case : match process cfgOwn cowDesc with
  | GOk d' => option_map (fun m => map f_typ (all_fields m)) (get_message d' [0]%nat) = Some [TString; TMap TString TBytes; TBytes]
              /\ option_map (fun m => map f_typ (all_fields m)) (get_message d' [0; 0]%nat) = Some [TBytes; TMap TInt32 TString]
  | GErr _ => False
  end.
Proof. vm_compute. split; reflexivity. Qed.

Theorem C44_map_of_map_refuted : exists c d d' p m' f', c_dont_use_cow c = true /\ process c d = GOk d' /\
  get_message d' p = Some m' /\ field_of m' f' /\ borrows (f_typ f').
Proof.
  exists cfgOwn, (file Proto3 [msg "M" [fd "m" P3Map (TMap TInt32 (TMap TInt32 TStringCow)) 1] [] []]).
  eexists. exists [0%nat]. eexists. eexists. split; [reflexivity|].
  split; [vm_compute; reflexivity|]. split; [cbn; reflexivity|]. split; [left; left; reflexivity|]. cbn. apply bo_value, bo_value, bo_string.
Qed.
Print Assumptions C44_map_of_map_refuted.

(* ====================================================================== *)
(** * C35: tags *)

(** Two fields of one message may have the same number ... *)
Theorem C35_refuted : exists c d d' m' f1 f2, process c d = GOk d' /\ In m' (d_messages d') /\
  m_fields m' = [f1; f2] /\ f_name f1 <> f_name f2 /\ field_tag f1 = field_tag f2.
Proof.
  exists cfgC, (file Proto3 [msg "M" [fd "a" P3Default TInt32 1; fd "b" P3Default TBool 1] [] []]).
  eexists. eexists. eexists. eexists. split; [vm_compute; reflexivity|]. split; [left; reflexivity|]. split; [cbn; reflexivity|].
  split; [discriminate|]. vm_compute. reflexivity.
Qed.
Print Assumptions C35_refuted.

(** ... and different numbers may have the same tag, if one is not less than
    2^29. *)
Theorem C35_large_refuted : exists c d d' m' f1 f2, process c d = GOk d' /\ In m' (d_messages d') /\
  m_fields m' = [f1; f2] /\ f_number f1 <> f_number f2 /\ field_tag f1 = field_tag f2.
Proof.
  exists cfgC, (file Proto3 [msg "M" [fd "a" P3Default TInt32 1; fd "b" P3Default TBool (2 ^ 29 + 1)] [] []]).
  eexists. eexists. eexists. eexists. split; [vm_compute; reflexivity|]. split; [left; reflexivity|]. split; [cbn; reflexivity|].
  split; [discriminate|]. vm_compute. reflexivity.
Qed.
Print Assumptions C35_large_refuted.
