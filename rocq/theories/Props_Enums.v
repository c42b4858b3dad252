(** C71: the Rust enums that are generated for the enums of the schema. *)
From Coq Require Import String Ascii Arith ZArith Lia.
From Verif Require Import Base Schema Keywords KeywordFacts Modules Passes ProtoText TextFacts PathFacts PlaceFacts Pipeline PassFacts AcceptFacts
  GenSem GenType Props_Names Props_Passes EnumCode.
Import Schema StringSyntax.
Local Open Scope string_scope.
Local Open Scope list_scope.
Local Open Scope Z_scope.

(** The enum of the schema: identifiers, distinct (also after renaming), distinct
    numbers; neither the enum nor its first value is renamed; no value is called
    [default] or by one of the keywords that the table of the program lacks. *)
Record plain_enum (e : enumerator) : Prop := mkPlain {
  pe_some : en_fields e <> [];
  pe_ident : forall n, In n (en_name e :: map fst (en_fields e)) -> ident n;
  pe_names : NoDup (map (fun f => sanitize_keyword (fst f)) (en_fields e));
  pe_numbers : NoDup (map snd (en_fields e));
  pe_name : sanitize_keyword (en_name e) = en_name e;
  pe_first : forall v z l, en_fields e = (v, z) :: l -> sanitize_keyword v = v;
  pe_free : forall n, In n (en_name e :: map fst (en_fields e)) -> ~ In n ["default"; "async"; "await"; "dyn"; "macro"; "try"] }.

Lemma path2_inj a b c : path2 a b = path2 a c -> b = c.
Proof.
  unfold path2. assert (A : forall x y z : text, (x ++ y = x ++ z)%string -> y = z).
  { induction x as [|h x IH]; intros y z H; [exact H|]. injection H as H. now apply IH. }
  intros H. apply A in H. now injection H.
Qed.

Lemma find_name (l : list (text * Z)) v z : NoDup (map fst l) -> In (v, z) l -> find (fun x => String.eqb v (fst x)) l = Some (v, z).
Proof.
  induction l as [|(w, y) l IH]; intros N I; [contradiction|]. cbn in *. inversion N as [|? ? N1 N2]; subst.
  destruct (String.eqb_spec v w) as [->|Ne].
  - destruct I as [I|I]; [now rewrite I|]. exfalso. apply N1. apply in_map_iff. exists (w, z). auto.
  - destruct I as [I|I]; [congruence|auto].
Qed.
Lemma find_path name (l : list (text * Z)) v z : NoDup (map fst l) -> In (v, z) l ->
  find (fun x => String.eqb (path2 name v) (path2 name (fst x))) l = Some (v, z).
Proof.
  intros N I. rewrite <- (find_name l v z N I). clear. induction l as [|(w, y) l IH]; [reflexivity|]. cbn [find fst].
  destruct (String.eqb_spec (path2 name v) (path2 name w)) as [E|E].
  - apply path2_inj in E. subst. now rewrite String.eqb_refl.
  - destruct (String.eqb_spec v w) as [->|]; [now destruct E|exact IH].
Qed.
Lemma find_number {A} (l : list (Z * A)) z a : NoDup (map fst l) -> In (z, a) l -> find (fun x => z =? fst x) l = Some (z, a).
Proof.
  induction l as [|(w, y) l IH]; intros N I; [contradiction|]. cbn in *. inversion N as [|? ? N1 N2]; subst.
  destruct (Z.eqb_spec z w) as [->|Ne].
  - destruct I as [I|I]; [now rewrite I|]. exfalso. apply N1. apply in_map_iff. exists (w, a). auto.
  - destruct I as [I|I]; [congruence|auto].
Qed.

Lemma ident_sanitize n : ident n -> ~ In n ["default"; "async"; "await"; "dyn"; "macro"; "try"] ->
  ~ In (sanitize_keyword n) rust_reference_keywords /\ sanitize_keyword n <> "default".
Proof.
  intros I F. pose proof (ident_no_dot n I) as Nd. pose proof (split_none "." n Nd) as Sp.
  assert (E : sanitize_keyword n = sanitize_segment n) by (rewrite sanitize_keyword_segments, Sp; reflexivity).
  assert (Ss : split_on "." (sanitize_keyword n) = [sanitize_keyword n]) by (rewrite split_sanitize, Sp, E; reflexivity).
  assert (D : dotted [sanitize_keyword n] (sanitize_keyword n)).
  { destruct (dotted_exists (sanitize_keyword n)) as (l & D). pose proof (dotted_split _ _ D) as X. rewrite Ss in X. now rewrite X. }
  assert (T : sanitize_keyword n = n \/ sanitize_keyword n = (n ++ "_pb")%string).
  { rewrite E. unfold sanitize_segment. destruct (is_keyword n); auto. }
  assert (Q : forall k : text, (n ++ "_pb")%string = k -> (String.length k = String.length n + 3)%nat /\ substring (String.length n) 3 k = "_pb").
  { intros k <-. clear. split; [induction n; cbn; [reflexivity|now rewrite IHn]|induction n; cbn; [reflexivity|exact IHn]]. }
  assert (R : forall k, In k ["default"; "async"; "await"; "dyn"; "macro"; "try"] -> sanitize_keyword n <> k).
  { intros k Hk Ek. destruct T as [T|T]; [assert (n = k) as -> by congruence; contradiction|]. rewrite T in Ek. destruct (Q k Ek) as (L & S).
    replace (String.length n) with (String.length k - 3)%nat in S by lia. clear -Hk S.
    repeat (destruct Hk as [<-|Hk]; [vm_compute in S; discriminate S|]). destruct Hk. }
  split; [|apply R; now left]. intros K.
  destruct (C40_never_keyword_partial n _ D (sanitize_keyword n) (or_introl eq_refl)) as (_ & C). specialize (C K).
  apply (R (sanitize_keyword n)); [right; exact C|reflexivity].
Qed.

Section Plain.
Variable e : enumerator.
Hypothesis P : plain_enum e.
Let it := write_enum e.

Lemma plain_item : exists v z l, en_fields e = (v, z) :: l /\ ei_name it = en_name e /\
  ei_variants it = map (fun f => (sanitize_keyword (fst f), snd f)) (en_fields e) /\
  ei_impls it = Some (mkImpls (path2 (en_name e) v)
    (map (fun f => (snd f, path2 (en_name e) (sanitize_keyword (fst f)))) (en_fields e))
    (map (fun f => (sanitize_keyword (fst f), path2 (en_name e) (sanitize_keyword (fst f)))) (en_fields e))).
Proof.
  destruct (en_fields e) as [|(v, z) l] eqn:E; [now destruct (pe_some e P)|]. exists v, z, l. split; [reflexivity|].
  unfold it, write_enum, partially_qualified_fields. cbn [enum_sanitize_names en_name en_fields ei_name ei_variants ei_impls].
  rewrite (pe_name e P), E. split; [reflexivity|]. split; [reflexivity|]. cbn [map fst snd]. rewrite !map_map. reflexivity.
Qed.

Lemma plain_names : NoDup (map fst (ei_variants it)).
Proof. destruct plain_item as (v & z & l & _ & _ & -> & _). rewrite map_map. exact (pe_names e P). Qed.

Lemma plain_path v z : In (v, z) (en_fields e) -> path_variant it (path2 (en_name e) (sanitize_keyword v)) = Some (sanitize_keyword v).
Proof.
  intros I. unfold path_variant. destruct plain_item as (_ & _ & _ & _ & -> & Ev & _).
  rewrite (find_path _ _ (sanitize_keyword v) z plain_names); [reflexivity|]. rewrite Ev. apply in_map_iff. exists (v, z). auto.
Qed.

Lemma plain_default v z l : en_fields e = (v, z) :: l -> eval_default it = Some v /\ eval_self_default it = Some v.
Proof.
  intros E. pose proof (pe_first e P v z l E) as F.
  assert (D : eval_default it = Some v).
  { unfold eval_default. destruct plain_item as (v' & z' & l' & E' & _ & _ & ->). cbn [ii_default].
    assert (v' = v) as -> by congruence. pose proof (plain_path v z) as X. rewrite F in X. apply X. rewrite E. now left. }
  split; [exact D|]. unfold eval_self_default. replace (existsb _ (ei_variants it)) with false; [exact D|].
  symmetry. destruct plain_item as (_ & _ & _ & _ & _ & -> & _). apply Bool.not_true_iff_false. intros X. apply existsb_exists in X.
  destruct X as (q & Q & Eq). apply in_map_iff in Q. destruct Q as ((w, y) & <- & Hw). cbn [fst] in Eq. apply String.eqb_eq in Eq.
  assert (Hn : In w (en_name e :: map fst (en_fields e))) by (right; apply in_map_iff; exists (w, y); auto).
  now apply (ident_sanitize w (pe_ident e P w Hn) (pe_free e P w Hn)).
Qed.

Lemma plain_i32 v z : In (v, z) (en_fields e) -> eval_i32 it z = Some (sanitize_keyword v) /\ cast it (sanitize_keyword v) = Some z.
Proof.
  intros I. split.
  - unfold eval_i32. destruct plain_item as (v0 & z0 & l0 & _ & _ & _ & ->). cbn [ii_i32].
    rewrite (find_number _ z (path2 (en_name e) (sanitize_keyword v))).
    + now apply plain_path with z.
    + rewrite map_map. exact (pe_numbers e P).
    + apply in_map_iff. exists (v, z). auto.
  - unfold cast. rewrite (find_name _ (sanitize_keyword v) z plain_names); [reflexivity|].
    destruct plain_item as (_ & _ & _ & _ & _ & -> & _). apply in_map_iff. exists (v, z). auto.
Qed.

Lemma plain_i32_other z : ~ In z (map snd (en_fields e)) -> eval_i32 it z = eval_default it.
Proof.
  intros N. unfold eval_i32. destruct plain_item as (v & y & l & E & _ & _ & Ei). rewrite Ei. cbn [ii_i32].
  destruct (find _ _) as [(w, p)|] eqn:F.
  - exfalso. apply find_some in F. destruct F as (F & Ew). apply in_map_iff in F. destruct F as ((u, x) & Ex & Hx). injection Ex as <- _.
    apply Z.eqb_eq in Ew. cbn in Ew. subst. apply N. apply in_map_iff. exists (u, x). auto.
  - destruct (plain_default v y l E) as (-> & ->). reflexivity.
Qed.

Lemma plain_str v z : In (v, z) (en_fields e) -> eval_str it (sanitize_keyword v) = Some (sanitize_keyword v).
Proof.
  intros I. unfold eval_str. destruct plain_item as (v0 & z0 & l0 & _ & _ & _ & ->). cbn [ii_str].
  assert (F : find (fun a : text * text => String.eqb (sanitize_keyword v) (fst a))
    (map (fun f => (sanitize_keyword (fst f), path2 (en_name e) (sanitize_keyword (fst f)))) (en_fields e))
    = Some (sanitize_keyword v, path2 (en_name e) (sanitize_keyword v))).
  { clear -I. induction (en_fields e) as [|(w, y) l IH]; [contradiction|]. cbn [map find fst].
    destruct (String.eqb_spec (sanitize_keyword v) (sanitize_keyword w)) as [->|Ne]; [reflexivity|].
    destruct I as [I|I]; [congruence|auto]. }
  match goal with |- context [find ?p ?l] => replace (find p l) with (Some (sanitize_keyword v, path2 (en_name e) (sanitize_keyword v))) by (symmetry; exact F) end. now apply plain_path with z.
Qed.

Lemma plain_str_other s : ~ In s (map (fun f => sanitize_keyword (fst f)) (en_fields e)) -> eval_str it s = eval_default it.
Proof.
  intros N. unfold eval_str. destruct plain_item as (v & y & l & E & _ & _ & Ei). rewrite Ei. cbn [ii_str].
  destruct (find _ _) as [(w, p)|] eqn:F.
  - exfalso. apply find_some in F. destruct F as (F & Ew). apply in_map_iff in F. destruct F as ((u, x) & Ex & Hx). injection Ex as <- _.
    apply String.eqb_eq in Ew. cbn in Ew. subst. apply N. apply in_map_iff. exists (u, x). auto.
  - destruct (plain_default v y l E) as (-> & ->). reflexivity.
Qed.

Lemma plain_compiles : item_compiles rust_reference_keywords it.
Proof.
  destruct plain_item as (v & z & l & E & En & Ev & Ei). constructor.
  - exact plain_names.
  - rewrite Ev, map_map. exact (pe_numbers e P).
  - rewrite En, Ev, map_map. intros n [<-|H].
    + pose proof (ident_sanitize (en_name e) (pe_ident e P _ (or_introl eq_refl)) (pe_free e P _ (or_introl eq_refl))) as (X & _).
      now rewrite (pe_name e P) in X.
    + apply in_map_iff in H. destruct H as ((w, y) & <- & Hw). cbn [fst].
      assert (Hn : In w (en_name e :: map fst (en_fields e))) by (right; apply in_map_iff; exists (w, y); auto).
      apply (ident_sanitize w (pe_ident e P w Hn) (pe_free e P w Hn)).
  - intros _. destruct (plain_default v z l E) as (-> & ->). split; discriminate.
  - intros i a I Ha. rewrite Ei in I. injection I as <-. cbn [ii_i32] in Ha. apply in_map_iff in Ha. destruct Ha as ((w, y) & <- & Hw).
    cbn [fst snd]. rewrite (plain_path w y Hw). discriminate.
  - intros i a I Ha. rewrite Ei in I. injection I as <-. cbn [ii_str] in Ha. apply in_map_iff in Ha. destruct Ha as ((w, y) & <- & Hw).
    cbn [fst snd]. rewrite (plain_path w y Hw). discriminate.
Qed.
End Plain.

(** C71.  The generated enum compiles.  Its default is the first value; its
    values are those of the schema with their numbers, [From<i32>] and [as i32]
    are inverse to each other, [From<&str>] takes the name to the value, and what
    is neither number nor name becomes the default.  Missing: enums with the names
    that [plain_enum] excludes, see the refutations. *)
Theorem C71_enums_partial : forall e, plain_enum e ->
  item_compiles rust_reference_keywords (write_enum e) /\
  (forall v z l, en_fields e = (v, z) :: l -> eval_default (write_enum e) = Some v) /\
  (forall v z, In (v, z) (en_fields e) -> exists n, (sanitize_keyword v = v -> n = v) /\
     eval_i32 (write_enum e) z = Some n /\ cast (write_enum e) n = Some z /\ eval_str (write_enum e) n = Some n) /\
  (forall z, ~ In z (map snd (en_fields e)) -> eval_i32 (write_enum e) z = eval_default (write_enum e)) /\
  (forall s, ~ In s (map (fun f => sanitize_keyword (fst f)) (en_fields e)) -> eval_str (write_enum e) s = eval_default (write_enum e)).
Proof.
  intros e P. split; [now apply plain_compiles|]. split; [intros v z l E; now destruct (plain_default e P v z l E)|].
  split; [|split; [now apply plain_i32_other|now apply plain_str_other]].
  intros v z I. exists (sanitize_keyword v). split; [auto|]. destruct (plain_i32 e P v z I). split; [assumption|]. split; [assumption|].
  now apply plain_str with z.
Qed.
Print Assumptions C71_enums_partial.

(** C71.  The meaning of generated messages (GenSem) takes the numbers of enum
    values for the values.  This is what the generated items do. *)
Theorem C71_numbers : forall c d d' q e, process c d = GOk d' -> get_enum d q = Some e -> plain_enum e ->
  option_map (cast (write_enum e)) (eval_default (write_enum e)) = Some (Some (enum_default d' q)) /\
  forall z, option_map (cast (write_enum e)) (eval_i32 (write_enum e) z) = Some (Some (enum_from_i32 d' q z)).
Proof.
  intros c d d' q e A G P.
  assert (G' : get_enum d' q = Some (enum_sanitize_names e)) by (now rewrite (process_enum c d d' q A), G).
  destruct (en_fields e) as [|(v, z0) l] eqn:E; [now destruct (pe_some e P)|].
  assert (D : option_map (cast (write_enum e)) (eval_default (write_enum e)) = Some (Some (enum_default d' q))).
  { destruct (plain_default e P v z0 l E) as (-> & _). cbn [option_map]. f_equal.
    assert (I : In (v, z0) (en_fields e)) by (rewrite E; now left). destruct (plain_i32 e P v z0 I) as (_ & C).
    rewrite (pe_first e P v z0 l E) in C. rewrite C. unfold enum_default. rewrite G'.
    change (en_fields (enum_sanitize_names e)) with (map (fun p : text * Z => (sanitize_keyword (fst p), snd p)) (en_fields e)). now rewrite E. }
  split; [exact D|]. intros z. unfold enum_from_i32. rewrite G'.
  change (en_fields (enum_sanitize_names e)) with (map (fun p : text * Z => (sanitize_keyword (fst p), snd p)) (en_fields e)).
  assert (F : match find (fun '(_, y) => z =? y) (map (fun p : text * Z => (sanitize_keyword (fst p), snd p)) (en_fields e)) with
              | Some (_, y) => y = z /\ exists w, In (w, z) (en_fields e)
              | None => ~ In z (map snd (en_fields e)) end).
  { clear. induction (en_fields e) as [|(w, y) l IH]; [intros []|]. cbn [map find fst snd]. destruct (Z.eqb_spec z y) as [->|Ne].
    - split; [reflexivity|]. exists w. now left.
    - destruct (find _ _) as [(w', y')|].
      + destruct IH as (-> & u & Hu). split; [reflexivity|]. exists u. now right.
      + intros [X|X]; [congruence|contradiction]. }
  destruct (find _ _) as [(w, y)|].
  - destruct F as (-> & u & Hu). destruct (plain_i32 e P u z Hu) as (-> & C). cbn [option_map]. now rewrite C.
  - rewrite (plain_i32_other e P z F). exact D.
Qed.
Print Assumptions C71_numbers.

(** a check for names *)
Definition startb (c : ascii) : bool :=
  let n := nat_of_ascii c in (Nat.leb 65 n && Nat.leb n 90) || (Nat.leb 97 n && Nat.leb n 122) || Nat.eqb n 95.
Definition wordb (c : ascii) : bool := startb c || (let n := nat_of_ascii c in Nat.leb 48 n && Nat.leb n 57).
Fixpoint allb (P : ascii -> bool) (t : text) : bool := match t with EmptyString => true | String c t' => P c && allb P t' end.
Definition identb (t : text) : bool := match t with EmptyString => false | String c t' => startb c && allb wordb t' end.
Lemma ident_chars t : identb t = true -> ident t.
Proof.
  assert (S : forall c, startb c = true -> start_char c).
  { intros c H. unfold startb, start_char, letter_char in *. cbv zeta in H. apply Bool.orb_prop in H. destruct H as [H|H].
    - left. apply Bool.orb_prop in H. destruct H as [H|H]; apply andb_prop in H; destruct H as (H1 & H2); apply Nat.leb_le in H1, H2; lia.
    - right. apply Nat.eqb_eq in H. rewrite <- (ascii_nat_embedding c), H. reflexivity. }
  assert (W : forall c, wordb c = true -> word_char c).
  { intros c H. unfold wordb, word_char, digit_char in *. apply Bool.orb_prop in H. destruct H as [H|H]; [left; now apply S|right].
    cbv zeta in H. apply andb_prop in H. destruct H as (H1 & H2). apply Nat.leb_le in H1, H2. lia. }
  destruct t as [|c t]; cbn; [discriminate|]. intros H. apply andb_prop in H. destruct H as (H1 & H2). constructor; [now apply S|].
  clear H1. induction t as [|a t IH]; cbn in *; [constructor|]. apply andb_prop in H2. destruct H2. constructor; auto.
Qed.

(** an enum with a value that is renamed *)
Definition exShape : enumerator := mkEnum "Shape" [("ROUND", 1); ("match", -7); ("FLAT", 0)] false "p" "p".
Lemma exShape_plain : plain_enum exShape.
Proof.
  constructor.
  - discriminate.
  - intros n H. cbn in H. repeat (destruct H as [<-|H]; [apply ident_chars; vm_compute; reflexivity|]). destruct H.
  - vm_compute. repeat constructor; cbn; intuition discriminate.
  - vm_compute. repeat constructor; cbn; intuition discriminate.
  - reflexivity.
  - intros v z l H. injection H as <- _ _. reflexivity.
  - intros n H X. cbn in H, X. repeat (destruct H as [<-|H]; [intuition discriminate|]). destruct H.
Qed.
Example C71_case : let it := write_enum exShape in
  ei_variants it = [("ROUND", 1); ("match_pb", -7); ("FLAT", 0)] /\ eval_default it = Some "ROUND" /\
  map (eval_i32 it) [0; 1; -7; 5] = [Some "FLAT"; Some "ROUND"; Some "match_pb"; Some "ROUND"] /\
  map (eval_str it) ["FLAT"; "match_pb"; "round"] = [Some "FLAT"; Some "match_pb"; Some "ROUND"] /\ cast it "match_pb" = Some (-7).
Proof. vm_compute. auto 10. Qed.
Example C71_numbers_case : exists d', process cfgC (mkDesc "p" Proto2 [] [exShape] "p") = GOk d' /\
  map (enum_from_i32 d' (mkEidx [] 0)) [0; -7; 5] = [0; -7; 1].
Proof. eexists. split; vm_compute; reflexivity. Qed.

(** Enums that protobuf allows and whose generated items do not compile: two
    values with one number ([allow_alias]); a first value, or an enum, that is
    renamed (the path of the default has the old name); a value called [default];
    a value that takes the name of another one that is renamed; a keyword that the
    table lacks. *)
Theorem C71_compiles_refuted : forall e, In e
   [mkEnum "E" [("A", 0); ("B", 0)] false "" ""; mkEnum "E" [("type", 0)] false "" ""; mkEnum "Result" [("A", 0)] false "" "";
    mkEnum "E" [("A", 0); ("default", 1)] false "" ""; mkEnum "E" [("A", 0); ("type", 1); ("type_pb", 2)] false "" "";
    mkEnum "E" [("A", 0); ("async", 1)] false "" ""] ->
  (forall n, In n (en_name e :: map fst (en_fields e)) -> ident n) /\ NoDup (map fst (en_fields e)) /\
  ~ item_compiles rust_reference_keywords (write_enum e).
Proof.
  intros e H. split; [|split].
  - intros n Hn. repeat (destruct H as [<-|H]; [cbn in Hn; repeat (destruct Hn as [<-|Hn]; [apply ident_chars; vm_compute; reflexivity|]); destruct Hn|]). destruct H.
  - repeat (destruct H as [<-|H]; [repeat constructor; cbn; intuition discriminate|]). destruct H.
  - intros [N1 N2 K D _ _].
    destruct H as [<-|[<-|[<-|[<-|[<-|[<-|[]]]]]]].
    + vm_compute in N2. inversion N2 as [|? ? X _]; subst. apply X. now left.
    + destruct D as (D & _); [discriminate|]. now apply D.
    + destruct D as (D & _); [discriminate|]. now apply D.
    + destruct D as (_ & D); [discriminate|]. now apply D.
    + vm_compute in N1. inversion N1 as [|? ? _ X]; subst. inversion X as [|? ? Y _]; subst. apply Y. now left.
    + apply (K "async"); [vm_compute; tauto|vm_compute; tauto].
Qed.
Print Assumptions C71_compiles_refuted.

(** A value that is renamed is not found by its name: the code compiles, and
    [E::from("type")] is the default. *)
Theorem C71_from_str_refuted : exists e v z, plain_enum e /\ In (v, z) (en_fields e) /\
  exists n, eval_str (write_enum e) v = Some n /\ cast (write_enum e) n <> Some z.
Proof.
  exists exShape, "match", (-7). split; [exact exShape_plain|]. split; [right; now left|]. exists "ROUND". split; [reflexivity|vm_compute; discriminate].
Qed.
Print Assumptions C71_from_str_refuted.

(** The arms of both conversions lead to variants, for all enums: also those that
    [plain_enum] excludes, such as an enum whose own name is changed. *)
Lemma path_there : forall name (l : list (text * Z)) v z, In (v, z) l ->
  option_map fst (find (fun x => String.eqb (path2 name v) (path2 name (fst x))) l) = Some v.
Proof.
  intros name l v z I. destruct (find _ l) as [(w, y)|] eqn:F.
  - apply find_some in F. destruct F as (_ & F). apply String.eqb_eq, path2_inj in F. cbn in F |- *. now rewrite F.
  - exfalso. apply (find_none _ _ F) in I. cbn in I. now rewrite String.eqb_refl in I.
Qed.
Theorem C71_arms : forall e, match ei_impls (write_enum e) with
  | None => en_fields e = []
  | Some i => (forall z p, In (z, p) (ii_i32 i) -> exists v, path_variant (write_enum e) p = Some v /\ In (v, z) (ei_variants (write_enum e))) /\
              (forall s p, In (s, p) (ii_str i) -> path_variant (write_enum e) p = Some s)
  end.
Proof.
  intros e. assert (N : en_fields (enum_sanitize_names e) = [] -> en_fields e = []) by (destruct e; cbn; now destruct (en_fields)).
  unfold write_enum. cbn [ei_impls]. destruct (en_fields (enum_sanitize_names e)) as [|f l] eqn:E; [auto|]. cbn [ii_i32 ii_str]. unfold path_variant. cbn [ei_name ei_variants].
  split; intros x p I; apply in_map_iff in I; destruct I as ((v, z) & X & I); cbn [fst snd] in X; injection X as <- <-.
  - exists v. split; [exact (path_there _ _ v z I)|exact I].
  - exact (path_there _ _ v z I).
Qed.
Print Assumptions C71_arms.
(** an enum that is renamed, with a value that is *)
Example C71_arms_case : write_enum (mkEnum "Type" [("A", 0); ("type", 1)] false "" "") =
    mkItem "Type" [("A", 0); ("type_pb", 1)] (Some (mkImpls "Type::A" [(0, "Type::A"); (1, "Type::type_pb")] [("A", "Type::A"); ("type_pb", "Type::type_pb")])) /\
  write_enum (mkEnum "match" [("A", 0); ("type", 1)] false "" "") =
    mkItem "match_pb" [("A", 0); ("type_pb", 1)] (Some (mkImpls "match::A" [(0, "match_pb::A"); (1, "match_pb::type_pb")] [("A", "match_pb::A"); ("type_pb", "match_pb::type_pb")])).
Proof. split; reflexivity. Qed.
