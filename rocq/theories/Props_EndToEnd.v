(** Property theorem C64: from the text of proto files to the bytes of
    messages.  Joins the parser (C55, C56), the imports (Import.v), the passes
    (C53) and the generated code (C26). *)
From Coq Require Import String Ascii Arith Lia.
From Verif Require Import Base Reader Writer Spec Schema Keywords Modules Passes Gen GenSem GenSpec GenRecords GenType GenSame GenCheck
  Cycles CycleFacts BreakFacts IndexFacts Pipeline PassFacts ResolveFacts AcceptFacts Props_Passes Props_Generated Props_Wire Props_Accepted
  Parser ProtoText FileText ParserOut Import Props_Import Props_Parser Examples.
Import StringSyntax.
Local Open Scope string_scope.
Local Open Scope list_scope.
Local Open Scope Z_scope.

(* ---- what the parser guarantees ---- *)

(** fields as the parser returns them *)
Definition shaped_field (f : field) : Prop :=
  f_boxed f = false /\ parsed_type (f_typ f) /\ freq_is_map (f_freq f) = is_map_type (f_typ f).
(** members of a oneof *)
Definition shaped_member (f : field) : Prop :=
  f_boxed f = false /\ parsed_type (f_typ f) /\ freq_is_repeated (f_freq f) = false /\ freq_is_map (f_freq f) = false.
Definition shaped_enum (e : enumerator) : Prop := Forall (is_s 32) (map snd (en_fields e)).

Inductive shaped (m : message) : Prop := shaped_intro :
  Forall shaped_field (m_fields m) -> Forall (fun o => Forall shaped_member (o_fields o)) (m_oneofs m) ->
  Forall shaped_enum (m_enums m) -> Forall shaped (m_messages m) -> shaped m.

Lemma parsed_shaped_enum e : parsed_enum e -> shaped_enum e.
Proof.
  intros [_ H _]. unfold shaped_enum. rewrite Forall_map. eapply Forall_impl; [|exact H].
  intros [n v] [_ K]. cbn in *. unfold is_s. unfold in_i32, i32_max in K. lia.
Qed.

Lemma parsed_shaped sx m : parsed_message sx m -> shaped m.
Proof.
  induction m as [m IH] using message_tree_ind. intros H. destruct H as [name fs os nums names ms es _ Hf Ho _ _ Hm He].
  cbn [m_messages] in IH. constructor; cbn [m_fields m_oneofs m_enums m_messages].
  - eapply Forall_impl; [|exact Hf]. intros f [_ T _ B [l P]]. split; [exact B|]. split; [exact T|].
    rewrite P. unfold presence. destruct sx, (is_map_type (f_typ f)), l; reflexivity.
  - eapply Forall_impl; [|exact Ho]. intros o [_ K _ _]. eapply Forall_impl; [|exact K].
    intros f [_ T _ B P]. split; [exact B|]. split; [exact T|]. unfold oneof_presence, member_presence in P. rewrite P. destruct sx; auto.
  - eapply Forall_impl; [|exact He]. apply parsed_shaped_enum.
  - rewrite Forall_forall in *. intros x Hx. apply (IH x Hx). now apply Hm.
Qed.

Lemma shaped_set_package m : forall pk mo, shaped m -> shaped (msg_set_package pk mo m).
Proof.
  induction m as [m IH] using message_tree_ind. intros pk mo [H1 H2 H3 H4]. rewrite Forall_forall in IH, H4.
  destruct m. cbn in *. constructor; cbn; [exact H1| | |].
  - rewrite Forall_map. eapply Forall_impl; [|exact H2]. intros o K. exact K.
  - rewrite Forall_map. eapply Forall_impl; [|exact H3]. intros o K. exact K.
  - apply Forall_forall. intros x Hx. apply in_map_iff in Hx. destruct Hx as (y & <- & Hy). apply (IH y Hy). now apply H4.
Qed.

Lemma shaped_set_imported m : shaped m -> shaped (msg_set_imported m).
Proof.
  induction m as [m IH] using message_tree_ind. intros [H1 H2 H3 H4]. rewrite Forall_forall in IH, H4.
  destruct m. cbn in *. constructor; cbn; [exact H1| | |].
  - rewrite Forall_map. eapply Forall_impl; [|exact H2]. intros o K. exact K.
  - rewrite Forall_map. eapply Forall_impl; [|exact H3]. intros o K. exact K.
  - apply Forall_forall. intros x Hx. apply in_map_iff in Hx. destruct Hx as (y & <- & Hy). apply (IH y Hy). now apply H4.
Qed.

Definition shaped_desc (d : file_descriptor) : Prop :=
  Forall shaped (d_messages d) /\ Forall shaped_enum (d_enums d).

Lemma shaped_own d : shaped_desc d -> shaped_desc (set_own_package d).
Proof.
  intros [H1 H2]. split; cbn; rewrite Forall_map.
  - eapply Forall_impl; [|exact H1]. intros m. apply shaped_set_package.
  - eapply Forall_impl; [|exact H2]. intros e K. exact K.
Qed.
Lemma shaped_import d x : shaped_desc d -> shaped_desc x -> shaped_desc (add_import d x).
Proof.
  intros [H1 H2] [H3 H4]. split; cbn; apply Forall_app; (split; [assumption|]); rewrite Forall_map.
  - eapply Forall_impl; [|exact H3]. intros m K. apply shaped_set_imported. destruct (String.eqb (m_package m) ""); [now apply shaped_set_package|exact K].
  - eapply Forall_impl; [|exact H4]. intros e K. unfold shaped_enum in *. destruct (String.eqb (en_package e) ""); exact K.
Qed.

Lemma fetch_shaped fs search rd : (forall g x, rd g = ROk x -> shaped_desc x) ->
  forall l f d d', fetch fs search f rd d l = ROk d' -> shaped_desc d -> shaped_desc d'.
Proof.
  intros R. induction l as [|i l IH]; intros f d d' H S; cbn [fetch] in H; [now injection H as <-|].
  destruct (find_import fs search f i) as [g|]; [|discriminate]. destruct (rd g) as [x| | |] eqn:E; try discriminate.
  apply (IH f _ _ H). apply shaped_import; [exact S|exact (R g x E)].
Qed.

Lemma read_shaped check fs search n : forall f d, read_proto check fs search n f = ROk d -> shaped_desc d.
Proof.
  induction n as [|n IH]; intros f d H; [discriminate|].
  destruct (read_step _ _ _ _ _ _ H) as (p & d0 & (s & r & _ & Ep & _) & (mo & _ & ->) & F).
  apply (fetch_shaped _ _ _ IH _ _ _ _ F). apply shaped_own.
  destruct (o_file _ _ _ _ Ep) as (r' & sx & _ & [M E _ _ _ _ _]). split; cbn.
  - eapply Forall_impl; [|exact M]. apply parsed_shaped.
  - eapply Forall_impl; [|exact E]. apply parsed_shaped_enum.
Qed.

Lemma shaped_get ms : Forall shaped ms -> forall p m, get_in ms p = Some m -> shaped m.
Proof.
  intros H p. revert ms H. induction p as [|k p IH]; intros ms H m G; [discriminate|]. cbn [get_in] in G.
  destruct (nth_error ms k) as [x|] eqn:E; [|discriminate]. apply nth_error_In in E. rewrite Forall_forall in H. specialize (H x E).
  destruct p as [|k' p]; [now injection G as <-|]. destruct H as [_ _ _ H4]. exact (IH _ H4 m G).
Qed.

Lemma parsed_source t : parsed_type t -> is_map_type t = false -> source_type t.
Proof.
  intros [u k S|n _|k v _ _] M; [|exact I|discriminate]. unfold scalar_type in S. cbn [In] in S.
  repeat (destruct S as [S|S]; [injection S as <- <-; exact I|]). contradiction.
Qed.

(* ---- the rules of the language that remain to be checked ---- *)

(** What a proto file must follow besides the grammar.  Neither the parser nor
    the passes check these rules (C57 and following, C38). *)
Record language_rules (d : file_descriptor) : Prop := mkLang {
  lr_range : forall p m f, get_message d p = Some m -> field_of m f -> 1 <= f_number f < 2 ^ 29;
  lr_distinct : forall p m, get_message d p = Some m ->
    NoDup (map f_number (m_fields m ++ flat_map o_fields (m_oneofs m)));
  lr_maps : forall p m f k v, get_message d p = Some m -> In f (m_fields m) -> f_typ f = TMap k v ->
    is_map_type v = false /\
    In k [TInt32; TInt64; TUint32; TUint64; TSint32; TSint64; TBool; TFixed64; TSfixed64; TFixed32; TSfixed32; TStringCow];
  lr_oneofs : forall p m o f, get_message d p = Some m -> In o (m_oneofs m) -> In f (o_fields o) -> is_map_type (f_typ f) = false;
  lr_packed : forall p m f, get_message d p = Some m -> field_of m f -> f_packed f = Some true -> freq_is_repeated (f_freq f) = true;
  lr_defaults : forall p m f, get_message d p = Some m -> field_of m f -> f_freq f = P3Default -> f_default f = None;
  lr_enums : forall q e, get_enum d q = Some e -> en_fields e <> [] }.

Lemma get_enum_shaped d q e : shaped_desc d -> get_enum d q = Some e -> shaped_enum e.
Proof.
  intros [H1 H2] G. unfold get_enum in G. destruct (e_msg q) as [|k r] eqn:E.
  - apply nth_error_In in G. rewrite Forall_forall in H2. auto.
  - destruct (get_message d (k :: r)) as [m|] eqn:Gm; [|discriminate]. rewrite get_message_eq in Gm.
    destruct (shaped_get _ H1 _ _ Gm) as [_ _ H3 _]. apply nth_error_In in G. rewrite Forall_forall in H3. auto.
Qed.

Lemma shaped_rules d : shaped_desc d -> language_rules d -> protobuf_rules d.
Proof.
  intros S R.
  assert (K : forall p m, get_message d p = Some m -> shaped m).
  { intros p m G. rewrite get_message_eq in G. exact (shaped_get _ (proj1 S) p m G). }
  constructor.
  - apply (lr_range d R).
  - apply (lr_distinct d R).
  - intros p m f G [Hf|(o & Ho & Hf)]; destruct (K p m G) as [H1 H2 _ _].
    + rewrite Forall_forall in H1. destruct (H1 f Hf) as (_ & T & M). rewrite M. destruct (is_map_type (f_typ f)) eqn:E.
      * destruct (f_typ f) as [| | | | | | | | | | | | | | | | | | | |k v] eqn:Et; try discriminate. exists k, v. split; [reflexivity|].
        destruct (lr_maps d R p m f k v G Hf Et) as (V & Hk). split; [|exact Hk]. apply parsed_source; [|exact V].
        inversion T as [u w Sc| |k0 v0 Tk Tv]; subst; [|exact Tv].
        unfold scalar_type in Sc. cbn [In] in Sc. repeat (destruct Sc as [Sc|Sc]; [discriminate|]). contradiction.
      * now apply parsed_source.
    + rewrite Forall_forall in H2. specialize (H2 o Ho). rewrite Forall_forall in H2. destruct (H2 f Hf) as (_ & T & _ & M). rewrite M.
      apply parsed_source; [exact T|]. exact (lr_oneofs d R p m o f G Ho Hf).
  - intros p m o f G Ho Hf. destruct (K p m G) as [_ H2 _ _]. rewrite Forall_forall in H2. specialize (H2 o Ho).
    rewrite Forall_forall in H2. destruct (H2 f Hf) as (_ & _ & X & Y). auto.
  - apply (lr_packed d R).
  - intros p m f G [Hf|(o & Ho & Hf)]; destruct (K p m G) as [H1 H2 _ _].
    + rewrite Forall_forall in H1. apply (H1 f Hf).
    + rewrite Forall_forall in H2. specialize (H2 o Ho). rewrite Forall_forall in H2. apply (H2 f Hf).
Qed.

(* ---- C64 ---- *)

(** Whatever the files, if they are read, the result follows the rules of the
    language and is accepted by the passes, then everything the theorems about
    the generated code assume about the schema holds. *)
Theorem C64_read_well_formed : forall check fs search n f d c lit d',
  read_proto check fs search n f = ROk d -> language_rules d -> process c d = GOk d' ->
  literals_ok lit d' -> compiles c d' ->
  schema_wf d' c lit /\ schema_packed_ok d' c /\ enums_ok d' /\ no_proto3_default d'.
Proof.
  intros check fs search n f d c lit d' R L A Li C. pose proof (read_shaped _ _ _ _ _ _ R) as S.
  pose proof (shaped_rules d S L) as P. destruct (C53_accepted_well_formed c lit d d' P A Li C) as (W & K).
  split; [exact W|]. split; [exact K|]. split.
  - apply (C53_enums c d d' A). intros q e G. split; [exact (lr_enums d L q e G)|exact (get_enum_shaped d q e S G)].
  - intros p m' g G Hg E. destruct (process_field_back c d d' p m' g A G (or_introl Hg)) as (m & g0 & G0 & Hg0 & FF).
    apply (ff_default _ _ _ _ _ _ FF). apply (lr_defaults d L p m g0 G0 Hg0).
    destruct (ff_freq _ _ _ _ _ _ FF) as [(E' & _)|(E' & _)]; [congruence|]. rewrite E in E'. destruct (f_freq g0); discriminate.
Qed.
Print Assumptions C64_read_well_formed.

(** what a file of the grammar that imports nothing is read as *)
Lemma read_grammar : forall check fs search n f mo g sx ds t,
  fs f = Some t -> file_text g sx ds t -> g = "" \/ sx = Proto2 -> (check = true -> ~ syntax_text sx t) ->
  decl_imports ds = [] -> file_module (last (decl_packages ds) "") f = Some mo ->
  read_proto check fs search (S n) f
  = ROk (set_own_package (mkDesc (last (decl_packages ds) "") sx (decl_messages ds) (decl_enums ds) mo)).
Proof.
  intros check fs search n f mo g sx ds t Ef Ht Hg Hc Hi Hm.
  destruct (C56_grammar_read_partial check g sx ds t Ht Hg Hc) as (p & Ep & [D1 D2 D3 D4 D5 D6 _ _]).
  cbn [read_proto]. rewrite Ef, Ep. change (String.eqb (trim "") "") with true. cbn iota beta.
  rewrite D2, Hm, D6, Hi, D1, D3, D4. reflexivity.
Qed.

(** From text to bytes: a file of the grammar that follows the rules and is
    accepted gives code that reads back what it writes.  Missing: as for C56 and
    C26, texts outside of the grammar, -0.0 in fields without presence and 2^32
    bytes and more. *)
Theorem C64_text_to_bytes_partial : forall check fs search f mo g sx ds t c lit d' k,
  fs f = Some t -> file_text g sx ds t -> g = "" \/ sx = Proto2 -> (check = true -> ~ syntax_text sx t) ->
  decl_imports ds = [] -> file_module (last (decl_packages ds) "") f = Some mo ->
  exists d, read_proto check fs search 1 f = ROk d
    /\ d_syntax d = sx /\ map m_name (d_messages d) = map m_name (decl_messages ds)
    /\ (language_rules d -> process c d = GOk d' -> literals_ok lit d' -> compiles c d' ->
        forall i ss, message_ok d' c i ss -> no_negative_zero d' c i ss -> zlen (enc_message d' c lit i ss) < 2 ^ 32 ->
        exists full, serialize_into_vec (message_size d' c lit i ss) (message_write d' c lit i ss) = Ok full /\
          (buf_ok k full -> exists ss', Forall2 same_slot ss ss' /\
             forall n, (length full <= n)%nat -> deserialize_from_slice k (from_reader d' c lit k n i) full = Ok ss')).
Proof.
  intros check fs search f mo g sx ds t c lit d' k Ef Ht Hg Hc Hi Hm.
  pose proof (read_grammar check fs search 0 f mo g sx ds t Ef Ht Hg Hc Hi Hm) as R.
  eexists. split; [exact R|]. split; [reflexivity|]. split.
  - cbn. rewrite map_map. apply map_ext. now intros [].
  - intros L A Li C i ss Hok Hz Hl.
    destruct (C64_read_well_formed _ _ _ _ _ _ c lit d' R L A Li C) as (W & _ & _ & N).
    exact (proj2 (C26_roundtrip_partial d' c lit k W N i ss Hok Hz Hl)).
Qed.
Print Assumptions C64_text_to_bytes_partial.

(* ---- the concrete case ---- *)

(** the rules as a computation, for the example *)
Definition key_typeb (k : field_type) : bool :=
  match k with
  | TInt32 | TInt64 | TUint32 | TUint64 | TSint32 | TSint64 | TBool | TFixed64 | TSfixed64 | TFixed32 | TSfixed32 | TStringCow => true
  | _ => false
  end.
Definition messageb (m : message) : bool :=
  let fs := all_fields m in
  forallb (fun f => (1 <=? f_number f) && (f_number f <? 2 ^ 29)) fs
  && forallb (fun f => match f_packed f with Some true => freq_is_repeated (f_freq f) | _ => true end) fs
  && forallb (fun f => match f_freq f, f_default f with P3Default, Some _ => false | _, _ => true end) fs
  && forallb (fun f => match f_typ f with TMap k v => negb (is_map_type v) && key_typeb k | _ => true end) (m_fields m)
  && forallb (fun o => forallb (fun f => negb (is_map_type (f_typ f))) (o_fields o)) (m_oneofs m)
  && forallb (fun e => match en_fields e with [] => false | _ => true end) (m_enums m).
Lemma rules_check d :
  (forall p m, In (p, m) (all_messages d) -> messageb m = true /\ NoDup (map f_number (m_fields m ++ flat_map o_fields (m_oneofs m)))) ->
  Forall (fun e => en_fields e <> []) (d_enums d) -> language_rules d.
Proof.
  intros H He.
  assert (K : forall p m, get_message d p = Some m -> messageb m = true /\ NoDup (map f_number (m_fields m ++ flat_map o_fields (m_oneofs m)))).
  { intros p m G. apply (H p). now apply get_message_in. }
  assert (B : forall p m, get_message d p = Some m ->
    (forall f, In f (all_fields m) -> 1 <= f_number f < 2 ^ 29
       /\ (f_packed f = Some true -> freq_is_repeated (f_freq f) = true) /\ (f_freq f = P3Default -> f_default f = None))
    /\ (forall f k v, In f (m_fields m) -> f_typ f = TMap k v -> is_map_type v = false /\ key_typeb k = true)
    /\ (forall o f, In o (m_oneofs m) -> In f (o_fields o) -> is_map_type (f_typ f) = false)
    /\ (forall e, In e (m_enums m) -> en_fields e <> [])).
  { intros p m G. destruct (K p m G) as (M & _). unfold messageb in M. rewrite !andb_true_iff, !forallb_forall in M.
    destruct M as (((((M1 & M2) & M3) & M4) & M5) & M6). split; [|split; [|split]].
    - intros f Hf. specialize (M1 f Hf). specialize (M2 f Hf). specialize (M3 f Hf). apply andb_true_iff in M1. destruct M1 as (A & A').
      apply Z.leb_le in A. apply Z.ltb_lt in A'. split; [lia|]. split.
      + intros E. now rewrite E in M2.
      + intros E. rewrite E in M3. destruct (f_default f); [discriminate|reflexivity].
    - intros f k v Hf E. specialize (M4 f Hf). rewrite E in M4. apply andb_true_iff in M4. destruct M4 as (A & A'). apply negb_true_iff in A. auto.
    - intros o f Ho Hf. specialize (M5 o Ho). rewrite forallb_forall in M5. apply negb_true_iff. now apply M5.
    - intros e Hx. specialize (M6 e Hx). destruct (en_fields e); [discriminate|discriminate]. }
  constructor.
  - intros p m f G Hf. apply field_of_all in Hf. now apply (B p m G).
  - intros p m G. apply (K p m G).
  - intros p m f k v G Hf E. destruct (B p m G) as (_ & B2 & _). destruct (B2 f k v Hf E) as (A & A'). split; [exact A|].
    destruct k; try discriminate; cbn; tauto.
  - intros p m o f G Ho Hf. destruct (B p m G) as (_ & _ & B3 & _). eauto.
  - intros p m f G Hf. apply field_of_all in Hf. now apply (B p m G).
  - intros p m f G Hf. apply field_of_all in Hf. now apply (B p m G).
  - intros q e G. unfold get_enum in G. destruct (e_msg q) as [|k r].
    + apply nth_error_In in G. rewrite Forall_forall in He. auto.
    + destruct (get_message d (k :: r)) as [m|] eqn:Gm; [|discriminate]. destruct (B _ m Gm) as (_ & _ & _ & B4). apply B4. now apply nth_error_In in G.
Qed.

Definition nodeText : text := ("syntax = " ++ dq ++ "proto3" ++ dq ++ "; package p; import " ++ dq ++ "color.proto" ++ dq ++ ";
message Node {
  Leaf left = 1;  Node next = 2;  map<string, Leaf> kids = 3;
  oneof v { other.Color color = 4; Other other = 5; }
  repeated fixed32 nums = 6;
  message Leaf { string type = 1; repeated Node back = 2; }
}
message Other { Node node = 7; }
")%string.
Definition colorText : text := "package other; enum Color { RED = 0; DARK = 5; }".
Definition nodeFiles : file_system := fun p =>
  match fp_parts p with ["node.proto"] => Some nodeText | ["color.proto"] => Some colorText | _ => None end.

Example C64_case : exists d, read_proto true nodeFiles here 2 (path_of "node.proto") = ROk d /\ language_rules d /\
  match process cfgC d with
  | GOk d' => schema_wf d' cfgC nolit /\
      option_map (fun m => map (fun f => (f_name f, f_typ f, f_boxed f)) (m_fields m)) (get_message d' [0]%nat) =
        Some [("left", TMessage [0; 0]%nat, false); ("next", TMessage [0%nat], true);
              ("kids", TMap TStringCow (TMessage [0; 0]%nat), false); ("nums", TFixed32, false)]
  | GErr _ => False
  end.
Proof.
  destruct (read_proto true nodeFiles here 2 (path_of "node.proto")) as [d| | |] eqn:R; [|vm_compute in R; discriminate..].
  exists d. split; [reflexivity|]. pose proof R as R0. vm_compute in R. injection R as <-.
  match goal with |- language_rules ?x /\ _ => assert (L : language_rules x) end.
  { apply rules_check.
    - cbn. intros p m H. decompose [or] H; try contradiction; match goal with K : _ = _ |- _ => injection K as <- <- end;
        (split; [reflexivity|]); cbn; repeat (constructor; [cbn; intuition discriminate|]); constructor.
    - repeat constructor; discriminate. }
  split; [exact L|].
  match goal with |- match ?x with _ => _ end => destruct x as [d'|e] eqn:E; [|vm_compute in E; discriminate] end.
  pose proof E as E0. vm_compute in E. injection E as <-. split; [|vm_compute; reflexivity].
  refine (proj1 (C64_read_well_formed _ _ _ _ _ _ cfgC nolit _ R0 L E0 _ _)); [|discriminate].
  intros p m f s G Hf. apply get_message_in in G. apply field_of_all in Hf. cbn in G. decompose [or] G; try contradiction;
      match goal with K : _ = _ |- _ => injection K as <- <- end; cbn in Hf; decompose [or] Hf; subst; try contradiction; discriminate.
Qed.
