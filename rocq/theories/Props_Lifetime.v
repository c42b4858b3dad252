(** Property theorem C65: the lifetime parameter of the generated types is
    declared exactly where it is needed and passed exactly where it is
    declared. *)
From Coq Require Import String Arith Lia ZifyBool.
From Verif Require Import Base Reader Writer Spec Schema Keywords Modules Passes Gen GenSem GenSpec GenRecords GenType GenSame GenCheck
  Cycles CycleFacts BreakFacts IndexFacts Pipeline PassFacts ResolveFacts AcceptFacts Props_Passes Props_Generated Props_Wire Props_Accepted Examples
  Lifetime LifetimeFacts.
Import StringSyntax.
Local Open Scope string_scope.
Local Open Scope list_scope.

(** ** What the Rust compiler asks for *)

(** the type mentions ['a] *)
Fixpoint mentions (t : rty) : bool :=
  match t with
  | RPlain => false
  | RCow | RPackedFixed _ => true
  | RMessage _ lt | ROneof _ lt => lt
  | RKVMap k v => mentions k || mentions v
  | RWrap t => mentions t
  end.

(** every type named in [t] is given as many lifetimes as it declares (error
    E0107 or E0106 otherwise); [m] is the message that [t] occurs in *)
Fixpoint args_match (c : config) (d : file_descriptor) (m : message) (t : rty) : Prop :=
  match t with
  | RPlain | RCow => True
  | RMessage i lt => exists m' it, get_message d i = Some m' /\ message_item c d m' = GOk it /\ it_declares it = lt
  | ROneof k lt => exists o it, nth_error (m_oneofs m) k = Some o /\ oneof_item c d o = GOk it /\ it_declares it = lt
  | RKVMap k v => args_match c d m k /\ args_match c d m v
  | RWrap t | RPackedFixed t => args_match c d m t
  end.

(** a lifetime that is mentioned is declared (E0261), and one that is declared
    is mentioned (E0392) *)
Record item_compiles (c : config) (d : file_descriptor) (m : message) (it : rust_item) : Prop := mkCompiles {
  ic_declared : it_declares it = existsb mentions (it_types it);
  ic_args : Forall (args_match c d m) (it_types it) }.

(** The message holds borrowed data: a string, bytes or a packed slice in a
    visible field, or a message that does.  A lifetime that only occurs in
    types that contain each other is an error too (E0392), so this is the least
    such predicate. *)
Inductive borrows (c : config) (d : file_descriptor) : midx -> Prop :=
| borrows_text i m f : get_message d i = Some m -> field_of m f -> visible c f = true ->
    In TStringCow (leaves (f_typ f)) \/ In TBytesCow (leaves (f_typ f)) -> borrows c d i
| borrows_slice i m f k : get_message d i = Some m -> In f (m_fields m) -> visible c f = true ->
    get_type c f = TyPackedFixed k -> borrows c d i
| borrows_inside i j m f : get_message d i = Some m -> field_of m f -> visible c f = true ->
    In (TMessage j) (leaves (f_typ f)) -> borrows c d j -> borrows c d i.

(** ** The proof for any schema with some properties *)
Section Items.
Variables (c : config) (d : file_descriptor).
Hypothesis Idx : indexed d.
Hypothesis Closed : forall i m f t, get_message d i = Some m -> field_of m f -> In t (leaves (f_typ f)) ->
  match t with TMessage j => exists m', get_message d j = Some m' | TMessageOrEnum _ => False | _ => True end.
Hypothesis Pack : forall i m f, get_message d i = Some m -> In f (m_fields m) -> visible c f = true -> f_is_packed f = true ->
  (is_fixed_size (f_typ f) = true -> freq_is_repeated (f_freq f) = true /\ f_boxed f = false /\ c_dont_use_cow c = false) /\
  f_typ f <> TString /\ f_typ f <> TBytes.
Hypothesis OneofPack : forall i m o f, get_message d i = Some m -> In o (m_oneofs m) -> In f (o_fields o) -> visible c f = true -> f_is_packed f = false.
Hypothesis NoCow : c_dont_use_cow c = true -> forall i m f, get_message d i = Some m -> field_of m f ->
  ~ In TStringCow (leaves (f_typ f)) /\ ~ In TBytesCow (leaves (f_typ f)).

Let Refs : forall i m f j, get_message d i = Some m -> In f (all_fields m) -> In (TMessage j) (leaves (f_typ f)) -> exists m', get_message d j = Some m'.
Proof. intros i m f j G Hf Hj. exact (Closed i m f _ G (proj2 (field_of_all m f) Hf) Hj). Qed.

Lemma repeated_not_map q : freq_is_repeated q = true -> freq_is_map q = false.
Proof. now destruct q. Qed.

Lemma needs_borrows i : needs c d i <-> borrows c d i.
Proof.
  split.
  - induction 1 as [i (m & f & G & Hf & V & B)|i j (m & f & G & Hf & V & B) H IH]; apply field_of_all in Hf.
    + destruct B as [B|[B|(P & B)]]; [eapply borrows_text; eauto|eapply borrows_text; eauto|].
      destruct Hf as [Hf|(o & Ho & Hf)]; [|pose proof (OneofPack i m o f G Ho Hf V); congruence].
      destruct (Pack i m f G Hf V P) as (Pk & N1 & N2). destruct B as [B|[B|B]]; [|congruence|congruence].
      destruct (Pk B) as (P1 & P2 & P3). eapply (borrows_slice c d i m f); [exact G|exact Hf|exact V|].
      unfold get_type, generated_type_of. rewrite P2, P1, (repeated_not_map _ P1), P, B, P3. reflexivity.
    + eapply borrows_inside; eauto.
  - induction 1 as [i m f G Hf V B|i m f k G Hf V T|i j m f G Hf V B H IH].
    + apply needs_here. exists m, f. rewrite <- field_of_all. unfold borrows_itself. intuition.
    + apply needs_here. exists m, f. rewrite <- field_of_all. repeat (split; [assumption || now left|]).
      unfold get_type, generated_type_of in T. destruct (f_boxed f); [discriminate|].
      destruct (freq_is_map (f_freq f)); [destruct (f_typ f); discriminate|].
      destruct (freq_is_repeated (f_freq f)); [|destruct (freq_is_optional (f_freq f)); discriminate].
      destruct (f_is_packed f) eqn:P; [|discriminate]. destruct (is_fixed_size (f_typ f)) eqn:F; [|discriminate].
      right. right. auto.
    + apply needs_step with j; [|exact IH]. exists m, f. rewrite <- field_of_all. auto.
Qed.

Lemma dont_use_cow_owns : c_dont_use_cow c = true -> forall i, ~ borrows c d i.
Proof.
  intros D i H. induction H as [i m f G Hf V B|i m f k G Hf V T|i j m f G Hf V B H IH]; [| |exact IH].
  - destruct (NoCow D i m f G Hf). tauto.
  - unfold get_type, generated_type_of in T. destruct (f_boxed f); [discriminate|]. rewrite D, Bool.andb_false_r in T.
    destruct (freq_is_map (f_freq f)); [destruct (f_typ f); discriminate|].
    destruct (freq_is_repeated (f_freq f)); [|destruct (freq_is_optional (f_freq f))]; discriminate.
Qed.

(** the part of [message_item] that does not need the types *)
Lemma message_declares i m : get_message d i = Some m -> exists b, message_has_lifetime c d (lifetime_fuel d) (if c_dont_use_cow c then [m_index m] else []) m = GOk b /\
  (b = true <-> borrows c d i).
Proof.
  intros G. assert (D : c_dont_use_cow c = true \/ c_dont_use_cow c = false) by (destruct (c_dont_use_cow c); auto).
  destruct D as [D|D]; rewrite D.
  - exists false. split; [now apply (ignored_has_lifetime c d i)|]. split; [discriminate|]. intros B. now apply dont_use_cow_owns in B.
  - destruct (index_has_lifetime_total c d Idx Refs i m G) as (b & E & K). unfold index_has_lifetime in E. rewrite G in E.
    exists b. split; [exact E|]. now rewrite K, needs_borrows.
Qed.

Lemma rust_type_ok m t :
  (forall u, In u (leaves t) -> match u with TMessage j => exists m', get_message d j = Some m' | TMessageOrEnum _ => False | _ => True end) ->
  exists r, rust_type c d t = GOk r /\
    (mentions r = true <-> In TStringCow (leaves t) \/ In TBytesCow (leaves t) \/ exists j, In (TMessage j) (leaves t) /\ borrows c d j) /\
    ((forall j m', In (TMessage j) (leaves t) -> get_message d j = Some m' -> exists it, message_item c d m' = GOk it /\ (it_declares it = true <-> borrows c d j)) ->
     args_match c d m r).
Proof.
  induction t; intros H; cbn [rust_type leaves] in *.
  all: try (exists RPlain; cbn; (split; [reflexivity|]); split; [|auto]; split; [discriminate|];
            intros [[E|[]]|[[E|[]]|(j & [E|[]] & _)]]; discriminate).
  - exists RCow. cbn. repeat (split; auto). 
  - exists RCow. cbn. repeat (split; auto).
  - destruct (H _ (or_introl eq_refl)) as (m' & G). destruct (index_has_lifetime_total c d Idx Refs m0 m' G) as (b & E & K).
    rewrite E. exists (RMessage m0 b). cbn. rewrite needs_borrows in K. split; [reflexivity|]. split.
    + rewrite K. split; [intros B; right; right; exists m0; auto|]. intros [[X|[]]|[[X|[]]|(j & [X|[]] & B)]]; try discriminate. now injection X as ->.
    + intros Q. destruct (Q m0 m' (or_introl eq_refl) G) as (it & Eit & Kit). exists m', it. split; [exact G|]. split; [exact Eit|].
      apply Bool.eq_iff_eq_true. now rewrite Kit, K.
  - destruct (H _ (or_introl eq_refl)).
  - destruct IHt1 as (r1 & E1 & M1 & A1); [intros u Hu; apply H, in_app_iff; now left|].
    destruct IHt2 as (r2 & E2 & M2 & A2); [intros u Hu; apply H, in_app_iff; now right|].
    rewrite E1, E2. exists (RKVMap r1 r2). cbn. split; [reflexivity|]. split.
    + rewrite Bool.orb_true_iff, M1, M2, !in_app_iff. split.
      * intros [[X|[X|(j & X & B)]]|[X|[X|(j & X & B)]]]; auto; right; right; exists j; rewrite in_app_iff; auto.
      * intros [[X|X]|[[X|X]|(j & X & B)]]; auto. rewrite in_app_iff in X. destruct X as [X|X]; [left|right]; right; right; exists j; auto.
    + intros Q. split; [apply A1|apply A2]; intros j m' Hj; apply Q, in_app_iff; auto.
Qed.

Lemma gmap_total {A B} (g : A -> gres B) l : (forall x, In x l -> exists y, g x = GOk y) -> exists ys, gmap g l = GOk ys.
Proof.
  induction l as [|x l IH]; intros H; cbn; [eauto|]. destruct (H x (or_introl eq_refl)) as (y & ->).
  destruct IH as (ys & ->); [intros z Hz; apply H; now right|]. cbn. eauto.
Qed.

Lemma number_from_spec {A} (l : list A) : forall i k x, In (k, x) (number_from i l) <-> exists n, k = (i + n)%nat /\ nth_error l n = Some x.
Proof.
  induction l as [|y l IH]; intros i k x; cbn.
  - split; [intros []|]. intros ([|n] & _ & E); discriminate.
  - rewrite IH. split.
    + intros [E|(n & -> & E)]; [injection E as -> ->; exists O; split; [lia|reflexivity]|exists (S n); split; [lia|exact E]].
    + intros ([|n] & -> & E); [left; injection E as ->; f_equal; lia|right; exists n; split; [lia|exact E]].
Qed.

(** the types of the fields: what they mention *)
Definition field_borrows (f : field) : Prop :=
  In TStringCow (leaves (f_typ f)) \/ In TBytesCow (leaves (f_typ f)) \/ exists j, In (TMessage j) (leaves (f_typ f)) /\ borrows c d j.
Definition item_of (j : midx) (m' : message) : Prop :=
  exists it, message_item c d m' = GOk it /\ (it_declares it = true <-> borrows c d j).

Lemma field_rty_ok i m f : get_message d i = Some m -> field_of m f -> exists r, field_rty c d f = GOk r /\
  (mentions r = true <-> field_borrows f \/ exists k, get_type c f = TyPackedFixed k) /\
  ((forall j m', In (TMessage j) (leaves (f_typ f)) -> get_message d j = Some m' -> item_of j m') -> args_match c d m r).
Proof.
  intros G Hf. destruct (rust_type_ok m (f_typ f)) as (r & E & M & A); [intros u Hu; exact (Closed i m f u G Hf Hu)|].
  unfold field_rty. rewrite E. cbn [gbind]. eexists. split; [reflexivity|]. unfold get_type.
  assert (W : forall s, (forall k, s <> TyPackedFixed k) -> (mentions r = true <-> field_borrows f \/ exists k, s = TyPackedFixed k)).
  { intros s N. rewrite M. split; [now left|]. intros [X|(k & X)]; [exact X|]. now apply N in X. }
  destruct (f_boxed f); [split; [apply W; discriminate|exact A]|]. destruct (generated_type_of (f_freq f)).
  - destruct (freq_is_optional (f_freq f)); (split; [apply W; discriminate|exact A]).
  - destruct (f_is_packed f && is_fixed_size (f_typ f) && negb (c_dont_use_cow c)).
    + cbn. split; [|exact A]. split; [|reflexivity]. intros _. right. eauto.
    + split; [apply W; discriminate|exact A].
  - split; [|exact A]. apply W. intros k. destruct (f_typ f); discriminate.
Qed.
Lemma oneof_parts i m o : get_message d i = Some m -> In o (m_oneofs m) ->
  exists b ts, oneof_has_lifetime c d o = GOk b /\ oneof_item c d o = GOk (mkItem b ts) /\
    (b = true <-> exists f, In f (o_fields o) /\ visible c f = true /\ field_borrows f) /\
    b = existsb mentions ts /\
    ((forall f j m', In f (o_fields o) -> In (TMessage j) (leaves (f_typ f)) -> get_message d j = Some m' -> item_of j m') -> Forall (args_match c d m) ts).
Proof.
  intros G Ho.
  assert (Cl : forall f u, In f (o_fields o) -> In u (leaves (f_typ f)) -> match u with TMessage j => exists m', get_message d j = Some m' | TMessageOrEnum _ => False | _ => True end).
  { intros f u Hf Hu. exact (Closed i m f u G (or_intror (ex_intro _ o (conj Ho Hf))) Hu). }
  destruct (oneof_has_lifetime_total c d Idx Refs o) as (b & E & K); [intros f j Hf Hj; exact (Cl f _ Hf Hj)|].
  assert (K' : b = true <-> exists f, In f (o_fields o) /\ visible c f = true /\ field_borrows f).
  { rewrite K. split; intros (f & Hf & V & B); exists f; (split; [exact Hf|]); (split; [exact V|]).
    - destruct B as [[B|[B|(P & _)]]|(j & Hj & B)]; [now left|right; now left| |right; right; exists j; split; [exact Hj|now apply needs_borrows]].
      rewrite (OneofPack i m o f G Ho Hf V) in P. discriminate.
    - destruct B as [B|[B|(j & Hj & B)]]; [left; now left|left; right; now left|right; exists j; split; [exact Hj|now apply needs_borrows]]. }
  set (g := fun f => gbind (rust_type c d (f_typ f)) (fun t => GOk (if f_boxed f then RWrap t else t))).
  assert (Hg : forall f, In f (o_fields o) -> exists r, g f = GOk r /\ (mentions r = true <-> field_borrows f) /\
     ((forall j m', In (TMessage j) (leaves (f_typ f)) -> get_message d j = Some m' -> item_of j m') -> args_match c d m r)).
  { intros f Hf. destruct (rust_type_ok m (f_typ f)) as (r & Er & M & A); [intros u Hu; exact (Cl f u Hf Hu)|].
    unfold g. rewrite Er. cbn. eexists. split; [reflexivity|]. destruct (f_boxed f); split; assumption. }
  destruct (gmap_total g (filter (visible c) (o_fields o))) as (ts & Ets).
  { intros f Hf. apply filter_In in Hf. destruct (Hg f (proj1 Hf)) as (r & Er & _). eauto. }
  exists b, ts. split; [exact E|]. split; [unfold oneof_item; rewrite E; cbn; fold g; rewrite Ets; reflexivity|]. split; [exact K'|].
  apply gmap_ok in Ets. split.
  - apply Bool.eq_iff_eq_true. rewrite K', existsb_exists. split.
    + intros (f & Hf & V & B). destruct (Forall2_in_l _ _ _ Ets f) as (r & Hr & Er); [apply filter_In; auto|].
      exists r. split; [exact Hr|]. destruct (Hg f Hf) as (r' & Er' & M & _). assert (r' = r) by congruence. subst. now apply M.
    + intros (r & Hr & M). destruct (Forall2_in_r _ _ _ Ets r Hr) as (f & Hf & Er). apply filter_In in Hf. destruct Hf as (Hf & V).
      exists f. split; [exact Hf|]. split; [exact V|]. destruct (Hg f Hf) as (r' & Er' & M' & _). assert (r' = r) by congruence. subst. now apply M'.
  - intros Q. apply Forall_forall. intros r Hr. destruct (Forall2_in_r _ _ _ Ets r Hr) as (f & Hf & Er). apply filter_In in Hf. destruct Hf as (Hf & V).
    destruct (Hg f Hf) as (r' & Er' & _ & A). assert (r' = r) by congruence. subst. apply A. intros j m' Hj. now apply (Q f).
Qed.

Lemma message_item_total i m : get_message d i = Some m -> exists it, message_item c d m = GOk it /\
  (it_declares it = true <-> borrows c d i) /\ it_declares it = existsb mentions (it_types it) /\
  ((forall j m', get_message d j = Some m' -> item_of j m') -> Forall (args_match c d m) (it_types it)).
Proof.
  intros G. unfold message_item. destruct (is_unit m) eqn:U.
  - exists (mkItem false []). cbn. split; [reflexivity|]. split; [|split; [reflexivity|constructor]]. split; [discriminate|].
    assert (Nf : forall f, ~ field_of m f).
    { intros f Hf. destruct m as [? fs os ? ? ? ? ? ? ? ?]. cbn in U. destruct fs as [|]; [|discriminate]. destruct os as [|]; [|discriminate].
      destruct Hf as [[]|(o & [] & _)]. }
    intros B. inversion B as [x m' f G' Hf|x m' f k G' Hf|x j m' f G' Hf]; subst; rewrite G in G'; injection G' as <-; exfalso; apply (Nf f); try exact Hf. now left.
  - destruct (message_declares i m G) as (b & E & K). rewrite E. cbn [gbind].
    destruct (gmap_total (field_rty c d) (visible_fields c m)) as (ts & Ets).
    { intros f Hf. unfold visible_fields in Hf. apply filter_In in Hf. destruct (field_rty_ok i m f G (or_introl (proj1 Hf))) as (r & Er & _). eauto. }
    rewrite Ets. cbn [gbind].
    set (g := fun '(k, o) => gbind (oneof_has_lifetime c d o) (fun lt => GOk (ROneof k lt))).
    assert (Num : forall k o, In (k, o) (number_from 0 (m_oneofs m)) <-> nth_error (m_oneofs m) k = Some o).
    { intros k o. rewrite number_from_spec. split; [intros (n & -> & X); exact X|]. intros X. exists k. split; [reflexivity|exact X]. }
    destruct (gmap_total g (number_from 0 (m_oneofs m))) as (os & Eos).
    { intros (k, o) Hko. apply Num, nth_error_In in Hko. destruct (oneof_parts i m o G Hko) as (lt & ? & E' & _). unfold g. rewrite E'. cbn. eauto. }
    rewrite Eos. cbn [gbind]. eexists. split; [reflexivity|]. cbn [it_declares it_types]. split; [exact K|].
    apply gmap_ok in Ets. apply gmap_ok in Eos. split.
    + apply Bool.eq_iff_eq_true. rewrite K, existsb_app, Bool.orb_true_iff, !existsb_exists. split.
      * intros B.
        assert (X : exists f, field_of m f /\ visible c f = true /\ (field_borrows f \/ (In f (m_fields m) /\ exists k, get_type c f = TyPackedFixed k))).
        { unfold field_borrows. inversion B as [x m' f G' Hf V T|x m' f k G' Hf V T|x j m' f G' Hf V T H]; subst; rewrite G in G'; injection G' as <-; exists f.
          - split; [exact Hf|]. split; [exact V|]. left. tauto.
          - split; [now left|]. split; [exact V|]. right. eauto.
          - split; [exact Hf|]. split; [exact V|]. left. right. right. eauto. }
        destruct X as (f & Hf & V & X). destruct Hf as [Hf|(o & Ho & Hf)].
        -- left. destruct (Forall2_in_l _ _ _ Ets f) as (r & Hr & Er); [unfold visible_fields; apply filter_In; auto|]. exists r. split; [exact Hr|].
           destruct (field_rty_ok i m f G (or_introl Hf)) as (r' & Er' & M & _). assert (r' = r) by congruence. subst. apply M. tauto.
        -- destruct X as [X|(Hf' & X)].
           ++ right. destruct (oneof_parts i m o G Ho) as (lt & tso & E' & _ & Ko & _). apply In_nth_error in Ho. destruct Ho as (k & Ho).
              exists (ROneof k lt). split; [|cbn; apply Ko; eauto].
              destruct (Forall2_in_l _ _ _ Eos (k, o)) as (r & Hr & Er); [now apply Num|]. unfold g in Er. rewrite E' in Er. cbn in Er. injection Er as <-. exact Hr.
           ++ left. destruct (Forall2_in_l _ _ _ Ets f) as (r & Hr & Er); [unfold visible_fields; apply filter_In; auto|]. exists r. split; [exact Hr|].
              destruct (field_rty_ok i m f G (or_introl Hf')) as (r' & Er' & M & _). assert (r' = r) by congruence. subst. apply M. tauto.
      * assert (Bf : forall f, field_of m f -> visible c f = true -> field_borrows f -> borrows c d i).
        { intros f Hf V [X|[X|(j & X & B)]]; [eapply borrows_text; eauto|eapply borrows_text; eauto|eapply borrows_inside; eauto]. }
        intros [(r & Hr & M)|(r & Hr & M)].
        -- destruct (Forall2_in_r _ _ _ Ets r Hr) as (f & Hf & Er). unfold visible_fields in Hf. apply filter_In in Hf. destruct Hf as (Hf & V).
           destruct (field_rty_ok i m f G (or_introl Hf)) as (r' & Er' & M' & _). assert (r' = r) by congruence. subst.
           apply M' in M. destruct M as [M|(k & M)]; [apply (Bf f); auto; now left|]. eapply borrows_slice; eauto.
        -- destruct (Forall2_in_r _ _ _ Eos r Hr) as ((k, o) & Hko & Er). apply Num, nth_error_In in Hko.
           destruct (oneof_parts i m o G Hko) as (lt & tso & E' & _ & Ko & _). unfold g in Er. rewrite E' in Er. cbn in Er. injection Er as <-. cbn in M. subst lt.
           destruct Ko as (Ko & _). destruct (Ko eq_refl) as (f & Hf & V & B). apply (Bf f); auto. right. eauto.
    + intros Q. apply Forall_app. split; apply Forall_forall; intros r Hr.
      * destruct (Forall2_in_r _ _ _ Ets r Hr) as (f & Hf & Er). unfold visible_fields in Hf. apply filter_In in Hf. destruct Hf as (Hf & V).
        destruct (field_rty_ok i m f G (or_introl Hf)) as (r' & Er' & _ & A). assert (r' = r) by congruence. subst. apply A. auto.
      * destruct (Forall2_in_r _ _ _ Eos r Hr) as ((k, o) & Hko & Er). apply Num in Hko.
        destruct (oneof_parts i m o G (nth_error_In _ _ Hko)) as (lt & tso & E' & Eit & _). unfold g in Er. rewrite E' in Er. cbn in Er. injection Er as <-.
        cbn. exists o, (mkItem lt tso). auto.
Qed.

Lemma items_compile i m : get_message d i = Some m ->
  (exists it, message_item c d m = GOk it /\ item_compiles c d m it /\ (it_declares it = true <-> borrows c d i)) /\
  (forall o, In o (m_oneofs m) -> exists it, oneof_item c d o = GOk it /\ item_compiles c d m it).
Proof.
  assert (Q : forall j m', get_message d j = Some m' -> item_of j m').
  { intros j m' Gj. destruct (message_item_total j m' Gj) as (it & E & K & _). exists it. auto. }
  intros G. split.
  - destruct (message_item_total i m G) as (it & E & K & D & A). exists it. split; [exact E|]. split; [|exact K]. constructor; [exact D|now apply A].
  - intros o Ho. destruct (oneof_parts i m o G Ho) as (b & ts & _ & E & _ & D & A). exists (mkItem b ts). split; [exact E|]. constructor; [exact D|]. apply A. auto.
Qed.
End Items.

(** ** C65 *)
Lemma process_indexed c d d' : process c d = GOk d' -> indexed d'.
Proof.
  intros H. apply process_stages in H. destruct H as (d1 & d2 & d4 & [E1 E2 E3 E4 ->]).
  pose proof (resolve_types_indexed d d1 E1) as I1.
  destruct (break_cycles_ok (c_error_cycle c) d1 I1) as (cs & _ & [(d2' & E2' & R2 & _)|(_ & names & E2' & _)]); [|congruence].
  rewrite E2 in E2'. injection E2' as <-.
  assert (I4 : indexed d4).
  { eapply indexed_rel; [exact (set_defaults_rel _ _ E4)|]. eapply indexed_rel; [exact (drop_cows_rel c d2)|]. now apply (indexed_rel _ _ _ R2). }
  intros p m. rewrite get_single_module, get_sanitize_names. destruct (get_message d4 p) as [m4|] eqn:G; [|discriminate].
  intros X; injection X as <-. rewrite <- (I4 p m4 G). now destruct m4.
Qed.

(** a rule of the language (the passes check it in no nested message): strings
    and bytes are not packed *)
Definition strings_not_packed (d : file_descriptor) : Prop :=
  forall p m f, get_message d p = Some m -> field_of m f -> f_packed f = Some true ->
    ~ In (f_typ f) [TStringCow; TBytesCow; TString; TBytes].

Theorem C65_lifetimes_partial : forall c d d', protobuf_rules d -> strings_not_packed d -> process c d = GOk d' -> compiles c d' ->
  forall i m, get_message d' i = Some m ->
  (exists it, message_item c d' m = GOk it /\ item_compiles c d' m it /\ (it_declares it = true <-> borrows c d' i)) /\
  (forall o, In o (m_oneofs m) -> exists it, oneof_item c d' o = GOk it /\ item_compiles c d' m it).
Proof.
  intros c d d' R Sp A Cw.
  assert (Ty : forall i m' f', get_message d' i = Some m' -> field_of m' f' ->
            exists m f, get_message d i = Some m /\ field_of m f /\ field_final c d i m f f' /\
            (forall t, In t (leaves (f_typ f')) -> typ_ok d' t) /\
            (c_dont_use_cow c = true -> ~ In TStringCow (leaves (f_typ f')) /\ ~ In TBytesCow (leaves (f_typ f')))).
  { intros i m' f' G Hf. destruct (process_field_back c d d' i m' f' A G Hf) as (m & f & G0 & Hf0 & FF).
    exists m, f. split; [exact G0|]. split; [exact Hf0|]. split; [exact FF|].
    pose proof (final_types c d d' R A i m f f' G0 Hf0 FF) as T. destruct (ff_typ _ _ _ _ _ _ FF) as (t & Rt & E).
    assert (L : forall u, typ_ok d' u -> leaves u = [u]) by (intros u Hu; destruct u; try reflexivity; contradiction).
    assert (Kt : forall u, key_ok u -> typ_ok d' u) by (intros u Hu; destruct u; try contradiction; exact I).
    assert (O1 : forall u, own1 u <> TStringCow /\ own1 u <> TBytesCow) by (intros u; destruct u; split; discriminate).
    destruct (freq_is_map (f_freq f)).
    - destruct T as (k & v & E' & Hk & Hv). rewrite E'. cbn [leaves]. rewrite (L k (Kt k Hk)), (L v Hv). split.
      + intros u [<-|[<-|[]]]; auto.
      + intros D. rewrite D, E' in E. destruct t; cbn in E; try discriminate. injection E as -> ->. cbn.
        destruct (O1 t1), (O1 t2). split; intros [X|[X|[]]]; congruence.
    - rewrite (L _ T). split; [intros u [<-|[]]; exact T|]. intros D. rewrite D in E. cbn.
      assert (E'' : f_typ f' = own1 t) by (rewrite E in T |- *; destruct t; try reflexivity; contradiction).
      rewrite E''. destruct (O1 t). split; intros [X|[]]; congruence. }
  assert (Pk : forall i m' f', get_message d' i = Some m' -> field_of m' f' -> f_is_packed f' = true ->
            exists m f, get_message d i = Some m /\ field_of m f /\ field_final c d i m f f' /\
            freq_is_repeated (f_freq f') = true /\ f_typ f' <> TString /\ f_typ f' <> TBytes).
  { intros i m' f' G Hf P. destruct (Ty i m' f' G Hf) as (m & f & G0 & Hf0 & FF & _). exists m, f. split; [exact G0|]. split; [exact Hf0|]. split; [exact FF|].
    destruct (ff_packed _ _ _ _ _ _ FF) as (f0 & E & E1 & E2 & E3). unfold f_is_packed in P. rewrite E in P. unfold packed_after in P. rewrite E1, E2, E3 in P.
    pose proof (final_repeated _ _ _ _ _ _ FF) as Rp.
    assert (K : f_packed f = Some true -> freq_is_repeated (f_freq f') = true /\ f_typ f' <> TString /\ f_typ f' <> TBytes).
    { intros X. split; [rewrite Rp; now apply (pr_packed d R i m f G0 Hf0)|]. pose proof (Sp i m f G0 Hf0 X) as S.
      pose proof (pr_types d R i m f G0 Hf0) as T0. destruct (ff_typ _ _ _ _ _ _ FF) as (t & Rt & Et).
      destruct (freq_is_map (f_freq f)).
      - destruct T0 as (k & v & E0 & _). rewrite E0 in Rt. cbn in Rt. apply gbind_ok in Rt. destruct Rt as (k' & _ & Rt). apply gbind_ok in Rt.
        destruct Rt as (v' & _ & Rt). injection Rt as <-. rewrite Et. destruct (c_dont_use_cow c); split; discriminate.
      - assert (Rn : resolve_name (full_msgs d) (full_enums d) (m_package m) (m_name m) (f_typ f) = GOk t) by (destruct (f_typ f); try exact Rt; contradiction).
        apply resolve_name_typ_ok in Rn; [|exact T0]. rewrite Et. destruct Rn as [F|(-> & _)].
        + destruct t; try contradiction; destruct (c_dont_use_cow c); split; discriminate.
        + cbn in S. destruct (c_dont_use_cow c); destruct (f_typ f); cbn; split; intuition discriminate. }
    destruct (is_top i); [destruct (is_primitive (f_typ f')) eqn:Pr; [|discriminate]|].
    - destruct (f_packed f) as [b|]; [destruct (d_syntax d); subst b; now apply K|]. destruct (d_syntax d); [discriminate|].
      destruct (freq_is_repeated (f_freq f')); [|discriminate]. split; [reflexivity|]. destruct (f_typ f'); split; discriminate.
    - destruct (f_packed f) as [b|]; [|discriminate]. subst b. now apply K. }
  apply items_compile.
  - now apply (process_indexed c d).
  - intros i m f t G Hf Ht. destruct (Ty i m f G Hf) as (_ & _ & _ & _ & _ & T & _). specialize (T t Ht). destruct t; try exact I; cbn in T; try contradiction.
    destruct (get_message d' m0); [eauto|congruence].
  - intros i m f G Hf V P. destruct (Pk i m f G (or_introl Hf) P) as (m0 & f0 & G0 & Hf0 & FF & Rp & N). split; [|exact N]. intros Fx. split; [exact Rp|]. split.
    + destruct (ff_freq _ _ _ _ _ _ FF) as [(_ & Eb)|(_ & _ & _ & j & Tj)]; [|rewrite Tj in Fx; discriminate]. rewrite Eb. apply (pr_unboxed d R i m0 f0 G0 Hf0).
    + destruct (c_dont_use_cow c) eqn:Dc; [|reflexivity]. rewrite (Cw Dc i m f G (or_introl Hf) Rp) in Fx. discriminate.
  - intros i m o f G Ho Hf V. destruct (f_is_packed f) eqn:P; [|reflexivity].
    pose proof (process_message c d d' A i) as Q. rewrite G in Q. inversion Q as [|m0 y F A0 B0]; subst. symmetry in A0.
    destruct F as (_ & F). destruct (Forall2_in_r _ _ _ F o Ho) as (o0 & Ho0 & Fo).
    destruct (Forall2_in_r _ _ _ Fo f Hf) as (f0 & Hf0 & FF). destruct (pr_oneof d R i m0 o0 f0 A0 Ho0 Hf0) as (Nr & _).
    destruct (Pk i m f G (or_intror (ex_intro _ o (conj Ho Hf))) P) as (_ & _ & _ & _ & _ & Rp & _).
    rewrite (final_repeated _ _ _ _ _ _ FF) in Rp. congruence.
  - intros D i m f G Hf. destruct (Ty i m f G Hf) as (_ & _ & _ & _ & _ & _ & T). now apply T.
Qed.
Print Assumptions C65_lifetimes_partial.

(** The concrete case: the schema of [C53_case] ([Node] and its [Leaf] borrow,
    through each other) with one more message that borrows nothing. *)
Definition srcL : file_descriptor := set_own_package (mkDesc "p" Proto3
  (d_messages srcD ++ [msg "Tree" [fd "kids" P3Repeated (TMessageOrEnum "Tree") 1; fd "n" P3Default TInt32 2] [] []])
  (d_enums srcD) "p").
Example C65_case : protobuf_rules srcD /\ strings_not_packed srcD /\
  match process cfgC srcD with
  | GOk d' => compiles cfgC d' /\
      match get_message d' [0]%nat, get_message d' [0; 0]%nat with
      | Some node, Some leaf =>
        message_item cfgC d' node = GOk (mkItem true [RWrap (RMessage [0; 0]%nat true); RWrap (RWrap (RMessage [0]%nat true));
           RKVMap RCow (RMessage [0; 0]%nat true); RPackedFixed RPlain; ROneof 0 true]) /\
        message_item cfgC d' leaf = GOk (mkItem true [RCow; RWrap (RMessage [0]%nat true)])
      | _, _ => False
      end
  | GErr _ => False
  end /\
  match process cfgC srcL with
  | GOk d' => match get_message d' [2]%nat with
              | Some tree => message_item cfgC d' tree = GOk (mkItem false [RWrap (RMessage [2]%nat false); RPlain])
              | None => False
              end
  | GErr _ => False
  end.
Proof.
  split; [exact srcD_rules|]. split.
  { intros p m f G Hf. apply get_message_in in G. apply field_of_all in Hf. cbn in G. decompose [or] G; try contradiction;
      match goal with K : _ = _ |- _ => injection K as <- <- end; cbn in Hf; decompose [or] Hf; subst; try contradiction; discriminate. }
  split; [|vm_compute; reflexivity]. destruct (process cfgC srcD) as [d'|e] eqn:E; [|vm_compute in E; discriminate].
  vm_compute in E. injection E as <-. split; [discriminate|]. vm_compute. split; reflexivity.
Qed.

(** With --dont-use-cow a message with a packed field of fixed size declares no
    lifetime (it is in [ignore] from the start), but the types that mention it
    give it one: the Rust compiler refuses them. *)
Theorem C65_dont_use_cow_refuted : exists d d' i m it, protobuf_rules d /\ strings_not_packed d /\ process cfgOwn d = GOk d' /\
  get_message d' i = Some m /\ message_item cfgOwn d' m = GOk it /\ ~ item_compiles cfgOwn d' m it.
Proof.
  pose (d := set_own_package (mkDesc "p" Proto3 [msg "A" [fd "x" P3Repeated TFixed32 1] [] []; msg "B" [fd "a" P3Optional (TMessageOrEnum "A") 1] [] []] [] "p")).
  destruct (process cfgOwn d) as [d'|e] eqn:E; [|vm_compute in E; discriminate].
  pose proof E as E0. vm_compute in E0. exists d, d', [1%nat].
  destruct (get_message d' [1%nat]) as [m|] eqn:G; [|injection E0 as <-; vm_compute in G; discriminate]. exists m.
  injection E0 as <-. vm_compute in G. injection G as <-. eexists. 
  assert (M : forall p m, get_message d p = Some m -> exists f, m_fields m = [f] /\ m_oneofs m = [] /\ f_number f = 1%Z /\ f_packed f = None /\ f_boxed f = false /\
     freq_is_map (f_freq f) = false /\ source_type (f_typ f)).
  { intros p m G. apply get_message_in in G. cbn in G. decompose [or] G; try contradiction;
      match goal with K : _ = _ |- _ => injection K as <- <- end; cbn; eexists; (split; [reflexivity|]); repeat (split; [reflexivity|]); exact I. }
  assert (M' : forall p m f, get_message d p = Some m -> field_of m f -> f_number f = 1%Z /\ f_packed f = None /\ f_boxed f = false /\
     freq_is_map (f_freq f) = false /\ source_type (f_typ f)).
  { intros p m f G [Hf|(o & Ho & _)]; destruct (M p m G) as (f0 & F & O & Q); [|rewrite O in Ho; contradiction]. rewrite F in Hf. destruct Hf as [<-|[]]. exact Q. }
  split; [|split; [|split; [reflexivity|split; [reflexivity|split; [vm_compute; reflexivity|]]]]].
  - constructor.
    + intros p m f G Hf. destruct (M' p m f G Hf) as (-> & _). lia.
    + intros p m G. destruct (M p m G) as (f & -> & -> & _). cbn. repeat constructor. intros [].
    + intros p m f G Hf. destruct (M' p m f G Hf) as (_ & _ & _ & -> & S). exact S.
    + intros p m o f G Ho. destruct (M p m G) as (f0 & _ & O & _). rewrite O in Ho. contradiction.
    + intros p m f G Hf. destruct (M' p m f G Hf) as (_ & -> & _). discriminate.
    + intros p m f G Hf. destruct (M' p m f G Hf) as (_ & _ & -> & _). reflexivity.
  - intros p m f G Hf. destruct (M' p m f G Hf) as (_ & -> & _). discriminate.
  - intros [D _]. vm_compute in D. discriminate.
Qed.
Print Assumptions C65_dont_use_cow_refuted.

(** The option [packed] on a field that is not repeated (against the rules of
    the language, but accepted): the struct declares a lifetime that none of
    its fields mentions. *)
Theorem C65_packed_singular_refuted : exists d d' i m it, process cfgC d = GOk d' /\ compiles cfgC d' /\
  get_message d' i = Some m /\ message_item cfgC d' m = GOk it /\ it_declares it = true /\ existsb mentions (it_types it) = false.
Proof.
  exists (file Proto2 [msg "A" [mkField "x" P2Optional TFixed32 1 None (Some true) false false] [] []]).
  eexists. exists [0%nat]. eexists. eexists. split; [vm_compute; reflexivity|]. split; [discriminate|].
  split; [reflexivity|]. split; [vm_compute; reflexivity|]. split; reflexivity.
Qed.
Print Assumptions C65_packed_singular_refuted.
