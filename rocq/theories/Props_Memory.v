(** C73: the size of what is decoded; C74: strings and bytes are pieces of the input. *)
From Coq Require Import String.
From Coq Require Import ZifyBool ZifyNat ZifyN.
From Verif Require Import Base BaseFacts Utf8 Reader PackedFixed Writer Sizeofs Spec VarintFacts
  WriterFacts ScalarFacts DelimFacts Utf8Facts PackedFixedFacts ExactFacts SimFacts Schema Gen GenSem GenSpec GenCheck GenRead GenType Examples.
Import StringSyntax.
Local Open Scope string_scope. Local Open Scope list_scope. Local Open Scope Z_scope.

(** ** Specification *)

(** The weight of a value: one for every number, flag, string, vector, map,
    struct, option, and one for every byte of a string and element of a packed
    vector.  The memory that a decoded message takes, with what it borrows, is at
    most its weight times a constant (the size of the largest struct field). *)
Fixpoint vweight (v : value) : Z :=
  match v with
  | VZ _ | VBool _ => 1
  | VB b => 1 + zlen b
  | VMsg ss => 1 + (fix go (l : list slot) : Z := match l with [] => 0 | s :: l' => sweight s + go l' end) ss
  end
with sweight (s : slot) : Z :=
  match s with
  | SlOne v => vweight v
  | SlNone | SlOneofNone => 1
  | SlSome v | SlOneof _ v => 1 + vweight v
  | SlVec l => 1 + (fix go (l : list value) : Z := match l with [] => 0 | v :: l' => vweight v + go l' end) l
  | SlPF p => 1 + match p with NoDataYet => 0 | Borrowed b => zlen b | Owned l => zlen l end
  | SlMap l => 1 + (fix go (l : list (value * value)) : Z := match l with [] => 0 | (k, v) :: l' => vweight k + vweight v + go l' end) l
  end.
Fixpoint total {A} (w : A -> Z) (l : list A) : Z := match l with [] => 0 | x :: l' => w x + total w l' end.
(** the weight of a message *)
Definition weight (ss : list slot) : Z := total sweight ss.
(** one more than the weight of the heaviest default message *)
Definition schema_weight (D : file_descriptor) (c : config) (lit : field_type -> text -> option value) : Z :=
  1 + fold_right Z.max 0 (map (fun '(i, _) => match message_default D c lit i with Some ss => weight ss | None => 0 end) (all_messages D)).

Lemma total_app {A} (w : A -> Z) a b : total w (a ++ b) = total w a + total w b.
Proof. induction a as [|x a IH]; cbn [app total]; [reflexivity|]. rewrite IH. lia. Qed.
Lemma vweight_msg ss : vweight (VMsg ss) = 1 + weight ss.
Proof. cbn [vweight]. f_equal. induction ss as [|s ss IH]; [reflexivity|]. unfold weight in *. cbn [total]. now rewrite <- IH. Qed.
Lemma sweight_vec l : sweight (SlVec l) = 1 + total vweight l.
Proof. cbn [sweight]. f_equal. induction l as [|s ss IH]; [reflexivity|]. cbn [total]. now rewrite <- IH. Qed.
Definition pweight (kv : value * value) : Z := vweight (fst kv) + vweight (snd kv).
Lemma sweight_map l : sweight (SlMap l) = 1 + total pweight l.
Proof.
  cbn [sweight]. f_equal. induction l as [|(k, v) l IH]; [reflexivity|]. cbn [total]. rewrite <- IH.
  unfold pweight. cbn [fst snd]. lia.
Qed.

Fixpoint vweight_pos (v : value) : 1 <= vweight v
with sweight_pos (s : slot) : 1 <= sweight s.
Proof.
  - destruct v as [z|b|b|ss]; cbn [vweight]; try lia; [pose proof (zlen_nonneg b); lia|].
    assert (X : forall l, 0 <= (fix go (l : list slot) : Z := match l with [] => 0 | s :: l' => sweight s + go l' end) l).
    { induction l as [|s l IH]; [lia|]. pose proof (sweight_pos s). lia. }
    specialize (X ss). lia.
  - destruct s as [v| |v|l|p|l| |j v]; cbn [sweight]; try lia; try (pose proof (vweight_pos v); lia).
    + assert (X : forall l, 0 <= (fix go (l : list value) : Z := match l with [] => 0 | s :: l' => vweight s + go l' end) l).
      { induction l0 as [|s l0 IH]; [lia|]. pose proof (vweight_pos s). lia. }
      specialize (X l). lia.
    + destruct p; try lia; [pose proof (zlen_nonneg bs)|pose proof (zlen_nonneg v)]; lia.
    + assert (X : forall l, 0 <= (fix go (l : list (value * value)) : Z := match l with [] => 0 | (k, v) :: l' => vweight k + vweight v + go l' end) l).
      { induction l0 as [|(k, v) l0 IH]; [lia|]. pose proof (vweight_pos k). pose proof (vweight_pos v). lia. }
      specialize (X l). lia.
Qed.
Lemma total_nonneg {A} (w : A -> Z) l : (forall x, 0 <= w x) -> 0 <= total w l.
Proof. intros H. induction l as [|x l IH]; [cbn; lia|]. cbn [total]. specialize (H x). lia. Qed.
Lemma pweight_pos kv : 0 <= pweight kv.
Proof. unfold pweight. pose proof (vweight_pos (fst kv)). pose proof (vweight_pos (snd kv)). lia. Qed.

Lemma weight_set ss i s s' : nth_error ss i = Some s -> weight (set_nth i s' ss) = weight ss - sweight s + sweight s'.
Proof.
  revert i; induction ss as [|x ss IH]; intros [|i] N; cbn [nth_error] in N; try discriminate.
  - injection N as ->. cbn [set_nth]. unfold weight. cbn [total]. lia.
  - cbn [set_nth]. unfold weight in *. cbn [total]. rewrite (IH i N). lia.
Qed.
Lemma map_insert_weight k v l : total pweight (map_insert k v l) <= total pweight l + vweight k + vweight v.
Proof.
  induction l as [|(a, b) l IH]; cbn [map_insert].
  - unfold pweight. cbn. lia.
  - destruct (plain_eq k a); cbn [total].
    + unfold pweight at 1 3. cbn [fst snd]. pose proof (vweight_pos k). pose proof (vweight_pos b). lia.
    + lia.
Qed.

(** ** How much is read for a value *)
(** the bytes of the input between two positions (an unknown field can end after the input) *)
Definition dist (bs : bytes) (s s' : Z) : Z := Z.min s' (zlen bs) - Z.min s (zlen bs).
Lemma dist_add bs a b c : dist bs a c = dist bs a b + dist bs b c.
Proof. unfold dist. lia. Qed.
Ltac dist := unfold dist in *; lia.
(** [m] goes forward by [n] bytes of the input with [P n v] *)
Definition cost {A} (P : Z -> A -> Prop) (m : rd A) : Prop := forall bs s e v r', 0 <= s -> m bs (mkR s e) = (Ok v, r') ->
  r_end r' = e /\ s <= r_start r' /\ P (dist bs s (r_start r')) v.
(** [m] goes to the end *)
Definition block {A} (P : Z -> A -> Prop) (m : rd A) : Prop := forall bs s e v r', 0 <= s <= e -> m bs (mkR s e) = (Ok v, r') ->
  r' = mkR e e /\ P (dist bs s e) v.

Lemma cost_weaken {A} (P Q : Z -> A -> Prop) m : (forall n v, 0 <= n -> P n v -> Q n v) -> cost P m -> cost Q m.
Proof. intros H C bs s e v r' Hs E. destruct (C bs s e v r' Hs E) as (A1 & A2 & A3). repeat match goal with |- _ /\ _ => split end; auto. apply H; [dist|exact A3]. Qed.
Lemma cost_rmap {A B} (P : Z -> A -> Prop) (Q : Z -> B -> Prop) (f : A -> B) m : (forall n v, 0 <= n -> P n v -> Q n (f v)) -> cost P m -> cost Q (rmap f m).
Proof.
  intros H C bs s e v r' Hs E. unfold rmap in E. apply bind_inv in E. destruct E as (a & r1 & E1 & E2).
  destruct (C bs s e a r1 Hs E1) as (A1 & A2 & A3). unfold ret in E2. injection E2 as <- <-.
  repeat match goal with |- _ /\ _ => split end; auto. apply H; [dist|exact A3].
Qed.
Lemma cost_bind {A B} (P : Z -> A -> Prop) (Q : Z -> B -> Prop) m f : cost P m ->
  (forall k a, 0 <= k -> P k a -> cost (fun n v => Q (k + n) v) (f a)) -> cost Q (bind m f).
Proof.
  intros C H bs s e v r' Hs E. apply bind_inv in E. destruct E as (a & r1 & E1 & E2). destruct (C bs s e a r1 Hs E1) as (A1 & A2 & A3).
  destruct r1 as [s1 e1]. cbn [r_start r_end] in *. subst e1. destruct (H (dist bs s s1) a ltac:(dist) A3 bs s1 e v r' ltac:(lia) E2) as (B1 & B2 & B3).
  repeat match goal with |- _ /\ _ => split end; [exact B1|lia|]. replace (dist bs s (r_start r')) with (dist bs s s1 + dist bs s1 (r_start r')) by dist. exact B3.
Qed.
Lemma cost_ret {A} (P : Z -> A -> Prop) a : P 0 a -> cost P (ret a).
Proof. intros H bs s e v r' Hs E. injection E as <- <-. cbn [r_start r_end]. repeat match goal with |- _ /\ _ => split end; [reflexivity|lia|]. unfold dist. now rewrite Z.sub_diag. Qed.
Lemma cost_fail {A} (P : Z -> A -> Prop) er : cost P (fail er).
Proof. intros bs s e v r' Hs E. discriminate E. Qed.

Lemma cost_panic {A} (P : Z -> A -> Prop) : cost P (lift Panic).
Proof. intros bs s e v r' Hs E. discriminate E. Qed.

Lemma cost_varint32 : cost (fun n v => 1 <= n /\ 0 <= v) read_varint32.
Proof.
  intros bs s e v r' Hs E. destruct (read_varint32_inv _ _ _ _ _ Hs E) as (l & Hl & V & _ & -> & ->). cbn [r_start r_end]. pose proof (is_varint_nonempty l V). pose proof (here_bound _ _ _ Hl).
  pose proof (Z.mod_pos_bound (varint_value l) (2 ^ 32) ltac:(lia)). repeat match goal with |- _ /\ _ => split end; try lia; dist.
Qed.
Lemma cost_varint64 : cost (fun n v => 1 <= n /\ 0 <= v) read_varint64.
Proof.
  intros bs s e v r' Hs E. destruct (read_varint64_inv _ _ _ _ _ Hs E) as (l & Hl & V & _ & -> & ->). cbn [r_start r_end]. pose proof (is_varint_nonempty l V). pose proof (here_bound _ _ _ Hl).
  pose proof (Z.mod_pos_bound (varint_value l) (2 ^ 64) ltac:(lia)). repeat match goal with |- _ /\ _ => split end; try lia; dist.
Qed.
Lemma cost_u8 : cost (fun n _ => 1 <= n) read_u8.
Proof.
  intros bs s e v r' Hs E. unfold read_u8, bind, get_start, get_or_eob in E. cbn [r_start] in E. destruct (get bs s) as [b|] eqn:G; [|discriminate].
  apply get_some_lt in G.
  unfold set_start, ret in E. injection E as <- <-. cbn [r_start r_end]. dist.
Qed.

Section Checked.
Variable t : target.
Hypothesis CH : overflow_checks t = true.

Lemma uadd_checked a b c : uadd t a b = Ok c -> c = a + b.
Proof. unfold uadd. rewrite CH. destruct (a + b <? usize_mod t); [|discriminate]. now intros [= <-]. Qed.
Lemma usub_checked a b c : usub t a b = Ok c -> c = a - b /\ b <= a.
Proof. unfold usub. rewrite CH. destruct (Z.leb_spec b a); [|discriminate]. intros [= <-]. lia. Qed.

Lemma cost_fixed {M} n (f : bytes -> M) : 1 <= n -> cost (fun k _ => 1 <= k) (read_fixed t n f).
Proof.
  intros Hn bs s e v r' Hs E. unfold read_fixed, bind, get_start, lift, get_or_eob, set_start, ret in E. cbn [r_start r_end fst snd] in E.
  destruct (uadd t s n) as [e1| | | |] eqn:U; try discriminate. apply uadd_checked in U. destruct (slice bs s e1) as [x|] eqn:Sl; [|discriminate]. injection E as <- <-. cbn [r_start r_end].
  apply here_slice in Sl. destruct Sl as (Hx & He & _). apply here_bound in Hx. dist.
Qed.
Lemma cost_len_varint {A} (P : Z -> A -> Prop) m : block P m ->
  cost (fun n v => exists len, 0 <= len /\ 1 + len <= n /\ P len v) (read_len_varint t m).
Proof.
  intros B. apply (cost_bind (fun n v => 1 <= n /\ 0 <= v)); [exact cost_varint32|]. intros k len _ (Hk & Hl) bs s e v r' Hs E.
  unfold read_len, bind, get_end, get_start, lift, set_end, set_start, ret in E. cbn [r_start r_end] in E.
  destruct (uadd t s len) as [e1| | | |] eqn:U; try discriminate. apply uadd_checked in U. subst e1.
  destruct (m bs (mkR s (s + len))) as [o r1] eqn:Em. destruct o as [a| | | |]; try discriminate.
  destruct (B bs s (s + len) a r1 ltac:(lia) Em) as (-> & Pa). cbn in E. injection E as <- <-. cbn [r_start r_end].
  repeat match goal with |- _ /\ _ => split end; try lia. exists (dist bs s (s + len)). repeat match goal with |- _ /\ _ => split end; try exact Pa; unfold dist in *; lia.
Qed.
(** for readers of a slice that do not move *)
Lemma cost_len_slice {A} (P : Z -> A -> Prop) m :
  (forall bs s e v r', 0 <= s <= e -> m bs (mkR s e) = (Ok v, r') -> r_end r' = e /\ P (dist bs s e) v) ->
  cost (fun n v => exists len, 0 <= len /\ 1 + len <= n /\ P len v) (read_len_varint t m).
Proof.
  intros B. apply (cost_bind (fun n v => 1 <= n /\ 0 <= v)); [exact cost_varint32|]. intros k len _ (Hk & Hl) bs s e v r' Hs E.
  unfold read_len, bind, get_end, get_start, lift, set_end, set_start, ret in E. cbn [r_start r_end] in E.
  destruct (uadd t s len) as [e1| | | |] eqn:U; try discriminate. apply uadd_checked in U. subst e1.
  destruct (m bs (mkR s (s + len))) as [o r1] eqn:Em. destruct o as [a| | | |]; try discriminate.
  destruct (B bs s (s + len) a r1 ltac:(lia) Em) as (Er & Pa). cbn in E. rewrite Er in E. injection E as <- <-. cbn [r_start r_end].
  repeat match goal with |- _ /\ _ => split end; try lia. exists (dist bs s (s + len)). repeat match goal with |- _ /\ _ => split end; try exact Pa; unfold dist in *; lia.
Qed.
Lemma cost_bytes : cost (fun n b => 1 + zlen b <= n) (read_bytes t).
Proof.
  eapply cost_weaken; [|apply (cost_len_slice (fun n b => zlen b = n))].
  - intros n v _ (len & H1 & H2 & H3). cbn beta in *. lia.
  - intros bs s e v r' Hs E. unfold bind, get_start, get_end, get_or_eob in E. cbn [r_start r_end] in E.
    destruct (slice bs s e) as [x|] eqn:Sl; [|discriminate]. injection E as <- <-. split; [reflexivity|]. apply here_slice in Sl. destruct Sl as (Hx & He & _). apply here_bound in Hx. dist.
Qed.
Lemma cost_string : cost (fun n b => 1 + zlen b <= n) (read_string t).
Proof.
  eapply cost_weaken; [|apply (cost_len_slice (fun n b => zlen b = n))].
  - intros n v _ (len & H1 & H2 & H3). cbn beta in *. lia.
  - intros bs s e v r' Hs E. unfold bind, get_start, get_end, get_or_eob in E. cbn [r_start r_end] in E.
    destruct (slice bs s e) as [x|] eqn:Sl; [|discriminate]. destruct (utf8_valid x); [|discriminate].
    injection E as <- <-. split; [reflexivity|]. apply here_slice in Sl. destruct Sl as (Hx & He & _). apply here_bound in Hx. dist.
Qed.
Lemma cost_skip n : 0 <= n -> cost (fun _ _ => True) (skip t n).
Proof.
  intros Hn bs s e v r' Hs E. unfold skip, bind, get_start, get_end, lift, set_start in E. cbn [r_start r_end] in E.
  destruct (usub t e s) as [d| | | |]; try discriminate. destruct (d <? n); [discriminate|].
  destruct (uadd t s n) as [s1| | | |] eqn:U; try discriminate. apply uadd_checked in U. injection E as _ <-. cbn [r_start r_end]. subst s1. repeat split; lia.
Qed.
Lemma cost_unknown tag : cost (fun _ _ => True) (read_unknown t tag).
Proof.
  unfold read_unknown. repeat match goal with |- context [if ?b then _ else _] => destruct b end;
    try (apply cost_skip; lia); try apply cost_fail.
  - eapply cost_bind; [exact cost_varint64|]. intros k a Hk _. now apply cost_ret.
  - eapply cost_bind; [exact cost_varint64|]. cbn beta. intros k v Hk (_ & Hv). destruct (v <? usize_mod t); [now apply cost_skip|apply cost_fail].
Qed.
Lemma cost_packed_fixed k : cost (fun n p => sweight (SlPF p) <= n) (read_packed_fixed_k t k).
Proof.
  pose proof (fk_size_pos k) as FS. unfold read_packed_fixed_k. apply (cost_rmap (fun n b => 1 + zlen b <= n)); [auto|].
  unfold read_packed_fixed. apply (cost_bind (fun n v => 1 <= n /\ 0 <= v)); [exact cost_varint32|]. intros j len _ (Hj & Hl) bs s e v r' Hs E.
  unfold bind, rlen, get_start, get_end, lift, set_start in E. unfold bind in E. cbn [r_start r_end] in E.
  destruct (usub t e s) as [l| | | |] eqn:U; try discriminate. destruct (l <? len); [discriminate|]. cbn [r_start r_end] in E.
  destruct (uadd t s (len / fk_size k * fk_size k)) as [e1| | | |] eqn:U1; try discriminate. apply uadd_checked in U1.
  destruct (slice bs s e1) as [x|] eqn:Sl; [|discriminate]. destruct (uadd t s len) as [s1| | | |] eqn:U2; try discriminate.
  apply uadd_checked in U2. cbn in E. injection E as <- <-. cbn [r_start r_end]. apply here_slice in Sl. destruct Sl as (Hx & He & _). apply here_bound in Hx.
  pose proof (Z.div_mod len (fk_size k) ltac:(lia)). pose proof (Z.mod_pos_bound len (fk_size k) ltac:(lia)).
  repeat match goal with |- _ /\ _ => split end; try lia. unfold dist. nia.
Qed.

(** ** Generated code *)
Variable D : file_descriptor.
Variable c : config.
Variable lit : field_type -> text -> option value.
Variable B : Z.
Hypothesis B_pos : 1 <= B.
Hypothesis B_default : forall m ss, get_message D m <> None -> message_default D c lit m = Some ss -> 1 + weight ss <= B.

Definition vcost (n : Z) (v : value) : Prop := 1 <= n /\ vweight v <= B * n.
Definition from_cost (from : midx -> rd (list slot)) : Prop := forall m, block (fun n ss => 1 + weight ss <= B * (n + 1)) (from m).

(** loops that stop at the end do not begin after it *)
Definition loop_cost {A} (P : Z -> A -> Prop) (m : rd A) : Prop := forall bs s e v r', 0 <= s -> m bs (mkR s e) = (Ok v, r') ->
  r' = mkR e e /\ s <= e /\ P (dist bs s e) v.
Lemma loop_block {A} (P : Z -> A -> Prop) m : loop_cost P m -> block P m.
Proof. intros H bs s e v r' Hs E. destruct (H bs s e v r' ltac:(lia) E) as (A1 & _ & A2). auto. Qed.

Lemma packed_cost m : cost vcost m -> forall fuel acc, loop_cost (fun n l => total vweight l <= total vweight acc + B * n) (packed_loop fuel m acc).
Proof.
  intros C. induction fuel as [|fuel IH]; intros acc bs s e v r' Hs E; [discriminate|]. cbn [packed_loop] in E.
  unfold bind at 1 in E. unfold is_eof in E. cbn [r_start r_end] in E. destruct (Z.eqb_spec s e) as [->|Ne].
  - injection E as <- <-. split; [reflexivity|]. split; [lia|]. unfold dist. rewrite Z.sub_diag. enough (X : total vweight (rev acc) = total vweight acc) by lia.
    clear. induction acc as [|x acc IH]; [reflexivity|]. cbn [rev]. rewrite total_app, IH. cbn [total]. lia.
  - apply bind_inv in E. destruct E as (x & r1 & E1 & E2). destruct (C bs s e x r1 Hs E1) as (A1 & A2 & A3 & A4).
    destruct r1 as [s1 e1]. cbn [r_start r_end] in *. subst e1.
    destruct (IH (x :: acc) bs s1 e v r' ltac:(lia) E2) as (-> & L & Hw). split; [reflexivity|]. split; [lia|].
    cbn [total] in Hw. rewrite (dist_add bs s s1 e). nia.
Qed.
Lemma map_cost rk rv : cost vcost rk -> cost vcost rv -> forall fuel k v,
  loop_cost (fun n kv => pweight kv <= vweight k + vweight v + B * n) (map_loop fuel rk rv k v).
Proof.
  intros Ck Cv. induction fuel as [|fuel IH]; intros k v bs s e kv r' Hs E; [discriminate|]. cbn [map_loop] in E.
  unfold bind at 1 in E. unfold is_eof in E. cbn [r_start r_end] in E. destruct (Z.eqb_spec s e) as [->|Ne].
  - injection E as <- <-. split; [reflexivity|]. split; [lia|]. unfold dist. rewrite Z.sub_diag. unfold pweight. cbn. lia.
  - apply bind_inv in E. destruct E as (x & [s1 e1] & E1 & E2). destruct (cost_u8 bs s e x _ Hs E1) as (A1 & A2 & A3).
    cbn [r_start r_end] in *. subst e1. cbn zeta in E2. pose proof (vweight_pos k). pose proof (vweight_pos v).
    destruct (Z.shiftr x 3 =? 1); [|destruct (Z.shiftr x 3 =? 2); [|discriminate]];
      apply bind_inv in E2; destruct E2 as (y & [s2 e2] & E2 & E3).
    + destruct (Ck bs s1 e y _ ltac:(lia) E2) as (B1 & B2 & B3 & B4). cbn [r_start r_end] in *. subst e2.
      destruct (IH y v bs s2 e kv r' ltac:(lia) E3) as (-> & L & Hw). split; [reflexivity|]. split; [lia|]. rewrite (dist_add bs s s1 e), (dist_add bs s1 s2 e). nia.
    + destruct (Cv bs s1 e y _ ltac:(lia) E2) as (B1 & B2 & B3 & B4). cbn [r_start r_end] in *. subst e2.
      destruct (IH k y bs s2 e kv r' ltac:(lia) E3) as (-> & L & Hw). split; [reflexivity|]. split; [lia|]. rewrite (dist_add bs s s1 e), (dist_add bs s1 s2 e). nia.
Qed.

Lemma vcost_one n v : 1 <= n -> vweight v = 1 -> vcost n v.
Proof. intros H1 H2. split; [exact H1|]. rewrite H2. nia. Qed.
Lemma value_cost from r : from_cost from -> cost vcost (read_value D t from r).
Proof.
  intros F. destruct r as [s|e| | |m|]; cbn [read_value].
  - destruct s; cbn [read_scalar];
      try (eapply cost_rmap; [|apply (cost_fixed 8); lia]; intros n v _ Hn; now apply vcost_one);
      try (eapply cost_rmap; [|apply (cost_fixed 4); lia]; intros n v _ Hn; now apply vcost_one);
      try (eapply cost_rmap; [|exact cost_varint32]; intros n v _ (Hn & _); now apply vcost_one);
      try (eapply cost_rmap; [|exact cost_varint64]; intros n v _ (Hn & _); now apply vcost_one).
    + eapply (cost_rmap (fun n _ => 1 <= n)); [intros n v _ Hn; now apply vcost_one|]. eapply cost_rmap; [|exact cost_varint32]. cbn beta. intros; lia.
    + eapply (cost_rmap (fun n _ => 1 <= n)); [intros n v _ Hn; now apply vcost_one|]. eapply cost_rmap; [|exact cost_varint64]. cbn beta. intros; lia.
    + eapply (cost_rmap (fun n _ => 1 <= n)); [intros n v _ Hn; now apply vcost_one|]. unfold read_sint32.
      eapply cost_bind; [exact cost_varint32|]. cbn beta. intros k a Hk (H & _). apply cost_ret. lia.
    + eapply (cost_rmap (fun n _ => 1 <= n)); [intros n v _ Hn; now apply vcost_one|]. unfold read_sint64.
      eapply cost_bind; [exact cost_varint64|]. cbn beta. intros k a Hk (H & _). apply cost_ret. lia.
    + eapply (cost_rmap (fun n _ => 1 <= n)); [intros n v _ Hn; now apply vcost_one|]. eapply cost_rmap; [|exact cost_varint32]. cbn beta. intros; lia.
  - eapply (cost_rmap (fun n _ => 1 <= n)); [intros n v _ Hn; now apply vcost_one|]. eapply (cost_rmap (fun n _ => 1 <= n)); [auto|].
    eapply cost_rmap; [|exact cost_varint32]. cbn beta. intros; lia.
  - eapply cost_rmap; [|exact cost_string]. cbn beta. intros n b _ H. pose proof (zlen_nonneg b). split; [lia|]. cbn [vweight]. nia.
  - eapply cost_rmap; [|exact cost_bytes]. cbn beta. intros n b _ H. pose proof (zlen_nonneg b). split; [lia|]. cbn [vweight]. nia.
  - eapply cost_rmap; [|apply (cost_len_varint _ _ (F m))]. cbn beta. intros n ss _ (len & H1 & H2 & H3). split; [lia|].
    rewrite vweight_msg. nia.
  - apply cost_panic.
Qed.
Lemma type_default_weight ty v : type_default D (message_default D c lit) ty = Some v -> vweight v <= B.
Proof.
  destruct ty; cbn [type_default]; try discriminate; try (intros [= <-]; cbn; lia).
  destruct (message_default D c lit m) as [ss|] eqn:E; [|discriminate]. intros [= <-]. rewrite vweight_msg. apply (B_default m ss); [|exact E].
  unfold message_default, default_depth in E. cbn [default_msg] in E. intros G. now rewrite G in E.
Qed.

(** one arm of the match *)
Definition acost (s : slot) (n : Z) (s' : slot) : Prop := sweight s' <= sweight s + B * n + B.
Lemma action_cost fuel from a s : from_cost from -> cost (acost s) (run_action D c lit t fuel from a s).
Proof.
  intros F. pose proof (sweight_pos s) as Ps.
  assert (V : forall r, cost vcost (read_value D t from r)) by (intros r; now apply value_cost).
  assert (G : forall r (f : value -> slot), (forall v, sweight (f v) <= vweight v + sweight s) -> cost (acost s) (rmap f (read_value D t from r))).
  { intros r f H. eapply cost_rmap; [|apply V]. cbn beta. intros n v Hn (H1 & H2). unfold acost. specialize (H v). nia. }
  destruct a as [r|r|r|k|r|r|tk tv rk rv|j r|]; cbn [run_action]; try (apply G; intros v; cbn [sweight]; lia).
  - eapply cost_rmap; [|apply cost_packed_fixed]. cbn beta. intros n p Hn H. unfold acost. nia.
  - eapply cost_rmap; [|apply (cost_len_varint _ _ (loop_block _ _ (packed_cost _ (V r) fuel [])))]. cbn beta. intros n l Hn (len & H1 & H2 & H3).
    unfold acost. rewrite sweight_vec. cbn [total] in H3. nia.
  - destruct s; try (apply cost_panic). apply G. intros v. rewrite !sweight_vec, total_app. cbn [total]. lia.
  - destruct s as [| | | | |l| |]; try (apply cost_panic).
    destruct (type_default D _ tk) as [kd|] eqn:Ek; [|apply cost_panic].
    destruct (type_default D _ tv) as [vd|] eqn:Ev; [|apply cost_panic].
    apply type_default_weight in Ek, Ev.
    eapply cost_rmap; [|apply (cost_len_varint _ _ (loop_block _ _ (map_cost _ _ (V rk) (V rv) fuel kd vd)))]. cbn beta.
    intros n (k, v) Hn (len & H1 & H2 & H3). unfold acost. rewrite !sweight_map. pose proof (map_insert_weight k v l). unfold pweight in H3. cbn [fst snd] in H3. nia.
  - apply cost_panic.
Qed.
Lemma field_cost fuel from arms tag ss : from_cost from ->
  cost (fun n ss' => weight ss' <= weight ss + B * n + B) (run_field D c lit t fuel from arms tag ss).
Proof.
  intros F. unfold run_field. destruct (find _ arms) as [(tg, (i, a))|].
  - destruct (nth_error ss i) as [s|] eqn:N; [|apply cost_panic].
    eapply cost_rmap; [|apply (action_cost fuel from a s F)]. cbn beta. intros n s' Hn H. unfold acost in H. rewrite (weight_set ss i s s' N). lia.
  - eapply cost_bind; [apply cost_unknown|]. intros k a Hk _. apply cost_ret. nia.
Qed.
Lemma msg_cost step : (forall tag ss, cost (fun n ss' => weight ss' <= weight ss + B * n + B) (step tag ss)) ->
  forall k ss, loop_cost (fun n ss' => weight ss' <= weight ss + B * n) (msg_loop k step ss).
Proof.
  intros F. induction k as [|k IH]; intros ss bs s e v r' Hs E; [discriminate|]. cbn [msg_loop] in E.
  unfold bind at 1 in E. unfold is_eof in E. cbn [r_start r_end] in E. destruct (Z.eqb_spec s e) as [->|Ne].
  - injection E as <- <-. split; [reflexivity|]. split; [lia|]. unfold dist. lia.
  - apply bind_inv in E. destruct E as (tag & [s1 e1] & E1 & E2). destruct (cost_varint32 bs s e tag _ Hs E1) as (A1 & A2 & A3 & _).
    cbn [r_start r_end] in *. subst e1. apply bind_inv in E2. destruct E2 as (ss1 & [s2 e2] & E2 & E3).
    destruct (F tag ss bs s1 e ss1 _ ltac:(lia) E2) as (B1 & B2 & B3). cbn [r_start r_end] in *. subst e2.
    destruct (IH ss1 bs s2 e v r' ltac:(lia) E3) as (-> & L & Hw). split; [reflexivity|]. split; [lia|]. rewrite (dist_add bs s s1 e), (dist_add bs s1 s2 e). nia.
Qed.
Lemma from_reader_cost n : from_cost (from_reader D c lit t n).
Proof.
  induction n as [|n IH]; intros m bs s e v r' Hs E; [discriminate|]. cbn [from_reader] in E.
  destruct (get_message D m) as [msg|] eqn:G; [|discriminate]. destruct (message_default D c lit m) as [df|] eqn:DF; [|discriminate].
  assert (W : 1 + weight df <= B) by (apply (B_default m); congruence).
  destruct (is_unit msg).
  - unfold read_to_end, bind, get_end, set_start, ret in E. cbn in E. injection E as <- <-. split; [reflexivity|]. assert (0 <= dist bs s e) by dist. nia.
  - destruct (msg_cost _ (fun tag ss => field_cost n _ (match_arms c msg) tag ss IH) (S n) df bs s e v r' ltac:(lia) E) as (-> & L & Hw).
    split; [reflexivity|]. assert (0 <= dist bs s e) by dist. nia.
Qed.
End Checked.

Lemma schema_weight_default D c lit m ss : get_message D m <> None -> message_default D c lit m = Some ss -> 1 + weight ss <= schema_weight D c lit.
Proof.
  intros G H. destruct (get_message D m) as [msg|] eqn:E; [|congruence]. apply get_message_in in E. unfold schema_weight.
  assert (X : forall l, In (m, msg) l -> weight ss <= fold_right Z.max 0 (map (fun '(i, _) => match message_default D c lit i with Some ss => weight ss | None => 0 end) l)).
  { induction l as [|(i, x) l IH]; [intros []|]. intros [I|I]; cbn [map fold_right].
    - injection I as -> _. rewrite H. lia.
    - specialize (IH I). lia. }
  specialize (X _ E). lia.
Qed.
Lemma schema_weight_pos D c lit : 1 <= schema_weight D c lit.
Proof. unfold schema_weight. enough (X : forall l, 0 <= fold_right Z.max 0 l) by (specialize (X (map (fun '(i, _) => match message_default D c lit i with Some ss => weight ss | None => 0 end) (all_messages D))); lia). induction l; cbn; lia. Qed.

(** ** C73 *)

(** What is decoded from an input of [n] bytes weighs at most a constant of the
    schema times [n + 1]: lengths and counts in the input allocate nothing.
    Missing: builds without overflow checks, where a length can lead the reader
    back (C16) and what is decoded grows without bound. *)
Theorem C73_memory_partial : forall D c lit t, overflow_checks t = true -> forall n m bs ss,
  (decode D c lit t n m bs = Ok ss -> weight ss < schema_weight D c lit * (zlen bs + 1)) /\
  (deserialize_from_slice t (from_reader D c lit t n m) bs = Ok ss -> weight ss < schema_weight D c lit * (zlen bs + 1)).
Proof.
  intros D c lit t CH n m bs ss. pose proof (schema_weight_pos D c lit) as P.
  pose proof (from_reader_cost t CH D c lit (schema_weight D c lit) P (schema_weight_default D c lit) n m) as F.
  pose proof (zlen_nonneg bs) as Z0. split; intros E.
  - unfold decode in E. destruct (from_reader D c lit t n m bs (from_bytes bs)) as [o r'] eqn:Er. cbn [fst] in E. subst o.
    destruct (F bs 0 (zlen bs) ss r' ltac:(lia) Er) as (_ & H). unfold dist in H. nia.
  - unfold deserialize_from_slice, read_message in E. destruct (read_len_varint t (from_reader D c lit t n m) bs (from_bytes bs)) as [o r'] eqn:Er. cbn [fst] in E. subst o.
    destruct (cost_len_varint t CH _ _ F bs 0 (zlen bs) ss r' ltac:(lia) Er) as (_ & H0 & len & H1 & H2 & H3).
    unfold dist in H2. nia.
Qed.
Print Assumptions C73_memory_partial.
Example C73_case : schema_weight exD cfg0 nolit = 13 /\ overflow_checks (checked W64) = true /\
  exists ss, decode exD cfg0 nolit (checked W64) 20 [0%nat] [x1a; x00; x1a; x00; x32; x00; x2a; x02; x01; x02] = Ok ss /\ weight ss = 24.
Proof. split; [vm_compute; reflexivity|]. split; [reflexivity|]. eexists. split; vm_compute; reflexivity. Qed.

(** Without overflow checks 14 bytes make the reader go round, with one more
    element every time: [r] is 5 for ever. *)
Definition growM : message := msg_of "M" [fld "r" P3Repeated TInt32 1 (Some false) false] [] [0%nat].
Definition growD : file_descriptor := mkDesc "" Proto3 [growM] [] "".
Definition growBytes : bytes := [x03; x08; x05; x7a; xf3; xff; xff; xff; xff; xff; xff; xff; xff; x01].
Theorem C73_unchecked_refuted : schema_wf growD cfg0 nolit /\ buf_ok (unchecked W64) growBytes /\
  read_varint32 growBytes (from_bytes growBytes) = (Ok 3, mkR 1 14) /\
  forall n, let step := run_field growD cfg0 nolit (unchecked W64) n (from_reader growD cfg0 nolit (unchecked W64) n) (match_arms cfg0 growM) in
    from_reader growD cfg0 nolit (unchecked W64) (S n) [0%nat] growBytes (mkR 1 4) = msg_loop (S n) step [SlVec []] growBytes (mkR 1 4) /\
    forall w, exists rounds ss, w < weight ss /\
      forall k, msg_loop (rounds + k) step [SlVec []] growBytes (mkR 1 4) = msg_loop k step ss growBytes (mkR 1 4).
Proof.
  split; [apply schema_wfb_sound; vm_compute; reflexivity|]. split; [vm_compute; reflexivity|]. split; [vm_compute; reflexivity|].
  intros n step. split; [reflexivity|].
  assert (R : forall l k, msg_loop (S (S k)) step [SlVec l] growBytes (mkR 1 4) = msg_loop k step [SlVec (l ++ [VZ 5])] growBytes (mkR 1 4)).
  { intros l k. cbn [msg_loop]. unfold bind at 1, is_eof. cbn [r_start r_end]. replace (1 =? 4) with false by reflexivity. cbn beta iota.
    assert (T : next_tag growBytes (mkR 1 4) = (Ok 8, mkR 2 4)) by (vm_compute; reflexivity). rewrite (bind_ok _ _ _ _ _ _ T).
    assert (A : step 8 [SlVec l] growBytes (mkR 2 4) = (Ok [SlVec (l ++ [VZ 5])], mkR 3 4)) by reflexivity.
    rewrite (bind_ok _ _ _ _ _ _ A). unfold bind at 1, is_eof. cbn [r_start r_end]. replace (3 =? 4) with false by reflexivity. cbn beta iota.
    assert (T2 : next_tag growBytes (mkR 3 4) = (Ok 122, mkR 4 4)) by (vm_compute; reflexivity). rewrite (bind_ok _ _ _ _ _ _ T2).
    assert (U : read_unknown (unchecked W64) 122 growBytes (mkR 4 4) = (Ok tt, mkR 1 4)) by (vm_compute; reflexivity).
    assert (A2 : step 122 [SlVec (l ++ [VZ 5])] growBytes (mkR 4 4) = (Ok [SlVec (l ++ [VZ 5])], mkR 1 4)).
    { unfold step, run_field. replace (find (fun '(n, _) => n =? 122) (match_arms cfg0 growM)) with (@None (Z * (nat * action))) by (vm_compute; reflexivity).
      rewrite (bind_ok _ _ _ _ _ _ U). reflexivity. }
    rewrite (bind_ok _ _ _ _ _ _ A2). reflexivity. }
  assert (G : forall j l k, msg_loop (2 * j + k) step [SlVec l] growBytes (mkR 1 4) = msg_loop k step [SlVec (l ++ repeat (VZ 5) j)] growBytes (mkR 1 4)).
  { induction j as [|j IH]; intros l k; [now rewrite app_nil_r|]. replace (2 * S j + k)%nat with (S (S (2 * j + k))) by lia.
    rewrite R, IH. cbn [repeat]. now rewrite <- app_assoc. }
  intros w. exists (2 * Z.to_nat w)%nat, [SlVec (repeat (VZ 5) (Z.to_nat w))]. split; [|intros k; apply (G _ [] k)].
  unfold weight. cbn [total]. rewrite sweight_vec. enough (X : forall j, total vweight (repeat (VZ 5) j) = Z.of_nat j) by (rewrite X; lia).
  induction j as [|j IH]; [reflexivity|]. cbn [repeat total]. rewrite IH. cbn [vweight]. lia.
Qed.
Print Assumptions C73_unchecked_refuted.

(** ** C74 *)

(** the strings, bytes and undecoded packed vectors in a value *)
Fixpoint vpieces (v : value) : list bytes :=
  match v with
  | VZ _ | VBool _ => []
  | VB b => [b]
  | VMsg ss => (fix go (l : list slot) := match l with [] => [] | s :: l' => spieces s ++ go l' end) ss
  end
with spieces (s : slot) : list bytes :=
  match s with
  | SlOne v | SlSome v | SlOneof _ v => vpieces v
  | SlNone | SlOneofNone => []
  | SlVec l => (fix go (l : list value) := match l with [] => [] | v :: l' => vpieces v ++ go l' end) l
  | SlPF p => match p with Borrowed b => [b] | _ => [] end
  | SlMap l => (fix go (l : list (value * value)) := match l with [] => [] | (k, v) :: l' => vpieces k ++ vpieces v ++ go l' end) l
  end.
Definition pieces (ss : list slot) : list bytes := flat_map spieces ss.
Definition piece_of (bs b : bytes) : Prop := exists before after, bs = before ++ b ++ after.
(** a string of a [default] option *)
Definition literal_piece (lit : field_type -> text -> option value) (b : bytes) : Prop :=
  exists ty s v, lit ty s = Some v /\ In b (vpieces v).

Lemma vpieces_msg ss : vpieces (VMsg ss) = pieces ss.
Proof. cbn [vpieces]. unfold pieces. induction ss as [|s ss IH]; [reflexivity|]. cbn [flat_map]. now rewrite <- IH. Qed.
Lemma spieces_vec l : spieces (SlVec l) = flat_map vpieces l.
Proof. cbn [spieces]. induction l as [|s ss IH]; [reflexivity|]. cbn [flat_map]. now rewrite <- IH. Qed.
Lemma spieces_map l : spieces (SlMap l) = flat_map (fun kv => vpieces (fst kv) ++ vpieces (snd kv)) l.
Proof. cbn [spieces]. induction l as [|(k, v) ss IH]; [reflexivity|]. cbn [flat_map fst snd]. rewrite <- app_assoc, <- IH. reflexivity. Qed.

Definition yields {A} (bs : bytes) (P : A -> Prop) (m : rd A) : Prop := forall r v r', m bs r = (Ok v, r') -> P v.
Section Pieces.
Variable bs : bytes.
Variable t : target.
Lemma yields_any {A} (m : rd A) : yields bs (fun _ => True) m.
Proof. intros r v r' _. exact I. Qed.
Lemma yields_bind {A B} (P : A -> Prop) (Q : B -> Prop) m f : yields bs P m -> (forall a, P a -> yields bs Q (f a)) -> yields bs Q (bind m f).
Proof. intros H1 H2 r v r' E. apply bind_inv in E. destruct E as (a & r1 & E1 & E2). exact (H2 a (H1 _ _ _ E1) _ _ _ E2). Qed.
Lemma yields_ret {A} (P : A -> Prop) a : P a -> yields bs P (ret a).
Proof. intros H r v r' E. now injection E as <- _. Qed.
Lemma yields_rmap {A B} (P : A -> Prop) (Q : B -> Prop) (f : A -> B) m : yields bs P m -> (forall a, P a -> Q (f a)) -> yields bs Q (rmap f m).
Proof. intros H1 H2. eapply yields_bind; [exact H1|]. intros a Ha. apply yields_ret. auto. Qed.
Lemma yields_panic {A} (P : A -> Prop) : yields bs P (lift Panic).
Proof. intros r v r' E. discriminate E. Qed.
Lemma yields_len_varint {A} (P : A -> Prop) m : yields bs P m -> yields bs P (read_len_varint t m).
Proof.
  intros H. unfold read_len_varint, read_len.
  do 5 (eapply yields_bind; [apply yields_any|]; intros ? _). eapply yields_bind; [exact H|]. intros v Hv.
  do 3 (eapply yields_bind; [apply yields_any|]; intros ? _). now apply yields_ret.
Qed.
Lemma slice_piece s e x : slice bs s e = Some x -> piece_of bs x.
Proof. intros H. apply here_slice in H. destruct H as ((pre & post & E & _) & _). now exists pre, post. Qed.
Lemma yields_bytes : yields bs (piece_of bs) (read_bytes t).
Proof.
  apply yields_len_varint. do 2 (eapply yields_bind; [apply yields_any|]; intros ? _). intros r v r' E. unfold get_or_eob in E.
  destruct (slice bs a a0) as [x|] eqn:S1; [|discriminate]. injection E as <- _. exact (slice_piece _ _ _ S1).
Qed.
Lemma yields_string : yields bs (piece_of bs) (read_string t).
Proof.
  apply yields_len_varint. do 2 (eapply yields_bind; [apply yields_any|]; intros ? _).
  eapply (yields_bind (piece_of bs)).
  - intros r v r' E. unfold get_or_eob in E. destruct (slice bs a a0) as [x|] eqn:S1; [|discriminate]. injection E as <- _. exact (slice_piece _ _ _ S1).
  - intros x Hx. destruct (utf8_valid x); [now apply yields_ret|intros r v r' E; discriminate E].
Qed.
Lemma yields_packed_fixed k : yields bs (fun p => forall b, In b (spieces (SlPF p)) -> piece_of bs b) (read_packed_fixed_k t k).
Proof.
  unfold read_packed_fixed_k. apply (yields_rmap (piece_of bs)); [|intros a H b [<-|[]]; exact H].
  unfold read_packed_fixed. do 2 (eapply yields_bind; [apply yields_any|]; intros ? _). destruct (_ <? _); [intros r v r' E; discriminate E|]. cbn zeta.
  do 2 (eapply yields_bind; [apply yields_any|]; intros ? _).
  eapply (yields_bind (piece_of bs)).
  - intros r v r' E. destruct (slice bs _ _) as [x|] eqn:S1; [|discriminate]. injection E as <- _. exact (slice_piece _ _ _ S1).
  - intros x Hx. do 2 (eapply yields_bind; [apply yields_any|]; intros ? _). now apply yields_ret.
Qed.

Variable D : file_descriptor.
Variable c : config.
Variable lit : field_type -> text -> option value.
Definition fine (b : bytes) : Prop := piece_of bs b \/ literal_piece lit b.
Definition vfine (v : value) : Prop := forall b, In b (vpieces v) -> fine b.
Definition sfine (s : slot) : Prop := forall b, In b (spieces s) -> fine b.
Lemma fine_nil : fine [].
Proof. left. exists bs, []. now rewrite app_nil_r. Qed.
Lemma vfine_msg ss : Forall sfine ss -> vfine (VMsg ss).
Proof. intros H b Hb. rewrite vpieces_msg in Hb. apply in_flat_map in Hb. destruct Hb as (s & Hs & Hb). rewrite Forall_forall in H. exact (H s Hs b Hb). Qed.
Lemma sfine_vec l : Forall vfine l <-> sfine (SlVec l).
Proof.
  unfold sfine. rewrite spieces_vec, Forall_forall. split.
  - intros H b Hb. apply in_flat_map in Hb. destruct Hb as (v & Hv & Hb). exact (H v Hv b Hb).
  - intros H v Hv b Hb. apply H, in_flat_map. eauto.
Qed.
Lemma sfine_map l : Forall (fun kv => vfine (fst kv) /\ vfine (snd kv)) l <-> sfine (SlMap l).
Proof.
  unfold sfine. rewrite spieces_map, Forall_forall. split.
  - intros H b Hb. apply in_flat_map in Hb. destruct Hb as (kv & Hkv & Hb). apply in_app_iff in Hb. destruct (H kv Hkv) as (H1 & H2). destruct Hb; auto.
  - intros H kv Hkv. split; intros b Hb; apply H, in_flat_map; exists kv; rewrite in_app_iff; auto.
Qed.
Lemma insert_fine k v l : vfine k -> vfine v -> Forall (fun kv => vfine (fst kv) /\ vfine (snd kv)) l ->
  Forall (fun kv => vfine (fst kv) /\ vfine (snd kv)) (map_insert k v l).
Proof.
  intros Hk Hv H. induction H as [|kv l H1 H2 IH]; cbn [map_insert]; [apply Forall_cons; [now split|apply Forall_nil]|].
  destruct kv as [a b]. cbn [fst snd] in H1. destruct (plain_eq k a); apply Forall_cons; cbn [fst snd]; tauto.
Qed.

(** defaults *)
Lemma type_default_fine dm ty v : (forall m ss, dm m = Some ss -> Forall sfine ss) -> type_default D dm ty = Some v -> vfine v.
Proof.
  intros H. destruct ty; cbn [type_default]; try discriminate; try (intros [= <-] b []; fail); try (intros [= <-] b [<-|[]]; exact fine_nil).
  destruct (dm m) as [ss|] eqn:E; [|discriminate]. intros [= <-]. apply vfine_msg. eauto.
Qed.
Lemma init_fine dm i s : (forall m ss, dm m = Some ss -> Forall sfine ss) -> init_slot D lit dm i = Some s -> sfine s.
Proof.
  intros H. destruct i as [ty|d|]; cbn [init_slot].
  - destruct ty; cbn [derived_slot]; try discriminate; try (intros [= <-] b []; fail).
    destruct (type_default D dm t0) as [v|] eqn:E; [|discriminate]. intros [= <-]. exact (type_default_fine dm t0 v H E).
  - destruct d; cbn [dexpr_slot]; try discriminate; try (intros [= <-] b []; fail).
    + destruct (lit t0 s0) as [v|] eqn:E; [|discriminate]. intros [= <-] b Hb. right. exists t0, s0, v. auto.
    + destruct (type_default D dm t0) as [v|] eqn:E; [|discriminate]. intros [= <-]. exact (type_default_fine dm t0 v H E).
  - intros [= <-] b [].
Qed.
Lemma default_fine n : forall m ss, default_msg D c lit n m = Some ss -> Forall sfine ss.
Proof.
  induction n as [|n IH]; intros m ss E; [discriminate|]. cbn [default_msg] in E. destruct (get_message D m) as [msg|]; [|discriminate].
  apply all_some_map in E. induction E as [|x y l l' H1 H2 IH2]; constructor; [|exact IH2]. exact (init_fine _ x y IH H1).
Qed.

(** reading *)
Definition from_fine (from : midx -> rd (list slot)) : Prop := forall m, yields bs (Forall sfine) (from m).
Lemma value_fine from r : from_fine from -> yields bs vfine (read_value D t from r).
Proof.
  intros F. assert (Z0 : forall m, yields bs vfine (rmap VZ m)) by (intros m; eapply yields_rmap; [apply yields_any|]; intros a _ b []).
  destruct r as [s|e| | |m|]; cbn [read_value]; try apply Z0.
  - destruct s; cbn [read_scalar]; try apply Z0. eapply yields_rmap; [apply yields_any|]. intros a _ b [].
  - eapply yields_rmap; [exact yields_string|]. intros a H b [<-|[]]. now left.
  - eapply yields_rmap; [exact yields_bytes|]. intros a H b [<-|[]]. now left.
  - eapply yields_rmap; [apply yields_len_varint, F|]. apply vfine_msg.
  - apply yields_panic.
Qed.
Lemma packed_fine m : yields bs vfine m -> forall fuel acc, Forall vfine acc -> yields bs (Forall vfine) (packed_loop fuel m acc).
Proof.
  intros H. induction fuel as [|fuel IH]; intros acc Ha; [intros r v r' E; discriminate E|]. cbn [packed_loop].
  eapply yields_bind; [apply yields_any|]. intros [] _; [apply yields_ret, Forall_rev, Ha|]. eapply yields_bind; [exact H|]. intros x Hx. apply IH. now constructor.
Qed.
Lemma map_fine rk rv : yields bs vfine rk -> yields bs vfine rv -> forall fuel k v, vfine k -> vfine v ->
  yields bs (fun kv => vfine (fst kv) /\ vfine (snd kv)) (map_loop fuel rk rv k v).
Proof.
  intros Hk Hv. induction fuel as [|fuel IH]; intros k v Fk Fv; [intros r w r' E; discriminate E|]. cbn [map_loop].
  eapply yields_bind; [apply yields_any|]. intros [] _; [apply yields_ret; auto|]. eapply yields_bind; [apply yields_any|]. intros x _. cbn zeta.
  destruct (_ =? 1); [eapply yields_bind; [exact Hk|]; intros y Hy; now apply IH|].
  destruct (_ =? 2); [eapply yields_bind; [exact Hv|]; intros y Hy; now apply IH|]. intros r w r' E. discriminate E.
Qed.
Lemma action_fine fuel from a s : from_fine from -> sfine s -> yields bs sfine (run_action D c lit t fuel from a s).
Proof.
  intros F Hs. assert (V : forall r, yields bs vfine (read_value D t from r)) by (intros r; now apply value_fine).
  assert (DF : forall m ss, message_default D c lit m = Some ss -> Forall sfine ss) by (intros m ss; apply default_fine).
  destruct a as [r|r|r|k|r|r|tk tv rk rv|j r|]; cbn [run_action]; try (eapply yields_rmap; [apply V|]; intros v Hv; exact Hv).
  - eapply yields_rmap; [apply yields_packed_fixed|]. intros p Hp b Hb. left. now apply Hp.
  - eapply yields_rmap; [apply yields_len_varint, packed_fine; [apply V|constructor]|]. intros l Hl. now apply sfine_vec.
  - destruct s as [| | |l| | | |]; try apply yields_panic. eapply yields_rmap; [apply V|]. intros v Hv. apply sfine_vec. apply sfine_vec in Hs. apply Forall_app. auto.
  - destruct s as [| | | | |l| |]; try apply yields_panic.
    destruct (type_default D _ tk) as [kd|] eqn:Ek; [|apply yields_panic]. destruct (type_default D _ tv) as [vd|] eqn:Ev; [|apply yields_panic].
    eapply yields_rmap; [apply yields_len_varint, map_fine; [apply V|apply V|exact (type_default_fine _ _ _ DF Ek)|exact (type_default_fine _ _ _ DF Ev)]|].
    intros (k, v) (Hk & Hv). apply sfine_map. apply sfine_map in Hs. now apply insert_fine.
  - apply yields_panic.
Qed.
Lemma set_fine ss i s : Forall sfine ss -> sfine s -> Forall sfine (set_nth i s ss).
Proof. intros H. revert i. induction H as [|x l Hx Hl IH]; intros [|i] Hs; cbn [set_nth]; constructor; auto. Qed.
Lemma from_reader_fine n : from_fine (from_reader D c lit t n).
Proof.
  induction n as [|n IH]; intros m; [intros r v r' E; discriminate E|]. cbn [from_reader].
  destruct (get_message D m) as [msg|]; [|apply yields_panic]. destruct (message_default D c lit m) as [df|] eqn:DF; [|apply yields_panic].
  apply default_fine in DF. destruct (is_unit msg).
  - eapply yields_bind; [apply yields_any|]. intros _ _. now apply yields_ret.
  - revert df DF. generalize (S n) as k. induction k as [|k IHk]; intros ss Hss; [intros r v r' E; discriminate E|]. cbn [msg_loop].
    eapply yields_bind; [apply yields_any|]. intros [] _; [now apply yields_ret|]. eapply yields_bind; [apply yields_any|]. intros tag _.
    eapply (yields_bind (Forall sfine)); [|intros ss' H; now apply IHk].
    unfold run_field. destruct (find _ _) as [(tg, (i, a))|].
    + destruct (nth_error ss i) as [s|] eqn:N; [|apply yields_panic]. eapply yields_rmap; [apply action_fine; [exact IH|]|].
      * apply nth_error_In in N. rewrite Forall_forall in Hss. auto.
      * intros s' Hs'. now apply set_fine.
    + eapply yields_bind; [apply yields_any|]. intros _ _. now apply yields_ret.
Qed.
End Pieces.

(** Every string, bytes value and undecoded packed vector in a decoded message is
    a piece of the input, or comes from a [default] option: nothing is copied
    together, so that [Cow::Borrowed] is always possible. *)
Theorem C74_zero_copy : forall D c lit t n m bs ss b, In b (pieces ss) ->
  decode D c lit t n m bs = Ok ss \/ deserialize_from_slice t (from_reader D c lit t n m) bs = Ok ss ->
  piece_of bs b \/ literal_piece lit b.
Proof.
  intros D c lit t n m bs ss b Hb H. assert (F : Forall (sfine bs lit) ss).
  { destruct H as [H|H].
    - unfold decode in H. destruct (from_reader D c lit t n m bs (from_bytes bs)) as [o r'] eqn:E. cbn [fst] in H. subst o.
      exact (from_reader_fine bs t D c lit n m _ _ _ E).
    - unfold deserialize_from_slice, read_message in H. destruct (read_len_varint t _ bs (from_bytes bs)) as [o r'] eqn:E. cbn [fst] in H. subst o.
      exact (yields_len_varint bs t _ _ (from_reader_fine bs t D c lit n m) _ _ _ E). }
  apply in_flat_map in Hb. destruct Hb as (s & Hs & Hb). rewrite Forall_forall in F. exact (F s Hs b Hb).
Qed.
Print Assumptions C74_zero_copy.
Example C74_case : exists ss, decode exD cfg0 nolit (checked W64) 20 [0%nat]
    [x0a; x02; x61; x62; x22; x04; x01; x00; x00; x00; x32; x05; x0a; x01; x6b; x12; x00; x82; x7d; x01; x7a] = Ok ss /\
  pieces ss = [[x61; x62]; [x01; x00; x00; x00]; [x6b]; [x7a]].
Proof. eexists. split; vm_compute; reflexivity. Qed.
