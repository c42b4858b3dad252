(** Decimal literals as floating point numbers.

    The value of a literal is m * 10^e; the constant in the compiled program is
    the bit pattern of the nearest number of the format, the even one of two
    (IEEE 754 roundTiesToEven, which is how rustc parses literals: they go
    through [str::parse::<f32>] and [::<f64>] of core::num::dec2flt).  *)
From Coq Require Import ZArith Lia Bool.
Local Open Scope Z_scope.

(** ** Specification

    A format has [eb] exponent bits and [mb] mantissa bits; a bit pattern (without
    the sign) stands for an integer multiple of the smallest positive number,
    2^(unit_exp eb mb). *)
Definition unit_exp (eb mb : Z) : Z := 2 - 2 ^ (eb - 1) - mb.
Definition infinity (eb mb : Z) : Z := (2 ^ eb - 1) * 2 ^ mb.
Definition units (mb b : Z) : Z :=
  if b / 2 ^ mb =? 0 then b mod 2 ^ mb else (2 ^ mb + b mod 2 ^ mb) * 2 ^ (b / 2 ^ mb - 1).
Definition finite (eb mb b : Z) : Prop := 0 <= b < infinity eb mb.

(** the rational n / m, in units of the format, is nearest to [b] *)
Definition nearest (eb mb n m b : Z) : Prop :=
  finite eb mb b /\
  forall b', finite eb mb b' ->
    Z.abs (n - m * units mb b) <= Z.abs (n - m * units mb b') /\
    (Z.abs (n - m * units mb b) = Z.abs (n - m * units mb b') -> b = b' \/ Z.even b = true).

(** m * 10^e in units of the format, as a fraction *)
Definition fraction (eb mb m e : Z) : Z * Z :=
  let u := unit_exp eb mb in
  (m * 10 ^ Z.max e 0 * 2 ^ Z.max (- u) 0, 10 ^ Z.max (- e) 0 * 2 ^ Z.max u 0).
Definition nearest_decimal (eb mb m e b : Z) : Prop :=
  nearest eb mb (fst (fraction eb mb m e)) (snd (fraction eb mb m e)) b.

(** ** Computation *)

(** n / d rounded to the nearest integer, the even one of two *)
Definition round_even (n d : Z) : Z :=
  let q := n / d in
  let r := n mod d in
  if 2 * r <? d then q
  else if d <? 2 * r then q + 1
  else if Z.even q then q else q + 1.

(** the largest k with 2^k <= n / d, or 0 *)
Definition log2_fraction (n d : Z) : Z := Z.log2 (n / d).

Definition round_bits (mb n d : Z) : Z :=
  let k := Z.max 0 (log2_fraction n d - mb) in
  k * 2 ^ mb + round_even n (d * 2 ^ k).

(** the bits of m * 10^e, without the sign; none if it is not finite (rustc has
    the lint overflowing_literals for this, an error by default) *)
Definition decimal_bits (eb mb m e : Z) : option Z :=
  let '(n, d) := fraction eb mb m e in
  let b := round_bits mb n d in
  if b <? infinity eb mb then Some b else None.

(** ** Proofs *)

Lemma round_even_nearest n d : 0 <= n -> 0 < d ->
  0 <= round_even n d /\
  forall x, Z.abs (n - d * round_even n d) <= Z.abs (n - d * x) /\
    (Z.abs (n - d * round_even n d) = Z.abs (n - d * x) -> round_even n d = x \/ Z.even (round_even n d) = true).
Proof.
  intros Hn Hd. pose proof (Z.div_mod n d ltac:(lia)) as E. pose proof (Z.mod_pos_bound n d Hd) as B.
  pose proof (Z.div_pos n d Hn Hd) as P. unfold round_even. cbv zeta.
  set (q := n / d) in *. set (r := n mod d) in *. clearbody q r. subst n.
  assert (K : forall x y, x < y -> d * x + d <= d * y) by (intros; nia).
  assert (F : forall x, x <= q -> d * x <= d * q) by (intros; nia).
  assert (C : forall x, x < q \/ x = q \/ x = q + 1 \/ q + 1 < x) by lia.
  destruct (Z.ltb_spec (2 * r) d); [|destruct (Z.ltb_spec d (2 * r)); [|destruct (Z.even q) eqn:Ev]].
  - split; [exact P|]. intros x. destruct (C x) as [L|[->|[->|L]]]; [pose proof (K _ _ L)| |
      replace (d * (q + 1)) with (d * q + d) by ring|pose proof (K _ _ L); replace (d * (q + 1)) with (d * q + d) in * by ring]; split; try lia.
  - split; [lia|]. intros x. replace (d * (q + 1)) with (d * q + d) by ring.
    destruct (C x) as [L|[->|[->|L]]]; [pose proof (K _ _ L)| |
      replace (d * (q + 1)) with (d * q + d) by ring|pose proof (K _ _ L); replace (d * (q + 1)) with (d * q + d) in * by ring]; split; try lia.
  - split; [exact P|]. intros x. split; [|auto].
    destruct (C x) as [L|[->|[->|L]]]; [pose proof (K _ _ L)| |
      replace (d * (q + 1)) with (d * q + d) by ring|pose proof (K _ _ L); replace (d * (q + 1)) with (d * q + d) in * by ring]; lia.
  - assert (Ev' : Z.even (q + 1) = true) by (rewrite Z.add_1_r, Z.even_succ, <- Z.negb_even, Ev; reflexivity).
    split; [lia|]. intros x. split; [|auto]. replace (d * (q + 1)) with (d * q + d) by ring.
    destruct (C x) as [L|[->|[->|L]]]; [pose proof (K _ _ L)| |
      replace (d * (q + 1)) with (d * q + d) by ring|pose proof (K _ _ L); replace (d * (q + 1)) with (d * q + d) in * by ring]; lia.
Qed.

Section Format.
Variable mb : Z.
Hypothesis MB : 1 <= mb.

Lemma units_normal k f : 0 <= k -> 0 <= f < 2 ^ mb -> units mb ((k + 1) * 2 ^ mb + f) = (2 ^ mb + f) * 2 ^ k.
Proof.
  intros Hk Hf. assert (P : 0 < 2 ^ mb) by (apply Z.pow_pos_nonneg; lia). unfold units.
  rewrite Z.add_comm, Z.div_add, Z.mod_add, Z.div_small, Z.mod_small by lia.
  destruct (Z.eqb_spec (0 + (k + 1)) 0); [lia|]. f_equal. f_equal. lia.
Qed.
Lemma units_subnormal b : 0 <= b < 2 ^ mb -> units mb b = b.
Proof. intros H. unfold units. now rewrite Z.div_small, Z.mod_small by lia. Qed.

(** every pattern is of one of the two kinds *)
Lemma pattern b : 0 <= b -> (b < 2 ^ mb /\ units mb b = b) \/
  exists k f, 0 <= k /\ 0 <= f < 2 ^ mb /\ b = (k + 1) * 2 ^ mb + f /\ units mb b = (2 ^ mb + f) * 2 ^ k.
Proof.
  intros H. assert (P : 0 < 2 ^ mb) by (apply Z.pow_pos_nonneg; lia).
  destruct (Z.lt_ge_cases b (2 ^ mb)) as [L|G]; [left; split; [exact L|]; apply units_subnormal; lia|right].
  pose proof (Z.div_mod b (2 ^ mb) ltac:(lia)) as E. pose proof (Z.mod_pos_bound b (2 ^ mb) P) as B.
  assert (1 <= b / 2 ^ mb) by (apply Z.div_le_lower_bound; lia).
  exists (b / 2 ^ mb - 1), (b mod 2 ^ mb).
  assert (X : b = (b / 2 ^ mb - 1 + 1) * 2 ^ mb + b mod 2 ^ mb) by lia.
  repeat match goal with |- _ /\ _ => split end; try lia. rewrite X at 1. apply units_normal; lia.
Qed.

Lemma units_injective b b' : 0 <= b -> 0 <= b' -> units mb b = units mb b' -> b = b'.
Proof.
  intros H H' E. assert (P : 0 < 2 ^ mb) by (apply Z.pow_pos_nonneg; lia).
  assert (Lt : forall k l f g, 0 <= k -> k < l -> 0 <= f < 2 ^ mb -> 0 <= g -> (2 ^ mb + f) * 2 ^ k < (2 ^ mb + g) * 2 ^ l).
  { intros k l f g Hk Hl Hf Hg. assert (2 ^ k * 2 <= 2 ^ l).
    { replace l with (k + 1 + (l - k - 1)) by lia. rewrite !Z.pow_add_r by lia. change (2 ^ 1) with 2.
      assert (0 < 2 ^ k) by (apply Z.pow_pos_nonneg; lia). assert (0 < 2 ^ (l - k - 1)) by (apply Z.pow_pos_nonneg; lia). nia. }
    assert (0 < 2 ^ k) by (apply Z.pow_pos_nonneg; lia). nia. }
  destruct (pattern b H) as [(S & U)|(k & f & Hk & Hf & B & U)], (pattern b' H') as [(S' & U')|(k' & f' & Hk' & Hf' & B' & U')].
  - lia.
  - assert (0 < 2 ^ k') by (apply Z.pow_pos_nonneg; lia). nia.
  - assert (0 < 2 ^ k) by (apply Z.pow_pos_nonneg; lia). nia.
  - destruct (Z.lt_trichotomy k k') as [L|[->|L]].
    + specialize (Lt k k' f f' Hk L Hf ltac:(lia)). lia.
    + assert (0 < 2 ^ k') by (apply Z.pow_pos_nonneg; lia). assert (f = f') by nia. lia.
    + specialize (Lt k' k f' f Hk' L Hf' ltac:(lia)). lia.
Qed.

(** the patterns from 2^mb * 2^k on are multiples of 2^k *)
Lemma units_multiple k b : 0 <= k -> 0 <= b -> 2 ^ mb * 2 ^ k <= units mb b -> exists x, units mb b = 2 ^ k * x.
Proof.
  intros Hk H G. assert (P : 0 < 2 ^ mb) by (apply Z.pow_pos_nonneg; lia). assert (Pk : 0 < 2 ^ k) by (apply Z.pow_pos_nonneg; lia).
  destruct (pattern b H) as [(S & U)|(l & f & Hl & Hf & B & U)].
  - nia.
  - assert (k <= l).
    { destruct (Z.lt_ge_cases l k) as [L|]; [exfalso|assumption].
      assert (2 ^ l * 2 <= 2 ^ k).
      { replace k with (l + 1 + (k - l - 1)) by lia. rewrite !Z.pow_add_r by lia. change (2 ^ 1) with 2.
        assert (0 < 2 ^ l) by (apply Z.pow_pos_nonneg; lia). assert (0 < 2 ^ (k - l - 1)) by (apply Z.pow_pos_nonneg; lia). nia. }
      rewrite U in G. assert (0 < 2 ^ l) by (apply Z.pow_pos_nonneg; lia). nia. }
    exists ((2 ^ mb + f) * 2 ^ (l - k)). rewrite U. replace l with (k + (l - k)) at 1 by lia. rewrite Z.pow_add_r by lia. ring.
Qed.

Lemma even_pow k : Z.even (k * 2 ^ mb) = true.
Proof. rewrite Z.even_mul, Z.even_pow by lia. apply orb_true_r. Qed.

Lemma round_bits_nearest eb n d : 0 <= n -> 0 < d -> round_bits mb n d < infinity eb mb -> nearest eb mb n d (round_bits mb n d).
Proof.
  intros Hn Hd Hf. assert (P : 0 < 2 ^ mb) by (apply Z.pow_pos_nonneg; lia).
  assert (P2 : 2 ^ (mb + 1) = 2 ^ mb * 2) by (rewrite Z.pow_add_r by lia; reflexivity).
  pose proof (Z.div_pos n d Hn Hd) as Q0. pose proof (Z.div_mod n d ltac:(lia)) as E. pose proof (Z.mod_pos_bound n d Hd) as B.
  unfold round_bits, log2_fraction in *. cbv zeta in *. destruct (Z.le_gt_cases (Z.log2 (n / d)) mb) as [L|L].
  - (* spacing 1 *)
    rewrite Z.max_l in * by lia. change (2 ^ 0) with 1 in *. rewrite Z.mul_1_r in *.
    change (0 * 2 ^ mb) with 0 in *. rewrite Z.add_0_l in *.
    assert (U : n / d < 2 * 2 ^ mb).
    { destruct (Z.eq_dec (n / d) 0) as [->|]; [lia|]. pose proof (Z.log2_spec (n / d) ltac:(lia)) as [_ S].
      assert (2 ^ Z.succ (Z.log2 (n / d)) <= 2 ^ (mb + 1)) by (apply Z.pow_le_mono_r; lia). lia. }
    destruct (round_even_nearest n d Hn Hd) as (R0 & R).
    assert (R1 : round_even n d <= 2 * 2 ^ mb).
    { unfold round_even. cbv zeta. destruct (2 * (n mod d) <? d); [lia|]. destruct (d <? 2 * (n mod d)); [lia|]. destruct (Z.even (n / d)); lia. }
    set (r := round_even n d) in *. clearbody r.
    assert (Ur : units mb r = r).
    { destruct (Z.lt_ge_cases r (2 ^ mb)) as [S|S]; [apply units_subnormal; lia|].
      destruct (Z.eq_dec r (2 * 2 ^ mb)) as [->|S'].
      - replace (2 * 2 ^ mb) with ((1 + 1) * 2 ^ mb + 0) at 1 by ring. rewrite units_normal by lia. change (2 ^ 1) with 2. lia.
      - replace r with ((0 + 1) * 2 ^ mb + (r - 2 ^ mb)) at 1 by ring. rewrite units_normal by lia. change (2 ^ 0) with 1. lia. }
    split; [split; lia|]. intros b' (B1 & _). rewrite Ur. destruct (R (units mb b')) as (R2 & R3). split; [exact R2|].
    intros T. destruct (R3 T) as [X|X]; [left|now right]. apply units_injective; lia.
  - (* spacing 2^k *)
    set (k := Z.log2 (n / d) - mb) in *. rewrite Z.max_r in * by lia. assert (Hk : 0 < k) by lia.
    assert (Pk : 0 < 2 ^ k) by (apply Z.pow_pos_nonneg; lia).
    assert (N0 : n / d <> 0) by (intros X; rewrite X in L; cbn in L; lia).
    pose proof (Z.log2_spec (n / d) ltac:(lia)) as [S1 S2].
    replace (Z.log2 (n / d)) with (mb + k) in S1, S2 by lia. rewrite Z.pow_succ_r in S2 by lia. rewrite Z.pow_add_r in S1, S2 by lia.
    assert (HdK : 0 < d * 2 ^ k) by nia.
    destruct (round_even_nearest n (d * 2 ^ k) Hn HdK) as (R0 & R).
    set (r := round_even n (d * 2 ^ k)) in *.
    assert (LoN : d * 2 ^ k * 2 ^ mb <= n) by nia. assert (HiN : n < d * 2 ^ k * (2 * 2 ^ mb)) by nia.
    assert (R1 : 2 ^ mb <= r <= 2 * 2 ^ mb).
    { assert (QL : 2 ^ mb <= n / (d * 2 ^ k)) by (apply Z.div_le_lower_bound; lia).
      assert (QH : n / (d * 2 ^ k) < 2 * 2 ^ mb) by (apply Z.div_lt_upper_bound; lia).
      unfold r, round_even. cbv zeta. destruct (2 * (n mod (d * 2 ^ k)) <? d * 2 ^ k); [lia|].
      destruct (d * 2 ^ k <? 2 * (n mod (d * 2 ^ k))); [lia|]. destruct (Z.even (n / (d * 2 ^ k))); lia. }
    clearbody r.
    assert (Ur : units mb (k * 2 ^ mb + r) = 2 ^ k * r).
    { destruct (Z.eq_dec r (2 * 2 ^ mb)) as [->|S'].
      - replace (k * 2 ^ mb + 2 * 2 ^ mb) with ((k + 1 + 1) * 2 ^ mb + 0) by ring. rewrite units_normal, Z.pow_add_r by lia. change (2 ^ 1) with 2. ring.
      - replace (k * 2 ^ mb + r) with ((k + 1) * 2 ^ mb + (r - 2 ^ mb)) by ring. rewrite units_normal by lia. ring. }
    split; [split; [nia|exact Hf]|]. intros b' (B1 & _). rewrite Ur.
    replace (d * (2 ^ k * r)) with (d * 2 ^ k * r) by ring.
    destruct (Z.lt_ge_cases (units mb b') (2 ^ mb * 2 ^ k)) as [Sm|Big].
    + assert (X : Z.abs (n - d * 2 ^ k * r) < Z.abs (n - d * units mb b')); [|lia].
      destruct (R (2 ^ mb)) as (R2 & _). nia.
    + destruct (units_multiple k b' ltac:(lia) B1 Big) as (x & Ux). rewrite Ux. replace (d * (2 ^ k * x)) with (d * 2 ^ k * x) by ring.
      destruct (R x) as (R2 & R3). split; [exact R2|]. intros T. destruct (R3 T) as [X|X].
      * left. apply units_injective; [nia|lia|]. rewrite Ur, Ux, X. reflexivity.
      * right. rewrite Z.even_add, even_pow, X. reflexivity.
Qed.
End Format.

Theorem decimal_bits_nearest eb mb m e b : 1 <= mb -> 0 <= m -> decimal_bits eb mb m e = Some b -> nearest_decimal eb mb m e b.
Proof.
  intros Hmb Hm H. unfold decimal_bits, nearest_decimal in *.
  assert (A : forall x y, 0 < x -> 0 < x ^ Z.max y 0) by (intros; apply Z.pow_pos_nonneg; lia).
  unfold fraction in *. cbv zeta in *. cbn [fst snd].
  destruct (_ <? _) eqn:L in H; [|discriminate]. injection H as <-. apply Z.ltb_lt in L.
  apply round_bits_nearest; [exact Hmb| | |exact L].
  - pose proof (A 10 e ltac:(lia)). pose proof (A 2 (- unit_exp eb mb) ltac:(lia)). nia.
  - pose proof (A 10 (- e) ltac:(lia)). pose proof (A 2 (unit_exp eb mb) ltac:(lia)). nia.
Qed.

(** the nearest number is unique *)
Lemma units_monotone mb b b' : 1 <= mb -> 0 <= b -> b < b' -> units mb b < units mb b'.
Proof.
  intros Hmb H L. assert (P : 0 < 2 ^ mb) by (apply Z.pow_pos_nonneg; lia).
  destruct (pattern mb Hmb b H) as [(S & U)|(k & f & Hk & Hf & B & U)],
    (pattern mb Hmb b' ltac:(lia)) as [(S' & U')|(k' & f' & Hk' & Hf' & B' & U')].
  - lia.
  - assert (0 < 2 ^ k') by (apply Z.pow_pos_nonneg; lia). nia.
  - nia.
  - assert (k <= k') by nia. destruct (Z.eq_dec k k') as [->|N].
    + assert (0 < 2 ^ k') by (apply Z.pow_pos_nonneg; lia). rewrite U, U'. apply Z.mul_lt_mono_pos_r; lia.
    + assert (2 ^ k * 2 <= 2 ^ k').
      { replace k' with (k + 1 + (k' - k - 1)) by lia. rewrite !Z.pow_add_r by lia. change (2 ^ 1) with 2.
        assert (0 < 2 ^ k) by (apply Z.pow_pos_nonneg; lia). assert (0 < 2 ^ (k' - k - 1)) by (apply Z.pow_pos_nonneg; lia). nia. }
      assert (0 < 2 ^ k) by (apply Z.pow_pos_nonneg; lia). nia.
Qed.
Lemma nearest_unique eb mb n d b b' : 1 <= mb -> 0 < d -> nearest eb mb n d b -> nearest eb mb n d b' -> b = b'.
Proof.
  intros Hmb Hd.
  assert (W : forall b b', nearest eb mb n d b -> nearest eb mb n d b' -> ~ b < b').
  { clear b b'. intros b b' (F & H) (F' & H') L. destruct (H b' F') as (A & B). destruct (H' b F) as (A' & B').
    assert (T : Z.abs (n - d * units mb b) = Z.abs (n - d * units mb b')) by lia.
    destruct (B T) as [E|E]; [lia|]. destruct (B' (eq_sym T)) as [E'|E']; [lia|].
    assert (Lt : b + 1 < b').
    { assert (b + 1 <> b'); [|lia]. intros <-. rewrite Z.add_1_r, Z.even_succ, <- Z.negb_even, E in E'. discriminate. }
    destruct (H (b + 1)) as (A1 & _); [unfold finite in *; lia|].
    pose proof (units_monotone mb b (b + 1) Hmb ltac:(unfold finite in F; lia) ltac:(lia)) as M1.
    pose proof (units_monotone mb (b + 1) b' Hmb ltac:(unfold finite in F; lia) Lt) as M2.
    assert (d * units mb b < d * units mb (b + 1)) by nia. assert (d * units mb (b + 1) < d * units mb b') by nia. lia. }
  intros H H'. destruct (Z.lt_trichotomy b b') as [L|[E|L]]; [exfalso; exact (W _ _ H H' L)|exact E|exfalso; exact (W _ _ H' H L)].
Qed.

(** 0.1f32, 0.1f64, 1e10f32, 5e-324f64, 3.4e38f32, 3.5e38f32 *)
Example decimal_case :
  decimal_bits 8 23 1 (-1) = Some 0x3dcccccd /\ decimal_bits 11 52 1 (-1) = Some 0x3fb999999999999a /\
  decimal_bits 8 23 1 10 = Some 0x501502f9 /\ decimal_bits 11 52 5 (-324) = Some 1 /\
  decimal_bits 8 23 34 37 = Some 0x7f7fc99e /\ decimal_bits 8 23 35 37 = None.
Proof. repeat match goal with |- _ /\ _ => split end; vm_compute; reflexivity. Qed.
