(** Basic data of the model: bytes, machine integers, outcomes, build targets.

    Machine integers are mathematical integers [Z]; every place where the Rust
    code converts or may overflow applies an explicit [wrapU]/[wrapS] or an
    overflow-checked operation.  Bytes are [Byte.byte]. *)
From Coq Require Export ZArith List Lia Bool.
From Coq Require Export Init.Byte.
From Coq Require Import NArith Strings.Byte ZifyBool ZifyNat ZifyN.
Export ListNotations.
Open Scope Z_scope.

(** ** Bytes *)

(** Numeric value of a byte ([u8 as _], used everywhere in
    quick-protobuf/src/reader.rs and writer.rs). *)
Definition bz (b : byte) : Z := Z.of_N (Byte.to_N b).

(** [x as u8]: truncation to eight bits (quick-protobuf/src/writer.rs:73,76). *)
Definition zb (z : Z) : byte :=
  match Byte.of_N (Z.to_N (z mod 256)) with Some b => b | None => x00 end.

Definition bytes := list byte.

(** [slice.len()] *)
Definition zlen {A} (l : list A) : Z := Z.of_nat (length l).

(** [bytes.get(i)] for an index of type usize (core slice API, used at
    quick-protobuf/src/reader.rs:115). *)
Definition get {A} (l : list A) (i : Z) : option A :=
  if (0 <=? i) && (i <? zlen l) then nth_error l (Z.to_nat i) else None.

(** [bytes.get(a..b)] (core slice API, used at
    quick-protobuf/src/reader.rs:338,421,429): [None] if [a > b] or
    [b > len]. *)
Definition slice {A} (l : list A) (a b : Z) : option (list A) :=
  if (0 <=? a) && (a <=? b) && (b <=? zlen l)
  then Some (firstn (Z.to_nat (b - a)) (skipn (Z.to_nat a) l)) else None.

(** ** Machine integers *)

(** [as uN] *)
Definition wrapU (n : Z) (z : Z) : Z := z mod 2 ^ n.
(** [as iN] (two's complement) *)
Definition wrapS (n : Z) (z : Z) : Z :=
  let m := z mod 2 ^ n in if m <? 2 ^ (n - 1) then m else m - 2 ^ n.

Definition is_u (n z : Z) : Prop := 0 <= z < 2 ^ n.
Definition is_s (n z : Z) : Prop := - 2 ^ (n - 1) <= z < 2 ^ (n - 1).

(** ** Errors and outcomes *)

(** quick-protobuf/src/errors.rs:5-29.  Payloads that only carry text
    (io error, Utf8Error, feature name, message) are dropped or kept as far as
    they are observable through pattern matching. *)
Inductive error :=
| EIo
| EUtf8
| EDeprecated
| EUnknownWireType (w : Z)
| EVarint
| EMessage
| EMap (t : Z)
| EUnexpectedEndOfBuffer
| EOutputBufferTooSmall.

(** Outcome of running a Rust function: a value, an [Err], a panic (slice index
    out of range, arithmetic overflow with overflow checks, [unreachable!]),
    undefined behaviour (raw memory access out of range), or the model ran out
    of fuel.  [NoFuel] is never an outcome of the Rust code: a computation that
    yields [NoFuel] for every amount of fuel models a non-terminating one. *)
Inductive outcome (A : Type) :=
| Ok (a : A)
| Err (e : error)
| Panic
| UB
| NoFuel.
Arguments Ok {A} a. Arguments Err {A} e. Arguments Panic {A}.
Arguments UB {A}. Arguments NoFuel {A}.

(** ** Targets *)

(** Pointer width and whether arithmetic overflow panics
    (debug / [overflow-checks = true]) or wraps (release). *)
Inductive width := W32 | W64.
Record target := { usize_width : width; overflow_checks : bool }.

Definition usize_bits (t : target) : Z :=
  match usize_width t with W32 => 32 | W64 => 64 end.
(** number of distinct usize values *)
Definition usize_mod (t : target) : Z :=
  match usize_width t with W32 => 2 ^ 32 | W64 => 2 ^ 64 end.

(** [a + b] on usize *)
Definition uadd (t : target) (a b : Z) : outcome Z :=
  if a + b <? usize_mod t then Ok (a + b)
  else if overflow_checks t then Panic else Ok ((a + b) mod usize_mod t).
(** [a - b] on usize *)
Definition usub (t : target) (a b : Z) : outcome Z :=
  if b <=? a then Ok (a - b)
  else if overflow_checks t then Panic else Ok ((a - b) mod usize_mod t).

(** Rust slices never exceed isize::MAX bytes. *)
Definition buf_ok (t : target) (bs : bytes) : Prop :=
  zlen bs < usize_mod t / 2.
(** [a * b] on usize *)
Definition umul (t : target) (a b : Z) : outcome Z :=
  if a * b <? usize_mod t then Ok (a * b)
  else if overflow_checks t then Panic else Ok ((a * b) mod usize_mod t).
