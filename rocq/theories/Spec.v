(** Independent specification of the protobuf wire format, and the vocabulary
    of the property theorems.  Nothing here uses helpers of the model except
    the types of readers, writers and targets. *)
From Verif Require Import Base Reader Writer.

(** ** Varints (protobuf encoding documentation, "Base 128 Varints") *)

(** little-endian groups of seven bits *)
Fixpoint varint_value (l : bytes) : Z :=
  match l with [] => 0 | b :: l' => bz b mod 128 + 128 * varint_value l' end.

(** every byte but the last has its most significant bit set *)
Inductive is_varint : bytes -> Prop :=
| iv_last b : bz b < 128 -> is_varint [b]
| iv_more b l : 128 <= bz b -> is_varint l -> is_varint (b :: l).

(** only continuation bytes *)
Definition all_cont (l : bytes) : Prop := Forall (fun b => 128 <= bz b) l.

(** ** ZigZag ("Signed Integers"): 0,-1,1,-2,... are 0,1,2,3,... *)
Definition zigzag (z : Z) : Z := if 0 <=? z then 2 * z else - 2 * z - 1.

(** ** Little-endian fixed-width integers *)
(** [l] is the [n]-byte little-endian representation of [z] modulo 256^n *)
Definition is_le (n : nat) (z : Z) (l : bytes) : Prop :=
  length l = n /\
  z mod 256 ^ Z.of_nat n =
  fold_right (fun b acc => bz b + 256 * acc) 0 l.

(** ** UTF-8 (RFC 3629): a string is the encoding of a list of code points *)
Definition is_scalar_value (c : Z) : Prop :=
  0 <= c < 0xD800 \/ 0xDFFF < c <= 0x10FFFF.
Definition utf8_encode_char (c : Z) : list Z :=
  if c <? 0x80 then [c]
  else if c <? 0x800 then [0xC0 + c / 64; 0x80 + c mod 64]
  else if c <? 0x10000 then [0xE0 + c / 4096; 0x80 + (c / 64) mod 64; 0x80 + c mod 64]
  else [0xF0 + c / 262144; 0x80 + (c / 4096) mod 64; 0x80 + (c / 64) mod 64; 0x80 + c mod 64].
Definition is_utf8 (l : bytes) : Prop :=
  exists cs, Forall is_scalar_value cs /\ map bz l = flat_map utf8_encode_char cs.

(** ** Fields *)
(** The payload of one field of wire type [w] (protobuf encoding
    documentation, "Message Structure"): a varint, eight bytes, a length and
    that many bytes, or four bytes. *)
Inductive field_payload : Z -> bytes -> Prop :=
| fp_varint l : is_varint l -> (length l <= 10)%nat -> field_payload 0 l
| fp_64 l : length l = 8%nat -> field_payload 1 l
| fp_len p b : is_varint p -> (length p <= 10)%nat -> varint_value p mod 2 ^ 64 = zlen b ->
    field_payload 2 (p ++ b)
| fp_32 l : length l = 4%nat -> field_payload 5 l.

(** ** Vocabulary *)

(** Running the writer calls [p] on a Vec appends exactly [enc] and succeeds. *)
Definition emits (p : wprog) (enc : bytes) : Prop :=
  forall out, run vec_step p out = (Ok tt, out ++ enc).

(** Reading with [m] at the position of [enc], whatever stands before and after
    it in the buffer and whatever the reader's window [0,e) as long as it
    contains [enc], returns [v], advances exactly over [enc] and leaves the
    window unchanged. *)
Definition reads {A} (t : target) (m : rd A) (enc : bytes) (v : A) : Prop :=
  forall pre post e,
    buf_ok t (pre ++ enc ++ post) ->
    zlen pre + zlen enc <= e ->
    m (pre ++ enc ++ post) (mkR (zlen pre) e)
    = (Ok v, mkR (zlen pre + zlen enc) e).

(** Same, for any window (the function does not look at it). *)
Definition reads_any {A} (m : rd A) (enc : bytes) (v : A) : Prop :=
  forall pre post e,
    m (pre ++ enc ++ post) (mkR (zlen pre) e)
    = (Ok v, mkR (zlen pre + zlen enc) e).
