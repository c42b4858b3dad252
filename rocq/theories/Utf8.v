(** Model of [core::str::from_utf8] as used by
    quick-protobuf/src/reader.rs:427-433 ([read_string]).  The standard library
    is not part of /repo; this is the byte-range table of
    core::str::validations::run_utf8_validation (error details dropped). *)
From Verif Require Import Base.

Definition in_range (b : byte) (lo hi : Z) : bool :=
  (lo <=? bz b) && (bz b <=? hi).
Definition is_cont (b : byte) : bool := in_range b 0x80 0xBF.

(** core::str::from_utf8(x).is_ok() *)
Fixpoint utf8_valid (l : bytes) : bool :=
  match l with
  | [] => true
  | b0 :: l1 =>
    if bz b0 <? 0x80 then utf8_valid l1
    else if in_range b0 0xC2 0xDF then
      match l1 with
      | b1 :: l2 => is_cont b1 && utf8_valid l2
      | _ => false
      end
    else if in_range b0 0xE0 0xEF then
      match l1 with
      | b1 :: b2 :: l3 =>
        (if bz b0 =? 0xE0 then in_range b1 0xA0 0xBF
         else if bz b0 =? 0xED then in_range b1 0x80 0x9F
         else is_cont b1)
        && is_cont b2 && utf8_valid l3
      | _ => false
      end
    else if in_range b0 0xF0 0xF4 then
      match l1 with
      | b1 :: b2 :: b3 :: l4 =>
        (if bz b0 =? 0xF0 then in_range b1 0x90 0xBF
         else if bz b0 =? 0xF4 then in_range b1 0x80 0x8F
         else is_cont b1)
        && is_cont b2 && is_cont b3 && utf8_valid l4
      | _ => false
      end
    else false
  end.
