(** Model of [PackedFixed] (quick-protobuf/src/reader.rs:723-963).

    [T] ranges over the numeric types for which pb-rs uses PackedFixed.
    Values: integers as [Z], floats as their bit pattern.  Little-endian
    target: the raw memory of [T] is its little-endian encoding.  Raw pointer
    accesses outside the data yield [UB]. *)
From Verif Require Import Base Reader.

(** The element types: u32, i32, f32, u64, i64, f64. *)
Inductive fixed_kind := KU32 | KI32 | KF32 | KU64 | KI64 | KF64.

(** core::mem::size_of::<T>() *)
Definition fk_size (k : fixed_kind) : Z :=
  match k with KU32 | KI32 | KF32 => 4 | _ => 8 end.

(** reinterpretation of raw bytes as a T (ptr::read_unaligned) *)
Definition fk_decode (k : fixed_kind) (l : bytes) : Z :=
  match k with
  | KI32 => le_i32 l
  | KI64 => le_i64 l
  | _ => le_value l
  end.

(** little-endian bytes of a value (n bytes) *)
Fixpoint le_bytes (n : nat) (z : Z) : bytes :=
  match n with O => [] | S n' => zb z :: le_bytes n' (z / 256) end.

(** the raw memory of a T *)
Definition fk_encode (k : fixed_kind) (z : Z) : bytes :=
  le_bytes (Z.to_nat (fk_size k)) z.

(** values of T *)
Definition fk_range (k : fixed_kind) (z : Z) : Prop :=
  match k with
  | KU32 | KF32 => is_u 32 z
  | KI32 => is_s 32 z
  | KU64 | KF64 => is_u 64 z
  | KI64 => is_s 64 z
  end.

(** reader.rs:723-738 [PackedFixed] *)
Inductive packed_fixed :=
| NoDataYet
| Borrowed (bs : bytes)
| Owned (v : list Z).

Section WithTarget.
Variable t : target.
Variable k : fixed_kind.

(** reader.rs:742-748 [len] *)
Definition pf_len (p : packed_fixed) : Z :=
  match p with
  | Borrowed bs => zlen bs / fk_size k
  | Owned v => zlen v
  | NoDataYet => 0
  end.

(** reader.rs:824-830 [is_empty] *)
Definition pf_is_empty (p : packed_fixed) : bool :=
  match p with
  | NoDataYet => true
  | Borrowed bs => zlen bs =? 0
  | Owned v => zlen v =? 0
  end.

(** reader.rs:784-801 [at] *)
Definition pf_at (p : packed_fixed) (index : Z) : outcome Z :=
  match p with
  | Borrowed bs =>
    match umul t index (fk_size k) with
    | Ok byte_offset =>
      if zlen bs <=? byte_offset then Panic
      else match slice bs byte_offset (byte_offset + fk_size k) with
           | Some x => Ok (fk_decode k x)
           | None => UB (* read_unaligned past the end of the slice *)
           end
    | _ => Panic
    end
  | Owned v => match get v index with Some x => Ok x | None => Panic end
  | NoDataYet => Panic
  end.

(** the elements stored in a byte buffer of [n] elements *)
Fixpoint chunks (n : nat) (bs : bytes) : list Z :=
  match n with
  | O => []
  | S n' => fk_decode k (firstn (Z.to_nat (fk_size k)) bs)
            :: chunks n' (skipn (Z.to_nat (fk_size k)) bs)
  end.

(** reader.rs:833-845 [make_vec_from_unaligned_buf]: copies [bytes.len()] bytes
    into a Vec whose capacity is only guaranteed to be [len()] elements. *)
Definition pf_make_vec (p : packed_fixed) : outcome (list Z) :=
  match p with
  | Borrowed bs =>
    if pf_len p * fk_size k <? zlen bs then UB (* heap buffer overflow *)
    else Ok (chunks (Z.to_nat (pf_len p)) bs)
  | _ => Panic
  end.

(** reader.rs:771-777 [into_vec] *)
Definition pf_into_vec (p : packed_fixed) : outcome (list Z) :=
  match p with
  | NoDataYet => Ok []
  | Borrowed _ => pf_make_vec p
  | Owned v => Ok v
  end.

(** reader.rs:752-760 [own], with 848-853 [make_owned_variant_from_unaligned_buf] *)
Definition pf_own (p : packed_fixed) : outcome packed_fixed :=
  match p with
  | NoDataYet => Ok (Owned [])
  | Borrowed _ => match pf_make_vec p with
                  | Ok v => Ok (Owned v) | Err e => Err e | Panic => Panic
                  | UB => UB | NoFuel => NoFuel end
  | Owned _ => Ok p
  end.

(** reader.rs:804-811 [to_slice] (and 814-821 [to_mut_slice]) *)
Definition pf_to_slice (p : packed_fixed) : outcome (list Z) :=
  match pf_own p with
  | Ok (Owned v) => Ok v
  | Ok _ => Panic
  | Err e => Err e | Panic => Panic | UB => UB | NoFuel => NoFuel
  end.

(** reader.rs:867-875 (and 917-925): [next] of the iterators, at [index] *)
Definition pf_next (p : packed_fixed) (index : Z) : outcome (option Z) :=
  if pf_len p <=? index then Ok None
  else match pf_at p index with
       | Ok x => Ok (Some x) | Err e => Err e | Panic => Panic
       | UB => UB | NoFuel => NoFuel end.

(** collecting an iterator: repeated [next] from [index], [n] elements left *)
Fixpoint pf_collect_from (n : nat) (p : packed_fixed) (index : Z) : outcome (list Z) :=
  match pf_next p index with
  | Ok None => Ok []
  | Ok (Some x) =>
    match n with
    | O => NoFuel
    | S n' => match pf_collect_from n' p (index + 1) with
              | Ok l => Ok (x :: l) | o => o end
    end
  | Err e => Err e | Panic => Panic | UB => UB | NoFuel => NoFuel
  end.
(** [p.into_iter().collect()] *)
Definition pf_collect (p : packed_fixed) : outcome (list Z) :=
  pf_collect_from (Z.to_nat (pf_len p)) p 0.

(** Iterator::eq (core): compares element by element, [eqT] is T's PartialEq *)
Fixpoint iter_eq (eqT : Z -> Z -> bool) (a b : list Z) : bool :=
  match a, b with
  | [], [] => true
  | x :: a', y :: b' => eqT x y && iter_eq eqT a' b'
  | _, _ => false
  end.

(** reader.rs:959-963 [PartialEq::eq].  Simplification: both sides are
    collected before comparing (Rust stops at the first difference). *)
Definition pf_eq (eqT : Z -> Z -> bool) (p q : packed_fixed) : outcome bool :=
  match pf_collect p, pf_collect q with
  | Ok a, Ok b => Ok (iter_eq eqT a b)
  | UB, _ | _, UB => UB
  | NoFuel, _ | _, NoFuel => NoFuel
  | _, _ => Panic
  end.

(** reader.rs:935-957 [From] impls: byte containers are borrowed, Vec<T> owned *)
Definition pf_from_bytes (bs : bytes) : packed_fixed := Borrowed bs.
Definition pf_from_vec (v : list Z) : packed_fixed := Owned v.

(** reader.rs:458-477 [read_packed_fixed] with its result type *)
Definition read_packed_fixed_k : rd packed_fixed :=
  rmap pf_from_bytes (read_packed_fixed t (fk_size k)).

End WithTarget.
