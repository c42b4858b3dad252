(** Model of quick-protobuf/src/sizeofs.rs. *)
From Verif Require Import Base.

(** sizeofs.rs:8-21 [sizeof_varint] *)
Definition sizeof_varint (v : Z) : Z :=
  if v <=? 0x7F then 1
  else if v <=? 0x3FFF then 2
  else if v <=? 0x1FFFFF then 3
  else if v <=? 0xFFFFFFF then 4
  else if v <=? 0x7FFFFFFFF then 5
  else if v <=? 0x3FFFFFFFFFF then 6
  else if v <=? 0x1FFFFFFFFFFFF then 7
  else if v <=? 0xFFFFFFFFFFFFFF then 8
  else if v <=? 0x7FFFFFFFFFFFFFFF then 9
  else 10.

(** sizeofs.rs:27-29 [sizeof_len].  The final addition is on usize; the model
    does not wrap it (a length prefix plus a length that is a real memory size
    does not reach 2^usize). *)
Definition sizeof_len (len : Z) : Z := sizeof_varint (wrapU 64 len) + len.

(** sizeofs.rs:32-34 *)
Definition sizeof_int32 (v : Z) : Z := sizeof_varint (wrapU 64 v).
(** sizeofs.rs:37-39 *)
Definition sizeof_int64 (v : Z) : Z := sizeof_varint (wrapU 64 v).
(** sizeofs.rs:42-44 *)
Definition sizeof_uint32 (v : Z) : Z := sizeof_varint (wrapU 64 v).
(** sizeofs.rs:47-49 *)
Definition sizeof_uint64 (v : Z) : Z := sizeof_varint v.
(** sizeofs.rs:52-54: [((v << 1) ^ (v >> 31)) as u64]; the shift left drops the
    top bit of the i32. *)
Definition sizeof_sint32 (v : Z) : Z :=
  sizeof_varint (wrapU 64 (Z.lxor (wrapS 32 (Z.shiftl v 1)) (Z.shiftr v 31))).
(** sizeofs.rs:57-59 *)
Definition sizeof_sint64 (v : Z) : Z :=
  sizeof_varint (wrapU 64 (Z.lxor (wrapS 64 (Z.shiftl v 1)) (Z.shiftr v 63))).
(** sizeofs.rs:62-64 *)
Definition sizeof_bool (_ : bool) : Z := 1.
(** sizeofs.rs:67-69 *)
Definition sizeof_enum (v : Z) : Z := sizeof_int32 v.
