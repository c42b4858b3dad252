(** Model of quick-protobuf/src/writer.rs.

    The [Writer] methods only ever call methods of [WriterBackend] and stop at
    the first error ([?]); what they pass does not depend on the backend.  So a
    writer computation is modelled by the list of backend calls it would make,
    and [run] executes such a list on a backend. *)
From Verif Require Import Base Reader PackedFixed Sizeofs.

(** writer.rs:352-376 [WriterBackend]: one constructor per method.  [OpPanic]
    and [OpUB] mark points where the Writer method itself panics
    ([unreachable!], slice index) or reads raw memory out of range.  Floats are
    bit patterns. *)
Inductive wop :=
| OpU8 (x : Z) | OpU32 (x : Z) | OpI32 (x : Z) | OpF32 (x : Z)
| OpU64 (x : Z) | OpI64 (x : Z) | OpF64 (x : Z)
| OpAll (buf : bytes)
| OpPanic | OpUB.

Definition wprog := list wop.

(** writer.rs:66-68 [write_u8] *)
Definition write_u8 (x : Z) : wprog := [OpU8 x].

(** writer.rs:71-77 [write_varint]; ten rounds are enough for a u64 (the
    sentinel is proved unreachable) *)
Fixpoint write_varint_loop (fuel : nat) (v : Z) : wprog :=
  if 0x7F <? v then
    match fuel with
    | O => [OpPanic]
    | S fuel' => OpU8 (Z.lor (Z.land (wrapU 8 v) 0x7F) 0x80)
                 :: write_varint_loop fuel' (Z.shiftr v 7)
    end
  else [OpU8 (wrapU 8 v)].
Definition write_varint (v : Z) : wprog := write_varint_loop 10 v.

(** writer.rs:81-83 *)
Definition write_tag (tag : Z) : wprog := write_varint (wrapU 64 tag).
(** writer.rs:87-89 *)
Definition write_int32 (v : Z) : wprog := write_varint (wrapU 64 v).
(** writer.rs:93-95 *)
Definition write_int64 (v : Z) : wprog := write_varint (wrapU 64 v).
(** writer.rs:99-101 *)
Definition write_uint32 (v : Z) : wprog := write_varint (wrapU 64 v).
(** writer.rs:105-107 *)
Definition write_uint64 (v : Z) : wprog := write_varint v.
(** writer.rs:111-113 *)
Definition write_sint32 (v : Z) : wprog :=
  write_varint (wrapU 64 (Z.lxor (wrapS 32 (Z.shiftl v 1)) (Z.shiftr v 31))).
(** writer.rs:117-119 *)
Definition write_sint64 (v : Z) : wprog :=
  write_varint (wrapU 64 (Z.lxor (wrapS 64 (Z.shiftl v 1)) (Z.shiftr v 63))).
(** writer.rs:123-125 *)
Definition write_fixed64 (v : Z) : wprog := [OpU64 v].
(** writer.rs:129-131 *)
Definition write_fixed32 (v : Z) : wprog := [OpU32 v].
(** writer.rs:135-137 *)
Definition write_sfixed64 (v : Z) : wprog := [OpI64 v].
(** writer.rs:141-143 *)
Definition write_sfixed32 (v : Z) : wprog := [OpI32 v].
(** writer.rs:147-149 *)
Definition write_float (v : Z) : wprog := [OpF32 v].
(** writer.rs:153-155 *)
Definition write_double (v : Z) : wprog := [OpF64 v].
(** writer.rs:159-161 *)
Definition write_bool (v : bool) : wprog := [OpU8 (if v then 1 else 0)].
(** writer.rs:165-167 *)
Definition write_enum (v : Z) : wprog := write_int32 v.
(** writer.rs:171-174 *)
Definition write_bytes (b : bytes) : wprog :=
  write_varint (wrapU 64 (zlen b)) ++ [OpAll b].
(** writer.rs:178-180 *)
Definition write_string (s : bytes) : wprog := write_bytes s.

(** [v.iter().map(size).sum()], without usize overflow *)
Definition sum_sizes {M} (size : M -> Z) (v : list M) : Z :=
  fold_right (fun m acc => size m + acc) 0 v.

(** writer.rs:183-197 [write_packed] *)
Definition write_packed {M} (v : list M) (write : M -> wprog) (size : M -> Z) : wprog :=
  match v with
  | [] => []
  | _ => write_varint (wrapU 64 (sum_sizes size v)) ++ flat_map write v
  end.

(** writer.rs:205-215 [write_packed_fixed] *)
Definition write_packed_fixed (k : fixed_kind) (p : packed_fixed) : wprog :=
  match p with
  | NoDataYet => [OpPanic]
  | Borrowed bs => write_bytes bs
  | Owned v => write_bytes (flat_map (fk_encode k) v)
  end.

(** writer.rs:219-223 [write_message]; a message is given by its get_size and
    its write_message *)
Definition write_message (get_size : Z) (write : wprog) : wprog :=
  write_varint (wrapU 64 get_size) ++ write.

(** writer.rs:227-233 [write_with_tag] *)
Definition write_with_tag (tag : Z) (write : wprog) : wprog := write_tag tag ++ write.

(** writer.rs:238-260 [write_packed_with_tag] *)
Definition write_packed_with_tag {M} (tag : Z) (v : list M)
           (write : M -> wprog) (size : M -> Z) : wprog :=
  match v with
  | [] => []
  | _ => write_tag tag ++ write_varint (wrapU 64 (sum_sizes size v)) ++ flat_map write v
  end.

(** writer.rs:265-276 [write_packed_fixed_with_tag] *)
Definition write_packed_fixed_with_tag (k : fixed_kind) (tag : Z) (p : packed_fixed) : wprog :=
  if pf_is_empty p then [] else write_tag tag ++ write_packed_fixed k p.

(** writer.rs:281-302 [write_packed_fixed_size_with_tag] *)
Definition write_packed_fixed_size_with_tag (k : fixed_kind) (tag : Z)
           (p : packed_fixed) (item_size : Z) : wprog :=
  if pf_is_empty p then [] else
  write_tag tag ++
  let len := fk_size k * item_size in
  match p with
  | NoDataYet => [OpPanic]
  | Borrowed bs => match slice bs 0 len with
                   | Some x => write_bytes x
                   | None => [OpPanic]
                   end
  | Owned v => match slice (flat_map (fk_encode k) v) 0 len with
               | Some x => write_bytes x
               | None => [OpUB] (* from_raw_parts past the end of the Vec *)
               end
  end.

(** writer.rs:305-321 [write_map] *)
Definition write_map (size tag_key : Z) (write_key : wprog)
           (tag_val : Z) (write_val : wprog) : wprog :=
  write_varint (wrapU 64 size) ++ write_tag tag_key ++ write_key
  ++ write_tag tag_val ++ write_val.

(** ** Backends *)

(** The bytes a backend call asks to store (byteorder LE::write_xx). *)
Definition op_bytes (o : wop) : bytes :=
  match o with
  | OpU8 x => [zb x]
  | OpU32 x | OpI32 x | OpF32 x => le_bytes 4 x
  | OpU64 x | OpI64 x | OpF64 x => le_bytes 8 x
  | OpAll b => b
  | OpPanic | OpUB => []
  end.

(** Execution of a writer computation on a backend with state [S]. *)
Fixpoint run {S} (step : wop -> S -> outcome unit * S) (p : wprog) (s : S)
  : outcome unit * S :=
  match p with
  | [] => (Ok tt, s)
  | OpPanic :: _ => (Panic, s)
  | OpUB :: _ => (UB, s)
  | o :: p' => match step o s with
               | (Ok _, s') => run step p' s'
               | r => r
               end
  end.

(** writer.rs:379-382 [BytesWriter] *)
Record bytes_writer := mkBW { bw_buf : bytes; bw_cursor : Z }.
(** writer.rs:386-388 [BytesWriter::new] *)
Definition bw_new (buf : bytes) : bytes_writer := mkBW buf 0.

(** storing [d] at [c..c+len d] in a buffer ([copy_from_slice], [LE::write_xx],
    indexed assignment) *)
Definition put (buf : bytes) (c : Z) (d : bytes) : bytes :=
  firstn (Z.to_nat c) buf ++ d ++ skipn (Z.to_nat (c + zlen d)) buf.

(** number of bytes checked for by each method *)
Definition op_need (o : wop) : Z :=
  match o with
  | OpU8 _ => 1
  | OpU32 _ | OpI32 _ | OpF32 _ => 4
  | OpU64 _ | OpI64 _ | OpF64 _ => 8
  | OpAll b => zlen b
  | OpPanic | OpUB => 0
  end.

(** writer.rs:391-479 [impl WriterBackend for BytesWriter]: the eight methods
    are the same up to the width.  [buf.len() - cursor] cannot underflow since
    the cursor never passes the end (proved). *)
Definition bw_step (o : wop) (s : bytes_writer) : outcome unit * bytes_writer :=
  if zlen (bw_buf s) - bw_cursor s <? op_need o
  then (Err EUnexpectedEndOfBuffer, s)
  else (Ok tt, mkBW (put (bw_buf s) (bw_cursor s) (op_bytes o))
                    (bw_cursor s + op_need o)).

(** writer.rs:482-522 [impl<W: io::Write> WriterBackend for W] on a Vec<u8>:
    every call appends and succeeds. *)
Definition vec_step (o : wop) (s : bytes) : outcome unit * bytes :=
  (Ok tt, s ++ op_bytes o).

(** writer.rs:482-522 on an arbitrary [io::Write]: each call is one [write_all],
    which either stores everything, or stores some prefix and fails.  The
    [plan] says for each call whether it fails and how many bytes got through. *)
Record sink := mkSink { sk_data : bytes; sk_plan : list (option nat) }.
Definition sink_step (o : wop) (s : sink) : outcome unit * sink :=
  match sk_plan s with
  | Some p :: plan => (Err EIo, mkSink (sk_data s ++ firstn p (op_bytes o)) plan)
  | None :: plan => (Ok tt, mkSink (sk_data s ++ op_bytes o) plan)
  | [] => (Ok tt, mkSink (sk_data s ++ op_bytes o) [])
  end.

(** writer.rs:327-335 [serialize_into_vec] *)
Definition serialize_into_vec (get_size : Z) (write : wprog) : outcome bytes :=
  match run vec_step (write_message get_size write) [] with
  | (Ok _, v) => Ok v
  | (Err e, _) => Err e
  | (Panic, _) => Panic
  | (UB, _) => UB
  | (NoFuel, _) => NoFuel
  end.

(** writer.rs:338-349 [serialize_into_slice]: outcome and final contents of
    [out] *)
Definition serialize_into_slice (get_size : Z) (write : wprog) (out : bytes)
  : outcome unit * bytes :=
  if zlen out <? sizeof_len get_size then (Err EOutputBufferTooSmall, out)
  else let (o, s) := run bw_step (write_message get_size write) (bw_new out) in
       (o, bw_buf s).
