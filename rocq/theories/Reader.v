(** Model of [BytesReader] (quick-protobuf/src/reader.rs:91-583).

    A read function is a Coq function from the whole buffer and the reader
    state to an outcome and the reader state afterwards (also on error: the
    Rust functions take [&mut self], so the state left by a failing call is
    observable). *)
From Verif Require Import Base Utf8.

(** reader.rs:91-95 [BytesReader] *)
Record reader := mkR { r_start : Z; r_end : Z }.

Definition rd (A : Type) := bytes -> reader -> outcome A * reader.

Definition ret {A} (a : A) : rd A := fun _ r => (Ok a, r).
Definition fail {A} (e : error) : rd A := fun _ r => (Err e, r).
(** Rust's [?] on [Result] *)
Definition bind {A B} (m : rd A) (f : A -> rd B) : rd B :=
  fun bs r =>
    match m bs r with
    | (Ok a, r') => f a bs r'
    | (Err e, r') => (Err e, r')
    | (Panic, r') => (Panic, r')
    | (UB, r') => (UB, r')
    | (NoFuel, r') => (NoFuel, r')
    end.
Declare Scope rd_scope.
Delimit Scope rd_scope with rd.
Notation "x <- m ;; k" := (bind m (fun x => k))
  (at level 61, m at next level, right associativity) : rd_scope.
Notation "m >> k" := (bind m (fun _ => k))
  (at level 61, right associativity) : rd_scope.
Open Scope rd_scope.

(** [.map(f)] on a Result *)
Definition rmap {A B} (f : A -> B) (m : rd A) : rd B := x <- m ;; ret (f x).

(** evaluation of an arithmetic expression that may panic *)
Definition lift {A} (o : outcome A) : rd A :=
  fun _ r => (match o with
              | Ok a => Ok a | Err e => Err e | Panic => Panic
              | UB => UB | NoFuel => NoFuel end, r).

(** [self.start], [self.end] and assignments to them *)
Definition get_start : rd Z := fun _ r => (Ok (r_start r), r).
Definition get_end : rd Z := fun _ r => (Ok (r_end r), r).
Definition set_start (s : Z) : rd unit := fun _ r => (Ok tt, mkR s (r_end r)).
Definition set_end (e : Z) : rd unit := fun _ r => (Ok tt, mkR (r_start r) e).

(** [.ok_or(Error::UnexpectedEndOfBuffer)?] on a [bytes.get(..)] *)
Definition get_or_eob {A} (f : bytes -> option A) : rd A :=
  fun bs r => match f bs with
              | Some a => (Ok a, r)
              | None => (Err EUnexpectedEndOfBuffer, r)
              end.

(** reader.rs:99-104 [from_bytes] *)
Definition from_bytes (bs : bytes) : reader := mkR 0 (zlen bs).

(** reader.rs:114-118 [read_u8].  The increment cannot overflow: the index was
    in range and slices are shorter than 2^(usize_bits-1). *)
Definition read_u8 : rd Z :=
  s <- get_start ;;
  b <- get_or_eob (fun bs => get bs s) ;;
  set_start (s + 1) >>
  ret (bz b).

(** [b & 0x80 == 0] *)
Definition msb_clear (b : Z) : bool := Z.land b 0x80 =? 0.

(** reader.rs:196-200: discards up to [n] extra bytes, then Error::Varint *)
Fixpoint discard_extra (n : nat) (r : Z) : rd Z :=
  match n with
  | O => fail EVarint
  | S n' => b <- read_u8 ;; if msb_clear b then ret r else discard_extra n' r
  end.

(** reader.rs:122-206 [read_varint32] *)
Definition read_varint32 : rd Z :=
  b <- read_u8 ;; (* byte0 *)
  if msb_clear b then ret b else
  let r := Z.land b 0x7f in
  b <- read_u8 ;; (* byte1 *)
  let r := Z.lor r (Z.shiftl (Z.land b 0x7f) 7) in
  if msb_clear b then ret r else
  b <- read_u8 ;; (* byte2 *)
  let r := Z.lor r (Z.shiftl (Z.land b 0x7f) 14) in
  if msb_clear b then ret r else
  b <- read_u8 ;; (* byte3 *)
  let r := Z.lor r (Z.shiftl (Z.land b 0x7f) 21) in
  if msb_clear b then ret r else
  b <- read_u8 ;; (* byte4 *)
  let r := Z.lor r (Z.shiftl (Z.land b 0xf) 28) in
  if msb_clear b then ret r else
  discard_extra 5 r.

(** reader.rs:210-291 [read_varint64]; [(r2 as u64) << 56] drops the bits
    shifted out of the u64. *)
Definition read_varint64 : rd Z :=
  (* part0 *)
  b <- read_u8 ;;
  if msb_clear b then ret b else
  let r0 := Z.land b 0x7f in
  b <- read_u8 ;;
  let r0 := Z.lor r0 (Z.shiftl (Z.land b 0x7f) 7) in
  if msb_clear b then ret r0 else
  b <- read_u8 ;;
  let r0 := Z.lor r0 (Z.shiftl (Z.land b 0x7f) 14) in
  if msb_clear b then ret r0 else
  b <- read_u8 ;;
  let r0 := Z.lor r0 (Z.shiftl (Z.land b 0x7f) 21) in
  if msb_clear b then ret r0 else
  (* part1 *)
  b <- read_u8 ;;
  let r1 := Z.land b 0x7f in
  if msb_clear b then ret (Z.lor r0 (Z.shiftl r1 28)) else
  b <- read_u8 ;;
  let r1 := Z.lor r1 (Z.shiftl (Z.land b 0x7f) 7) in
  if msb_clear b then ret (Z.lor r0 (Z.shiftl r1 28)) else
  b <- read_u8 ;;
  let r1 := Z.lor r1 (Z.shiftl (Z.land b 0x7f) 14) in
  if msb_clear b then ret (Z.lor r0 (Z.shiftl r1 28)) else
  b <- read_u8 ;;
  let r1 := Z.lor r1 (Z.shiftl (Z.land b 0x7f) 21) in
  if msb_clear b then ret (Z.lor r0 (Z.shiftl r1 28)) else
  (* part2 *)
  b <- read_u8 ;;
  let r2 := Z.land b 0x7f in
  if msb_clear b
  then ret (Z.lor (Z.lor r0 (Z.shiftl r1 28)) (wrapU 64 (Z.shiftl r2 56))) else
  b <- read_u8 ;;
  let r2 := Z.lor r2 (Z.shiftl b 7) in
  if msb_clear b
  then ret (Z.lor (Z.lor r0 (Z.shiftl r1 28)) (wrapU 64 (Z.shiftl r2 56))) else
  fail EVarint.

(** reader.rs:108-110 [next_tag] *)
Definition next_tag : rd Z := read_varint32.

(** reader.rs:295-297 [read_int32] *)
Definition read_int32 : rd Z := rmap (wrapS 32) read_varint32.
(** reader.rs:301-303 [read_int64] *)
Definition read_int64 : rd Z := rmap (wrapS 64) read_varint64.
(** reader.rs:307-309 [read_uint32] *)
Definition read_uint32 : rd Z := read_varint32.
(** reader.rs:313-315 [read_uint64] *)
Definition read_uint64 : rd Z := read_varint64.
(** reader.rs:319-323 [read_sint32] *)
Definition read_sint32 : rd Z :=
  n <- read_varint32 ;;
  ret (Z.lxor (wrapS 32 (Z.shiftr n 1)) (- (wrapS 32 (Z.land n 1)))).
(** reader.rs:327-331 [read_sint64] *)
Definition read_sint64 : rd Z :=
  n <- read_varint64 ;;
  ret (Z.lxor (wrapS 64 (Z.shiftr n 1)) (- (wrapS 64 (Z.land n 1)))).

(** byteorder LE::read_uN: little-endian value of a byte sequence *)
Fixpoint le_value (l : bytes) : Z :=
  match l with [] => 0 | b :: l' => bz b + 256 * le_value l' end.

(** the i32/i64/f32/f64 views of LE::read_*: signed values by two's complement,
    floats are represented by their bit pattern *)
Definition le_i32 (l : bytes) : Z := wrapS 32 (le_value l).
Definition le_i64 (l : bytes) : Z := wrapS 64 (le_value l).

Section WithTarget.
Variable t : target.

(** reader.rs:335-343 [read_fixed] *)
Definition read_fixed {M} (len : Z) (read : bytes -> M) : rd M :=
  s <- get_start ;;
  e <- lift (uadd t s len) ;;
  x <- get_or_eob (fun bs => slice bs s e) ;;
  set_start (s + len) >>
  ret (read x).

(** reader.rs:347-349 *)
Definition read_fixed64 : rd Z := read_fixed 8 le_value.
(** reader.rs:353-355 *)
Definition read_fixed32 : rd Z := read_fixed 4 le_value.
(** reader.rs:359-361 *)
Definition read_sfixed64 : rd Z := read_fixed 8 le_i64.
(** reader.rs:365-367 *)
Definition read_sfixed32 : rd Z := read_fixed 4 le_i32.
(** reader.rs:371-373; a float is its 32-bit pattern *)
Definition read_float : rd Z := read_fixed 4 le_value.
(** reader.rs:377-379; a double is its 64-bit pattern *)
Definition read_double : rd Z := read_fixed 8 le_value.
(** reader.rs:383-385 [read_bool] *)
Definition read_bool : rd bool := rmap (fun i => negb (i =? 0)) read_varint32.
(** reader.rs:389-391 [read_enum]; [from_i32] is the [From<i32>] of the enum *)
Definition read_enum {E} (from_i32 : Z -> E) : rd E := rmap from_i32 read_int32.

(** reader.rs:405-415 [read_len] *)
Definition read_len {M} (read : rd M) (len : Z) : rd M :=
  cur_end <- get_end ;;
  s <- get_start ;;
  e <- lift (uadd t s len) ;;
  set_end e >>
  v <- read ;;
  e' <- get_end ;;
  set_start e' >>
  set_end cur_end >>
  ret v.

(** reader.rs:395-401 [read_len_varint]; [as usize] of a u32 is the identity on
    32- and 64-bit targets *)
Definition read_len_varint {M} (read : rd M) : rd M :=
  len <- read_varint32 ;; read_len read len.

(** reader.rs:419-423 [read_bytes] *)
Definition read_bytes : rd bytes :=
  read_len_varint
    (s <- get_start ;; e <- get_end ;; get_or_eob (fun bs => slice bs s e)).

(** reader.rs:427-433 [read_string]; a string is its UTF-8 bytes *)
Definition read_string : rd bytes :=
  read_len_varint
    (s <- get_start ;; e <- get_end ;;
     x <- get_or_eob (fun bs => slice bs s e) ;;
     if utf8_valid x then ret x else fail EUtf8).

(** reader.rs:575-577 [is_eof] *)
Definition is_eof : rd bool := fun _ r => (Ok (r_start r =? r_end r), r).

(** reader.rs:569-571 [len] *)
Definition rlen : rd Z := s <- get_start ;; e <- get_end ;; lift (usub t e s).

(** reader.rs:580-582 [read_to_end] *)
Definition read_to_end : rd unit := e <- get_end ;; set_start e.

(** reader.rs:445-448: [while !r.is_eof() { v.push(read(r, b)?) }] with the
    vector so far in reverse *)
Fixpoint packed_loop {M} (fuel : nat) (read : rd M) (acc : list M) : rd (list M) :=
  match fuel with
  | O => lift NoFuel
  | S fuel' =>
    eof <- is_eof ;;
    if (eof : bool) then ret (rev acc)
    else x <- read ;; packed_loop fuel' read (x :: acc)
  end.

(** reader.rs:440-451 [read_packed] *)
Definition read_packed {M} (fuel : nat) (read : rd M) : rd (list M) :=
  read_len_varint (packed_loop fuel read []).

(** reader.rs:458-477 [read_packed_fixed], with [size] = size_of::<M>().
    Returns the borrowed bytes of the PackedFixed. *)
Definition read_packed_fixed (size : Z) : rd bytes :=
  len <- read_varint32 ;;
  l <- rlen ;;
  if l <? len then fail EUnexpectedEndOfBuffer else
  let n := len / size in
  s <- get_start ;;
  e <- lift (uadd t s (n * size)) ;;
  target <- (fun bs r => match slice bs s e with
                         | Some x => (Ok x, r)
                         | None => (Panic, r) (* &bytes[a..b] out of range *)
                         end) ;;
  s' <- lift (uadd t s len) ;;
  set_start s' >>
  ret target.

(** reader.rs:483-488 [read_message]; [from_reader] is M::from_reader *)
Definition read_message {M} (from_reader : rd M) : rd M :=
  read_len_varint from_reader.
(** reader.rs:495-500 [read_message_by_len] *)
Definition read_message_by_len {M} (from_reader : rd M) (len : Z) : rd M :=
  read_len from_reader len.

(** reader.rs:517-527: the loop of [read_map] *)
Fixpoint map_loop {K V} (fuel : nat) (read_key : rd K) (read_val : rd V)
         (k : K) (v : V) : rd (K * V) :=
  match fuel with
  | O => lift NoFuel
  | S fuel' =>
    eof <- is_eof ;;
    if (eof : bool) then ret (k, v)
    else
      b <- read_u8 ;;
      let f := Z.shiftr b 3 in
      if f =? 1 then k' <- read_key ;; map_loop fuel' read_key read_val k' v
      else if f =? 2 then v' <- read_val ;; map_loop fuel' read_key read_val k v'
      else fail (EMap f)
  end.

(** reader.rs:504-529 [read_map]; [kd], [vd] are K::default(), V::default() *)
Definition read_map {K V} (fuel : nat) (kd : K) (vd : V)
           (read_key : rd K) (read_val : rd V) : rd (K * V) :=
  read_len_varint (map_loop fuel read_key read_val kd vd).

(** reader.rs:555-563: the bounds check and skip at the end of [read_unknown] *)
Definition skip (offset : Z) : rd unit :=
  s <- get_start ;; e <- get_end ;;
  d <- lift (usub t e s) ;;
  if d <? offset then fail EVarint
  else s' <- lift (uadd t s offset) ;; set_start s'.

(** reader.rs:533-564 [read_unknown] *)
Definition read_unknown (tag_value : Z) : rd unit :=
  let w := Z.land tag_value 0x7 in
  if w =? 0 then _ <- read_varint64 ;; ret tt
  else if w =? 1 then skip 8
  else if w =? 5 then skip 4
  else if w =? 2 then
    v <- read_varint64 ;;
    (* usize::try_from(u64) *)
    if v <? usize_mod t then skip v else fail EVarint
  else if (w =? 3) || (w =? 4) then fail EDeprecated
  else fail (EUnknownWireType w).

(** reader.rs:698-701 [deserialize_from_slice] *)
Definition deserialize_from_slice {M} (from_reader : rd M) (bs : bytes) : outcome M :=
  fst (read_message from_reader bs (from_bytes bs)).

(** reader.rs:638-641 [Reader] (the io constructors 646-662 are in FileIo.v:
    they fill the buffer and call [from_bytes]) *)
Record Reader := mkReader { rdr_buffer : bytes; rdr_inner : reader }.
(** reader.rs:665-674 [Reader::from_bytes] *)
Definition Reader_from_bytes (bs : bytes) : Reader := mkReader bs (mkR 0 (zlen bs)).
(** reader.rs:678-683 [Reader::read] *)
Definition Reader_read {M} (R : Reader) (read : rd M) : outcome M * Reader :=
  let (o, r) := read (rdr_buffer R) (rdr_inner R) in
  (o, mkReader (rdr_buffer R) r).

End WithTarget.
