(** File access: [MessageWrite::write_file] (quick-protobuf/src/message.rs:30-34)
    on top of a model of std's BufWriter, and [Reader::from_file] /
    [Reader::from_reader] (quick-protobuf/src/reader.rs:643-664).

    A file is a [sink] (Writer.v): the bytes it holds and, for each future
    [write_all], whether the operating system fails it and after how many
    bytes. *)
From Verif Require Import Base Reader PackedFixed Writer.

(** one [write_all] of [d] on the file *)
Definition file_write (d : bytes) (f : sink) : outcome unit * sink := sink_step (OpAll d) f.

(** std::io::BufWriter (not part of /repo): pending bytes and the file *)
Record buf_writer := mkBufW { bfw_pending : bytes; bfw_file : sink }.
(** std: DEFAULT_BUF_SIZE *)
Definition buf_capacity : Z := 8192.

(** std BufWriter::flush_buf.  Simplification: the loop over [write] is one
    [write_all]; on failure the bytes that got through are dropped from the
    pending ones. *)
Definition bfw_flush (s : buf_writer) : outcome unit * buf_writer :=
  match bfw_pending s with
  | [] => (Ok tt, s)
  | _ =>
    match file_write (bfw_pending s) (bfw_file s) with
    | (Ok _, f') => (Ok tt, mkBufW [] f')
    | (_, f') =>
      let done := Z.to_nat (zlen (sk_data f') - zlen (sk_data (bfw_file s))) in
      (Err EIo, mkBufW (skipn done (bfw_pending s)) f')
    end
  end.

(** std BufWriter::write_all: small data goes to the pending bytes; if there is
    no room the pending bytes are flushed first; data as large as the capacity
    goes straight to the file. *)
Definition bfw_write_all (d : bytes) (s : buf_writer) : outcome unit * buf_writer :=
  if zlen d <? buf_capacity - zlen (bfw_pending s)
  then (Ok tt, mkBufW (bfw_pending s ++ d) (bfw_file s))
  else
    match (if buf_capacity - zlen (bfw_pending s) <? zlen d then bfw_flush s else (Ok tt, s)) with
    | (Ok _, s1) =>
      if buf_capacity <=? zlen d then
        match file_write d (bfw_file s1) with
        | (Ok _, f') => (Ok tt, mkBufW (bfw_pending s1) f')
        | (_, f') => (Err EIo, mkBufW (bfw_pending s1) f')
        end
      else (Ok tt, mkBufW (bfw_pending s1 ++ d) (bfw_file s1))
    | r => r
    end.

(** writer.rs:482-522 [impl<W: io::Write> WriterBackend for W] on a BufWriter *)
Definition bfw_step (o : wop) (s : buf_writer) : outcome unit * buf_writer :=
  bfw_write_all (op_bytes o) s.

(** std [Drop for BufWriter]: flush, ignoring the result; skipped when
    panicking inside the inner writer (not modelled). *)
Definition bfw_drop (s : buf_writer) : sink := bfw_file (snd (bfw_flush s)).

(** message.rs:30-34 [write_file]: [created] is the result of File::create
    (the file is then empty, with the given plan of failures); the BufWriter is
    dropped when the function returns.  Result and final file. *)
Definition write_file (created : option (list (option nat))) (write : wprog)
  : outcome unit * option sink :=
  match created with
  | None => (Err EIo, None)
  | Some plan =>
    let (o, s) := run bfw_step write (mkBufW [] (mkSink [] plan)) in
    (o, Some (bfw_drop s))
  end.

(** reader.rs:646-654 [Reader::from_reader]: [content] is what the io::Read
    delivers before end of file (None: it fails).  The uninitialised buffer is
    only observable if read_exact fails, and then it is dropped. *)
Definition Reader_from_reader (content : option bytes) (capacity : Z) : outcome Reader :=
  match content with
  | None => Err EIo
  | Some c => if zlen c <? capacity then Err EIo
              else Ok (Reader_from_bytes (firstn (Z.to_nat capacity) c))
  end.

(** reader.rs:658-662 [Reader::from_file]: the file system as seen by the two
    calls: [meta] is the length from metadata() (None: error, e.g. the file does
    not exist), [opened] the content if File::open succeeds. *)
Definition Reader_from_file (meta : option Z) (opened : option bytes) : outcome Reader :=
  match meta with
  | None => Panic (* .unwrap() *)
  | Some len => match opened with
                | None => Err EIo
                | Some c => Reader_from_reader (Some c) len
                end
  end.
