(** The errors of the runtime library: their texts, and the conversions from and
    to [std::io::Error] (quick-protobuf/src/errors.rs).

    [Base.error] has what the code can see of an error; here the payloads are
    kept.  [std::io::Error] and [core::str::Utf8Error] are modelled as far as
    they are used: their text, and for an io error its kind. *)
From Coq Require Import String Ascii ZArith DecimalString.
From Verif Require Import Base Schema.
Import Schema StringSyntax.
Local Open Scope string_scope.
Local Open Scope list_scope.

(** std::io::ErrorKind: those that are named in errors.rs, and others by a
    number *)
Inductive io_kind := KInvalidData | KOther | KKind (n : nat).

(** errors.rs:3-29 [Error], with its payloads; std::io::Error is an error of the
    system (its kind and its text), or made by [std::io::Error::new] from a kind
    and another error *)
Inductive io_error :=
| IoSystem (k : io_kind) (text_ : text)
| IoUtf8 (k : io_kind) (e : text)
| IoLibrary (k : io_kind) (e : lib_error)
with lib_error :=
| LIo (e : io_error)
| LUtf8 (e : text)                    (* Utf8Error: its text *)
| LDeprecated (feature : text)
| LUnknownWireType (w : Z)            (* u8 *)
| LVarint
| LMessage (msg : text)
| LMap (tag : Z)                      (* u8 *)
| LUnexpectedEndOfBuffer
| LOutputBufferTooSmall.

(** [std::io::Error::kind] *)
Definition io_kind_of (e : io_error) : io_kind :=
  match e with IoSystem k _ | IoUtf8 k _ | IoLibrary k _ => k end.

(** errors.rs:35-43 [From<Error> for std::io::Error] *)
Definition into_io (e : lib_error) : io_error :=
  match e with
  | LIo x => x
  | LUtf8 x => IoUtf8 KInvalidData x
  | x => IoLibrary KOther x
  end.
(** errors.rs:45-50 [From<std::io::Error> for Error] *)
Definition from_io (e : io_error) : lib_error := LIo e.
(** errors.rs:52-56 [From<Utf8Error> for Error] *)
Definition from_utf8_error (e : text) : lib_error := LUtf8 e.

(** the text of a number, as [write!] prints it with two braces *)
Definition show_number (z : Z) : text := NilZero.string_of_int (Z.to_int z).

(** errors.rs:69-90 [Display for Error].  The text of an io error that was made
    from another error is that of the other error (std::io::Error). *)
Fixpoint display (e : lib_error) : text :=
  match e with
  | LIo e => display_io e
  | LUtf8 e => e
  | LDeprecated feature => "Feature '" ++ feature ++ "' has been deprecated"
  | LUnknownWireType w => "Unknown wire type '" ++ show_number w ++ "', must be less than 6"
  | LVarint => "Cannot decode varint"
  | LMessage msg => "Error while parsing message: " ++ msg
  | LMap tag => "Unexpected map tag: '" ++ show_number tag ++ "', expecting 1 or 2"
  | LUnexpectedEndOfBuffer => "Unexpected end of buffer"
  | LOutputBufferTooSmall => "Output buffer too small"
  end%string
with display_io (e : io_error) : text :=
  match e with
  | IoSystem _ s => s
  | IoUtf8 _ s => s
  | IoLibrary _ e => display e
  end.

(** errors.rs:58-67 [Error::source]: an io error or a Utf8Error inside *)
Definition source (e : lib_error) : option (io_error + text) :=
  match e with
  | LIo e => Some (inl e)
  | LUtf8 e => Some (inr e)
  | _ => None
  end.

(** What the code can see of an error; reader.rs:548 is the only place that
    makes [Deprecated]. *)
Definition seen (e : lib_error) : error :=
  match e with
  | LIo _ => EIo
  | LUtf8 _ => EUtf8
  | LDeprecated _ => EDeprecated
  | LUnknownWireType w => EUnknownWireType w
  | LVarint => EVarint
  | LMessage _ => EMessage
  | LMap tag => EMap tag
  | LUnexpectedEndOfBuffer => EUnexpectedEndOfBuffer
  | LOutputBufferTooSmall => EOutputBufferTooSmall
  end.
