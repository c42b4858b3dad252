(** The expressions that the generator writes into the bodies of the generated
    functions, with every [&], [*], [ref] and conversion
    (pb-rs/src/types.rs).  Gen.v has the same functions without them.

    Where the original formats a name or an expression into a text, the model
    builds the expression; the text of a [default] option is taken to be an
    expression of the form that [sanitize_default] aims at.  Generation that
    fails ([unreachable!], Error::ReadFnMap) is an expression without a type. *)
From Coq Require Import String Ascii Arith.
From Verif Require Import Base Schema Passes Gen RustTypes.
Import StringSyntax.
Local Open Scope string_scope.
Local Open Scope list_scope.

(** no expression is written *)
Definition EBad : expr := EVar "".

(** types.rs:380-413 [rust_type]; a oneof cannot be written as a field type *)
Fixpoint rust_type_of (t : field_type) : rtype :=
  match t with
  | TInt32 | TSint32 | TSfixed32 => YI32
  | TInt64 | TSint64 | TSfixed64 => YI64
  | TUint32 | TFixed32 => YU32
  | TUint64 | TFixed64 => YU64
  | TDouble => YF64
  | TFloat => YF32
  | TStringCow => YCow YStr
  | TBytesCow => YCow (YSlice YU8)
  | TString => YString
  | TBytes => YVec YU8
  | TBool => YBool
  | TEnum q => YEnum q
  | TMessage i => YMsg i
  | TMap k v => YMap (rust_type_of k) (rust_type_of v)
  | TMessageOrEnum _ => YUnit       (* unreachable! *)
  end.

(** types.rs:812-837 [Field::get_type] *)
Definition field_rtype (c : config) (f : field) : rtype :=
  let t := rust_type_of (f_typ f) in
  if f_boxed f then YOption (YBox t) else
  match generated_type_of (f_freq f) with
  | SingularType => if freq_is_optional (f_freq f) then YOption t else t
  | ArrayLikeType => if f_is_packed f && is_fixed_size (f_typ f) && negb (c_dont_use_cow c)
                     then YPacked t else YVec t
  | MapType => t
  end.

(** types.rs:199-217 [need_to_dereference] *)
Definition need_to_dereference (t : field_type) : bool :=
  match t with
  | TEnum _ | TInt32 | TSint32 | TInt64 | TSint64 | TUint32 | TUint64 | TBool
  | TFixed64 | TSfixed64 | TDouble | TFixed32 | TSfixed32 | TFloat => true
  | _ => false
  end.

(** types.rs:285-309 [proto_type] *)
Definition proto_type (t : field_type) : text :=
  match t with
  | TInt32 => "int32" | TSint32 => "sint32" | TInt64 => "int64" | TSint64 => "sint64"
  | TUint32 => "uint32" | TUint64 => "uint64" | TBool => "bool" | TEnum _ => "enum"
  | TFixed32 => "fixed32" | TSfixed32 => "sfixed32" | TFloat => "float"
  | TFixed64 => "fixed64" | TSfixed64 => "sfixed64" | TDouble => "double"
  | TString | TStringCow => "string" | TBytes | TBytesCow => "bytes"
  | TMessage _ => "message" | TMap _ _ => "map"
  | TMessageOrEnum _ => ""          (* unreachable! *)
  end.

(** ** Reading *)

(** types.rs:416-449 [read_fn]: the plain and the converted expression *)
Definition read_exprs (t : field_type) : read_expr * read_expr :=
  match t with
  | TMessage i => (RdMessage i, RdMessage i)
  | TMap _ _ => (RdNone, RdNone)                       (* Err(Error::ReadFnMap) *)
  | TStringCow | TBytesCow => (RdRaw (proto_type t), RdCow (proto_type t))
  | TString | TBytes => (RdRaw (proto_type t), RdOwned (proto_type t))
  | TMessageOrEnum _ => (RdNone, RdNone)               (* unreachable! *)
  | TEnum _ => (RdEnum, RdEnum)
  | _ => (RdNum (proto_type t), RdNum (proto_type t))
  end.

(** types.rs:857-935 [Field::write_match_tag] *)
Definition field_read (f : field) : read_stmt :=
  let (val, val_cow) := if freq_is_map (f_freq f) then (RdNone, RdNone) else read_exprs (f_typ f) in
  let name := f_name f in
  if f_boxed f then RsSomeBox name val else
  match generated_type_of (f_freq f) with
  | SingularType =>
    match f_freq f with
    | P2Optional | P3Optional => RsSome name val_cow
    | P2Required | P3Default => RsSet name val_cow
    | _ => RsBad
    end
  | ArrayLikeType =>
    if f_is_packed f
    then if is_fixed_size (f_typ f) then RsPackedFixed name else RsPacked name val_cow
    else RsPush name val_cow
  | MapType =>
    match f_typ f with
    | TMap k v => RsInsert name (snd (read_exprs k)) (snd (read_exprs v))
    | _ => RsBad
    end
  end.

(** types.rs:2399-2436 [OneOf::write_match_tag] *)
Definition variant_read (o : oneof) (f : field) : read_stmt :=
  let (val, val_cow) := read_exprs (f_typ f) in
  RsVariant (o_name o) (o_name o) (f_name f) (f_boxed f) (if f_boxed f then val else val_cow).

(** ** Sizes *)

(** types.rs:451-476 [get_size]; [s] is the expression for the value *)
Fixpoint size_expr (t : field_type) (s : expr) : expr :=
  match t with
  | TInt32 | TInt64 | TUint32 | TUint64 | TBool | TEnum _ => ECall "sizeof_varint" (ECast (EDeref (ERef s)) YU64)
  | TSint32 => ECall "sizeof_sint32" (EDeref (ERef s))
  | TSint64 => ECall "sizeof_sint64" (EDeref (ERef s))
  | TFixed64 | TSfixed64 | TDouble | TFixed32 | TSfixed32 | TFloat => ELit YUsize
  | TStringCow | TBytesCow => ECall "sizeof_len" (ELen (ERef s))
  | TString | TBytes => ECall "sizeof_len" (ELen s)
  | TMessage _ => ECall "sizeof_len" (EGetSize s)
  | TMap k v => EAdd (EAdd (ELit YUsize) (size_expr k (EVar "k"))) (size_expr v (EVar "v"))
  | TMessageOrEnum _ => EBad        (* unreachable! *)
  end.

(** types.rs:961-971 [get_size_addition] *)
Definition size_addition (f : field) (s : expr) : expr :=
  EAdd (ELit YUsize) (size_expr (f_typ f) (if is_fixed_size (f_typ f) then EBad else s)).

(** types.rs:977-981, 1175-1179: the parameter of the closure for an optional
    field *)
Definition option_pattern (f : field) : pattern :=
  if f_boxed f || negb (is_primitive (f_typ f)) then PVar "m" else PRef "m".
(** types.rs:1022, 1039-1040, 1210, 1233-1234: a parameter of a closure over
    the elements *)
Definition element_pattern (t : field_type) (x : text) : pattern :=
  if need_to_dereference t then PRef x else PVar x.

(** ** Defaults *)

(** the right-hand side of a field of the struct in [default()] *)
Inductive init_expr :=
| XNone                (* None *)
| XVec                 (* Vec::new() *)
| XPacked              (* PackedFixed::from(Vec::new()) *)
| XHashMap             (* HashMap::new() *)
| XExpr (e : expr).

(** types.rs:315-344 [singular_field_defaults] *)
Definition zero_expr (t : field_type) : expr :=
  match t with
  | TInt32 | TSint32 | TSfixed32 => ELit YI32
  | TInt64 | TSint64 | TSfixed64 => ELit YI64
  | TUint32 | TFixed32 => ELit YU32
  | TUint64 | TFixed64 => ELit YU64
  | TBool => ELit YBool
  | TFloat => ELit YF32
  | TDouble => ELit YF64
  | TStringCow => ECowBorrowed EStr
  | TString => EToString EStr
  | TBytesCow => ECowBorrowed EBytes
  | TBytes => EVecU8
  | TEnum q => EPath (YEnum q)
  | TMessage i => EDefaultOf i
  | TMap _ _ | TMessageOrEnum _ => EBad   (* unreachable! *)
  end.
(** types.rs:777-806 [sanitize_default]: the form of the literal *)
Definition custom_expr (t : field_type) : expr :=
  match t with
  | TInt32 | TSint32 | TSfixed32 => ELit YI32
  | TInt64 | TSint64 | TSfixed64 => ELit YI64
  | TUint32 | TFixed32 => ELit YU32
  | TUint64 | TFixed64 => ELit YU64
  | TBool => ELit YBool
  | TFloat => ELit YF32
  | TDouble => ELit YF64
  | TStringCow => ECowBorrowed EStr
  | TString => EStr
  | TBytesCow => ECowBorrowed EBytes
  | TBytes => EBytes
  | TEnum q => EPath (YEnum q)
  | TMessage _ | TMap _ _ | TMessageOrEnum _ => EBad  (* the type, "::" and the text *)
  end.
(** types.rs:744-755: with a conversion where constants have another type *)
Definition owned_custom_expr (t : field_type) : expr :=
  match t with
  | TString => EToString (custom_expr TString)
  | TBytes => EToVec (custom_expr TBytes)
  | _ => custom_expr t
  end.
(** types.rs:718-771 [get_field_default] *)
Definition field_default (c : config) (f : field) : init_expr :=
  match generated_type_of (f_freq f) with
  | SingularType =>
    if f_boxed f then XNone
    else if freq_is_optional (f_freq f) then XNone
    else XExpr match f_default f with
               | Some _ => owned_custom_expr (f_typ f)
               | None => zero_expr (f_typ f)
               end
  | ArrayLikeType =>
    if f_is_packed f && is_fixed_size (f_typ f) && negb (c_dont_use_cow c) then XPacked else XVec
  | MapType => XHashMap
  end.
(** the same as an operand of [==] *)
Definition default_operand (c : config) (f : field) : expr :=
  match field_default c f with XExpr e => e | _ => EBad end.

(** types.rs:937-1049 [Field::write_get_size].  The text of the case without
    presence of an optional field lacks a parenthesis. *)
Definition field_size_expr (c : config) (f : field) : expr :=
  let self := ESelf (f_name f) in
  match generated_type_of (f_freq f) with
  | SingularType =>
    match negb (has_presence f), freq_is_optional (f_freq f) with
    | true, true => EBad
    | true, false => EIf (ECmp self (default_operand c f)) (ELit YUsize) (size_addition f self)
    | false, true => EMapOr (EAsRef self) (ELit YUsize) (option_pattern f) (size_addition f (EVar "m"))
    | false, false => size_addition f self
    end
  | ArrayLikeType =>
    if f_is_packed f then
      EIf (EIsEmpty self) (ELit YUsize)
        (EAdd (ELit YUsize)
           match wire_type_num_non_packed (f_typ f) with
           | 1%Z | 5%Z => ECall "sizeof_len" (EMul (ELen self) (ELit YUsize))
           | _ => ECall "sizeof_len" (ESumMap self (PRef "s") (size_expr (f_typ f) (EVar "s")))
           end)
    else
      match wire_type_num_non_packed (f_typ f) with
      | 1%Z | 5%Z => EMul (EAdd (ELit YUsize) (ELit YUsize)) (ELen self)
      | _ => ESumMap self (element_pattern (f_typ f) "s") (EAdd (ELit YUsize) (size_expr (f_typ f) (EVar "s")))
      end
  | MapType =>
    match f_typ f with
    | TMap k v => ESumMap self (PPair (element_pattern k "k") (element_pattern v "v"))
                    (EAdd (ELit YUsize) (ECall "sizeof_len" (size_expr (f_typ f) EBad)))
    | _ => EBad
    end
  end.

(** types.rs:2438-2491 [OneOf::write_get_size]: the arm for a variant.  The
    scrutinee is a reference, so [m] and [ref m] are references. *)
Definition variant_size_expr (f : field) : expr :=
  EAdd (ELit YUsize)
    (size_expr (f_typ f)
       (if is_fixed_size (f_typ f) then EBad
        else if need_to_dereference (f_typ f) then EDeref (EVar "m") else EVar "m")).

(** ** Writing *)

(** types.rs:478-515 [get_write] *)
Fixpoint write_expr (t : field_type) (s : expr) (boxed : bool) : expr :=
  match t with
  | TEnum _ => EWrite "enum" (ECast (EDeref (ERef s)) YI32)
  | TInt32 | TSint32 | TInt64 | TSint64 | TUint32 | TUint64 | TBool
  | TFixed64 | TSfixed64 | TDouble | TFixed32 | TSfixed32 | TFloat => EWrite (proto_type t) (EDeref (ERef s))
  | TStringCow | TString => EWrite "string" s
  | TBytesCow | TBytes => EWrite "bytes" s
  | TMessage _ => if boxed then EWriteMessage (ERef (EDeref s)) else EWriteMessage s
  | TMap k v => EWriteMap (EAdd (EAdd (ELit YUsize) (size_expr k (EVar "k"))) (size_expr v (EVar "v")))
                  (write_expr k (EVar "k") false) (write_expr v (EVar "v") false)
  | TMessageOrEnum _ => EBad        (* unreachable! *)
  end.

(** types.rs:1116-1156 [apply_unwrapping_code] *)
Definition unwrapping (f : field) (equating_cows : bool) (s : expr) : expr :=
  let core := if f_boxed f then EDeref s else s in
  let core := if negb (need_to_dereference (f_typ f)) && negb (is_cow (f_typ f))
                 && negb (freq_is_optional (f_freq f)) && negb (is_non_cow_string_or_byte (f_typ f))
              then ERef core else core in
  if negb equating_cows && (is_cow (f_typ f) || is_non_cow_string_or_byte (f_typ f)) then ERef core else core.

(** types.rs:1158-1164 [get_write_method] *)
Definition write_method (f : field) (s : expr) : expr := EWithTag (write_expr (f_typ f) s (f_boxed f)).

(** types.rs:1080-1241 [Field::write_write]: the statement as an expression *)
Definition field_write_expr (c : config) (f : field) : expr :=
  let self := ESelf (f_name f) in
  match generated_type_of (f_freq f) with
  | SingularType =>
    let m_write := write_method f (unwrapping f false (EVar "m")) in
    let self_write := write_method f (unwrapping f false self) in
    match negb (has_presence f), freq_is_optional (f_freq f) with
    | true, true =>
      ETry (EMapOr (EAsRef self) (EOk EUnit) (option_pattern f)
              (EIf (ECmp (unwrapping f false (EVar "m")) (default_operand c f)) m_write (EOk EUnit)))
    | true, false => EIf (ECmp (unwrapping f true self) (default_operand c f)) (ETry self_write) EUnit
    | false, true => ETry (EMapOr (EAsRef self) (EOk EUnit) (option_pattern f) m_write)
    | false, false => ETry self_write
    end
  | ArrayLikeType =>
    if f_is_packed f then
      if is_fixed_size (f_typ f) then ETry (EWritePackedFixed (ERef self))
      else ETry (EWritePacked (ERef self) (PRef "m") (write_expr (f_typ f) (EVar "m") (f_boxed f))
                   (PRef "m") (size_expr (f_typ f) (EVar "m")))
    else EFor (PVar "s") (ERef self)
           (ETry (EWithTag (write_expr (f_typ f) (if need_to_dereference (f_typ f) then EDeref (EVar "s") else EVar "s")
                              (f_boxed f))))
  | MapType =>
    match f_typ f with
    | TMap k v => EFor (PPair (element_pattern k "k") (element_pattern v "v")) (EIter self)
                    (ETry (EWithTag (write_expr (f_typ f) EBad false)))
    | _ => EBad
    end
  end.

(** types.rs:2493-2535 [OneOf::write_write]: the arm for a variant *)
Definition variant_write_expr (f : field) : expr :=
  ETry (EWithTag (write_expr (f_typ f)
                    (if need_to_dereference (f_typ f) || f_boxed f then EDeref (EVar "m") else EVar "m")
                    (f_boxed f))).

(** ** Constants and getters *)

(** types.rs:633-652 [can_write_default_const] *)
Definition can_write_default_const (syn : syntax) (c : config) (f : field) : bool :=
  negb ((match syn with Proto3 => true | Proto2 => false end)
        || (negb (need_to_dereference (f_typ f)) && negb (is_cow (f_typ f)) && negb (is_non_cow_string_or_byte (f_typ f)))
        || (match f_default f with None => true | Some _ => false end)
        || (f_deprecated f && negb (c_add_deprecated_fields c))
        || negb (freq_is_optional (f_freq f))).
(** types.rs:565-576 [must_generate_custom_default_const] *)
Definition must_generate_const (syn : syntax) (c : config) (f : field) : bool :=
  has_valid_visible_custom_default syn c f && freq_is_optional (f_freq f).

(** types.rs:658-668 [rust_type_incl_non_cow] *)
Definition const_rtype (f : field) : rtype :=
  match f_typ f with
  | TString => YRef YStr
  | TBytes => YRef (YSlice YU8)
  | t => rust_type_of t
  end.

(** types.rs:594-631 [write_getter]: the type and the body of [get_f]; the
    constant is [Self::DEFAULT_f] *)
Definition getter_rtype (f : field) : rtype :=
  if is_cow (f_typ f) then YRef (const_rtype f) else const_rtype f.
Definition getter_expr (f : field) : expr :=
  let self := ESelf (f_name f) in
  match f_typ f with
  | TString => ERef (EUnwrapOr (EMap (EAsRef self) (PVar "s") (EAsStr (EVar "s"))) (EPath (const_rtype f)))
  | TBytes => ERef (EUnwrapOr (EMap (EAsRef self) (PVar "s") (EAsSlice (EVar "s"))) (EPath (const_rtype f)))
  | t => let get := EUnwrapOr (EAsRef self) (ERef (EPath (const_rtype f))) in
         if is_cow t then get else EDeref get
  end.

(** ** All the code of a message *)

(** the fields of the struct: types.rs:1621-1626 *)
Definition struct_env (c : config) (m : message) : env :=
  map (fun f => (f_name f, field_rtype c f)) (visible_fields c m)
  ++ map (fun o => (o_name o, YOneof (o_name o))) (m_oneofs m).

(** types.rs:2299-2314: the payload of a variant *)
Definition variant_rtype (f : field) : rtype :=
  if f_boxed f then YBox (rust_type_of (f_typ f)) else rust_type_of (f_typ f).
Definition oneof_env (c : config) (o : oneof) : env :=
  map (fun f => (f_name f, variant_rtype f)) (oneof_variants c o).
(** the variants of the oneof of that name *)
Fixpoint variants_in (c : config) (os : list oneof) (o v : text) : option rtype :=
  match os with
  | [] => None
  | x :: os' => if String.eqb o (o_name x) then find_var (oneof_env c x) v else variants_in c os' o v
  end.

(** the arms of [from_reader]: types.rs:1727-1732 *)
Definition read_code (c : config) (m : message) : list read_stmt :=
  map field_read (visible_fields c m)
  ++ flat_map (fun o => map (variant_read o) (oneof_variants c o)) (m_oneofs m).

(** an expression, the variables it may use and the type it must have *)
Definition obligation := (env * expr * rtype)%type.

(** types.rs:1901-1917 [Message::write_get_size] *)
Definition size_code (c : config) (m : message) : list obligation :=
  map (fun f => ([], field_size_expr c f, YUsize)) (visible_fields c m)
  ++ flat_map (fun o => map (fun f => ([("m", YRef (variant_rtype f))], variant_size_expr f, YUsize)) (oneof_variants c o))
       (m_oneofs m).
(** types.rs:1937-1956 [Message::write_write_message] *)
Definition write_code (c : config) (m : message) : list obligation :=
  map (fun f => ([], field_write_expr c f, YUnit)) (visible_fields c m)
  ++ flat_map (fun o => map (fun f => ([("m", YRef (variant_rtype f))], variant_write_expr f, YUnit)) (oneof_variants c o))
       (m_oneofs m).
(** types.rs:1284-1329 [write_default_consts], 670-693 [write_custom_default] *)
Definition const_code (syn : syntax) (c : config) (m : message) : list obligation :=
  map (fun f => ([], custom_expr (f_typ f), const_rtype f)) (filter (can_write_default_const syn c) (m_fields m)).
(** types.rs:1460-1480 [write_getters], for --generate-getters *)
Definition getter_code (syn : syntax) (c : config) (m : message) : list obligation :=
  map (fun f => ([], getter_expr f, getter_rtype f)) (filter (must_generate_const syn c) (m_fields m)).
(** types.rs:1631-1667 [write_impl_default]; the oneofs are set to their [None] *)
Definition init_code (c : config) (m : message) : list (init_expr * rtype) :=
  map (fun f => (field_default c f, field_rtype c f)) (visible_fields c m).
