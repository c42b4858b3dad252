(** What the Rust of RustAst.v does when it runs.

    This file is a specification: it gives a meaning to the trees of RustAst.v
    and does not mention the generator.  The functions of the runtime library
    are those of Reader.v, Writer.v, Sizeofs.v and PackedFixed.v.

    - Values are taken without references: [&], [*], [ref], [Box], [Cow] and
      the conversions between owned and borrowed strings do not change them.
      That the references are where the compiler wants them is C67.
    - Integers are not bounded in [+] and [*] ([usize]: sizes of data in
      memory); [as] wraps.
    - A call that writes yields a [Result] that stands for what has been sent to
      the backend.  It must be used by [?], by a method of the writer, or be the
      result of the function; other code has no meaning here.
    - Some methods of the reader return what the context asks for (the type of
      an enum, of the elements of a vector).  The expected type is an argument
      of [eval]: it is known where a field is assigned.
    - Programs without meaning (the compiler rejects them, or they are outside
      of this fragment) are [Halt UB]. *)
From Coq Require Import String Ascii Arith ZArith.
From Verif Require Import Base Reader PackedFixed Writer Sizeofs Utf8 Spec Schema RustTypes Literals Floats RustLex RustAst.
From Verif Require Import GenSem.
Import Schema StringSyntax.
Local Open Scope string_scope.
Local Open Scope list_scope.
Local Open Scope Z_scope.

(** ** Values *)
Inductive rv :=
| XInt (z : Z)
| XBool (b : bool)
| XFloat (double : bool) (bits : Z)
| XBytes (b : bytes)                         (* str, String, [u8], Vec<u8> and their Cows *)
| XUnit
| XTuple (l : list rv)
| XOpt (o : option rv)
| XList (l : list rv)                        (* Vec, and what an iterator yields *)
| XPacked (k : fixed_kind) (p : packed_fixed)
| XMap (l : list (rv * rv))
| XEnum (q : eidx) (z : Z)                   (* by its number *)
| XStruct (i : midx) (fs : list (text * rv))
| XVariant (name : text) (x : option rv)     (* of the enum of a oneof *)
| XOk (x : rv) | XErr (e : error) | XError (e : error)
| XWrite (p : wprog)                         (* the Result of having written [p] *)
| XWriter | XReader | XSource.               (* w, r, bytes *)

(** ** States and results *)
Record st := mkSt { s_env : list (text * rv); s_out : wprog; s_src : bytes; s_in : reader }.
Inductive res (A : Type) :=
| Go (a : A) (s : st)
| Leave (v : rv) (s : st)                     (* [return], [?] *)
| Halt (o : outcome unit) (s : st).          (* a panic; or no meaning *)
Arguments Go {A}. Arguments Leave {A}. Arguments Halt {A}.

Definition go {A} (a : A) (s : st) : res A := Go a s.
Definition stuck {A} (s : st) : res A := Halt UB s.
Definition seq {A B} (m : st -> res A) (k : A -> st -> res B) (s : st) : res B :=
  match m s with
  | Go a s' => k a s'
  | Leave v s' => Leave v s'
  | Halt o s' => Halt o s'
  end.
Notation "'do' x <- m ; k" := (seq m (fun x => k)) (at level 200, x name, m at level 100, k at level 200, right associativity).
Definition of_option {A} (o : option A) : st -> res A := match o with Some a => go a | None => stuck end.

Fixpoint assoc {A} (x : text) (l : list (text * A)) : option A :=
  match l with [] => None | (y, a) :: l' => if String.eqb x y then Some a else assoc x l' end.
Fixpoint update {A} (x : text) (a : A) (l : list (text * A)) : list (text * A) :=
  match l with [] => [] | (y, b) :: l' => if String.eqb x y then (y, a) :: l' else (y, b) :: update x a l' end.

(** variables in scope for [m] *)
Definition scoped {A} (bs : list (text * rv)) (m : st -> res A) (s : st) : res A :=
  match m (mkSt (bs ++ s_env s) (s_out s) (s_src s) (s_in s)) with
  | Go a s' => Go a (mkSt (skipn (length bs) (s_env s')) (s_out s') (s_src s') (s_in s'))
  | r => r
  end.

(** a method of the reader: its Result is a value *)
Definition reads (m : rd rv) (s : st) : res rv :=
  let (o, r) := m (s_src s) (s_in s) in
  let s' := mkSt (s_env s) (s_out s) (s_src s) r in
  match o with
  | Ok v => Go (XOk v) s'
  | Err e => Go (XErr e) s'
  | Panic => Halt Panic s'
  | NoFuel => Halt NoFuel s'
  | UB => Halt UB s'
  end.
(** what a function or closure that returns a Result does to the reader *)
Definition ending (r : res rv) : outcome rv * reader :=
  match r with
  | Go (XOk v) s | Leave (XOk v) s => (Ok v, s_in s)
  | Go (XErr e) s | Leave (XErr e) s => (Err e, s_in s)
  | Go _ s | Leave _ s => (UB, s_in s)
  | Halt Panic s => (Panic, s_in s)
  | Halt NoFuel s => (NoFuel, s_in s)
  | Halt _ s => (UB, s_in s)
  end.

(** ** Literals *)
Definition eight_bits (l : list ascii) : bytes := map byte_of_ascii l.
Definition quoted (s : text) : text := (s ++ String quotation EmptyString)%string.
Definition float_value (double : bool) (m e : Z) : option rv :=
  let '(eb, mb) := if double then (11, 52) else (8, 23) in option_map (XFloat double) (decimal_bits eb mb m e).
Definition literal (h : option rtype) (k : token) : option rv :=
  match k with
  | TNum s =>
    match rust_number s with
    | Some (NInt z suffix) => Some (XInt z)
    | Some (NFloat m e suffix) =>
      if String.eqb suffix "f32" then float_value false m e
      else if String.eqb suffix "f64" then float_value true m e
      else match h with Some YF32 => float_value false m e | Some YF64 => float_value true m e | _ => None end
    | None => None
    end
  | TStr s => match rust_chars false (quoted s) with
              | Some l => if utf8_valid (eight_bits l) then Some (XBytes (eight_bits l)) else None
              | None => None
              end
  | TBStr s => option_map (fun l => XBytes (eight_bits l)) (rust_chars true (quoted s))
  | _ => None
  end.
Definition sign_bit (double : bool) : Z := if double then 2 ^ 63 else 2 ^ 31.
Definition negate (x : rv) : option rv :=
  match x with
  | XInt z => Some (XInt (- z))
  | XFloat d b => Some (XFloat d ((b + sign_bit d) mod (2 * sign_bit d)))
  | _ => None
  end.
Definition float_constant (double : bool) (name : text) : option rv :=
  let '(eb, mb) := if double then (11, 52) else (8, 23) in
  if String.eqb name "INFINITY" then Some (XFloat double (infinity eb mb))
  else if String.eqb name "NEG_INFINITY" then Some (XFloat double (2 ^ (eb + mb) + infinity eb mb))
  else if String.eqb name "NAN" then Some (XFloat double (infinity eb mb + 2 ^ (mb - 1)))
  else None.

(** ** Operators *)

(** PartialEq of what is compared here *)
Definition equal (x y : rv) : option bool :=
  match x, y with
  | XInt a, XInt b => Some (a =? b)
  | XBool a, XBool b => Some (Bool.eqb a b)
  | XFloat false a, XFloat false b => Some (float_eq 8 23 a b)
  | XFloat true a, XFloat true b => Some (float_eq 11 52 a b)
  | XBytes a, XBytes b => Some (bytes_eqb a b)
  | XEnum p a, XEnum q b => Some (a =? b)
  | _, _ => None
  end.
(** the type of the other operand *)
Definition type_hint (x : rv) : option rtype :=
  match x with XFloat false _ => Some YF32 | XFloat true _ => Some YF64 | _ => None end.
(** [as] *)
Definition int_of (x : rv) : option Z :=
  match x with XInt z => Some z | XBool b => Some (if b then 1 else 0) | XEnum _ z => Some z | _ => None end.
Definition cast_int (t : rty_) (z : Z) : option Z :=
  match t with
  | RTPath false [PSeg n []] =>
    if String.eqb n "u64" then Some (wrapU 64 z)
    else if String.eqb n "i32" then Some (wrapS 32 z)
    else None
  | _ => None
  end.
Definition cast (t : rty_) (x : rv) : option rv :=
  match int_of x with Some z => option_map XInt (cast_int t z) | None => None end.
Definition mul (x y : rv) : option rv := match x, y with XInt a, XInt b => Some (XInt (a * b)) | _, _ => None end.
Definition add (x y : rv) : option rv := match x, y with XInt a, XInt b => Some (XInt (a + b)) | _, _ => None end.
Fixpoint ints (l : list rv) : option (list Z) :=
  match l with
  | [] => Some []
  | XInt z :: l' => option_map (cons z) (ints l')
  | _ => None
  end.
Definition elements (x : rv) : option (list rv) :=
  match x with
  | XList l => Some l
  | XMap l => Some (map (fun p => XTuple [fst p; snd p]) l)
  | _ => None
  end.

(** [m] for every element *)
Section Each.
Context {A B : Type}.
Variable m : A -> st -> res B.
Fixpoint each (l : list A) : st -> res (list B) :=
  match l with
  | [] => go []
  | x :: l' => do y <- m x; do r <- each l'; go (y :: r)
  end.
End Each.
(** [while] *)
Section While.
Variables (c : st -> res bool) (b : st -> res rv).
Fixpoint while (n : nat) (s : st) : res rv :=
  match n with
  | O => Halt NoFuel s
  | S n' => (do x <- c; if (x : bool) then (do _ <- b; while n') else go XUnit) s
  end.
End While.
Definition the_bool (x : rv) : st -> res bool := match x with XBool b => go b | _ => stuck end.

(** ** Patterns: the variables that are bound *)
Definition last_of (p : list text) : text := List.last p "".
Definition pattern_number (neg : bool) (n : text) : option Z :=
  match rust_number n with Some (NInt z _) => Some (if neg then - z else z) | _ => None end.
Section Pats.
Variable f : rpat -> rv -> option (list (text * rv)).
Fixpoint pats (l : list rpat) (xs : list rv) : option (list (text * rv)) :=
  match l, xs with
  | [], [] => Some []
  | p :: l', x :: xs' => match f p x, pats l' xs' with Some a, Some b => Some (a ++ b) | _, _ => None end
  | _, _ => None
  end.
End Pats.
Fixpoint matches (p : rpat) (x : rv) : option (list (text * rv)) :=
  match p with
  | RPWild => Some []
  | RPBind _ _ n => Some [(n, x)]
  | RPRef p => matches p x
  | RPTuple l => match x with XTuple xs => pats matches l xs | _ => None end
  | RPCon path l =>
    match x with
    | XOk y => if String.eqb (last_of path) "Ok" then pats matches l [y] else None
    | XErr e => if String.eqb (last_of path) "Err" then pats matches l [XError e] else None
    | XVariant n (Some y) => if String.eqb (last_of path) n then pats matches l [y] else None
    | _ => None
    end
  | RPPath path => match x with XVariant n None => if String.eqb (last_of path) n then Some [] else None | _ => None end
  | RPNum neg n =>
    match pattern_number neg n, x with
    | Some a, XInt z => if z =? a then Some [] else None
    | _, _ => None
    end
  | RPStr s =>
    match rust_chars false (quoted s), x with
    | Some l, XBytes b => if bytes_eqb b (eight_bits l) then Some [] else None
    | _, _ => None
    end
  end.

(** ** Types *)

(** where a path is written: in the code of a message, an enum or a oneof *)
Inductive scope := InMsg (i : midx) | InEnum (q : eidx) | InOneof (i : midx) (o : text).
Definition seg_name (s : pseg) : text := match s with PSeg n _ => n end.
Definition primitive (n : text) : option rtype :=
  assoc n [("i32", YI32); ("i64", YI64); ("u32", YU32); ("u64", YU64); ("f32", YF32); ("f64", YF64); ("bool", YBool);
           ("u8", YU8); ("usize", YUsize); ("str", YStr); ("String", YString)].
Inductive constructor := KOption | KBox | KVec | KCow | KPacked | KMap.
Definition constructor_of (n : text) : option constructor :=
  assoc n [("Option", KOption); ("Box", KBox); ("Vec", KVec); ("Cow", KCow); ("PackedFixed", KPacked); ("KVMap", KMap)].
Definition option_map2 {A B C} (f : A -> B -> C) (x : option A) (y : option B) : option C :=
  match x, y with Some a, Some b => Some (f a b) | _, _ => None end.
Section Types.
(** the message, enum or oneof that a path leads to *)
Variable names : scope -> list text -> option rtype.
Variable here : scope.
Fixpoint type_of (t : rty_) : option rtype :=
  match t with
  | RTPath false [PSeg n args] =>
    match primitive n, constructor_of n, args with
    | Some p, _, [] => Some p
    | _, Some KOption, [GType a] => option_map YOption (type_of a)
    | _, Some KBox, [GType a] => option_map YBox (type_of a)
    | _, Some KVec, [GType a] => option_map YVec (type_of a)
    | _, Some KCow, [GLife _; GType a] => option_map YCow (type_of a)
    | _, Some KPacked, [GLife _; GType a] => option_map YPacked (type_of a)
    | _, Some KMap, [GType a; GType b] => option_map2 YMap (type_of a) (type_of b)
    | None, None, _ => names here [n]
    | _, _, _ => None
    end
  | RTPath false p => names here (map seg_name p)
  | RTSlice a => option_map YSlice (type_of a)
  | RTRef _ _ a => option_map YRef (type_of a)
  | _ => None
  end.
End Types.
Definition kind_of (t : rtype) : option fixed_kind :=
  match t with
  | YU32 => Some KU32 | YI32 => Some KI32 | YF32 => Some KF32
  | YU64 => Some KU64 | YI64 => Some KI64 | YF64 => Some KF64
  | _ => None
  end.
(** the parameter of an expected type *)
Definition of_opt (h : option rtype) : option rtype := match h with Some (YOption t) => Some t | _ => None end.
Definition of_box (h : option rtype) : option rtype := match h with Some (YBox t) => Some t | _ => None end.
Definition of_vec (h : option rtype) : option rtype := match h with Some (YVec t) => Some t | _ => None end.
Definition of_result (h : option rtype) : option rtype := match h with Some (YResult t) => Some t | _ => None end.
Definition of_pair (h : option rtype) : option (rtype * rtype) := match h with Some (YPair a b) => Some (a, b) | _ => None end.

(** ** The rest of the program *)
Record world := mkWorld {
  (* Default of a type *)
  w_default : rtype -> option rv;
  (* the methods of messages *)
  w_size : midx -> rv -> option Z;
  w_write : midx -> rv -> option wprog;
  w_from : midx -> rd rv;
  (* From<i32> *)
  w_enum : eidx -> Z -> option rv;
  (* the definitions *)
  w_fields : midx -> list (text * rtype);
  w_variants : midx -> text -> list (text * option rtype);
  w_numbers : eidx -> list (text * Z);
  (* the constants of messages *)
  w_const : midx -> text -> option rv }.

(** ** The runtime library *)
Definition write_call (m : text) (x : rv) : option wprog :=
  match x with
  | XInt z =>
    option_map (fun f => f z)
      (assoc m [("write_int32", write_int32); ("write_int64", write_int64); ("write_uint32", write_uint32); ("write_uint64", write_uint64);
                ("write_sint32", write_sint32); ("write_sint64", write_sint64); ("write_fixed32", write_fixed32);
                ("write_fixed64", write_fixed64); ("write_sfixed32", write_sfixed32); ("write_sfixed64", write_sfixed64);
                ("write_enum", write_enum)])
  | XBool b => option_map (fun f => f b) (assoc m [("write_bool", write_bool)])
  | XFloat false b => option_map (fun f => f b) (assoc m [("write_float", write_float)])
  | XFloat true b => option_map (fun f => f b) (assoc m [("write_double", write_double)])
  | XBytes b => option_map (fun f => f b) (assoc m [("write_string", write_string); ("write_bytes", write_bytes)])
  | _ => None
  end.
Definition read_call (t : target) (m : text) : option (rd rv) :=
  assoc m
    [("read_int32", rmap XInt read_int32); ("read_int64", rmap XInt read_int64); ("read_uint32", rmap XInt read_uint32);
     ("read_uint64", rmap XInt read_uint64); ("read_sint32", rmap XInt read_sint32); ("read_sint64", rmap XInt read_sint64);
     ("read_bool", rmap XBool read_bool); ("read_fixed32", rmap XInt (read_fixed32 t)); ("read_fixed64", rmap XInt (read_fixed64 t));
     ("read_sfixed32", rmap XInt (read_sfixed32 t)); ("read_sfixed64", rmap XInt (read_sfixed64 t));
     ("read_float", rmap (XFloat false) (read_float t)); ("read_double", rmap (XFloat true) (read_double t));
     ("read_string", rmap XBytes (read_string t)); ("read_bytes", rmap XBytes (read_bytes t));
     ("next_tag", rmap XInt next_tag)].
(** what the conversion to an enum makes of a number *)
Definition or_ub (o : option rv) : rd rv := lift match o with Some v => Ok v | None => UB end.
Definition sizeof_call (f : text) (x : rv) : option rv :=
  match x with
  | XInt z => option_map (fun f => XInt (f z))
      (assoc f [("sizeof_varint", sizeof_varint); ("sizeof_len", sizeof_len); ("sizeof_sint32", sizeof_sint32); ("sizeof_sint64", sizeof_sint64)])
  | _ => None
  end.
(** [HashMap::insert] *)
Fixpoint insert_in (k v : rv) (l : list (rv * rv)) : option (list (rv * rv)) :=
  match l with
  | [] => Some [(k, v)]
  | (k', v') :: l' => match equal k k' with
                      | Some true => Some ((k', v) :: l')
                      | Some false => option_map (cons (k', v')) (insert_in k v l')
                      | None => None
                      end
  end.
(** methods without arguments that do not change the state *)
Definition plain_method (w : world) (m : text) (x : rv) : option rv :=
  if String.eqb m "len" then
    match x with
    | XBytes b => Some (XInt (zlen b))
    | XList l => Some (XInt (zlen l))
    | XMap l => Some (XInt (zlen l))
    | XPacked k p => Some (XInt (pf_len k p))
    | _ => None
    end
  else if String.eqb m "is_empty" then
    match x with
    | XList l => Some (XBool match l with [] => true | _ => false end)
    | XPacked k p => Some (XBool (pf_is_empty p))
    | _ => None
    end
  else if String.eqb m "iter" then option_map XList (elements x)
  else if String.eqb m "as_ref" then match x with XOpt _ => Some x | _ => None end
  else if String.eqb m "sum" then match x with XList l => option_map (fun s => XInt (fold_right Z.add 0 s)) (ints l) | _ => None end
  else if existsb (String.eqb m) ["to_owned"; "to_string"; "to_vec"; "as_str"; "as_slice"] then match x with XBytes _ => Some x | _ => None end
  else if String.eqb m "get_size" then match x with XStruct i _ => option_map XInt (w_size w i x) | _ => None end
  else None.

(** ** Places: a variable, or a field of a variable *)
Definition place : Type := option (text * option text).
Definition place_of (e : rexp) : place := match e with REPath false [PSeg x []] => Some (x, None) | _ => None end.
Definition in_field (p : place) (f : text) : place := match p with Some (x, None) => Some (x, Some f) | _ => None end.
(** the type of a field of the struct in [x] *)
Definition place_type (w : world) (p : place) (s : st) : option rtype :=
  match p with
  | Some (x, Some f) => match assoc x (s_env s) with Some (XStruct i _) => assoc f (w_fields w i) | _ => None end
  | _ => None
  end.
Definition assign (p : place) (v : rv) (s : st) : res rv :=
  match p with
  | Some (x, Some f) =>
    match assoc x (s_env s) with
    | Some (XStruct i fs) =>
      match assoc f fs with
      | Some _ => Go XUnit (mkSt (update x (XStruct i (update f v fs)) (s_env s)) (s_out s) (s_src s) (s_in s))
      | None => stuck s
      end
    | _ => stuck s
    end
  | _ => stuck s
  end.

(** ** The kinds of functions and methods *)
Inductive fkind := FSome | FOk | FErr | FBox | FCow | FVec | FPacked | FMap | FSize | FSelfDefault | FOther.
Fixpoint path_eqb (p q : list text) : bool :=
  match p, q with [], [] => true | a :: p', b :: q' => String.eqb a b && path_eqb p' q' | _, _ => false end.
Definition fkind_of (p : list text) : fkind :=
  if path_eqb p ["Some"] then FSome
  else if path_eqb p ["Ok"] then FOk
  else if path_eqb p ["Err"] then FErr
  else if path_eqb p ["Box"; "new"] then FBox
  else if path_eqb p ["Cow"; "Borrowed"] then FCow
  else if path_eqb p ["Vec"; "new"] then FVec
  else if path_eqb p ["PackedFixed"; "from"] then FPacked
  else if path_eqb p ["HashMap"; "new"] then FMap
  else if path_eqb p ["Self"; "default"] then FSelfDefault
  else match p with
       | [_] => FSize
       | _ => FOther
       end.
Inductive mkind :=
| MMapOr | MMap | MUnwrapOr | MPush | MInsert
| MWithTag | MWriteMap | MWritePacked | MWritePackedFixed | MWriteMessage
| MReadEnum | MReadMessage | MReadPacked | MReadPackedFixed | MReadMap | MReadUnknown | MIsEof | MReadToEnd
| MOther.
Definition mkind_of (m : text) : mkind :=
  match assoc m
    [("map_or", MMapOr); ("map", MMap); ("unwrap_or", MUnwrapOr); ("push", MPush); ("insert", MInsert); ("write_with_tag", MWithTag); ("write_map", MWriteMap);
     ("write_packed_with_tag", MWritePacked); ("write_packed_fixed_with_tag", MWritePackedFixed); ("write_message", MWriteMessage);
     ("read_enum", MReadEnum); ("read_message", MReadMessage); ("read_packed", MReadPacked); ("read_packed_fixed", MReadPackedFixed);
     ("read_map", MReadMap); ("read_unknown", MReadUnknown); ("is_eof", MIsEof); ("read_to_end", MReadToEnd)] with
  | Some k => k
  | None => MOther
  end.

(** a Result must not be dropped *)
Definition may_drop (x : rv) : bool := match x with XWrite _ | XOk _ | XErr _ => false | _ => true end.
Definition try (x : rv) (s : st) : res rv :=
  match x with
  | XOk v => Go v s
  | XErr e => Leave (XErr e) s
  | XWrite p => Go XUnit (mkSt (s_env s) (s_out s ++ p) (s_src s) (s_in s))
  | _ => stuck s
  end.
(** what a closure given to the writer has written; it writes nothing itself,
    but returns the Result of writing *)
Definition written (x : rv) : st -> res wprog := match x with XWrite p => go p | _ => stuck end.
Definition the_int (x : rv) : st -> res Z := match x with XInt z => go z | _ => stuck end.
Definition is_source (x : rv) : bool := match x with XSource => true | _ => false end.
(** the parameters of a closure *)
Definition with_args {A} (ps : list rpat) (xs : list rv) (m : st -> res A) : st -> res A :=
  match pats matches ps xs with Some bs => scoped bs m | None => stuck end.
(** the body of a closure is not left by [?] or [return] to the outside *)
Definition in_closure {A} (ps : list rpat) (xs : list rv) (m : st -> res A) (s : st) : res A :=
  match with_args ps xs m s with Leave _ s' => stuck s' | r => r end.
(** a closure that reads *)
Definition as_reader (s : st) (m : st -> res rv) : rd rv :=
  fun bs r => ending (m (mkSt (s_env s) [] bs r)).

(** The type of the variables of a [let]: here the pair whose components are
    inserted into a map by the next statement. *)
Definition is_var (x : text) (e : rexp) : bool :=
  match e with REPath false [PSeg y []] => String.eqb x y | _ => false end.
Definition let_type (w : world) (p : rpat) (rest : list rstmt) (s : st) : option rtype :=
  match p, rest with
  | RPTuple [RPBind _ _ a; RPBind _ _ b], RSExpr (REPost e [OField f; OMethod m [] [x; y]]) _ :: _ =>
    if String.eqb m "insert" && is_var a x && is_var b y then
      match place_type w (in_field (place_of e) f) s with
      | Some (YMap k v) => Some (YPair k v)
      | _ => None
      end
    else None
  | _, _ => None
  end.

(** ** Evaluation *)
Section Eval.
Variable t : target.
Variable names : scope -> list text -> option rtype.
Variable w : world.
Variable here : scope.
(** the bound of loops in the library; [while] has one round more *)
Variable fuel : nat.

Definition variant_type (p : list text) : option (option rtype) :=
  match here, names here (removelast p) with
  | InMsg i, Some (YOneof o) | InOneof i _, Some (YOneof o) => assoc (last_of p) (w_variants w i o)
  | _, _ => None
  end.
Definition enum_value (p : list text) : option rv :=
  match names here (removelast p) with
  | Some (YEnum q) => option_map (XEnum q) (assoc (last_of p) (w_numbers w q))
  | _ => None
  end.
(** a constant of the own type *)
Definition own_const (p : list text) : option (option rv) :=
  match p with
  | [a; x] => if String.eqb a "Self" then Some match here with InMsg i => w_const w i x | _ => None end else None
  | _ => None
  end.
(** a path that is not called *)
Definition path_value (h : option rtype) (lead : bool) (p : list text) (s : st) : option rv :=
  if lead then
    match p with
    | [a; b; c] => if String.eqb a "core" then
                     if String.eqb b "f32" then float_constant false c
                     else if String.eqb b "f64" then float_constant true c else None
                   else None
    | _ => None
    end
  else match p with
  | [x] => match assoc x (s_env s) with
           | Some v => Some v
           | None => if String.eqb x "None" then Some (XOpt None) else None
           end
  | _ => match own_const p, variant_type p with
         | Some o, _ => o
         | None, Some None => Some (XVariant (last_of p) None)
         | None, Some (Some _) => None
         | None, None => enum_value p
         end
  end.
Definition self_default : option rv :=
  match here with
  | InMsg i => w_default w (YMsg i)
  | InEnum q => w_default w (YEnum q)
  | InOneof _ o => w_default w (YOneof o)
  end.

Section Blocks.
Variable ev : option rtype -> rexp -> st -> res rv.
Definition block (h : option rtype) : list rstmt -> st -> res rv :=
  fix run (l : list rstmt) : st -> res rv :=
    match l with
    | [] => go XUnit
    | RSLet p e :: rest =>
      fun s => (do x <- ev (let_type w p rest s) e; with_args [p] [x] (run rest)) s
    | RSExpr e semi :: rest =>
      match semi, rest with
      | false, [] => ev h e
      | _, _ => do x <- ev None e; if may_drop x then run rest else stuck
      end
    end.
Definition arms_of (h : option rtype) (x : rv) : list rarm -> st -> res rv :=
  fix run (l : list rarm) : st -> res rv :=
    match l with
    | [] => stuck
    | RArm p e _ :: rest => match matches p x with Some bs => scoped bs (ev h e) | None => run rest end
    end.
Definition sum_up : list rexp -> rv -> st -> res rv :=
  fix run (l : list rexp) (acc : rv) : st -> res rv :=
    match l with
    | [] => go acc
    | e :: rest => do x <- ev None e; do a <- of_option (add acc x); run rest a
    end.
Definition inits (types : list (text * rtype)) : list rinit -> st -> res (list (text * rv)) :=
  fix run (l : list rinit) : st -> res (list (text * rv)) :=
    match l with
    | [] => go []
    | RInit f (Some e) :: rest => do x <- ev (assoc f types) e; do r <- run rest; go ((f, x) :: r)
    | RInit _ None :: _ => stuck
    end.
(** a function that is called by its path *)
Definition call_path (h : option rtype) (p : list pseg) (args : list rexp) : st -> res rv :=
  let q := map seg_name p in
  match fkind_of q, args with
  | FSome, [a] => do x <- ev (of_opt h) a; go (XOpt (Some x))
  | FOk, [a] => do x <- ev (of_result h) a; go (XOk x)
  | FErr, [a] => do x <- ev None a; match x with XError e => go (XErr e) | _ => stuck end
  | FBox, [a] => ev (of_box h) a
  | FCow, [a] => do x <- ev None a; match x with XBytes b => go x | _ => stuck end
  | FVec, [] => match p with
                | PSeg _ [GType (RTPath false [PSeg u []])] :: _ => if String.eqb u "u8" then go (XBytes []) else stuck
                | _ => go (XList [])
                end
  | FPacked, [a] => do x <- ev None a;
                    match x, h with
                    | XList [], Some (YPacked u) => match kind_of u with Some k => go (XPacked k (pf_from_vec [])) | None => stuck end
                    | _, _ => stuck
                    end
  | FMap, [] => go (XMap [])
  | FSize, [a] => do x <- ev None a; of_option (sizeof_call (last_of q) x)
  | FSelfDefault, [] => of_option self_default
  | FOther, [] => if String.eqb (last_of q) "default"
                  then match names here (removelast q) with Some y => of_option (w_default w y) | None => stuck end
                  else stuck
  | FOther, [a] => match variant_type q with
                     | Some (Some y) => do x <- ev (Some y) a; go (XVariant (last_of q) (Some x))
                     | _ => stuck
                     end
  | _, _ => stuck
  end.
(** a method call: [h] is the type that the Result is expected to hold *)
Definition call_method (h : option rtype) (p : place) (x : rv) (m : text) (gs : list garg) (args : list rexp) : st -> res rv :=
  match mkind_of m, x, args with
  | MMapOr, XOpt o, [d; REClosure ps b] =>
    do dv <- ev None d; match o with None => go dv | Some y => in_closure ps [y] (ev None b) end
  | MMap, XList l, [REClosure ps b] => do r <- each (fun y => in_closure ps [y] (ev None b)) l; go (XList r)
  | MMap, XOk y, [REPath false q] => match fkind_of (map seg_name q), y with FCow, XBytes _ => go x | _, _ => stuck end
  | MMap, XErr _, [REPath false q] => go x
  | MMap, XOpt o, [REClosure ps b] =>
    match o with None => go x | Some y => do r <- in_closure ps [y] (ev None b); go (XOpt (Some r)) end
  | MUnwrapOr, XOpt o, [a] => do d <- ev None a; go match o with Some y => y | None => d end
  | MPush, XList l, [a] =>
    fun s => (do y <- ev (of_vec (place_type w p s)) a; assign p (XList (l ++ [y]))) s
  | MInsert, XMap l, [a; b] =>
    do k <- ev None a; do v <- ev None b; do l' <- of_option (insert_in k v l); assign p (XMap l')
  | MWithTag, XWriter, [tag; REClosure ps b] =>
    do z <- (do y <- ev None tag; the_int y);
    do q <- (do y <- in_closure ps [XWriter] (ev None b); written y);
    go (XWrite (write_with_tag z q))
  | MWriteMap, XWriter, [size; tag1; REClosure ps1 b1; tag2; REClosure ps2 b2] =>
    do n <- (do y <- ev None size; the_int y);
    do z1 <- (do y <- ev None tag1; the_int y);
    do q1 <- (do y <- in_closure ps1 [XWriter] (ev None b1); written y);
    do z2 <- (do y <- ev None tag2; the_int y);
    do q2 <- (do y <- in_closure ps2 [XWriter] (ev None b2); written y);
    go (XWrite (write_map n z1 q1 z2 q2))
  | MWritePacked, XWriter, [tag; v; REClosure ps b; REUn URef (REClosure ps' b')] =>
    do z <- (do y <- ev None tag; the_int y);
    do l <- (do y <- ev None v; match y with XList l => go l | _ => stuck end);
    do r <- each (fun y => do q <- (do r <- in_closure ps [XWriter; y] (ev None b); written r);
                           do n <- (do r <- in_closure ps' [y] (ev None b'); the_int r);
                           go (q, n)) l;
    go (XWrite (write_packed_with_tag z r fst snd))
  | MWritePackedFixed, XWriter, [tag; v] =>
    do z <- (do y <- ev None tag; the_int y);
    do y <- ev None v;
    match y with XPacked k q => go (XWrite (write_packed_fixed_with_tag k z q)) | _ => stuck end
  | MWriteMessage, XWriter, [v] =>
    do y <- ev None v;
    match y with
    | XStruct i _ => match w_size w i y, w_write w i y with
                     | Some n, Some q => go (XWrite (write_message n q))
                     | _, _ => stuck
                     end
    | _ => stuck
    end
  | MReadEnum, XReader, [b] =>
    do y <- ev None b;
    match is_source y, h with true, Some (YEnum q) => reads (i <- read_int32 ;; or_ub (w_enum w q i)) | _, _ => stuck end
  | MReadMessage, XReader, [b] =>
    do y <- ev None b;
    match is_source y, gs with
    | true, [GType u] => match type_of names here u with Some (YMsg i) => reads (read_message t (w_from w i)) | _ => stuck end
    | _, _ => stuck
    end
  | MReadPacked, XReader, [b; REClosure ps c] =>
    do y <- ev None b;
    if is_source y then
      fun s => reads (rmap XList (read_packed t fuel
        (as_reader s (with_args ps [XReader; XSource] (ev (option_map YResult (of_vec h)) c))))) s
    else stuck
  | MReadPackedFixed, XReader, [b] =>
    do y <- ev None b;
    match is_source y, h with
    | true, Some (YPacked u) => match kind_of u with
                                | Some k => reads (rmap (XPacked k) (read_packed_fixed_k t k))
                                | None => stuck
                                end
    | _, _ => stuck
    end
  | MReadMap, XReader, [b; REClosure ps c; REClosure ps' c'] =>
    do y <- ev None b;
    match is_source y, of_pair h with
    | true, Some (k, v) =>
      match w_default w k, w_default w v with
      | Some kd, Some vd =>
        fun s => reads (rmap (fun q => XTuple [fst q; snd q]) (read_map t fuel kd vd
          (as_reader s (with_args ps [XReader; XSource] (ev (Some (YResult k)) c)))
          (as_reader s (with_args ps' [XReader; XSource] (ev (Some (YResult v)) c'))))) s
      | _, _ => stuck
      end
    | _, _ => stuck
    end
  | MReadUnknown, XReader, [b; a] =>
    do y <- ev None b; do z <- (do y <- ev None a; the_int y);
    if is_source y then reads (rmap (fun _ => XUnit) (read_unknown t z)) else stuck
  | MIsEof, XReader, [] => fun s => Go (XBool (r_start (s_in s) =? r_end (s_in s))) s
  | MReadToEnd, XReader, [] =>
    fun s => Go XUnit (mkSt (s_env s) (s_out s) (s_src s) (mkR (r_end (s_in s)) (r_end (s_in s))))
  | MOther, XWriter, [a] => do y <- ev None a; do q <- of_option (write_call m y); go (XWrite q)
  | MOther, XReader, [b] =>
    do y <- ev None b;
    match is_source y, read_call t m with true, Some q => reads q | _, _ => stuck end
  | MOther, _, [] => of_option (plain_method w m x)
  | _, _, _ => stuck
  end.
Definition operate (h : option rtype) : list rop -> place -> rv -> st -> res rv :=
  fix run (l : list rop) (p : place) (x : rv) : st -> res rv :=
    match l with
    | [] => go x
    | op :: rest =>
      match op with
      | OField f => match x with
                    | XStruct _ fs => do y <- of_option (assoc f fs); run rest (in_field p f) y
                    | _ => stuck
                    end
      | OTry => do y <- try x; run rest None y
      | OMethod m gs args => do y <- call_method (match rest with [OTry] => h | _ => None end) p x m gs args; run rest None y
      | OCall _ => stuck
      end
    end.
End Blocks.

Fixpoint eval (h : option rtype) (e : rexp) {struct e} : st -> res rv :=
  match e with
  | RELit k => of_option (literal h k)
  | REBool b => go (XBool b)
  | REPath lead p => fun s => of_option (path_value h lead (map seg_name p) s) s
  | REParen e => eval h e
  | RETuple [] => go XUnit
  | RETuple _ => stuck
  | REBlock b => block eval h b
  | REUnsafe _ => stuck
  | REIf c b els =>
    do x <- (do y <- eval None c; the_bool y);
    if (x : bool) then block eval h b else match els with Some b' => block eval h b' | None => go XUnit end
  | REMatch e arms => do x <- eval None e; arms_of eval h x arms
  | REFor p e b =>
    do x <- eval None e; do l <- of_option (elements x);
    do _ <- each (fun y => with_args [p] [y] (block eval None b)) l; go XUnit
  | REWhile c b => while (do x <- eval None c; the_bool x) (block eval None b) (S fuel)
  | REClosure _ _ => stuck
  | REReturn e => do x <- eval None e; fun s => Leave x s
  | REStruct p fs _ =>
    match map seg_name p, here with
    | [s], InMsg i => if String.eqb s "Self" then do l <- inits eval (w_fields w i) fs; go (XStruct i l) else stuck
    | _, _ => stuck
    end
  | REPost e ops =>
    match e, ops with
    | REPath false p, OCall args :: ops' =>
      do x <- call_path eval (match ops' with [] => h | _ => None end) p args; operate eval h ops' None x
    | _, _ => do x <- eval None e; operate eval h ops (place_of e) x
    end
  | REUn o e =>
    match o with
    | UDeref | URef | URefMut => eval h e
    | UNot => do x <- (do y <- eval None e; the_bool y); go (XBool (negb x))
    | UNeg => do x <- eval h e; of_option (negate x)
    end
  | RECast e u => do x <- eval None e; of_option (cast u x)
  | REMul a b => do x <- eval None a; do y <- eval None b; of_option (mul x y)
  | RESum e es => do x <- eval None e; sum_up eval es x
  | RECmp eq a b =>
    do x <- eval None a; do y <- eval (type_hint x) b; do r <- of_option (equal x y); go (XBool (Bool.eqb r eq))
  | REAssign (REPost e [OField f]) b =>
    fun s => (do y <- eval (place_type w (in_field (place_of e) f) s) b; assign (in_field (place_of e) f) y) s
  | REAssign _ _ => stuck
  end.
End Eval.

(** ** Programs *)

(** the items that belong to a message, an enum or a oneof of a message *)
Record program := mkProgram {
  p_struct : midx -> list ritem_;
  p_enum : eidx -> list ritem_;
  p_oneof : midx -> text -> list ritem_ }.

Fixpoint first {A B} (f : A -> option B) (l : list A) : option B :=
  match l with [] => None | x :: l' => match f x with Some y => Some y | None => first f l' end end.
Definition or_nil {A} (o : option (list A)) : list A := match o with Some l => l | None => [] end.
Definition the_struct (l : list ritem_) : option (list rattr * list rfield) :=
  first (fun i => match i with RIStruct attrs _ _ _ fs => Some (attrs, fs) | _ => None end) l.
Definition the_enum (l : list ritem_) : list rvariant :=
  or_nil (first (fun i => match i with RIEnum _ _ _ vs => Some vs | _ => None end) l).
(** the impl of a trait; the trait is [Name] or [Name<i32>] *)
Definition is_trait (n : text) (i32 : bool) (t : rty_) : bool :=
  match t with
  | RTPath false [PSeg m args] =>
    String.eqb n m &&
    (if i32 then match args with [GType (RTPath false [PSeg a []])] => String.eqb a "i32" | _ => false end else true)
  | _ => false
  end.
Definition the_impl (n : text) (i32 : bool) (l : list ritem_) : option (list ritem_) :=
  first (fun i => match i with
                  | RIImpl _ _ (Some u) _ items => if is_trait n i32 u then Some items else None
                  | _ => None
                  end) l.
Definition the_fn (f : text) (l : list ritem_) : option rfn :=
  first (fun i => match i with RIFn x => if String.eqb f (fn_name x) then Some x else None | _ => None end) l.
(** the items of the impls of the first struct that are not of a trait; a
    constant among them *)
Definition struct_name (l : list ritem_) : option text := first (fun i => match i with RIStruct _ _ n _ _ => Some n | _ => None end) l.
Definition is_type (o : option text) (u : rty_) : bool :=
  match o, u with Some n, RTPath false [PSeg m _] => String.eqb n m | _, _ => false end.
Definition inherent (l : list ritem_) : list (list ritem_) :=
  flat_map (fun i => match i with RIImpl _ _ None u items => if is_type (struct_name l) u then [items] else [] | _ => [] end) l.
Definition the_const (x : text) (l : list ritem_) : option (rty_ * rexp) :=
  first (fun i => match i with RIConst _ y u e => if String.eqb x y then Some (u, e) else None | _ => None end) l.
Definition derives_default (attrs : list rattr) : bool :=
  existsb (fun a => match a with
                    | RAttr n (Some ts) => String.eqb n "derive" && existsb (fun k => match k with TWord x => String.eqb x "Default" | _ => false end) ts
                    | _ => false
                    end) attrs.

Section Run.
Variable t : target.
Variable names : scope -> list text -> option rtype.
Variable p : program.

(** the definitions *)
Definition fields_of (i : midx) : list (text * rtype) :=
  match the_struct (p_struct p i) with
  | Some (_, fs) => flat_map (fun f => match type_of names (InMsg i) (rf_type f) with Some y => [(rf_name f, y)] | None => [] end) fs
  | None => []
  end.
Definition variants_of (i : midx) (o : text) : list (text * option rtype) :=
  flat_map (fun v => match rv_payload v with
                     | VUnit => [(rv_name v, None)]
                     | VOne u => match type_of names (InOneof i o) u with Some y => [(rv_name v, Some y)] | None => [] end
                     | VNum _ _ => []
                     end) (the_enum (p_oneof p i o)).
Definition numbers_of (q : eidx) : list (text * Z) :=
  flat_map (fun v => match rv_payload v with
                     | VNum neg n => match pattern_number neg n with Some z => [(rv_name v, z)] | None => [] end
                     | _ => []
                     end) (the_enum (p_enum p q)).
(** the constants; they do not use each other *)
Definition bare : world :=
  mkWorld (fun _ => None) (fun _ _ => None) (fun _ _ => None) (fun _ => lift UB) (fun _ _ => None) fields_of variants_of numbers_of (fun _ _ => None).
Definition constant (here : scope) (k : rty_ * rexp) : option rv :=
  match eval t names bare here O (type_of names here (fst k)) (snd k) (mkSt [] [] [] (mkR 0 0)) with Go v _ => Some v | _ => None end.
Definition const_of (i : midx) (x : text) : option rv :=
  match first (the_const x) (inherent (p_struct p i)) with Some k => constant (InMsg i) k | None => None end.
Definition world_of default size write from enum : world := mkWorld default size write from enum fields_of variants_of numbers_of const_of.
Definition nothing : world :=
  world_of (fun _ => None) (fun _ _ => None) (fun _ _ => None) (fun _ => lift UB) (fun _ _ => None).

(** the parameters of a function *)
Definition params (f : rfn) (self : option rv) (args : list rv) : option (list (text * rv)) :=
  match fn_self f, self with
  | NoSelf, None => pats matches (map fst (fn_params f)) args
  | SelfRef _ false, Some v => option_map (cons ("self", v)) (pats matches (map fst (fn_params f)) args)
  | _, _ => None
  end.
Definition call_fn (w : world) (here : scope) (fuel : nat) (f : rfn) (self : option rv) (args : list rv) (bs : bytes) (r : reader) : res rv :=
  let s env := mkSt env [] bs r in
  match params f self args with
  | Some env => block w (eval t names w here fuel) None (fn_body f) (s env)
  | None => stuck (s [])
  end.
(** a function without effects *)
Definition result_of (r : res rv) : option rv :=
  match r with Go v s | Leave v s => match s_out s with [] => Some v | _ => None end | _ => None end.
Definition pure_fn (w : world) (here : scope) (f : rfn) (self : option rv) (args : list rv) : option rv :=
  result_of (call_fn w here O f self args [] (mkR 0 0)).
Definition method_of (trait fn : text) (i32 : bool) (l : list ritem_) : option rfn :=
  match the_impl trait i32 l with Some items => the_fn fn items | None => None end.

(** *** Enums and oneofs *)
Definition enum_default_of (q : eidx) : option rv :=
  match method_of "Default" "default" false (p_enum p q) with
  | Some f => pure_fn nothing (InEnum q) f None []
  | None => None
  end.
Definition enum_from_of (q : eidx) (z : Z) : option rv :=
  match method_of "From" "from" true (p_enum p q) with
  | Some f =>
    pure_fn (world_of (fun y => match y with YEnum q' => enum_default_of q' | _ => None end)
               (fun _ _ => None) (fun _ _ => None) (fun _ => lift UB) (fun _ _ => None)) (InEnum q) f None [XInt z]
  | None => None
  end.
Definition oneof_default_of (i : midx) (o : text) : option rv :=
  match method_of "Default" "default" false (p_oneof p i o) with
  | Some f => pure_fn nothing (InOneof i o) f None []
  | None => None
  end.

(** *** Default of types and structs *)
Definition default_type (msg : midx -> option rv) (i : midx) (y : rtype) : option rv :=
  match y with
  | YI32 | YI64 | YU32 | YU64 | YUsize | YU8 => Some (XInt 0)
  | YF32 => Some (XFloat false 0)
  | YF64 => Some (XFloat true 0)
  | YBool => Some (XBool false)
  | YString | YVec YU8 | YCow YStr | YCow (YSlice YU8) => Some (XBytes [])
  | YOption _ => Some (XOpt None)
  | YVec _ => Some (XList [])
  | YMap _ _ => Some (XMap [])
  | YPacked u => option_map (fun k => XPacked k NoDataYet) (kind_of u)
  | YMsg j => msg j
  | YEnum q => enum_default_of q
  | YOneof o => oneof_default_of i o
  | _ => None
  end.
Fixpoint default_fields (msg : midx -> option rv) (i : midx) (l : list (text * rtype)) : option (list (text * rv)) :=
  match l with
  | [] => Some []
  | (f, y) :: l' => match default_type msg i y, default_fields msg i l' with Some x, Some r => Some ((f, x) :: r) | _, _ => None end
  end.
(** [n] bounds the nesting of structs in each other *)
Fixpoint struct_default (n : nat) (i : midx) : option rv :=
  match n with
  | O => None
  | S n' =>
    match method_of "Default" "default" false (p_struct p i), the_struct (p_struct p i) with
    | Some f, _ =>
      pure_fn (world_of (default_type (struct_default n') i) (fun _ _ => None) (fun _ _ => None) (fun _ => lift UB) (fun _ _ => None))
        (InMsg i) f None []
    | None, Some (attrs, _) =>
      if derives_default attrs then option_map (XStruct i) (default_fields (struct_default n') i (fields_of i)) else None
    | None, None => None
    end
  end.

(** *** Messages *)
Variable depth : nat.      (* of the nesting of structs by value *)
Definition defaults (i : midx) : rtype -> option rv := default_type (struct_default depth) i.

(** [get_size]; without a function of that name, that of the trait
    (quick-protobuf/src/message.rs:25-27).  [n] bounds the depth of the value. *)
Fixpoint struct_size (n : nat) (i : midx) (v : rv) : option Z :=
  match n with
  | O => None
  | S n' =>
    match the_impl "MessageWrite" false (p_struct p i) with
    | Some items =>
      match the_fn "get_size" items with
      | Some f =>
        match pure_fn (world_of (defaults i) (struct_size n') (fun _ _ => None) (fun _ => lift UB) (fun _ _ => None)) (InMsg i) f (Some v) [] with
        | Some (XInt z) => Some z
        | _ => None
        end
      | None => Some 0
      end
    | None => None
    end
  end.
(** [write_message]; without a function of that name, that of the trait
    (quick-protobuf/src/message.rs:20-22) *)
Definition written_by (r : res rv) : option wprog :=
  match r with
  | Go (XOk XUnit) s => Some (s_out s)
  | Go (XWrite q) s => Some (s_out s ++ q)
  | _ => None
  end.
Fixpoint struct_write (n : nat) (i : midx) (v : rv) : option wprog :=
  match n with
  | O => None
  | S n' =>
    match the_impl "MessageWrite" false (p_struct p i) with
    | Some items =>
      match the_fn "write_message" items with
      | Some f =>
        written_by (call_fn (world_of (defaults i) (struct_size n') (struct_write n') (fun _ => lift UB) (fun _ _ => None)) (InMsg i) O f
                      (Some v) [XWriter] [] (mkR 0 0))
      | None => Some []
      end
    | None => None
    end
  end.
(** [from_reader]; [fuel] bounds the nesting of messages and every loop *)
Fixpoint struct_from (fuel : nat) (i : midx) : rd rv :=
  match fuel with
  | O => lift NoFuel
  | S n =>
    match method_of "MessageRead" "from_reader" false (p_struct p i) with
    | Some f =>
      fun bs r =>
        ending (call_fn (world_of (defaults i) (fun _ _ => None) (fun _ _ => None) (struct_from n) enum_from_of) (InMsg i) n f
                  None [XReader; XSource] bs r)
    | None => lift UB
    end
  end.

(** *** Other methods and constants *)

(** a method that is not of a trait *)
Definition struct_method (i : midx) (f : text) (v : rv) : option rv :=
  match first (the_fn f) (inherent (p_struct p i)) with
  | Some f => pure_fn (world_of (defaults i) (fun _ _ => None) (fun _ _ => None) (fun _ => lift UB) (fun _ _ => None)) (InMsg i) f (Some v) []
  | None => None
  end.
(** a constant of a trait *)
Definition trait_const (trait x : text) (i : midx) : option rv :=
  match the_impl trait false (p_struct p i) with
  | Some items => match the_const x items with Some k => constant (InMsg i) k | None => None end
  | None => None
  end.
End Run.
