(** A fragment of Rust's type system, as large as the code that pb-rs writes
    into the bodies of generated functions needs.

    This file is a specification: it says which expressions the Rust compiler
    gives which type.  It does not mention the generator.  Rules of the
    language used here: a method call dereferences its receiver until the
    method is found; an argument of type [&T] is coerced to [&U] if
    dereferencing [T] leads to [U], unless the parameter is generic; a value is
    moved out of a variable or field only if it is [Copy] (error E0507); a
    pattern [&x] moves out of a reference; [==] and [!=] take references to
    their operands.

    Left out: lifetimes (see Props_Lifetime.v), paths (Props_Paths.v),
    visibility, integer literals without suffix (always [usize] where the
    generator writes them), mutability. *)
From Coq Require Import String Ascii Arith.
From Verif Require Import Base Schema Passes.
Import StringSyntax.
Local Open Scope string_scope.
Local Open Scope list_scope.

Inductive rtype :=
| YI32 | YI64 | YU32 | YU64 | YF32 | YF64 | YBool | YU8 | YUsize | YUnit
| YStr | YString
| YSlice (t : rtype) | YVec (t : rtype)
| YCow (t : rtype)                 (* Cow<'a, t> *)
| YOption (t : rtype) | YBox (t : rtype) | YRef (t : rtype)
| YMap (k v : rtype)               (* KVMap<k, v> *)
| YPacked (t : rtype)              (* PackedFixed<'a, t> *)
| YMsg (i : midx) | YEnum (q : eidx)
| YOneof (name : text)             (* the enum of a oneof of the message at hand *)
| YResult (t : rtype)
| YPair (a b : rtype).

Definition eidx_eqb (a b : eidx) : bool := midx_eqb (e_msg a) (e_msg b) && (e_pos a =? e_pos b)%nat.
Fixpoint rtype_eqb (a b : rtype) : bool :=
  match a, b with
  | YI32, YI32 | YI64, YI64 | YU32, YU32 | YU64, YU64 | YF32, YF32 | YF64, YF64
  | YBool, YBool | YU8, YU8 | YUsize, YUsize | YUnit, YUnit | YStr, YStr | YString, YString => true
  | YSlice x, YSlice y | YVec x, YVec y | YCow x, YCow y | YOption x, YOption y | YBox x, YBox y
  | YRef x, YRef y | YPacked x, YPacked y | YResult x, YResult y => rtype_eqb x y
  | YMap k v, YMap k' v' | YPair k v, YPair k' v' => rtype_eqb k k' && rtype_eqb v v'
  | YMsg i, YMsg j => midx_eqb i j
  | YEnum p, YEnum q => eidx_eqb p q
  | YOneof n, YOneof n' => String.eqb n n'
  | _, _ => false
  end.

(** ** Traits *)

(** generated enums derive Copy, generated structs do not *)
Definition is_copy (t : rtype) : bool :=
  match t with
  | YI32 | YI64 | YU32 | YU64 | YF32 | YF64 | YBool | YU8 | YUsize | YUnit | YRef _ | YEnum _ => true
  | _ => false
  end.

(** what a key of a [HashMap] or a [BTreeMap] must be; generated enums derive
    neither Hash nor Ord, generated structs not even Eq *)
Fixpoint is_key (t : rtype) : bool :=
  match t with
  | YI32 | YI64 | YU32 | YU64 | YBool | YU8 | YUsize | YUnit | YStr | YString => true
  | YSlice t | YVec t | YCow t | YOption t | YBox t | YRef t => is_key t
  | YPair a b => is_key a && is_key b
  | _ => false
  end.

Section Traits.
(** the enums for which the generated file has the impls of [Default] and
    [From<i32>] *)
Variable complete_enum : eidx -> bool.

Fixpoint is_partial_eq (t : rtype) : bool :=
  match t with
  | YMap k v => is_key k && is_partial_eq v
  | YSlice t | YVec t | YCow t | YOption t | YBox t | YRef t => is_partial_eq t
  | YPacked t => is_copy t && is_partial_eq t
  | YPair a b => is_partial_eq a && is_partial_eq b
  | YResult _ => false
  | _ => true
  end.
(** PackedFixed<'a, T> exists only for [T: Copy + PartialEq] *)
Fixpoint is_type (t : rtype) : bool :=
  match t with
  | YPacked t => is_copy t && is_partial_eq t && is_type t
  | YSlice t | YVec t | YCow t | YOption t | YBox t | YRef t | YResult t => is_type t
  | YMap a b | YPair a b => is_type a && is_type b
  | _ => true
  end.
Fixpoint is_default (t : rtype) : bool :=
  match t with
  | YEnum q => complete_enum q
  | YBox t => is_default t
  | YPair a b => is_default a && is_default b
  | YResult _ => false
  | _ => true
  end.
(** the struct derives Debug, PartialEq and Clone *)
Definition is_derivable (t : rtype) : bool := is_type t && is_partial_eq t.

(** ** Expressions *)

Inductive pattern :=
| PVar (x : text)               (* x *)
| PRef (x : text)               (* &x *)
| PPair (p q : pattern)         (* (p, q) *)
| PWild.                        (* _ *)

Inductive expr :=
| EVar (x : text)
| ESelf (f : text)              (* self.f *)
| ELit (t : rtype)              (* a number or a boolean of that type *)
| EStr | EBytes                 (* "..", b".." *)
| EPath (t : rtype)             (* the path of a variant or constant of that type *)
| EUnit                         (* () *)
| EOk (e : expr)                (* Ok(e) *)
| ECowBorrowed (e : expr)       (* Cow::Borrowed(e) *)
| EToString (e : expr)          (* e.to_string() *)
| EToVec (e : expr)             (* e.to_vec() *)
| EVecU8                        (* Vec::<u8>::new() *)
| EDefaultOf (i : midx)         (* M::default() *)
| ERef (e : expr)               (* &e *)
| EDeref (e : expr)             (* *e *)
| ECast (e : expr) (t : rtype)  (* e as t *)
| ECmp (a b : expr)             (* a == b, a != b *)
| EAdd (a b : expr) | EMul (a b : expr)
| EIf (c a b : expr)
| ELen (e : expr) | EIsEmpty (e : expr)
| EGetSize (e : expr)           (* e.get_size() *)
| ECall (f : text) (e : expr)   (* a function of sizeofs.rs *)
| EAsRef (e : expr)             (* e.as_ref() of an Option *)
| EMapOr (e d : expr) (p : pattern) (b : expr)     (* e.map_or(d, |p| b) *)
| EMap (e : expr) (p : pattern) (b : expr)         (* e.map(|p| b) of an Option *)
| EUnwrapOr (e d : expr)                           (* e.unwrap_or(d) *)
| EAsStr (e : expr) | EAsSlice (e : expr)          (* e.as_str(), e.as_slice() *)
| ESumMap (e : expr) (p : pattern) (b : expr)      (* e.iter().map(|p| b).sum::<usize>() *)
| ETry (e : expr)                                  (* e? in a function that returns a Result *)
| EFor (p : pattern) (e : expr) (b : expr)         (* for p in e { b; } *)
| EIter (e : expr)                                 (* e.iter() of a map *)
(* methods of the Writer [w]; the tags are u32 constants *)
| EWrite (f : text) (e : expr)                     (* w.write_f(e) *)
| EWriteMessage (e : expr)                         (* w.write_message(e) *)
| EWithTag (b : expr)                              (* w.write_with_tag(tag, |w| b) *)
| EWriteMap (size : expr) (k v : expr)             (* w.write_map(size, 1, |w| k, 2, |w| v) *)
| EWritePacked (e : expr) (p : pattern) (b : expr) (q : pattern) (s : expr)
                                                   (* w.write_packed_with_tag(tag, e, |w, p| b, &|q| s) *)
| EWritePackedFixed (e : expr).                    (* w.write_packed_fixed_with_tag(tag, e) *)

(** quick-protobuf/src/sizeofs.rs:8-70: the parameters of the functions used *)
Definition sizeof_parameter (f : text) : option rtype :=
  if String.eqb f "sizeof_varint" then Some YU64
  else if String.eqb f "sizeof_len" then Some YUsize
  else if String.eqb f "sizeof_sint32" then Some YI32
  else if String.eqb f "sizeof_sint64" then Some YI64
  else None.

(** quick-protobuf/src/writer.rs:87-180: the parameter of [write_f] *)
Definition write_parameter (f : text) : option rtype :=
  if String.eqb f "int32" then Some YI32
  else if String.eqb f "int64" then Some YI64
  else if String.eqb f "uint32" then Some YU32
  else if String.eqb f "uint64" then Some YU64
  else if String.eqb f "sint32" then Some YI32
  else if String.eqb f "sint64" then Some YI64
  else if String.eqb f "fixed64" then Some YU64
  else if String.eqb f "fixed32" then Some YU32
  else if String.eqb f "sfixed64" then Some YI64
  else if String.eqb f "sfixed32" then Some YI32
  else if String.eqb f "float" then Some YF32
  else if String.eqb f "double" then Some YF64
  else if String.eqb f "bool" then Some YBool
  else if String.eqb f "enum" then Some YI32
  else if String.eqb f "bytes" then Some (YRef (YSlice YU8))
  else if String.eqb f "string" then Some (YRef YStr)
  else None.

(** ** Coercions and methods *)

(** dereferencing [a] leads to [b] *)
Fixpoint derefs_to (a b : rtype) : bool :=
  rtype_eqb a b ||
  match a with
  | YRef t | YBox t | YCow t => derefs_to t b
  | YString => rtype_eqb YStr b
  | YVec t => rtype_eqb (YSlice t) b
  | _ => false
  end.
Definition coerces (a b : rtype) : bool :=
  rtype_eqb a b ||
  match a, b with YRef x, YRef y => derefs_to x y | _, _ => false end.

Fixpoint has_len (t : rtype) : bool :=
  match t with
  | YStr | YString | YSlice _ | YVec _ | YMap _ _ => true
  | YPacked t => is_copy t && is_partial_eq t
  | YRef t | YBox t | YCow t => has_len t
  | _ => false
  end.
Fixpoint has_get_size (t : rtype) : bool :=
  match t with
  | YMsg _ => true
  | YRef t | YBox t | YCow t => has_get_size t
  | _ => false
  end.
Fixpoint is_text (t : rtype) : bool :=
  match t with YStr | YString => true | YRef t | YBox t | YCow t => is_text t | _ => false end.
Fixpoint slice_of (t : rtype) : option rtype :=
  match t with YSlice t | YVec t => Some t | YRef t | YBox t | YCow t => slice_of t | _ => None end.

(** the items of [e.iter()] *)
Definition iter_item (t : rtype) : option rtype :=
  match t with
  | YVec t => Some (YRef t)
  | YMap k v => Some (YPair (YRef k) (YRef v))
  | _ => None
  end.
(** the items of [for .. in e] for a reference *)
Definition loop_item (t : rtype) : option rtype :=
  match t with
  | YRef (YVec t) => Some (YRef t)
  | YRef (YMap k v) => Some (YPair (YRef k) (YRef v))
  | YPair a b => Some (YPair a b)  (* the type the model gives to [e.iter()] of a map *)
  | _ => None
  end.

Definition castable (from to : rtype) : bool :=
  match from, to with
  | (YI32 | YI64 | YU32 | YU64 | YBool | YUsize | YU8 | YEnum _), (YI32 | YI64 | YU32 | YU64 | YUsize) => true
  | _, _ => false
  end.

Definition env := list (text * rtype).
Fixpoint find_var (l : env) (x : text) : option rtype :=
  match l with [] => None | (y, t) :: l' => if String.eqb x y then Some t else find_var l' x end.

Fixpoint bind_pattern (p : pattern) (t : rtype) : option env :=
  match p with
  | PVar x => Some [(x, t)]
  | PRef x => match t with YRef t' => if is_copy t' then Some [(x, t')] else None | _ => None end
  | PPair p q => match t with
                 | YPair a b => match bind_pattern p a, bind_pattern q b with
                                | Some l, Some l' => Some (l' ++ l)
                                | _, _ => None end
                 | _ => None
                 end
  | PWild => Some []
  end.

(** an expression that denotes a place *)
Definition is_place (e : expr) : bool :=
  match e with EVar _ | ESelf _ | EDeref _ => true | _ => false end.
(** using the value of the expression *)
Definition use (e : expr) (t : option rtype) : option rtype :=
  match t with
  | Some y => if is_place e && negb (is_copy y) then None else Some y
  | None => None
  end.

Definition when (b : bool) (t : rtype) : option rtype := if b then Some t else None.

(** ** The type of an expression; [None]: the compiler rejects it *)
Section Check.
(** the fields of the struct *)
Variable fields : env.

Fixpoint type_of (g : env) (e : expr) : option rtype :=
  match e with
  | EVar x => find_var g x
  | ESelf f => find_var fields f
  | ELit t => match t with
              | YI32 | YI64 | YU32 | YU64 | YF32 | YF64 | YBool | YUsize => Some t
              | _ => None
              end
  | EStr => Some (YRef YStr)
  | EBytes => Some (YRef (YSlice YU8))
  | EPath t => Some t
  | EUnit => Some YUnit
  | EOk e => match use e (type_of g e) with Some t => Some (YResult t) | None => None end
  | ECowBorrowed e => match use e (type_of g e) with Some (YRef t) => Some (YCow t) | _ => None end
  | EToString e => match type_of g e with Some t => when (is_text t) YString | None => None end
  | EToVec e => match type_of g e with
                | Some t => match slice_of t with Some t' => Some (YVec t') | None => None end
                | None => None end
  | EVecU8 => Some (YVec YU8)
  | EDefaultOf i => Some (YMsg i)
  | ERef e => match type_of g e with Some t => Some (YRef t) | None => None end
  | EDeref e => match type_of g e with Some (YRef t) | Some (YBox t) => Some t | _ => None end
  | ECast e t => match use e (type_of g e) with Some s => when (castable s t) t | None => None end
  | ECmp a b => match type_of g a, type_of g b with
                | Some s, Some t => when (rtype_eqb s t && is_partial_eq s) YBool
                | _, _ => None end
  | EAdd a b | EMul a b =>
    match use a (type_of g a), use b (type_of g b) with Some YUsize, Some YUsize => Some YUsize | _, _ => None end
  | EIf c a b => match use c (type_of g c), use a (type_of g a), use b (type_of g b) with
                 | Some YBool, Some s, Some t => when (rtype_eqb s t) s
                 | _, _, _ => None end
  | ELen e => match type_of g e with Some t => when (has_len t) YUsize | None => None end
  | EIsEmpty e => match type_of g e with Some t => when (has_len t) YBool | None => None end
  | EGetSize e => match type_of g e with Some t => when (has_get_size t) YUsize | None => None end
  | ECall f e => match sizeof_parameter f, use e (type_of g e) with
                 | Some p, Some t => when (coerces t p) YUsize
                 | _, _ => None end
  | EAsRef e => match type_of g e with Some (YOption t) => Some (YOption (YRef t)) | _ => None end
  | EMapOr e d p b =>
    match use e (type_of g e), use d (type_of g d) with
    | Some (YOption t), Some s =>
      match bind_pattern p t with
      | Some l => match use b (type_of (l ++ g) b) with Some s' => when (rtype_eqb s s') s | None => None end
      | None => None end
    | _, _ => None end
  | EMap e p b =>
    match use e (type_of g e) with
    | Some (YOption t) =>
      match bind_pattern p t with
      | Some l => match use b (type_of (l ++ g) b) with Some s => Some (YOption s) | None => None end
      | None => None end
    | _ => None end
  | EUnwrapOr e d => match use e (type_of g e), use d (type_of g d) with
                     | Some (YOption t), Some s => when (coerces s t) t
                     | _, _ => None end
  | EAsStr e => match type_of g e with
                | Some YString | Some (YRef YString) => Some (YRef YStr) | _ => None end
  | EAsSlice e => match type_of g e with
                  | Some (YVec t) | Some (YRef (YVec t)) => Some (YRef (YSlice t)) | _ => None end
  | ESumMap e p b =>
    match type_of g e with
    | Some t => match iter_item t with
                | Some i => match bind_pattern p i with
                            | Some l => match use b (type_of (l ++ g) b) with Some YUsize => Some YUsize | _ => None end
                            | None => None end
                | None => None end
    | None => None end
  | ETry e => match use e (type_of g e) with Some (YResult t) => Some t | _ => None end
  | EIter e => match type_of g e with
               | Some (YMap k v) => Some (YPair (YRef k) (YRef v)) | _ => None end
  | EFor p e b =>
    match use e (type_of g e) with
    | Some t => match loop_item t with
                | Some i => match bind_pattern p i with
                            | Some l => match type_of (l ++ g) b with Some YUnit => Some YUnit | _ => None end
                            | None => None end
                | None => None end
    | None => None end
  | EWrite f e => match write_parameter f, use e (type_of g e) with
                  | Some p, Some t => when (coerces t p) (YResult YUnit)
                  | _, _ => None end
  | EWriteMessage e =>
    (* the parameter is [&M] for any [M: MessageWrite]: no coercion *)
    match use e (type_of g e) with Some (YRef (YMsg _)) => Some (YResult YUnit) | _ => None end
  | EWithTag b => match use b (type_of g b) with Some (YResult YUnit) => Some (YResult YUnit) | _ => None end
  | EWriteMap s k v => match use s (type_of g s), use k (type_of g k), use v (type_of g v) with
                       | Some YUsize, Some (YResult YUnit), Some (YResult YUnit) => Some (YResult YUnit)
                       | _, _, _ => None end
  | EWritePacked e p b q s =>
    (* [&[M]] with a generic [M]: only the outermost type is coerced *)
    match use e (type_of g e) with
    | Some (YRef (YVec t)) | Some (YRef (YSlice t)) =>
      match bind_pattern p (YRef t), bind_pattern q (YRef t) with
      | Some l, Some l' =>
        match use b (type_of (l ++ g) b), use s (type_of (l' ++ g) s) with
        | Some (YResult YUnit), Some YUsize => Some (YResult YUnit)
        | _, _ => None end
      | _, _ => None end
    | _ => None end
  | EWritePackedFixed e =>
    match use e (type_of g e) with
    | Some (YRef (YPacked t)) => when (is_copy t && is_partial_eq t) (YResult YUnit)
    | _ => None end
  end.

(** the expression can be given where a value of type [t] is expected *)
Definition fits (g : env) (e : expr) (t : rtype) : bool :=
  match use e (type_of g e) with Some s => coerces s t | None => false end.
End Check.

(** ** Expressions that read; what they yield depends on the type expected *)

Inductive read_expr :=
| RdNum (f : text)          (* r.read_f(bytes)? *)
| RdEnum                    (* r.read_enum(bytes)?, generic in the result *)
| RdMessage (i : midx)      (* r.read_message::<M>(bytes)? *)
| RdRaw (f : text)          (* r.read_f(bytes), a Result *)
| RdCow (f : text)          (* r.read_f(bytes).map(Cow::Borrowed)? *)
| RdOwned (f : text)        (* r.read_f(bytes)?.to_owned() *)
| RdNone.                   (* generation failed *)

(** quick-protobuf/src/reader.rs:316-440: the result of [read_f] *)
Definition read_result (f : text) : option rtype :=
  if String.eqb f "enum" then None else write_parameter f.

(** the expression has type [t] *)
Definition reads (e : read_expr) (t : rtype) : bool :=
  match e with
  | RdNum f => match read_result f with Some s => rtype_eqb s t | None => false end
  | RdEnum => match t with YEnum q => complete_enum q | _ => false end
  | RdMessage i => rtype_eqb (YMsg i) t
  | RdRaw f => match read_result f with Some s => rtype_eqb (YResult s) t | None => false end
  | RdCow f => match read_result f with Some (YRef s) => rtype_eqb (YCow s) t | _ => false end
  | RdOwned f => match read_result f, t with
                 | Some (YRef YStr), YString => true
                 | Some (YRef (YSlice s)), YVec s' => rtype_eqb s s'
                 | _, _ => false end
  | RdNone => false
  end.

(** the right-hand side of a match arm of [from_reader]; [f] is a field of the
    struct *)
Inductive read_stmt :=
| RsSomeBox (f : text) (e : read_expr)   (* msg.f = Some(Box::new(e)) *)
| RsSome (f : text) (e : read_expr)      (* msg.f = Some(e) *)
| RsSet (f : text) (e : read_expr)       (* msg.f = e *)
| RsPackedFixed (f : text)               (* msg.f = r.read_packed_fixed(bytes)? *)
| RsPacked (f : text) (e : read_expr)    (* msg.f = r.read_packed(bytes, |r, bytes| Ok(e))? *)
| RsPush (f : text) (e : read_expr)      (* msg.f.push(e) *)
| RsInsert (f : text) (k v : read_expr)  (* read_map(..) and msg.f.insert(key, value) *)
| RsVariant (f : text) (o v : text) (boxed : bool) (e : read_expr)
                                         (* msg.f = OneOfo::v(e) or OneOfo::v(Box::new(e)) *)
| RsBad.

Section CheckRead.
Variable fields : env.
(** the variants of the enums of the oneofs *)
Variable variants : text -> text -> option rtype.

Definition read_ok (s : read_stmt) : bool :=
  match s with
  | RsSomeBox f e => match find_var fields f with Some (YOption (YBox t)) => reads e t | _ => false end
  | RsSome f e => match find_var fields f with Some (YOption t) => reads e t | _ => false end
  | RsSet f e => match find_var fields f with Some t => reads e t | None => false end
  | RsPackedFixed f => match find_var fields f with
                       | Some (YPacked t) => is_copy t && is_partial_eq t | _ => false end
  | RsPacked f e => match find_var fields f with Some (YVec t) => reads e t | _ => false end
  | RsPush f e => match find_var fields f with Some (YVec t) => reads e t | _ => false end
  | RsInsert f k v => match find_var fields f with
                      | Some (YMap tk tv) => reads k tk && reads v tv && is_key tk && is_default tk && is_default tv
                      | _ => false end
  | RsVariant f o v boxed e =>
    match find_var fields f, variants o v with
    | Some (YOneof o'), Some t =>
      String.eqb o o' && (if boxed then match t with YBox t' => reads e t' | _ => false end else reads e t)
    | _, _ => false end
  | RsBad => false
  end.
End CheckRead.
End Traits.
