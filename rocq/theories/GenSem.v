(** Semantics of the generated code: values of the generated structs, and the
    interpreters of the syntax of [Gen.v] over the runtime model. *)
From Verif Require Import Base Reader PackedFixed Writer Sizeofs Schema Gen.

(** ** Values *)

(** Integers, enums (by discriminant), floats (by bit pattern); bools; strings
    (UTF-8) and bytes; message structs, field by field. *)
Inductive value :=
| VZ (z : Z)
| VBool (b : bool)
| VB (b : bytes)
| VMsg (fields : list slot)
(** the contents of a struct field: a plain value, an Option (boxes are
    transparent), a Vec, a PackedFixed, a HashMap (entries in iteration order)
    or a oneof enum (variant number among the generated ones) *)
with slot :=
| SlOne (v : value)
| SlNone | SlSome (v : value)
| SlVec (l : list value)
| SlPF (p : packed_fixed)
| SlMap (l : list (value * value))
| SlOneofNone | SlOneof (variant : nat) (v : value).

Section Semantics.
Variable D : file_descriptor.
Variable c : config.
(** value of the Rust constant expression in a [default] option *)
Variable lit : field_type -> text -> option value.

(** ** PartialEq *)

(** IEEE 754 equality of bit patterns with [e] exponent and [m] mantissa bits *)
Definition float_is_nan (e m : Z) (x : Z) : bool :=
  (2 ^ e - 1 =? (x / 2 ^ m) mod 2 ^ e) && negb (x mod 2 ^ m =? 0).
Definition float_eq (e m : Z) (x y : Z) : bool :=
  negb (float_is_nan e m x) && negb (float_is_nan e m y) &&
  ((x =? y) || ((x mod 2 ^ (e + m) =? 0) && (y mod 2 ^ (e + m) =? 0))).

Fixpoint bytes_eqb (a b : bytes) : bool :=
  match a, b with
  | [], [] => true
  | x :: a', y :: b' => Byte.eqb x y && bytes_eqb a' b'
  | _, _ => false
  end.

(** equality of scalars, strings and bytes *)
Definition plain_eq (v w : value) : bool :=
  match v, w with
  | VZ x, VZ y => x =? y
  | VBool x, VBool y => Bool.eqb x y
  | VB x, VB y => bytes_eqb x y
  | _, _ => false
  end.
Definition rust_eq (t : field_type) (v w : value) : bool :=
  match t, v, w with
  | TFloat, VZ x, VZ y => float_eq 8 23 x y
  | TDouble, VZ x, VZ y => float_eq 11 52 x y
  | _, _, _ => plain_eq v w
  end.

(** ** Enums *)

(** types.rs:2192-2200 [Enumerator::write_impl_default]: the first variant.
    An enum without variants has no Default impl (the struct does not compile);
    the model gives 0. *)
Definition enum_default (e : eidx) : Z :=
  match get_enum D e with
  | Some en => match en_fields en with (_, z) :: _ => z | [] => 0 end
  | None => 0
  end.
(** types.rs:2202-2214 [write_from_i32]: match on the declared numbers, in
    order, else the default *)
Definition enum_from_i32 (e : eidx) (i : Z) : Z :=
  match get_enum D e with
  | Some en => match find (fun '(_, z) => i =? z) (en_fields en) with
               | Some (_, z) => z
               | None => enum_default e
               end
  | None => 0
  end.

(** ** Defaults *)

(** traversal of a list of optional results *)
Fixpoint all_some {A} (l : list (option A)) : option (list A) :=
  match l with
  | [] => Some []
  | Some x :: l' => option_map (cons x) (all_some l')
  | None :: _ => None
  end.

(** [T::default()] / the text of singular_field_defaults (types.rs:315-344);
    [dm] is the Default of messages *)
Definition type_default (dm : midx -> option (list slot)) (t : field_type) : option value :=
  match t with
  | TInt32 | TInt64 | TUint32 | TUint64 | TSint32 | TSint64
  | TFixed64 | TSfixed64 | TDouble | TFixed32 | TSfixed32 | TFloat => Some (VZ 0)
  | TBool => Some (VBool false)
  | TEnum e => Some (VZ (enum_default e))
  | TStringCow | TBytesCow | TString | TBytes => Some (VB [])
  | TMessage m => option_map VMsg (dm m)
  | TMap _ _ | TMessageOrEnum _ => None
  end.

Definition dexpr_slot (dm : midx -> option (list slot)) (d : dexpr) : option slot :=
  match d with
  | DNone => Some SlNone
  | DCustom t s => option_map SlOne (lit t s)
  | DZero t => option_map SlOne (type_default dm t)
  | DVec => Some (SlVec [])
  | DPacked => Some (SlPF (Owned []))
  | DMap => Some (SlMap [])
  | DBad => None
  end.

(** derive(Default) *)
Definition derived_slot (dm : midx -> option (list slot)) (t : slot_type) : option slot :=
  match t with
  | TyOptionBox _ | TyOption _ => Some SlNone
  | TyPlain t => option_map SlOne (type_default dm t)
  | TyPackedFixed _ => Some (SlPF NoDataYet)
  | TyVec _ => Some (SlVec [])
  | TyMap _ _ => Some (SlMap [])
  | TyOneof _ => Some SlOneofNone
  | TyBad => None
  end.

Definition init_slot (dm : midx -> option (list slot)) (i : default_init) : option slot :=
  match i with
  | IDerived t => derived_slot dm t
  | IExpr d => dexpr_slot dm d
  | IOneofNone => Some SlOneofNone
  end.

(** [M::default()], with a bound on the nesting of structs by value.  Rust
    rejects structs of infinite size, so a sufficient bound exists whenever the
    generated code compiles. *)
Fixpoint default_msg (n : nat) (m : midx) : option (list slot) :=
  match n with
  | O => None
  | S n' => match get_message D m with
            | None => None
            | Some msg => all_some (map (init_slot (default_msg n')) (default_inits (d_syntax D) c msg))
            end
  end.

(** number of messages in the descriptor: a struct of finite size nests at
    most that deep *)
Fixpoint count_messages (m : message) : nat :=
  S (fold_right (fun x acc => count_messages x + acc)%nat O (m_messages m)).
Definition default_depth : nat :=
  S (fold_right (fun x acc => count_messages x + acc)%nat O (d_messages D)).
Definition message_default (m : midx) : option (list slot) := default_msg default_depth m.

(** value of a default expression in a comparison *)
Definition dexpr_value (d : dexpr) : option value :=
  match dexpr_slot message_default d with Some (SlOne v) => Some v | _ => None end.

(** ** get_size *)

(** sizes without usize overflow (the sizes of in-memory data) *)
Fixpoint value_size (e : sexpr) (v : value) {struct v} : Z :=
  match v with
  | VZ z =>
    match e with
    | ZVarint => sizeof_varint (wrapU 64 z)
    | ZSint32 => sizeof_sint32 z
    | ZSint64 => sizeof_sint64 z
    | ZConst n => n
    | _ => 0
    end
  | VBool b => match e with ZVarint => sizeof_varint (if b then 1 else 0) | ZConst n => n | _ => 0 end
  | VB b => match e with ZLen => sizeof_len (zlen b) | _ => 0 end
  | VMsg ss =>
    match e with
    | ZMessage m =>
      sizeof_len
        (match get_message D m with
         | None => 0
         | Some msg =>
           if is_unit msg then 0 (* types.rs:1761: default get_size *)
           else (fix go (sts : list size_stmt) (ss : list slot) {struct ss} : Z :=
                   match ss, sts with
                   | s :: ss', st :: sts' => slot_size st s + go sts' ss'
                   | _, _ => 0
                   end) (size_stmts c msg) ss
         end)
    | _ => 0
    end
  end
with slot_size (st : size_stmt) (s : slot) {struct s} : Z :=
  match s with
  | SlOne v =>
    match st with
    | ZsAlways ts e => ts + value_size e v
    | ZsUnlessDefault d t ts e =>
      match dexpr_value d with
      | Some w => if rust_eq t v w then 0 else ts + value_size e v
      | None => 0
      end
    | _ => 0
    end
  | SlNone => 0
  | SlSome v => match st with ZsOption ts e => ts + value_size e v | _ => 0 end
  | SlVec l =>
    match st with
    | ZsPacked ts e => match l with [] => 0 | _ => ts + sizeof_len (sum_sizes (value_size e) l) end
    | ZsRepeatedFixed ts w => (ts + w) * zlen l
    | ZsRepeated ts e => sum_sizes (fun v => ts + value_size e v) l
    | _ => 0
    end
  | SlPF p =>
    match st with
    | ZsPackedFixed ts k w => if pf_is_empty p then 0 else ts + sizeof_len (pf_len k p * w)
    | _ => 0
    end
  | SlMap l =>
    match st with
    | ZsMap ts me =>
      fold_right (fun '(k, v) acc =>
        (ts + sizeof_len (2 + value_size (me_size_k me) k + value_size (me_size_v me) v)) + acc) 0 l
    | _ => 0
    end
  | SlOneofNone => 0
  | SlOneof i v =>
    match st with
    | ZsOneof vs => match nth_error vs i with
                    | Some (ts, e) => ts + value_size e v
                    | None => 0
                    end
    | _ => 0
    end
  end.

Definition slots_size (sts : list size_stmt) (ss : list slot) : Z :=
  (fix go (sts : list size_stmt) (ss : list slot) {struct ss} : Z :=
     match ss, sts with
     | s :: ss', st :: sts' => slot_size st s + go sts' ss'
     | _, _ => 0
     end) sts ss.

(** [MessageWrite::get_size] of the generated struct *)
Definition message_size (m : midx) (ss : list slot) : Z :=
  match get_message D m with
  | None => 0
  | Some msg => if is_unit msg then 0 else slots_size (size_stmts c msg) ss
  end.

(** ** write_message *)

Definition write_scalar (s : scalar) (v : value) : wprog :=
  match s, v with
  | SInt32, VZ z => write_int32 z
  | SInt64, VZ z => write_int64 z
  | SUint32, VZ z => write_uint32 z
  | SUint64, VZ z => write_uint64 z
  | SSint32, VZ z => write_sint32 z
  | SSint64, VZ z => write_sint64 z
  | SBool, VBool b => write_bool b
  | SFixed64, VZ z => write_fixed64 z
  | SSfixed64, VZ z => write_sfixed64 z
  | SDouble, VZ z => write_double z
  | SFixed32, VZ z => write_fixed32 z
  | SSfixed32, VZ z => write_sfixed32 z
  | SFloat, VZ z => write_float z
  | _, _ => [OpPanic]
  end.

(** ill-typed combinations (which rustc rejects) are [OpPanic] *)
Fixpoint value_write (e : wexpr) (v : value) {struct v} : wprog :=
  match v with
  | VMsg ss =>
    match e with
    | WMessage m =>
      write_message
        (message_size m ss)
        (match get_message D m with
         | None => [OpPanic]
         | Some msg =>
           if is_unit msg then [] (* types.rs:1761: default write_message *)
           else (fix go (sts : list write_stmt) (ss : list slot) {struct ss} : wprog :=
                   match ss, sts with
                   | s :: ss', st :: sts' => slot_write st s ++ go sts' ss'
                   | [], [] => []
                   | _, _ => [OpPanic]
                   end) (write_stmts c msg) ss
         end)
    | _ => [OpPanic]
    end
  | _ =>
    match e with
    | WScalar s => write_scalar s v
    | WEnum => match v with VZ z => write_enum (wrapS 32 z) | _ => [OpPanic] end
    | WString => match v with VB b => write_string b | _ => [OpPanic] end
    | WBytes => match v with VB b => write_bytes b | _ => [OpPanic] end
    | _ => [OpPanic]
    end
  end
with slot_write (st : write_stmt) (s : slot) {struct s} : wprog :=
  match s with
  | SlOne v =>
    match st with
    | WsAlways tag e => write_with_tag tag (value_write e v)
    | WsUnlessDefault d t tag e =>
      match dexpr_value d with
      | Some w => if rust_eq t v w then [] else write_with_tag tag (value_write e v)
      | None => [OpPanic]
      end
    | _ => [OpPanic]
    end
  | SlNone => match st with WsOption _ _ => [] | _ => [OpPanic] end
  | SlSome v => match st with WsOption tag e => write_with_tag tag (value_write e v) | _ => [OpPanic] end
  | SlVec l =>
    match st with
    | WsPacked tag e z => write_packed_with_tag tag l (value_write e) (value_size z)
    | WsRepeated tag e => flat_map (fun v => write_with_tag tag (value_write e v)) l
    | _ => [OpPanic]
    end
  | SlPF p => match st with WsPackedFixed tag k => write_packed_fixed_with_tag k tag p | _ => [OpPanic] end
  | SlMap l =>
    match st with
    | WsMap tag me =>
      flat_map (fun '(k, v) =>
        write_with_tag tag
          (write_map (2 + value_size (me_size_k me) k + value_size (me_size_v me) v)
             (me_tag_k me) (value_write (me_write_k me) k)
             (me_tag_v me) (value_write (me_write_v me) v))) l
    | _ => [OpPanic]
    end
  | SlOneofNone => match st with WsOneof _ => [] | _ => [OpPanic] end
  | SlOneof i v =>
    match st with
    | WsOneof vs => match nth_error vs i with
                    | Some (tag, e) => write_with_tag tag (value_write e v)
                    | None => [OpPanic]
                    end
    | _ => [OpPanic]
    end
  end.

Definition slots_write (sts : list write_stmt) (ss : list slot) : wprog :=
  (fix go (sts : list write_stmt) (ss : list slot) {struct ss} : wprog :=
     match ss, sts with
     | s :: ss', st :: sts' => slot_write st s ++ go sts' ss'
     | [], [] => []
     | _, _ => [OpPanic]
     end) sts ss.

(** [MessageWrite::write_message] of the generated struct *)
Definition message_write (m : midx) (ss : list slot) : wprog :=
  match get_message D m with
  | None => [OpPanic]
  | Some msg => if is_unit msg then [] else slots_write (write_stmts c msg) ss
  end.

(** ** from_reader *)

Variable t : target.

Definition read_scalar (s : scalar) : rd value :=
  match s with
  | SInt32 => rmap VZ read_int32
  | SInt64 => rmap VZ read_int64
  | SUint32 => rmap VZ read_uint32
  | SUint64 => rmap VZ read_uint64
  | SSint32 => rmap VZ read_sint32
  | SSint64 => rmap VZ read_sint64
  | SBool => rmap VBool read_bool
  | SFixed64 => rmap VZ (read_fixed64 t)
  | SSfixed64 => rmap VZ (read_sfixed64 t)
  | SDouble => rmap VZ (read_double t)
  | SFixed32 => rmap VZ (read_fixed32 t)
  | SSfixed32 => rmap VZ (read_sfixed32 t)
  | SFloat => rmap VZ (read_float t)
  end.

(** [from] is the from_reader of messages *)
Definition read_value (from : midx -> rd (list slot)) (r : rexpr) : rd value :=
  match r with
  | RScalar s => read_scalar s
  | REnum e => rmap VZ (read_enum (enum_from_i32 e))
  | RString => rmap VB (read_string t)
  | RBytes => rmap VB (read_bytes t)
  | RMessage m => rmap VMsg (read_message t (from m))
  | RBad => lift Panic
  end.

(** [HashMap::insert] *)
Fixpoint map_insert (k v : value) (l : list (value * value)) : list (value * value) :=
  match l with
  | [] => [(k, v)]
  | (k', v') :: l' => if plain_eq k k' then (k', v) :: l' else (k', v') :: map_insert k v l'
  end.

(** one arm, on the struct field [s]; ill-typed combinations (which rustc
    rejects) are [Panic] *)
Definition run_action (fuel : nat) (from : midx -> rd (list slot)) (a : action) (s : slot) : rd slot :=
  match a with
  | ASetSomeBox r => rmap SlSome (read_value from r)
  | ASetSome r => rmap SlSome (read_value from r)
  | ASet r => rmap SlOne (read_value from r)
  | ASetPackedFixed k => rmap SlPF (read_packed_fixed_k t k)
  | ASetPacked r => rmap SlVec (read_packed t fuel (read_value from r))
  | APush r => match s with
               | SlVec l => rmap (fun v => SlVec (l ++ [v])) (read_value from r)
               | _ => lift Panic
               end
  | AInsert tk tv rk rv =>
    match s, type_default message_default tk, type_default message_default tv with
    | SlMap l, Some kd, Some vd =>
      rmap (fun '(k, v) => SlMap (map_insert k v l))
           (read_map t fuel kd vd (read_value from rk) (read_value from rv))
    | _, _, _ => lift Panic
    end
  | AOneof j r => rmap (SlOneof j) (read_value from r)
  | ABad => lift Panic
  end.

(** assignment to the [i]-th struct field *)
Fixpoint set_nth {A} (i : nat) (x : A) (l : list A) : list A :=
  match l, i with
  | [], _ => []
  | _ :: l', O => x :: l'
  | y :: l', S i' => y :: set_nth i' x l'
  end.

(** the match on the tag: first arm with that tag, else [read_unknown] *)
Definition run_field (fuel : nat) (from : midx -> rd (list slot))
           (arms : list (Z * (nat * action))) (tag : Z) (ss : list slot) : rd (list slot) :=
  match find (fun '(n, _) => n =? tag) arms with
  | Some (_, (i, a)) =>
    match nth_error ss i with
    | Some s => rmap (fun s' => set_nth i s' ss) (run_action fuel from a s)
    | None => lift Panic
    end
  | None => read_unknown t tag >> ret ss
  end.

(** types.rs:1724-1744: [while !r.is_eof() { match r.next_tag(bytes) { .. } }] *)
Fixpoint msg_loop (lfuel : nat) (step : Z -> list slot -> rd (list slot)) (ss : list slot) : rd (list slot) :=
  match lfuel with
  | O => lift NoFuel
  | S lfuel' =>
    eof <- is_eof ;;
    if (eof : bool) then ret ss
    else tag <- next_tag ;; ss' <- step tag ss ;; msg_loop lfuel' step ss'
  end.

(** types.rs:1693-1751 [write_impl_message_read].  [fuel] bounds the nesting
    of messages and the number of rounds of every loop. *)
Fixpoint from_reader (fuel : nat) (m : midx) : rd (list slot) :=
  match fuel with
  | O => lift NoFuel
  | S n =>
    match get_message D m, message_default m with
    | Some msg, Some d =>
      if is_unit msg then read_to_end >> ret d
      else msg_loop fuel (run_field n (from_reader n) (match_arms c msg)) d
    | _, _ => lift Panic
    end
  end.

(** the generated TryFrom<&[u8]> / the body of {name}OwnedInner::new
    (types.rs:1919-1935, 1800-1815): from_reader on the whole buffer *)
Definition decode (fuel : nat) (m : midx) (bs : bytes) : outcome (list slot) :=
  fst (from_reader fuel m bs (from_bytes bs)).

End Semantics.
