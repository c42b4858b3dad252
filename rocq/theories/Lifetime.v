(** The lifetime parameter ['a] of the generated types: which structs and
    enums declare it and which types of their fields mention it
    (pb-rs/src/types.rs).

    Simplified: the text of a type is a small tree [rty]; the names of types
    are left out ([Rust paths are in Paths.v]). *)
From Verif Require Import Base Schema Gen Passes GenCheck.

(** [Iterator::any] with a closure that can fail *)
Fixpoint gany {A} (g : A -> gres bool) (l : list A) : gres bool :=
  match l with
  | [] => GOk false
  | x :: l' => gbind (g x) (fun b => if b then GOk true else gany g l')
  end.

(** types.rs:354-378 [FieldType::has_lifetime]; [rec] is the recursive call on
    the message with an index *)
Fixpoint type_has_lifetime (rec : midx -> gres bool) (packed : bool) (t : field_type) : gres bool :=
  match t with
  | TStringCow | TBytesCow => GOk true
  | TMessage i => rec i
  | TFixed64 | TSfixed64 | TDouble | TFixed32 | TSfixed32 | TString | TBytes | TFloat => GOk packed
  | TMap k v => gbind (type_has_lifetime rec false k) (fun b =>
                if b then GOk true else type_has_lifetime rec false v)
  | _ => GOk false
  end.

(** types.rs:1360-1376 [Message::has_lifetime].  [ignore] is the vector of the
    messages on the way to this one: pushed before and popped after the fields
    are looked at.  The type is looked at before the visibility of the field. *)
Fixpoint message_has_lifetime (c : config) (d : file_descriptor) (fuel : nat) (ignore : list midx)
    (m : message) : gres bool :=
  if existsb (midx_eqb (m_index m)) ignore then GOk false else
  match fuel with
  | O => GErr GenNoFuel
  | S n =>
    gany (fun f => gbind (type_has_lifetime (fun i => match get_message d i with
                                                      | Some m' => message_has_lifetime c d n (ignore ++ [m_index m]) m'
                                                      | None => GErr GenPanic
                                                      end) (f_is_packed f) (f_typ f))
                         (fun b => GOk (b && visible c f)))
         (all_fields m)
  end.

(** Enough fuel: no message is on the way twice. *)
Definition lifetime_fuel (d : file_descriptor) : nat := S (length (all_messages d)).
Definition index_has_lifetime (c : config) (d : file_descriptor) (ignore : list midx) (i : midx) : gres bool :=
  match get_message d i with
  | Some m => message_has_lifetime c d (lifetime_fuel d) ignore m
  | None => GErr GenPanic
  end.

(** types.rs:2255-2261 [OneOf::has_lifetime] *)
Definition oneof_has_lifetime (c : config) (d : file_descriptor) (o : oneof) : gres bool :=
  gany (fun f => gbind (type_has_lifetime (index_has_lifetime c d []) (f_is_packed f) (f_typ f))
                       (fun b => GOk (b && visible c f))) (o_fields o).

(** The text of a type. *)
Inductive rty :=
| RPlain                          (* numbers, bool, String, Vec<u8>, enums *)
| RCow                            (* Cow<'a, str>, Cow<'a, [u8]> *)
| RMessage (i : midx) (lt : bool) (* M or M<'a> *)
| RKVMap (k v : rty)
| RWrap (t : rty)                 (* Option<..>, Box<..>, Vec<..> *)
| RPackedFixed (t : rty)          (* PackedFixed<'a, ..> *)
| ROneof (k : nat) (lt : bool).   (* the enum of the k-th oneof of the message *)

(** types.rs:380-413 [rust_type] *)
Fixpoint rust_type (c : config) (d : file_descriptor) (t : field_type) : gres rty :=
  match t with
  | TStringCow | TBytesCow => GOk RCow
  | TMessage i => gbind (index_has_lifetime c d [] i) (fun b => GOk (RMessage i b))
  | TMap k v => gbind (rust_type c d k) (fun k' => gbind (rust_type c d v) (fun v' => GOk (RKVMap k' v')))
  | TMessageOrEnum _ => GErr GenPanic
  | _ => GOk RPlain
  end.

(** types.rs:812-837 [Field::get_type] *)
Definition field_rty (c : config) (d : file_descriptor) (f : field) : gres rty :=
  gbind (rust_type c d (f_typ f)) (fun t => GOk (
    if f_boxed f then RWrap (RWrap t) else
    match generated_type_of (f_freq f) with
    | SingularType => if freq_is_optional (f_freq f) then RWrap t else t
    | ArrayLikeType => if f_is_packed f && is_fixed_size (f_typ f) && negb (c_dont_use_cow c)
                       then RPackedFixed t else RWrap t
    | MapType => t
    end)).

(** A generated struct or enum: does its header have [<'a>], and the types of
    its fields or variants *)
Record rust_item := mkItem { it_declares : bool; it_types : list rty }.

(** types.rs:2283-2320 [OneOf::write_definition] *)
Definition oneof_item (c : config) (d : file_descriptor) (o : oneof) : gres rust_item :=
  gbind (oneof_has_lifetime c d o) (fun b =>
  gbind (gmap (fun f => gbind (rust_type c d (f_typ f)) (fun t => GOk (if f_boxed f then RWrap t else t)))
              (filter (visible c) (o_fields o))) (fun ts =>
  GOk (mkItem b ts))).

(** types.rs:1577-1629 [Message::write_definition], 839-855
    [Field::write_definition] and 2373-2397 [OneOf::write_message_definition].
    With --dont-use-cow the message itself is in [ignore] from the start. *)
Definition message_item (c : config) (d : file_descriptor) (m : message) : gres rust_item :=
  if is_unit m then GOk (mkItem false []) else
  gbind (message_has_lifetime c d (lifetime_fuel d) (if c_dont_use_cow c then [m_index m] else []) m) (fun b =>
  gbind (gmap (field_rty c d) (visible_fields c m)) (fun ts =>
  gbind (gmap (fun '(k, o) => gbind (oneof_has_lifetime c d o) (fun lt => GOk (ROneof k lt)))
              (number_from 0 (m_oneofs m))) (fun os =>
  GOk (mkItem b (ts ++ os))))).
