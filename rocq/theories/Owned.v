(** The owned structs ([--owned]): a message together with the buffer it was read
    from.  The message borrows from the buffer beside it; the generated code does
    that with [unsafe] lifetime changes.  This file models programs that use the
    generated functions: what they do with memory, and which of them Rust's borrow
    checker accepts.

    Modelled: pb-rs/src/types.rs:1780-1899 [write_impl_owned] (the text of the
    functions it prints, [new], [buf], [proto], [proto_mut], [try_from], [try_into],
    [from]) and 1919-1935 [write_impl_try_from].
    Simplified: a heap allocation is a number; the box around the struct, which the
    code never moves out of, is left out; a message is a shape (its numbers, counts
    and flags) and the list of its strings, bytes and packed vectors, the only
    places where the lifetime occurs; capacity of vectors is left out. *)
From Verif Require Import Base.

(** ** Programs *)

(** A statement of a client.  Variables are numbered in the order of their
    definition; [SNew], [SDecode], [STryFrom], [SClone], [SCopy], [SFrom],
    [STryInto], [SMove], [STake] define the next one. *)
Inductive stmt :=
| SNew (bs : bytes)      (* let v = vec![..]; *)
| SDecode (v : nat)      (* let m = Name::from_reader(&mut BytesReader::from_bytes(&v), &v)?; *)
| STryFrom (v : nat)     (* let o = NameOwned::try_from(v)?; *)
| SClone (o : nat)       (* let m = o.proto().clone(); *)
| SCopy (m : nat)        (* let n = m with every Cow made Cow::Owned; *)
| SFrom (m : nat)        (* let o = NameOwned::from(m); *)
| STryInto (o : nat)     (* let v: Vec<u8> = o.try_into()?; *)
| SMove (x : nat)        (* let y = x; *)
| STake (o : nat)        (* let m = core::mem::take(o.proto_mut()); *)
| SReplace (o m : nat)   (* *o.proto_mut() = m; *)
| SSwap (o p : nat)      (* core::mem::swap(o.proto_mut(), p.proto_mut()); *)
| SPush (v : nat) (bs : bytes) (* v.extend(..): may move the bytes to a new allocation *)
| SRead (x : nat)        (* print everything that x (or x.proto()) holds *)
| SBuf (o : nat)         (* print o.buf() *)
| SDrop (x : nat)        (* drop(x); *)
.
Definition program := list stmt.

(** a string, bytes value or packed vector that a decoder returns: a piece of its
    input, given by offset and length, or a literal of the program *)
Inductive piece := Sub (off len : nat) | Lit (bs : bytes).

Definition piece_in (bs : bytes) (p : piece) : Prop :=
  match p with Sub off len => (off + len <= length bs)%nat | Lit _ => True end.
(** what the piece contains *)
Definition piece_bytes (bs : bytes) (p : piece) : bytes :=
  match p with Sub off len => firstn len (skipn off bs) | Lit l => l end.

(** replacing an element *)
Fixpoint put {A} (i : nat) (x : A) (l : list A) : list A :=
  match l, i with
  | [], _ => []
  | _ :: l', O => x :: l'
  | y :: l', S i' => y :: put i' x l'
  end.

(** What is printed. *)
Inductive printed (shape : Type) := PrBytes (bs : bytes) | PrMsg (s : shape) (strings : list bytes).
Arguments PrBytes {shape}. Arguments PrMsg {shape}.

Section Owned.
Variable shape : Type.
(** [from_reader] of the message on a whole buffer: [None] is an error *)
Variable dec : bytes -> option (shape * list piece).
(** [write_message] of the message *)
Variable enc : shape -> list bytes -> option bytes.
(** [Name::default()] *)
Variable dflt : shape * list bytes.

(** ** What programs mean: values

    In this semantics there is no memory: a message is what it contains.  *)
Inductive pval := PVec (bs : bytes) | POwned (buf : bytes) (s : shape) (strings : list bytes) | PMsg (s : shape) (strings : list bytes).
Definition penv := list (option pval).

(** The result of a statement: the next state; an error, which ends the program
    with [?]; a use of memory that is not allocated; a panic; or a use of a
    variable that does not exist or has another type. *)
Inductive result (A : Type) := Next (a : A) | Stop (a : A) | Undefined | Panicked | Ill.
Arguments Next {A}. Arguments Stop {A}. Arguments Undefined {A}. Arguments Panicked {A}. Arguments Ill {A}.

Definition pget (e : penv) (x : nat) : option pval := match nth_error e x with Some (Some v) => Some v | _ => None end.
Definition pstep (i : stmt) (e : penv) (out : list (printed shape)) : result (penv * list (printed shape)) :=
  match i with
  | SNew bs => Next (e ++ [Some (PVec bs)], out)
  | SDecode v =>
    match pget e v with
    | Some (PVec bs) =>
      match dec bs with
      | Some (s, ps) => Next (e ++ [Some (PMsg s (map (piece_bytes bs) ps))], out)
      | None => Stop (e, out)
      end
    | _ => Ill
    end
  | STryFrom v =>
    match pget e v with
    | Some (PVec bs) =>
      match dec bs with
      | Some (s, ps) => Next (put v None e ++ [Some (POwned bs s (map (piece_bytes bs) ps))], out)
      | None => Stop (put v None e, out)
      end
    | _ => Ill
    end
  | SClone o => match pget e o with Some (POwned _ s l) => Next (e ++ [Some (PMsg s l)], out) | _ => Ill end
  | SCopy m => match pget e m with Some (PMsg s l) => Next (e ++ [Some (PMsg s l)], out) | _ => Ill end
  | SFrom m => match pget e m with Some (PMsg s l) => Next (put m None e ++ [Some (POwned [] s l)], out) | _ => Ill end
  | STryInto o =>
    match pget e o with
    | Some (POwned _ s l) =>
      match enc s l with
      | Some bs => Next (put o None e ++ [Some (PVec bs)], out)
      | None => Stop (put o None e, out)
      end
    | _ => Ill
    end
  | SMove x => match pget e x with Some v => Next (put x None e ++ [Some v], out) | _ => Ill end
  | STake o => match pget e o with Some (POwned b s l) => Next (put o (Some (POwned b (fst dflt) (snd dflt))) e ++ [Some (PMsg s l)], out) | _ => Ill end
  | SReplace o m =>
    match pget e o, pget e m with
    | Some (POwned b _ _), Some (PMsg s l) => Next (put o (Some (POwned b s l)) (put m None e), out)
    | _, _ => Ill
    end
  | SSwap o p =>
    match pget e o, pget e p with
    | Some (POwned b s l), Some (POwned b' s' l') => Next (put o (Some (POwned b s' l')) (put p (Some (POwned b' s l)) e), out)
    | _, _ => Ill
    end
  | SPush v bs => match pget e v with Some (PVec b) => Next (put v (Some (PVec (b ++ bs))) e, out) | _ => Ill end
  | SRead x =>
    match pget e x with
    | Some (PVec bs) => Next (e, out ++ [PrBytes bs])
    | Some (POwned _ s l) | Some (PMsg s l) => Next (e, out ++ [PrMsg s l])
    | None => Ill
    end
  | SBuf o => match pget e o with Some (POwned b _ _) => Next (e, out ++ [PrBytes b]) | _ => Ill end
  | SDrop x => match pget e x with Some _ => Next (put x None e, out) | _ => Ill end
  end.

(** ** What programs do: memory *)

(** [Cow]: a pointer into an allocation, an allocation of its own, or a pointer
    into the program text *)
Inductive cow := Bor (a off len : nat) | Own (a : nat) | Static (bs : bytes).
Definition mmsg : Type := shape * list cow.
(** types.rs:1798-1802, 1826-1828: [NameOwned] is its [buf] and its [proto] *)
Inductive mval := HVec (a : nat) | HOwned (buf : nat) (proto : option mmsg) | HMsg (m : mmsg).
(** allocated memory, and the next unused number *)
Record heap := mkHeap { mem : nat -> option bytes; next : nat }.
Definition menv := list (option mval).
Definition mget (e : menv) (x : nat) : option mval := match nth_error e x with Some (Some v) => Some v | _ => None end.

Definition alloc (h : heap) (bs : bytes) : nat * heap :=
  (next h, mkHeap (fun a => if (a =? next h)%nat then Some bs else mem h a) (S (next h))).
(** freeing what is not allocated is undefined *)
Definition free (h : heap) (a : nat) : option heap :=
  match mem h a with
  | Some _ => Some (mkHeap (fun b => if (b =? a)%nat then None else mem h b) (next h))
  | None => None
  end.
Fixpoint free_all (h : heap) (l : list nat) : option heap :=
  match l with [] => Some h | a :: l' => match free h a with Some h' => free_all h' l' | None => None end end.

(** reading a [Cow]; [None]: not allocated *)
Definition cow_bytes (h : heap) (c : cow) : option bytes :=
  match c with
  | Bor a off len =>
    match mem h a with
    | Some bs => if (off + len <=? length bs)%nat then Some (firstn len (skipn off bs)) else None
    | None => None
    end
  | Own a => mem h a
  | Static bs => Some bs
  end.
Fixpoint read_cows (h : heap) (l : list cow) : option (list bytes) :=
  match l with
  | [] => Some []
  | c :: l' => match cow_bytes h c, read_cows h l' with Some b, Some r => Some (b :: r) | _, _ => None end
  end.
(** what is freed when a message is dropped *)
Definition owned_cows (l : list cow) : list nat := flat_map (fun c => match c with Own a => [a] | _ => [] end) l.
(** and a variable *)
Definition vowns (v : mval) : list nat :=
  match v with
  | HVec a => [a]
  | HOwned a (Some (_, l)) => a :: owned_cows l
  | HOwned a None => [a]
  | HMsg (_, l) => owned_cows l
  end.
(** [#[derive(Clone)]]: borrowed parts are copied as pointers, owned ones get new
    memory; with [all] everything gets new memory *)
Definition clone_cow (all : bool) (h : heap) (c : cow) : option (cow * heap) :=
  match c, all with
  | Own _, _ | _, true => match cow_bytes h c with Some bs => let (a, h') := alloc h bs in Some (Own a, h') | None => None end
  | _, false => Some (c, h)
  end.
Fixpoint clone_cows (all : bool) (h : heap) (l : list cow) : option (list cow * heap) :=
  match l with
  | [] => Some ([], h)
  | c :: l' =>
    match clone_cow all h c with
    | Some (c', h1) => match clone_cows all h1 l' with Some (l2, h2) => Some (c' :: l2, h2) | None => None end
    | None => None
    end
  end.
(** a decoded piece of the allocation [a] *)
Definition piece_cow (a : nat) (p : piece) : cow := match p with Sub off len => Bor a off len | Lit l => Static l end.

(** 1805-1823 [new]: [buf] is moved into the box and the message is read from it
    there; on an error the box is dropped.  [Some None] is the error. *)
Definition owned_new (h : heap) (buf : nat) : result (option mval * heap) :=
  let inner := HOwned buf None in
  match mem h buf with
  | None => Undefined
  | Some bs =>
    match dec bs with
    | None => match free_all h (vowns inner) with Some h' => Stop (None, h') | None => Undefined end
    | Some (s, ps) => Next (Some (HOwned buf (Some (s, map (piece_cow buf) ps))), h)
    end
  end.
(** 1832-1834 [buf] *)
Definition owned_buf (o : mval) : option nat := match o with HOwned a _ => Some a | _ => None end.
(** 1836-1839 [proto] and 1841-1846 [proto_mut]: [unwrap] panics on [None] *)
Definition owned_proto (o : mval) : result mmsg :=
  match o with HOwned _ (Some m) => Next m | HOwned _ None => Panicked | _ => Ill end.
(** 1876-1886 [from] *)
Definition owned_from (h : heap) (m : mmsg) : mval * heap := let (a, h') := alloc h [] in (HOwned a (Some m), h').
(** 1865-1874 [try_into]: a new vector with what [write_message] writes; [self] is
    dropped at the end, also on an error *)
Definition owned_try_into (h : heap) (o : mval) : result (option nat * heap) :=
  match owned_proto o with
  | Next (s, l) =>
    match read_cows h l with
    | None => Undefined
    | Some strings =>
      match enc s strings with
      | Some bs => let (a, h') := alloc h bs in
                   match free_all h' (vowns o) with Some h2 => Next (Some a, h2) | None => Undefined end
      | None => match free_all h (vowns o) with Some h2 => Stop (None, h2) | None => Undefined end
      end
    end
  | Panicked => Panicked
  | _ => Ill
  end.

Definition mstate : Type := heap * menv * list (printed shape).
Definition mstep (i : stmt) (st : mstate) : result mstate :=
  let '(h, e, out) := st in
  match i with
  | SNew bs => let (a, h') := alloc h bs in Next (h', e ++ [Some (HVec a)], out)
  | SDecode v =>
    match mget e v with
    | Some (HVec a) =>
      match mem h a with
      | None => Undefined
      | Some bs =>
        match dec bs with
        | Some (s, ps) => Next (h, e ++ [Some (HMsg (s, map (piece_cow a) ps))], out)
        | None => Stop st
        end
      end
    | _ => Ill
    end
  | STryFrom v =>
    match mget e v with
    | Some (HVec a) =>
      match owned_new h a with
      | Next (Some o, h') => Next (h', put v None e ++ [Some o], out)
      | Stop (_, h') => Stop (h', put v None e, out)
      | Undefined => Undefined
      | _ => Ill
      end
    | _ => Ill
    end
  | SClone o =>
    match mget e o with
    | Some w =>
      match owned_proto w with
      | Next (s, l) => match clone_cows false h l with Some (l', h') => Next (h', e ++ [Some (HMsg (s, l'))], out) | None => Undefined end
      | Panicked => Panicked
      | _ => Ill
      end
    | _ => Ill
    end
  | SCopy m =>
    match mget e m with
    | Some (HMsg (s, l)) => match clone_cows true h l with Some (l', h') => Next (h', e ++ [Some (HMsg (s, l'))], out) | None => Undefined end
    | _ => Ill
    end
  | SFrom m =>
    match mget e m with
    | Some (HMsg p) => let (o, h') := owned_from h p in Next (h', put m None e ++ [Some o], out)
    | _ => Ill
    end
  | STryInto o =>
    match mget e o with
    | Some w =>
      match owned_try_into h w with
      | Next (Some a, h') => Next (h', put o None e ++ [Some (HVec a)], out)
      | Stop (_, h') => Stop (h', put o None e, out)
      | Undefined => Undefined
      | Panicked => Panicked
      | _ => Ill
      end
    | _ => Ill
    end
  | SMove x => match mget e x with Some v => Next (h, put x None e ++ [Some v], out) | _ => Ill end
  | STake o =>
    match mget e o with
    | Some (HOwned a q) =>
      match owned_proto (HOwned a q) with
      | Next p => Next (h, put o (Some (HOwned a (Some (fst dflt, map Static (snd dflt))))) e ++ [Some (HMsg p)], out)
      | Panicked => Panicked
      | _ => Ill
      end
    | _ => Ill
    end
  | SReplace o m =>
    match mget e o, mget e m with
    | Some (HOwned a q), Some (HMsg p) =>
      match owned_proto (HOwned a q) with
      | Next (_, l) => match free_all h (owned_cows l) with
                       | Some h' => Next (h', put o (Some (HOwned a (Some p))) (put m None e), out)
                       | None => Undefined
                       end
      | Panicked => Panicked
      | _ => Ill
      end
    | _, _ => Ill
    end
  | SSwap o p =>
    match mget e o, mget e p with
    | Some (HOwned a q), Some (HOwned a' q') =>
      match owned_proto (HOwned a q), owned_proto (HOwned a' q') with
      | Next m, Next m' => Next (h, put o (Some (HOwned a (Some m'))) (put p (Some (HOwned a' (Some m))) e), out)
      | Panicked, _ | _, Panicked => Panicked
      | _, _ => Ill
      end
    | _, _ => Ill
    end
  | SPush v bs =>
    match mget e v with
    | Some (HVec a) =>
      match mem h a with
      | None => Undefined
      | Some old => let (b, h1) := alloc h (old ++ bs) in
                    match free h1 a with Some h2 => Next (h2, put v (Some (HVec b)) e, out) | None => Undefined end
      end
    | _ => Ill
    end
  | SRead x =>
    match mget e x with
    | Some (HVec a) => match mem h a with Some bs => Next (h, e, out ++ [PrBytes bs]) | None => Undefined end
    | Some (HMsg (s, l)) => match read_cows h l with Some r => Next (h, e, out ++ [PrMsg s r]) | None => Undefined end
    | Some w =>
      match owned_proto w with
      | Next (s, l) => match read_cows h l with Some r => Next (h, e, out ++ [PrMsg s r]) | None => Undefined end
      | Panicked => Panicked
      | _ => Ill
      end
    | None => Ill
    end
  | SBuf o =>
    match mget e o with
    | Some w => match owned_buf w with
                | Some a => match mem h a with Some bs => Next (h, e, out ++ [PrBytes bs]) | None => Undefined end
                | None => Ill
                end
    | None => Ill
    end
  | SDrop x =>
    match mget e x with
    | Some v => match free_all h (vowns v) with Some h' => Next (h', put x None e, out) | None => Undefined end
    | None => Ill
    end
  end.

(** ** Running *)
Fixpoint prun (p : program) (e : penv) (out : list (printed shape)) : result (penv * list (printed shape)) :=
  match p with
  | [] => Next (e, out)
  | i :: p' => match pstep i e out with Next (e', out') => prun p' e' out' | r => r end
  end.
Fixpoint mrun (p : program) (st : mstate) : result mstate :=
  match p with
  | [] => Next st
  | i :: p' => match mstep i st with Next st' => mrun p' st' | r => r end
  end.
(** at the end, or on an error, all variables are dropped *)
Definition drop_all (st : mstate) : option (heap * list (printed shape)) :=
  let '(h, e, out) := st in
  match free_all h (flat_map (fun v => match v with Some v => vowns v | None => [] end) e) with
  | Some h' => Some (h', out)
  | None => None
  end.
Definition empty_heap : heap := mkHeap (fun _ => None) 0.

(** ** The borrow checker *)

(** The type of a variable; a message has the variables that it borrows from
    ([Name<'a>]; no variables is [Name<'static>]). *)
Inductive ty := TyVec | TyOwned | TyMsg (loans : list nat).
Definition tenv := list (option ty).
Definition tget (g : tenv) (x : nat) : option ty := match nth_error g x with Some (Some t) => Some t | _ => None end.
(** A variable that is moved, dropped or changed ends what borrows from it: it
    cannot be used any more. *)
Definition kill (x : nat) (g : tenv) : tenv :=
  map (fun t => match t with Some (TyMsg l) => if existsb (Nat.eqb x) l then None else t | _ => t end) g.

(** The signatures of the generated functions, as the borrow checker uses them.
    [proto<'a>(&'a self) -> &'a Name<'a>]: a clone borrows from [o].
    [proto_mut<'a>(&'a mut self) -> &'a mut Name<'a>]: ['a] may be as short as the
    statement, so that every message that can be used can be assigned; with
    [strict], only messages that borrow nothing.  [From<Name<'static>>]: only
    messages that borrow nothing. *)
Definition check (strict : bool) (i : stmt) (g : tenv) : option tenv :=
  match i with
  | SNew _ => Some (g ++ [Some TyVec])
  | SDecode v => match tget g v with Some TyVec => Some (g ++ [Some (TyMsg [v])]) | _ => None end
  | STryFrom v => match tget g v with Some TyVec => Some (kill v (put v None g) ++ [Some TyOwned]) | _ => None end
  | SClone o => match tget g o with Some TyOwned => Some (g ++ [Some (TyMsg [o])]) | _ => None end
  | SCopy m => match tget g m with Some (TyMsg _) => Some (g ++ [Some (TyMsg [])]) | _ => None end
  | SFrom m => match tget g m with Some (TyMsg []) => Some (kill m (put m None g) ++ [Some TyOwned]) | _ => None end
  | STryInto o => match tget g o with Some TyOwned => Some (kill o (put o None g) ++ [Some TyVec]) | _ => None end
  | SMove x => match tget g x with Some t => Some (kill x (put x None g) ++ [Some t]) | _ => None end
  | STake o => match tget g o with Some TyOwned => Some (kill o g ++ [Some (TyMsg [o])]) | _ => None end
  | SReplace o m =>
    match tget g o, tget (kill o g) m with
    | Some TyOwned, Some (TyMsg l) => if strict && negb (match l with [] => true | _ => false end) then None else Some (kill m (put m None (kill o g)))
    | _, _ => None
    end
  | SSwap o p =>
    match tget g o, tget g p with
    | Some TyOwned, Some TyOwned => if strict || (o =? p)%nat then None else Some (kill o (kill p g))
    | _, _ => None
    end
  | SPush v _ => match tget g v with Some TyVec => Some (kill v g) | _ => None end
  | SRead x => match tget g x with Some _ => Some g | _ => None end
  | SBuf o => match tget g o with Some TyOwned => Some g | _ => None end
  | SDrop x => match tget g x with Some _ => Some (kill x (put x None g)) | _ => None end
  end.
Fixpoint accepted (strict : bool) (p : program) (g : tenv) : bool :=
  match p with
  | [] => true
  | i :: p' => match check strict i g with Some g' => accepted strict p' g' | None => false end
  end.
End Owned.
