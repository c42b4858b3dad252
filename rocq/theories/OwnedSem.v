(** What the functions of the owned structs do, from their syntax trees.

    This file is a specification: it gives meaning to a small part of Rust, with
    memory, moves, references to places and drops at the end of scopes, and does
    not mention the generator.  RustSem.v gives meaning to the rest of the
    generated code, which needs none of these.

    Simplified: [Box] and [Pin] are the value inside them (the code never moves
    out of a box); types, lifetimes and the type arguments of [transmute] are not
    looked at; a reference to a reference is the inner reference; the memory of
    the program is that of Owned.v, that is, the vectors and the owned strings of
    messages; a panic ends the program; what a failed [write_message] has written
    before is left out (the buffer cannot be seen any more). *)
From Coq Require Import String Ascii Arith.
From Verif Require Import Base Schema Owned RustLex RustAst.
Import Schema StringSyntax.
Local Open Scope string_scope.
Local Open Scope list_scope.

(** ** Places and values *)
Inductive pstep_ := InField (f : text) | InSome.
(** a variable, by its number, and a way into its value *)
Definition place : Type := nat * list pstep_.
Definition inside (p : place) (s : pstep_) : place := (fst p, snd p ++ [s]).

Section Sem.
Variable shape : Type.
(** [from_reader] and [write_message] of the message, as in Owned.v *)
Variable dec : bytes -> option (shape * list piece).
Variable enc : shape -> list bytes -> option bytes.
(** the name of the message; it hides what Rust has under that name *)
Variable is_own : text -> bool.
(** the functions of the types of the file: type, name *)
Variable fns : text -> text -> option rfn.
(** the fields of the structs of the file, in order *)
Variable decl : text -> option (list text).

Inductive oval :=
| WVec (a : nat)                       (* a vector: its allocation *)
| WMsg (m : mmsg shape)                (* a message *)
| WOpt (o : option oval)
| WRes (o : option oval)               (* Ok, or Err *)
| WStruct (n : text) (fs : list (text * oval))
| WUnit
| WRef (p : place)
| WReader (len : nat)                  (* BytesReader over that many bytes *)
| WWriter (p : place).                 (* Writer into a vector *)

(** what is freed when the value is dropped: the fields of a struct in order *)
Fixpoint wowns (v : oval) : list nat :=
  match v with
  | WVec a => [a]
  | WMsg (_, l) => owned_cows l
  | WOpt (Some w) | WRes (Some w) => wowns w
  | WStruct _ fs => (fix go (fs : list (text * oval)) : list nat := match fs with [] => [] | (_, w) :: fs' => wowns w ++ go fs' end) fs
  | _ => []
  end.

Fixpoint get_field (f : text) (fs : list (text * oval)) : option oval :=
  match fs with [] => None | (g, w) :: fs' => if String.eqb f g then Some w else get_field f fs' end.
Fixpoint set_field (f : text) (x : oval) (fs : list (text * oval)) : list (text * oval) :=
  match fs with [] => [] | (g, w) :: fs' => if String.eqb f g then (g, x) :: fs' else (g, w) :: set_field f x fs' end.
Fixpoint get_path (v : oval) (p : list pstep_) : option oval :=
  match p with
  | [] => Some v
  | InField f :: p' => match v with WStruct _ fs => match get_field f fs with Some w => get_path w p' | None => None end | _ => None end
  | InSome :: p' => match v with WOpt (Some w) => get_path w p' | _ => None end
  end.
Fixpoint set_path (v : oval) (p : list pstep_) (x : oval) : option oval :=
  match p with
  | [] => Some x
  | InField f :: p' =>
    match v with
    | WStruct n fs => match get_field f fs with
                      | Some w => match set_path w p' x with Some w' => Some (WStruct n (set_field f w' fs)) | None => None end
                      | None => None
                      end
    | _ => None
    end
  | InSome :: p' => match v with WOpt (Some w) => match set_path w p' x with Some w' => Some (WOpt (Some w')) | None => None end | _ => None end
  end.

(** ** States *)

(** the variables in the order of their definition; [None]: moved away *)
Definition env : Type := list (text * option oval).
Definition state : Type := heap * env.
Definition get_place (e : env) (p : place) : option oval :=
  match nth_error e (fst p) with Some (_, Some v) => get_path v (snd p) | _ => None end.
Definition set_place (e : env) (p : place) (x : oval) : option env :=
  match nth_error e (fst p) with
  | Some (n, Some v) => match set_path v (snd p) x with Some v' => Some (put (fst p) (n, Some v') e) | None => None end
  | _ => None
  end.
(** the last variable of a name *)
Fixpoint find_var_from (i : nat) (x : text) (e : env) (found : option nat) : option nat :=
  match e with [] => found | (y, _) :: e' => find_var_from (S i) x e' (if String.eqb x y then Some i else found) end.
Definition find_var (x : text) (e : env) : option nat := find_var_from 0 x e None.
(** through a reference *)
Definition strip (e : env) (p : place) : place := match get_place e p with Some (WRef q) => q | _ => p end.

(** [RStop]: an error that [?] returns; [RUndef]: memory that is not allocated;
    [RIll]: nothing that Rust accepts, or not modelled *)
Inductive res (A : Type) := RNext (a : A) (st : state) | RStop (st : state) | RUndef | RPanic | RIll.
Arguments RNext {A}. Arguments RStop {A}. Arguments RUndef {A}. Arguments RPanic {A}. Arguments RIll {A}.
Definition bnd {A B} (r : res A) (k : A -> state -> res B) : res B :=
  match r with RNext a st => k a st | RStop st => RStop st | RUndef => RUndef | RPanic => RPanic | RIll => RIll end.

(** dropping values *)
Definition drop_owns {A} (l : list nat) (st : state) (k : state -> res A) : res A :=
  match free_all (fst st) l with Some h => k (h, snd st) | None => RUndef end.
(** the last variables, the last one first, down to the first [n] *)
Definition env_owns (e : env) : list nat := flat_map (fun b => match snd b with Some v => wowns v | None => [] end) (rev e).
Definition leave {A} (n : nat) (st : state) (k : state -> res A) : res A :=
  match free_all (fst st) (env_owns (skipn n (snd st))) with Some h => k (h, firstn n (snd st)) | None => RUndef end.

(** ** Expressions *)

(** a place, or a value that is in no place *)
Inductive opnd := OpPlace (p : place) | OpVal (v : oval).
Definition copied (v : oval) : bool := match v with WUnit | WRef _ => true | _ => false end.
(** using an operand as a value moves it, unless it is copied; only whole
    variables are moved *)
Definition take (o : opnd) (st : state) : res oval :=
  match o with
  | OpVal v => RNext v st
  | OpPlace p =>
    match get_place (snd st) p with
    | Some v => if copied v then RNext v st
                else match snd p, nth_error (snd st) (fst p) with
                     | [], Some (x, _) => RNext v (fst st, put (fst p) (x, None) (snd st))
                     | _, _ => RIll
                     end
    | None => RIll
    end
  end.
(** the place that a method is called on *)
Definition receiver (o : opnd) (e : env) : option place :=
  match o with OpPlace p => Some (strip e p) | OpVal (WRef q) => Some q | OpVal _ => None end.
Definition names_of (p : list pseg) : list text := map (fun s => match s with PSeg n _ => n end) p.
Definition store (h : heap) (a : nat) (bs : bytes) : heap := mkHeap (fun b => if (b =? a)%nat then Some bs else mem h b) (next h).

(** the functions that are not of the file *)
Definition builtin (p : list text) (args : list oval) (st : state) : res oval :=
  let (h, e) := st in
  match p, args with
  | ["Ok"], [v] => RNext (WRes (Some v)) st
  | ["Some"], [v] => RNext (WOpt (Some v)) st
  | ["Box"; "pin"], [v] => RNext v st
  | ["core"; "mem"; "transmute"], [v] => RNext v st
  | ["Vec"; "new"], [] => let (a, h') := alloc h [] in RNext (WVec a) (h', e)
  | ["BytesReader"; "from_bytes"], [WRef q] =>
    match get_place e q with
    | Some (WVec a) => match mem h a with Some bs => RNext (WReader (length bs)) st | None => RUndef end
    | _ => RIll
    end
  | ["Writer"; "new"], [WRef q] => match get_place e q with Some (WVec _) => RNext (WWriter q) st | _ => RIll end
  | _, _ => RIll
  end.
(** [Name::from_reader(r, bytes)]: the reader is one of these bytes, and is used up *)
Definition from_reader_ (args : list oval) (st : state) : res oval :=
  let (h, e) := st in
  match args with
  | [WRef r; WRef q] =>
    match get_place e r, get_place e q with
    | Some (WReader n), Some (WVec a) =>
      match mem h a with
      | Some bs =>
        match set_place e r WUnit with
        | Some e' => if (n =? length bs)%nat then
                       match dec bs with
                       | Some (s, ps) => RNext (WRes (Some (WMsg (s, map (piece_cow a) ps)))) (h, e')
                       | None => RNext (WRes None) (h, e')
                       end
                     else RIll
        | None => RIll
        end
      | None => RUndef
      end
    | _, _ => RIll
    end
  | _ => RIll
  end.
Definition method_ (f : text) (o : opnd) (args : list oval) (st : state) : res opnd :=
  let (h, e) := st in
  match f, args with
  | "unwrap", [] => bnd (take o st) (fun v st => match v with WOpt (Some w) => RNext (OpVal w) st | WOpt None => RPanic | _ => RIll end)
  | "as_ref", [] =>
    match receiver o e with
    | Some r => match get_place e r with
                | Some (WOpt (Some _)) => RNext (OpVal (WOpt (Some (WRef (inside r InSome))))) st
                | Some (WOpt None) => RNext (OpVal (WOpt None)) st
                | _ => RIll
                end
    | None => RIll
    end
  | "as_mut", [] =>
    match receiver o e with
    | Some r => match get_place e r with
                | Some (WOpt (Some _)) => RNext (OpVal (WOpt (Some (WRef (inside r InSome))))) st
                | Some (WOpt None) => RNext (OpVal (WOpt None)) st
                | Some (WStruct _ _) => RNext (OpVal (WRef r)) st
                | _ => RIll
                end
    | None => RIll
    end
  | "get_unchecked_mut", [] =>
    match receiver o e with
    | Some r => match get_place e r with Some (WStruct _ _) => RNext (OpVal (WRef r)) st | _ => RIll end
    | None => RIll
    end
  | "write_message", [WRef w] =>
    match receiver o e with
    | Some r =>
      match get_place e r, get_place e w with
      | Some (WMsg (s, l)), Some (WWriter q) =>
        match get_place e q with
        | Some (WVec b) =>
          match mem h b, read_cows h l with
          | Some old, Some strings =>
            match enc s strings with
            | Some bs => RNext (OpVal (WRes (Some WUnit))) (store h b (old ++ bs), e)
            | None => RNext (OpVal (WRes None)) st
            end
          | _, _ => RUndef
          end
        | _ => RIll
        end
      | _, _ => RIll
      end
    | None => RIll
    end
  | _, _ => RIll
  end.
(** a struct literal has each field of the struct, once *)
Fixpoint same_names (l l' : list text) : bool :=
  match l, l' with [], [] => true | x :: l, y :: l' => String.eqb x y && same_names l l' | _, _ => false end.
(** a function that returned, or stopped with [?] *)
Definition returned (k : nat) (r : res oval) : res oval :=
  match r with
  | RNext v st => leave k st (fun st => RNext v st)
  | RStop st => leave k st (fun st => RNext (WRes None) st)
  | r => r
  end.

(** [n] bounds the nesting; [self] is the type whose function is run *)
Fixpoint ev (n : nat) (self : text) (x : rexp) (st : state) {struct n} : res opnd :=
  match n with
  | O => RIll
  | S n =>
    match x with
    | REPath false p =>
      match names_of p with
      | ["None"] => RNext (OpVal (WOpt None)) st
      | [y] => match find_var y (snd st) with Some i => RNext (OpPlace (i, [])) st | None => RIll end
      | ["core"; "marker"; "PhantomPinned"] => if is_own "core" then RIll else RNext (OpVal WUnit) st
      | _ => RIll
      end
    | REParen x => ev n self x st
    | REBlock b | REUnsafe b => bnd (block n self (length (snd st)) b st) (fun v st => RNext (OpVal v) st)
    | REUn URef x | REUn URefMut x =>
      bnd (ev n self x st) (fun o st => match o with
        | OpPlace p => match get_place (snd st) p with Some _ => RNext (OpVal (WRef (strip (snd st) p))) st | None => RIll end
        | OpVal _ => RIll
        end)
    | REAssign x y =>
      bnd (value n self y st) (fun v st => bnd (ev n self x st) (fun o st =>
        match o with
        | OpPlace p => match get_place (snd st) p with
                       | Some old => drop_owns (wowns old) st (fun st =>
                                       match set_place (snd st) p v with Some e => RNext (OpVal WUnit) (fst st, e) | None => RIll end)
                       | None => RIll
                       end
        | OpVal _ => RIll
        end))
    | REStruct [PSeg t []] inits _ =>
      let t := if String.eqb t "Self" then self else t in
      match decl t with
      | Some fields =>
        if same_names (map (fun i => match i with RInit f _ => f end) inits) fields then
          bnd (values n self (map (fun i => match i with RInit f (Some y) => y | RInit f None => REPath false [PSeg f []] end) inits) st)
            (fun vs st => RNext (OpVal (WStruct t (combine fields vs))) st)
        else RIll
      | None => RIll
      end
    | REPost (REPath false p) (OCall args :: os) =>
      bnd (values n self args st) (fun vs st =>
        bnd (apply n (names_of p) vs st) (fun v st => ops n self (OpVal v) os st))
    | REPost y os => bnd (ev n self y st) (fun o st => ops n self o os st)
    | _ => RIll
    end
  end
(** a chain of postfix operators *)
with ops (n : nat) (self : text) (o : opnd) (os : list rop) (st : state) {struct n} : res opnd :=
  match n with
  | O => RIll
  | S n =>
    match os with
    | [] => RNext o st
    | OField f :: os =>
      match receiver o (snd st) with
      | Some r => match get_place (snd st) (inside r (InField f)) with Some _ => ops n self (OpPlace (inside r (InField f))) os st | None => RIll end
      | None => RIll
      end
    | OMethod f [] args :: os =>
      bnd (values n self args st) (fun vs st => bnd (method_ f o vs st) (fun o st => ops n self o os st))
    | OTry :: os =>
      bnd (take o st) (fun v st => match v with WRes (Some w) => ops n self (OpVal w) os st | WRes None => RStop st | _ => RIll end)
    | _ => RIll
    end
  end
(** a function is called *)
with apply (n : nat) (p : list text) (args : list oval) (st : state) {struct n} : res oval :=
  match n with
  | O => RIll
  | S n =>
    match p with
    | [t; f] =>
      if is_own t then (if String.eqb f "from_reader" then from_reader_ args st else RIll)
      else match fns t f with
           | Some fn =>
             match invoke n t fn args (fst st) with
             | RNext v (h, _) => RNext v (h, snd st)
             | r => r
             end
           | None => builtin p args st
           end
    | t :: _ :: _ => if is_own t then RIll else builtin p args st
    | _ => builtin p args st
    end
  end
(** the function has no receiver and its arguments are no references *)
with invoke (n : nat) (t : text) (f : rfn) (args : list oval) (h : heap) {struct n} : res oval :=
  match n with
  | O => RIll
  | S n =>
    match fn_self f, fn_params f, args with
    | NoSelf, [(RPBind false _ x, _)], [v] => returned 0 (block n t 0 (fn_body f) (h, [(x, Some v)]))
    | _, _, _ => RIll
    end
  end
with value (n : nat) (self : text) (x : rexp) (st : state) {struct n} : res oval :=
  match n with O => RIll | S n => bnd (ev n self x st) take end
(** from left to right; an error drops the values so far *)
with values (n : nat) (self : text) (l : list rexp) (st : state) {struct n} : res (list oval) :=
  match n with
  | O => RIll
  | S n =>
    match l with
    | [] => RNext [] st
    | x :: l =>
      bnd (value n self x st) (fun v st =>
        match values n self l st with
        | RNext vs st => RNext (v :: vs) st
        | RStop st => drop_owns (wowns v) st (fun st => RStop st)
        | r => r
        end)
    end
  end
(** a block: [k] variables are outside of it *)
with block (n : nat) (self : text) (k : nat) (b : list rstmt) (st : state) {struct n} : res oval :=
  match n with
  | O => RIll
  | S n =>
    match b with
    | [] => leave k st (fun st => RNext WUnit st)
    | [RSExpr x false] => bnd (value n self x st) (fun v st => leave k st (fun st => RNext v st))
    | RSExpr x _ :: b => bnd (value n self x st) (fun v st => drop_owns (wowns v) st (fun st => block n self k b st))
    | RSLet (RPBind false _ y) x :: b => bnd (value n self x st) (fun v st => block n self k b (fst st, snd st ++ [(y, Some v)]))
    | _ => RIll
    end
  end.

(** ** Calls from outside *)

(** A function of the type [t] is called.  [self] by value, or the only argument
    by value, is the caller's no more; [&self], [&mut self] and a slice stay the
    caller's: the result is a reference into [*self], and the caller has the value
    of [*self] afterwards. *)
Inductive called := Returns (v : oval) (h : heap) | Undef | Panics | Stuck.
Definition by_value (n : nat) (t f : text) (v : oval) (h : heap) : called :=
  match fns t f with
  | Some fn =>
    match
      match fn_self fn, fn_params fn with
      | SelfValue, [] => returned 0 (block n t 0 (fn_body fn) (h, [("self", Some v)]))
      | NoSelf, [_] => invoke n t fn [v] h
      | _, _ => RIll
      end
    with
    | RNext v (h, _) => Returns v h
    | RUndef => Undef
    | RPanic => Panics
    | _ => Stuck
    end
  | None => Stuck
  end.
(** the result, the memory and what [*self] is now *)
Inductive called_ref := RefReturns (v : oval) (h : heap) (self : oval) | RefUndef | RefPanics | RefStuck.
Definition by_ref (n : nat) (t f : text) (v : oval) (h : heap) : called_ref :=
  match fns t f with
  | Some fn =>
    match
      match fn_self fn, fn_params fn with
      | SelfRef _ _, [] => returned 1 (block n t 1 (fn_body fn) (h, [("*self", Some v); ("self", Some (WRef (O, [])))]))
      | NoSelf, [(RPBind false _ x, _)] => returned 1 (block n t 1 (fn_body fn) (h, [("*self", Some v); (x, Some (WRef (O, [])))]))
      | _, _ => RIll
      end
    with
    | RNext v (h, [(_, Some w)]) => RefReturns v h w
    | RUndef => RefUndef
    | RPanic => RefPanics
    | _ => RefStuck
    end
  | None => RefStuck
  end.
End Sem.
