(** Strongly connected components (pb-rs/src/scc.rs). *)
From Coq Require Import Arith Lia.
From Verif Require Import Base Schema.

(** The mutable arguments of [scc] (scc.rs:14-18).  The arrays [low] and
    [disc] are total functions (they are as long as there are vertices and are
    only indexed with vertices); the stack is kept with its top first. *)
Record scc_state := mkScc {
  sc_count : Z;
  sc_low : nat -> Z;
  sc_disc : nat -> Z;
  sc_stack : list nat;
  sc_sccs : list (list nat) }.

(** [a[i] = x] *)
Definition upd (a : nat -> Z) (i : nat) (x : Z) : nat -> Z :=
  fun j => if (j =? i)%nat then x else a j.

(** scc.rs:21-24 *)
Definition scc_enter (u : nat) (s : scc_state) : scc_state :=
  mkScc (sc_count s + 1) (upd (sc_low s) u (sc_count s)) (upd (sc_disc s) u (sc_count s))
        (u :: sc_stack s) (sc_sccs s).
(** [low[u] = x] *)
Definition set_low (u : nat) (x : Z) (s : scc_state) : scc_state :=
  mkScc (sc_count s) (upd (sc_low s) u x) (sc_disc s) (sc_stack s) (sc_sccs s).
(** scc.rs:42-48: pop up to and including [u] *)
Fixpoint pop_until (u : nat) (stack : list nat) : list nat * list nat :=
  match stack with
  | [] => ([], [])
  | w :: st => if (w =? u)%nat then ([w], st)
               else let '(c, r) := pop_until u st in (w :: c, r)
  end.
(** scc.rs:41-50 *)
Definition scc_exit (u : nat) (s : scc_state) : scc_state :=
  if sc_low s u =? sc_disc s u
  then let '(c, r) := pop_until u (sc_stack s) in
       mkScc (sc_count s) (sc_low s) (sc_disc s) r (sc_sccs s ++ [c])
  else s.

Section Scc.
(** the successors of a vertex in the order of scc.rs:26-31 *)
Variable succs : nat -> list nat.

(** scc.rs:26-39: the loop, given the recursive call *)
Fixpoint scc_loop (rec : nat -> scc_state -> option scc_state) (u : nat) (vs : list nat)
    (s : scc_state) : option scc_state :=
  match vs with
  | [] => Some s
  | v :: vs' =>
    if sc_disc s v =? -1 then
      match rec v s with
      | Some s' => scc_loop rec u vs' (set_low u (Z.min (sc_low s' u) (sc_low s' v)) s')
      | None => None
      end
    else if existsb (Nat.eqb v) (sc_stack s) then
      scc_loop rec u vs' (set_low u (Z.min (sc_low s u) (sc_disc s v)) s)
    else scc_loop rec u vs' s
  end.

(** scc.rs:10-51 [scc].  [None]: the recursion is deeper than [fuel] (shown
    impossible when [fuel] is the number of vertices). *)
Fixpoint scc (fuel : nat) (u : nat) (s : scc_state) : option scc_state :=
  match fuel with
  | O => None
  | S fuel' =>
    match scc_loop (scc fuel') u (succs u) (scc_enter u s) with
    | Some s' => Some (scc_exit u s')
    | None => None
    end
  end.

(** scc.rs:80-87 *)
Fixpoint scc_all (fuel : nat) (us : list nat) (s : scc_state) : option scc_state :=
  match us with
  | [] => Some s
  | u :: us' =>
    if sc_disc s u =? -1 then
      match scc fuel u s with
      | Some s' => scc_all fuel us' s'
      | None => None
      end
    else scc_all fuel us' s
  end.

(** scc.rs:75-87, for [n] vertices *)
Definition scc_init : scc_state := mkScc 0 (fun _ => -1) (fun _ => -1) [] [].
Definition scc_run (n : nat) : option (list (list nat)) :=
  match scc_all n (seq 0 n) scc_init with
  | Some s => Some (sc_sccs s)
  | None => None
  end.
End Scc.
