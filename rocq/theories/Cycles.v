(** Cycle breaking (pb-rs/src/types.rs:2801-2894, pb-rs/src/scc.rs:53-92). *)
From Coq Require Import Arith Lia.
From Verif Require Import Base Schema Passes Scc GenSem.

(** ** [get_message_mut] *)

(** replace the [i]-th element *)
Fixpoint upd_nth {A} (i : nat) (g : A -> A) (l : list A) : list A :=
  match l, i with
  | [], _ => []
  | x :: l', O => g x :: l'
  | x :: l', S i' => x :: upd_nth i' g l'
  end.
Fixpoint upd_path (path : list nat) (g : message -> message) (m : message) : message :=
  match path with
  | [] => g m
  | i :: rest => set_messages m (upd_nth i (upd_path rest g) (m_messages m))
  end.
(** types.rs:120-132 [get_message_mut] and an assignment through it *)
Definition upd_message (i : midx) (g : message -> message) (d : file_descriptor) : gres file_descriptor :=
  match get_message d i, i with
  | Some _, i0 :: rest => GOk (set_dmessages d (upd_nth i0 (upd_path rest g) (d_messages d)))
  | _, _ => GErr GenPanic
  end.

(** ** scc.rs *)

(** scc.rs:60-63: the loop; the stack has its top first *)
Fixpoint flatten_loop (fuel : nat) (d : file_descriptor) (stack : list midx) : gres (list midx) :=
  match stack with
  | [] => GOk []
  | m :: stack' =>
    match fuel with
    | O => GErr GenNoFuel
    | S fuel' =>
      match get_message d m with
      | None => GErr GenPanic
      | Some msg =>
        gbind (flatten_loop fuel' d (rev (map m_index (m_messages msg)) ++ stack')) (fun vs =>
        GOk (m :: vs))
      end
    end
  end.
(** scc.rs:54-66 [flatten_messages] *)
Definition flatten_messages (d : file_descriptor) : gres (list midx) :=
  flatten_loop (default_depth d) d (rev (map m_index (d_messages d))).

(** scc.rs:70-74: the hash map from the index stored in a vertex to the number
    of the vertex, as the list of insertions, last first *)
Fixpoint vertex_ids (d : file_descriptor) (i : nat) (vs : list midx) : gres (list (midx * nat)) :=
  match vs with
  | [] => GOk []
  | v :: vs' =>
    match get_message d v with
    | None => GErr GenPanic
    | Some m => gbind (vertex_ids d (S i) vs') (fun ids => GOk (ids ++ [(m_index m, i)]))
    end
  end.
(** [ids.get] *)
Fixpoint ids_get (ids : list (midx * nat)) (m : midx) : option nat :=
  match ids with
  | [] => None
  | (m', i) :: ids' => if midx_eqb m m' then Some i else ids_get ids' m
  end.

(** [filter_map] *)
Fixpoint filter_map {A B} (g : A -> option B) (l : list A) : list B :=
  match l with
  | [] => []
  | x :: l' => match g x with Some y => y :: filter_map g l' | None => filter_map g l' end
  end.

(** scc.rs:26-31: the successors of vertex [u].  All vertices exist: otherwise
    [sccs] would already have panicked while collecting them. *)
Definition msg_succs (d : file_descriptor) (vertices : list midx) (ids : list (midx * nat)) (u : nat) : list nat :=
  match nth_error vertices u with
  | None => []
  | Some v =>
    match get_message d v with
    | None => []
    | Some m =>
      filter_map (ids_get ids)
        (filter_map (fun f => ft_message (f_typ f))
           (filter (fun f => negb (f_boxed f) && negb (freq_is_repeated (f_freq f))) (all_fields m)))
    end
  end.

(** scc.rs:68-91 [sccs] *)
Definition sccs (d : file_descriptor) : gres (list (list midx)) :=
  gbind (flatten_messages d) (fun vertices =>
  gbind (vertex_ids d 0 vertices) (fun ids =>
  match scc_run (msg_succs d vertices ids) (length vertices) with
  | None => GErr GenNoFuel
  | Some cs =>
    gmap (gmap (fun i => match nth_error vertices i with Some v => GOk v | None => GErr GenPanic end)) cs
  end)).

(** ** break_cycles *)

Definition in_cycle (cycle : list midx) (f : field) : bool :=
  match ft_message (f_typ f) with
  | Some m => existsb (midx_eqb m) cycle
  | None => false
  end.

(** [cycle.iter().map(|m| m.get_message(self))] *)
Definition messages_of (d : file_descriptor) (cycle : list midx) : gres (list message) :=
  gmap (fun v => match get_message d v with Some m => GOk m | None => GErr GenPanic end) cycle.

(** types.rs:2806-2813 [is_cycle] (the iterator is lazy: here a missing message
    panics even if a cycle was found before it; none is missing) *)
Definition is_cycle (d : file_descriptor) (cycle : list midx) : gres bool :=
  gbind (messages_of d cycle) (fun ms =>
  GOk (existsb (fun f => negb (f_boxed f) && in_cycle cycle f) (flat_map all_fields ms))).

(** types.rs:2838-2847 *)
Definition box_optional (cycle : list midx) (f : field) : field :=
  if freq_is_optional (f_freq f) && in_cycle cycle f then set_boxed f (f_freq f) else f.
(** types.rs:2879-2887 *)
Definition optional_of (q : frequency) : frequency :=
  match q with
  | P2Optional | P2Repeated | P2Required | P2Map => P2Optional
  | P3Optional | P3Repeated | P3Default | P3Map => P3Optional
  end.
(** types.rs:2868-2888 *)
Definition box_required (cycle : list midx) (f : field) : field :=
  if negb (freq_is_optional (f_freq f) || freq_is_repeated (f_freq f)) && in_cycle cycle f
  then set_boxed f (optional_of (f_freq f)) else f.

(** [for v in cycle { for f in v.get_message_mut(self).all_fields_mut() { .. } }] *)
Fixpoint upd_all (vs : list midx) (g : field -> field) (d : file_descriptor) : gres file_descriptor :=
  match vs with
  | [] => GOk d
  | v :: vs' => gbind (upd_message v (map_fields g) d) (upd_all vs' g)
  end.

(** types.rs:2836-2889: one cycle *)
Definition break_cycle (error_cycle : bool) (cycle : list midx) (d : file_descriptor) : gres file_descriptor :=
  gbind (upd_all cycle (box_optional cycle) d) (fun d1 =>
  gbind (is_cycle d1 cycle) (fun b =>
  if b then
    if error_cycle then gbind (messages_of d1 cycle) (fun ms => GErr (ErrCycle (map m_name ms)))
    else upd_all cycle (box_required cycle) d1
  else GOk d1)).

(** [iter().position(|n| n == m)] *)
Fixpoint position (m : midx) (l : list midx) : option nat :=
  match l with
  | [] => None
  | n :: l' => if midx_eqb n m then Some O else option_map S (position m l')
  end.

(** types.rs:2828-2835: the ends of the cycles with root [v], at the head of
    the rest [scc] of the component *)
Definition cycle_ends (m : message) (scc : list midx) : list nat :=
  filter_map (fun n => position n scc) (filter_map (fun f => ft_message (f_typ f)) (all_fields m)).

(** the loop of types.rs:2836 *)
Fixpoint break_ends (error_cycle : bool) (scc : list midx) (ends : list nat) (d : file_descriptor) : gres file_descriptor :=
  match ends with
  | [] => GOk d
  | e :: ends' => gbind (break_cycle error_cycle (firstn (S e) scc) d) (break_ends error_cycle scc ends')
  end.
(** the loop of types.rs:2826, on [scc[i..]] *)
Fixpoint break_scc (error_cycle : bool) (scc : list midx) (d : file_descriptor) : gres file_descriptor :=
  match scc with
  | [] => GOk d
  | v :: rest =>
    match get_message d v with
    | None => GErr GenPanic
    | Some m => gbind (break_ends error_cycle scc (cycle_ends m scc) d) (break_scc error_cycle rest)
    end
  end.
(** the loop of types.rs:2824 *)
Fixpoint break_sccs (error_cycle : bool) (cs : list (list midx)) (d : file_descriptor) : gres file_descriptor :=
  match cs with
  | [] => GOk d
  | c :: cs' => gbind (break_scc error_cycle c d) (break_sccs error_cycle cs')
  end.
(** types.rs:2801-2894 [break_cycles] *)
Definition break_cycles (error_cycle : bool) (d : file_descriptor) : gres file_descriptor :=
  gbind (sccs d) (fun cs => break_sccs error_cycle cs d).
