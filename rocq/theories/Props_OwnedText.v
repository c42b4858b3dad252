(** C88: programs that use the owned structs, whose functions are those of the
    generated text. *)
From Coq Require Import String Ascii Arith Lia Bool Permutation.
From Verif Require Import Props_EndToEnd Base Schema Keywords Modules Passes Parser Import Gen GenCheck Cycles CycleFacts BreakFacts IndexFacts Pipeline PassFacts.
From Verif Require Import Lifetime RustTypes Emit Uses Output OutputFacts Paths GenText.
From Verif Require Import RustLex RustAst RustParse RustParseFacts GenAst LexFacts GenAstFacts GenAstOk GenGood Props_Text.
From Verif Require Import Owned OwnedGen OwnedFacts OwnedSem OwnedSemFacts Props_Owned.
Import Schema StringSyntax.
Local Open Scope string_scope.
Local Open Scope list_scope.

(** ** Specification *)

(** A program of Owned.v.  The functions [try_from], [from], [try_into], [buf],
    [proto] and [proto_mut] of [NameOwned] are those of the items [its], run by
    the evaluator of OwnedSem.v; variables hold its values.  [proto] and
    [proto_mut] return a place in the owned struct, and the program reads or
    changes what is there. *)
Section Client.
Variable shape : Type.
Variable dec : bytes -> option (shape * list piece).
Variable enc : shape -> list bytes -> option bytes.
Variable dflt : shape * list bytes.
Variable name : text.
Variable its : list ritem_.
Notation owned := (name ++ "Owned")%string.
Definition depth : nat := 100.
Definition text_call (f : text) (v : oval shape) (h : heap) : called shape :=
  by_value shape dec enc (fun x => String.eqb x name) (fns_of its) (decl_of its) depth owned f v h.
(** a function that takes [&self] or [&mut self]: what is at the place that it
    returns, how to change it, the memory, and what [*self] is now *)
Definition text_look (f : text) (v : oval shape) (h : heap) : result (oval shape * (oval shape -> option (oval shape)) * heap * oval shape) :=
  match by_ref shape dec enc (fun x => String.eqb x name) (fns_of its) (decl_of its) depth owned f v h with
  | RefReturns (WRef (O, p)) h' w => match get_path shape w p with Some x => Next (x, (fun y => set_path shape w p y), h', w) | None => Ill end
  | RefReturns _ _ _ => Ill
  | RefUndef => Undefined
  | RefPanics => Panicked
  | RefStuck => Ill
  end.
Definition tenv_ : Type := list (option (oval shape)).
Definition oget (e : tenv_) (x : nat) : option (oval shape) := match nth_error e x with Some (Some v) => Some v | _ => None end.
Definition tstate : Type := heap * tenv_ * list (printed shape).
Definition then_ {A} (r : result A) (k : A -> result tstate) : result tstate :=
  match r with Next a => k a | Stop _ => Ill | Undefined => Undefined | Panicked => Panicked | Ill => Ill end.
(** the message that [proto] or [proto_mut] gives *)
Definition with_msg (f : text) (v : oval shape) (h : heap)
    (k : mmsg shape -> (mmsg shape -> option (oval shape)) -> heap -> oval shape -> result tstate) : result tstate :=
  then_ (text_look f v h) (fun '(x, set, h, w) => match x with WMsg m => k m (fun m' => set (WMsg m')) h w | _ => Ill end).

Definition tstep (i : stmt) (st : tstate) : result tstate :=
  let '(h, e, out) := st in
  match i with
  | SNew bs => let (a, h') := alloc h bs in Next (h', e ++ [Some (WVec a)], out)
  | SDecode v =>
    match oget e v with
    | Some (WVec a) =>
      match mem h a with
      | Some bs => match dec bs with
                   | Some (s, ps) => Next (h, e ++ [Some (WMsg (s, map (piece_cow a) ps))], out)
                   | None => Stop st
                   end
      | None => Undefined
      end
    | _ => Ill
    end
  | STryFrom v =>
    match oget e v with
    | Some (WVec a) =>
      match text_call "try_from" (WVec a) h with
      | Returns (WRes (Some o)) h' => Next (h', put v None e ++ [Some o], out)
      | Returns (WRes None) h' => Stop (h', put v None e, out)
      | Returns _ _ => Ill | Undef => Undefined | Panics => Panicked | Stuck => Ill
      end
    | _ => Ill
    end
  | SClone o =>
    match oget e o with
    | Some v => with_msg "proto" v h (fun '(s, l) _ h v' =>
        match clone_cows false h l with Some (l', h') => Next (h', put o (Some v') e ++ [Some (WMsg (s, l'))], out) | None => Undefined end)
    | None => Ill
    end
  | SCopy m =>
    match oget e m with
    | Some (WMsg (s, l)) => match clone_cows true h l with Some (l', h') => Next (h', e ++ [Some (WMsg (s, l'))], out) | None => Undefined end
    | _ => Ill
    end
  | SFrom m =>
    match oget e m with
    | Some (WMsg x) =>
      match text_call "from" (WMsg x) h with
      | Returns o h' => Next (h', put m None e ++ [Some o], out)
      | Undef => Undefined | Panics => Panicked | Stuck => Ill
      end
    | _ => Ill
    end
  | STryInto o =>
    match oget e o with
    | Some v =>
      match text_call "try_into" v h with
      | Returns (WRes (Some w)) h' => Next (h', put o None e ++ [Some w], out)
      | Returns (WRes None) h' => Stop (h', put o None e, out)
      | Returns _ _ => Ill | Undef => Undefined | Panics => Panicked | Stuck => Ill
      end
    | _ => Ill
    end
  | SMove x => match oget e x with Some v => Next (h, put x None e ++ [Some v], out) | _ => Ill end
  | STake o =>
    match oget e o with
    | Some v => with_msg "proto_mut" v h (fun x set h _ =>
        match set (fst dflt, map Static (snd dflt)) with Some v' => Next (h, put o (Some v') e ++ [Some (WMsg x)], out) | None => Ill end)
    | _ => Ill
    end
  | SReplace o m =>
    match oget e o, oget e m with
    | Some v, Some (WMsg x) => with_msg "proto_mut" v h (fun '(_, l) set h _ =>
        match free_all h (owned_cows l), set x with
        | Some h', Some v' => Next (h', put o (Some v') (put m None e), out)
        | None, _ => Undefined
        | _, None => Ill
        end)
    | _, _ => Ill
    end
  | SSwap o p =>
    match oget e o, oget e p with
    | Some v, Some w => with_msg "proto_mut" v h (fun x set h _ => with_msg "proto_mut" w h (fun y set' h _ =>
        match set y, set' x with Some v', Some w' => Next (h, put o (Some v') (put p (Some w') e), out) | _, _ => Ill end))
    | _, _ => Ill
    end
  | SPush v bs =>
    match oget e v with
    | Some (WVec a) =>
      match mem h a with
      | None => Undefined
      | Some old => let (b, h1) := alloc h (old ++ bs) in
                    match free h1 a with Some h2 => Next (h2, put v (Some (WVec b)) e, out) | None => Undefined end
      end
    | _ => Ill
    end
  | SRead x =>
    match oget e x with
    | Some (WVec a) => match mem h a with Some bs => Next (h, e, out ++ [PrBytes bs]) | None => Undefined end
    | Some (WMsg (s, l)) => match read_cows h l with Some r => Next (h, e, out ++ [PrMsg s r]) | None => Undefined end
    | Some v => with_msg "proto" v h (fun '(s, l) _ h v' =>
        match read_cows h l with Some r => Next (h, put x (Some v') e, out ++ [PrMsg s r]) | None => Undefined end)
    | None => Ill
    end
  | SBuf o =>
    match oget e o with
    | Some v => then_ (text_look "buf" v h) (fun '(x, _, h, v') =>
        match x with
        | WVec a => match mem h a with Some bs => Next (h, put o (Some v') e, out ++ [PrBytes bs]) | None => Undefined end
        | _ => Ill
        end)
    | None => Ill
    end
  | SDrop x =>
    match oget e x with
    | Some v => match free_all h (wowns shape v) with Some h' => Next (h', put x None e, out) | None => Undefined end
    | None => Ill
    end
  end.
Fixpoint trun (p : program) (st : tstate) : result tstate :=
  match p with
  | [] => Next st
  | i :: p' => match tstep i st with Next st' => trun p' st' | r => r end
  end.
(** at the end, or on an error, all variables are dropped *)
Definition tdrop_all (st : tstate) : option (heap * list (printed shape)) :=
  let '(h, e, out) := st in
  match free_all h (flat_map (fun v => match v with Some v => wowns shape v | None => [] end) e) with
  | Some h' => Some (h', out)
  | None => None
  end.
End Client.

(** ** Memories with the same contents *)
Definition heq (h h' : heap) : Prop := (next h <= next h')%nat /\ forall a, mem h' a = mem h a.
Lemma heq_refl h : heq h h.
Proof. split; auto. Qed.
Lemma free_eq h1 h1' a h2 : heq h1 h1' -> free h1 a = Some h2 -> exists h2', free h1' a = Some h2' /\ heq h2 h2'.
Proof.
  intros [N M] F. unfold free in *. rewrite M. destruct (mem h1 a) as [c|]; [|discriminate]. injection F as <-. eexists. split; [reflexivity|].
  split; [exact N|]. intros b. cbn. now destruct (b =? a)%nat.
Qed.
Lemma free_all_eq l : forall h1 h1' h2, heq h1 h1' -> free_all h1 l = Some h2 -> exists h2', free_all h1' l = Some h2' /\ heq h2 h2'.
Proof.
  induction l as [|a l IH]; intros h1 h1' h2 H F; cbn [free_all] in *; [injection F as <-; eauto|].
  destruct (free h1 a) as [h3|] eqn:E; [|discriminate]. destruct (free_eq _ _ _ _ H E) as (h3' & -> & H3). eauto.
Qed.
Lemma inv_heq shape hand g h h' e p : heq h h' -> inv shape hand g h e p -> inv shape hand g h' e p.
Proof.
  intros [N M] [L1 L2 ND LV NX V]. constructor; auto.
  - intros a. rewrite M. apply LV.
  - intros a. rewrite M. intros H. apply NX in H. lia.
  - intros x T G. destruct (V x T G) as (v & q & A & B & R). exists v, q. split; [exact A|]. split; [exact B|].
    apply vrel_agree with (2 := R). auto.
Qed.

(** ** Running the text is running the model *)
Section Steps.
Variable shape : Type.
Variable dec : bytes -> option (shape * list piece).
Hypothesis dec_in : forall bs s ps, dec bs = Some (s, ps) -> Forall (piece_in bs) ps.
Variable enc : shape -> list bytes -> option bytes.
Variable dflt : shape * list bytes.
Variables (g : gen_config) (m : message).
Hypothesis free_name : ~ In (m_name m) used_types.
Notation inner := (m_name m ++ "OwnedInner")%string.
Notation owned := (m_name m ++ "Owned")%string.
Notation rep := (rep shape inner owned).
Notation rep_env := (map (option_map rep)).
Notation step_t := (tstep shape dec enc dflt (m_name m) (owned_items g m)).
Notation run_t := (trun shape dec enc dflt (m_name m) (owned_items g m)).
Notation mstep := (mstep shape dec enc dflt).
Notation look := (text_look shape dec enc (m_name m) (owned_items g m)).
Notation tcall := (text_call shape dec enc (m_name m) (owned_items g m)).

Ltac use_text L := let T := fresh in pose proof L as T; unfold own_name in T; change (60 + 40)%nat with depth in T; rewrite T; clear T.
Lemma oget_rep e x : oget shape (rep_env e) x = option_map rep (mget shape e x).
Proof. unfold oget, mget. rewrite nth_error_map. now destruct (nth_error e x) as [[|]|]. Qed.
Lemma wowns_rep v : wowns shape (rep v) = vowns shape v.
Proof. destruct v as [a|a [[s l]|]|[s l]]; cbn; rewrite ?app_nil_r; reflexivity. Qed.
Lemma rep_put {A B} (f : A -> B) i x l : map f (put i x l) = put i (f x) (map f l).
Proof. revert i; induction l as [|y l IH]; intros [|i]; cbn; auto. now rewrite IH. Qed.
Lemma rep_snoc e v : rep_env e ++ [Some (rep v)] = rep_env (e ++ [Some v]).
Proof. now rewrite map_app. Qed.
Lemma rep_none i e : put i None (rep_env e) = rep_env (put i None e).
Proof. now rewrite rep_put. Qed.
Lemma rep_some i v e : put i (Some (rep v)) (rep_env e) = rep_env (put i (Some v) e).
Proof. now rewrite rep_put. Qed.
Lemma rep_same i v e : mget shape e i = Some v -> put i (Some (rep v)) (rep_env e) = rep_env e.
Proof. intros H. apply put_self. rewrite nth_error_map. unfold mget in H. destruct (nth_error e i) as [[w|]|]; try discriminate. now injection H as ->. Qed.
Lemma set_proto a x y : set_path shape (rep (HOwned a (Some x))) (snd proto_place) (WMsg y) = Some (rep (HOwned a (Some y))).
Proof. reflexivity. Qed.
Lemma look_proto a x h : look "proto" (rep (HOwned a (Some x))) h =
  Next (WMsg x, (fun y => set_path shape (rep (HOwned a (Some x))) (snd proto_place) y), h, rep (HOwned a (Some x))).
Proof. unfold text_look. use_text (text_proto shape dec enc g m free_name 40 a x h). reflexivity. Qed.
Lemma look_proto_mut a x h : look "proto_mut" (rep (HOwned a (Some x))) h =
  Next (WMsg x, (fun y => set_path shape (rep (HOwned a (Some x))) (snd proto_place) y), h, rep (HOwned a (Some x))).
Proof. unfold text_look. use_text (text_proto_mut shape dec enc g m free_name 40 a x h). reflexivity. Qed.
Lemma look_buf a p h : exists set, look "buf" (rep (HOwned a p)) h = Next (WVec a, set, h, rep (HOwned a p)).
Proof. eexists. unfold text_look. use_text (text_buf shape dec enc g m 40 a p h). reflexivity. Qed.

Definition sim (a : result (mstate shape)) (b : result (tstate shape)) : Prop :=
  match a with
  | Next (h, e, out) => exists h', b = Next (h', rep_env e, out) /\ heq h h'
  | Stop (h, e, out) => exists h', b = Stop (h', rep_env e, out) /\ heq h h'
  | _ => True
  end.
Lemma read_more h bs l r : (forall a, mem h a <> None -> (a < next h)%nat) -> read_cows h l = Some r -> read_cows (snd (alloc h bs)) l = Some r.
Proof.
  intros N. revert r. induction l as [|c l IH]; intros r H; cbn [read_cows] in *; [exact H|].
  destruct (cow_bytes h c) as [b|] eqn:E; [|discriminate]. destruct (read_cows h l) as [r'|]; [|discriminate]. injection H as <-. rewrite (IH _ eq_refl).
  assert (F : cow_bytes (snd (alloc h bs)) c = Some b); [|now rewrite F]. destruct c as [a off len|a|s]; cbn in *; auto.
  - destruct (Nat.eqb_spec a (next h)) as [->|_]; [|exact E]. destruct (mem h (next h)) eqn:X; [|discriminate]. exfalso. apply (Nat.lt_irrefl (next h)). apply N. congruence.
  - destruct (Nat.eqb_spec a (next h)) as [->|_]; [|exact E]. exfalso. apply (Nat.lt_irrefl (next h)). apply N. congruence.
Qed.
Lemma step_sim i h e out : (forall a, mem h a <> None -> (a < next h)%nat) -> sim (mstep i (h, e, out)) (step_t i (h, rep_env e, out)).
Proof.
  intros NX. destruct i as [bs|v|v|o|w|w|o|x|o|o w|o w|v bs|x|o|x]; cbn [Owned.mstep tstep]; rewrite ?oget_rep.
  - cbn. eexists. rewrite <- rep_snoc. split; [reflexivity|apply heq_refl].
  - destruct (mget shape e v) as [[a| |]|]; cbn [option_map OwnedSemFacts.rep sim]; auto. destruct (mem h a) as [bs|]; [|exact Logic.I].
    destruct (dec bs) as [[s ps]|]; (eexists; split; [|apply heq_refl]); [|reflexivity]. now rewrite <- rep_snoc.
  - destruct (mget shape e v) as [[a| |]|]; cbn [option_map OwnedSemFacts.rep sim]; auto. unfold owned_new. destruct (mem h a) as [bs|] eqn:M; [|exact Logic.I].
    unfold text_call. destruct (dec bs) as [[s ps]|] eqn:D.
    + use_text (text_try_from_ok shape dec enc g m free_name 40 a h bs s ps M D). eexists. rewrite rep_none, <- rep_snoc. split; [reflexivity|apply heq_refl].
    + cbn [vowns free_all]. destruct (free h a) as [h'|] eqn:F; [|exact Logic.I].
      use_text (text_try_from_err shape dec enc g m free_name 40 a h bs h' M D F). eexists. rewrite rep_none. split; [reflexivity|apply heq_refl].
  - destruct (mget shape e o) as [[a|a [[s l]|]|[s l]]|] eqn:G; cbn [option_map owned_proto sim]; auto. unfold with_msg. rewrite look_proto. cbn [then_].
    destruct (clone_cows false h l) as [[l' h']|]; [|exact Logic.I]. eexists. rewrite rep_same by exact G. rewrite <- rep_snoc. split; [reflexivity|apply heq_refl].
  - destruct (mget shape e w) as [[a|a q|[s l]]|]; cbn [option_map OwnedSemFacts.rep sim]; auto.
    destruct (clone_cows true h l) as [[l' h']|]; [|exact Logic.I]. eexists. rewrite <- rep_snoc. split; [reflexivity|apply heq_refl].
  - destruct (mget shape e w) as [[a|a q|y]|]; cbn [option_map OwnedSemFacts.rep sim]; auto. unfold owned_from, text_call.
    pose proof (text_from shape dec enc g m free_name 40 y h) as T. cbn [alloc] in T |- *. unfold own_name in T. change (60 + 40)%nat with depth in T. rewrite T. eexists. rewrite rep_none, <- rep_snoc. split; [reflexivity|apply heq_refl].
  - destruct (mget shape e o) as [[a|a [[s l]|]|[s l]]|] eqn:G; cbn [option_map owned_try_into owned_proto sim]; auto.
    destruct (read_cows h l) as [strings|] eqn:R; [|exact Logic.I]. unfold text_call.
    pose proof (text_try_into shape dec enc g m free_name 40 a s l h strings) as T. pose proof (read_more h [] l strings NX R) as R'.
    cbn [alloc snd] in T, R' |- *. specialize (T R'). unfold own_name in T. change (60 + 40)%nat with depth in T.
    match type of T with ?L = _ => match goal with |- context [by_value shape dec enc ?o ?f ?d ?n ?t "try_into" ?v h] =>
      change (by_value shape dec enc o f d n t "try_into" v h) with L end end.
    rewrite T. clear T. destruct (enc s strings) as [bs|] eqn:E.
    + set (h1 := mkHeap _ _). change (vowns shape (HOwned a (Some (s, l)))) with (a :: owned_cows l). destruct (free_all h1 (a :: owned_cows l)) as [h2|] eqn:F; [|exact Logic.I].
      assert (Q : heq h1 (store (mkHeap (fun a => if (a =? next h)%nat then Some [] else mem h a) (S (next h))) (next h) bs)).
      { split; [apply Nat.le_refl|]. intros b. cbn. now destruct (b =? next h)%nat. }
      destruct (free_all_eq _ _ _ _ Q F) as (h2' & F2 & H2).
      match type of F2 with ?L = _ => match goal with |- context [free_all (store ?x ?y ?z) ?w] => change (free_all (store x y z) w) with L end end. rewrite F2.
      eexists. rewrite rep_none, <- rep_snoc. split; [reflexivity|exact H2].
    + change (vowns shape (HOwned a (Some (s, l)))) with (a :: owned_cows l). destruct (free_all h (a :: owned_cows l)) as [h2|] eqn:F; [|exact Logic.I].
      set (h1 := mkHeap _ _). assert (X : exists h3, free h1 (next h) = Some h3 /\ heq h h3).
      { unfold free. cbn. rewrite Nat.eqb_refl. eexists. split; [reflexivity|]. split; [cbn; auto|]. intros b. cbn.
        destruct (Nat.eqb_spec b (next h)) as [->|_]; [|reflexivity]. destruct (mem h (next h)) eqn:X; [|reflexivity].
        exfalso. apply (Nat.lt_irrefl (next h)). apply NX. congruence. }
      destruct X as (h3 & X & H3). destruct (free_all_eq _ h h3 h2 H3 F) as (h2' & F2 & H2).
      match goal with |- context [free_all ?x (next h :: ?w)] => change (free_all x (next h :: w)) with (match free h1 (next h) with Some h' => free_all h' (a :: owned_cows l) | None => None end) end.
      rewrite X, F2. eexists. rewrite rep_none. split; [reflexivity|exact H2].
  - destruct (mget shape e x) as [v|]; cbn [option_map sim]; auto. eexists. rewrite rep_none, <- rep_snoc. split; [reflexivity|apply heq_refl].
  - destruct (mget shape e o) as [[a|a [y|]|y]|] eqn:G; cbn [option_map owned_proto sim]; auto. unfold with_msg. rewrite look_proto_mut. cbn [then_].
    rewrite set_proto. eexists. rewrite rep_some, <- rep_snoc. split; [reflexivity|apply heq_refl].
  - destruct (mget shape e o) as [[a|a [[s l]|]|y]|] eqn:G; cbn [option_map owned_proto sim]; auto; destruct (mget shape e w) as [[b|b q|y]|]; cbn [option_map sim]; auto.
    unfold with_msg. rewrite look_proto_mut. cbn [then_ OwnedSemFacts.rep]. destruct (free_all h (owned_cows l)) as [h'|]; [|exact Logic.I].
    change (WStruct owned [("inner", rep_inner shape inner a (Some (s, l)))]) with (rep (HOwned a (Some (s, l)))). rewrite set_proto. eexists.
    rewrite rep_none, rep_some. split; [reflexivity|apply heq_refl].
  - destruct (mget shape e o) as [[a|a [y|]|y]|] eqn:G; cbn [option_map owned_proto sim]; auto; destruct (mget shape e w) as [[b|b [z|]|z]|]; cbn [option_map owned_proto sim]; auto.
    unfold with_msg. rewrite look_proto_mut. cbn [then_]. rewrite look_proto_mut. cbn [then_]. rewrite !set_proto. eexists. rewrite !rep_some. split; [reflexivity|apply heq_refl].
  - destruct (mget shape e v) as [[a| |]|]; cbn [option_map OwnedSemFacts.rep sim]; auto. destruct (mem h a) as [old|]; [|exact Logic.I]. cbn [alloc].
    destruct (free _ a) as [h2|]; [|exact Logic.I]. eexists. rewrite <- rep_some. split; [reflexivity|apply heq_refl].
  - destruct (mget shape e x) as [[a|a [[s l]|]|[s l]]|] eqn:G; cbn [option_map owned_proto sim]; auto.
    + cbn [OwnedSemFacts.rep]. destruct (mem h a); [|exact Logic.I]. eexists. split; [reflexivity|apply heq_refl].
    + destruct (read_cows h l) as [r|] eqn:R; [|exact Logic.I]. change (rep (HOwned a (Some (s, l)))) with (WStruct owned [("inner", rep_inner shape inner a (Some (s, l)))]). cbn iota.
      change (WStruct owned [("inner", rep_inner shape inner a (Some (s, l)))]) with (rep (HOwned a (Some (s, l)))).
      unfold with_msg. rewrite look_proto. cbn [then_]. rewrite R, rep_same by exact G. eexists. split; [reflexivity|apply heq_refl].
    + cbn [OwnedSemFacts.rep]. destruct (read_cows h l); [|exact Logic.I]. eexists. split; [reflexivity|apply heq_refl].
  - destruct (mget shape e o) as [[a|a q|y]|] eqn:G; cbn [option_map owned_buf sim]; auto. destruct (look_buf a q h) as (set & L). rewrite L. cbn [then_].
    destruct (mem h a); [|exact Logic.I]. rewrite rep_same by exact G. eexists. split; [reflexivity|apply heq_refl].
  - destruct (mget shape e x) as [v|]; cbn [option_map sim]; auto. rewrite wowns_rep. destruct (free_all h (vowns shape v)); [|exact Logic.I].
    eexists. rewrite rep_none. split; [reflexivity|apply heq_refl].
Qed.
Lemma drop_rep h e out : tdrop_all shape (h, rep_env e, out) = drop_all shape (h, e, out).
Proof.
  unfold tdrop_all, drop_all.
  assert (E : flat_map (fun v => match v with Some v => wowns shape v | None => [] end) (rep_env e) =
    flat_map (fun v => match v with Some v => vowns shape v | None => [] end) e).
  { clear. induction e as [|[v|] e IH]; cbn; [reflexivity| |exact IH]. now rewrite wowns_rep, IH. }
  now rewrite E.
Qed.
Lemma run_sim prog : forall t h e p out, accepted true prog t = true -> inv shape [] t h e p ->
  exists out' p' st h', tdrop_all shape st = Some (h', out') /\ (forall a, mem h' a = None) /\
    (run_t prog (h, rep_env e, out) = Next st /\ prun shape dec enc dflt prog p out = Next (p', out') \/
     run_t prog (h, rep_env e, out) = Stop st /\ prun shape dec enc dflt prog p out = Stop (p', out')).
Proof.
  induction prog as [|i prog IH]; intros t h e p out A I; cbn [accepted trun prun] in *.
  - destruct (drop_ok shape _ _ _ _ out I) as (h' & D & F). exists out, p, (h, rep_env e, out), h'. rewrite drop_rep. auto.
  - destruct (check true i t) as [t'|] eqn:C; [|discriminate].
    pose proof (step_ok shape dec dec_in enc dflt i t t' h e p out C I) as S1. pose proof (step_sim i h e out (inv_next _ _ _ _ _ _ I)) as S2. unfold agree in S1. unfold sim in S2.
    destruct (mstep i (h, e, out)) as [[[h1 e1] o1]|[[h1 e1] o1]| | |], (pstep shape dec enc dflt i p out) as [[p1 o2]|[p1 o2]| | |]; try destruct S1.
    + subst o2. destruct S2 as (h2 & -> & H2). exact (IH _ _ _ _ _ A (inv_heq _ _ _ _ _ _ _ H2 H0)).
    + subst o2. destruct H0 as (g2 & I2). destruct S2 as (h2 & -> & H2). destruct (drop_ok shape _ _ _ _ o1 (inv_heq _ _ _ _ _ _ _ H2 I2)) as (h' & D & F).
      exists o1, p1, (h2, rep_env e1, o1), h'. rewrite drop_rep. auto.
Qed.
End Steps.

Lemma items_owned g d d0 m : g_owned g = true -> message_has_lifetime (g_passes g) d (lifetime_fuel d) [] m = GOk true ->
  forall i, In i (owned_items g m) -> In i (message_items g d d0 m).
Proof. intros O L i I. unfold message_items. rewrite !in_app_iff. do 6 right. unfold only. rewrite O, L. exact I. Qed.
Lemma items_slice g d d0 m : g_owned g = true -> message_has_lifetime (g_passes g) d (lifetime_fuel d) [] m = GOk false ->
  In (try_from_item m) (message_items g d d0 m).
Proof. intros O L. unfold message_items. rewrite !in_app_iff. do 6 right. unfold only. rewrite O, L. now left. Qed.

(** ** C88 *)

(** The file that pb-rs writes with [--owned] has, for each message that borrows
    and in the module of the message, items such that every program that the
    borrow checker accepts, and that stores only messages that borrow nothing
    through [proto_mut], and whose calls run the functions in these items, uses no
    memory that is not allocated, frees everything once, does not panic, and prints
    what the semantics without memory prints.
    Missing: as in C75; and messages named [Box], [Vec], [BytesReader], [Writer] or
    [core], see below. *)
Theorem C88_owned_text_partial : forall g d filename services s d',
  generated g d filename services = (s, None) -> schema_ok d = true -> config_ok g = true -> all_chars not_newline filename = true ->
  g_owned g = true -> process (g_passes g) d = GOk d' ->
  exists f, parse_rust s = Some f /\
  forall p x, nested_in (filter (fun m => negb (m_imported m)) (d_messages d')) p x ->
    message_has_lifetime (g_passes g) d' (lifetime_fuel d') [] x = GOk true -> ~ In (m_name x) used_types ->
  exists its, (forall i, In i its -> item_in (file_items f) (map (fun n => "mod_" ++ n)%string p) i) /\
  forall (shape : Type) dec enc dflt, (forall bs s ps, dec bs = Some (s, ps) -> Forall (piece_in bs) ps) ->
  forall prog, accepted true prog [] = true ->
  exists out v st h, tdrop_all shape st = Some (h, out) /\ (forall a, mem h a = None) /\
    (trun shape dec enc dflt (m_name x) its prog (empty_heap, [], []) = Next st /\ prun shape dec enc dflt prog [] [] = Next (v, out) \/
     trun shape dec enc dflt (m_name x) its prog (empty_heap, [], []) = Stop st /\ prun shape dec enc dflt prog [] [] = Stop (v, out)).
Proof.
  intros g d filename services s d' H S C F O P. destruct (C78_generated_files_are_rust _ _ _ _ _ H S C F) as (d4 & B & Q).
  rewrite process_escape, B in P. injection P as <-. eexists. split; [exact Q|]. intros p x N L FN.
  exists (owned_items g x). split; [intros i I; exact (file_tree g d4 p x N i (items_owned g _ d4 x O L i I))|].
  intros shape dec enc dflt DI prog A. apply (run_sim shape dec DI enc dflt g x FN prog [] empty_heap [] [] [] A).
  constructor; auto; cbn; [constructor|intros a; split; [congruence|intros []]|congruence|]. intros [|y] T G; discriminate.
Qed.
Print Assumptions C88_owned_text_partial.

(** A message that does not borrow has [TryFrom<&[u8]>]: the message that
    [from_reader] reads from the slice, or its error; the memory stays as it is. *)
Theorem C88_slice_text_partial : forall g d filename services s d',
  generated g d filename services = (s, None) -> schema_ok d = true -> config_ok g = true -> all_chars not_newline filename = true ->
  g_owned g = true -> process (g_passes g) d = GOk d' ->
  exists f, parse_rust s = Some f /\
  forall p x, nested_in (filter (fun m => negb (m_imported m)) (d_messages d')) p x ->
    message_has_lifetime (g_passes g) d' (lifetime_fuel d') [] x = GOk false -> ~ In (m_name x) used_types ->
  exists i, item_in (file_items f) (map (fun n => "mod_" ++ n)%string p) i /\
  forall (shape : Type) dec enc h a bs, mem h a = Some bs ->
    by_ref shape dec enc (fun y => String.eqb y (m_name x)) (fns_of [i]) (decl_of [i]) depth (m_name x) "try_from" (WVec a) h =
    RefReturns (WRes match dec bs with Some (s, ps) => Some (WMsg (s, map (piece_cow a) ps)) | None => None end) h (WVec a).
Proof.
  intros g d filename services s d' H S C F O P. destruct (C78_generated_files_are_rust _ _ _ _ _ H S C F) as (d4 & B & Q).
  rewrite process_escape, B in P. injection P as <-. eexists. split; [exact Q|]. intros p x N L FN.
  exists (try_from_item x). split; [exact (file_tree g d4 p x N _ (items_slice g _ d4 x O L))|].
  intros shape dec enc h a bs M. exact (text_slice shape dec enc x FN 40 h a bs M).
Qed.
Print Assumptions C88_slice_text_partial.

(** the program of C75, on the text of a file; the message is one string, and what
    begins with a zero byte is an error *)
Definition one_string (bs : bytes) : option (unit * list piece) :=
  match bs with x00 :: _ => None | _ => Some (tt, [Sub 0 (length bs)]) end.
Definition first_string (_ : unit) (l : list bytes) : option bytes := match l with [b] => Some b | _ => None end.
Definition shown (l : list (printed unit)) : list (list bytes) := map (fun p => match p with PrBytes b => [b] | PrMsg _ l => l end) l.
Example C88_case : exists d s f, read_one textSchema = ROk d /\ generated textConfig d "a.proto" 0 = (s, None) /\
  schema_ok d = true /\ config_ok textConfig = true /\ g_owned textConfig = true /\ parse_rust s = Some f /\
  accepted true c75_prog [] = true /\
  let run := trun unit one_string first_string (tt, [[]]) "Outer" (file_items f) in
  (exists st, run c75_prog (empty_heap, [], []) = Next st /\
     shown (snd st) = [[c75_bytes]; [c75_bytes]; [c75_bytes]; [c75_bytes]; [c75_bytes]; [c75_bytes ++ [x82; x7d; x00]]]) /\
  (exists st, run [SNew [x00]; STryFrom 0] (empty_heap, [], []) = Stop st) /\
  (exists st, run [SNew [x01]; STryFrom 0; SNew [x02]; STryFrom 2; SSwap 1 3; SRead 1] (empty_heap, [], []) = Next st /\ shown (snd st) = [[[x02]]]) /\
  run [SNew [x01]; STryFrom 0; SNew [x02]; STryFrom 2; SSwap 1 3; SDrop 3; SRead 1] (empty_heap, [], []) = Undefined.
Proof.
  case_text. cbv zeta. repeat match goal with |- _ /\ _ => split end; try (vm_compute; reflexivity).
  - eexists. split; vm_compute; reflexivity.
  - eexists. vm_compute. reflexivity.
  - eexists. split; vm_compute; reflexivity.
Qed.

(** A message of the name of a type that the functions use hides that type, and
    the functions mean nothing: [Vec::new()] in [from] is looked for in the struct
    of the message. *)
Theorem C88_hidden_names_refuted : exists d s f, read_one "message Vec { optional string s = 1; }" = ROk d /\
  generated textConfig d "a.proto" 0 = (s, None) /\ schema_ok d = true /\ config_ok textConfig = true /\ parse_rust s = Some f /\
  (exists st, accepted true [SNew [x01]; SDecode 0; SCopy 1; SFrom 2] [] = true /\
     prun unit one_string first_string (tt, [[]]) [SNew [x01]; SDecode 0; SCopy 1; SFrom 2] [] [] = Next st) /\
  trun unit one_string first_string (tt, [[]]) "Vec" (file_items f) [SNew [x01]; SDecode 0; SCopy 1; SFrom 2] (empty_heap, [], []) = Ill.
Proof.
  case_text. repeat match goal with |- _ /\ _ => split end; try (vm_compute; reflexivity).
  eexists. split; vm_compute; reflexivity.
Qed.
Print Assumptions C88_hidden_names_refuted.
