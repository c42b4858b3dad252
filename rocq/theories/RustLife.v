(** The rules of Rust for the names of lifetimes, on the syntax trees of
    RustAst.v.

    This file is a specification: it does not mention the generator.  A lifetime
    that is named in a type or an expression is one of its tokens, because the
    trees have no labels and no [for<'a>]. *)
From Coq Require Import String.
From Verif Require Import Base Schema RustLex RustAst.
Import Schema StringSyntax.
Local Open Scope string_scope.
Local Open Scope list_scope.

(** the lifetimes among some tokens *)
Definition lives (ts : list token) : list text :=
  flat_map (fun t => match t with TLife s => [s] | _ => [] end) ts.

(** a reference without a lifetime, or the lifetime ['_], somewhere in a type *)
Fixpoint elided (t : rty_) : bool :=
  match t with
  | RTPath _ p => existsb elided_seg p
  | RTRef None _ _ => true
  | RTRef (Some a) _ t => String.eqb a "_" || elided t
  | RTSlice t => elided t
  | RTTuple l => existsb elided l
  | RTInfer => false
  end
with elided_seg (s : pseg) : bool := match s with PSeg _ gs => existsb elided_arg gs end
with elided_arg (a : garg) : bool := match a with GLife s => String.eqb s "_" | GType t => elided t end.

(** A list of lifetime parameters: none twice (E0403), none of the reserved
    names (E0262), and none that is a parameter of the surrounding item too
    (E0496) *)
Definition fresh (scope lts : list text) : Prop :=
  NoDup lts /\ forall x, In x lts -> x <> "static" /\ x <> "_" /\ ~ In x scope.
(** Names that can be used where [scope] is declared (E0261) *)
Definition known (scope : list text) (used : list text) : Prop :=
  forall x, In x used -> In x scope \/ x = "static" \/ x = "_".

Definition generic_lives (gs : list rgeneric) : list text :=
  flat_map (fun p => match p with GpLife s => [s] | GpBound _ _ => [] end) gs.
Definition takes_self_ref (s : rself) : bool := match s with SelfRef _ _ => true | _ => false end.

(** The types in a struct or an enum: every name is declared; nothing is elided
    (E0106); and every parameter is used (E0392) *)
Definition data_lives (lts : list text) (ts : list rty_) : Prop :=
  fresh [] lts /\
  (forall t, In t ts -> known lts (lives (print_ty t)) /\ elided t = false) /\
  forall x, In x lts -> exists t, In t ts /\ In x (lives (print_ty t)).
(** A function.  When something is elided in the result, the function takes
    [&self]; Rust also allows it with one lifetime in the parameters, but that
    case is not needed here (E0106). *)
Definition fn_lives (scope : list text) (f : rfn) : Prop :=
  let own := generic_lives (fn_generics f) in
  fresh scope own /\
  known (own ++ scope) (lives (print_params (fn_self f) (fn_params f))) /\
  match fn_ret f with
  | Some t => known (own ++ scope) (lives (print_ty t)) /\ (elided t = true -> takes_self_ref (fn_self f) = true)
  | None => True
  end /\
  known (own ++ scope) (lives (print_block (fn_body f))).

Definition variant_types (v : rvariant) : list rty_ := match rv_payload v with VOne t => [t] | _ => [] end.
(** An item, where the lifetimes [scope] are declared.  In the header of an
    [impl], elision is allowed, and every parameter is used: Rust asks for this
    when an associated type mentions the parameter (E0207). *)
Fixpoint item_lives (scope : list text) (i : ritem_) {struct i} : Prop :=
  match i with
  | RIUse _ _ => True
  | RIAlias _ _ t => lives (print_ty t) = [] /\ elided t = false
  | RIConst _ _ t e => known scope (lives (print_ty t)) /\ known scope (lives (print_exp e))
  | RIFn f => fn_lives scope f
  | RIStruct _ _ _ lts fs => data_lives lts (map rf_type fs)
  | RIEnum _ _ lts vs => data_lives lts (flat_map variant_types vs)
  | RIImpl _ lts trait t items =>
    let header := match trait with Some tr => lives (print_ty tr) | None => [] end ++ lives (print_ty t) in
    fresh [] lts /\ known lts header /\ (forall x, In x lts -> In x header) /\
    (fix go (l : list ritem_) : Prop := match l with [] => True | x :: l' => item_lives lts x /\ go l' end) items
  | RIMod _ items =>
    (fix go (l : list ritem_) : Prop := match l with [] => True | x :: l' => item_lives [] x /\ go l' end) items
  end.
Definition file_lives (f : rfile) : Prop := forall i, In i (file_items f) -> item_lives [] i.

(** Accepted and refused items *)
Example life_case :
  let cow := RTPath false [PSeg "Cow" [GLife "a"; GType (RTPath false [PSeg "str" []])]] in
  let with_a := RTPath false [PSeg "M" [GLife "a"]] in
  item_lives [] (RIStruct [] true "M" ["a"] [mkRField [] true "x" cow]) /\
  ~ item_lives [] (RIStruct [] true "M" [] [mkRField [] true "x" cow]) /\
  ~ item_lives [] (RIStruct [] true "M" ["a"] []) /\
  ~ item_lives [] (RIStruct [] true "M" [] [mkRField [] true "x" (RTRef None false RTInfer)]) /\
  item_lives [] (RIImpl [] ["a"] None with_a []) /\
  ~ item_lives [] (RIImpl [] [] None with_a []) /\
  ~ item_lives [] (RIImpl [] ["a"] None with_a [RIFn (mkRFn true "f" [GpLife "a"] NoSelf [] None [])]).
Proof.
  cbv zeta. repeat match goal with |- _ /\ _ => split end; cbn -[lives].
  - unfold data_lives, fresh, known. cbn. repeat match goal with |- _ /\ _ => split end.
    + constructor; [intros []|constructor].
    + intros x [<-|[]]. repeat split; try discriminate. intros [].
    + intros t [<-|[]]. split; [|reflexivity]. intros x [<-|[]]. left. now left.
    + intros x [<-|[]]. eexists. split; [now left|]. now left.
  - intros (_ & H & _). destruct (proj1 (H _ (or_introl eq_refl)) "a") as [[]|[E|E]]; [now left|discriminate|discriminate].
  - intros (_ & _ & H). destruct (H "a") as (t & [] & _). now left.
  - intros (_ & H & _). destruct (H _ (or_introl eq_refl)) as [_ E]. discriminate.
  - unfold fresh, known. repeat split; try discriminate.
    + constructor; [intros []|constructor].
    + destruct H as [<-|[]]; discriminate.
    + destruct H as [<-|[]]; discriminate.
    + intros [].
    + intros x [<-|[]]. left. now left.
    + intros x [<-|[]]. now left.
  - intros (_ & H & _). destruct (H "a") as [[]|[E|E]]; [now left|discriminate|discriminate].
  - intros (_ & _ & _ & ((_ & F) & _) & _). destruct (F "a") as (_ & _ & N); [now left|]. apply N. now left.
Qed.
