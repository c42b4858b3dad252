(** The functions of the owned structs in the generated text (GenAst.v) do what
    Owned.v says. *)
From Coq Require Import String Ascii Arith Lia Bool.
From Verif Require Import Base Schema Keywords Modules Passes Gen GenCheck Lifetime RustTypes Emit Uses Output Paths GenText.
From Verif Require Import RustLex RustAst Owned OwnedFacts OwnedSem GenAst.
Import Schema StringSyntax.
Local Open Scope string_scope.
Local Open Scope list_scope.

Arguments WVec {shape}. Arguments WMsg {shape}. Arguments WOpt {shape}. Arguments WRes {shape}. Arguments WStruct {shape}.
Arguments WUnit {shape}. Arguments WRef {shape}. Arguments WReader {shape}. Arguments WWriter {shape}.
Arguments Returns {shape}. Arguments Undef {shape}. Arguments Panics {shape}. Arguments Stuck {shape}.
Arguments RefReturns {shape}. Arguments RefUndef {shape}. Arguments RefPanics {shape}. Arguments RefStuck {shape}.
Arguments HVec {shape}. Arguments HOwned {shape}. Arguments HMsg {shape}.

(** ** Specification: looking up functions and structs in a list of items *)
Definition head_of (t : rty_) : option text := match t with RTPath false [PSeg n _] => Some n | _ => None end.
Fixpoint find_fn (f : text) (l : list ritem_) : option rfn :=
  match l with
  | [] => None
  | RIFn fn :: l' => if String.eqb f (fn_name fn) then Some fn else find_fn f l'
  | _ :: l' => find_fn f l'
  end.
Fixpoint fns_of (l : list ritem_) (t f : text) : option rfn :=
  match l with
  | [] => None
  | RIImpl _ _ _ ty items :: l' =>
    match head_of ty with
    | Some n => if String.eqb t n then match find_fn f items with Some fn => Some fn | None => fns_of l' t f end else fns_of l' t f
    | None => fns_of l' t f
    end
  | _ :: l' => fns_of l' t f
  end.
Fixpoint decl_of (l : list ritem_) (t : text) : option (list text) :=
  match l with
  | [] => None
  | RIStruct _ _ n _ fs :: l' => if String.eqb t n then Some (map rf_name fs) else decl_of l' t
  | _ :: l' => decl_of l' t
  end.

(** ** Names *)
Lemma suffix_no u w : (forall s, (s ++ u)%string <> w) -> forall s, String.eqb (s ++ u) w = false.
Proof. intros H s. apply String.eqb_neq, H. Qed.
Ltac suffix := let E := fresh in intros ? E;
  repeat match type of E with (?s ++ _)%string = _ => destruct s; cbn in E; [discriminate E|first [discriminate E|injection E as _ E]] end.
Lemma app_len s u : String.length (s ++ u) = (String.length s + String.length u)%nat.
Proof. induction s; cbn; auto. Qed.
Lemma own_inner s u : u <> "" -> String.eqb (s ++ u) s = false.
Proof. intros H. apply String.eqb_neq. intros E. apply (f_equal String.length) in E. rewrite app_len in E. destruct u; [congruence|]. cbn in E. lia. Qed.
Lemma inner_owned s : String.eqb (s ++ "OwnedInner") (s ++ "Owned") = false.
Proof. apply String.eqb_neq. intros E. apply (f_equal String.length) in E. rewrite !app_len in E. cbn in E. lia. Qed.
Lemma owned_inner s : String.eqb (s ++ "Owned") (s ++ "OwnedInner") = false.
Proof. rewrite String.eqb_sym. apply inner_owned. Qed.
(** types of Rust that the functions use *)
Definition used_types : list text := ["Box"; "Vec"; "BytesReader"; "Writer"; "core"].
Lemma used_inner s x : In x used_types -> String.eqb x (s ++ "OwnedInner") = false.
Proof. intros H. rewrite String.eqb_sym. revert s. apply suffix_no. destruct H as [<-|[<-|[<-|[<-|[<-|[]]]]]]; suffix. Qed.
Lemma used_owned s x : In x used_types -> String.eqb x (s ++ "Owned") = false.
Proof. intros H. rewrite String.eqb_sym. revert s. apply suffix_no. destruct H as [<-|[<-|[<-|[<-|[<-|[]]]]]]; suffix. Qed.

(** ** The functions, for any lookup *)
Section Generic.
Variable shape : Type.
Variable dec : bytes -> option (shape * list piece).
Variable enc : shape -> list bytes -> option bytes.
Variable is_own : text -> bool.
Variable fns : text -> text -> option rfn.
Variable decl : text -> option (list text).
Variables (name inner owned : text).
Hypothesis own_yes : is_own name = true.
Hypothesis own_core : is_own "core" = false.
Hypothesis own_box : is_own "Box" = false.
Hypothesis own_vec : is_own "Vec" = false.
Hypothesis own_reader : is_own "BytesReader" = false.
Hypothesis own_writer : is_own "Writer" = false.
Hypothesis own_not : is_own inner = false.
Hypothesis fns_box : forall f, fns "Box" f = None.
Hypothesis fns_vec : forall f, fns "Vec" f = None.
Hypothesis fns_reader : forall f, fns "BytesReader" f = None.
Hypothesis fns_writer : forall f, fns "Writer" f = None.
Hypothesis decl_inner : decl inner = Some ["buf"; "proto"; "_pin"].
Hypothesis decl_owned : decl owned = Some ["inner"].
Hypothesis not_self : String.eqb inner "Self" = false.

(** a value of Owned.v *)
Definition rep_inner (a : nat) (p : option (mmsg shape)) : oval shape :=
  WStruct inner [("buf", WVec a); ("proto", WOpt (option_map WMsg p)); ("_pin", WUnit)].
Definition rep (v : mval shape) : oval shape :=
  match v with
  | HVec a => WVec a
  | HMsg x => WMsg x
  | HOwned a p => WStruct owned [("inner", rep_inner a p)]
  end.

Let new_body := [let_ "inner" (REStruct [PSeg "Self" []]
           [RInit "buf" None; RInit "proto" (Some (var "None")); RInit "_pin" (Some (epath phantom))] true);
         let_mut "pinned" (call (epath ["Box"; "pin"]) [var "inner"]);
         let_mut "reader" (call (epath ["BytesReader"; "from_bytes"]) [REUn URef (REPost (var "pinned") [OField "buf"])]);
         let_ "proto" (REPost (epath [name; "from_reader"])
           [OCall [REUn URefMut (var "reader"); REUn URef (REPost (var "pinned") [OField "buf"])]; OTry]);
         result (REUnsafe
           [let_ "proto" (transmute RTInfer (tapp name [GLife "_"]) "proto");
            GenAst.run (REAssign (REPost (var "pinned") [unit_method "as_mut"; unit_method "get_unchecked_mut"; OField "proto"]) (some (var "proto")))]);
         result (call (var "Ok") [var "pinned"])].

Notation ev := (ev shape dec enc is_own fns decl).
Notation ops := (ops shape dec enc is_own fns decl).
Notation apply_ := (apply shape dec enc is_own fns decl).
Notation value := (value shape dec enc is_own fns decl).
Notation values := (values shape dec enc is_own fns decl).
Notation block := (block shape dec enc is_own fns decl).
Notation invoke := (invoke shape dec enc is_own fns decl).
Notation Next_ := (RNext shape _).

(** one step *)
Notation bnd := (bnd shape).
Notation OpPlace := (OpPlace shape).
Notation OpVal := (OpVal shape).
Lemma value_S n self x st : value (S n) self x st = bnd (ev n self x st) (take shape).
Proof. reflexivity. Qed.
Lemma values_S n self x l st : values (S n) self (x :: l) st = bnd (value n self x st) (fun v st =>
        match values n self l st with
        | RNext _ _ vs st => Next_ (v :: vs) st
        | RStop _ _ st => drop_owns shape (wowns shape v) st (fun st => RStop _ _ st)
        | r => r
        end).
Proof. reflexivity. Qed.
Lemma let_S n self k y mt x b st : block (S n) self k (RSLet (RPBind false mt y) x :: b) st =
  bnd (value n self x st) (fun v st => block n self k b (fst st, snd st ++ [(y, Some v)])).
Proof. reflexivity. Qed.
Lemma stmt_S n self k x s c b st : block (S n) self k (RSExpr x s :: c :: b) st =
  bnd (value n self x st) (fun v st => drop_owns shape (wowns shape v) st (fun st => block n self k (c :: b) st)).
Proof. destruct s; reflexivity. Qed.
Lemma unit_S n self k x st : block (S n) self k [RSExpr x true] st =
  bnd (value n self x st) (fun v st => drop_owns shape (wowns shape v) st (fun st => block n self k [] st)).
Proof. reflexivity. Qed.
Lemma last_S n self k x st : block (S n) self k [RSExpr x false] st = bnd (value n self x st) (fun v st => leave shape k st (fun st => Next_ v st)).
Proof. reflexivity. Qed.
Lemma call_S n self p args os st : ev (S n) self (REPost (REPath false p) (OCall args :: os)) st =
  bnd (values n self args st) (fun vs st => bnd (apply_ n (names_of p) vs st) (fun v st => ops n self (OpVal v) os st)).
Proof. reflexivity. Qed.
Lemma post_S n self p o os st : match o with OCall _ => False | _ => True end -> ev (S n) self (REPost (REPath false p) (o :: os)) st =
  bnd (ev n self (REPath false p) st) (fun y st => ops n self y (o :: os) st).
Proof. intros H. destruct o; try destruct H; reflexivity. Qed.
Lemma unsafe_S n self b st : ev (S n) self (REUnsafe b) st = bnd (block n self (length (snd st)) b st) (fun v st => Next_ (OpVal v) st).
Proof. reflexivity. Qed.
Lemma ref_S n self o x st : o = URef \/ o = URefMut -> ev (S n) self (REUn o x) st =
  bnd (ev n self x st) (fun o st => match o with
        | OwnedSem.OpPlace _ p => match get_place shape (snd st) p with Some _ => Next_ (OpVal (WRef (strip shape (snd st) p))) st | None => RIll _ _ end
        | OwnedSem.OpVal _ _ => RIll _ _
        end).
Proof. intros [->| ->]; reflexivity. Qed.
Lemma assign_S n self x y st : ev (S n) self (REAssign x y) st =
      bnd (value n self y st) (fun v st => bnd (ev n self x st) (fun o st =>
        match o with
        | OwnedSem.OpPlace _ p => match get_place shape (snd st) p with
                       | Some old => drop_owns shape (wowns shape old) st (fun st =>
                                       match set_place shape (snd st) p v with Some e => Next_ (OpVal WUnit) (fst st, e) | None => RIll _ _ end)
                       | None => RIll _ _
                       end
        | OwnedSem.OpVal _ _ => RIll _ _
        end)).
Proof. reflexivity. Qed.
Lemma struct_S n self t inits tr st : ev (S n) self (REStruct [PSeg t []] inits tr) st =
      match decl (if String.eqb t "Self" then self else t) with
      | Some fields =>
        if same_names (map (fun i => match i with RInit f _ => f end) inits) fields then
          bnd (values n self (map (fun i => match i with RInit f (Some y) => y | RInit f None => REPath false [PSeg f []] end) inits) st)
            (fun vs st => Next_ (OpVal (WStruct (if String.eqb t "Self" then self else t) (combine fields vs))) st)
        else RIll _ _
      | None => RIll _ _
      end.
Proof. reflexivity. Qed.
Lemma field_S n self o f os st : ops (S n) self o (OField f :: os) st =
      match receiver shape o (snd st) with
      | Some r => match get_place shape (snd st) (inside r (InField f)) with Some _ => ops n self (OpPlace (inside r (InField f))) os st | None => RIll _ _ end
      | None => RIll _ _
      end.
Proof. reflexivity. Qed.
Lemma method_S n self o f args os st : ops (S n) self o (OMethod f [] args :: os) st =
      bnd (values n self args st) (fun vs st => bnd (method_ shape enc f o vs st) (fun o st => ops n self o os st)).
Proof. reflexivity. Qed.
Lemma apply_S n t f args st : apply_ (S n) [t; f] args st =
      if is_own t then (if String.eqb f "from_reader" then from_reader_ shape dec args st else RIll _ _)
      else match fns t f with
           | Some fn =>
             match invoke n t fn args (fst st) with
             | RNext _ _ v (h, _) => Next_ v (h, snd st)
             | r => r
             end
           | None => builtin shape [t; f] args st
           end.
Proof. reflexivity. Qed.
Lemma apply3_S n t f u args st : apply_ (S n) [t; f; u] args st = if is_own t then RIll _ _ else builtin shape [t; f; u] args st.
Proof. reflexivity. Qed.
Lemma invoke_S n t pub nm gs mt x tb ret b v h : invoke (S n) t (mkRFn pub nm gs NoSelf [(RPBind false mt x, tb)] ret b) [v] h =
  returned shape 0 (block n t 0 b (h, [(x, Some v)])).
Proof. reflexivity. Qed.

(** rules of the evaluator *)
Lemma r_value n self x st o st1 r : ev n self x st = Next_ o st1 -> take shape o st1 = r -> value (S n) self x st = r.
Proof. intros E <-. rewrite value_S. now rewrite E. Qed.
Lemma r_value_stop n self x st st1 : ev n self x st = RStop shape _ st1 -> value (S n) self x st = RStop shape _ st1.
Proof. intros E. rewrite value_S. now rewrite E. Qed.
Lemma r_values_nil n self st : values (S n) self [] st = Next_ [] st.
Proof. reflexivity. Qed.
Lemma r_values_cons n self x l st v st1 vs st2 : value n self x st = Next_ v st1 -> values n self l st1 = Next_ vs st2 ->
  values (S n) self (x :: l) st = Next_ (v :: vs) st2.
Proof. intros E F. rewrite values_S. rewrite E. cbn [OwnedSem.bnd]. now rewrite F. Qed.
Lemma r_let n self k y mt x b st v st1 st2 r : value n self x st = Next_ v st1 -> (fst st1, snd st1 ++ [(y, Some v)]) = st2 -> block n self k b st2 = r ->
  block (S n) self k (RSLet (RPBind false mt y) x :: b) st = r.
Proof. intros E <- <-. rewrite let_S. now rewrite E. Qed.
Lemma r_let_stop n self k y mt x b st st1 : value n self x st = RStop shape _ st1 -> block (S n) self k (RSLet (RPBind false mt y) x :: b) st = RStop shape _ st1.
Proof. intros E. rewrite let_S. now rewrite E. Qed.
Lemma r_stmt n self k x s b c st v st1 r : value n self x st = Next_ v st1 -> wowns shape v = [] -> block n self k (c :: b) st1 = r ->
  block (S n) self k (RSExpr x s :: c :: b) st = r.
Proof. intros E W <-. rewrite stmt_S. rewrite E. cbn [OwnedSem.bnd]. rewrite W. unfold drop_owns. cbn [free_all]. destruct st1. now destruct s. Qed.
Lemma r_stmt_stop n self k x s b st st1 : value n self x st = RStop shape _ st1 -> block (S n) self k (RSExpr x s :: b) st = RStop shape _ st1.
Proof. intros E. destruct b as [|c b]; [destruct s; [rewrite unit_S|rewrite last_S]|rewrite stmt_S]; now rewrite E. Qed.
Lemma r_unit n self k x st v st1 r : value n self x st = Next_ v st1 -> wowns shape v = [] -> block n self k [] st1 = r ->
  block (S n) self k [RSExpr x true] st = r.
Proof. intros E W <-. rewrite unit_S. rewrite E. cbn [OwnedSem.bnd]. rewrite W. unfold drop_owns. cbn [free_all]. now destruct st1. Qed.
Lemma r_last n self k x st v st1 r : value n self x st = Next_ v st1 -> leave shape k st1 (fun st => Next_ v st) = r ->
  block (S n) self k [RSExpr x false] st = r.
Proof. intros E <-. rewrite last_S. now rewrite E. Qed.
Lemma r_call n self p args os st vs st1 v st2 r : values n self args st = Next_ vs st1 -> apply_ n (names_of p) vs st1 = Next_ v st2 ->
  ops n self (OpVal v) os st2 = r -> ev (S n) self (REPost (REPath false p) (OCall args :: os)) st = r.
Proof. intros E F <-. rewrite call_S. rewrite E. cbn [OwnedSem.bnd]. now rewrite F. Qed.
Lemma r_post n self p o os st y st1 r : match o with OCall _ => False | _ => True end -> ev n self (REPath false p) st = Next_ y st1 ->
  ops n self y (o :: os) st1 = r -> ev (S n) self (REPost (REPath false p) (o :: os)) st = r.
Proof. intros N E <-. rewrite post_S by exact N. now rewrite E. Qed.
Lemma r_unsafe n self b st v st1 : block n self (length (snd st)) b st = Next_ v st1 -> ev (S n) self (REUnsafe b) st = Next_ (OpVal v) st1.
Proof. intros E. exact (f_equal (fun r => bnd r (fun v st => Next_ (OpVal v) st)) E). Qed.
Lemma r_ref n self o x st p st1 w q : (o = URef \/ o = URefMut) -> ev n self x st = Next_ (OpPlace p) st1 -> get_place shape (snd st1) p = Some w ->
  strip shape (snd st1) p = q -> ev (S n) self (REUn o x) st = Next_ (OpVal (WRef q)) st1.
Proof. intros O E F <-. rewrite ref_S by exact O. rewrite E. cbn [OwnedSem.bnd]. now rewrite F. Qed.
Lemma r_assign n self x y st v st1 p st2 old e st3 : value n self y st = Next_ v st1 -> ev n self x st1 = Next_ (OpPlace p) st2 ->
  get_place shape (snd st2) p = Some old -> wowns shape old = [] -> set_place shape (snd st2) p v = Some e ->
  (fst st2, e) = st3 -> ev (S n) self (REAssign x y) st = Next_ (OpVal WUnit) st3.
Proof. intros E F G W S <-. rewrite assign_S. rewrite E. cbn [OwnedSem.bnd]. rewrite F. cbn [OwnedSem.bnd]. rewrite G, W. unfold drop_owns. cbn [free_all]. destruct st2. cbn [fst snd] in *. now rewrite S. Qed.
Lemma r_struct n self t inits tr st fields vs st1 v : decl (if String.eqb t "Self" then self else t) = Some fields ->
  same_names (map (fun i => match i with RInit f _ => f end) inits) fields = true ->
  values n self (map (fun i => match i with RInit f (Some y) => y | RInit f None => REPath false [PSeg f []] end) inits) st = Next_ vs st1 ->
  WStruct (if String.eqb t "Self" then self else t) (combine fields vs) = v ->
  ev (S n) self (REStruct [PSeg t []] inits tr) st = Next_ (OpVal v) st1.
Proof. intros D S V <-. rewrite struct_S. rewrite D, S, V. reflexivity. Qed.
Lemma r_ops_nil n self o st : ops (S n) self o [] st = Next_ o st.
Proof. reflexivity. Qed.
Lemma r_ops_field n self o f os st q w q2 r : receiver shape o (snd st) = Some q -> get_place shape (snd st) (inside q (InField f)) = Some w ->
  inside q (InField f) = q2 -> ops n self (OpPlace q2) os st = r -> ops (S n) self o (OField f :: os) st = r.
Proof. intros E F <- <-. rewrite field_S. now rewrite E, F. Qed.
Lemma r_ops_method n self o f args os st vs st1 o2 st2 r : values n self args st = Next_ vs st1 -> method_ shape enc f o vs st1 = Next_ o2 st2 ->
  ops n self o2 os st2 = r -> ops (S n) self o (OMethod f [] args :: os) st = r.
Proof. intros E F <-. rewrite method_S. rewrite E. cbn [OwnedSem.bnd]. now rewrite F. Qed.
Lemma r_ops_try n self os st v r : ops n self (OpVal v) os st = r -> ops (S n) self (OpVal (WRes (Some v))) (OTry :: os) st = r.
Proof. now intros <-. Qed.
Lemma r_ops_err n self os st : ops (S n) self (OpVal (WRes None)) (OTry :: os) st = RStop shape _ st.
Proof. reflexivity. Qed.
Lemma r_own n args st r : from_reader_ shape dec args st = r -> apply_ (S n) [name; "from_reader"] args st = r.
Proof. intros <-. rewrite apply_S. now rewrite own_yes. Qed.
Lemma r_builtin1 n f args st : apply_ (S n) [f] args st = builtin shape [f] args st.
Proof. reflexivity. Qed.
Lemma r_builtin2 n t f args st : is_own t = false -> fns t f = None -> apply_ (S n) [t; f] args st = builtin shape [t; f] args st.
Proof. intros E F. rewrite apply_S. now rewrite E, F. Qed.
Lemma r_builtin3 n t f u args st : is_own t = false -> apply_ (S n) [t; f; u] args st = builtin shape [t; f; u] args st.
Proof. intros E. rewrite apply3_S. now rewrite E. Qed.
Lemma r_fn n t f fn args st v h e st1 : is_own t = false -> fns t f = Some fn -> invoke n t fn args (fst st) = Next_ v (h, e) ->
  (h, snd st) = st1 -> apply_ (S n) [t; f] args st = Next_ v st1.
Proof. intros E F G <-. rewrite apply_S. now rewrite E, F, G. Qed.
Lemma r_pin n self st : ev (S n) self (REPath false [PSeg "core" []; PSeg "marker" []; PSeg "PhantomPinned" []]) st = Next_ (OpVal WUnit) st.
Proof. change (ev (S n) self _ st) with (if is_own "core" then RIll shape (opnd shape) else Next_ (OpVal WUnit) st). now rewrite own_core. Qed.

Lemma r_values_stop n self x l st st1 : value n self x st = RStop shape _ st1 -> values (S n) self (x :: l) st = RStop shape _ st1.
Proof. intros E. rewrite values_S. now rewrite E. Qed.
Lemma r_struct_stop n self t inits tr st fields st1 : decl (if String.eqb t "Self" then self else t) = Some fields ->
  same_names (map (fun i => match i with RInit f _ => f end) inits) fields = true ->
  values n self (map (fun i => match i with RInit f (Some y) => y | RInit f None => REPath false [PSeg f []] end) inits) st = RStop shape _ st1 ->
  ev (S n) self (REStruct [PSeg t []] inits tr) st = RStop shape _ st1.
Proof. intros D S V. rewrite struct_S. rewrite D, S, V. reflexivity. Qed.
Lemma r_call_stop n self p args os st st1 : values n self args st = RStop shape _ st1 -> ev (S n) self (REPost (REPath false p) (OCall args :: os)) st = RStop shape _ st1.
Proof. intros E. rewrite call_S. now rewrite E. Qed.
Ltac hyps1 := first [rewrite own_yes|rewrite own_core|rewrite own_box|rewrite own_vec|rewrite own_reader|rewrite own_writer|rewrite own_not
  |rewrite fns_box|rewrite fns_vec|rewrite fns_reader|rewrite fns_writer|rewrite decl_inner|rewrite decl_owned|rewrite not_self
  |match goal with H : mem _ _ = Some _ |- _ => rewrite H | H : dec _ = _ |- _ => rewrite H | H : enc _ _ = _ |- _ => rewrite H
     | H : read_cows _ _ = Some _ |- _ => rewrite H end
  |rewrite Nat.eqb_refl].
Ltac leaf := solve [cbn; repeat (hyps1; cbn); reflexivity].
Ltac go1 :=
  lazymatch goal with
  | |- OwnedSem.value _ _ _ _ _ _ _ _ _ _ = _ => eapply r_value
  | |- OwnedSem.values _ _ _ _ _ _ _ _ [] _ = _ => apply r_values_nil
  | |- OwnedSem.values _ _ _ _ _ _ _ _ (_ :: _) _ = _ => eapply r_values_cons
  | |- OwnedSem.values _ _ _ _ _ _ _ _ _ _ = _ => cbn [map]
  | |- OwnedSem.block _ _ _ _ _ _ _ _ _ (RSLet _ _ :: _) _ = _ => eapply r_let
  | |- OwnedSem.block _ _ _ _ _ _ _ _ _ [RSExpr _ true] _ = _ => eapply r_unit
  | |- OwnedSem.block _ _ _ _ _ _ _ _ _ [RSExpr _ false] _ = _ => eapply r_last
  | |- OwnedSem.block _ _ _ _ _ _ _ _ _ (RSExpr _ _ :: _ :: _) _ = _ => eapply r_stmt
  | |- OwnedSem.ev _ _ _ _ _ _ _ _ (REPost (REPath false _) (OCall _ :: _)) _ = _ => eapply r_call
  | |- OwnedSem.ev _ _ _ _ _ _ _ _ (REPost (REPath false _) (_ :: _)) _ = _ => eapply r_post; [exact Logic.I| |]
  | |- OwnedSem.ev _ _ _ _ _ _ _ _ (REUnsafe _) _ = _ => eapply r_unsafe
  | |- OwnedSem.ev _ _ _ _ _ _ _ _ (REUn _ _) _ = _ => eapply r_ref; [auto| | |]
  | |- OwnedSem.ev _ _ _ _ _ _ _ _ (REAssign _ _) _ = _ => eapply r_assign
  | |- OwnedSem.ev _ _ _ _ _ _ _ _ (REStruct _ _ _) _ = _ => eapply r_struct
  | |- OwnedSem.ev _ _ _ _ _ _ _ _ (REPath _ [_; _; _]) _ = _ => apply r_pin
  | |- OwnedSem.ev _ _ _ _ _ _ _ _ (REPath _ _) _ = _ => reflexivity
  | |- OwnedSem.ops _ _ _ _ _ _ _ _ _ [] _ = _ => apply r_ops_nil
  | |- OwnedSem.ops _ _ _ _ _ _ _ _ _ (OField _ :: _) _ = _ => eapply r_ops_field
  | |- OwnedSem.ops _ _ _ _ _ _ _ _ _ (OMethod _ _ _ :: _) _ = _ => eapply r_ops_method
  | |- OwnedSem.ops _ _ _ _ _ _ _ _ (OpVal (WRes (Some _))) (OTry :: _) _ = _ => eapply r_ops_try
  | |- OwnedSem.ops _ _ _ _ _ _ _ _ (OpVal (WRes None)) (OTry :: _) _ = _ => eapply r_ops_err
  | |- OwnedSem.apply _ _ _ _ _ _ _ [_] _ _ = _ => etransitivity; [eapply r_builtin1|]
  | |- OwnedSem.apply _ _ _ _ _ _ _ [name; _] _ _ = _ => eapply r_own
  | |- OwnedSem.apply _ _ _ _ _ _ _ [inner; _] _ _ = _ => eapply r_fn; [exact own_not|eassumption|cbn [fst]|]
  | |- OwnedSem.invoke _ _ _ _ _ _ _ _ _ _ _ = _ => match goal with H : forall n, OwnedSem.invoke _ _ _ _ _ _ _ _ _ _ _ = _ |- _ => apply H end
  | |- OwnedSem.apply _ _ _ _ _ _ _ [_; _] _ _ = _ => etransitivity; [eapply r_builtin2; [assumption|auto]|]
  | |- OwnedSem.apply _ _ _ _ _ _ _ [_; _; _] _ _ = _ => etransitivity; [eapply r_builtin3; assumption|]
  | |- OwnedSem.apply _ _ _ _ _ _ _ (names_of _) _ _ = _ => cbn [names_of map spath]
  | |- OwnedSem.apply _ _ _ _ _ _ _ _ _ _ = _ => fail
  | |- OwnedSem.ops _ _ _ _ _ _ _ _ _ _ _ = _ => fail
  | |- OwnedSem.ev _ _ _ _ _ _ _ _ _ _ = _ => fail
  | |- _ => leaf
  end.
Ltac unfold_code b := cbv [b let_ let_mut call var epath spath phantom some result GenAst.run transmute unit_method method names_of tapp tpath app].
Ltac run_ev := do 300 (try only 1: go1).
Lemma new_ok n pub nm gs ret tb a h bs s ps : mem h a = Some bs -> dec bs = Some (s, ps) ->
  invoke (40 + n) inner (mkRFn pub nm gs NoSelf [(bind "buf", tb)] ret new_body) [WVec a] h =
  Next_ (WRes (Some (rep_inner a (Some (s, map (piece_cow a) ps))))) (h, []).
Proof.
  intros M D. change (40 + n)%nat with (S (39 + n)). unfold bind. rewrite invoke_S. unfold_code new_body.
  etransitivity; [apply (f_equal (returned shape 0)); run_ev|]. reflexivity.
Qed.
Lemma new_err n pub nm gs ret tb a h bs h' : mem h a = Some bs -> dec bs = None -> free h a = Some h' ->
  invoke (40 + n) inner (mkRFn pub nm gs NoSelf [(bind "buf", tb)] ret new_body) [WVec a] h = Next_ (WRes None) (h', []).
Proof.
  intros M D F. change (40 + n)%nat with (S (39 + n)). unfold bind. rewrite invoke_S. unfold_code new_body.
  etransitivity; [apply (f_equal (returned shape 0))|].
  { do 3 (eapply r_let; [run_ev|leaf|]). eapply r_let_stop, r_value_stop. run_ev. }
  cbn. unfold leave. cbn. now rewrite F.
Qed.

(** [try_from] *)
Let try_from_body := [result (call (var "Ok")
           [REStruct [PSeg "Self" []] [RInit "inner" (Some (REPost (epath [inner; "new"]) [OCall [var "buf"]; OTry]))] false])].
Lemma try_from_ok n pub nm gs ret tb fn a h v : fns inner "new" = Some fn ->
  (forall n, invoke (40 + n) inner fn [WVec a] h = Next_ (WRes (Some v)) (h, [])) ->
  invoke (60 + n) owned (mkRFn pub nm gs NoSelf [(bind "buf", tb)] ret try_from_body) [WVec a] h = Next_ (WRes (Some (WStruct owned [("inner", v)]))) (h, []).
Proof.
  intros L N. change (60 + n)%nat with (S (59 + n)). unfold bind. rewrite invoke_S. unfold_code try_from_body.
  etransitivity; [apply (f_equal (returned shape 0)); run_ev|]. reflexivity.
Qed.
Lemma try_from_err n pub nm gs ret tb fn a h h' : fns inner "new" = Some fn ->
  (forall n, invoke (40 + n) inner fn [WVec a] h = Next_ (WRes None) (h', [])) ->
  invoke (60 + n) owned (mkRFn pub nm gs NoSelf [(bind "buf", tb)] ret try_from_body) [WVec a] h = Next_ (WRes None) (h', []).
Proof.
  intros L N. change (60 + n)%nat with (S (59 + n)). unfold bind. rewrite invoke_S. unfold_code try_from_body.
  etransitivity; [apply (f_equal (returned shape 0))|].
  { eapply r_stmt_stop, r_value_stop, r_call_stop, r_values_stop, r_value_stop, r_struct_stop; [leaf|leaf|]. cbn [map].
    eapply r_values_stop, r_value_stop. run_ev. }
  reflexivity.
Qed.

(** [from] *)
Let from_body := [result (REStruct [PSeg "Self" []]
           [RInit "inner" (Some (call (epath ["Box"; "pin"])
              [REStruct [PSeg inner []]
                 [RInit "buf" (Some (call (epath ["Vec"; "new"]) [])); RInit "proto" (Some (some (var "proto")));
                  RInit "_pin" (Some (epath phantom))] true]))] false)].
Lemma from_ok n pub nm gs ret tb x h : 
  invoke (60 + n) owned (mkRFn pub nm gs NoSelf [(bind "proto", tb)] ret from_body) [WMsg x] h =
  let (a, h') := alloc h [] in Next_ (rep (HOwned a (Some x))) (h', []).
Proof.
  change (60 + n)%nat with (S (59 + n)). unfold bind. rewrite invoke_S. unfold_code from_body.
  etransitivity; [apply (f_equal (returned shape 0)); run_ev|]. reflexivity.
Qed.

(** [try_into] *)
Let proto_of := [OField "inner"; OField "proto"; unit_method "as_ref"; unit_method "unwrap"].
Let try_into_body := [let_mut "buf" (call (epath ["Vec"; "new"]) []);
         let_mut "writer" (call (epath ["Writer"; "new"]) [REUn URefMut (var "buf")]);
         GenAst.run (REPost (var "self") (proto_of ++ [method "write_message" [REUn URefMut (var "writer")]; OTry]));
         result (call (var "Ok") [var "buf"])].
Lemma try_into_ok n a s l h strings bs : let (b, h1) := alloc h [] in
  read_cows h1 l = Some strings -> enc s strings = Some bs ->
  returned shape 0 (block (60 + n) owned 0 try_into_body (h, [("self", Some (rep (HOwned a (Some (s, l)))))])) =
  match free_all (store h1 b bs) (a :: owned_cows l) with Some h2 => Next_ (WRes (Some (WVec b))) (h2, []) | None => RUndef _ _ end.
Proof.
  cbn [alloc]. intros R E. cbv [try_into_body proto_of]. unfold_code rep.
  etransitivity; [apply (f_equal (returned shape 0)); run_ev|].
  unfold leave, env_owns. cbn [skipn rev app flat_map snd fst wowns rep_inner option_map]. rewrite !app_nil_r. cbn [app].
  destruct (free_all _ _); reflexivity.
Qed.
Lemma try_into_err n a s l h strings : let (b, h1) := alloc h [] in
  read_cows h1 l = Some strings -> enc s strings = None ->
  returned shape 0 (block (60 + n) owned 0 try_into_body (h, [("self", Some (rep (HOwned a (Some (s, l)))))])) =
  match free_all h1 (b :: a :: owned_cows l) with Some h2 => Next_ (WRes None) (h2, []) | None => RUndef _ _ end.
Proof.
  cbn [alloc]. intros R E. cbv [try_into_body proto_of]. unfold_code rep.
  etransitivity; [apply (f_equal (returned shape 0))|].
  { do 2 (eapply r_let; [run_ev|leaf|]). eapply r_stmt_stop, r_value_stop. run_ev. }
  unfold returned, leave, env_owns. cbn [skipn rev app flat_map snd fst wowns rep_inner option_map]. rewrite !app_nil_r. cbn [app].
  destruct (free_all _ _); reflexivity.
Qed.

(** [buf], [proto] and [proto_mut] *)
Let self_env (v : oval shape) : env shape := [("*self", Some v); ("self", Some (WRef (O, [])))].
Lemma buf_ok n a p h :
  returned shape 1 (block (60 + n) owned 1 [result (REUn URef (REPost (var "self") [OField "inner"; OField "buf"]))] (h, self_env (rep (HOwned a p)))) =
  Next_ (WRef (O, [InField "inner"; InField "buf"])) (h, [("*self", Some (rep (HOwned a p)))]).
Proof. cbv [self_env]. unfold_code rep. etransitivity; [apply (f_equal (returned shape 1)); run_ev|]. reflexivity. Qed.
Let proto_body from to := [let_ "proto" (REPost (var "self") proto_of); result (REUnsafe [result (transmute from to "proto")])].
Definition proto_place : place := (O, [InField "inner"; InField "proto"; InSome]).
Lemma proto_ok n from to a x h :
  returned shape 1 (block (60 + n) owned 1 (proto_body from to) (h, self_env (rep (HOwned a (Some x))))) =
  Next_ (WRef proto_place) (h, [("*self", Some (rep (HOwned a (Some x))))]).
Proof. cbv [self_env proto_body proto_of]. unfold_code rep. etransitivity; [apply (f_equal (returned shape 1)); run_ev|]. reflexivity. Qed.
Let proto_mut_body from to := [let_ "inner" (REPost (var "self") [OField "inner"; unit_method "as_mut"]);
         let_ "inner" (REUnsafe [result (REPost (var "inner") [unit_method "get_unchecked_mut"])]);
         let_ "proto" (REPost (var "inner") [OField "proto"; unit_method "as_mut"; unit_method "unwrap"]);
         result (REUnsafe [result (transmute from to "proto")])].
Lemma proto_mut_ok n from to a x h :
  returned shape 1 (block (60 + n) owned 1 (proto_mut_body from to) (h, self_env (rep (HOwned a (Some x))))) =
  Next_ (WRef proto_place) (h, [("*self", Some (rep (HOwned a (Some x))))]).
Proof. cbv [self_env proto_mut_body]. unfold_code rep. etransitivity; [apply (f_equal (returned shape 1)); run_ev|]. reflexivity. Qed.

(** [TryFrom<&[u8]>] of a message without a lifetime *)
Let slice_body := [let_mut "reader" (call (epath ["BytesReader"; "from_bytes"]) [REUn URef (var "buf")]);
        result (call (var "Ok")
          [REPost (epath [name; "from_reader"]) [OCall [REUn URefMut (var "reader"); REUn URef (var "buf")]; OTry]])].
Lemma slice_ok n a h bs s ps : mem h a = Some bs -> dec bs = Some (s, ps) ->
  returned shape 1 (block (60 + n) name 1 slice_body (h, [("*self", Some (WVec a)); ("buf", Some (WRef (O, [])))])) =
  Next_ (WRes (Some (WMsg (s, map (piece_cow a) ps)))) (h, [("*self", Some (WVec a))]).
Proof. intros M D. cbv [slice_body]. unfold_code rep. etransitivity; [apply (f_equal (returned shape 1)); run_ev|]. reflexivity. Qed.
Lemma slice_err n a h bs : mem h a = Some bs -> dec bs = None ->
  returned shape 1 (block (60 + n) name 1 slice_body (h, [("*self", Some (WVec a)); ("buf", Some (WRef (O, [])))])) =
  Next_ (WRes None) (h, [("*self", Some (WVec a))]).
Proof.
  intros M D. cbv [slice_body]. unfold_code rep. etransitivity; [apply (f_equal (returned shape 1))|].
  { eapply r_let; [run_ev|leaf|]. eapply r_stmt_stop, r_value_stop, r_call_stop, r_values_stop, r_value_stop. run_ev. }
  reflexivity.
Qed.
End Generic.

(** ** The functions of a message *)
Section Message.
Variable shape : Type.
Variable dec : bytes -> option (shape * list piece).
Variable enc : shape -> list bytes -> option bytes.
Variables (g : gen_config) (m : message).
Notation name := (m_name m).
Notation inner := (m_name m ++ "OwnedInner")%string.
Notation owned := (m_name m ++ "Owned")%string.
Hypothesis free_name : ~ In name used_types.
Definition own_name (x : text) : bool := String.eqb x name.
Notation fns := (fns_of (owned_items g m)).
Notation decl := (decl_of (owned_items g m)).
Notation rep := (rep shape inner owned).

Lemma own_used x : In x used_types -> own_name x = false.
Proof. intros H. apply String.eqb_neq. intros ->. exact (free_name H). Qed.
Lemma fns_used x f : In x used_types -> fns x f = None.
Proof.
  intros H. unfold owned_items. cbn [fns_of app head_of tname tapp tpath spath]. rewrite (used_inner name x H), (used_owned name x H).
  unfold only. destruct (g_gen_info g); cbn [fns_of head_of tname tapp tpath spath]; now rewrite ?(used_owned name x H).
Qed.
Lemma own_self : own_name name = true.
Proof. apply String.eqb_refl. Qed.
Lemma own_inner_no : own_name inner = false.
Proof. apply own_inner. discriminate. Qed.
Lemma decl_inner_ok : decl inner = Some ["buf"; "proto"; "_pin"].
Proof. unfold owned_items. cbn [decl_of app]. now rewrite String.eqb_refl. Qed.
Lemma decl_owned_ok : decl owned = Some ["inner"].
Proof. unfold owned_items. cbn [decl_of app]. rewrite owned_inner. now rewrite String.eqb_refl. Qed.
Lemma inner_self : String.eqb inner "Self" = false.
Proof. apply suffix_no. suffix. Qed.
Definition impl_items (k : nat) : list ritem_ := match nth_error (owned_items g m) k with Some (RIImpl _ _ _ _ l) => l | _ => [] end.
Definition or_fn (a b : option rfn) : option rfn := match a with Some f => Some f | None => b end.
Lemma fns_cons_other i l t f : match i with RIImpl _ _ _ ty _ => match head_of ty with Some n => String.eqb t n = false | None => True end | _ => True end ->
  fns_of (i :: l) t f = fns_of l t f.
Proof. destruct i; try reflexivity. cbn [fns_of]. destruct (head_of t0); [|reflexivity]. now intros ->. Qed.
Lemma fns_cons a b c ty its l t f : head_of ty = Some t -> fns_of (RIImpl a b c ty its :: l) t f = or_fn (find_fn f its) (fns_of l t f).
Proof. intros H. cbn [fns_of]. now rewrite H, String.eqb_refl. Qed.
Ltac others := repeat match goal with
  | |- fns_of (RIImpl _ _ _ _ _ :: _) _ _ = _ => rewrite fns_cons_other by (cbn; first [apply inner_owned|apply owned_inner])
  | |- fns_of (RIStruct _ _ _ _ _ :: _) _ _ = _ => rewrite fns_cons_other by exact Logic.I
  end.
Lemma fns_inner_is f : fns inner f = find_fn f (impl_items 1).
Proof.
  unfold impl_items, owned_items. cbn [nth_error app]. others. rewrite fns_cons by reflexivity.
  transitivity (or_fn (find_fn f (impl_items 1)) None); [|now destruct (find_fn f _)]. unfold impl_items, owned_items. cbn [nth_error app].
  f_equal. others. unfold only. destruct (g_gen_info g); others; reflexivity.
Qed.
Lemma fns_owned_is f : fns owned f = or_fn (find_fn f (impl_items 3)) (or_fn (find_fn f (impl_items 4)) (or_fn (find_fn f (impl_items 5))
  (or_fn (find_fn f (impl_items 6)) (find_fn f (impl_items 7))))).
Proof.
  unfold impl_items, owned_items. cbn [nth_error app]. others. do 4 (rewrite fns_cons by reflexivity; f_equal). rewrite fns_cons by reflexivity.
  unfold only. destruct (g_gen_info g); [rewrite fns_cons by reflexivity|]; cbn [find_fn fn fn_name fns_of path_const or_fn]; now destruct (String.eqb f "from").
Qed.
Ltac lookup := first [rewrite fns_inner_is|rewrite fns_owned_is]; cbn [impl_items owned_items nth_error app or_fn find_fn fn fn_name String.eqb Ascii.eqb Bool.eqb error_alias].
Notation by_value := (by_value shape dec enc own_name fns decl).
Notation by_ref := (by_ref shape dec enc own_name fns decl).
Notation invoke := (invoke shape dec enc own_name fns decl).
Ltac used := cbn; auto 8.
Ltac common := first [exact own_self|exact own_inner_no|exact decl_inner_ok|exact decl_owned_ok|exact inner_self
  |apply own_used; used|intros; apply fns_used; used].

Lemma invoke_new_ok n fn a h bs s ps : fns inner "new" = Some fn -> mem h a = Some bs -> dec bs = Some (s, ps) ->
  invoke (40 + n) inner fn [WVec a] h = RNext _ _ (WRes (Some (rep_inner shape inner a (Some (s, map (piece_cow a) ps))))) (h, []).
Proof. intros L M D. revert L. lookup. intros [= <-]. eapply new_ok; try common; eassumption. Qed.
Lemma invoke_new_err n fn a h bs h' : fns inner "new" = Some fn -> mem h a = Some bs -> dec bs = None -> free h a = Some h' ->
  invoke (40 + n) inner fn [WVec a] h = RNext _ _ (WRes None) (h', []).
Proof. intros L M D F. revert L. lookup. intros [= <-]. eapply new_err; try common; eassumption. Qed.
Lemma fns_new : exists fn, fns inner "new" = Some fn.
Proof. lookup. eexists. reflexivity. Qed.

Lemma text_try_from_ok n a h bs s ps : mem h a = Some bs -> dec bs = Some (s, ps) ->
  by_value (60 + n) owned "try_from" (WVec a) h = Returns (WRes (Some (rep (HOwned a (Some (s, map (piece_cow a) ps)))))) h.
Proof.
  intros M D. destruct fns_new as (fn & L). unfold OwnedSem.by_value.
  assert (E : forall n', invoke (40 + n') inner fn [WVec a] h = _) by (intros n'; exact (invoke_new_ok n' fn a h bs s ps L M D)).
  lookup. cbn [fn_self fn_params].
  etransitivity; [|reflexivity].
  match goal with |- match ?x with _ => _ end = _ => assert (X : x = RNext _ _ (WRes (Some (rep (HOwned a (Some (s, map (piece_cow a) ps)))))) (h, [])) end.
  { eapply try_from_ok; try common; [exact L|exact E]. }
  now rewrite X.
Qed.
Ltac call_is r := match goal with |- match ?x with _ => _ end = _ => assert (X : x = r); [|now rewrite X] end.
Lemma text_try_from_err n a h bs h' : mem h a = Some bs -> dec bs = None -> free h a = Some h' ->
  by_value (60 + n) owned "try_from" (WVec a) h = Returns (WRes None) h'.
Proof.
  intros M D F. destruct fns_new as (fn & L). unfold OwnedSem.by_value.
  assert (E : forall n', invoke (40 + n') inner fn [WVec a] h = _) by (intros n'; exact (invoke_new_err n' fn a h bs h' L M D F)).
  lookup. cbn [fn_self fn_params]. call_is (RNext shape (oval shape) (WRes None) (h', [])).
  eapply try_from_err; try common; [exact L|exact E].
Qed.
Lemma text_from n x h : let (a, h') := alloc h [] in by_value (60 + n) owned "from" (WMsg x) h = Returns (rep (HOwned a (Some x))) h'.
Proof.
  cbn [alloc]. unfold OwnedSem.by_value. lookup. cbn [fn_self fn_params].
  call_is (RNext shape (oval shape) (rep (HOwned (next h) (Some x))) (snd (alloc h []), [])).
  etransitivity; [eapply from_ok; common|]. reflexivity.
Qed.
Lemma text_try_into n a s l h strings : let (b, h1) := alloc h [] in read_cows h1 l = Some strings ->
  by_value (60 + n) owned "try_into" (rep (HOwned a (Some (s, l)))) h =
  match enc s strings with
  | Some bs => match free_all (store h1 b bs) (a :: owned_cows l) with Some h2 => Returns (WRes (Some (WVec b))) h2 | None => Undef end
  | None => match free_all h1 (b :: a :: owned_cows l) with Some h2 => Returns (WRes None) h2 | None => Undef end
  end.
Proof.
  cbn [alloc]. intros R. unfold OwnedSem.by_value. lookup. cbn [fn_self fn_params fn_body].
  destruct (enc s strings) as [bs|] eqn:E.
  - match goal with |- match ?x with _ => _ end = _ => eassert (X : x = _) end;
      [eapply try_into_ok with (strings := strings) (bs := bs); try common; [exact R|exact E]|]. rewrite X. cbn [alloc]. now destruct (free_all _ _).
  - match goal with |- match ?x with _ => _ end = _ => eassert (X : x = _) end;
      [eapply try_into_err with (strings := strings); try common; [exact R|exact E]|]. rewrite X. cbn [alloc]. now destruct (free_all _ _).
Qed.
Lemma text_buf n a p h : by_ref (60 + n) owned "buf" (rep (HOwned a p)) h =
  RefReturns (WRef (O, [InField "inner"; InField "buf"])) h (rep (HOwned a p)).
Proof.
  unfold OwnedSem.by_ref. lookup. cbn [fn_self fn_params fn_body].
  match goal with |- match ?x with _ => _ end = _ => eassert (X : x = _) end; [eapply buf_ok; common|]. now rewrite X.
Qed.
Lemma text_proto n a x h : by_ref (60 + n) owned "proto" (rep (HOwned a (Some x))) h =
  RefReturns (WRef proto_place) h (rep (HOwned a (Some x))).
Proof.
  unfold OwnedSem.by_ref. lookup. cbn [fn_self fn_params fn_body].
  match goal with |- match ?x with _ => _ end = _ => eassert (X : x = _) end; [eapply proto_ok; common|]. now rewrite X.
Qed.
Lemma text_proto_mut n a x h : by_ref (60 + n) owned "proto_mut" (rep (HOwned a (Some x))) h =
  RefReturns (WRef proto_place) h (rep (HOwned a (Some x))).
Proof.
  unfold OwnedSem.by_ref. lookup. cbn [fn_self fn_params fn_body].
  match goal with |- match ?x with _ => _ end = _ => eassert (X : x = _) end; [eapply proto_mut_ok; common|]. now rewrite X.
Qed.
(** [TryFrom<&[u8]>] *)
Lemma slice_fns x f : In x used_types -> fns_of [try_from_item m] x f = None.
Proof.
  intros H. unfold try_from_item. apply fns_cons_other. cbn. apply String.eqb_neq. intros ->. exact (free_name H).
Qed.
Lemma text_slice n h a bs : mem h a = Some bs ->
  OwnedSem.by_ref shape dec enc own_name (fns_of [try_from_item m]) (decl_of [try_from_item m]) (60 + n) name "try_from" (WVec a) h =
  RefReturns (WRes match dec bs with Some (s, ps) => Some (WMsg (s, map (piece_cow a) ps)) | None => None end) h (WVec a).
Proof.
  intros M. unfold OwnedSem.by_ref.
  assert (L : fns_of [try_from_item m] name "try_from" = find_fn "try_from" match try_from_item m with RIImpl _ _ _ _ l => l | _ => [] end).
  { unfold try_from_item. rewrite fns_cons by reflexivity. reflexivity. }
  rewrite L. cbn [try_from_item find_fn error_alias fn fn_name String.eqb Ascii.eqb Bool.eqb fn_self fn_params fn_body bind].
  destruct (dec bs) as [[s ps]|] eqn:D.
  - match goal with |- match ?x with _ => _ end = _ => eassert (X : x = _) end; [eapply slice_ok with (bs := bs); try (apply own_used; used); try (intros; apply slice_fns; used); [exact own_self|exact M|exact D]|].
    now rewrite X.
  - match goal with |- match ?x with _ => _ end = _ => eassert (X : x = _) end; [eapply slice_err with (bs := bs); try (apply own_used; used); try (intros; apply slice_fns; used); [exact own_self|exact M|exact D]|].
    now rewrite X.
Qed.
End Message.
