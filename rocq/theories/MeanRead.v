(** [from_reader] of the generated trees *)
From Coq Require Import String Ascii Arith ZArith Lia Bool.
From Verif Require Import Base Reader PackedFixed Writer Sizeofs Spec Schema Keywords Modules Passes Gen GenSem GenSpec GenCheck GenRead GenType.
From Verif Require Import RustTypes Emit Literals Output Paths GenText RustLex RustAst RustParse GenAst RustSem Meaning MeanFacts MeanSize.
Import Schema StringSyntax.
Local Open Scope string_scope.
Local Open Scope list_scope.
Local Open Scope Z_scope.

(** ** Readers that differ by a function of the result *)
Definition lifts {A B} (f : A -> B) (m : rd A) (m' : rd B) : Prop := forall bs r, m' bs r = rmap f m bs r.
Lemma rmap_eq : forall {A B} (f : A -> B) m bs r, rmap f m bs r =
  match m bs r with (Ok a, r') => (Ok (f a), r') | (Err e, r') => (Err e, r') | (Panic, r') => (Panic, r') | (NoFuel, r') => (NoFuel, r') | (UB, r') => (UB, r') end.
Proof. intros A B f m bs r. unfold rmap, Reader.bind, ret. destruct (m bs r) as ([a|e| | |], r'); reflexivity. Qed.
Lemma bind_eq : forall {A B} (m : rd A) (k : A -> rd B) bs r, Reader.bind m k bs r =
  match m bs r with (Ok a, r') => k a bs r' | (Err e, r') => (Err e, r') | (Panic, r') => (Panic, r') | (NoFuel, r') => (NoFuel, r') | (UB, r') => (UB, r') end.
Proof. intros A B m k bs r. unfold Reader.bind. destruct (m bs r) as ([a|e| | |], r'); reflexivity. Qed.
Lemma lifts_self : forall {A B} (f : A -> B) m, lifts f m (rmap f m).
Proof. intros A B f m bs r. reflexivity. Qed.
Lemma lifts_ret : forall {A B} (f : A -> B) a, lifts f (ret a) (ret (f a)).
Proof. intros A B f a bs r. reflexivity. Qed.
Lemma lifts_bind : forall {A B C} (f : B -> C) (m : rd A) k k', (forall a, lifts f (k a) (k' a)) -> lifts f (Reader.bind m k) (Reader.bind m k').
Proof. intros A B C f m k k' H bs r. rewrite rmap_eq, !bind_eq. destruct (m bs r) as ([a|e| | |], r'); try reflexivity. rewrite (H a bs r'). apply rmap_eq. Qed.
Lemma lifts_bind2 : forall {A A' B C} (g : A -> A') (f : B -> C) (m : rd A) m' k k', lifts g m m' -> (forall a, lifts f (k a) (k' (g a))) ->
  lifts f (Reader.bind m k) (Reader.bind m' k').
Proof.
  intros A A' B C g f m m' k k' M H bs r. rewrite rmap_eq, !bind_eq. rewrite (M bs r), rmap_eq. destruct (m bs r) as ([a|e| | |], r'); try reflexivity.
  rewrite (H a bs r'). apply rmap_eq.
Qed.
Lemma lifts_fail : forall {A B} (f : A -> B) e, lifts f (fail e) (fail e).
Proof. intros A B f e bs r. reflexivity. Qed.
Lemma lifts_nofuel : forall {A B} (f : A -> B), lifts f (lift NoFuel) (lift NoFuel).
Proof. intros A B f bs r. reflexivity. Qed.
Lemma rmap_rmap : forall {A B C} (f : A -> B) (g : B -> C) m bs r, rmap g (rmap f m) bs r = rmap (fun x => g (f x)) m bs r.
Proof. intros. rewrite !rmap_eq. destruct (m bs r) as ([a|e| | |], r'); reflexivity. Qed.

Lemma two_length : forall {A B} (R : A -> B -> Prop) l r, Forall2 R l r -> length l = length r.
Proof. intros A B R l r H. induction H; cbn; congruence. Qed.
Section Library.
Variable t : target.
Lemma lifts_len : forall {A B} (f : A -> B) m m', lifts f m m' -> lifts f (read_len_varint t m) (read_len_varint t m').
Proof.
  intros A B f m m' H. unfold read_len_varint. apply lifts_bind. intros n. unfold read_len. repeat (apply lifts_bind; intros).
  eapply lifts_bind2; [exact H|]. intros x. repeat (apply lifts_bind; intros). apply lifts_ret.
Qed.
Lemma lifts_packed : forall {A B} (f : A -> B) m m' n, lifts f m m' -> lifts (map f) (read_packed t n m) (read_packed t n m').
Proof.
  intros A B f m m' n H. apply lifts_len. change (@nil B) with (map f []). generalize (@nil A). induction n as [|n IH]; intros acc; [apply lifts_nofuel|].
  cbn [packed_loop]. apply lifts_bind. intros [].
  - rewrite <- map_rev. apply lifts_ret.
  - eapply lifts_bind2; [exact H|]. intros x. exact (IH (x :: acc)).
Qed.
Lemma lifts_map : forall {A B C D} (f : A -> B) (g : C -> D) k k' v v' n kd vd, lifts f k k' -> lifts g v v' ->
  lifts (fun p => (f (fst p), g (snd p))) (read_map t n kd vd k v) (read_map t n (f kd) (g vd) k' v').
Proof.
  intros A B C D f g k k' v v' n kd vd H K. apply lifts_len. revert kd vd. induction n as [|n IH]; intros kd vd; [apply lifts_nofuel|].
  cbn [map_loop]. apply lifts_bind. intros []; [exact (lifts_ret (fun p => (f (fst p), g (snd p))) (kd, vd))|]. apply lifts_bind. intros b.
  destruct (_ =? 1); [eapply lifts_bind2; [exact H|]; intros; apply IH|]. destruct (_ =? 2); [eapply lifts_bind2; [exact K|]; intros; apply IH|]. apply lifts_fail.
Qed.
End Library.

(** ** What is seen of a result *)
Inductive seen (A : Type) := Fine (a : A) (s : st) | Failed (e : error) (r : reader) | Stopped (o : outcome unit) (r : reader) | Odd.
Arguments Fine {A}. Arguments Failed {A}. Arguments Stopped {A}. Arguments Odd {A}.
Definition view {A} (x : res A) : seen A :=
  match x with
  | Go a s => Fine a s
  | Leave (XErr e) s => Failed e (s_in s)
  | Leave _ _ => Odd
  | Halt o s => Stopped o (s_in s)
  end.
Definition then_ {A B} (x : seen A) (k : A -> st -> seen B) : seen B :=
  match x with Fine a s => k a s | Failed e r => Failed e r | Stopped o r => Stopped o r | Odd => Odd end.
Definition of_out {A B} (F : A -> reader -> B * st) (x : outcome A * reader) : seen B :=
  match x with
  | (Ok a, r) => let (b, s) := F a r in Fine b s
  | (Err e, r) => Failed e r
  | (Panic, r) => Stopped Panic r
  | (NoFuel, r) => Stopped NoFuel r
  | (UB, r) => Stopped UB r
  end.
Lemma view_seq : forall {A B} (m : st -> res A) (k : A -> st -> res B) s, view (seq m k s) = then_ (view (m s)) (fun a s' => view (k a s')).
Proof. intros A B m k s. unfold seq. destruct (m s) as [a s'|v s'|o s']; cbn; [reflexivity| |reflexivity]. now destruct v. Qed.
Definition popped (n : nat) (s : st) : st := mkSt (skipn n (s_env s)) (s_out s) (s_src s) (s_in s).
Lemma view_scoped : forall {A} bs (m : st -> res A) s,
  view (scoped bs m s) = then_ (view (m (mkSt (bs ++ s_env s) (s_out s) (s_src s) (s_in s)))) (fun a s' => Fine a (popped (length bs) s')).
Proof. intros A bs m s. unfold scoped. destruct (m _) as [a s'|v s'|o s']; cbn; [reflexivity| |reflexivity]. now destruct v. Qed.
Lemma ending_view : forall x, ending x =
  match view x with
  | Fine (XOk v) s => (Ok v, s_in s)
  | Fine (XErr e) s => (Err e, s_in s)
  | Fine _ s => (UB, s_in s)
  | Failed e r => (Err e, r)
  | Stopped Panic r => (Panic, r)
  | Stopped NoFuel r => (NoFuel, r)
  | Stopped _ r => (UB, r)
  | Odd => ending x
  end.
Proof. intros [a s|v s|o s]; [now destruct a|now destruct v|now destruct o]. Qed.

Definition moved (s : st) (r : reader) : st := mkSt (s_env s) (s_out s) (s_src s) r.
Definition running (m : rd rv) (s : st) : res rv :=
  match m (s_src s) (s_in s) with
  | (Ok v, r) => Go v (moved s r)
  | (Err e, r) => Leave (XErr e) (moved s r)
  | (Panic, r) => Halt Panic (moved s r)
  | (NoFuel, r) => Halt NoFuel (moved s r)
  | (UB, r) => Halt UB (moved s r)
  end.
Lemma running_eq : forall m m' s, (forall bs r, m bs r = m' bs r) -> running m s = running m' s.
Proof. intros m m' s H. unfold running. now rewrite H. Qed.
Lemma view_running : forall m s, view (running m s) = of_out (fun v r => (v, moved s r)) (m (s_src s) (s_in s)).
Proof. intros m s. unfold running. destruct (m _ _) as ([v|e| | |], r); reflexivity. Qed.
Lemma reads_try : forall m s, seq (reads m) try s = running m s.
Proof. intros m s. unfold seq, reads, running. destruct (m _ _) as ([v|e| | |], r); reflexivity. Qed.
Lemma of_out_rmap : forall {A B C} (f : A -> B) (F : B -> reader -> C * st) m bs r,
  of_out F (rmap f m bs r) = of_out (fun a r => F (f a) r) (m bs r).
Proof. intros. rewrite rmap_eq. destruct (m bs r) as ([v|e| | |], r'); reflexivity. Qed.
Lemma then_of_out : forall {A B C} (F : A -> reader -> B * st) x (k : B -> st -> seen C) (K : A -> reader -> C * st),
  (forall a r, k (fst (F a r)) (snd (F a r)) = let (c, s) := K a r in Fine c s) -> then_ (of_out F x) k = of_out K x.
Proof. intros A B C F ([v|e| | |], r) k K H; try reflexivity. cbn. specialize (H v r). now destruct (F v r). Qed.

(** ** Expressions that read *)
Section Ev.
Variables (t : target) (names : scope -> list text -> option rtype) (w : world) (here : scope) (fuel : nat).
Notation ev := (eval t names w here fuel).

Lemma ev_read : forall h m gs args rest s, assoc "r" (s_env s) = Some XReader ->
  ev h (REPost (var "r") (OMethod m gs args :: rest)) s =
  seq (call_method t names w here fuel ev (match rest with [OTry] => h | _ => None end) (Some ("r", None)) XReader m gs args)
      (fun y => operate t names w here fuel ev h rest None y) s.
Proof. intros h m gs args rest s R. rewrite ev_post_method. unfold seq at 1. rewrite (ev_var t names w here fuel None "r" XReader s R). apply operate_method. Qed.
Lemma operate_try : forall h s x p, operate t names w here fuel ev h [OTry] p x s = try x s.
Proof.
  intros h s x p. change (operate t names w here fuel ev h [OTry] p x s) with (seq (try x) (fun y => go y) s). unfold seq. now destruct (try x s).
Qed.
Lemma reads_then_try : forall h m p s, seq (reads m) (fun y => operate t names w here fuel ev h [OTry] p y) s = running m s.
Proof. intros h m p s. rewrite <- reads_try. unfold seq. destruct (reads m s); try reflexivity. apply operate_try. Qed.
Definition reader_env (env : list (text * rv)) : Prop := assoc "r" env = Some XReader /\ assoc "bytes" env = Some XSource.
(** a method of the reader that takes the bytes *)
Lemma call_reader : forall h p m s q, reader_env (s_env s) -> mkind_of m = MOther -> read_call t m = Some q ->
  call_method t names w here fuel ev h p XReader m [] [var "bytes"] s = reads q s.
Proof.
  intros h p m s q (_ & B) K R. unfold call_method. rewrite K. unfold seq. rewrite (ev_var t names w here fuel None "bytes" XSource s B). cbn [is_source]. now rewrite R.
Qed.
Lemma ev_reader : forall h m s q, reader_env (s_env s) -> mkind_of m = MOther -> read_call t m = Some q ->
  ev h (REPost (var "r") [method m [var "bytes"]; OTry]) s = running q s.
Proof.
  intros h m s q E K R. unfold method. rewrite ev_read by apply E. unfold seq at 1. rewrite (call_reader h (Some ("r", None)) m s q E K R).
  rewrite <- (reads_then_try h q None s). reflexivity.
Qed.
Lemma ev_reader_cow : forall h m s q, reader_env (s_env s) -> mkind_of m = MOther -> read_call t m = Some (rmap XBytes q) ->
  ev h (REPost (var "r") [method m [var "bytes"]; method "map" [epath ["Cow"; "Borrowed"]]; OTry]) s = running (rmap XBytes q) s.
Proof.
  intros h m s q E K R. unfold method. rewrite ev_read by apply E. unfold seq at 1. rewrite (call_reader None (Some ("r", None)) m s _ E K R).
  unfold reads, running. rewrite rmap_eq. destruct (q _ _) as ([v|e| | |], r); reflexivity.
Qed.
Lemma ev_reader_owned : forall h m s q, reader_env (s_env s) -> mkind_of m = MOther -> read_call t m = Some (rmap XBytes q) ->
  ev h (REPost (var "r") [method m [var "bytes"]; OTry; method "to_owned" []]) s = running (rmap XBytes q) s.
Proof.
  intros h m s q E K R. unfold method. rewrite ev_read by apply E. unfold seq at 1. rewrite (call_reader None (Some ("r", None)) m s _ E K R).
  unfold reads, running. rewrite rmap_eq. destruct (q _ _) as ([v|e| | |], r); reflexivity.
Qed.
Lemma ev_some : forall h e s, ev h (some e) s = seq (ev (of_opt h) e) (fun x => go (XOpt (Some x))) s.
Proof. intros h e s. unfold some. cbn. unfold seq. now destruct (eval t names w here fuel (of_opt h) e s). Qed.
Lemma ev_box : forall h e s, ev h (call (epath ["Box"; "new"]) [e]) s = ev (of_box h) e s.
Proof. intros h e s. cbn. unfold seq. now destruct (eval t names w here fuel (of_box h) e s). Qed.
Lemma ev_ok : forall h e s, ev h (call (var "Ok") [e]) s = seq (ev (of_result h) e) (fun x => go (XOk x)) s.
Proof. intros h e s. cbn. unfold seq. now destruct (eval t names w here fuel (of_result h) e s). Qed.
Lemma view_then : forall m s (f : rv -> rv), view (seq (running m) (fun x => go (f x)) s) = view (running (rmap f m) s).
Proof. intros m s f. rewrite view_seq, !view_running, of_out_rmap. destruct (m _ _) as ([v|e| | |], r); reflexivity. Qed.
(** a closure that reads *)
Lemma closure_reads : forall y e m, (forall s, reader_env (s_env s) -> ev (Some y) e s = running m s) ->
  forall s bs r, as_reader s (with_args [bind "r"; bind "bytes"] [XReader; XSource] (ev (Some (YResult y)) (call (var "Ok") [e]))) bs r = m bs r.
Proof.
  intros y e m H s bs r. unfold as_reader.
  change (with_args [bind "r"; bind "bytes"] [XReader; XSource] (ev (Some (YResult y)) (call (var "Ok") [e]))) with
    (scoped [("r", XReader); ("bytes", XSource)] (ev (Some (YResult y)) (call (var "Ok") [e]))).
  unfold scoped. cbn [s_env s_out s_src s_in]. rewrite ev_ok. cbn [of_result]. unfold seq. rewrite H by (split; reflexivity).
  unfold running. cbn [s_env s_out s_src s_in]. destruct (m bs r) as ([v|x| | |], r'); reflexivity.
Qed.
End Ev.

Section Program.
Variable g : gen_config.
Variables d d0 : file_descriptor.
Variable t : target.
Variable names : scope -> list text -> option rtype.
Variable lit : field_type -> text -> option value.
Let c : config := g_passes g.
Hypothesis Names : names_ok d d0 names.
Hypothesis Plain : plain_names g d.
Hypothesis Schema : schema_wf d c lit.
Hypothesis Enums : enums_ok d.
Hypothesis Consts : constants_ok g d d0 t names lit.
Hypothesis Derive : default_kept g d.
Hypothesis Typed : forall ty s v, lit ty s = Some v -> val_ok d c ty v.
Let prog := generated_program g d d0.
Notation emb := (rust_value d c).

Section Message.
Variables (i : midx) (m : message).
Hypothesis G : get_message d i = Some m.
Variables (w : world) (n : nat) (from : midx -> rd (list slot)).
Hypothesis WFi : w_fields w i = fields_of names prog i.
Hypothesis WV : w_variants w = variants_of names prog.
Hypothesis WD : forall ty v, typ_ok d ty -> type_default d (GenSem.message_default d c lit) ty = Some v -> w_default w (rust_type_of ty) = Some (emb ty v).
Hypothesis WF : forall j x, get_message d j = Some x -> lifts (rust_struct d c j x) (from j) (w_from w j).
Hypothesis WE : forall q e z, get_enum d q = Some e -> w_enum w q z = Some (XEnum q (enum_from_i32 d q z)).
Hypothesis From : from_ok d c True from.
Notation ev := (eval t names w (InMsg i) n).

(** *** Values *)
Lemma num_value : forall nm A (q : rd A) (k : A -> value) (x : A -> rv) h s ty, reader_env (s_env s) -> mkind_of nm = MOther -> read_call t nm = Some (rmap x q) ->
  (forall a, emb ty (k a) = x a) ->
  ev h (REPost (var "r") [method nm [var "bytes"]; OTry]) s = running (rmap (emb ty) (rmap k q)) s.
Proof.
  intros nm A q k x h s ty E K R H. rewrite (ev_reader t names w (InMsg i) n h nm s _ E K R). apply running_eq. intros bs r. rewrite rmap_rmap, !rmap_eq.
  destruct (q bs r) as ([a|e| | |], r'); try reflexivity. now rewrite H.
Qed.
Lemma cow_value : forall nm q h s ty, reader_env (s_env s) -> mkind_of nm = MOther -> read_call t nm = Some (rmap XBytes q) ->
  ev h (REPost (var "r") [method nm [var "bytes"]; method "map" [epath ["Cow"; "Borrowed"]]; OTry]) s = running (rmap (emb ty) (rmap VB q)) s.
Proof.
  intros nm q h s ty E K R. rewrite (ev_reader_cow t names w (InMsg i) n h nm s _ E K R). apply running_eq. intros bs r. rewrite rmap_rmap, !rmap_eq.
  destruct (q bs r) as ([a|e| | |], r'); reflexivity.
Qed.
Lemma owned_value : forall nm q h s ty, reader_env (s_env s) -> mkind_of nm = MOther -> read_call t nm = Some (rmap XBytes q) ->
  ev h (REPost (var "r") [method nm [var "bytes"]; OTry; method "to_owned" []]) s = running (rmap (emb ty) (rmap VB q)) s.
Proof.
  intros nm q h s ty E K R. rewrite (ev_reader_owned t names w (InMsg i) n h nm s _ E K R). apply running_eq. intros bs r. rewrite rmap_rmap, !rmap_eq.
  destruct (q bs r) as ([a|e| | |], r'); reflexivity.
Qed.
Ltac rd_num nm q k x := apply (num_value nm _ q k x); [assumption|reflexivity|reflexivity|reflexivity].
Lemma reads_value : forall ty h s, typ_ok d ty -> (forall x, h = Some x -> x = rust_type_of ty) -> h <> None -> reader_env (s_env s) ->
  ev h (read_exp d ty) s = running (rmap (emb ty) (read_value d t from (read_fn ty))) s.
Proof.
  intros ty h s T H0 H1 E.
  assert (H : h = Some (rust_type_of ty)) by (destruct h as [x|]; [f_equal; now apply H0|contradiction]). clear H0 H1. subst h.
  destruct ty; try contradiction.
  - rd_num "read_int32" read_int32 VZ XInt.
  - rd_num "read_int64" read_int64 VZ XInt.
  - rd_num "read_uint32" read_uint32 VZ XInt.
  - rd_num "read_uint64" read_uint64 VZ XInt.
  - rd_num "read_sint32" read_sint32 VZ XInt.
  - rd_num "read_sint64" read_sint64 VZ XInt.
  - rd_num "read_bool" read_bool VBool XBool.
  - (* enum *)
    cbn [typ_ok] in T. destruct (get_enum d e) as [x|] eqn:X; [|contradiction]. unfold read_exp, method. rewrite ev_read by apply E. unfold seq at 1. unfold call_method.
    change (mkind_of ("read_" ++ proto_type (TEnum e))%string) with MReadEnum. cbv iota. unfold seq at 1. rewrite (ev_var t names w (InMsg i) n None "bytes" XSource s) by apply E.
    cbn [is_source]. change (rust_type_of (TEnum e)) with (YEnum e). cbv iota.
    etransitivity; [apply (reads_then_try t names w (InMsg i) n)|]. apply running_eq. intros bs r. cbn [read_fn read_value]. unfold read_enum. rewrite !rmap_rmap, rmap_eq, bind_eq.
    destruct (read_int32 bs r) as ([z|e0| | |], r'); try reflexivity. unfold or_ub. rewrite (WE e x z X). reflexivity.
  - rd_num "read_fixed64" (read_fixed64 t) VZ XInt.
  - rd_num "read_sfixed64" (read_sfixed64 t) VZ XInt.
  - rd_num "read_double" (read_double t) VZ (XFloat true).
  - exact (cow_value "read_string" (read_string t) _ _ _ E eq_refl eq_refl).
  - exact (cow_value "read_bytes" (read_bytes t) _ _ _ E eq_refl eq_refl).
  - exact (owned_value "read_string" (read_string t) _ _ _ E eq_refl eq_refl).
  - exact (owned_value "read_bytes" (read_bytes t) _ _ _ E eq_refl eq_refl).
  - (* message *)
    cbn [typ_ok] in T. destruct (get_message d m0) as [x|] eqn:X; [|contradiction]. unfold read_exp. rewrite X. rewrite ev_read by apply E. unfold seq at 1. unfold call_method.
    change (mkind_of "read_message") with MReadMessage. cbv iota. unfold seq at 1. rewrite (ev_var t names w (InMsg i) n None "bytes" XSource s) by apply E.
    cbn [is_source]. destruct (no_message _ _ _ Names i m m0 x G X) as (A & B & _).
    rewrite (path_type names i m (InMsg i) (message_path d x) [] (YMsg m0) (or_introl eq_refl) A (message_path_nonempty d x) B).
    etransitivity; [apply (reads_then_try t names w (InMsg i) n)|]. apply running_eq. intros bs r. cbn [read_fn read_value]. rewrite rmap_rmap.
    unfold read_message. rewrite (lifts_len t _ _ _ (WF m0 x X) bs r). rewrite !rmap_eq. destruct (read_len_varint t (from m0) bs r) as ([z|e0| | |], r'); try reflexivity.
    now rewrite (emb_message d c m0 x z X).
  - rd_num "read_fixed32" (read_fixed32 t) VZ XInt.
  - rd_num "read_sfixed32" (read_sfixed32 t) VZ XInt.
  - rd_num "read_float" (read_float t) VZ (XFloat false).
Qed.
(** *** Assignments *)
Definition vars (ss : list slot) : list (text * rv) := [("msg", rust_struct d c i m ss); ("r", XReader); ("bytes", XSource)].
Definition at_ (ss : list slot) (bs : bytes) (r : reader) : st := mkSt (vars ss) [] bs r.
Lemma vars_reader : forall ss, reader_env (vars ss).
Proof. intros ss. split; reflexivity. Qed.
Lemma slot_there : forall l ss k x ty s, NoDup (map fst l) -> nth_error l k = Some (x, ty) -> nth_error ss k = Some s ->
  assoc x (rust_slots d c l ss) = Some (rust_slot d c ty s).
Proof.
  clear. induction l as [|(y, u) l IH]; intros ss k x ty s N A B; [destruct k; discriminate|]. destruct ss as [|s' ss]; [destruct k; discriminate|].
  cbn [map fst] in N. inversion N as [|? ? N1 N2]; subst. cbn [rust_slots assoc]. destruct k as [|k].
  - injection A as -> ->. injection B as ->. now rewrite String.eqb_refl.
  - cbn in A, B. destruct (String.eqb_spec x y) as [->|]; [|eapply IH; eassumption]. exfalso. apply N1. apply nth_error_In in A. now apply (in_map fst) in A.
Qed.
Lemma slot_update : forall l ss k x ty s s', NoDup (map fst l) -> nth_error l k = Some (x, ty) -> nth_error ss k = Some s ->
  update x (rust_slot d c ty s') (rust_slots d c l ss) = rust_slots d c l (set_nth k s' ss).
Proof.
  clear. induction l as [|(y, u) l IH]; intros ss k x ty s s' N A B; [destruct k; discriminate|]. destruct ss as [|s1 ss]; [destruct k; discriminate|].
  cbn [map fst] in N. inversion N as [|? ? N1 N2]; subst. destruct k as [|k]; cbn [rust_slots update set_nth].
  - injection A as -> ->. injection B as ->. now rewrite String.eqb_refl.
  - cbn in A, B. destruct (String.eqb_spec x y) as [->|]; [|now rewrite (IH ss k x ty s s')]. exfalso. apply N1. apply nth_error_In in A. now apply (in_map fst) in A.
Qed.
Lemma assign_slot : forall k x ty ss s s' st0, nth_error (named_slots c m) k = Some (x, ty) -> nth_error ss k = Some s ->
  assoc "msg" (s_env st0) = Some (rust_struct d c i m ss) ->
  assign (Some ("msg", Some x)) (rust_slot d c ty s') st0 =
  Go XUnit (mkSt (update "msg" (rust_struct d c i m (set_nth k s' ss)) (s_env st0)) (s_out st0) (s_src st0) (s_in st0)).
Proof.
  intros k x ty ss s s' st0 A B M. pose proof (pn_fields _ _ Plain i m G) as N. fold c in N. unfold assign. rewrite M. unfold rust_struct at 1.
  rewrite (slot_there _ ss k x ty s N A B). unfold rust_struct. now rewrite (slot_update _ ss k x ty s s' N A B).
Qed.
Lemma slot_type_at : forall k x ty, nth_error (named_slots c m) k = Some (x, ty) -> forall y, In (x, y) (struct_env c m) ->
  forall ss bs r, place_type w (Some ("msg", Some x)) (at_ ss bs r) = Some y.
Proof.
  intros k x ty A y I ss bs r. cbn. rewrite WFi. now apply (hint_of g d d0 names lit Names Plain Schema i m).
Qed.
Lemma assigns : forall k x ty y e ss s bs r (M : rd slot), nth_error (named_slots c m) k = Some (x, ty) -> In (x, y) (struct_env c m) -> nth_error ss k = Some s ->
  view (ev (Some y) e (at_ ss bs r)) = of_out (fun s' r' => (rust_slot d c ty s', at_ ss bs r')) (M bs r) ->
  view (ev None (REAssign (msg_field x []) e) (at_ ss bs r)) = of_out (fun s' r' => (XUnit, at_ (set_nth k s' ss) bs r')) (M bs r).
Proof.
  intros k x ty y e ss s bs r M A I B H.
  change (ev None (REAssign (msg_field x []) e) (at_ ss bs r)) with
    (seq (ev (place_type w (Some ("msg", Some x)) (at_ ss bs r)) e) (fun v => assign (Some ("msg", Some x)) v) (at_ ss bs r)).
  rewrite (slot_type_at k x ty A y I). rewrite view_seq, H. apply then_of_out. intros s' r'. cbn [fst snd].
  rewrite (assign_slot k x ty ss s s' (at_ ss bs r') A B eq_refl). reflexivity.
Qed.
Lemma view_value : forall ty h ss bs r, typ_ok d ty -> (forall x, h = Some x -> x = rust_type_of ty) -> h <> None ->
  view (ev h (read_exp d ty) (at_ ss bs r)) = of_out (fun v r' => (emb ty v, at_ ss bs r')) (read_value d t from (read_fn ty) bs r).
Proof.
  intros ty h ss bs r T H H1. rewrite (reads_value ty h (at_ ss bs r) T H H1 (vars_reader ss)), view_running. cbn [s_src s_in at_]. now rewrite of_out_rmap.
Qed.
(** *** Maps *)
Lemma insert_is : forall tk tv k v l, key_ok tk -> val_ok d c tk k -> (forall a b, In (a, b) l -> val_ok d c tk a) ->
  insert_in (emb tk k) (emb tv v) (map (fun '(a, b) => (emb tk a, emb tv b)) l) = Some (map (fun '(a, b) => (emb tk a, emb tv b)) (map_insert k v l)).
Proof.
  intros tk tv k v l K V. induction l as [|(a, b) l IH]; intros L; [reflexivity|]. cbn [map insert_in map_insert].
  assert (NM : forall j, tk <> TMessage j) by (intros j ->; exact K).
  pose proof (equal_values g d tk k a (shaped_ok g d tk k V NM) (shaped_ok g d tk a (L a b (or_introl eq_refl)) NM)) as EQ. fold c in EQ. rewrite EQ.
  assert (E : rust_eq tk k a = plain_eq k a) by (destruct tk; try contradiction; reflexivity). rewrite E.
  destruct (plain_eq k a); [reflexivity|]. rewrite IH by (intros x y I; apply (L x y); now right). reflexivity.
Qed.
Lemma pair_bound : forall a b, pats matches [RPTuple [bind "key"; bind "value"]] [XTuple [a; b]] = Some [("key", a); ("value", b)].
Proof. reflexivity. Qed.

(** *** Fields *)
Lemma env_field : forall f, In f (visible_fields c m) -> In (f_name f, field_rtype c f) (struct_env c m).
Proof. intros f I. unfold struct_env. apply in_app_iff. left. apply in_map_iff. now exists f. Qed.
Lemma slot_of_field : forall k f, nth_error (visible_fields c m) k = Some f -> nth_error (named_slots c m) k = Some (f_name f, get_type c f).
Proof.
  intros k f N. unfold named_slots. rewrite nth_error_app1; [now rewrite nth_error_map, N|]. rewrite map_length. apply nth_error_Some. now rewrite N.
Qed.
Definition arm_is (k : nat) (tag : Z) (a : action) (x : rarm) : Prop :=
  exists e b, x = RArm (RPCon ["Ok"] [RPNum false (show tag)]) e b /\ 0 <= tag /\ (k < length (named_slots c m))%nat /\
  forall ss s bs r, slots_ok d c (struct_def c m) ss -> nth_error ss k = Some s ->
    view (ev None e (at_ ss bs r)) = of_out (fun s' r' => (XUnit, at_ (set_nth k s' ss) bs r')) (run_action d c lit t n from a s bs r).
Lemma slot_fits : forall k x ty ss s, nth_error (named_slots c m) k = Some (x, ty) -> slots_ok d c (struct_def c m) ss -> nth_error ss k = Some s -> slot_ok d c ty s.
Proof.
  intros k x ty ss s A V B. apply slots_ok_Forall2 in V.
  assert (N : nth_error (struct_def c m) k = Some ty) by (unfold c; rewrite <- (named_types g m); fold c; now rewrite nth_error_map, A).
  destruct (Forall2_nth_r _ _ _ k ty V N) as (s' & B' & H). congruence.
Qed.
Lemma field_reads : forall k f, nth_error (visible_fields c m) k = Some f ->
  exists x, read_arms g d f = [x] /\ arm_is k (field_tag f) (field_arm f) x.
Proof.
  intros k f N. pose proof (nth_error_In _ _ N) as I. pose proof (field_facts g d lit Schema i m f G I) as FO. pose proof (slot_of_field k f N) as NS.
  pose proof (env_field f I) as NE. fold c in FO.
  assert (KL : (k < length (named_slots c m))%nat) by (apply nth_error_Some; now rewrite NS).
  assert (V : visible c f = true) by (unfold visible_fields in I; now apply filter_In in I).
  assert (AF : In f (all_fields m)).
  { unfold visible_fields in I. apply filter_In in I. unfold all_fields. apply in_app_iff. left. apply I. }
  pose proof FO as (O1 & O2 & O3 & _). unfold read_arms. rewrite (visible_shown g f). fold c. rewrite V. cbn [negb]. unfold field_arm, field_rtype in *. unfold get_type in NS.
  destruct (f_boxed f) eqn:B.
  { destruct (pn_boxed _ _ Plain i m f G AF B) as (j & Ej). rewrite Ej in *. specialize (O1 eq_refl).
    assert (M : freq_is_map (f_freq f) = false) by (destruct (f_freq f); try discriminate O1; reflexivity). rewrite M in *.
    eexists. split; [reflexivity|]. eexists _, _. split; [reflexivity|]. split; [apply gen_tag_nonneg|]. split; [exact KL|]. intros ss s bs r OK S. cbn [run_action].
    apply (assigns k (f_name f) _ _ _ ss s bs r (rmap SlSome (read_value d t from (read_fn (TMessage j)))) NS NE S).
    rewrite ev_some, view_seq, ev_box. cbn [of_opt of_box read_boxed_exp]. rewrite view_value; [|exact O2|now intros x [= <-]|discriminate].
    rewrite of_out_rmap. apply then_of_out. reflexivity. }
  destruct (generated_type_of (f_freq f)) eqn:GT.
  - (* singular *)
    unfold generated_type_of in GT. destruct (freq_is_map (f_freq f)) eqn:M; [discriminate|]. destruct (freq_is_repeated (f_freq f)) eqn:R; [discriminate|].
    destruct (freq_is_optional (f_freq f)) eqn:Op.
    + assert (A : match f_freq f with P2Optional | P3Optional => ASetSome (read_fn (f_typ f)) | P2Required | P3Default => ASet (read_fn (f_typ f)) | _ => ABad end = ASetSome (read_fn (f_typ f)))
        by (destruct (f_freq f); try discriminate; reflexivity).
      eexists. split; [reflexivity|]. eexists _, _. split; [reflexivity|]. split; [apply gen_tag_nonneg|]. split; [exact KL|]. intros ss s bs r OK S.
      assert (A' : forall z, z = ASetSome (read_fn (f_typ f)) -> run_action d c lit t n from z s bs r = rmap SlSome (read_value d t from (read_fn (f_typ f))) bs r) by (intros z ->; reflexivity).
      rewrite A' by (destruct (f_freq f); try discriminate; reflexivity).
      apply (assigns k (f_name f) _ _ _ ss s bs r (rmap SlSome (read_value d t from (read_fn (f_typ f)))) NS NE S).
      rewrite ev_some, view_seq. cbn [of_opt]. rewrite view_value; [|exact O2|now intros x [= <-]|discriminate].
      rewrite of_out_rmap. apply then_of_out. reflexivity.
    + eexists. split; [reflexivity|]. eexists _, _. split; [reflexivity|]. split; [apply gen_tag_nonneg|]. split; [exact KL|]. intros ss s bs r OK S.
      assert (A' : forall z, z = ASet (read_fn (f_typ f)) -> run_action d c lit t n from z s bs r = rmap SlOne (read_value d t from (read_fn (f_typ f))) bs r) by (intros z ->; reflexivity).
      rewrite A' by (destruct (f_freq f); try discriminate; reflexivity).
      apply (assigns k (f_name f) _ _ _ ss s bs r (rmap SlOne (read_value d t from (read_fn (f_typ f)))) NS NE S).
      rewrite view_value; [|exact O2|now intros x [= <-]|discriminate]. rewrite of_out_rmap. reflexivity.
  - (* repeated *)
    unfold generated_type_of in GT. destruct (freq_is_map (f_freq f)) eqn:M; [discriminate|]. destruct (freq_is_repeated (f_freq f)) eqn:R; [|discriminate].
    destruct (f_is_packed f) eqn:P; cbn [andb] in *.
    + destruct (is_fixed_size (f_typ f)) eqn:FX; cbn [andb] in *.
      * rewrite (O3 eq_refl) in *. cbn [negb] in *. eexists. split; [reflexivity|]. eexists _, _. split; [reflexivity|]. split; [apply gen_tag_nonneg|]. split; [exact KL|]. intros ss s bs r OK S. cbn [run_action].
        apply (assigns k (f_name f) _ _ _ ss s bs r (rmap SlPF (read_packed_fixed_k t (fixed_kind_of (f_typ f)))) NS NE S).
        unfold method. rewrite ev_read by reflexivity.
        match goal with |- view ?a = _ => assert (X : a = running (rmap (XPacked (fixed_kind_of (f_typ f))) (read_packed_fixed_k t (fixed_kind_of (f_typ f)))) (at_ ss bs r)) end.
        { rewrite <- (reads_then_try t names w (InMsg i) n (Some (YPacked (rust_type_of (f_typ f)))) _ None). unfold seq at 1. unfold call_method.
          change (mkind_of "read_packed_fixed") with MReadPackedFixed. cbv iota. unfold seq at 1. rewrite (ev_var t names w (InMsg i) n None "bytes" XSource (at_ ss bs r) eq_refl).
          cbn [is_source].
          assert (KK : kind_of (rust_type_of (f_typ f)) = Some (fixed_kind_of (f_typ f))) by (destruct (f_typ f); try discriminate FX; reflexivity).
          rewrite KK. reflexivity. }
        rewrite X, view_running, !of_out_rmap. reflexivity.
      * eexists. split; [reflexivity|]. eexists _, _. split; [reflexivity|]. split; [apply gen_tag_nonneg|]. split; [exact KL|]. intros ss s bs r OK S. cbn [run_action].
        apply (assigns k (f_name f) _ _ _ ss s bs r (rmap SlVec (read_packed t n (read_value d t from (read_fn (f_typ f))))) NS NE S).
        unfold method. rewrite ev_read by reflexivity.
        set (clo := as_reader (at_ ss bs r) (with_args [bind "r"; bind "bytes"] [XReader; XSource] (ev (Some (YResult (rust_type_of (f_typ f)))) (call (var "Ok") [read_exp d (f_typ f)])))).
        assert (L : lifts (emb (f_typ f)) (read_value d t from (read_fn (f_typ f))) clo).
        { intros bs' r'. unfold clo. apply (closure_reads t names w (InMsg i) n (rust_type_of (f_typ f)) (read_exp d (f_typ f)) (rmap (emb (f_typ f)) (read_value d t from (read_fn (f_typ f))))).
          intros s' E. apply reads_value; [exact O2|now intros x [= <-]|discriminate|exact E]. }
        match goal with |- view ?a = _ => assert (X : a = running (rmap XList (read_packed t n clo)) (at_ ss bs r)) end.
        { rewrite <- (reads_then_try t names w (InMsg i) n (Some (YVec (rust_type_of (f_typ f)))) _ None). unfold seq at 1. unfold call_method, read_closure, closure.
          change (mkind_of "read_packed") with MReadPacked. cbv iota. unfold seq at 1. rewrite (ev_var t names w (InMsg i) n None "bytes" XSource (at_ ss bs r) eq_refl). reflexivity. }
        rewrite X, view_running, !of_out_rmap. cbn [s_src s_in at_]. rewrite (lifts_packed t _ _ _ n L bs r), of_out_rmap. reflexivity.
    + eexists. split; [reflexivity|]. eexists _, _. split; [reflexivity|]. split; [apply gen_tag_nonneg|]. split; [exact KL|]. intros ss s bs r OK S. cbn [run_action].
      pose proof (slot_fits k _ _ ss s NS OK S) as SF. destruct s; try contradiction SF. rewrite of_out_rmap.
      pose proof (pn_fields _ _ Plain i m G) as ND. fold c in ND. pose proof (slot_there _ ss k _ _ _ ND NS S) as TH.
      unfold msg_field. rewrite (ev_field t names w (InMsg i) n None "msg" i (rust_slots d c (named_slots c m) ss) (f_name f) (XList (map (emb (f_typ f)) l)) (at_ ss bs r) eq_refl TH).
      unfold method. rewrite operate_method. cbn [operate]. rewrite view_seq. unfold call_method. change (mkind_of "push") with MPush. cbv beta iota.
      match goal with |- context [of_vec ?p] => replace p with (Some (YVec (rust_type_of (f_typ f)))) by (symmetry; exact (slot_type_at k _ _ NS _ NE ss bs r)) end. cbn [of_vec]. rewrite view_seq. rewrite view_value; [|exact O2|now intros x [= <-]|discriminate].
      rewrite (then_of_out _ _ _ (fun v r' => (XUnit, at_ (set_nth k (SlVec (l ++ [v])) ss) bs r'))).
      { destruct (read_value d t from (read_fn (f_typ f)) bs r) as ([v|e0| | |], r'); reflexivity. }
      intros v r'. cbn [fst snd].
      assert (A : XList (map (emb (f_typ f)) l ++ [emb (f_typ f) v]) = rust_slot d c (TyVec (f_typ f)) (SlVec (l ++ [v]))).
      { change (rust_slot d c (TyVec (f_typ f)) (SlVec (l ++ [v]))) with (XList (map (emb (f_typ f)) (l ++ [v]))). now rewrite map_app. }
      rewrite A. etransitivity; [exact (f_equal view (assign_slot k _ _ ss _ (SlVec (l ++ [v])) (at_ ss bs r') NS S eq_refl))|]. reflexivity.
  - (* map *)
    unfold generated_type_of in GT. destruct (freq_is_map (f_freq f)) eqn:M; [|destruct (freq_is_repeated (f_freq f)); discriminate].
    destruct (f_typ f) as [| | | | | | | | | | | | | | | | | | | |tk tv] eqn:FT; try contradiction O2. destruct O2 as (Hk & Hv).
    pose proof (key_typ d tk Hk) as Tk.
    eexists. split; [reflexivity|]. eexists _, _. split; [reflexivity|]. split; [apply gen_tag_nonneg|]. split; [exact KL|]. intros ss s bs r OK S. cbn [run_action].
    pose proof (slot_fits k _ _ ss s NS OK S) as SF. destruct s; try contradiction SF.
    destruct (type_default_some d c lit Schema tk Tk) as [kd Ek]. destruct (type_default_some d c lit Schema tv Hv) as [vd Ev].
    rewrite Ek, Ev, of_out_rmap.
    set (clk := as_reader (at_ ss bs r) (with_args [bind "r"; bind "bytes"] [XReader; XSource] (ev (Some (YResult (rust_type_of tk))) (call (var "Ok") [read_exp d tk])))).
    set (clv := as_reader (at_ ss bs r) (with_args [bind "r"; bind "bytes"] [XReader; XSource] (ev (Some (YResult (rust_type_of tv))) (call (var "Ok") [read_exp d tv])))).
    assert (Lk : lifts (emb tk) (read_value d t from (read_fn tk)) clk).
    { intros bs' r'. unfold clk. apply (closure_reads t names w (InMsg i) n (rust_type_of tk) (read_exp d tk) (rmap (emb tk) (read_value d t from (read_fn tk)))).
      intros s' E. apply reads_value; [exact Tk|now intros x [= <-]|discriminate|exact E]. }
    assert (Lv : lifts (emb tv) (read_value d t from (read_fn tv)) clv).
    { intros bs' r'. unfold clv. apply (closure_reads t names w (InMsg i) n (rust_type_of tv) (read_exp d tv) (rmap (emb tv) (read_value d t from (read_fn tv)))).
      intros s' E. apply reads_value; [exact Hv|now intros x [= <-]|discriminate|exact E]. }
    set (ins := run (msg_field (f_name f) [method "insert" [var "key"; var "value"]])).
    set (rdm := REPost (var "r") [method "read_map" [var "bytes"; read_closure d tk; read_closure d tv]; OTry]).
    change (ev None (REBlock [RSLet (RPTuple [bind "key"; bind "value"]) rdm; ins]) (at_ ss bs r)) with
      (seq (ev (let_type w (RPTuple [bind "key"; bind "value"]) [ins] (at_ ss bs r)) rdm)
           (fun x => with_args [RPTuple [bind "key"; bind "value"]] [x] (block w ev None [ins])) (at_ ss bs r)).
    change (let_type w (RPTuple [bind "key"; bind "value"]) [ins] (at_ ss bs r)) with
      (match place_type w (Some ("msg", Some (f_name f))) (at_ ss bs r) with Some (YMap k v) => Some (YPair k v) | _ => None end).
    rewrite (slot_type_at k _ _ NS _ NE ss bs r). cbn [rust_type_of].
    assert (X : ev (Some (YPair (rust_type_of tk) (rust_type_of tv))) rdm (at_ ss bs r) =
      running (rmap (fun q => XTuple [fst q; snd q]) (read_map t n (emb tk kd) (emb tv vd) clk clv)) (at_ ss bs r)).
    { unfold rdm, method. rewrite ev_read by reflexivity. rewrite <- (reads_then_try t names w (InMsg i) n (Some (YPair (rust_type_of tk) (rust_type_of tv))) _ None). unfold seq at 1.
      unfold call_method, read_closure, closure. change (mkind_of "read_map") with MReadMap. cbv iota. unfold seq at 1.
      rewrite (ev_var t names w (InMsg i) n None "bytes" XSource (at_ ss bs r) eq_refl). cbn [is_source of_pair]. rewrite (WD tk kd Tk Ek), (WD tv vd Hv Ev). reflexivity. }
    rewrite view_seq, X, view_running, of_out_rmap. cbn [s_src s_in at_]. rewrite (lifts_map t _ _ _ _ _ _ n kd vd Lk Lv bs r), of_out_rmap.
    pose proof (post_map True t (fun _ => Logic.I) (val_ok d c tk) (val_ok d c tv) (read_value d t from (read_fn tk)) (read_value d t from (read_fn tv)) n kd vd
      (post_value d c Enums t True (fun _ => Logic.I) from tk From Tk) (post_value d c Enums t True (fun _ => Logic.I) from tv From Hv)
      (type_default_ok d c Enums _ tk kd (message_default_ok d c lit Schema Enums Typed) Tk Ek)
      (type_default_ok d c Enums _ tv vd (message_default_ok d c lit Schema Enums Typed) Hv Ev) bs r) as PM.
    destruct (read_map t n kd vd (read_value d t from (read_fn tk)) (read_value d t from (read_fn tv)) bs r) as ([(kx, vx)|e0| | |], r'); try reflexivity.
    cbn [fst snd] in PM. destruct PM as (PK & PV). cbn [of_out then_ fst snd].
    unfold with_args. rewrite pair_bound. rewrite view_scoped. cbn [s_env s_out s_src s_in moved at_ app].
    set (s1 := mkSt (("key", emb tk kx) :: ("value", emb tv vx) :: vars ss) [] bs r').
    pose proof (pn_fields _ _ Plain i m G) as ND. fold c in ND. pose proof (slot_there _ ss k _ _ _ ND NS S) as TH.
    assert (Y : ev None (msg_field (f_name f) [method "insert" [var "key"; var "value"]]) s1 =
      Go XUnit (mkSt (("key", emb tk kx) :: ("value", emb tv vx) :: vars (set_nth k (SlMap (map_insert kx vx l)) ss)) [] bs r')).
    { unfold msg_field. rewrite (ev_field t names w (InMsg i) n None "msg" i (rust_slots d c (named_slots c m) ss) (f_name f)
        (XMap (map (fun '(a, b) => (emb tk a, emb tv b)) l)) s1 eq_refl TH).
      unfold method. rewrite operate_method. unfold seq at 1. unfold call_method. change (mkind_of "insert") with MInsert. cbv iota.
      unfold seq at 1. rewrite (ev_var t names w (InMsg i) n None "key" (emb tk kx) s1 eq_refl). unfold seq at 1.
      rewrite (ev_var t names w (InMsg i) n None "value" (emb tv vx) s1 eq_refl). unfold seq at 1.
      rewrite insert_is; [|exact Hk|exact PK|].
      2:{ intros a b J. destruct SF as (F & _). exact (proj1 (map_ok_in g d tk tv l a b J F)). }
      cbn [of_option]. unfold go at 1.
      change (XMap (map (fun '(a, b) => (emb tk a, emb tv b)) (map_insert kx vx l))) with (rust_slot d c (TyMap tk tv) (SlMap (map_insert kx vx l))).
      match goal with |- context [assign ?p ?v s1] => change (assign p v s1) with (assign (Some ("msg", Some (f_name f))) v s1) end.
      rewrite (assign_slot k _ _ ss _ (SlMap (map_insert kx vx l)) s1 NS S eq_refl). reflexivity. }
    match goal with |- context [view (block ?a ?b ?h ?l ?x)] => change (block a b h l x) with (block w ev None [ins] s1) end.
    change (block w ev None [ins] s1) with (seq (ev None (msg_field (f_name f) [method "insert" [var "key"; var "value"]])) (fun x => if may_drop x then go XUnit else stuck) s1).
    unfold seq. rewrite Y. reflexivity.
Qed.

(** *** Oneofs *)
Lemma slot_of_oneof : forall j o, nth_error (m_oneofs m) j = Some o ->
  nth_error (named_slots c m) (length (visible_fields c m) + j) = Some (o_name o, TyOneof (oneof_variants c o)).
Proof.
  intros j o N. unfold named_slots. rewrite nth_error_app2; rewrite map_length; [|apply Nat.le_add_r].
  replace (length (visible_fields c m) + j - length (visible_fields c m))%nat with j by (clear; lia). now rewrite nth_error_map, N.
Qed.
Lemma env_oneof : forall o, In o (m_oneofs m) -> In (o_name o, YOneof (o_name o)) (struct_env c m).
Proof. intros o I. unfold struct_env. apply in_app_iff. right. apply in_map_iff. now exists o. Qed.
Lemma variant_there : forall o f, In o (m_oneofs m) -> In f (oneof_variants c o) ->
  assoc (f_name f) (variants_of names prog i (o_name o)) = Some (Some (variant_rtype f)).
Proof.
  intros o f I J. unfold prog. rewrite (variants_env g d d0 names lit Names Plain Schema i m o G I). fold c.
  pose proof (pn_variants _ _ Plain i m o G I) as N. fold c in N. inversion N as [|? ? N1 N2]; subst. clear N N1. revert J N2.
  induction (oneof_variants c o) as [|f0 l IH]; intros J N2; [contradiction|]. cbn [map] in N2. inversion N2 as [|? ? A B]; subst. cbn [map app assoc].
  destruct J as [->|J]; [now rewrite String.eqb_refl|]. destruct (String.eqb_spec (f_name f) (f_name f0)) as [E|_]; [|now apply IH].
  exfalso. apply A. rewrite <- E. now apply in_map.
Qed.
Lemma oneof_reads : forall j o v f, nth_error (m_oneofs m) j = Some o -> nth_error (oneof_variants c o) v = Some f ->
  arm_is (length (visible_fields c m) + j) (field_tag f) (AOneof v (read_fn (f_typ f)))
    (RArm (tag_pattern f) (REAssign (msg_field (o_name o) [])
       (call (epath (oneof_path d o ++ [f_name f])) [if f_boxed f then call (epath ["Box"; "new"]) [read_boxed_exp d (f_typ f)] else read_exp d (f_typ f)])) true).
Proof.
  intros j o v f No Nv. pose proof (nth_error_In _ _ No) as I. pose proof (nth_error_In _ _ Nv) as J. pose proof (slot_of_oneof j o No) as NS.
  pose proof (env_oneof o I) as NE. pose proof (variant_facts g d lit Schema i m o f G I J) as T.
  eexists _, _. split; [reflexivity|]. split; [apply gen_tag_nonneg|]. split; [apply nth_error_Some; now rewrite NS|]. intros ss s bs r OK S. cbn [run_action].
  apply (assigns _ (o_name o) _ _ _ ss s bs r (rmap (SlOneof v) (read_value d t from (read_fn (f_typ f)))) NS NE S).
  rewrite ev_call_path, seq_go. unfold call_path. rewrite seg_spath.
  assert (FK : fkind_of (oneof_path d o ++ [f_name f]) = FOther).
  { unfold oneof_path. rewrite <- app_assoc. apply fkind_variant. reflexivity. }
  rewrite FK. destruct (no_oneof _ _ _ Names i m o G I) as (_ & B & _).
  assert (VT : variant_type names w (InMsg i) (oneof_path d o ++ [f_name f]) = Some (Some (variant_rtype f))).
  { unfold variant_type. rewrite last_snoc, removelast_snoc, B, WV. now apply variant_there. }
  rewrite VT, last_snoc. rewrite view_seq, of_out_rmap.
  assert (VV : view (ev (Some (variant_rtype f)) (if f_boxed f then call (epath ["Box"; "new"]) [read_boxed_exp d (f_typ f)] else read_exp d (f_typ f)) (at_ ss bs r)) =
    of_out (fun v r' => (emb (f_typ f) v, at_ ss bs r')) (read_value d t from (read_fn (f_typ f)) bs r)).
  { unfold variant_rtype. destruct (f_boxed f) eqn:Bx.
    - assert (AF : In f (all_fields m)).
      { unfold all_fields. apply in_app_iff. right. apply in_flat_map. exists o. split; [exact I|]. unfold oneof_variants in J. apply filter_In in J. apply J. }
      destruct (pn_boxed _ _ Plain i m f G AF Bx) as (q & Eq). rewrite Eq in *. rewrite ev_box. cbn [of_box read_boxed_exp].
      apply view_value; [exact T|now intros x [= <-]|discriminate].
    - apply view_value; [exact T|now intros x [= <-]|discriminate]. }
  rewrite VV. apply then_of_out. intros v0 r'. cbn [fst snd view go].
  change (rust_slot d c (TyOneof (oneof_variants c o)) (SlOneof v v0)) with
    (match nth_error (oneof_variants c o) v with Some f => XVariant (f_name f) (Some (emb (f_typ f) v0)) | None => XUnit end).
  now rewrite Nv.
Qed.

(** *** The match on the tag *)
Definition arms_are (l : list rarm) (ms : list (Z * (nat * action))) : Prop := Forall2 (fun x p => arm_is (fst (snd p)) (fst p) (snd (snd p)) x) l ms.
Lemma shown_arms : flat_map (read_arms g d) (m_fields m) = flat_map (read_arms g d) (visible_fields c m).
Proof.
  unfold visible_fields. induction (m_fields m) as [|f l IH]; [reflexivity|]. cbn [flat_map filter]. destruct (visible c f) eqn:V; cbn [flat_map]; rewrite IH; [reflexivity|].
  unfold read_arms at 1. rewrite (visible_shown g f). fold c. now rewrite V.
Qed.
Lemma fields_arms : forall l k, (forall j f, nth_error l j = Some f -> nth_error (visible_fields c m) (k + j) = Some f) ->
  arms_are (flat_map (read_arms g d) l) (map (fun '(i, f) => (field_tag f, (i, field_arm f))) (number_from k l)).
Proof.
  induction l as [|f l IH]; intros k H; [constructor|]. cbn [flat_map number_from map].
  destruct (field_reads k f) as (x & E & A); [rewrite <- (Nat.add_0_r k); now apply H|]. rewrite E. cbn [app]. constructor; [exact A|].
  apply IH. intros j f' N. rewrite Nat.add_succ_comm. now apply H.
Qed.
Lemma variants_arms : forall j o, nth_error (m_oneofs m) j = Some o -> forall l v, (forall q f, nth_error l q = Some f -> nth_error (oneof_variants c o) (v + q) = Some f) ->
  arms_are (map (fun f => RArm (tag_pattern f) (REAssign (msg_field (o_name o) [])
       (call (epath (oneof_path d o ++ [f_name f])) [if f_boxed f then call (epath ["Box"; "new"]) [read_boxed_exp d (f_typ f)] else read_exp d (f_typ f)])) true) l)
    (map (fun '(v, f) => (field_tag f, ((length (visible_fields c m) + j)%nat, AOneof v (read_fn (f_typ f))))) (number_from v l)).
Proof.
  intros j o N. induction l as [|f l IH]; intros v H; [constructor|]. cbn [map number_from]. constructor.
  - apply oneof_reads; [exact N|]. rewrite <- (Nat.add_0_r v). now apply H.
  - apply IH. intros q f' Q. rewrite Nat.add_succ_comm. now apply H.
Qed.
Lemma oneofs_arms : forall l j, (forall q o, nth_error l q = Some o -> nth_error (m_oneofs m) (j + q) = Some o) ->
  arms_are (flat_map (oneof_read_arms g d) l)
    (flat_map (fun '(i, o) => map (fun '(v, f) => (field_tag f, (i, AOneof v (read_fn (f_typ f))))) (number_from 0 (oneof_variants c o))) (number_from (length (visible_fields c m) + j) l)).
Proof.
  induction l as [|o l IH]; intros j H; [constructor|]. cbn [flat_map number_from]. apply Forall2_app.
  - unfold oneof_read_arms. rewrite (shown_variants g o). fold c. apply (variants_arms j o); [rewrite <- (Nat.add_0_r j); now apply H|auto].
  - rewrite <- Nat.add_succ_r. apply IH. intros q o' Q. rewrite Nat.add_succ_comm. now apply H.
Qed.
Definition all_arms : list rarm := flat_map (read_arms g d) (m_fields m) ++ flat_map (oneof_read_arms g d) (m_oneofs m).
Lemma match_is : arms_are all_arms (match_arms c m).
Proof.
  unfold all_arms, match_arms. rewrite shown_arms. apply Forall2_app; [apply fields_arms; auto|].
  rewrite <- (Nat.add_0_r (length (visible_fields c m))) at 1. apply oneofs_arms. auto.
Qed.
Lemma slots_length : forall ss, slots_ok d c (struct_def c m) ss -> length ss = length (named_slots c m).
Proof.
  intros ss V. apply slots_ok_Forall2, two_length in V. rewrite <- V. unfold c. rewrite <- (named_types g m). now rewrite map_length.
Qed.
Lemma arms_run : forall l ms rest tag ss bs r, arms_are l ms -> slots_ok d c (struct_def c m) ss ->
  view (arms_of ev None (XOk (XInt tag)) (l ++ rest) (at_ ss bs r)) =
  match find (fun '(n, _) => n =? tag) ms with
  | Some (_, (k, a)) =>
    match nth_error ss k with
    | Some s => of_out (fun s' r' => (XUnit, at_ (set_nth k s' ss) bs r')) (run_action d c lit t n from a s bs r)
    | None => Odd
    end
  | None => view (arms_of ev None (XOk (XInt tag)) rest (at_ ss bs r))
  end.
Proof.
  intros l ms rest tag ss bs r H V. induction H as [|x (tg, (k, a)) l ms A H IH]; [reflexivity|]. cbn [fst snd] in A. destruct A as (e & b & -> & P & K & A).
  cbn [app find arms_of].
  assert (M : matches (RPCon ["Ok"] [RPNum false (show tg)]) (XOk (XInt tag)) = if tag =? tg then Some [] else None).
  { cbn [matches]. change (String.eqb (last_of ["Ok"]) "Ok") with true. cbv iota. cbn [pats matches]. rewrite (pattern_show tg P). now destruct (tag =? tg). }
  rewrite M, (Z.eqb_sym tg tag). destruct (tag =? tg); [|exact IH].
  destruct (nth_error ss k) as [s|] eqn:S.
  - rewrite view_scoped. cbn [app length s_env s_out s_src s_in at_]. change (mkSt (vars ss) [] bs r) with (at_ ss bs r). rewrite (A ss s bs r V S).
    destruct (run_action _ _ _ _ _ _ _ _ bs r) as ([s'|e0| | |], r'); reflexivity.
  - exfalso. apply nth_error_None in S. rewrite (slots_length ss V) in S. clear - S K. lia.
Qed.
Definition tail_arms : list rarm :=
  [RArm (RPCon ["Ok"] [bind "t"]) (REBlock [run (REPost (var "r") [method "read_unknown" [var "bytes"; var "t"]; OTry])]) false;
   RArm (RPCon ["Err"] [bind "e"]) (REReturn (call (var "Err") [var "e"])) true].
Lemma unknown_runs : forall tag ss bs r,
  view (arms_of ev None (XOk (XInt tag)) tail_arms (at_ ss bs r)) = of_out (fun _ r' => (XUnit, at_ ss bs r')) (read_unknown t tag bs r).
Proof.
  intros tag ss bs r. unfold tail_arms. cbn [arms_of].
  change (matches (RPCon ["Ok"] [bind "t"]) (XOk (XInt tag))) with (Some [("t", XInt tag)]). cbv iota. rewrite view_scoped. cbn [app length s_env s_out s_src s_in at_].
  set (s1 := mkSt _ _ _ _).
  assert (X : ev None (REPost (var "r") [method "read_unknown" [var "bytes"; var "t"]; OTry]) s1 = running (rmap (fun _ => XUnit) (read_unknown t tag)) s1).
  { unfold method. rewrite ev_read by reflexivity. rewrite <- (reads_then_try t names w (InMsg i) n None _ None). unfold seq at 1. unfold call_method.
    change (mkind_of "read_unknown") with MReadUnknown. cbv iota. unfold seq at 1. rewrite (ev_var t names w (InMsg i) n None "bytes" XSource s1 eq_refl).
    unfold seq at 1 2. rewrite (ev_var t names w (InMsg i) n None "t" (XInt tag) s1 eq_refl). reflexivity. }
  match goal with |- context [ev None (REBlock ?l) s1] =>
    change (ev None (REBlock l) s1) with (seq (ev None (REPost (var "r") [method "read_unknown" [var "bytes"; var "t"]; OTry])) (fun x => if may_drop x then go XUnit else stuck) s1) end.
  rewrite view_seq, X, view_running, of_out_rmap. cbn [s_src s_in s1]. destruct (read_unknown t tag bs r) as ([u|e0| | |], r'); reflexivity.
Qed.
Definition step_body : list rstmt :=
  [result (REMatch (REPost (var "r") [method "next_tag" [var "bytes"]]) (all_arms ++ tail_arms))].
Lemma step_runs : forall ss bs r, slots_ok d c (struct_def c m) ss ->
  view (block w ev None step_body (at_ ss bs r)) =
  of_out (fun ss' r' => (XUnit, at_ ss' bs r')) ((tag <- next_tag ;; run_field d c lit t n from (match_arms c m) tag ss) bs r).
Proof.
  intros ss bs r V. unfold step_body. rewrite block_result.
  change (ev None (REMatch (REPost (var "r") [method "next_tag" [var "bytes"]]) (all_arms ++ tail_arms)) (at_ ss bs r)) with
    (seq (ev None (REPost (var "r") [method "next_tag" [var "bytes"]])) (fun x => arms_of ev None x (all_arms ++ tail_arms)) (at_ ss bs r)).
  assert (X : ev None (REPost (var "r") [method "next_tag" [var "bytes"]]) (at_ ss bs r) = reads (rmap XInt next_tag) (at_ ss bs r)).
  { unfold method. rewrite ev_read by reflexivity. unfold seq. rewrite (call_reader t names w (InMsg i) n None _ "next_tag" (at_ ss bs r) (rmap XInt next_tag) (vars_reader ss) eq_refl eq_refl).
    destruct (reads _ _); reflexivity. }
  rewrite view_seq, X, bind_eq. unfold reads. cbn [s_src s_in s_env s_out at_]. rewrite rmap_eq.
  destruct (next_tag bs r) as ([tag|e0| | |], r'); cbn [view then_]; try reflexivity.
  - change (mkSt (vars ss) [] bs r') with (at_ ss bs r'). rewrite (arms_run all_arms (match_arms c m) tail_arms tag ss bs r' match_is V).
    unfold run_field. destruct (find _ (match_arms c m)) as [(tg, (k, a))|] eqn:F.
    + destruct (nth_error ss k) as [s|] eqn:S; [now rewrite of_out_rmap|]. exfalso.
      pose proof match_is as MI. apply find_some in F. destruct F as (F & _). apply nth_error_None in S. rewrite (slots_length ss V) in S. revert F S. clear - MI.
      intros F S. induction MI as [|x (tg', (k', a')) l ms A MI IH]; [contradiction|]. destruct F as [[= -> -> ->]|F]; [|now apply IH].
      destruct A as (e & b & _ & _ & K & _). cbn [fst snd] in K. clear - K S. lia.
    + rewrite unknown_runs. unfold Reader.bind, ret. destruct (read_unknown t tag bs r') as ([u|e0| | |], r1); reflexivity.
  - (* an error *)
    rewrite (arms_miss t names i w n None (XErr e0) all_arms tail_arms); [reflexivity|].
    pose proof match_is as MI. clear - MI. induction MI as [|x (tg', (k', a')) l ms A MI IH]; [constructor|]. destruct A as (e & b & -> & _). constructor; [reflexivity|exact IH].
Qed.
Definition not_eof : rexp := REUn UNot (REPost (var "r") [method "is_eof" []]).
Lemma eof_runs : forall ss bs r, seq (ev None not_eof) the_bool (at_ ss bs r) = Go (negb (r_start r =? r_end r)) (at_ ss bs r).
Proof. reflexivity. Qed.
Lemma loop_runs : forall k ss bs r, message_ok d c i ss ->
  view (while (seq (ev None not_eof) the_bool) (block w ev None step_body) k (at_ ss bs r)) =
  of_out (fun ss' r' => (XUnit, at_ ss' bs r')) (msg_loop k (run_field d c lit t n from (match_arms c m)) ss bs r).
Proof.
  induction k as [|k IH]; intros ss bs r V; [reflexivity|]. cbn [while msg_loop].
  assert (V' : slots_ok d c (struct_def c m) ss) by (unfold message_ok in V; now rewrite G in V).
  rewrite view_seq, eof_runs. cbn [view then_]. rewrite bind_eq. unfold is_eof at 1. destruct (r_start r =? r_end r); cbn [negb]; [reflexivity|].
  rewrite view_seq, (step_runs ss bs r V'), !bind_eq. destruct (next_tag bs r) as ([tag|e0| | |], r'); try reflexivity. rewrite bind_eq.
  pose proof (post_run_field d c lit Schema Enums Typed t True (fun _ => Logic.I) (fun _ => Logic.I) n from m i tag ss G From V bs r') as PR.
  destruct (run_field d c lit t n from (match_arms c m) tag ss bs r') as ([ss'|e0| | |], r1); try reflexivity. cbn [fst] in PR. cbn [of_out then_].
  now apply IH.
Qed.
End Message.

Lemma read_fn_of : forall i m, get_message d i = Some m -> method_of "MessageRead" "from_reader" false (p_struct prog i) =
  the_fn "from_reader" [if is_unit m
     then from_reader_fn RPWild None [run (REPost (var "r") [method "read_to_end" []]); result (call (var "Ok") [call (epath ["Self"; "default"]) []])]
     else from_reader_fn (bind "bytes") (Some "a")
            (read_body (flat_map (read_arms g d) (m_fields m) ++ flat_map (oneof_read_arms g d) (m_oneofs m)))].
Proof.
  intros i m G. cbn [p_struct prog generated_program]. rewrite G. unfold method_of. rewrite items_split, impl_app, impl_before. rewrite impl_app. fold c.
  pose proof (impl_default_none g d d0 "MessageRead" false m eq_refl) as Z. fold c in Z. rewrite Z. unfold message_read. now destruct (is_unit m).
Qed.

Theorem struct_from_is : forall n i m bs r, get_message d i = Some m ->
  struct_from t names prog (default_depth d) n i bs r = rmap (rust_struct d c i m) (GenSem.from_reader d c lit t n i) bs r.
Proof.
  induction n as [|n IH]; intros i m bs r G; [reflexivity|]. cbn [struct_from GenSem.from_reader]. rewrite (read_fn_of i m G), G.
  destruct (Schema i m G) as [_ _ W0]. destruct (GenSem.message_default d c lit i) as [df|] eqn:DF; [|contradiction].
  assert (WDm : forall j x ss, get_message d j = Some x -> GenSem.message_default d c lit j = Some ss ->
    struct_default t names prog (default_depth d) j = Some (rust_struct d c j x ss)).
  { intros j x ss Gj S. now apply (struct_default_is g d d0 t names lit Names Plain Schema Consts Derive). }
  set (w := world_of _ _ _ _ _ _ _ _).
  destruct (is_unit m) eqn:U.
  - cbn [the_fn first from_reader_fn fn fn_name]. change (String.eqb "from_reader" "from_reader") with true. cbv beta iota.
    set (s0 := mkSt [("r", XReader)] [] bs r).
    set (s1 := mkSt [("r", XReader)] [] bs (mkR (r_end r) (r_end r))).
    assert (SD : self_default w (InMsg i) = Some (rust_struct d c i m df)) by exact (WDm i m df G DF).
    assert (X : eval t names w (InMsg i) n None (call (var "Ok") [call (epath ["Self"; "default"]) []]) s1 = Go (XOk (rust_struct d c i m df)) s1).
    { rewrite ev_ok. unfold seq. rewrite ev_self_default, SD. reflexivity. }
    match goal with |- ending ?a = _ => transitivity (ending (eval t names w (InMsg i) n None (call (var "Ok") [call (epath ["Self"; "default"]) []]) s1)); [reflexivity|] end.
    rewrite X. reflexivity.
  - cbn [the_fn first from_reader_fn fn fn_name]. change (String.eqb "from_reader" "from_reader") with true. cbv beta iota.
    assert (SD : self_default w (InMsg i) = Some (rust_struct d c i m df)) by exact (WDm i m df G DF).
    set (s0 := mkSt [("r", XReader); ("bytes", XSource)] [] bs r).
    set (rest := [result (REWhile not_eof (step_body m)); result (call (var "Ok") [var "msg"])]).
    match goal with |- ending ?a = _ => transitivity (ending (seq (eval t names w (InMsg i) n None (call (epath ["Self"; "default"]) []))
       (fun x => with_args [RPBind false true "msg"] [x] (block w (eval t names w (InMsg i) n) None rest)) s0)); [reflexivity|] end.
    assert (MO : message_ok d c i df) by (apply (message_default_ok d c lit Schema Enums Typed); exact DF).
    assert (FR : from_ok d c True (GenSem.from_reader d c lit t n)) by exact (post_from_reader d c lit Schema Enums Typed t True (fun _ => Logic.I) (fun _ => Logic.I) n).
    pose proof (loop_runs i m G w n (GenSem.from_reader d c lit t n)) as LR.
    specialize (LR eq_refl eq_refl).
    assert (H1 : forall ty v, typ_ok d ty -> type_default d (GenSem.message_default d c lit) ty = Some v -> w_default w (rust_type_of ty) = Some (emb ty v)).
    { intros ty v T V. apply (default_of_type g d d0 t names Names Plain (struct_default t names prog (default_depth d)) i m _ (GenSem.message_default d c lit) ty v G WDm eq_refl T V). }
    assert (H2 : forall j x, get_message d j = Some x -> lifts (rust_struct d c j x) (GenSem.from_reader d c lit t n j) (w_from w j)).
    { intros j x Gj bs' r'. exact (IH j x bs' r' Gj). }
    assert (H3 : forall q e z, get_enum d q = Some e -> w_enum w q z = Some (XEnum q (enum_from_i32 d q z))).
    { intros q e z Q. exact (enum_from_is g d d0 t names Names Plain q e z Q). }
    specialize (LR H1 H2 H3 FR (S n) df bs r MO).
    unfold seq at 1. rewrite ev_self_default, SD. cbn [of_option]. unfold go at 1.
    set (W := while (seq (eval t names w (InMsg i) n None not_eof) the_bool) (block w (eval t names w (InMsg i) n) None (step_body m)) (S n)) in *.
    match goal with |- ending ?a = _ => assert (X : view a = then_ (then_ (view (W (at_ i m df bs r)))
      (fun v s' => view ((if may_drop v then eval t names w (InMsg i) n None (call (var "Ok") [var "msg"]) else stuck) s'))) (fun v0 s' => Fine v0 (popped 1 s'))) end.
    { match goal with |- view ?a = _ => change a with (scoped [("msg", rust_struct d c i m df)] (seq W (fun v => if may_drop v then eval t names w (InMsg i) n None (call (var "Ok") [var "msg"]) else stuck)) s0) end.
      rewrite view_scoped, <- view_seq. reflexivity. }
    rewrite ending_view, X, LR. rewrite rmap_eq.
    destruct (msg_loop (S n) _ df bs r) as ([ss|e0| | |], r'); reflexivity.
Qed.
End Program.
