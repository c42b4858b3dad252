(** How deep from_reader of generated code calls itself. *)
From Verif Require Import Base Reader PackedFixed Schema Gen GenSem GenSim LifetimeFacts MeanSize.

Section Stack.
Variables (D : file_descriptor) (c : config) (lit : field_type -> text -> option value) (t : target).

(** types.rs:1693-1751 [write_impl_message_read], as [from_reader] of GenSem.v; but
    [frames] bounds the calls of from_reader that are active at the same time, and
    [fuel] the rounds of each loop.  A call without a frame left is [NoFuel]: in the
    program it is an overflow of the stack. *)
Fixpoint on_stack (frames fuel : nat) (m : midx) : rd (list slot) :=
  match frames with
  | O => lift NoFuel
  | S n =>
    match get_message D m, message_default D c lit m with
    | Some msg, Some d =>
      if is_unit msg then read_to_end >> ret d
      else msg_loop fuel (run_field D c lit t fuel (on_stack n fuel) (match_arms c msg)) d
    | _, _ => lift Panic
    end
  end.

(** ** The same program *)
Lemma mono_on_stack : forall n1 n2 k1 k2 m, (n1 <= n2)%nat -> (k1 <= k2)%nat -> mono (on_stack n1 k1 m) (on_stack n2 k2 m).
Proof.
  induction n1 as [|n1 IH]; intros n2 k1 k2 m Hn Hk; [apply mono_none|]. destruct n2 as [|n2]; [lia|]. cbn [on_stack].
  destruct (get_message D m) as [msg|]; [|apply mono_refl]. destruct (message_default D c lit m); [|apply mono_refl].
  destruct (is_unit msg); [apply mono_refl|]. apply mono_msg_loop; [exact Hk|]. intros tag x.
  apply mono_run_field; [exact Hk|]. intros m'. apply IH; lia.
Qed.
Lemma mono_to_stack : forall n m, mono (from_reader D c lit t n m) (on_stack n n m).
Proof.
  assert (X : forall n k m, (n <= k)%nat -> mono (from_reader D c lit t n m) (on_stack n k m)).
  { induction n as [|n IH]; intros k m Hk; [apply mono_none|]. cbn [on_stack from_reader].
    destruct (get_message D m) as [msg|]; [|apply mono_refl]. destruct (message_default D c lit m); [|apply mono_refl].
    destruct (is_unit msg); [apply mono_refl|]. apply mono_msg_loop; [exact Hk|]. intros tag x.
    apply mono_run_field; [lia|]. intros m'. apply IH; lia. }
  intros n m. now apply X.
Qed.
Lemma mono_of_stack : forall n k m, mono (on_stack n k m) (from_reader D c lit t (n + k) m).
Proof.
  assert (X : forall n k k' m, (n + k <= k')%nat -> mono (on_stack n k m) (from_reader D c lit t k' m)).
  { induction n as [|n IH]; intros k k' m Hk; [apply mono_none|]. destruct k' as [|k']; [lia|]. cbn [on_stack from_reader].
    destruct (get_message D m) as [msg|]; [|apply mono_refl]. destruct (message_default D c lit m); [|apply mono_refl].
    destruct (is_unit msg); [apply mono_refl|]. apply mono_msg_loop; [lia|]. intros tag x.
    apply mono_run_field; [lia|]. intros m'. apply IH; lia. }
  intros n k m. now apply X.
Qed.

(** ** Which messages an arm reads *)
Definition expr_calls (r : rexpr) : list midx := match r with RMessage m => [m] | _ => [] end.
Definition calls (a : action) : list midx :=
  match a with
  | ASetSomeBox r | ASetSome r | ASet r | ASetPacked r | APush r | AOneof _ r => expr_calls r
  | AInsert _ _ rk rv => expr_calls rk ++ expr_calls rv
  | _ => []
  end.
(** code is generated for a field of [i], possibly in a oneof, that has messages [j] in
    it: as its type, its element type, or in a map *)
Definition refers (i j : midx) : Prop :=
  exists m f, get_message D i = Some m /\
    (In f (m_fields m) \/ exists o, In o (m_oneofs m) /\ In f (o_fields o)) /\
    (f_deprecated f = false \/ c_add_deprecated_fields c = true) /\
    In (TMessage j) (leaves (f_typ f)).
Lemma visible_says f : visible c f = true <-> f_deprecated f = false \/ c_add_deprecated_fields c = true.
Proof. unfold visible. destruct (f_deprecated f), (c_add_deprecated_fields c); cbn; intuition discriminate. Qed.

Lemma read_fn_calls ty j : In j (expr_calls (read_fn ty)) -> In (TMessage j) (leaves ty).
Proof. destruct ty; cbn; try tauto. intros [<-|[]]. now left. Qed.
Lemma in_number {A} (l : list A) : forall n i x, In (i, x) (number_from n l) -> In x l.
Proof. induction l as [|a l IH]; intros n i x H; [exact H|]. destruct H as [[= <- <-]|H]; [now left|right; eauto]. Qed.
Lemma arms_refer i m n k a j : get_message D i = Some m -> In (n, (k, a)) (match_arms c m) -> In j (calls a) -> refers i j.
Proof.
  intros G I Ij. unfold match_arms in I. apply in_app_iff in I. destruct I as [I|I].
  - apply in_map_iff in I. destruct I as ((x & f) & E & I). apply in_number, filter_In in I. destruct I as (I & Vis). injection E as <- <- <-.
    exists m, f. split; [exact G|]. split; [now left|]. split; [now apply visible_says|]. unfold field_arm in Ij.
    destruct (f_boxed f); [now apply read_fn_calls|].
    destruct (generated_type_of (f_freq f)).
    + destruct (f_freq f); cbn [calls] in Ij; try contradiction; now apply read_fn_calls.
    + destruct (f_is_packed f); [destruct (is_fixed_size (f_typ f)); cbn [calls] in Ij; try contradiction|]; now apply read_fn_calls.
    + destruct (f_typ f) as [| | | | | | | | | | | | | | | | | | | |k v]; cbn [calls] in Ij; try contradiction.
      cbn [leaves]. apply in_app_iff in Ij. apply in_or_app. destruct Ij as [Ij|Ij]; [left|right]; now apply read_fn_calls.
  - apply in_flat_map in I. destruct I as ((x & o) & Io & I). apply in_map_iff in I. destruct I as ((y & f) & E & I). injection E as <- <- <-.
    apply in_number, filter_In in I. destruct I as (I & Vis). apply in_number in Io. exists m, f. split; [exact G|].
    split; [right; now exists o|]. split; [now apply visible_says|now apply read_fn_calls].
Qed.

(** ** Loops that do the same *)
Definition same_rd {A} (m1 m2 : rd A) : Prop := forall bs r, m1 bs r = m2 bs r.
Lemma same_bind {A B} (m1 m2 : rd A) (f1 f2 : A -> rd B) : same_rd m1 m2 -> (forall a, same_rd (f1 a) (f2 a)) -> same_rd (bind m1 f1) (bind m2 f2).
Proof. intros H K bs r. unfold bind. rewrite (H bs r). destruct (m2 bs r) as ([a| | | |], r1); try reflexivity. apply K. Qed.
Lemma same_refl {A} (m : rd A) : same_rd m m.
Proof. intros bs r. reflexivity. Qed.
Lemma same_rmap {A B} (f : A -> B) m1 m2 : same_rd m1 m2 -> same_rd (rmap f m1) (rmap f m2).
Proof. intros H. apply same_bind; [exact H|intros; apply same_refl]. Qed.
Lemma same_len_varint {A} (m1 m2 : rd A) : same_rd m1 m2 -> same_rd (read_len_varint t m1) (read_len_varint t m2).
Proof. intros H. unfold read_len_varint, read_len. repeat (apply same_bind; [first [apply same_refl|exact H]|intros]). apply same_refl. Qed.
Lemma same_packed_loop {M} n (m1 m2 : rd M) : same_rd m1 m2 -> forall acc, same_rd (packed_loop n m1 acc) (packed_loop n m2 acc).
Proof.
  intros H. induction n as [|n IH]; intros acc; [apply same_refl|]. cbn [packed_loop]. apply same_bind; [apply same_refl|]. intros [|]; [apply same_refl|].
  apply same_bind; [exact H|]. intros x. apply IH.
Qed.
Lemma same_map_loop {K V} n (k1 k2 : rd K) (v1 v2 : rd V) : same_rd k1 k2 -> same_rd v1 v2 -> forall k v, same_rd (map_loop n k1 v1 k v) (map_loop n k2 v2 k v).
Proof.
  intros Hk Hv. induction n as [|n IH]; intros k v; [apply same_refl|]. cbn [map_loop]. apply same_bind; [apply same_refl|]. intros [|]; [apply same_refl|].
  apply same_bind; [apply same_refl|]. intros b. cbv zeta. destruct (Z.shiftr b 3 =? 1); [apply same_bind; [exact Hk|intros; apply IH]|].
  destruct (Z.shiftr b 3 =? 2); [apply same_bind; [exact Hv|intros; apply IH]|apply same_refl].
Qed.
Lemma same_read_value f1 f2 r : (forall j, In j (expr_calls r) -> same_rd (f1 j) (f2 j)) -> same_rd (read_value D t f1 r) (read_value D t f2 r).
Proof. intros H. destruct r; cbn [read_value]; try apply same_refl. apply same_rmap, same_len_varint, H. now left. Qed.
Lemma same_run_action k f1 f2 a s : (forall j, In j (calls a) -> same_rd (f1 j) (f2 j)) ->
  same_rd (run_action D c lit t k f1 a s) (run_action D c lit t k f2 a s).
Proof.
  intros H. destruct a; cbn [run_action]; cbn [calls] in H; try apply same_refl; try (apply same_rmap, same_read_value, H).
  - apply same_rmap, same_len_varint, same_packed_loop, same_read_value, H.
  - destruct s; try apply same_refl. apply same_rmap, same_read_value, H.
  - destruct s; try apply same_refl.
    destruct (type_default D (message_default D c lit) tk); try apply same_refl.
    destruct (type_default D (message_default D c lit) tv); try apply same_refl.
    apply same_rmap, same_len_varint, same_map_loop; apply same_read_value; intros j Hj; apply H, in_or_app; auto.
Qed.
Lemma same_run_field k f1 f2 arms tag ss : (forall n i a j, In (n, (i, a)) arms -> In j (calls a) -> same_rd (f1 j) (f2 j)) ->
  same_rd (run_field D c lit t k f1 arms tag ss) (run_field D c lit t k f2 arms tag ss).
Proof.
  intros H. unfold run_field. destruct (find _ arms) as [[n [i a]]|] eqn:E; [|apply same_refl]. apply find_some in E. destruct E as (I & _).
  destruct (nth_error ss i); [|apply same_refl]. apply same_rmap, same_run_action. intros j. exact (H n i a j I).
Qed.
Lemma same_msg_loop n s1 s2 : (forall tag x, same_rd (s1 tag x) (s2 tag x)) -> forall ss, same_rd (msg_loop n s1 ss) (msg_loop n s2 ss).
Proof.
  intros H. induction n as [|n IH]; intros ss; [apply same_refl|]. cbn [msg_loop]. apply same_bind; [apply same_refl|]. intros [|]; [apply same_refl|].
  apply same_bind; [apply same_refl|]. intros tag. apply same_bind; [apply H|]. intros x. apply IH.
Qed.

(** without a cycle of references, no message needs more frames than its rank *)
Theorem ranked (rank : midx -> nat) : (forall i j, refers i j -> (rank j < rank i)%nat) ->
  forall n i k, (rank i < n)%nat -> same_rd (on_stack n k i) (on_stack (S (rank i)) k i).
Proof.
  intros R. assert (X : forall n n' i k, (rank i < n)%nat -> (rank i < n')%nat -> same_rd (on_stack n k i) (on_stack n' k i)).
  { induction n as [|n IH]; intros n' i k H H'; [lia|]. destruct n' as [|n']; [lia|]. cbn [on_stack].
    destruct (get_message D i) as [m|] eqn:G; [|apply same_refl]. destruct (message_default D c lit i); [|apply same_refl].
    destruct (is_unit m); [apply same_refl|]. apply same_msg_loop. intros tag x. apply same_run_field. intros u v a j I Ij.
    pose proof (R i j (arms_refer i m u v a j G I Ij)). apply IH; lia. }
  intros n i k H. apply X; lia.
Qed.

(** [n] references one after the other from [i] *)
Inductive chain : nat -> midx -> Prop :=
| chain_end i : chain 0 i
| chain_step n i j : refers i j -> chain n j -> chain (S n) i.
(** frames beyond the longest chain make no difference *)
Theorem chained : forall n n' i k, (n <= n')%nat -> ~ chain n i -> same_rd (on_stack n k i) (on_stack n' k i).
Proof.
  induction n as [|n IH]; intros n' i k H N; [contradiction N; constructor|]. destruct n' as [|n']; [lia|]. cbn [on_stack].
  destruct (get_message D i) as [m|] eqn:G; [|apply same_refl]. destruct (message_default D c lit i); [|apply same_refl].
  destruct (is_unit m); [apply same_refl|]. apply same_msg_loop. intros tag x. apply same_run_field. intros u v a j I Ij.
  apply IH; [lia|]. intros C. apply N. exact (chain_step n i j (arms_refer i m u v a j G I Ij) C).
Qed.
(** whether there is such a chain can be found out *)
Definition message_of (t : field_type) : list midx := match t with TMessage j => [j] | _ => [] end.
Definition nexts (i : midx) : list midx :=
  match get_message D i with
  | Some m => flat_map (fun f => flat_map message_of (leaves (f_typ f))) (filter (visible c) (m_fields m ++ flat_map o_fields (m_oneofs m)))
  | None => []
  end.
Lemma in_nexts i j : In j (nexts i) <-> refers i j.
Proof.
  unfold nexts, refers. destruct (get_message D i) as [m|]; [|split; [contradiction|intros (m & f & G & _); discriminate]]. rewrite in_flat_map. split.
  - intros (f & F & J). apply filter_In in F. destruct F as (F & V). apply visible_says in V. apply in_flat_map in J. destruct J as (ty & L & J).
    exists m, f. split; [reflexivity|]. split; [|split; [exact V|destruct ty; try contradiction J; destruct J as [<-|[]]; exact L]].
    apply in_app_iff in F. destruct F as [F|F]; [now left|right]. apply in_flat_map in F. exact F.
  - intros (m' & f & G & F & V & L). injection G as <-. exists f. split.
    + apply filter_In. split; [|now apply visible_says]. apply in_app_iff. destruct F as [F|F]; [now left|right]. now apply in_flat_map.
    + apply in_flat_map. exists (TMessage j). split; [exact L|now left].
Qed.
Lemma chain_dec : forall n i, chain n i \/ ~ chain n i.
Proof.
  induction n as [|n IH]; intros i; [left; constructor|].
  assert (X : (exists j, In j (nexts i) /\ chain n j) \/ ~ exists j, In j (nexts i) /\ chain n j).
  { induction (nexts i) as [|j l IHl]; [right; intros (j & [] & _)|]. destruct (IH j) as [C|C]; [left; exists j; split; [now left|exact C]|].
    destruct IHl as [(x & I & Cx)|N]; [left; exists x; split; [now right|exact Cx]|right]. intros (x & [<-|I] & Cx); [auto|]. apply N. now exists x. }
  destruct X as [(j & I & C)|N]; [left; exact (chain_step n i j (proj1 (in_nexts i j) I) C)|right].
  intros C. inversion C as [|? ? j R Cj]; subst. apply N. exists j. split; [now apply in_nexts|exact Cj].
Qed.

(** ** A deep value needs many frames *)
Definition gives {A} (P : A -> Prop) (m : rd A) : Prop := forall bs r x r', m bs r = (Ok x, r') -> P x.
Lemma gives_bind {A B} (P : A -> Prop) (Q : B -> Prop) (m : rd A) f : gives P m -> (forall x, P x -> gives Q (f x)) -> gives Q (bind m f).
Proof.
  intros H K bs r y r' E. unfold bind in E. destruct (m bs r) as ([x| | | |], r1) eqn:Em; try discriminate. exact (K x (H bs r x r1 Em) bs r1 y r' E).
Qed.
Lemma gives_any {A} (m : rd A) : gives (fun _ => True) m.
Proof. intros bs r x r' _. exact Logic.I. Qed.
Lemma gives_ret {A} (P : A -> Prop) x : P x -> gives P (ret x).
Proof. intros H bs r y r' E. injection E as <- <-. exact H. Qed.
Lemma gives_fail {A} (P : A -> Prop) o : (forall x, o <> Ok x) -> gives P (lift (A:=A) o).
Proof. intros H bs r y r' E. unfold lift in E. destruct o; try discriminate. now contradiction (H a). Qed.
Lemma gives_weak {A} (P Q : A -> Prop) m : gives P m -> (forall x, P x -> Q x) -> gives Q m.
Proof. intros H K bs r x r' E. apply K, (H bs r x r' E). Qed.
Lemma gives_rmap {A B} (P : A -> Prop) (Q : B -> Prop) (f : A -> B) m : gives P m -> (forall x, P x -> Q (f x)) -> gives Q (rmap f m).
Proof. intros H K. apply (gives_bind P); [exact H|]. intros x Hx. apply gives_ret, K, Hx. Qed.
Lemma gives_len_varint {A} (P : A -> Prop) m : gives P m -> gives P (read_len_varint t m).
Proof.
  intros H. unfold read_len_varint, read_len. do 4 (eapply gives_bind; [apply gives_any|intros ? _]). eapply gives_bind; [apply gives_any|intros ? _].
  apply (gives_bind P); [exact H|]. intros v Hv. do 3 (eapply gives_bind; [apply gives_any|intros ? _]). now apply gives_ret.
Qed.
Lemma gives_packed_loop {M} (P : M -> Prop) n (m : rd M) : gives P m -> forall acc, Forall P acc -> gives (Forall P) (packed_loop n m acc).
Proof.
  intros H. induction n as [|n IH]; intros acc Ha; [apply gives_fail; discriminate|]. cbn [packed_loop]. eapply gives_bind; [apply gives_any|].
  intros [|] _; [apply gives_ret; now apply Forall_rev|]. apply (gives_bind P); [exact H|]. intros x Hx. apply IH. now constructor.
Qed.
Lemma gives_map_loop {K V} (P : K -> Prop) (Q : V -> Prop) n (mk : rd K) (mv : rd V) : gives P mk -> gives Q mv -> forall k v, P k -> Q v ->
  gives (fun x => P (fst x) /\ Q (snd x)) (map_loop n mk mv k v).
Proof.
  intros Hk Hv. induction n as [|n IH]; intros k v Pk Qv; [apply gives_fail; discriminate|]. cbn [map_loop]. eapply gives_bind; [apply gives_any|].
  intros [|] _; [apply gives_ret; auto|]. eapply gives_bind; [apply gives_any|]. intros b _. cbv zeta.
  destruct (Z.shiftr b 3 =? 1); [apply (gives_bind P); [exact Hk|intros; now apply IH]|].
  destruct (Z.shiftr b 3 =? 2); [apply (gives_bind Q); [exact Hv|intros; now apply IH]|]. intros bs r x r' E. discriminate E.
Qed.

(** [K]: how deep the default values are *)
Variable K : nat.
Hypothesis Shallow : forall i d, message_default D c lit i = Some d -> (slots_depth d <= K)%nat.
Lemma flat_scalar s : gives (fun v => value_depth v = O) (read_scalar t s).
Proof. destruct s; cbn [read_scalar]; apply (gives_rmap (fun _ => True)); try apply gives_any; reflexivity. Qed.
Lemma depth_value n from r : (forall j, gives (fun ss => (slots_depth ss <= n)%nat) (from j)) -> gives (fun v => (value_depth v <= S n)%nat) (read_value D t from r).
Proof.
  intros H. destruct r; cbn [read_value].
  - eapply gives_weak; [apply flat_scalar|]. cbn. lia.
  - apply (gives_rmap (fun _ => True)); [apply gives_any|]. cbn. lia.
  - apply (gives_rmap (fun _ => True)); [apply gives_any|]. cbn. lia.
  - apply (gives_rmap (fun _ => True)); [apply gives_any|]. cbn. lia.
  - apply (gives_rmap (fun ss => (slots_depth ss <= n)%nat)); [apply gives_len_varint, H|]. intros ss Hs. cbn [value_depth]. fold (slots_depth ss). lia.
  - apply gives_fail. discriminate.
Qed.
Lemma vec_depth l n : (slot_depth (SlVec l) <= n)%nat <-> Forall (fun v => (value_depth v <= n)%nat) l.
Proof.
  cbn [slot_depth]. induction l as [|v l IH]; cbn [fold_right]; [split; [constructor|lia]|]. split.
  - intros H. constructor; [lia|]. apply IH. lia.
  - intros H. inversion H as [|? ? H1 H2]; subst. apply IH in H2. lia.
Qed.
Lemma map_depth l n : (slot_depth (SlMap l) <= n)%nat <-> Forall (fun '(k, v) => (value_depth k <= n /\ value_depth v <= n)%nat) l.
Proof.
  cbn [slot_depth]. induction l as [|(k, v) l IH]; cbn [fold_right]; [split; [constructor|lia]|]. split.
  - intros H. constructor; [lia|]. apply IH. lia.
  - intros H. inversion H as [|? ? H1 H2]; subst. cbn in H1. destruct H1 as (H1 & H1'). apply IH in H2. lia.
Qed.
Lemma insert_depth k v l n : (value_depth k <= n)%nat -> (value_depth v <= n)%nat -> Forall (fun '(k, v) => (value_depth k <= n /\ value_depth v <= n)%nat) l ->
  Forall (fun '(k, v) => (value_depth k <= n /\ value_depth v <= n)%nat) (map_insert k v l).
Proof.
  intros Hk Hv H. induction H as [|(k', v') l A H IH]; cbn [map_insert]; [repeat constructor; assumption|].
  destruct A as (A & B). destruct (plain_eq k k'); constructor; auto.
Qed.
Lemma default_depth_of ty v : type_default D (message_default D c lit) ty = Some v -> (value_depth v <= S K)%nat.
Proof.
  destruct ty; cbn [type_default]; intros E; try discriminate; try (injection E as <-; cbn; lia).
  all: destruct (message_default D c lit m) as [d|] eqn:Em; [|discriminate E]; injection E as <-; pose proof (Shallow m d Em); cbn [value_depth]; fold (slots_depth d); lia.
Qed.
Lemma depth_action n k from a s : (K <= n)%nat -> (forall j, gives (fun ss => (slots_depth ss <= n)%nat) (from j)) -> (slot_depth s <= S n)%nat ->
  gives (fun s' => (slot_depth s' <= S n)%nat) (run_action D c lit t k from a s).
Proof.
  intros Hn H Hs. pose proof (fun r => depth_value n from r H) as V. destruct a; cbn [run_action].
  - apply (gives_rmap (fun v => (value_depth v <= S n)%nat)); auto.
  - apply (gives_rmap (fun v => (value_depth v <= S n)%nat)); auto.
  - apply (gives_rmap (fun v => (value_depth v <= S n)%nat)); auto.
  - apply (gives_rmap (fun _ => True)); [apply gives_any|]. cbn. lia.
  - apply (gives_rmap (Forall (fun v => (value_depth v <= S n)%nat))).
    + apply gives_len_varint, gives_packed_loop; [apply V|constructor].
    + intros l Hl. now apply vec_depth.
  - destruct s; try (apply gives_fail; discriminate). apply (gives_rmap (fun v => (value_depth v <= S n)%nat)); [apply V|].
    intros v Hv. apply vec_depth in Hs. apply vec_depth, Forall_app. auto.
  - destruct s; try (apply gives_fail; discriminate). destruct (type_default D (message_default D c lit) tk) as [kd|] eqn:Ek; [|apply gives_fail; discriminate].
    destruct (type_default D (message_default D c lit) tv) as [vd|] eqn:Ev; [|apply gives_fail; discriminate].
    apply (gives_rmap (fun x => (value_depth (fst x) <= S n)%nat /\ (value_depth (snd x) <= S n)%nat)).
    + apply gives_len_varint, (gives_map_loop (fun v => (value_depth v <= S n)%nat) (fun v => (value_depth v <= S n)%nat)); auto;
        [pose proof (default_depth_of _ _ Ek)|pose proof (default_depth_of _ _ Ev)]; lia.
    + intros (x, y) (A & B). apply map_depth in Hs. apply map_depth. now apply insert_depth.
  - apply (gives_rmap (fun v => (value_depth v <= S n)%nat)); auto.
  - apply gives_fail. discriminate.
Qed.
Lemma set_depth n i s ss : (slot_depth s <= n)%nat -> (slots_depth ss <= n)%nat -> (slots_depth (set_nth i s ss) <= n)%nat.
Proof.
  revert i. induction ss as [|x ss IH]; intros i Hs H; [destruct i; exact H|]. apply slots_depth_cons in H. destruct H as (A & B).
  destruct i as [|i]; cbn [set_nth]; apply slots_depth_cons; auto.
Qed.
Lemma nth_depth n i s ss : nth_error ss i = Some s -> (slots_depth ss <= n)%nat -> (slot_depth s <= n)%nat.
Proof.
  revert i. induction ss as [|x ss IH]; intros [|i] E H; try discriminate; apply slots_depth_cons in H; destruct H as (A & B).
  - injection E as <-. exact A.
  - exact (IH i E B).
Qed.
Lemma depth_field n k from arms tag ss : (K <= n)%nat -> (forall j, gives (fun ss => (slots_depth ss <= n)%nat) (from j)) -> (slots_depth ss <= S n)%nat ->
  gives (fun ss' => (slots_depth ss' <= S n)%nat) (run_field D c lit t k from arms tag ss).
Proof.
  intros Hn H Hs. unfold run_field. destruct (find _ arms) as [[u [i a]]|].
  - destruct (nth_error ss i) as [s|] eqn:E; [|apply gives_fail; discriminate].
    apply (gives_rmap (fun s' => (slot_depth s' <= S n)%nat)); [apply depth_action; auto; eapply nth_depth; eauto|]. intros s' Hs'. now apply set_depth.
  - eapply gives_bind; [apply gives_any|]. intros _ _. now apply gives_ret.
Qed.
Lemma depth_loop n k step : (forall tag ss, (slots_depth ss <= n)%nat -> gives (fun ss' => (slots_depth ss' <= n)%nat) (step tag ss)) ->
  forall ss, (slots_depth ss <= n)%nat -> gives (fun ss' => (slots_depth ss' <= n)%nat) (msg_loop k step ss).
Proof.
  intros H. induction k as [|k IH]; intros ss Hs; [apply gives_fail; discriminate|]. cbn [msg_loop]. eapply gives_bind; [apply gives_any|].
  intros [|] _; [now apply gives_ret|]. eapply gives_bind; [apply gives_any|]. intros tag _.
  apply (gives_bind (fun ss' => (slots_depth ss' <= n)%nat)); [now apply H|]. intros x Hx. now apply IH.
Qed.
(** what is decoded with [n] frames has at most [n] messages inside each other, apart
    from default values *)
Theorem depth_on_stack : forall n k m, gives (fun ss => (slots_depth ss <= n + K)%nat) (on_stack n k m).
Proof.
  induction n as [|n IH]; intros k m; [apply gives_fail; discriminate|]. cbn [on_stack].
  destruct (get_message D m) as [msg|]; [|apply gives_fail; discriminate]. destruct (message_default D c lit m) as [d|] eqn:E; [|apply gives_fail; discriminate].
  pose proof (Shallow m d E) as Hd. destruct (is_unit msg).
  - eapply gives_bind; [apply gives_any|]. intros _ _. apply gives_ret. lia.
  - apply depth_loop; [|lia]. intros tag ss Hs. apply (depth_field (n + K)); auto. lia.
Qed.
End Stack.
