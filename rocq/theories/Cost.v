(** The writing functions of the generated code with a count of the activations of
    [MessageWrite::get_size].  [Writer::write_message] (writer.rs:217-223) computes the
    size of a message before it writes it, and the writing of a message writes the messages
    in it in the same way, so that the sizes of inner messages are computed again and again.
    What is counted is a run that does not stop at an error (writing to a Vec has none). *)
From Coq Require Import Arith ZArith Lia.
From Verif Require Import Base BaseFacts Reader PackedFixed Writer Sizeofs Spec WriterFacts DelimFacts Schema Gen GenSem GenSpec GenEmit LifetimeFacts MeanSize Stack.
Local Open Scope list_scope.
Local Open Scope Z_scope.

(** a result with the activations that it took *)
Definition counted (A : Type) : Type := A * nat.
Definition just {A} (a : A) : counted A := (a, O).
Definition get_size_call {A} (x : counted A) : counted A := (fst x, S (snd x)).
Definition both {A B C} (f : A -> B -> C) (x : counted A) (y : counted B) : counted C := (f (fst x) (fst y), (snd x + snd y)%nat).
Definition then_ {A B} (f : A -> B) (x : counted A) : counted B := (f (fst x), snd x).
Definition sum_counted {A} (f : A -> counted Z) (l : list A) : counted Z := fold_right (fun a acc => both Z.add (f a) acc) (just 0) l.
Definition flat_counted {A} (f : A -> counted wprog) (l : list A) : counted wprog := fold_right (fun a acc => both (A:=wprog) (B:=wprog) (C:=wprog) (@app wop) (f a) acc) (just []) l.

Section Cost.
Variable D : file_descriptor.
Variable c : config.
Variable lit : field_type -> text -> option value.

(** ** get_size (types.rs:451-476, 937-1049, 1901-1917, 2438-2491, as in GenSem.v) *)
Fixpoint value_size_n (e : sexpr) (v : value) {struct v} : counted Z :=
  match v with
  | VMsg ss =>
    match e with
    | ZMessage m =>
      then_ sizeof_len (get_size_call
        (match get_message D m with
         | None => just 0
         | Some msg =>
           if is_unit msg then just 0
           else (fix go (sts : list size_stmt) (ss : list slot) {struct ss} : counted Z :=
                   match ss, sts with
                   | s :: ss', st :: sts' => both Z.add (slot_size_n st s) (go sts' ss')
                   | _, _ => just 0
                   end) (size_stmts c msg) ss
         end))
    | _ => just 0
    end
  | _ => just (value_size D c lit e v)
  end
with slot_size_n (st : size_stmt) (s : slot) {struct s} : counted Z :=
  match s with
  | SlOne v =>
    match st with
    | ZsAlways ts e => then_ (Z.add ts) (value_size_n e v)
    | ZsUnlessDefault d t ts e =>
      match dexpr_value D c lit d with
      | Some w => if rust_eq t v w then just 0 else then_ (Z.add ts) (value_size_n e v)
      | None => just 0
      end
    | _ => just 0
    end
  | SlNone => just 0
  | SlSome v => match st with ZsOption ts e => then_ (Z.add ts) (value_size_n e v) | _ => just 0 end
  | SlVec l =>
    match st with
    | ZsPacked ts e => match l with [] => just 0 | _ => then_ (fun n => ts + sizeof_len n) (sum_counted (value_size_n e) l) end
    | ZsRepeatedFixed ts w => just ((ts + w) * zlen l)
    | ZsRepeated ts e => sum_counted (fun v => then_ (Z.add ts) (value_size_n e v)) l
    | _ => just 0
    end
  | SlPF p => just (slot_size D c lit st s)
  | SlMap l =>
    match st with
    | ZsMap ts me =>
      sum_counted (fun '(k, v) =>
        both (fun sk sv => ts + sizeof_len (2 + sk + sv)) (value_size_n (me_size_k me) k) (value_size_n (me_size_v me) v)) l
    | _ => just 0
    end
  | SlOneofNone => just 0
  | SlOneof i v =>
    match st with
    | ZsOneof vs => match nth_error vs i with
                    | Some (ts, e) => then_ (Z.add ts) (value_size_n e v)
                    | None => just 0
                    end
    | _ => just 0
    end
  end.

Fixpoint slots_size_n (sts : list size_stmt) (ss : list slot) {struct ss} : counted Z :=
  match ss, sts with
  | s :: ss', st :: sts' => both Z.add (slot_size_n st s) (slots_size_n sts' ss')
  | _, _ => just 0
  end.

(** an activation of [MessageWrite::get_size]; messages without fields have the one of the
    trait (types.rs:1761) *)
Definition message_size_n (m : midx) (ss : list slot) : counted Z :=
  get_size_call
    (match get_message D m with
     | None => just 0
     | Some msg => if is_unit msg then just 0 else slots_size_n (size_stmts c msg) ss
     end).

(** ** write_message (types.rs:478-515, 1080-1241, 1937-1956, 2493-2535; writer.rs:217-223,
    235-257 [write_packed_with_tag] sums the sizes, 300-317 [write_map] is given the size) *)
Fixpoint value_write_n (e : wexpr) (v : value) {struct v} : counted wprog :=
  match v with
  | VMsg ss =>
    match e with
    | WMessage m =>
      both write_message (message_size_n m ss)
        (match get_message D m with
         | None => just [OpPanic]
         | Some msg =>
           if is_unit msg then just []
           else (fix go (sts : list write_stmt) (ss : list slot) {struct ss} : counted wprog :=
                   match ss, sts with
                   | s :: ss', st :: sts' => both (A:=wprog) (B:=wprog) (C:=wprog) (@app wop) (slot_write_n st s) (go sts' ss')
                   | [], [] => just []
                   | _, _ => just [OpPanic]
                   end) (write_stmts c msg) ss
         end)
    | _ => just [OpPanic]
    end
  | _ => just (value_write D c lit e v)
  end
with slot_write_n (st : write_stmt) (s : slot) {struct s} : counted wprog :=
  match s with
  | SlOne v =>
    match st with
    | WsAlways tag e => then_ (write_with_tag tag) (value_write_n e v)
    | WsUnlessDefault d t tag e =>
      match dexpr_value D c lit d with
      | Some w => if rust_eq t v w then just [] else then_ (write_with_tag tag) (value_write_n e v)
      | None => just [OpPanic]
      end
    | _ => just [OpPanic]
    end
  | SlNone => just (slot_write D c lit st s)
  | SlSome v => match st with WsOption tag e => then_ (write_with_tag tag) (value_write_n e v) | _ => just [OpPanic] end
  | SlVec l =>
    match st with
    | WsPacked tag e z =>
      match l with
      | [] => just []
      | _ => both (fun len body => write_tag tag ++ write_varint (wrapU 64 len) ++ body)
               (sum_counted (value_size_n z) l) (flat_counted (value_write_n e) l)
      end
    | WsRepeated tag e => flat_counted (fun v => then_ (write_with_tag tag) (value_write_n e v)) l
    | _ => just [OpPanic]
    end
  | SlPF p => just (slot_write D c lit st s)
  | SlMap l =>
    match st with
    | WsMap tag me =>
      flat_counted (fun '(k, v) =>
        then_ (write_with_tag tag)
          (both (fun len f => f len)
             (both (fun sk sv => 2 + sk + sv) (value_size_n (me_size_k me) k) (value_size_n (me_size_v me) v))
             (both (fun wk wv len => write_map len (me_tag_k me) wk (me_tag_v me) wv)
                (value_write_n (me_write_k me) k) (value_write_n (me_write_v me) v)))) l
    | _ => just [OpPanic]
    end
  | SlOneofNone => just (slot_write D c lit st s)
  | SlOneof i v =>
    match st with
    | WsOneof vs => match nth_error vs i with
                    | Some (tag, e) => then_ (write_with_tag tag) (value_write_n e v)
                    | None => just [OpPanic]
                    end
    | _ => just [OpPanic]
    end
  end.

Fixpoint slots_write_n (sts : list write_stmt) (ss : list slot) {struct ss} : counted wprog :=
  match ss, sts with
  | s :: ss', st :: sts' => both (A:=wprog) (B:=wprog) (C:=wprog) (@app wop) (slot_write_n st s) (slots_write_n sts' ss')
  | [], [] => just []
  | _, _ => just [OpPanic]
  end.

Definition message_write_n (m : midx) (ss : list slot) : counted wprog :=
  match get_message D m with
  | None => just [OpPanic]
  | Some msg => if is_unit msg then just [] else slots_write_n (write_stmts c msg) ss
  end.

(** [Writer::write_message] (writer.rs:217-223) *)
Definition writer_write_message_n (m : midx) (ss : list slot) : counted wprog :=
  both write_message (message_size_n m ss) (message_write_n m ss).

(** [serialize_into_vec] (writer.rs:326-335), [serialize_into_slice] (writer.rs:338-349)
    when the slice is long enough: get_size, then [Writer::write_message] *)
Definition serialize_n (m : midx) (ss : list slot) : counted wprog :=
  both (fun _ p => p) (message_size_n m ss) (writer_write_message_n m ss).

(** ** What is counted: the specification *)

(** [sizings k t v]: the sum of the weights of the messages in [v].  The weight of a
    message is [k] and one for every message around it, and one more for every map entry
    and every packed array around it. *)
Fixpoint sizings (k : nat) (t : field_type) (v : value) {struct v} : nat :=
  match v with
  | VMsg ss =>
    match t with
    | TMessage m =>
      match get_message D m with
      | Some msg =>
        k + (fix go (ds : list sdesc) (ss : list slot) {struct ss} : nat :=
               match ss, ds with
               | s :: ss', d :: ds' => slot_sizings (S k) d s + go ds' ss'
               | _, _ => 0
               end) (descs c msg) ss
      | None => O
      end
    | _ => O
    end
  | _ => O
  end%nat
with slot_sizings (k : nat) (d : sdesc) (s : slot) {struct s} : nat :=
  match s with
  | SlOne v | SlSome v => match d with SdField f => sizings k (f_typ f) v | _ => O end
  | SlVec l => match d with
               | SdField f => fold_right (fun v acc => sizings (if f_is_packed f then S k else k) (f_typ f) v + acc) O l
               | _ => O
               end
  | SlMap l => match d with
               | SdField f => match f_typ f with
                              | TMap _ tv => fold_right (fun kv acc => sizings (S k) tv (snd kv) + acc) O l
                              | _ => O
                              end
               | _ => O
               end
  | SlOneof i v => match d with
                   | SdOneof vs => match nth_error vs i with Some f => sizings k (f_typ f) v | None => O end
                   | _ => O
                   end
  | _ => O
  end%nat.
Definition slots_sizings (k : nat) : list sdesc -> list slot -> nat :=
  fix go (ds : list sdesc) (ss : list slot) {struct ss} : nat :=
    match ss, ds with
    | s :: ss', d :: ds' => slot_sizings k d s + go ds' ss'
    | _, _ => 0
    end%nat.

End Cost.

(** the messages in a value *)
Fixpoint messages_in (v : value) : nat :=
  match v with VMsg ss => S (fold_right (fun s acc => slot_messages s + acc)%nat O ss) | _ => O end
with slot_messages (s : slot) : nat :=
  match s with
  | SlOne v | SlSome v | SlOneof _ v => messages_in v
  | SlVec l => fold_right (fun v acc => messages_in v + acc)%nat O l
  | SlMap l => fold_right (fun kv acc => (let '(k, v) := kv in messages_in k + messages_in v) + acc)%nat O l
  | _ => O
  end.

(** ** The instrumented functions do what those of GenSem.v do *)
Section Same.
Variable D : file_descriptor.
Variable c : config.
Variable lit : field_type -> text -> option value.
Notation value_size := (value_size D c lit).
Notation slot_size := (slot_size D c lit).
Notation value_write := (value_write D c lit).
Notation slot_write := (slot_write D c lit).
Notation value_size_n := (value_size_n D c lit).
Notation slot_size_n := (slot_size_n D c lit).
Notation value_write_n := (value_write_n D c lit).
Notation slot_write_n := (slot_write_n D c lit).

Lemma value_size_n_msg m ss : value_size_n (ZMessage m) (VMsg ss) = then_ sizeof_len (message_size_n D c lit m ss).
Proof. reflexivity. Qed.
Lemma value_write_n_msg m ss : value_write_n (WMessage m) (VMsg ss) = writer_write_message_n D c lit m ss.
Proof. reflexivity. Qed.

Lemma slot_size_n_eq st s : slot_size_n st s =
  match s with
  | SlOne v =>
    match st with
    | ZsAlways ts e => then_ (Z.add ts) (value_size_n e v)
    | ZsUnlessDefault d t ts e =>
      match dexpr_value D c lit d with
      | Some w => if rust_eq t v w then just 0 else then_ (Z.add ts) (value_size_n e v)
      | None => just 0
      end
    | _ => just 0
    end
  | SlNone => just 0
  | SlSome v => match st with ZsOption ts e => then_ (Z.add ts) (value_size_n e v) | _ => just 0 end
  | SlVec l =>
    match st with
    | ZsPacked ts e => match l with [] => just 0 | _ => then_ (fun n => ts + sizeof_len n) (sum_counted (value_size_n e) l) end
    | ZsRepeatedFixed ts w => just ((ts + w) * zlen l)
    | ZsRepeated ts e => sum_counted (fun v => then_ (Z.add ts) (value_size_n e v)) l
    | _ => just 0
    end
  | SlPF p => just (slot_size st s)
  | SlMap l =>
    match st with
    | ZsMap ts me =>
      sum_counted (fun '(k, v) =>
        both (fun sk sv => ts + sizeof_len (2 + sk + sv)) (value_size_n (me_size_k me) k) (value_size_n (me_size_v me) v)) l
    | _ => just 0
    end
  | SlOneofNone => just 0
  | SlOneof i v =>
    match st with
    | ZsOneof vs => match nth_error vs i with
                    | Some (ts, e) => then_ (Z.add ts) (value_size_n e v)
                    | None => just 0
                    end
    | _ => just 0
    end
  end.
Proof. destruct s; reflexivity. Qed.
Lemma slot_write_n_eq st s : slot_write_n st s =
  match s with
  | SlOne v =>
    match st with
    | WsAlways tag e => then_ (write_with_tag tag) (value_write_n e v)
    | WsUnlessDefault d t tag e =>
      match dexpr_value D c lit d with
      | Some w => if rust_eq t v w then just [] else then_ (write_with_tag tag) (value_write_n e v)
      | None => just [OpPanic]
      end
    | _ => just [OpPanic]
    end
  | SlNone => just (slot_write st s)
  | SlSome v => match st with WsOption tag e => then_ (write_with_tag tag) (value_write_n e v) | _ => just [OpPanic] end
  | SlVec l =>
    match st with
    | WsPacked tag e z =>
      match l with
      | [] => just []
      | _ => both (fun len body => write_tag tag ++ write_varint (wrapU 64 len) ++ body)
               (sum_counted (value_size_n z) l) (flat_counted (value_write_n e) l)
      end
    | WsRepeated tag e => flat_counted (fun v => then_ (write_with_tag tag) (value_write_n e v)) l
    | _ => just [OpPanic]
    end
  | SlPF p => just (slot_write st s)
  | SlMap l =>
    match st with
    | WsMap tag me =>
      flat_counted (fun '(k, v) =>
        then_ (write_with_tag tag)
          (both (fun len f => f len)
             (both (fun sk sv => 2 + sk + sv) (value_size_n (me_size_k me) k) (value_size_n (me_size_v me) v))
             (both (fun wk wv len => write_map len (me_tag_k me) wk (me_tag_v me) wv)
                (value_write_n (me_write_k me) k) (value_write_n (me_write_v me) v)))) l
    | _ => just [OpPanic]
    end
  | SlOneofNone => just (slot_write st s)
  | SlOneof i v =>
    match st with
    | WsOneof vs => match nth_error vs i with
                    | Some (tag, e) => then_ (write_with_tag tag) (value_write_n e v)
                    | None => just [OpPanic]
                    end
    | _ => just [OpPanic]
    end
  end.
Proof. destruct s; reflexivity. Qed.

Lemma sum_counted_fst {A} (f : A -> counted Z) (g : A -> Z) l : (forall a, In a l -> fst (f a) = g a) -> fst (sum_counted f l) = sum_sizes g l.
Proof.
  induction l as [|a l IH]; intros H; [reflexivity|]. unfold sum_counted, sum_sizes in *. cbn [fold_right both fst].
  rewrite (H a (or_introl eq_refl)), IH; [reflexivity|]. intros b Hb. apply H. now right.
Qed.
Lemma flat_counted_fst {A} (f : A -> counted wprog) (g : A -> wprog) l : (forall a, In a l -> fst (f a) = g a) -> fst (flat_counted f l) = flat_map g l.
Proof.
  induction l as [|a l IH]; intros H; [reflexivity|]. unfold flat_counted in *. cbn [fold_right both fst flat_map].
  rewrite (H a (or_introl eq_refl)), IH; [reflexivity|]. intros b Hb. apply H. now right.
Qed.

Lemma slots_size_same sts ss : Forall (fun s => forall st, fst (slot_size_n st s) = slot_size st s) ss ->
  fst (slots_size_n D c lit sts ss) = slots_size D c lit sts ss.
Proof.
  intros F. revert sts. induction F as [|s ss H F IH]; intros [|st sts]; try reflexivity.
  cbn [slots_size_n both fst]. rewrite H, IH. reflexivity.
Qed.

Lemma size_same : (forall v e, fst (value_size_n e v) = value_size e v) /\ (forall s st, fst (slot_size_n st s) = slot_size st s).
Proof.
  apply (value_slot_ind (fun v => forall e, fst (value_size_n e v) = value_size e v) (fun s => forall st, fst (slot_size_n st s) = slot_size st s)); try reflexivity.
  - intros ss F e. destruct e; try reflexivity. rewrite value_size_n_msg, value_size_msg. unfold message_size_n, message_size. cbn [then_ get_size_call fst].
    destruct (get_message D m) as [msg|]; [|reflexivity]. destruct (is_unit msg); [reflexivity|]. now rewrite slots_size_same.
  - intros v IH st. rewrite slot_size_eq. rewrite slot_size_n_eq. destruct st; try reflexivity; [cbn [then_ fst]; now rewrite IH|].
    destruct (dexpr_value D c lit d) as [x|]; [|reflexivity]. destruct (rust_eq t v x); [reflexivity|cbn [then_ fst]; now rewrite IH].
  - intros v IH st. rewrite slot_size_eq. rewrite slot_size_n_eq. destruct st; try reflexivity. cbn [then_ fst]. now rewrite IH.
  - intros l F st. rewrite slot_size_eq. rewrite slot_size_n_eq. rewrite Forall_forall in F. destruct st; try reflexivity.
    + destruct l as [|v0 l0]; [reflexivity|]. cbn [then_ fst]. rewrite (sum_counted_fst _ (value_size e)); [reflexivity|]. intros a Ha. now apply F.
    + apply sum_counted_fst. intros a Ha. cbn [then_ fst]. now rewrite F.
  - intros l F st. rewrite slot_size_eq. rewrite slot_size_n_eq. rewrite Forall_forall in F. destruct st; try reflexivity.
    rewrite (sum_counted_fst _ (fun kv => tag_size + sizeof_len (2 + value_size (me_size_k me) (fst kv) + value_size (me_size_v me) (snd kv)))).
    + clear. induction l as [|(k, v) l IH]; [reflexivity|]. unfold sum_sizes in *. cbn [fold_right fst snd]. now rewrite IH.
    + intros (k, v) Hk. cbn [both fst snd]. destruct (F _ Hk) as (F1 & F2). cbn [fst snd] in F1, F2. now rewrite F1, F2.
  - intros i v IH st. rewrite slot_size_eq. rewrite slot_size_n_eq. destruct st; try reflexivity.
    destruct (nth_error variants i) as [(ts, e)|]; [|reflexivity]. cbn [then_ fst]. now rewrite IH.
Qed.

Lemma message_size_same m ss : fst (message_size_n D c lit m ss) = message_size D c lit m ss.
Proof.
  unfold message_size_n, message_size. cbn [get_size_call fst]. destruct (get_message D m) as [msg|]; [|reflexivity]. destruct (is_unit msg); [reflexivity|].
  apply slots_size_same. apply Forall_forall. intros s _. exact (proj2 size_same s).
Qed.

Lemma slots_write_same sts ss : Forall (fun s => forall st, fst (slot_write_n st s) = slot_write st s) ss ->
  fst (slots_write_n D c lit sts ss) = slots_write D c lit sts ss.
Proof.
  intros F. revert sts. induction F as [|s ss H F IH]; intros [|st sts]; try reflexivity.
  cbn [slots_write_n both fst]. rewrite H, IH. reflexivity.
Qed.

Lemma write_same : (forall v e, fst (value_write_n e v) = value_write e v) /\ (forall s st, fst (slot_write_n st s) = slot_write st s).
Proof.
  destruct size_same as (ZV & _).
  apply (value_slot_ind (fun v => forall e, fst (value_write_n e v) = value_write e v) (fun s => forall st, fst (slot_write_n st s) = slot_write st s)); try reflexivity.
  - intros ss F e. destruct e; try reflexivity. rewrite value_write_n_msg, value_write_msg. unfold writer_write_message_n. cbn [both fst]. rewrite message_size_same.
    f_equal. unfold message_write_n, message_write.
    destruct (get_message D m) as [msg|]; [|reflexivity]. destruct (is_unit msg); [reflexivity|]. now apply slots_write_same.
  - intros v IH st. rewrite slot_write_eq. rewrite slot_write_n_eq. destruct st; try reflexivity; [cbn [then_ fst]; now rewrite IH|].
    destruct (dexpr_value D c lit d) as [x|]; [|reflexivity]. destruct (rust_eq t v x); [reflexivity|cbn [then_ fst]; now rewrite IH].
  - intros v IH st. rewrite slot_write_eq. rewrite slot_write_n_eq. destruct st; try reflexivity. cbn [then_ fst]. now rewrite IH.
  - intros l F st. rewrite slot_write_eq. rewrite slot_write_n_eq. rewrite Forall_forall in F. destruct st; try reflexivity.
    + unfold write_packed_with_tag. destruct l as [|v0 l0] eqn:El; [reflexivity|]. rewrite <- El in *. cbn [both fst].
      rewrite (sum_counted_fst _ (value_size z)) by (intros; apply ZV). rewrite (flat_counted_fst _ (value_write e)); [reflexivity|]. intros a Ha. now apply F.
    + apply flat_counted_fst. intros a Ha. cbn [then_ fst]. now rewrite F.
  - intros l F st. rewrite slot_write_eq. rewrite slot_write_n_eq. rewrite Forall_forall in F. destruct st; try reflexivity.
    apply flat_counted_fst. intros (k, v) Hk. cbn [then_ both fst]. destruct (F _ Hk) as (F1 & F2). cbn [fst snd] in F1, F2. now rewrite F1, F2, !ZV.
  - intros i v IH st. rewrite slot_write_eq. rewrite slot_write_n_eq. destruct st; try reflexivity.
    destruct (nth_error variants i) as [(ts, e)|]; [|reflexivity]. cbn [then_ fst]. now rewrite IH.
Qed.
Lemma message_write_same m ss : fst (message_write_n D c lit m ss) = message_write D c lit m ss.
Proof.
  unfold message_write_n, message_write. destruct (get_message D m) as [msg|]; [|reflexivity]. destruct (is_unit msg); [reflexivity|].
  apply slots_write_same. apply Forall_forall. intros s _. exact (proj2 write_same s).
Qed.
Lemma serialize_same m ss : fst (serialize_n D c lit m ss) = write_message (message_size D c lit m ss) (message_write D c lit m ss).
Proof. unfold serialize_n, writer_write_message_n. cbn [both fst]. now rewrite message_size_same, message_write_same. Qed.

(** ** Counting *)
Notation sizings := (sizings D c).
Notation slot_sizings := (slot_sizings D c).
Hypothesis WF : schema_wf D c lit.

Lemma sum_counted_snd {A} (f : A -> counted Z) l : snd (sum_counted f l) = fold_right (fun a acc => snd (f a) + acc)%nat O l.
Proof. induction l as [|a l IH]; [reflexivity|]. unfold sum_counted in *. cbn [fold_right both snd]. now rewrite IH. Qed.
Lemma flat_counted_snd {A} (f : A -> counted wprog) l : snd (flat_counted f l) = fold_right (fun a acc => snd (f a) + acc)%nat O l.
Proof. induction l as [|a l IH]; [reflexivity|]. unfold flat_counted in *. cbn [fold_right both snd]. now rewrite IH. Qed.
Definition total {A} (f : A -> nat) (l : list A) : nat := fold_right (fun a acc => f a + acc)%nat O l.
Lemma total_ext {A} (f g : A -> nat) l : (forall a, In a l -> f a = g a) -> total f l = total g l.
Proof. induction l as [|a l IH]; intros H; [reflexivity|]. unfold total in *. cbn [fold_right]. rewrite (H a (or_introl eq_refl)), IH; [reflexivity|]. intros; apply H; now right. Qed.
Lemma total_add {A} (f g : A -> nat) l : total (fun a => f a + g a)%nat l = (total f l + total g l)%nat.
Proof. induction l as [|a l IH]; [reflexivity|]. unfold total in *. cbn [fold_right]. rewrite IH. lia. Qed.
Lemma total_le {A} (f g : A -> nat) q l : (forall a, In a l -> f a <= q * g a)%nat -> (total f l <= q * total g l)%nat.
Proof. induction l as [|a l IH]; intros H; [cbn; lia|]. unfold total in *. cbn [fold_right]. pose proof (H a (or_introl eq_refl)). specialize (IH ltac:(intros; apply H; now right)). nia. Qed.

(** what is shown for a value and for a struct field *)
Definition counts (t : field_type) (v : value) : Prop :=
  snd (value_size_n (size_fn t) v) = messages_in v /\
  (forall k, sizings (S k) t v = sizings k t v + messages_in v)%nat /\
  snd (value_write_n (write_fn t) v) = sizings 1 t v /\
  (forall k n, value_depth v <= n -> sizings k t v + 2 * messages_in v <= (k + 2 * n) * messages_in v)%nat.
Definition slot_counts (d : sdesc) (s : slot) : Prop :=
  snd (slot_size_n (sd_size c d) s) = slot_messages s /\
  (forall k, slot_sizings (S k) d s = slot_sizings k d s + slot_messages s)%nat /\
  (snd (slot_write_n (sd_write c d) s) + slot_messages s = slot_sizings 2 d s)%nat /\
  (forall k n, slot_depth s <= n -> slot_sizings (S k) d s <= (k + 2 * n) * slot_messages s)%nat.

Lemma sizings_msg k m msg ss : get_message D m = Some msg -> sizings k (TMessage m) (VMsg ss) = (k + slots_sizings D c (S k) (descs c msg) ss)%nat.
Proof. intros G. cbn [Cost.sizings]. rewrite G. reflexivity. Qed.

Lemma slot_sizings_eq k d s : slot_sizings k d s =
(match s with
  | SlOne v | SlSome v => match d with SdField f => sizings k (f_typ f) v | _ => O end
  | SlVec l => match d with
               | SdField f => fold_right (fun v acc => sizings (if f_is_packed f then S k else k) (f_typ f) v + acc) O l
               | _ => O
               end
  | SlMap l => match d with
               | SdField f => match f_typ f with
                              | TMap _ tv => fold_right (fun kv acc => sizings (S k) tv (snd kv) + acc) O l
                              | _ => O
                              end
               | _ => O
               end
  | SlOneof i v => match d with
                   | SdOneof vs => match nth_error vs i with Some f => sizings k (f_typ f) v | None => O end
                   | _ => O
                   end
  | _ => O
  end)%nat.
Proof. destruct s; reflexivity. Qed.

Lemma slots_sizings_cons k d ds s ss : slots_sizings D c k (d :: ds) (s :: ss) = (slot_sizings k d s + slots_sizings D c k ds ss)%nat.
Proof. reflexivity. Qed.

Lemma no_messages t v : val_ok D c t v -> (forall m, t <> TMessage m) -> messages_in v = O.
Proof. destruct v; try reflexivity. intros H N. destruct t; try contradiction. now contradiction (N m). Qed.

(** a slot with one value *)
Lemma one_counts t v : counts t v ->
  (forall k, sizings (S k) t v = sizings k t v + messages_in v)%nat /\
  (snd (value_write_n (write_fn t) v) + messages_in v = sizings 2 t v)%nat /\
  (forall k n, value_depth v <= n -> sizings (S k) t v <= (k + 2 * n) * messages_in v)%nat.
Proof.
  intros (_ & B & W & L). split; [exact B|]. split; [rewrite W, (B 1%nat); lia|]. intros k n H. specialize (L (S k) n H). nia.
Qed.

(** all the slots of a message *)
Lemma slots_counts ds ss : Forall (fun s => forall d, desc_ok D c lit d -> slot_ok D c (sd_type c d) s -> slot_counts d s) ss ->
  Forall (desc_ok D c lit) ds -> slots_ok D c (map (sd_type c) ds) ss ->
  snd (slots_size_n D c lit (map (sd_size c) ds) ss) = total slot_messages ss /\
  (forall k, slots_sizings D c (S k) ds ss = slots_sizings D c k ds ss + total slot_messages ss)%nat /\
  (snd (slots_write_n D c lit (map (sd_write c) ds) ss) + total slot_messages ss = slots_sizings D c 2 ds ss)%nat /\
  (forall k n, slots_depth ss <= n -> slots_sizings D c (S k) ds ss <= (k + 2 * n) * total slot_messages ss)%nat.
Proof.
  intros F. revert ds. induction F as [|s ss H F IH]; intros [|d ds] Hd Ho; try contradiction Ho.
  - repeat match goal with |- _ /\ _ => split end; intros; try reflexivity. change (0 <= (k + 2 * n) * 0)%nat. lia.
  - inversion Hd as [|? ? Hd1 Hd2]; subst. cbn [map slots_ok] in Ho. destruct Ho as (Ho1 & Ho2).
    destruct (H d Hd1 Ho1) as (A & B & C & L). destruct (IH ds Hd2 Ho2) as (A' & B' & C' & L').
    unfold total in *. cbn [map slots_size_n slots_write_n both snd fold_right slots_depth].
    repeat match goal with |- _ /\ _ => split end.
    + rewrite A, A'. reflexivity.
    + intros k. rewrite !slots_sizings_cons, B, B'. lia.
    + rewrite slots_sizings_cons. lia.
    + intros k n Hn. rewrite slots_sizings_cons. specialize (L k n ltac:(lia)). specialize (L' k n ltac:(unfold slots_depth; lia)). nia.
Qed.

Lemma all_counts : (forall v t, typ_ok D t -> val_ok D c t v -> counts t v) /\
  (forall s d, desc_ok D c lit d -> slot_ok D c (sd_type c d) s -> slot_counts d s).
Proof.
  apply (value_slot_ind (fun v => forall t, typ_ok D t -> val_ok D c t v -> counts t v)
    (fun s => forall d, desc_ok D c lit d -> slot_ok D c (sd_type c d) s -> slot_counts d s)).
  - intros z t _ _. repeat split; cbn; lia.
  - intros b t _ _. repeat split; cbn; lia.
  - intros b t _ _. repeat split; cbn; lia.
  - intros ss F t Ht Ho. destruct t; try contradiction Ho. rewrite val_ok_msg in Ho. cbn [typ_ok] in Ht.
    destruct (get_message D m) as [msg|] eqn:G; [|congruence]. destruct (WF m msg G) as [W1 _ _].
    unfold message_ok in Ho. rewrite G, struct_def_descs in Ho.
    destruct (slots_counts (descs c msg) ss F W1 Ho) as (A & B & C & L).
    unfold counts. cbn [size_fn write_fn messages_in value_depth]. fold (slots_depth ss). fold (total slot_messages ss).
    rewrite value_size_n_msg, value_write_n_msg. cbn [then_ snd]. unfold writer_write_message_n. cbn [both snd].
    assert (U : snd (message_size_n D c lit m ss) = S (total slot_messages ss) /\
      (snd (message_write_n D c lit m ss) + total slot_messages ss = slots_sizings D c 2 (descs c msg) ss)%nat).
    { unfold message_size_n, message_write_n. cbn [get_size_call snd]. rewrite G, size_stmts_descs, write_stmts_descs. destruct (is_unit msg) eqn:E; [|rewrite A; split; [reflexivity|exact C]].
      rewrite (is_unit_descs c msg E) in *. destruct ss; [|contradiction Ho]. split; reflexivity. }
    destruct U as (U1 & U2). rewrite U1. repeat match goal with |- _ /\ _ => split end.
    + reflexivity.
    + intros k. rewrite !(sizings_msg _ m msg ss G), B. lia.
    + rewrite (sizings_msg _ m msg ss G). lia.
    + intros k n Hn. rewrite (sizings_msg _ m msg ss G). destruct n as [|n]; [lia|]. specialize (L k n ltac:(lia)). nia.
  - intros v IH d Hd Ho. destruct d as [f|vs]; [|rewrite slot_ok_eq in Ho; contradiction Ho].
    cbn [sd_type desc_ok] in *. rewrite slot_ok_eq in Ho. destruct (get_type c f) as [| |t| | | | |] eqn:G; try contradiction Ho.
    destruct (get_type_plain D c lit f t G Hd) as (-> & Ht & F & Hb). pose proof (IH _ Ht Ho) as CV. destruct (one_counts _ _ CV) as (B & W & L). destruct CV as (A & _).
    unfold slot_counts. cbn [sd_size sd_write slot_messages slot_depth]. setoid_rewrite slot_sizings_eq. unfold field_size, field_write, generated_type_of.
    assert (HF : freq_is_map (f_freq f) = false /\ freq_is_repeated (f_freq f) = false /\ freq_is_optional (f_freq f) = false) by (destruct F as [-> | ->]; auto).
    destruct HF as (F1 & F2 & F3). rewrite F1, F2, F3.
    destruct (has_presence f) eqn:HP; rewrite slot_size_n_eq, slot_write_n_eq.
    + cbn [then_ snd]. auto.
    + assert (N : messages_in v = O).
      { apply (no_messages (f_typ f) v Ho). intros m Em. unfold has_presence in HP. rewrite Em in HP. destruct F as [F|F]; rewrite F in HP; discriminate. }
      rewrite N in *. assert (S2 : sizings 2 (f_typ f) v = O) by (pose proof (L 1%nat (value_depth v) (le_n _)); lia).
      assert (W0 : snd (value_write_n (write_fn (f_typ f)) v) = O) by lia.
      repeat match goal with |- _ /\ _ => split end; [|exact B| |exact L].
      * destruct (dexpr_value D c lit (get_field_default c f)) as [w|]; [|reflexivity]. destruct (rust_eq (f_typ f) v w); [reflexivity|exact A].
      * rewrite S2. destruct (dexpr_value D c lit (get_field_default c f)) as [w|]; [|reflexivity]. destruct (rust_eq (f_typ f) v w); [reflexivity|]. cbn [then_ snd]. lia.
  - intros d Hd Ho. destruct d as [f|vs]; [|rewrite slot_ok_eq in Ho; contradiction Ho]. repeat split; cbn; lia.
  - intros v IH d Hd Ho. destruct d as [f|vs]; [|rewrite slot_ok_eq in Ho; contradiction Ho].
    cbn [sd_type desc_ok] in *. rewrite slot_ok_eq in Ho. destruct (get_type c f) as [t|t|t| | | | |] eqn:G; try contradiction Ho.
    all: destruct (get_type_opt D c lit f t ltac:(auto) Hd) as (-> & Ht & F1 & F2 & F3 & HP).
    all: pose proof (IH _ Ht Ho) as CV; destruct (one_counts _ _ CV) as (B & W & L); destruct CV as (A & _).
    all: unfold slot_counts; cbn [sd_size sd_write slot_messages slot_depth]; setoid_rewrite slot_sizings_eq; unfold field_size, field_write, generated_type_of; rewrite F1, F2, F3, HP.
    all: rewrite slot_size_n_eq, slot_write_n_eq; cbn [then_ snd]; auto.
  - intros l IH d Hd Ho. destruct d as [f|vs]; [|rewrite slot_ok_eq in Ho; contradiction Ho].
    cbn [sd_type desc_ok] in *. rewrite slot_ok_eq in Ho. destruct (get_type c f) as [t|t|t| |t| | |] eqn:G; try contradiction Ho.
    destruct (get_type_vec D c lit f t G Hd) as (-> & Ht & F1 & F2 & Hb & Hpf). apply fold_right_Forall in Ho.
    assert (CV : forall v, In v l -> counts (f_typ f) v).
    { intros v Hin. rewrite Forall_forall in IH, Ho. exact (IH v Hin _ Ht (Ho v Hin)). } clear IH.
    unfold slot_counts. cbn [sd_size sd_write slot_messages slot_depth]. setoid_rewrite slot_sizings_eq. unfold field_size, field_write, generated_type_of. rewrite F1, F2.
    fold (total messages_in l).
    assert (B : forall k, (total (sizings (S k) (f_typ f)) l = total (sizings k (f_typ f)) l + total messages_in l)%nat).
    { intros k. rewrite <- total_add. apply total_ext. intros v Hin. apply (CV v Hin). }
    assert (SZ : total (fun v => snd (value_size_n (size_fn (f_typ f)) v)) l = total messages_in l) by (apply total_ext; intros v Hin; apply (CV v Hin)).
    assert (WR : total (fun v => snd (value_write_n (write_fn (f_typ f)) v)) l = total (sizings 1 (f_typ f)) l) by (apply total_ext; intros v Hin; apply (CV v Hin)).
    assert (DL : forall n v, (fold_right (fun v n => Nat.max (value_depth v) n) O l <= n)%nat -> In v l -> (value_depth v <= n)%nat) by (intros n v H Hin; exact (depth_in l v n Hin H)).
    repeat match goal with |- _ /\ _ => split end.
    + destruct (is_fixed_size (f_typ f)) eqn:FS.
      * assert (N : total messages_in l = O).
        { rewrite (total_ext _ (fun _ => O)); [clear; induction l; auto|]. intros v Hin. rewrite Forall_forall in Ho. apply (no_messages (f_typ f) v (Ho v Hin)). intros m Em. rewrite Em in FS. discriminate. }
        rewrite N in *. destruct (f_typ f), (f_is_packed f); try discriminate; reflexivity.
      * assert (ST : match wire_type_num_non_packed (f_typ f) with
           | 1 => if f_is_packed f then ZsPackedFixed (gen_sizeof_varint (field_tag f)) (fixed_kind_of (f_typ f)) 8 else ZsRepeatedFixed (gen_sizeof_varint (field_tag f)) 8
           | 5 => if f_is_packed f then ZsPackedFixed (gen_sizeof_varint (field_tag f)) (fixed_kind_of (f_typ f)) 4 else ZsRepeatedFixed (gen_sizeof_varint (field_tag f)) 4
           | _ => if f_is_packed f then ZsPacked (gen_sizeof_varint (field_tag f)) (size_fn (f_typ f)) else ZsRepeated (gen_sizeof_varint (field_tag f)) (size_fn (f_typ f))
           end = if f_is_packed f then ZsPacked (gen_sizeof_varint (field_tag f)) (size_fn (f_typ f)) else ZsRepeated (gen_sizeof_varint (field_tag f)) (size_fn (f_typ f)))
          by (destruct (f_typ f), (f_is_packed f); try discriminate; reflexivity).
        transitivity (snd (slot_size_n (if f_is_packed f then ZsPacked (gen_sizeof_varint (field_tag f)) (size_fn (f_typ f)) else ZsRepeated (gen_sizeof_varint (field_tag f)) (size_fn (f_typ f))) (SlVec l))).
        { f_equal. f_equal. rewrite <- ST. destruct (f_is_packed f); reflexivity. }
        destruct (f_is_packed f); rewrite slot_size_n_eq.
        -- rewrite <- SZ. destruct l as [|v0 l0] eqn:El; [reflexivity|]. rewrite <- El. cbn [then_ snd]. now rewrite sum_counted_snd.
        -- rewrite sum_counted_snd. exact SZ.
    + intros k. destruct (f_is_packed f); apply B.
    + destruct (f_is_packed f) eqn:Pk.
      * cbn [andb] in Hpf. rewrite Hpf. rewrite slot_write_n_eq. transitivity (total (sizings 3 (f_typ f)) l); [|reflexivity].
        pose proof (B 2%nat). pose proof (B 1%nat). destruct l as [|v0 l0] eqn:El; [reflexivity|]. rewrite <- El in *. cbn [both snd].
        rewrite sum_counted_snd, flat_counted_snd. fold (total (fun v => snd (value_size_n (size_fn (f_typ f)) v)) l). fold (total (fun v => snd (value_write_n (write_fn (f_typ f)) v)) l). lia.
      * rewrite slot_write_n_eq. rewrite flat_counted_snd. cbn [then_ snd]. fold (total (fun v => snd (value_write_n (write_fn (f_typ f)) v)) l).
        transitivity (total (sizings 2 (f_typ f)) l); [|reflexivity]. pose proof (B 1%nat). lia.
    + intros k n Hn. transitivity (total (sizings (S (S k)) (f_typ f)) l).
      * destruct (f_is_packed f); [reflexivity|]. fold (total (sizings (S k) (f_typ f)) l). rewrite (B (S k)). lia.
      * apply total_le. intros v Hin. destruct (CV v Hin) as (_ & _ & _ & Lv). specialize (Lv (S (S k)) n (DL n v Hn Hin)). nia.
  - intros p d Hd Ho. destruct d as [f|vs]; [|rewrite slot_ok_eq in Ho; contradiction Ho]. repeat split; cbn; lia.
  - intros l IH d Hd Ho. destruct d as [f|vs]; [|rewrite slot_ok_eq in Ho; contradiction Ho].
    cbn [sd_type desc_ok] in *. rewrite slot_ok_eq in Ho. destruct (get_type c f) as [t|t|t|k|t|tk tv| |] eqn:G; try contradiction Ho.
    destruct (get_type_map D c lit f tk tv G Hd) as (T & Hk & Hv & F1 & Hb).
    destruct Ho as [Ho _]. apply (fold_right_Forall2 (fun k v => val_ok D c tk k /\ val_ok D c tv v)) in Ho.
    assert (CV : forall kv, In kv l -> counts tk (fst kv) /\ counts tv (snd kv) /\ messages_in (fst kv) = O).
    { intros kv Hin. rewrite Forall_forall in IH, Ho. destruct (IH kv Hin) as (I1 & I2). destruct (Ho kv Hin) as (O1 & O2).
      split; [exact (I1 tk (key_typ_ok D tk Hk) O1)|]. split; [exact (I2 tv Hv O2)|]. apply (no_messages tk _ O1). intros m ->. contradiction Hk. } clear IH.
    unfold slot_counts. cbn [sd_size sd_write slot_messages slot_depth]. setoid_rewrite slot_sizings_eq. unfold field_size, field_write, generated_type_of. rewrite F1, T.
    rewrite slot_size_n_eq, slot_write_n_eq. unfold map_entry_of. cbn [me_size_k me_size_v me_write_k me_write_v me_tag_k me_tag_v].
    rewrite sum_counted_snd, flat_counted_snd.
    set (M := fold_right (fun kv acc => (let '(k, v) := kv in messages_in k + messages_in v) + acc)%nat O l).
    assert (EM : M = total (fun kv => messages_in (snd kv)) l).
    { unfold M. fold (total (fun kv => let '(k, v) := kv in (messages_in k + messages_in v)%nat) l). apply total_ext. intros (k, v) Hin. destruct (CV _ Hin) as (_ & _ & N). cbn [fst snd] in *. lia. }
    assert (B : forall k, (total (fun kv => sizings (S k) tv (snd kv)) l = total (fun kv => sizings k tv (snd kv)) l + M)%nat).
    { intros k. rewrite EM, <- total_add. apply total_ext. intros kv Hin. destruct (CV kv Hin) as (_ & (_ & Bv & _) & _). apply Bv. }
    repeat match goal with |- _ /\ _ => split end.
    + rewrite EM. apply total_ext. intros (k, v) Hin. destruct (CV _ Hin) as ((Ak & _) & (Av & _) & N). cbn [fst snd both] in *. lia.
    + intros k. apply B.
    + transitivity (total (fun kv => sizings 3 tv (snd kv)) l); [|reflexivity]. pose proof (B 2%nat) as B2. pose proof (B 1%nat) as B1.
      assert (E : total (fun kv : value * value => snd ((fun '(k, v) => then_ (write_with_tag (field_tag f))
          (both (fun len g => g len) (both (fun sk sv => 2 + sk + sv) (value_size_n (size_fn tk) k) (value_size_n (size_fn tv) v))
             (both (fun wk wv len => write_map len (gen_tag 1 tk false) wk (gen_tag 2 tv false) wv) (value_write_n (write_fn tk) k) (value_write_n (write_fn tv) v)))) kv)) l
        = (M + total (fun kv => sizings 1 tv (snd kv)) l)%nat).
      { rewrite EM, <- total_add. apply total_ext. intros (k, v) Hin. destruct (CV _ Hin) as ((Ak & Bk & Wk & Lk) & (Av & Bv & Wv & _) & N). cbn [fst snd both then_] in *.
        specialize (Lk 1%nat (value_depth k) (le_n _)). rewrite N in *. lia. }
      unfold total in *. lia.
    + intros k n Hn. fold (total (fun kv => sizings (S (S k)) tv (snd kv)) l). rewrite EM. apply total_le. intros (a, b) Hin. destruct (CV _ Hin) as (_ & (_ & _ & _ & Lv) & _). cbn [snd] in *.
      destruct (depth_in_map l a b n Hin Hn) as (_ & Db). specialize (Lv (S (S k)) n Db). nia.
  - intros d Hd Ho. repeat split; destruct d; cbn; try lia.
  - intros i v IH d Hd Ho. destruct d as [f|vs].
    + cbn [sd_type] in Ho. rewrite slot_ok_eq in Ho. destruct (get_type c f) eqn:G; try contradiction Ho. contradiction (get_type_oneof c f variants G).
    + cbn [sd_type desc_ok] in *. rewrite slot_ok_eq in Ho. destruct (nth_error vs i) as [f|] eqn:N; [|contradiction Ho].
      rewrite Forall_forall in Hd. pose proof (IH _ (Hd f (nth_error_In _ _ N)) Ho) as CV. destruct (one_counts _ _ CV) as (B & W & L). destruct CV as (A & _).
      unfold slot_counts. cbn [sd_size sd_write slot_messages slot_depth]. setoid_rewrite slot_sizings_eq. rewrite slot_size_n_eq, slot_write_n_eq, !nth_error_map, N. cbn [option_map then_ snd]. auto.
Qed.

End Same.

(** ** Values of a schema in which references go down are not deep *)
Section Ranked.
Variable D : file_descriptor.
Variable c : config.
Variable lit : field_type -> text -> option value.
Variable rank : midx -> nat.
Hypothesis WF : schema_wf D c lit.
Hypothesis Down : forall i j, refers D c i j -> (rank j < rank i)%nat.
Definition type_rank (t : field_type) : nat := match t with TMessage j => S (rank j) | _ => O end.

Lemma desc_refers i msg d f j : get_message D i = Some msg -> In d (descs c msg) -> In f (desc_fields d) -> In (TMessage j) (leaves (f_typ f)) -> refers D c i j.
Proof.
  intros G Hd Hf L. exists msg, f. split; [exact G|]. unfold descs in Hd. apply in_app_iff in Hd. destruct Hd as [Hd|Hd]; apply in_map_iff in Hd.
  - destruct Hd as (g & <- & Hg). destruct Hf as [<-|[]]. apply filter_In in Hg. destruct Hg as (Hg & V). split; [now left|]. split; [now apply visible_says|exact L].
  - destruct Hd as (o & <- & Ho). apply filter_In in Hf. destruct Hf as (Hf & V). split; [right; now exists o|]. split; [now apply visible_says|exact L].
Qed.

Lemma ranked_depth : (forall v t, typ_ok D t -> val_ok D c t v -> (value_depth v <= type_rank t)%nat) /\
  (forall s d n, desc_ok D c lit d -> slot_ok D c (sd_type c d) s ->
     (forall f j, In f (desc_fields d) -> In (TMessage j) (leaves (f_typ f)) -> (rank j < n)%nat) -> (slot_depth s <= n)%nat).
Proof.
  assert (X : forall t n, (forall j, In (TMessage j) (leaves t) -> (rank j < n)%nat) -> typ_ok D t -> (type_rank t <= n)%nat).
  { intros t n H Ht. destruct t; cbn [type_rank]; try lia. apply H. cbn. now left. }
  apply (value_slot_ind (fun v => forall t, typ_ok D t -> val_ok D c t v -> (value_depth v <= type_rank t)%nat)
    (fun s => forall d n, desc_ok D c lit d -> slot_ok D c (sd_type c d) s ->
     (forall f j, In f (desc_fields d) -> In (TMessage j) (leaves (f_typ f)) -> (rank j < n)%nat) -> (slot_depth s <= n)%nat)).
  1-3: intros; cbn [value_depth]; lia.
  - intros ss F t Ht Ho. destruct t; try contradiction Ho. rewrite val_ok_msg in Ho. cbn [typ_ok] in Ht.
    destruct (get_message D m) as [msg|] eqn:G; [|congruence]. destruct (WF m msg G) as [W1 _ _].
    unfold message_ok in Ho. rewrite G, struct_def_descs in Ho. cbn [value_depth type_rank]. apply le_n_S.
    assert (R : forall d, In d (descs c msg) -> forall f j, In f (desc_fields d) -> In (TMessage j) (leaves (f_typ f)) -> (rank j < rank m)%nat).
    { intros d Hd f j Hf L. apply Down. exact (desc_refers m msg d f j G Hd Hf L). }
    clear G Ht. revert W1 Ho R. generalize (descs c msg). induction F as [|s ss H F IH]; intros ds W Ho R; [cbn; lia|].
    destruct ds as [|d ds]; [contradiction Ho|]. cbn [map slots_ok] in Ho. destruct Ho as (Ho1 & Ho2). inversion W as [|? ? Wd Wds]; subst. cbn [fold_right].
    specialize (H d (rank m) Wd Ho1 (R d (or_introl eq_refl))). specialize (IH ds Wds Ho2 ltac:(intros; eapply R; [right; eassumption|eassumption|eassumption])). lia.
  - intros v IH d n Hd Ho R. destruct d as [f|vs]; [|rewrite slot_ok_eq in Ho; contradiction Ho].
    cbn [sd_type desc_ok desc_fields] in *. rewrite slot_ok_eq in Ho. destruct (get_type c f) as [| |t| | | | |] eqn:G; try contradiction Ho.
    destruct (get_type_plain D c lit f t G Hd) as (-> & Ht & _). specialize (IH _ Ht Ho). specialize (X _ n (fun j => R f j (or_introl eq_refl)) Ht). cbn [slot_depth]. lia.
  - intros; cbn; lia.
  - intros v IH d n Hd Ho R. destruct d as [f|vs]; [|rewrite slot_ok_eq in Ho; contradiction Ho].
    cbn [sd_type desc_ok desc_fields] in *. rewrite slot_ok_eq in Ho. destruct (get_type c f) as [t|t|t| | | | |] eqn:G; try contradiction Ho.
    all: destruct (get_type_opt D c lit f t ltac:(auto) Hd) as (-> & Ht & _).
    all: specialize (IH _ Ht Ho); specialize (X _ n (fun j => R f j (or_introl eq_refl)) Ht); cbn [slot_depth]; lia.
  - intros l IH d n Hd Ho R. destruct d as [f|vs]; [|rewrite slot_ok_eq in Ho; contradiction Ho].
    cbn [sd_type desc_ok desc_fields] in *. rewrite slot_ok_eq in Ho. destruct (get_type c f) as [t|t|t| |t| | |] eqn:G; try contradiction Ho.
    destruct (get_type_vec D c lit f t G Hd) as (-> & Ht & _). apply fold_right_Forall in Ho. apply vec_depth.
    rewrite Forall_forall in *. intros v Hv. specialize (IH v Hv _ Ht (Ho v Hv)). specialize (X _ n (fun j => R f j (or_introl eq_refl)) Ht). lia.
  - intros; cbn; lia.
  - intros l IH d n Hd Ho R. destruct d as [f|vs]; [|rewrite slot_ok_eq in Ho; contradiction Ho].
    cbn [sd_type desc_ok desc_fields] in *. rewrite slot_ok_eq in Ho. destruct (get_type c f) as [t|t|t|k|t|tk tv| |] eqn:G; try contradiction Ho.
    destruct (get_type_map D c lit f tk tv G Hd) as (T & Hk & Hv & _).
    destruct Ho as [Ho _]. apply (fold_right_Forall2 (fun k v => val_ok D c tk k /\ val_ok D c tv v)) in Ho. apply map_depth.
    rewrite Forall_forall in *. intros (a, b) Hin. destruct (IH _ Hin) as (I1 & I2). destruct (Ho _ Hin) as (O1 & O2). cbn [fst snd] in *.
    specialize (I1 tk (key_typ_ok D tk Hk) O1). specialize (I2 tv Hv O2).
    assert (R' : forall t, In t [tk; tv] -> forall j, In (TMessage j) (leaves t) -> (rank j < n)%nat).
    { intros t It j L. apply (R f j (or_introl eq_refl)). rewrite T. cbn [leaves]. apply in_or_app. destruct It as [<-|[<-|[]]]; auto. }
    pose proof (X tk n (R' tk ltac:(now left)) (key_typ_ok D tk Hk)). pose proof (X tv n (R' tv ltac:(right; now left)) Hv). lia.
  - intros; cbn; lia.
  - intros i v IH d n Hd Ho R. destruct d as [f|vs].
    + cbn [sd_type] in Ho. rewrite slot_ok_eq in Ho. destruct (get_type c f) eqn:G; try contradiction Ho. contradiction (get_type_oneof c f variants G).
    + cbn [sd_type desc_ok desc_fields] in *. rewrite slot_ok_eq in Ho. destruct (nth_error vs i) as [f|] eqn:N; [|contradiction Ho].
      rewrite Forall_forall in Hd. pose proof (nth_error_In _ _ N) as If. specialize (IH _ (Hd f If) Ho). specialize (X _ n (fun j => R f j If) (Hd f If)). cbn [slot_depth]. lia.
Qed.
End Ranked.
