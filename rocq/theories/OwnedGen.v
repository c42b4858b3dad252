(** The decoder and the encoder of a generated message as parameters of [Owned.v]:
    a message is split into its shape and its strings. *)
From Coq Require Import ZifyBool ZifyNat.
From Verif Require Import Base Reader PackedFixed Writer Schema Gen GenSem Owned Props_Memory.
Local Open Scope nat_scope.
Local Open Scope list_scope.

(** Putting strings into a message, in the order of [pieces]; returns the rest. *)
Fixpoint vfill (v : value) (l : list bytes) {struct v} : value * list bytes :=
  match v with
  | VZ _ | VBool _ => (v, l)
  | VB _ => match l with b :: l' => (VB b, l') | [] => (VB [], []) end
  | VMsg ss =>
    let '(ss', l') := (fix go (ss : list slot) (l : list bytes) {struct ss} : list slot * list bytes :=
      match ss with [] => ([], l) | s :: r => let '(s', l1) := sfill s l in let '(r', l2) := go r l1 in (s' :: r', l2) end) ss l in
    (VMsg ss', l')
  end
with sfill (s : slot) (l : list bytes) {struct s} : slot * list bytes :=
  match s with
  | SlOne v => let '(v', l') := vfill v l in (SlOne v', l')
  | SlSome v => let '(v', l') := vfill v l in (SlSome v', l')
  | SlOneof i v => let '(v', l') := vfill v l in (SlOneof i v', l')
  | SlNone | SlOneofNone => (s, l)
  | SlVec vs =>
    let '(vs', l') := (fix go (vs : list value) (l : list bytes) {struct vs} : list value * list bytes :=
      match vs with [] => ([], l) | v :: r => let '(v', l1) := vfill v l in let '(r', l2) := go r l1 in (v' :: r', l2) end) vs l in
    (SlVec vs', l')
  | SlPF p => match p with
              | Borrowed _ => match l with b :: l' => (SlPF (Borrowed b), l') | [] => (SlPF (Borrowed []), []) end
              | _ => (s, l)
              end
  | SlMap kvs =>
    let '(kvs', l') := (fix go (kvs : list (value * value)) (l : list bytes) {struct kvs} : list (value * value) * list bytes :=
      match kvs with
      | [] => ([], l)
      | (k, v) :: r => let '(k', l0) := vfill k l in let '(v', l1) := vfill v l0 in let '(r', l2) := go r l1 in ((k', v') :: r', l2)
      end) kvs l in
    (SlMap kvs', l')
  end.
Definition fills (ss : list slot) (l : list bytes) : list slot * list bytes :=
  (fix go (ss : list slot) (l : list bytes) {struct ss} : list slot * list bytes :=
      match ss with [] => ([], l) | s :: r => let '(s', l1) := sfill s l in let '(r', l2) := go r l1 in (s' :: r', l2) end) ss l.
(** the shape: all strings are empty *)
Definition erase (ss : list slot) : list slot := fst (fills ss []).
Definition fill (s : list slot) (strings : list bytes) : list slot := fst (fills s strings).

Lemma let_pair {A B C} (x : A * B) (f : A -> B -> C) : (let '(a, b) := x in f a b) = f (fst x) (snd x).
Proof. now destruct x. Qed.

Fixpoint vfill_erase (v : value) : forall l0 l, vfill (fst (vfill v l0)) (vpieces v ++ l) = (v, l)
with sfill_erase (s : slot) : forall l0 l, sfill (fst (sfill s l0)) (spieces s ++ l) = (s, l).
Proof.
  - destruct v as [z|b|b|ss]; intros l0 l; try reflexivity.
    + destruct l0; reflexivity.
    + cbn [vfill]. rewrite let_pair. cbn [fst vfill vpieces].
      enough (X : forall l0 l, (fix go (ss : list slot) (l : list bytes) {struct ss} : list slot * list bytes :=
        match ss with [] => ([], l) | s :: r => let '(s', l1) := sfill s l in let '(r', l2) := go r l1 in (s' :: r', l2) end)
        (fst ((fix go (ss : list slot) (l : list bytes) {struct ss} : list slot * list bytes :=
        match ss with [] => ([], l) | s :: r => let '(s', l1) := sfill s l in let '(r', l2) := go r l1 in (s' :: r', l2) end) ss l0))
        ((fix go (l : list slot) := match l with [] => [] | s :: l' => spieces s ++ go l' end) ss ++ l) = (ss, l)).
      { rewrite X. reflexivity. }
      induction ss as [|s ss IH]; intros m0 m; [reflexivity|]. rewrite !let_pair. cbn [fst]. rewrite <- app_assoc, sfill_erase. cbn [fst snd]. rewrite let_pair, IH. reflexivity.
  - destruct s as [v| |v|vs|p|kvs| |i v]; intros l0 l; try reflexivity.
    + cbn [sfill]. rewrite let_pair. cbn [fst sfill spieces]. now rewrite vfill_erase.
    + cbn [sfill]. rewrite let_pair. cbn [fst sfill spieces]. now rewrite vfill_erase.
    + cbn [sfill]. rewrite let_pair. cbn [fst sfill spieces].
      enough (X : forall l0 l, (fix go (vs : list value) (l : list bytes) {struct vs} : list value * list bytes :=
        match vs with [] => ([], l) | s :: r => let '(s', l1) := vfill s l in let '(r', l2) := go r l1 in (s' :: r', l2) end)
        (fst ((fix go (vs : list value) (l : list bytes) {struct vs} : list value * list bytes :=
        match vs with [] => ([], l) | s :: r => let '(s', l1) := vfill s l in let '(r', l2) := go r l1 in (s' :: r', l2) end) vs l0))
        ((fix go (l : list value) := match l with [] => [] | s :: l' => vpieces s ++ go l' end) vs ++ l) = (vs, l)).
      { rewrite X. reflexivity. }
      induction vs as [|v vs IH]; intros m0 m; [reflexivity|]. rewrite !let_pair. cbn [fst]. rewrite <- app_assoc, vfill_erase. cbn [fst snd]. rewrite let_pair, IH. reflexivity.
    + destruct p; try reflexivity. destruct l0; reflexivity.
    + cbn [sfill]. rewrite let_pair. cbn [fst sfill spieces].
      enough (X : forall l0 l, (fix go (kvs : list (value * value)) (l : list bytes) {struct kvs} : list (value * value) * list bytes :=
        match kvs with [] => ([], l) | (k, v) :: r => let '(k', l0) := vfill k l in let '(v', l1) := vfill v l0 in let '(r', l2) := go r l1 in ((k', v') :: r', l2) end)
        (fst ((fix go (kvs : list (value * value)) (l : list bytes) {struct kvs} : list (value * value) * list bytes :=
        match kvs with [] => ([], l) | (k, v) :: r => let '(k', l0) := vfill k l in let '(v', l1) := vfill v l0 in let '(r', l2) := go r l1 in ((k', v') :: r', l2) end) kvs l0))
        ((fix go (l : list (value * value)) := match l with [] => [] | (k, v) :: l' => vpieces k ++ vpieces v ++ go l' end) kvs ++ l) = (kvs, l)).
      { rewrite X. reflexivity. }
      induction kvs as [|[k v] kvs IH]; intros m0 m; [reflexivity|]. rewrite !let_pair. cbn [fst snd]. rewrite <- !app_assoc, vfill_erase. cbn [fst snd].
      rewrite let_pair, vfill_erase. cbn [fst snd]. rewrite let_pair, IH. reflexivity.
    + cbn [sfill]. rewrite let_pair. cbn [fst sfill spieces]. now rewrite vfill_erase.
Qed.
Lemma fill_erase ss : fill (erase ss) (pieces ss) = ss.
Proof.
  unfold fill, erase, pieces. enough (X : forall l0 l, fills (fst (fills ss l0)) (flat_map spieces ss ++ l) = (ss, l)).
  { rewrite <- (app_nil_r (flat_map spieces ss)), X. reflexivity. }
  induction ss as [|s ss IH]; intros l0 l; [reflexivity|]. unfold fills in *. rewrite !let_pair. cbn [fst flat_map]. rewrite <- app_assoc, sfill_erase. cbn [fst snd]. rewrite let_pair, IH. reflexivity.
Qed.

(** Where a piece is: the first place with these bytes, or a literal.  (The reader
    returns the place it read from, which has the same bytes; only the allocation,
    the range and the bytes count here.) *)
Fixpoint starts (b bs : bytes) : bool :=
  match b, bs with
  | [], _ => true
  | x :: b', y :: bs' => Byte.eqb x y && starts b' bs'
  | _ :: _, [] => false
  end.
Fixpoint find_at (off : nat) (bs b : bytes) : option nat :=
  if starts b bs then Some off else match bs with [] => None | _ :: bs' => find_at (S off) bs' b end.
Definition locate (bs b : bytes) : piece := match find_at 0 bs b with Some off => Sub off (length b) | None => Lit b end.

Lemma starts_ok b : forall bs, starts b bs = true <-> exists r, bs = b ++ r.
Proof.
  induction b as [|x b IH]; intros bs; cbn [starts]; [split; [now exists bs|reflexivity]|]. destruct bs as [|y bs].
  - split; [discriminate|intros (r & E); discriminate].
  - rewrite Bool.andb_true_iff, IH. split.
    + intros (E & r & ->). apply Byte.byte_dec_bl in E. subst y. now exists r.
    + intros (r & E). injection E as -> ->. split; [now apply Byte.byte_dec_lb|now exists r].
Qed.
Lemma find_ok b : forall bs off k, find_at off bs b = Some k -> exists pre post, bs = pre ++ b ++ post /\ k = off + length pre.
Proof.
  induction bs as [|x bs IH]; intros off k; cbn [find_at].
  - destruct (starts b []) eqn:E; [|discriminate]. apply starts_ok in E. destruct E as (r & E). intros [= <-]. exists [], r. cbn. auto.
  - destruct (starts b (x :: bs)) eqn:E.
    + apply starts_ok in E. destruct E as (r & E). intros [= <-]. exists [], r. cbn. auto.
    + intros F. destruct (IH _ _ F) as (pre & post & -> & ->). exists (x :: pre), post. cbn. split; [reflexivity|lia].
Qed.
Lemma find_none b : forall bs off, find_at off bs b = None -> ~ piece_of bs b.
Proof.
  induction bs as [|x bs IH]; intros off; cbn [find_at].
  - destruct (starts b []) eqn:E; [discriminate|]. intros _ (pre & post & F). destruct pre; [|discriminate]. assert (starts b [] = true) by (apply starts_ok; now exists post). congruence.
  - destruct (starts b (x :: bs)) eqn:E; [discriminate|]. intros F (pre & post & G). destruct pre as [|y pre].
    + assert (starts b (x :: bs) = true) by (apply starts_ok; now exists post). congruence.
    + injection G as -> ->. apply (IH _ F). now exists pre, post.
Qed.
Lemma locate_ok bs b : piece_bytes bs (locate bs b) = b /\ piece_in bs (locate bs b).
Proof.
  unfold locate. destruct (find_at 0 bs b) as [off|] eqn:E; [|now split]. apply find_ok in E. destruct E as (pre & post & -> & ->). cbn.
  rewrite skipn_app, Nat.sub_diag, skipn_all. cbn. rewrite firstn_app, Nat.sub_diag, firstn_all. cbn. rewrite app_nil_r. split; [reflexivity|]. rewrite !app_length. lia.
Qed.
Lemma locate_lit bs b l : locate bs b = Lit l -> l = b /\ ~ piece_of bs b.
Proof. unfold locate. destruct (find_at 0 bs b) eqn:E; [discriminate|]. intros [= <-]. split; [reflexivity|exact (find_none _ _ _ E)]. Qed.

(** [Name::from_reader] on a buffer; panics count as errors (both drop everything) *)
Definition gen_dec D c lit t m (bs : bytes) : option (list slot * list piece) :=
  match decode D c lit t (S (length bs)) m bs with
  | Ok ss => Some (erase ss, map (locate bs) (pieces ss))
  | _ => None
  end.
(** [write_message] of the message to a new vector *)
Definition gen_enc D c lit m (s : list slot) (strings : list bytes) : option bytes :=
  match run vec_step (message_write D c lit m (fill s strings)) [] with
  | (Ok _, b) => Some b
  | _ => None
  end.
(** [Name::default()] *)
Definition gen_dflt D c lit m : list slot * list bytes :=
  match message_default D c lit m with Some ss => (erase ss, pieces ss) | None => ([], []) end.

Lemma gen_dec_in D c lit t m bs s ps : gen_dec D c lit t m bs = Some (s, ps) -> Forall (piece_in bs) ps.
Proof.
  unfold gen_dec. destruct (decode _ _ _ _ _ _ _) as [ss| | | |]; try discriminate. intros [= <- <-]. apply Forall_map, Forall_forall. intros b _. apply locate_ok.
Qed.
Lemma gen_dec_ok D c lit t m bs ss : decode D c lit t (S (length bs)) m bs = Ok ss ->
  exists s ps, gen_dec D c lit t m bs = Some (s, ps) /\ map (piece_bytes bs) ps = pieces ss /\ fill s (pieces ss) = ss.
Proof.
  intros E. unfold gen_dec. rewrite E. do 2 eexists. split; [reflexivity|]. split; [|apply fill_erase].
  rewrite map_map. erewrite map_ext; [apply map_id|]. intros b. apply locate_ok.
Qed.
