(** Writing the output file: [std::io::BufWriter] around [std::fs::File], as
    write_proto uses it (pb-rs/src/types.rs:2653-2655):

      let mut w = BufWriter::new(File::create(&out_file)?);
      desc.write(&mut w, name, config)?;
      update_mod_file(&out_file)

    [w] is dropped at the end; nothing flushes it before.  The code of the
    standard library is modelled from its documentation and source
    (std/src/io/buffered/bufwriter.rs); it is not in /repo.  A call that is
    interrupted is tried again there and is left out here. *)
From Coq Require Import String Ascii Arith Lia Bool.
From Verif Require Import Base Schema.
Local Open Scope list_scope.
Local Open Scope nat_scope.

(** The system: how many bytes the n-th call of [write] takes; [None] is an
    error.  It takes no more than it is given. *)
Definition system := nat -> option nat.
(** the file, and the number of calls so far *)
Record sink := mkSink { sk_file : list ascii; sk_calls : nat }.

(** std BufWriter: DEFAULT_BUF_SIZE *)
Definition capacity : nat := 8 * 1024.
Lemma capacity_pos : 0 < capacity. Proof. apply Nat.lt_0_succ. Qed.
#[local] Opaque capacity.
(** the bytes that wait, and the file *)
Record bufwriter := mkBuf { bw_buf : list ascii; bw_sink : sink }.

Section System.
Variable os : system.

(** [Write::write_all] on a File, and the loop of [BufWriter::flush_buf]: calls
    [write] until everything is taken; no bytes taken is an error (WriteZero).
    The result has the bytes that were not taken.  [fuel] is the number of
    bytes: every call takes at least one. *)
Fixpoint drain (fuel : nat) (buf : list ascii) (s : sink) : bool * (list ascii * sink) :=
  match buf, fuel with
  | [], _ => (true, ([], s))
  | _, O => (false, (buf, s))
  | _, S n =>
    match os (sk_calls s) with
    | Some (S k) => drain n (skipn (S k) buf) (mkSink (sk_file s ++ firstn (S k) buf) (S (sk_calls s)))
    | _ => (false, (buf, mkSink (sk_file s) (S (sk_calls s))))
    end
  end.
(** [BufWriter::flush_buf]: what was taken leaves the buffer, also after an error *)
Definition flush_buf (b : bufwriter) : bool * bufwriter :=
  let '(ok, (rest, s)) := drain (length (bw_buf b)) (bw_buf b) (bw_sink b) in (ok, mkBuf rest s).
(** [BufWriter::write_all] and [write_all_cold] *)
Definition buf_write_all (b : bufwriter) (p : list ascii) : bool * bufwriter :=
  let spare := capacity - length (bw_buf b) in
  if length p <? spare then (true, mkBuf (bw_buf b ++ p) (bw_sink b))
  else
    let (ok, b1) := if spare <? length p then flush_buf b else (true, b) in
    if ok then
      if capacity <=? length p
      then let '(ok, (_, s)) := drain (length p) p (bw_sink b1) in (ok, mkBuf (bw_buf b1) s)
      else (true, mkBuf (bw_buf b1 ++ p) (bw_sink b1))
    else (false, b1).
(** [desc.write]: every [write!] is a few calls of [write_all], one for each
    piece of its format string and each argument; [?] stops at the first error *)
Fixpoint write_pieces (b : bufwriter) (ps : list (list ascii)) : bool * bufwriter :=
  match ps with
  | [] => (true, b)
  | p :: ps' => let (ok, b') := buf_write_all b p in if ok then write_pieces b' ps' else (false, b')
  end.
(** [Drop for BufWriter]: flushes and forgets the error *)
Definition drop_buf (b : bufwriter) : sink := bw_sink (snd (flush_buf b)).
(** [File::create], [desc.write], and the end of the scope: no error reported,
    and what the file holds then *)
Definition write_output (ps : list (list ascii)) : bool * list ascii :=
  let (ok, b) := write_pieces (mkBuf [] (mkSink [] 0)) ps in (ok, sk_file (drop_buf b)).

(** ** Facts *)
Lemma drain_spec : forall fuel buf s ok rest s', length buf <= fuel -> drain fuel buf s = (ok, (rest, s')) ->
  (ok = true <-> rest = []) /\ exists t, buf = t ++ rest /\ sk_file s' = sk_file s ++ t.
Proof.
  induction fuel as [|n IH]; intros buf s ok rest s' L H.
  - destruct buf; [|cbn in L; lia]. injection H as <- <- <-. split; [easy|]. exists []. cbn. now rewrite ?app_nil_r.
  - destruct buf as [|x buf]; [injection H as <- <- <-; split; [easy|]; exists []; cbn; now rewrite ?app_nil_r|].
    cbn [drain] in H. destruct (os (sk_calls s)) as [[|k]|].
    + injection H as <- <- <-. split; [split; discriminate|]. exists []. cbn. now rewrite ?app_nil_r.
    + apply IH in H; [|cbn [skipn]; rewrite skipn_length; cbn in L; lia].
      destruct H as [A (t & B & C)]. split; [exact A|]. exists (firstn (S k) (x :: buf) ++ t). split.
      * rewrite <- app_assoc, <- B. symmetry. apply firstn_skipn.
      * rewrite C. cbn [sk_file]. now rewrite app_assoc.
    + injection H as <- <- <-. split; [split; discriminate|]. exists []. cbn. now rewrite ?app_nil_r.
Qed.
Lemma flush_spec b ok b' : flush_buf b = (ok, b') ->
  (ok = true <-> bw_buf b' = []) /\ exists t, bw_buf b = t ++ bw_buf b' /\ sk_file (bw_sink b') = sk_file (bw_sink b) ++ t.
Proof.
  unfold flush_buf. destruct (drain _ _ _) as [k [r s]] eqn:E. intros H. injection H as <- <-.
  exact (drain_spec _ _ _ _ _ _ (le_n _) E).
Qed.
(** what has been written, in the file or waiting *)
Definition sent (b : bufwriter) : list ascii := sk_file (bw_sink b) ++ bw_buf b.
Lemma flush_sent b ok b' : flush_buf b = (ok, b') -> sent b' = sent b /\ length (bw_buf b') <= length (bw_buf b).
Proof.
  intros H. destruct (flush_spec _ _ _ H) as (_ & t & A & B). unfold sent. rewrite B, A, app_assoc, app_length. split; [reflexivity|lia].
Qed.
Lemma write_all_spec b p ok b' : length (bw_buf b) <= capacity -> buf_write_all b p = (ok, b') ->
  length (bw_buf b') <= capacity /\
  if ok then sent b' = sent b ++ p else exists t x r, p = t ++ x :: r /\ sent b' = sent b ++ t.
Proof.
  intros L. unfold buf_write_all. destruct (Nat.ltb_spec (length p) (capacity - length (bw_buf b))) as [S|S].
  - intros H. injection H as <- <-. cbn [bw_buf]. rewrite app_length. split; [lia|]. unfold sent. cbn. now rewrite app_assoc.
  - destruct (Nat.ltb_spec (capacity - length (bw_buf b)) (length p)) as [F|F].
    + destruct (flush_buf b) as [k b1] eqn:E. destruct (flush_sent _ _ _ E) as [Q L1]. destruct (flush_spec _ _ _ E) as [B _].
      destruct k.
      * assert (N : bw_buf b1 = []) by now apply B. destruct (Nat.leb_spec capacity (length p)) as [C|C].
        -- destruct (drain (length p) p (bw_sink b1)) as [k [r s]] eqn:E2. intros H. injection H as <- <-. cbn [bw_buf]. split; [lia|].
           apply drain_spec in E2; [|lia]. destruct E2 as (R & t & P & W). rewrite <- Q. unfold sent. cbn. rewrite N, W, !app_nil_r. destruct k.
           ++ assert (r = []) as -> by now apply R. now rewrite app_nil_r in P; subst t.
           ++ destruct r as [|x r]; [destruct R as [_ R]; now specialize (R eq_refl)|]. now exists t, x, r.
        -- intros H. injection H as <- <-. cbn [bw_buf]. rewrite N. split; [cbn; lia|]. rewrite <- Q. unfold sent. cbn. now rewrite N, app_nil_r.
      * intros H. injection H as <- <-. split; [lia|]. destruct p as [|x r]; [cbn in F; lia|]. exists [], x, r. now rewrite app_nil_r.
    + assert (C : length p = capacity - length (bw_buf b)) by lia. destruct (Nat.leb_spec capacity (length p)) as [D|D].
      * assert (N : bw_buf b = []) by (destruct (bw_buf b); [reflexivity|pose proof capacity_pos; cbn in *; lia]).
        destruct (drain (length p) p (bw_sink b)) as [k [r s]] eqn:E2. intros H. injection H as <- <-. cbn [bw_buf]. split; [lia|].
        apply drain_spec in E2; [|lia]. destruct E2 as (R & t & P & W). unfold sent. cbn. rewrite N, W, !app_nil_r. destruct k.
        -- assert (r = []) as -> by now apply R. now rewrite app_nil_r in P; subst t.
        -- destruct r as [|x r]; [destruct R as [_ R]; now specialize (R eq_refl)|]. now exists t, x, r.
      * intros H. injection H as <- <-. cbn [bw_buf]. rewrite app_length. split; [lia|]. unfold sent. cbn. now rewrite app_assoc.
Qed.
Lemma pieces_spec : forall ps b ok b', length (bw_buf b) <= capacity -> write_pieces b ps = (ok, b') ->
  length (bw_buf b') <= capacity /\
  if ok then sent b' = sent b ++ concat ps else exists t x r, concat ps = t ++ x :: r /\ sent b' = sent b ++ t.
Proof.
  induction ps as [|p ps IH]; intros b ok b' L H; cbn [write_pieces concat] in *.
  - injection H as <- <-. now rewrite app_nil_r.
  - destruct (buf_write_all b p) as [k b1] eqn:E. destruct (write_all_spec _ _ _ _ L E) as [L1 S]. destruct k.
    + destruct (IH _ _ _ L1 H) as [L2 S2]. split; [exact L2|]. destruct ok.
      * now rewrite S2, S, app_assoc.
      * destruct S2 as (t & x & r & A & B). exists (p ++ t), x, r. rewrite A, B, S, !app_assoc. now split.
    + injection H as <- <-. split; [exact L1|]. destruct S as (t & x & r & -> & S). exists t, x, (r ++ concat ps). rewrite <- app_assoc. now split.
Qed.
(** short texts never leave the buffer before the end *)
Lemma short_pieces : forall ps b, length (bw_buf b) + length (concat ps) <= capacity ->
  (forall p, In p ps -> length p < capacity) -> write_pieces b ps = (true, mkBuf (bw_buf b ++ concat ps) (bw_sink b)).
Proof.
  induction ps as [|p ps IH]; intros b L C; cbn [write_pieces concat] in *.
  - rewrite app_nil_r. now destruct b.
  - rewrite app_length in L. assert (P : length p < capacity) by (apply C; now left).
    assert (E : buf_write_all b p = (true, mkBuf (bw_buf b ++ p) (bw_sink b))).
    { unfold buf_write_all. destruct (Nat.ltb_spec (length p) (capacity - length (bw_buf b))); [reflexivity|].
      destruct (Nat.ltb_spec (capacity - length (bw_buf b)) (length p)); [lia|]. destruct (Nat.leb_spec capacity (length p)); [lia|reflexivity]. }
    rewrite E, IH; cbn [bw_buf bw_sink]; [now rewrite app_assoc|rewrite app_length; lia|intros q I; apply C; now right].
Qed.
End System.

(** A system that takes at least a byte at every call *)
Definition never_fails (os : system) : Prop := forall n, exists k, os n = Some (S k).
Lemma drain_never os : never_fails os -> forall fuel buf s, length buf <= fuel -> fst (drain os fuel buf s) = true.
Proof.
  intros N. induction fuel as [|n IH]; intros buf s L; destruct buf as [|x buf]; try reflexivity; [cbn in L; lia|].
  cbn [drain]. destruct (N (sk_calls s)) as (k & ->). apply IH. cbn [skipn]. rewrite skipn_length. cbn in L. lia.
Qed.
Lemma flush_never os b : never_fails os -> fst (flush_buf os b) = true.
Proof.
  intros N. unfold flush_buf. pose proof (drain_never os N _ (bw_buf b) (bw_sink b) (le_n _)) as E. destruct (drain _ _ _ _) as [k [r s]]. exact E.
Qed.
Lemma write_never os b p : never_fails os -> fst (buf_write_all os b p) = true.
Proof.
  intros N. unfold buf_write_all. destruct (_ <? _); [reflexivity|].
  assert (K : fst (if capacity - length (bw_buf b) <? length p then flush_buf os b else (true, b)) = true).
  { destruct (_ <? _); [now apply flush_never|reflexivity]. }
  destruct (if _ <? _ then _ else _) as [k b1]. cbn in K. subst k. destruct (_ <=? _); [|reflexivity].
  pose proof (drain_never os N _ p (bw_sink b1) (le_n _)) as E. destruct (drain _ _ _ _) as [k [r s]]. exact E.
Qed.
Lemma pieces_never os : never_fails os -> forall ps b, fst (write_pieces os b ps) = true.
Proof.
  intros N. induction ps as [|p ps IH]; intros b; [reflexivity|]. cbn [write_pieces]. pose proof (write_never os b p N) as E.
  destruct (buf_write_all os b p) as [k b1]. cbn in E. subst k. apply IH.
Qed.

(** ** The output file *)

(** The file holds the beginning of the text.  If no error is reported, at most
    the 8192 bytes of a buffer are missing; if one is reported, something is. *)
Lemma output_spec os ps ok file : write_output os ps = (ok, file) ->
  exists rest, concat ps = file ++ rest /\ if ok then length rest <= capacity else rest <> [].
Proof.
  unfold write_output. destruct (write_pieces os _ ps) as [k b] eqn:E. intros H. injection H as <- <-.
  destruct (pieces_spec os ps (mkBuf [] (mkSink [] 0)) _ _ (Nat.le_0_l _) E) as [L S]. unfold drop_buf. destruct (flush_buf os b) as [k2 b2] eqn:F. cbn [snd].
  destruct (flush_sent os _ _ _ F) as [Q L2]. unfold sent in *. cbn [bw_sink sk_file bw_buf app] in S. destruct k.
  - exists (bw_buf b2). rewrite Q. split; [now symmetry|lia].
  - destruct S as (t & x & r & A & B). rewrite B in Q. exists (bw_buf b2 ++ x :: r). rewrite A, <- Q, <- app_assoc. split; [reflexivity|]. now destruct (bw_buf b2).
Qed.
Lemma output_complete os ps : never_fails os -> write_output os ps = (true, concat ps).
Proof.
  intros N. unfold write_output. pose proof (pieces_never os N ps (mkBuf [] (mkSink [] 0))) as K. destruct (write_pieces os _ ps) as [k b] eqn:E. cbn in K. subst k.
  destruct (pieces_spec os ps (mkBuf [] (mkSink [] 0)) _ _ (Nat.le_0_l _) E) as [_ S]. f_equal. unfold drop_buf. pose proof (flush_never os b N) as K.
  destruct (flush_buf os b) as [k b2] eqn:F. cbn in K. subst k. destruct (flush_spec os _ _ _ F) as [[R _] _]. destruct (flush_sent os _ _ _ F) as [Q _]. cbn [snd].
  unfold sent in *. rewrite (R eq_refl), app_nil_r in Q. rewrite Q, S. reflexivity.
Qed.
(** For a short text no error is ever reported, whatever the system does. *)
Lemma output_silent os ps : length (concat ps) < capacity -> fst (write_output os ps) = true.
Proof.
  intros L. unfold write_output. rewrite short_pieces; [reflexivity|cbn; lia|].
  intros p I. clear os. induction ps as [|q ps IH]; [destruct I|]. cbn [concat] in L. rewrite app_length in L. destruct I as [<-|I]; [lia|]. apply IH; [lia|exact I].
Qed.
