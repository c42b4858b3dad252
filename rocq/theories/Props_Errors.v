(** C89: which errors reading can give, and what they say. *)
From Coq Require Import String Ascii ZArith Lia Bool DecimalString DecimalZ DecimalFacts.
From Verif Require Import Props_Safety SimFacts Examples Base BaseFacts Utf8 Reader PackedFixed Writer Schema Keywords Modules Passes Gen GenSem Errors.
Import Schema StringSyntax.
Local Open Scope list_scope.
Local Open Scope Z_scope.

(** ** Specification *)

(** What a reader can complain of: text that is not UTF-8, groups, the two wire
    types that do not exist, a varint that is too long or the length of an
    unknown field, a field of a map that is neither the key nor the value, and
    the end of the input.  Not: io errors, messages, output buffers. *)
Definition reading_error (e : error) : Prop :=
  match e with
  | EUtf8 | EDeprecated | EVarint | EUnexpectedEndOfBuffer => True
  | EUnknownWireType w => w = 6 \/ w = 7
  | EMap f => 0 <= f < 32 /\ f <> 1 /\ f <> 2
  | EIo | EMessage | EOutputBufferTooSmall => False
  end.
Definition only {A} (P : error -> Prop) (m : rd A) : Prop := forall bs r, match fst (m bs r) with Err e => P e | _ => True end.

(** ** Functions of the library *)
Notation reads := (only reading_error).
Lemma o_ret {A} (a : A) : reads (ret a). Proof. intros bs r. exact Logic.I. Qed.
Lemma o_bind {A B} (m : rd A) (k : A -> rd B) : reads m -> (forall a, reads (k a)) -> reads (bind m k).
Proof.
  intros M K bs r. unfold bind. specialize (M bs r). destruct (m bs r) as ([a|e| | |], r'); cbn in *; auto. apply K.
Qed.
Lemma o_bind_if {A B} (m : rd A) (k : A -> rd B) (Q : A -> Prop) : reads m -> (forall bs r a r', m bs r = (Ok a, r') -> Q a) -> (forall a, Q a -> reads (k a)) -> reads (bind m k).
Proof.
  intros M H K bs r. unfold bind. specialize (M bs r). specialize (H bs r). destruct (m bs r) as ([a|e| | |], r'); cbn in *; auto. apply K. now apply (H a r').
Qed.
Lemma o_map {A B} (f : A -> B) (m : rd A) : reads m -> reads (rmap f m).
Proof. intros M. apply o_bind; [exact M|]. intros a. apply o_ret. Qed.
Lemma o_start : reads get_start. Proof. intros bs r. exact Logic.I. Qed.
Lemma o_end : reads get_end. Proof. intros bs r. exact Logic.I. Qed.
Lemma o_set_start s : reads (set_start s). Proof. intros bs r. exact Logic.I. Qed.
Lemma o_set_end s : reads (set_end s). Proof. intros bs r. exact Logic.I. Qed.
Lemma o_eof : reads is_eof. Proof. intros bs r. exact Logic.I. Qed.
Lemma o_get {A} (f : bytes -> option A) : reads (get_or_eob f).
Proof. intros bs r. unfold get_or_eob. destruct (f bs); exact Logic.I. Qed.
Lemma o_fail {A} e : reading_error e -> reads (@fail A e). Proof. intros H bs r. exact H. Qed.
Lemma o_lift {A} (o : outcome A) : (forall e, o <> Err e) -> reads (lift o).
Proof. intros H bs r. cbn. destruct o; try exact Logic.I. now destruct (H e). Qed.
Lemma o_uadd t a b : reads (lift (uadd t a b)).
Proof. apply o_lift. intros e. unfold uadd. repeat match goal with |- context [if ?x then _ else _] => destruct x end; discriminate. Qed.
Lemma o_usub t a b : reads (lift (usub t a b)).
Proof. apply o_lift. intros e. unfold usub. repeat match goal with |- context [if ?x then _ else _] => destruct x end; discriminate. Qed.
Lemma o_if {A} (b : bool) (x y : rd A) : reads x -> reads y -> reads (if b then x else y).
Proof. now destruct b. Qed.
Lemma o_panic {A} : reads (lift (@Panic A)). Proof. now apply o_lift. Qed.
Lemma o_fuel {A} : reads (lift (@NoFuel A)). Proof. now apply o_lift. Qed.

Create HintDb errs discriminated.
Local Hint Constants Opaque : errs.
Local Hint Resolve o_ret o_start o_end o_set_start o_set_end o_eof o_get o_uadd o_usub o_if o_panic o_fuel o_map : errs.
Ltac errs := repeat match goal with
  | |- only _ (bind _ _) => apply o_bind; [|intros ?]
  | |- only _ (if _ then _ else _) => apply o_if
  | |- only _ (rmap _ _) => apply o_map
  | _ => assumption
  | _ => solve [auto 3 with errs]
  end.

Lemma o_u8 : reads read_u8. Proof. unfold read_u8. errs. Qed.
Local Hint Resolve o_u8 : errs.
Lemma o_varint : @reading_error EVarint. Proof. exact Logic.I. Qed.
Lemma o_discard n r : reads (discard_extra n r).
Proof. induction n as [|n IH]; cbn [discard_extra]; [now apply o_fail|]. errs. Qed.
Lemma o_varint32 : reads read_varint32.
Proof. unfold read_varint32. errs. all: apply o_discard. Qed.
Lemma o_varint64 : reads read_varint64.
Proof. unfold read_varint64. errs. all: now apply o_fail. Qed.
Local Hint Resolve o_varint32 o_varint64 : errs.
Section Target.
Variable t : target.
Lemma o_fixed {M} n (f : bytes -> M) : reads (read_fixed t n f). Proof. unfold read_fixed. errs. Qed.
Lemma o_len {M} (m : rd M) n : reads m -> reads (read_len t m n). Proof. intros H. unfold read_len. errs. Qed.
Lemma o_len_varint {M} (m : rd M) : reads m -> reads (read_len_varint t m).
Proof. intros H. unfold read_len_varint. apply o_bind; [exact o_varint32|]. intros n. now apply o_len. Qed.
Lemma o_bytes : reads (read_bytes t). Proof. apply o_len_varint. errs. Qed.
Lemma o_string : reads (read_string t). Proof. apply o_len_varint. errs. all: now apply o_fail. Qed.
Lemma o_packed_loop {M} (m : rd M) : reads m -> forall n acc, reads (packed_loop n m acc).
Proof. intros H. induction n as [|n IH]; intros acc; cbn [packed_loop]; errs. all: apply IH. Qed.
Lemma o_packed {M} n (m : rd M) : reads m -> reads (read_packed t n m).
Proof. intros H. apply o_len_varint. now apply o_packed_loop. Qed.
Lemma o_packed_fixed k : reads (read_packed_fixed t k).
Proof.
  unfold read_packed_fixed, rlen. apply o_bind; [errs|]. intros n. apply o_bind; [errs|]. intros l. apply o_if; [now apply o_fail|]. errs.
  all: intros bs r; destruct (Base.slice bs a a0); exact Logic.I.
Qed.
Lemma u8_range bs r b r' : read_u8 bs r = (Ok b, r') -> 0 <= b < 256.
Proof.
  unfold read_u8, bind, get_start, get_or_eob, set_start, ret. destruct (get bs (r_start r)) as [x|]; [|discriminate]. intros H. injection H as <- _. apply bz_range.
Qed.
Lemma o_map_loop {K V} (k : rd K) (v : rd V) : reads k -> reads v -> forall n x y, reads (map_loop n k v x y).
Proof.
  intros Hk Hv. induction n as [|n IH]; intros x y; cbn [map_loop]; [apply o_fuel|]. apply o_bind; [apply o_eof|]. intros e. apply o_if; [apply o_ret|].
  apply (o_bind_if _ _ (fun b => 0 <= b < 256)); [apply o_u8|intros bs r a r'; apply u8_range|]. intros b Hb.
  destruct (Z.eqb_spec (Z.shiftr b 3) 1) as [E|N1]; [apply o_bind; [exact Hk|]; intros; apply IH|].
  destruct (Z.eqb_spec (Z.shiftr b 3) 2) as [E|N2]; [apply o_bind; [exact Hv|]; intros; apply IH|].
  apply o_fail. unfold reading_error. rewrite Z.shiftr_div_pow2 in * by lia. change (2 ^ 3) with 8 in *.
  repeat match goal with |- _ /\ _ => split end; auto; [apply Z.div_pos; lia|apply Z.div_lt_upper_bound; lia].
Qed.
Lemma o_read_map {K V} n kd vd (k : rd K) (v : rd V) : reads k -> reads v -> reads (read_map t n kd vd k v).
Proof. intros Hk Hv. apply o_len_varint. now apply o_map_loop. Qed.
Lemma o_skip n : reads (skip t n).
Proof. unfold skip. apply o_bind; [errs|]. intros s. apply o_bind; [errs|]. intros e. apply o_bind; [errs|]. intros x. apply o_if; [now apply o_fail|]. errs. Qed.
Lemma o_unknown tag : reads (read_unknown t tag).
Proof.
  unfold read_unknown. set (w := Z.land tag 7). assert (W : 0 <= w < 8) by (unfold w; change 7 with (Z.ones 3); rewrite Z.land_ones by lia; apply Z.mod_pos_bound; lia).
  destruct (Z.eqb_spec w 0); [errs|]. destruct (Z.eqb_spec w 1); [apply o_skip|]. destruct (Z.eqb_spec w 5); [apply o_skip|].
  destruct (Z.eqb_spec w 2); [apply o_bind; [errs|]; intros v; apply o_if; [apply o_skip|now apply o_fail]|].
  destruct (Z.eqb_spec w 3); [now apply o_fail|]. destruct (Z.eqb_spec w 4); [now apply o_fail|]. cbn [orb]. apply o_fail. cbn. lia.
Qed.
End Target.
Local Hint Resolve o_fixed o_bytes o_string o_packed_fixed o_unknown : errs.

(** ** Generated code *)
Section Generated.
Variables (d : file_descriptor) (c : config) (lit : field_type -> text -> option value) (t : target).
Lemma o_scalar s : reads (read_scalar t s).
Proof. destruct s; apply o_map; try apply o_fixed; unfold read_int32, read_int64, read_uint32, read_uint64, read_sint32, read_sint64, read_bool; errs. Qed.
Lemma o_value from r : (forall i, reads (from i)) -> reads (read_value d t from r).
Proof.
  intros F. destruct r; cbn [read_value]; try apply o_map; errs; try apply o_scalar.
  - unfold read_enum, read_int32. errs.
  - now apply o_len_varint.
Qed.
Lemma o_action fuel from a s : (forall i, reads (from i)) -> reads (run_action d c lit t fuel from a s).
Proof.
  intros F. destruct a; cbn [run_action]; try (apply o_map; now apply o_value); try apply o_panic.
  - apply o_map. unfold read_packed_fixed_k. errs.
  - apply o_map, o_packed. now apply o_value.
  - destruct s; try apply o_panic. apply o_map. now apply o_value.
  - destruct s; try apply o_panic. destruct (type_default _ _ _); [|apply o_panic]. destruct (type_default _ _ _); [|apply o_panic].
    apply o_map, o_read_map; now apply o_value.
Qed.
Lemma o_msg_loop step : (forall tag ss, reads (step tag ss)) -> forall n ss, reads (msg_loop n step ss).
Proof.
  intros S. induction n as [|n IH]; intros ss; cbn [msg_loop]; [apply o_fuel|]. apply o_bind; [apply o_eof|]. intros e. apply o_if; [apply o_ret|].
  apply o_bind; [apply o_varint32|]. intros tag. apply o_bind; [apply S|]. intros ss'. apply IH.
Qed.
Lemma o_from_reader : forall n i, reads (GenSem.from_reader d c lit t n i).
Proof.
  induction n as [|n IH]; intros i; cbn [GenSem.from_reader]; [apply o_fuel|].
  destruct (get_message d i) as [m|]; [|apply o_panic]. destruct (GenSem.message_default d c lit i); [|apply o_panic].
  destruct (is_unit m); [apply o_bind; [unfold read_to_end; errs|]; intros; apply o_ret|].
  apply o_msg_loop. intros tag ss. unfold run_field. destruct (find _ _) as [(z & j & a)|].
  - destruct (nth_error ss j); [|apply o_panic]. apply o_map. now apply o_action.
  - apply o_bind; [apply o_unknown|]. intros. apply o_ret.
Qed.
End Generated.

(** ** C89 *)

(** Every error that the generated [from_reader] returns, on any bytes and in
    any state of the reader, is one of those. *)
Theorem C89_reading_errors : forall d c lit t fuel i bs r e r',
  GenSem.from_reader d c lit t fuel i bs r = (Err e, r') -> reading_error e.
Proof. intros d c lit t fuel i bs r e r' H. pose proof (o_from_reader d c lit t fuel i bs r) as O. now rewrite H in O. Qed.
Print Assumptions C89_reading_errors.

(** the same for the functions that begin with a length *)
Theorem C89_deserialize_errors : forall d c lit t fuel i bs e,
  deserialize_from_slice t (GenSem.from_reader d c lit t fuel i) bs = Err e -> reading_error e.
Proof.
  intros d c lit t fuel i bs e H. unfold deserialize_from_slice in H.
  pose proof (o_len_varint t _ (o_from_reader d c lit t fuel i) bs (from_bytes bs)) as O. unfold Reader.read_message in H. now rewrite H in O.
Qed.
Print Assumptions C89_deserialize_errors.

(** *** Conversions *)

(** [?] on an io error and back again changes nothing; an error that becomes an
    io error keeps its text; its kind is that of the io error inside, InvalidData
    for bad UTF-8, and Other for the rest. *)
Theorem C89_conversions :
  (forall e, into_io (from_io e) = e) /\
  (forall e, display_io (into_io e) = display e) /\
  (forall e, io_kind_of (into_io e) = match e with LIo x => io_kind_of x | LUtf8 _ => KInvalidData | _ => KOther end) /\
  (forall e x, source e = Some (inl x) <-> e = from_io x) /\
  (forall e x, source e = Some (inr x) <-> e = from_utf8_error x).
Proof.
  split; [reflexivity|]. split; [intros []; reflexivity|]. split; [intros []; reflexivity|].
  split; intros e x; split; intros H; subst; try reflexivity; destruct e; try discriminate; injection H as <-; reflexivity.
Qed.
Print Assumptions C89_conversions.

(** *** Texts *)
Definition of_library (e : lib_error) : Prop := match e with LIo _ | LUtf8 _ => False | _ => True end.
Lemma show_number_inj a b : 0 <= a -> 0 <= b -> show_number a = show_number b -> a = b.
Proof.
  unfold show_number. intros A B H. rewrite <- (DecimalZ.of_to a), <- (DecimalZ.of_to b).
  apply (f_equal NilZero.int_of_string) in H.
  assert (K : forall z, 0 <= z -> NilZero.int_of_string (NilZero.string_of_int (Z.to_int z)) = Some (Z.to_int z)).
  { intros z Z0. rewrite NilZero.isi; [reflexivity| |]; destruct z; cbn; try discriminate; try lia.
    intros X. injection X as X. now apply DecimalPos.Unsigned.to_uint_nonnil in X. }
  rewrite !K in H by assumption. now injection H as ->.
Qed.
Lemma tail_inj : forall a b s, (a ++ s)%string = (b ++ s)%string -> a = b.
Proof.
  assert (L : forall a s, String.length (a ++ s)%string = (String.length a + String.length s)%nat).
  { induction a as [|x a IH]; intros s; [reflexivity|]. cbn. now rewrite IH. }
  induction a as [|x a IH]; intros [|y b] s H; try reflexivity.
  - apply (f_equal String.length) in H. rewrite !L in H. cbn in H. lia.
  - apply (f_equal String.length) in H. rewrite !L in H. cbn in H. lia.
  - cbn in H. injection H as -> H. now rewrite (IH _ _ H).
Qed.
Lemma head_inj : forall p a b, (p ++ a)%string = (p ++ b)%string -> a = b.
Proof. induction p as [|x p IH]; intros a b H; [exact H|]. cbn in H. injection H as H. auto. Qed.
(** The numbers in errors are of type [u8]. *)
Definition numbers_ok (e : lib_error) : Prop := match e with LUnknownWireType n | LMap n => 0 <= n < 256 | _ => True end.
(** Errors of the library itself can be told apart by their texts, payloads
    included. *)
Theorem C89_texts_distinct : forall e e', of_library e -> of_library e' -> numbers_ok e -> numbers_ok e' -> display e = display e' -> e = e'.
Proof.
  intros e e' O O' N N' H. destruct e; try contradiction; destruct e'; try contradiction; try reflexivity; try discriminate H; cbn [display] in H; cbn in N, N'.
  - apply head_inj, tail_inj in H. now subst.
  - apply head_inj, tail_inj, show_number_inj in H; [now subst|lia|lia].
  - apply head_inj in H. now subst.
  - apply head_inj, tail_inj, show_number_inj in H; [now subst|lia|lia].
Qed.
Print Assumptions C89_texts_distinct.


(** each error of the specification does occur; the rest of the line is where
    the reader stops *)
Example C89_case :
  let run bs := from_reader npD cfg0 nolit (unchecked W64) 20 [0%nat] bs (from_bytes bs) in
  run [x0a; x01; xff] = (Err EUtf8, mkR 2 3) /\
  run [x13] = (Err EDeprecated, mkR 1 1) /\
  run [x16] = (Err (EUnknownWireType 6), mkR 1 1) /\
  run [x80; x80; x80; x80; x80; x80; x80; x80; x80; x80] = (Err EVarint, mkR 10 10) /\
  run [x32; x01; x18] = (Err (EMap 3), mkR 3 3) /\
  run [x0a; x05] = (Err EUnexpectedEndOfBuffer, mkR 2 7) /\
  display (LMap 3) = "Unexpected map tag: '3', expecting 1 or 2"%string /\
  display (LUnknownWireType 6) = "Unknown wire type '6', must be less than 6"%string /\
  io_kind_of (into_io LVarint) = KOther /\ display_io (into_io (LDeprecated "group"%string)) = "Feature 'group' has been deprecated"%string.
Proof. vm_compute. repeat split. Qed.
