(** Laws of the parser combinators of Parser.v: what is left is a suffix of
    what was given, the fuel never runs out, and the recursive parsers satisfy
    their equations without fuel. *)
From Coq Require Import String Ascii Arith Lia.
From Verif Require Import Base Schema Modules Parser.
Import StringSyntax.
Local Open Scope string_scope.
Local Open Scope list_scope.

Notation slen := String.length.

(* ---- suffixes ---- *)

Definition suffix (r s : text) : Prop := exists u, s = (u ++ r)%string.

Lemma append_assoc : forall a b c : text, ((a ++ b) ++ c)%string = (a ++ (b ++ c))%string.
Proof. induction a as [|x a IH]; intros; cbn; [reflexivity|]. now rewrite IH. Qed.

Lemma append_nil_r : forall a : text, (a ++ "")%string = a.
Proof. induction a as [|x a IH]; cbn; [reflexivity|]. now rewrite IH. Qed.

Lemma slen_append : forall a b : text, slen (a ++ b)%string = (slen a + slen b)%nat.
Proof. induction a as [|x a IH]; intros; cbn; [reflexivity|]. now rewrite IH. Qed.

Lemma append_inj_l : forall a b c : text, (a ++ b)%string = (a ++ c)%string -> b = c.
Proof. induction a as [|x a IH]; intros b c H; cbn in H; [exact H|]. injection H as H. now apply IH. Qed.

Lemma suffix_refl : forall s, suffix s s.
Proof. intro s. now exists "". Qed.

Lemma suffix_trans : forall a b c, suffix a b -> suffix b c -> suffix a c.
Proof.
  intros a b c [u ->] [v ->]. exists (v ++ u)%string. now rewrite append_assoc.
Qed.

Lemma suffix_length : forall a b, suffix a b -> (slen a <= slen b)%nat.
Proof. intros a b [u ->]. rewrite slen_append. lia. Qed.


Lemma take_drop : forall n s, s = (take n s ++ drop n s)%string.
Proof.
  induction n as [|n IH]; intros [|a s]; cbn; try reflexivity. f_equal. apply IH.
Qed.

Lemma drop_suffix : forall n s, suffix (drop n s) s.
Proof. intros n s. exists (take n s). apply take_drop. Qed.

Lemma slen_drop : forall n s, slen (drop n s) = (slen s - n)%nat.
Proof.
  induction n as [|n IH]; intros [|a s]; cbn; try reflexivity. apply IH.
Qed.

Lemma span_append : forall f s, s = (fst (span f s) ++ snd (span f s))%string.
Proof.
  induction s as [|a s IH]; cbn; [reflexivity|].
  destruct (f a); [|reflexivity].
  destruct (span f s) as [u r]; cbn in *. now rewrite IH at 1.
Qed.

(* ---- consumption ---- *)

(** the rest is a suffix of the text *)
Definition consumes {A} (p : parser A) : Prop :=
  forall s r a, p s = POk r a -> suffix r s.
(** ... and shorter than it *)
Definition strict {A} (p : parser A) : Prop :=
  forall s r a, p s = POk r a -> (slen r < slen s)%nat.

Lemma c_pret : forall A (a : A), consumes (pret a).
Proof. intros A a s r b H. injection H as <- _. apply suffix_refl. Qed.

Lemma c_err : forall A, consumes (fun _ => @PErr A).
Proof. intros A s r a H. discriminate. Qed.

Lemma c_fuel : forall A, consumes (fun _ => @PFuel A).
Proof. intros A s r a H. discriminate. Qed.

Lemma c_pbind : forall A B (p : parser A) (k : A -> parser B),
  consumes p -> (forall a, consumes (k a)) -> consumes (pbind p k).
Proof.
  intros A B p k Hp Hk s r b H. unfold pbind in H.
  destruct (p s) as [r1 a| | |] eqn:E; try discriminate.
  eapply suffix_trans; [eapply Hk; exact H | eapply Hp; exact E].
Qed.

Lemma c_closure : forall B (c : cres B),
  consumes (fun s => match c with COk b => POk s b | CErr => PErr | CPanic => PPanic end).
Proof.
  intros B c s r b H. destruct c; try discriminate.
  injection H as <- _. apply suffix_refl.
Qed.

Lemma c_if : forall A (c : bool) (a : A),
  consumes (fun s => if c then POk s a else PErr).
Proof.
  intros A c a s r b H. destruct c; try discriminate.
  injection H as <- _. apply suffix_refl.
Qed.

Lemma c_alt : forall A (ps : list (parser A)), Forall consumes ps -> consumes (alt ps).
Proof.
  intros A ps H. induction H as [|p ps Hp _ IH]; [apply c_err|].
  intros s r a E. cbn in E. destruct (p s) as [r1 a1| | |] eqn:E1; try discriminate.
  - injection E as <- <-. eapply Hp. exact E1.
  - eapply IH. exact E.
Qed.

Lemma c_opt : forall A (p : parser A), consumes p -> consumes (opt p).
Proof.
  intros A p Hp s r a E. unfold opt in E.
  destruct (p s) as [r1 a1| | |] eqn:E1; try discriminate; injection E as <- _.
  - eapply Hp. exact E1.
  - apply suffix_refl.
Qed.

Lemma c_many0_fuel : forall A (p : parser A) n, consumes p -> consumes (many0_fuel n p).
Proof.
  intros A p n Hp. induction n as [|n IH]; intros s r a E; cbn [many0_fuel] in E; [discriminate|].
  destruct (p s) as [r1 a1| | |] eqn:E1; try discriminate.
  - destruct (slen r1 <? slen s)%nat; [|discriminate].
    destruct (many0_fuel n p r1) as [r2 l| | |] eqn:E2; try discriminate.
    injection E as <- _. eapply suffix_trans; [eapply IH; exact E2 | eapply Hp; exact E1].
  - injection E as <- _. apply suffix_refl.
Qed.

Lemma c_many0 : forall A (p : parser A), consumes p -> consumes (many0 p).
Proof. intros A p Hp s r a E. eapply c_many0_fuel; [exact Hp | exact E]. Qed.

Lemma c_sep_loop : forall A B ck (sep : parser B) (p : parser A) n,
  consumes sep -> consumes p -> consumes (sep_loop ck n sep p).
Proof.
  intros A B ck sep p n Hs Hp. induction n as [|n IH]; intros s r a E; cbn [sep_loop] in E; [discriminate|].
  destruct (sep s) as [r0 b| | |] eqn:E0; try discriminate.
  2: { injection E as <- _. apply suffix_refl. }
  destruct (ck && negb (slen r0 <? slen s)%nat); [discriminate|].
  destruct (p r0) as [r1 a1| | |] eqn:E1; try discriminate.
  2: { injection E as <- _. apply suffix_refl. }
  destruct (slen r1 <? slen s)%nat; [|discriminate].
  destruct (sep_loop ck n sep p r1) as [r2 l| | |] eqn:E2; try discriminate.
  injection E as <- _. eapply suffix_trans; [eapply IH; exact E2|].
  eapply suffix_trans; [eapply Hp; exact E1 | eapply Hs; exact E0].
Qed.

Lemma c_sep : forall A B ck (sep : parser B) (p : parser A),
  consumes sep -> consumes p ->
  consumes (fun s => sep_loop ck (S (slen s)) sep p s).
Proof. intros A B ck sep p Hs Hp s r a E. eapply c_sep_loop; [exact Hs|exact Hp|exact E]. Qed.

Lemma c_separated_list0 : forall A B ck (sep : parser B) (p : parser A),
  consumes sep -> consumes p -> consumes (separated_list0 ck sep p).
Proof.
  intros A B ck sep p Hs Hp s r a E. unfold separated_list0 in E.
  destruct (p s) as [r1 a1| | |] eqn:E1; try discriminate.
  - eapply suffix_trans; [|eapply Hp; exact E1].
    eapply (c_pbind _ _ (fun s => sep_loop ck (S (slen s)) sep p s)); [| |exact E].
    + now apply c_sep.
    + intro. apply c_pret.
  - injection E as <- _. apply suffix_refl.
Qed.

Lemma c_recognize : forall A (p : parser A), consumes p -> consumes (recognize p).
Proof.
  intros A p Hp s r a E. unfold recognize in E.
  destruct (p s) as [r1 a1| | |] eqn:E1; try discriminate. injection E as <- _.
  eapply Hp. exact E1.
Qed.

Lemma c_tag : forall t, consumes (tag t).
Proof.
  intros t s r a E. unfold tag in E. destruct (String.prefix t s); [|discriminate].
  injection E as <- _. apply drop_suffix.
Qed.

Lemma c_take_until : forall t, consumes (take_until t).
Proof.
  intros t s r a E. unfold take_until in E. destruct (find_str t s); [|discriminate].
  injection E as <- _. apply drop_suffix.
Qed.

Lemma c_chars1 : forall f, consumes (chars1 f).
Proof.
  intros f s r a E. unfold chars1 in E. pose proof (span_append f s) as H.
  destruct (span f s) as [u q]; cbn in H. destruct u as [|c u]; [discriminate|].
  injection E as <- _. exists (String c u). exact H.
Qed.

Lemma c_anychar : consumes anychar.
Proof.
  intros [|c s] r a E; [discriminate|]. injection E as <- _. now exists (String c "").
Qed.

Lemma c_not_line_ending : consumes not_line_ending.
Proof.
  intros s r a E. unfold not_line_ending in E.
  pose proof (span_append (fun a => negb ((code a =? 10) || (code a =? 13))%nat) s) as H.
  destruct (span _ s) as [u q]; cbn in H.
  assert (r = q) as ->; [|exists u; exact H].
  destruct q as [|c q]; [now injection E|].
  destruct (code c =? 13)%nat; [|now injection E].
  destruct q as [|b q]; [discriminate|].
  destruct (code b =? 10)%nat; [now injection E|discriminate].
Qed.

Create HintDb pc.
Global Hint Resolve c_pret c_err c_fuel c_closure c_if c_tag c_take_until c_chars1 c_anychar
  c_not_line_ending : pc.

(** proves [consumes p] for parsers made of the combinators *)
Ltac consume :=
  repeat match goal with
  | H : consumes ?p |- consumes ?p => exact H
  | H : forall n, consumes (?p n) |- consumes (?p _) => apply H
  | |- consumes (pbind _ _) => apply c_pbind; [|intro]
  | |- consumes (map_res _ _) => unfold map_res
  | |- consumes (pmap _ _) => unfold pmap
  | |- consumes (pvalue _ _) => unfold pvalue
  | |- consumes (pair _ _) => unfold pair
  | |- consumes (preceded _ _) => unfold preceded
  | |- consumes (terminated _ _) => unfold terminated
  | |- consumes (delimited _ _ _) => unfold delimited
  | |- consumes (separated_pair _ _ _) => unfold separated_pair
  | |- consumes (alt _) => apply c_alt
  | |- consumes (opt _) => apply c_opt
  | |- consumes (many0 _) => apply c_many0
  | |- consumes (many1 _) => unfold many1
  | |- consumes (fun s => sep_loop _ (S (slen s)) _ _ s) => apply c_sep
  | |- consumes (separated_list1 _ _) => unfold separated_list1
  | |- consumes (separated_list0 _ _ _) => apply c_separated_list0
  | |- consumes (recognize _) => apply c_recognize
  | |- consumes (verify _ _) => unfold verify
  | |- Forall consumes _ => constructor
  | |- consumes _ => solve [eauto with pc]
  end.

Lemma c_word : consumes word.
Proof. unfold word, alpha1, alphanumeric1. consume. Qed.
Global Hint Resolve c_word : pc.
Lemma c_qualifiable_name : consumes qualifiable_name.
Proof. unfold qualifiable_name. consume. Qed.
Lemma c_hex_integer : consumes hex_integer.
Proof. unfold hex_integer, hex_digit1. consume. Qed.
Lemma c_integer : consumes integer.
Proof. unfold integer, digit1. consume. Qed.
Lemma c_comment : consumes comment.
Proof. unfold comment. consume. Qed.
Lemma c_block_comment : consumes block_comment.
Proof. unfold block_comment. consume. Qed.
Global Hint Resolve c_qualifiable_name c_hex_integer c_integer c_comment c_block_comment : pc.
Lemma c_br : consumes br.
Proof. unfold br, multispace1. consume. Qed.
Global Hint Resolve c_br : pc.
Lemma c_string : consumes p_string.
Proof. unfold p_string. consume. Qed.
Global Hint Resolve c_string : pc.
Lemma c_syntax : consumes p_syntax.
Proof. unfold p_syntax. consume. Qed.
Lemma c_import : consumes p_import.
Proof. unfold p_import. consume. Qed.
Lemma c_package : consumes p_package.
Proof. unfold p_package. consume. Qed.
Lemma c_extensions : consumes p_extensions.
Proof. unfold p_extensions. consume. Qed.
Lemma c_num_range : consumes num_range.
Proof. unfold num_range. consume. Qed.
Lemma c_comma : consumes comma.
Proof. unfold comma. consume. Qed.
Global Hint Resolve c_num_range c_comma : pc.
Lemma c_reserved_nums : consumes reserved_nums.
Proof. unfold reserved_nums. consume. Qed.
Lemma c_reserved_names : consumes reserved_names.
Proof. unfold reserved_names. consume. Qed.
Lemma c_equals : consumes equals.
Proof. unfold equals. consume. Qed.
Global Hint Resolve c_equals : pc.
Lemma c_key_val : consumes key_val.
Proof. unfold key_val. consume. Qed.
Lemma c_frequency : consumes p_frequency.
Proof. unfold p_frequency. consume. Qed.
Lemma c_map_field : forall ft, consumes ft -> consumes (map_field ft).
Proof. intros ft H. unfold map_field. consume. Qed.
Global Hint Resolve c_syntax c_import c_package c_extensions c_reserved_nums c_reserved_names
  c_key_val c_frequency : pc.

Lemma c_scalars : Forall consumes (map (fun '(k, t) => pvalue t (tag k)) scalars).
Proof. unfold scalars. cbn [map]. consume. Qed.

Lemma c_field_type_fuel : forall n, consumes (p_field_type_fuel n).
Proof.
  induction n as [|n IH]; cbn [p_field_type_fuel]; [apply c_fuel|].
  apply c_alt. apply Forall_app. split; [apply c_scalars|].
  constructor; [|constructor; [consume|constructor]].
  unfold pmap. apply c_pbind; [now apply c_map_field|]. intro. consume.
Qed.

Lemma c_field_type : consumes p_field_type.
Proof. intros s r a E. eapply c_field_type_fuel. exact E. Qed.
Global Hint Resolve c_field_type : pc.

Lemma c_field_generic : forall sx ff, consumes (field_generic sx ff).
Proof. intros. unfold field_generic. consume. Qed.
Lemma c_message_field : forall sx, consumes (message_field sx).
Proof. intro. apply c_field_generic. Qed.
Lemma c_oneof_message_field : forall sx, consumes (oneof_message_field sx).
Proof. intro. apply c_field_generic. Qed.
Global Hint Resolve c_message_field c_oneof_message_field : pc.
Lemma c_one_of : forall sx, consumes (p_one_of sx).
Proof. intro. unfold p_one_of. consume. Qed.
Lemma c_option_ignore : consumes option_ignore.
Proof. unfold option_ignore. consume. Qed.
Global Hint Resolve c_one_of c_option_ignore : pc.
Lemma c_rpc_function : consumes p_rpc_function.
Proof. unfold p_rpc_function. consume. Qed.
Global Hint Resolve c_rpc_function : pc.
Lemma c_rpc_service : consumes p_rpc_service.
Proof. unfold p_rpc_service. consume. Qed.
Lemma c_enum_deprecated : consumes enum_deprecated.
Proof. unfold enum_deprecated, multispace1. consume. Qed.
Global Hint Resolve c_enum_deprecated : pc.
Lemma c_enum_field : consumes enum_field.
Proof. unfold enum_field. consume. Qed.
Global Hint Resolve c_rpc_service c_enum_field : pc.
Lemma c_enum_event : consumes enum_event.
Proof. unfold enum_event. consume. Qed.
Global Hint Resolve c_enum_event : pc.
Lemma c_enumerator : consumes p_enumerator.
Proof. unfold p_enumerator. consume. Qed.
Global Hint Resolve c_enumerator : pc.
Lemma c_message_event : forall sx pm, consumes pm -> consumes (p_message_event sx pm).
Proof. intros sx pm H. unfold p_message_event. consume. Qed.
Lemma c_message_fuel : forall n sx, consumes (p_message_fuel n sx).
Proof.
  induction n as [|n IH]; intro sx; cbn [p_message_fuel]; [apply c_fuel|].
  pose proof (c_message_event sx _ (IH sx)). consume.
Qed.
Lemma c_message : forall sx, consumes (p_message sx).
Proof. intros sx s r a E. eapply c_message_fuel. exact E. Qed.
Lemma c_extend : forall sx, consumes (p_extend sx).
Proof. intro. unfold p_extend. consume. Qed.
Global Hint Resolve c_message c_extend : pc.
Lemma c_event : forall sx, consumes (p_event sx).
Proof. intro. unfold p_event. consume. Qed.
Global Hint Resolve c_event : pc.

(* ---- strict consumption ---- *)

Lemma consumes_le : forall A (p : parser A) s r a,
  consumes p -> p s = POk r a -> (slen r <= slen s)%nat.
Proof. intros A p s r a H E. apply suffix_length. eapply H. exact E. Qed.

Lemma s_tag : forall t, t <> "" -> strict (tag t).
Proof.
  intros t Ht s r a E. unfold tag in E. destruct (String.prefix t s) eqn:P; [|discriminate].
  injection E as <- _. rewrite slen_drop.
  destruct t as [|c t]; [congruence|]. destruct s as [|d s]; [discriminate|].
  cbn [slen String.length]. lia.
Qed.

Lemma s_chars1 : forall f, strict (chars1 f).
Proof.
  intros f s r a E. unfold chars1 in E. pose proof (span_append f s) as H.
  destruct (span f s) as [u q]; cbn [fst snd] in H. destruct u as [|c u]; [discriminate|].
  injection E as <- _. rewrite H, slen_append. cbn. lia.
Qed.

Lemma s_pbind_l : forall A B (p : parser A) (k : A -> parser B),
  strict p -> (forall a, consumes (k a)) -> strict (pbind p k).
Proof.
  intros A B p k Hp Hk s r b H. unfold pbind in H.
  destruct (p s) as [r1 a| | |] eqn:E; try discriminate.
  apply Hp in E. apply (consumes_le _ _ _ _ _ (Hk a)) in H. lia.
Qed.

Lemma s_pbind_r : forall A B (p : parser A) (k : A -> parser B),
  consumes p -> (forall a, strict (k a)) -> strict (pbind p k).
Proof.
  intros A B p k Hp Hk s r b H. unfold pbind in H.
  destruct (p s) as [r1 a| | |] eqn:E; try discriminate.
  apply (consumes_le _ _ _ _ _ Hp) in E. apply (Hk a) in H. lia.
Qed.

Lemma s_alt : forall A (ps : list (parser A)), Forall strict ps -> strict (alt ps).
Proof.
  intros A ps H. induction H as [|p ps Hp _ IH]; [intros s r a E; discriminate|].
  intros s r a E. cbn [alt] in E. destruct (p s) as [r1 a1| | |] eqn:E1; try discriminate.
  - injection E as <- <-. eapply Hp. exact E1.
  - eapply IH. exact E.
Qed.

Lemma s_recognize : forall A (p : parser A), strict p -> strict (recognize p).
Proof.
  intros A p Hp s r a E. unfold recognize in E.
  destruct (p s) as [r1 a1| | |] eqn:E1; try discriminate. injection E as <- _.
  eapply Hp. exact E1.
Qed.

Lemma s_pair : forall A B (p : parser A) (q : parser B),
  strict p -> consumes q -> strict (pair p q).
Proof. intros. unfold pair. apply s_pbind_l; [assumption|]. intro. consume. Qed.

(* ---- the fuel suffices ---- *)

(** no lack of fuel on texts shorter than [n] *)
Definition nofuel (n : nat) {A} (p : parser A) : Prop :=
  forall s, (slen s < n)%nat -> p s <> PFuel.

Lemma n_pbind : forall n A B (p : parser A) (k : A -> parser B),
  nofuel n p -> consumes p -> (forall a, nofuel n (k a)) -> nofuel n (pbind p k).
Proof.
  intros n A B p k Hp Cp Hk s L E. unfold pbind in E.
  destruct (p s) as [r1 a| | |] eqn:E1; try discriminate; [|exact (Hp s L E1)].
  apply (consumes_le _ _ _ _ _ Cp) in E1. exact (Hk a r1 ltac:(lia) E).
Qed.

Lemma n_pbind_strict : forall n A B (p : parser A) (k : A -> parser B),
  nofuel (S n) p -> strict p -> (forall a, nofuel n (k a)) -> nofuel (S n) (pbind p k).
Proof.
  intros n A B p k Hp Cp Hk s L E. unfold pbind in E.
  destruct (p s) as [r1 a| | |] eqn:E1; try discriminate; [|exact (Hp s L E1)].
  apply Cp in E1. exact (Hk a r1 ltac:(lia) E).
Qed.

Lemma n_pret : forall n A (a : A), nofuel n (pret a).
Proof. intros n A a s _ H. discriminate. Qed.

Lemma n_closure : forall n B (c : cres B),
  nofuel n (fun s => match c with COk b => POk s b | CErr => PErr | CPanic => PPanic end).
Proof. intros n B c s _ H. destruct c; discriminate. Qed.

Lemma n_if : forall n A (c : bool) (a : A), nofuel n (fun s => if c then POk s a else PErr).
Proof. intros n A c a s _ H. destruct c; discriminate. Qed.

Lemma n_alt : forall n A (ps : list (parser A)), Forall (nofuel n) ps -> nofuel n (alt ps).
Proof.
  intros n A ps H. induction H as [|p ps Hp _ IH]; [intros s _ E; discriminate|].
  intros s L E. cbn [alt] in E. destruct (p s) as [r1 a1| | |] eqn:E1; try discriminate.
  - exact (IH s L E).
  - exact (Hp s L E1).
Qed.

Lemma n_opt : forall n A (p : parser A), nofuel n p -> nofuel n (opt p).
Proof.
  intros n A p Hp s L E. unfold opt in E.
  destruct (p s) as [r1 a1| | |] eqn:E1; try discriminate. exact (Hp s L E1).
Qed.

Lemma n_many0 : forall n A (p : parser A), nofuel n p -> nofuel n (many0 p).
Proof.
  intros n A p Hp.
  assert (H : forall m s, (slen s < m)%nat -> (slen s < n)%nat -> many0_fuel m p s <> PFuel).
  { induction m as [|m IH]; intros s Lm Ln E; [lia|]. cbn [many0_fuel] in E.
    destruct (p s) as [r1 a1| | |] eqn:E1; try discriminate; [|exact (Hp s Ln E1)].
    destruct (slen r1 <? slen s)%nat eqn:L; [|discriminate].
    apply Nat.ltb_lt in L.
    destruct (many0_fuel m p r1) as [r2 l| | |] eqn:E2; try discriminate.
    exact (IH r1 ltac:(lia) ltac:(lia) E2). }
  intros s L. unfold many0. apply H; lia.
Qed.

Lemma n_sep : forall n A B ck (sep : parser B) (p : parser A),
  nofuel n sep -> consumes sep -> nofuel n p ->
  nofuel n (fun s => sep_loop ck (S (slen s)) sep p s).
Proof.
  intros n A B ck sep p Hs Cs Hp.
  assert (H : forall m s, (slen s < m)%nat -> (slen s < n)%nat -> sep_loop ck m sep p s <> PFuel).
  { induction m as [|m IH]; intros s Lm Ln E; [lia|]. cbn [sep_loop] in E.
    destruct (sep s) as [r0 b| | |] eqn:E0; try discriminate; [|exact (Hs s Ln E0)].
    apply (consumes_le _ _ _ _ _ Cs) in E0.
    destruct (ck && negb (slen r0 <? slen s)%nat); [discriminate|].
    destruct (p r0) as [r1 a1| | |] eqn:E1; try discriminate; [|exact (Hp r0 ltac:(lia) E1)].
    destruct (slen r1 <? slen s)%nat eqn:L; [|discriminate].
    apply Nat.ltb_lt in L.
    destruct (sep_loop ck m sep p r1) as [r2 l| | |] eqn:E2; try discriminate.
    exact (IH r1 ltac:(lia) ltac:(lia) E2). }
  intros s L. apply H; lia.
Qed.

Lemma n_separated_list0 : forall n A B ck (sep : parser B) (p : parser A),
  nofuel n sep -> consumes sep -> nofuel n p -> consumes p ->
  nofuel n (separated_list0 ck sep p).
Proof.
  intros n A B ck sep p Hs Cs Hp Cp s L E. unfold separated_list0 in E.
  destruct (p s) as [r1 a1| | |] eqn:E1; try discriminate; [|exact (Hp s L E1)].
  apply (consumes_le _ _ _ _ _ Cp) in E1.
  revert E. apply (n_pbind n _ _ (fun s => sep_loop ck (S (slen s)) sep p s)); [| | |lia].
  - now apply n_sep.
  - now apply c_sep.
  - intro. apply n_pret.
Qed.

Lemma n_recognize : forall n A (p : parser A), nofuel n p -> nofuel n (recognize p).
Proof.
  intros n A p Hp s L E. unfold recognize in E.
  destruct (p s) as [r1 a1| | |] eqn:E1; try discriminate. exact (Hp s L E1).
Qed.

Lemma n_tag : forall n t, nofuel n (tag t).
Proof. intros n t s _ E. unfold tag in E. destruct (String.prefix t s); discriminate. Qed.

Lemma n_take_until : forall n t, nofuel n (take_until t).
Proof. intros n t s _ E. unfold take_until in E. destruct (find_str t s); discriminate. Qed.

Lemma n_chars1 : forall n f, nofuel n (chars1 f).
Proof.
  intros n f s _ E. unfold chars1 in E. destruct (span f s) as [[|c u] q]; discriminate.
Qed.

Lemma n_anychar : forall n, nofuel n anychar.
Proof. intros n [|c s] _ E; discriminate. Qed.

Lemma n_not_line_ending : forall n, nofuel n not_line_ending.
Proof.
  intros n s _ E. unfold not_line_ending in E.
  destruct (span _ s) as [u [|c q]]; [discriminate|].
  destruct (code c =? 13)%nat; [|discriminate].
  destruct q as [|b q]; [discriminate|]. destruct (code b =? 10)%nat; discriminate.
Qed.

Create HintDb pn.
Global Hint Resolve n_pret n_closure n_if n_tag n_take_until n_chars1 n_anychar
  n_not_line_ending : pn.

Ltac nofuel_tac :=
  repeat match goal with
  | H : nofuel ?n ?p |- nofuel ?n ?p => exact H
  | |- nofuel _ (pbind _ _) => apply n_pbind; [| |intro]
  | |- nofuel _ (map_res _ _) => unfold map_res
  | |- nofuel _ (pmap _ _) => unfold pmap
  | |- nofuel _ (pvalue _ _) => unfold pvalue
  | |- nofuel _ (pair _ _) => unfold pair
  | |- nofuel _ (preceded _ _) => unfold preceded
  | |- nofuel _ (terminated _ _) => unfold terminated
  | |- nofuel _ (delimited _ _ _) => unfold delimited
  | |- nofuel _ (separated_pair _ _ _) => unfold separated_pair
  | |- nofuel _ (alt _) => apply n_alt
  | |- nofuel _ (opt _) => apply n_opt
  | |- nofuel _ (many0 _) => apply n_many0
  | |- nofuel _ (many1 _) => unfold many1
  | |- nofuel _ (fun s => sep_loop _ (S (slen s)) _ _ s) => apply n_sep
  | |- nofuel _ (separated_list1 _ _) => unfold separated_list1
  | |- nofuel _ (separated_list0 _ _ _) => apply n_separated_list0
  | |- nofuel _ (recognize _) => apply n_recognize
  | |- nofuel _ (verify _ _) => unfold verify
  | |- Forall (nofuel _) _ => constructor
  | |- nofuel _ _ => solve [eauto with pn]
  | |- consumes _ => solve [consume]
  end.

Lemma n_word : forall n, nofuel n word.
Proof. intro. unfold word, alpha1, alphanumeric1. nofuel_tac. Qed.
Global Hint Resolve n_word : pn.
Lemma n_qualifiable_name : forall n, nofuel n qualifiable_name.
Proof. intro. unfold qualifiable_name. nofuel_tac. Qed.
Lemma n_hex_integer : forall n, nofuel n hex_integer.
Proof. intro. unfold hex_integer, hex_digit1. nofuel_tac. Qed.
Lemma n_integer : forall n, nofuel n integer.
Proof. intro. unfold integer, digit1. nofuel_tac. Qed.
Lemma n_comment : forall n, nofuel n comment.
Proof. intro. unfold comment. nofuel_tac. Qed.
Lemma n_block_comment : forall n, nofuel n block_comment.
Proof. intro. unfold block_comment. nofuel_tac. Qed.
Global Hint Resolve n_qualifiable_name n_hex_integer n_integer n_comment n_block_comment : pn.
Lemma n_br : forall n, nofuel n br.
Proof. intro. unfold br, multispace1. nofuel_tac. Qed.
Global Hint Resolve n_br : pn.
Lemma n_string : forall n, nofuel n p_string.
Proof. intro. unfold p_string. nofuel_tac. Qed.
Global Hint Resolve n_string : pn.
Lemma n_syntax : forall n, nofuel n p_syntax.
Proof. intro. unfold p_syntax. nofuel_tac. Qed.
Lemma n_import : forall n, nofuel n p_import.
Proof. intro. unfold p_import. nofuel_tac. Qed.
Lemma n_package : forall n, nofuel n p_package.
Proof. intro. unfold p_package. nofuel_tac. Qed.
Lemma n_extensions : forall n, nofuel n p_extensions.
Proof. intro. unfold p_extensions. nofuel_tac. Qed.
Lemma n_num_range : forall n, nofuel n num_range.
Proof. intro. unfold num_range. nofuel_tac. Qed.
Lemma n_comma : forall n, nofuel n comma.
Proof. intro. unfold comma. nofuel_tac. Qed.
Global Hint Resolve n_num_range n_comma : pn.
Lemma n_reserved_nums : forall n, nofuel n reserved_nums.
Proof. intro. unfold reserved_nums. nofuel_tac. Qed.
Lemma n_reserved_names : forall n, nofuel n reserved_names.
Proof. intro. unfold reserved_names. nofuel_tac. Qed.
Lemma n_equals : forall n, nofuel n equals.
Proof. intro. unfold equals. nofuel_tac. Qed.
Global Hint Resolve n_equals : pn.
Lemma n_key_val : forall n, nofuel n key_val.
Proof. intro. unfold key_val. nofuel_tac. Qed.
Lemma n_frequency : forall n, nofuel n p_frequency.
Proof. intro. unfold p_frequency. nofuel_tac. Qed.
Global Hint Resolve n_syntax n_import n_package n_extensions n_reserved_nums n_reserved_names
  n_key_val n_frequency : pn.

Lemma n_map_field : forall n ft, nofuel n ft -> consumes ft -> nofuel (S n) (map_field ft).
Proof.
  intros n ft H C. unfold map_field, delimited. unfold preceded at 1.
  apply n_pbind_strict; [nofuel_tac| |intro; nofuel_tac].
  apply s_pair; [apply s_tag; discriminate|consume].
Qed.

Lemma n_scalars : forall n, Forall (nofuel n) (map (fun '(k, t) => pvalue t (tag k)) scalars).
Proof. intro. unfold scalars. cbn [map]. nofuel_tac. Qed.

Lemma n_field_type_fuel : forall n, nofuel n (p_field_type_fuel n).
Proof.
  induction n as [|n IH]; [intros s L; lia|]. cbn [p_field_type_fuel].
  apply n_alt. apply Forall_app. split; [apply n_scalars|].
  constructor; [|constructor; [nofuel_tac|constructor]].
  unfold pmap. apply n_pbind; [|apply c_map_field, c_field_type_fuel|intro; nofuel_tac].
  apply n_map_field; [exact IH|apply c_field_type_fuel].
Qed.

Lemma n_field_type : forall n, nofuel n p_field_type.
Proof. intros n s _. unfold p_field_type. apply n_field_type_fuel. lia. Qed.
Global Hint Resolve n_field_type : pn.

Lemma n_field_generic : forall n sx ff, nofuel n (field_generic sx ff).
Proof. intros. unfold field_generic. nofuel_tac. Qed.
Lemma n_message_field : forall n sx, nofuel n (message_field sx).
Proof. intros. apply n_field_generic. Qed.
Lemma n_oneof_message_field : forall n sx, nofuel n (oneof_message_field sx).
Proof. intros. apply n_field_generic. Qed.
Global Hint Resolve n_message_field n_oneof_message_field : pn.
Lemma n_one_of : forall n sx, nofuel n (p_one_of sx).
Proof. intros. unfold p_one_of. nofuel_tac. Qed.
Lemma n_option_ignore : forall n, nofuel n option_ignore.
Proof. intro. unfold option_ignore. nofuel_tac. Qed.
Global Hint Resolve n_one_of n_option_ignore : pn.
Lemma n_rpc_function : forall n, nofuel n p_rpc_function.
Proof. intro. unfold p_rpc_function. nofuel_tac. Qed.
Global Hint Resolve n_rpc_function : pn.
Lemma n_rpc_service : forall n, nofuel n p_rpc_service.
Proof. intro. unfold p_rpc_service. nofuel_tac. Qed.
Lemma n_enum_deprecated : forall n, nofuel n enum_deprecated.
Proof. intro. unfold enum_deprecated, multispace1. nofuel_tac. Qed.
Global Hint Resolve n_enum_deprecated : pn.
Lemma n_enum_field : forall n, nofuel n enum_field.
Proof. intro. unfold enum_field. nofuel_tac. Qed.
Global Hint Resolve n_rpc_service n_enum_field : pn.
Lemma n_enum_event : forall n, nofuel n enum_event.
Proof. intro. unfold enum_event. nofuel_tac. Qed.
Global Hint Resolve n_enum_event : pn.
Lemma n_enumerator : forall n, nofuel n p_enumerator.
Proof. intro. unfold p_enumerator. nofuel_tac. Qed.
Global Hint Resolve n_enumerator : pn.
Lemma n_message_event : forall n sx pm, nofuel n pm -> consumes pm ->
  nofuel n (p_message_event sx pm).
Proof. intros n sx pm H C. unfold p_message_event. nofuel_tac. Qed.

Lemma n_message_fuel : forall n sx, nofuel n (p_message_fuel n sx).
Proof.
  induction n as [|n IH]; intro sx; [intros s L; lia|]. cbn [p_message_fuel].
  pose proof (n_message_event n sx _ (IH sx) (c_message_fuel n sx)) as HN.
  pose proof (c_message_event sx _ (c_message_fuel n sx)) as HC.
  unfold pmap, terminated. apply n_pbind; [|consume|intro; nofuel_tac].
  apply n_pbind; [|consume|intro; nofuel_tac].
  unfold pair at 1. apply n_pbind_strict; [nofuel_tac| |intro; nofuel_tac].
  unfold delimited, preceded. apply s_pbind_l; [|intro; consume].
  apply s_pair; [apply s_tag; discriminate|consume].
Qed.

Lemma n_message : forall n sx, nofuel n (p_message sx).
Proof. intros n sx s _. unfold p_message. apply n_message_fuel. lia. Qed.
Lemma n_extend : forall n sx, nofuel n (p_extend sx).
Proof. intros. unfold p_extend. nofuel_tac. Qed.
Global Hint Resolve n_message n_extend : pn.
Lemma n_event : forall n sx, nofuel n (p_event sx).
Proof. intros. unfold p_event. nofuel_tac. Qed.
Global Hint Resolve n_event : pn.

Lemma n_file : forall n check, nofuel n (p_file check).
Proof.
  intros n check s L E. unfold p_file in E.
  destruct (scan_syntax check s) as [r sx| | |] eqn:E1; try discriminate.
  - revert E. apply (n_pbind n); [nofuel_tac|consume|intro; nofuel_tac|exact L].
  - revert E1. assert (H : nofuel n (scan_syntax check)) by (unfold scan_syntax; nofuel_tac).
    exact (H s L).
Qed.

Lemma c_file : forall check, consumes (p_file check).
Proof.
  intros check s r a E. unfold p_file in E.
  destruct (scan_syntax check s) as [r1 sx| | |] eqn:E1; try discriminate.
  revert E. apply (c_pbind _ _ (many0 (p_event sx))); [consume|intro; consume].
Qed.

(* ---- more fuel changes nothing ---- *)

(** [q] does what [p] does, where [p] does not lack fuel *)
Definition lep {A} (p q : parser A) : Prop := forall s, p s = PFuel \/ p s = q s.

Lemma l_refl : forall A (p : parser A), lep p p.
Proof. intros A p s. now right. Qed.

Lemma l_pbind : forall A B (p q : parser A) (k l : A -> parser B),
  lep p q -> (forall a, lep (k a) (l a)) -> lep (pbind p k) (pbind q l).
Proof.
  intros A B p q k l Hp Hk s. unfold pbind.
  destruct (Hp s) as [E|E]; rewrite E; [now left|].
  destruct (q s) as [r a| | |]; [apply Hk|now right..].
Qed.

Lemma l_alt : forall A (ps qs : list (parser A)), Forall2 lep ps qs -> lep (alt ps) (alt qs).
Proof.
  intros A ps qs H. induction H as [|p q ps qs Hp _ IH]; [apply l_refl|].
  intro s. cbn [alt]. destruct (Hp s) as [E|E]; rewrite E; [now left|].
  destruct (q s); [now right|apply IH|now right..].
Qed.

Lemma l_many0 : forall A (p q : parser A), lep p q -> lep (many0 p) (many0 q).
Proof.
  intros A p q H s. unfold many0. generalize (S (slen s)) as n. intro n. revert s.
  induction n as [|n IH]; intro s; cbn [many0_fuel]; [now left|].
  destruct (H s) as [E|E]; rewrite E; [now left|].
  destruct (q s) as [r a| | |]; [|now right..].
  destruct (slen r <? slen s)%nat; [|now right].
  destruct (IH r) as [E2|E2]; rewrite E2; [now left|now right].
Qed.

Ltac lep_tac :=
  repeat match goal with
  | H : lep ?p ?q |- lep ?p ?q => exact H
  | |- lep ?p ?p => apply l_refl
  | |- lep (pbind _ _) (pbind _ _) => apply l_pbind; [|intro]
  | |- lep (pmap _ _) (pmap _ _) => unfold pmap
  | |- lep (pair _ _) (pair _ _) => unfold pair
  | |- lep (preceded _ _) (preceded _ _) => unfold preceded
  | |- lep (terminated _ _) (terminated _ _) => unfold terminated
  | |- lep (delimited _ _ _) (delimited _ _ _) => unfold delimited
  | |- lep (separated_pair _ _ _) (separated_pair _ _ _) => unfold separated_pair
  | |- lep (alt _) (alt _) => apply l_alt
  | |- lep (many0 _) (many0 _) => apply l_many0
  | |- Forall2 lep _ _ => constructor
  end.

Lemma l_map_field : forall p q, lep p q -> lep (map_field p) (map_field q).
Proof. intros p q H. unfold map_field. lep_tac. Qed.

(** parser.rs:221-241 with a given parser for the types inside a map *)
Definition field_type_body (ft : parser field_type) : parser field_type :=
  alt (map (fun '(k, t) => pvalue t (tag k)) scalars
       ++ [pmap (map_field ft) (fun '(k, v) => TMap k v);
           pmap qualifiable_name TMessageOrEnum]).

Lemma l_field_type_body : forall p q, lep p q -> lep (field_type_body p) (field_type_body q).
Proof.
  intros p q H. pose proof (l_map_field p q H) as HM.
  unfold field_type_body, scalars. cbn [map app]. lep_tac.
Qed.

Lemma l_field_type_fuel : forall n m, (n <= m)%nat ->
  lep (p_field_type_fuel n) (p_field_type_fuel m).
Proof.
  induction n as [|n IH]; intros m L s; [now left|].
  destruct m as [|m]; [lia|].
  change (p_field_type_fuel (S n)) with (field_type_body (p_field_type_fuel n)).
  change (p_field_type_fuel (S m)) with (field_type_body (p_field_type_fuel m)).
  apply l_field_type_body. apply IH. lia.
Qed.

Lemma l_field_type : forall n, lep (p_field_type_fuel n) p_field_type.
Proof.
  intros n s. unfold p_field_type.
  destruct (Nat.le_ge_cases n (S (slen s))) as [L|L].
  - now apply l_field_type_fuel.
  - destruct (l_field_type_fuel _ _ L s) as [E|E]; [|right; now symmetry].
    exfalso. revert E. apply n_field_type_fuel. lia.
Qed.

(** the equation of [field_type] *)
Lemma field_type_eq : forall s, p_field_type s = field_type_body p_field_type s.
Proof.
  intro s. destruct (l_field_type_body _ _ (l_field_type (slen s)) s) as [E|E].
  - exfalso. revert E. apply (n_field_type_fuel (S (slen s))). lia.
  - exact E.
Qed.

(** parser.rs:464-495 with a given parser for the nested messages *)
Definition message_body (sx : syntax) (pm : parser message) : parser message :=
  pmap (terminated
          (pair (delimited (pair (tag "message") (many1 br)) word (many0 br))
                (delimited (tag "{") (many0 (p_message_event sx pm)) (tag "}")))
          (opt (pair (many0 br) (tag ";"))))
       (fun '(name, events) => fold_left add_message_event events (new_message name)).

Lemma l_message_body : forall sx p q, lep p q -> lep (message_body sx p) (message_body sx q).
Proof. intros sx p q H. unfold message_body, p_message_event. lep_tac. Qed.

Lemma l_message_fuel : forall n m sx, (n <= m)%nat ->
  lep (p_message_fuel n sx) (p_message_fuel m sx).
Proof.
  induction n as [|n IH]; intros m sx L s; [now left|].
  destruct m as [|m]; [lia|].
  change (p_message_fuel (S n) sx) with (message_body sx (p_message_fuel n sx)).
  change (p_message_fuel (S m) sx) with (message_body sx (p_message_fuel m sx)).
  apply l_message_body. apply IH. lia.
Qed.

Lemma l_message : forall n sx, lep (p_message_fuel n sx) (p_message sx).
Proof.
  intros n sx s. unfold p_message.
  destruct (Nat.le_ge_cases n (S (slen s))) as [L|L].
  - now apply l_message_fuel.
  - destruct (l_message_fuel _ _ sx L s) as [E|E]; [|right; now symmetry].
    exfalso. revert E. apply n_message_fuel. lia.
Qed.

(** the equation of [message] *)
Lemma message_eq : forall sx s, p_message sx s = message_body sx (p_message sx) s.
Proof.
  intros sx s. destruct (l_message_body sx _ _ (l_message (slen s) sx) s) as [E|E].
  - exfalso. revert E. apply (n_message_fuel (S (slen s)) sx). lia.
  - exact E.
Qed.

(** the equation of [many0] *)
Lemma many0_eq : forall A (p : parser A) s,
  many0 p s =
  match p s with
  | POk r a =>
    if (slen r <? slen s)%nat
    then match many0 p r with
         | POk r' l => POk r' (a :: l)
         | PErr => PErr | PPanic => PPanic | PFuel => PFuel
         end
    else PErr
  | PErr => POk s []
  | PPanic => PPanic
  | PFuel => PFuel
  end.
Proof.
  intros A p s.
  assert (H : forall n m s, (slen s < n)%nat -> (slen s < m)%nat ->
    many0_fuel n p s = many0_fuel m p s).
  { induction n as [|n IH]; intros [|m] s0 Ln Lm; try lia. cbn [many0_fuel].
    destruct (p s0) as [r a| | |]; try reflexivity.
    destruct (slen r <? slen s0)%nat eqn:L; [|reflexivity]. apply Nat.ltb_lt in L.
    now rewrite (IH m r) by lia. }
  unfold many0 at 1. cbn [many0_fuel].
  destruct (p s) as [r a| | |]; try reflexivity.
  destruct (slen r <? slen s)%nat eqn:L; [|reflexivity]. apply Nat.ltb_lt in L.
  now rewrite (H (slen s) (S (slen r)) r) by lia.
Qed.

(** the equation of the loop of [separated_list1] *)
Lemma sep_loop_eq : forall A B ck (sep : parser B) (p : parser A) s,
  sep_loop ck (S (slen s)) sep p s =
  match sep s with
  | POk r _ =>
    if ck && negb (slen r <? slen s)%nat then PErr
    else match p r with
         | POk r' a =>
           if (slen r' <? slen s)%nat
           then match sep_loop ck (S (slen r')) sep p r' with
                | POk r'' l => POk r'' (a :: l)
                | PErr => PErr | PPanic => PPanic | PFuel => PFuel
                end
           else PErr
         | PErr => POk s []
         | PPanic => PPanic
         | PFuel => PFuel
         end
  | PErr => POk s []
  | PPanic => PPanic
  | PFuel => PFuel
  end.
Proof.
  intros A B ck sep p s.
  assert (H : forall n m s, (slen s < n)%nat -> (slen s < m)%nat ->
    sep_loop ck n sep p s = sep_loop ck m sep p s).
  { induction n as [|n IH]; intros [|m] s0 Ln Lm; try lia. cbn [sep_loop].
    destruct (sep s0) as [r0 b| | |]; try reflexivity.
    destruct (ck && _); [reflexivity|].
    destruct (p r0) as [r a| | |]; try reflexivity.
    destruct (slen r <? slen s0)%nat eqn:L; [|reflexivity]. apply Nat.ltb_lt in L.
    now rewrite (IH m r) by lia. }
  cbn [sep_loop]. destruct (sep s) as [r0 b| | |]; try reflexivity.
  destruct (ck && _); [reflexivity|].
  destruct (p r0) as [r a| | |]; try reflexivity.
  destruct (slen r <? slen s)%nat eqn:L; [|reflexivity]. apply Nat.ltb_lt in L.
  now rewrite (H (slen s) (S (slen r)) r) by lia.
Qed.
