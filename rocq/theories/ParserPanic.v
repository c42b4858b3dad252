(** When the parser does not panic: the three places that unwrap a parsed value
    are guarded by the words "packed", "deprecated" and "extensions"; the fourth
    is the scan for the syntax declaration. *)
From Coq Require Import String Ascii Arith Lia.
From Verif Require Import Base Schema Modules Parser ParserFacts ProtoText TextFacts FieldText ParserOut.
Import StringSyntax.
Local Open Scope string_scope.
Local Open Scope list_scope.

(** none of the words occurs *)
Definition without (ws : list text) (s : text) : Prop := forall w, In w ws -> ~ occurs w s.

Lemma without_suffix : forall ws r s, suffix r s -> without ws s -> without ws r.
Proof.
  intros ws r s [t ->] H w Hw [a [b ->]]. apply (H w Hw). exists (t ++ a)%string, b.
  now rewrite append_assoc.
Qed.

Lemma without_prefix : forall ws w s, without ws (w ++ s)%string -> ~ In w ws.
Proof. intros ws w s H Hw. apply (H w Hw). now exists "", s. Qed.

(** no panic on texts without the words *)
Definition calm (ws : list text) {A} (p : parser A) : Prop :=
  forall s, without ws s -> p s <> PPanic.

Section Calm.
Variable ws : list text.

Lemma k_pret : forall A (a : A), calm ws (pret a).
Proof. intros A a s _ H. discriminate. Qed.
Lemma k_fuel : forall A, calm ws (fun _ => @PFuel A).
Proof. intros A s _ H. discriminate. Qed.
Lemma k_pbind : forall A B (p : parser A) (k : A -> parser B),
  calm ws p -> consumes p -> (forall a, calm ws (k a)) -> calm ws (pbind p k).
Proof.
  intros A B p k Hp Cp Hk s L E. unfold pbind in E.
  destruct (p s) as [r1 a| | |] eqn:E1; try discriminate; [|exact (Hp s L E1)].
  exact (Hk a r1 (without_suffix ws r1 s (Cp s r1 a E1) L) E).
Qed.
Lemma k_digits : forall r t, calm ws (fun s => match parse_digits r t with
  | COk b => POk s b | CErr => PErr | CPanic => PPanic end).
Proof.
  intros r t s _ H. unfold parse_digits in H. destruct (_ <=? _)%Z; discriminate.
Qed.
Lemma k_if : forall A (c : bool) (a : A), calm ws (fun s => if c then POk s a else PErr).
Proof. intros A c a s _ H. destruct c; discriminate. Qed.
Lemma k_alt : forall A (ps : list (parser A)), Forall (calm ws) ps -> calm ws (alt ps).
Proof.
  intros A ps H. induction H as [|p ps Hp _ IH]; intros s L E; [discriminate|]. cbn in E.
  destruct (p s) as [r a| | |] eqn:E1; try discriminate; [exact (IH s L E)|exact (Hp s L E1)].
Qed.
Lemma k_opt : forall A (p : parser A), calm ws p -> calm ws (opt p).
Proof.
  intros A p H s L E. unfold opt in E.
  destruct (p s) as [r a| | |] eqn:E1; try discriminate. exact (H s L E1).
Qed.
Lemma k_many0 : forall A (p : parser A), calm ws p -> consumes p -> calm ws (many0 p).
Proof.
  intros A p H C s. unfold many0. generalize (S (slen s)). intro n. revert s.
  induction n as [|n IH]; intros s L E; [discriminate|]. cbn [many0_fuel] in E.
  destruct (p s) as [r a| | |] eqn:E1; try discriminate; [|exact (H s L E1)].
  destruct (slen r <? slen s)%nat; [|discriminate].
  pose proof (without_suffix ws r s (C s r a E1) L) as Lr. specialize (IH r Lr).
  destruct (many0_fuel n p r); try discriminate. now apply IH.
Qed.
Lemma k_sep_loop : forall A B ck (sep : parser B) (p : parser A),
  calm ws sep -> consumes sep -> calm ws p -> consumes p -> forall n, calm ws (sep_loop ck n sep p).
Proof.
  intros A B ck sep p Hs Cs Hp Cp. induction n as [|n IH]; intros s L E; [discriminate|].
  cbn [sep_loop] in E.
  destruct (sep s) as [r0 b| | |] eqn:E0; try discriminate; [|exact (Hs s L E0)].
  destruct (ck && _); [discriminate|].
  pose proof (without_suffix ws r0 s (Cs s r0 b E0) L) as L0.
  destruct (p r0) as [r1 a| | |] eqn:E1; try discriminate; [|exact (Hp r0 L0 E1)].
  destruct (slen r1 <? slen s)%nat; [|discriminate].
  pose proof (without_suffix ws r1 r0 (Cp r0 r1 a E1) L0) as L1. specialize (IH r1 L1).
  destruct (sep_loop ck n sep p r1); try discriminate. now apply IH.
Qed.
Lemma k_sep : forall A B ck (sep : parser B) (p : parser A),
  calm ws sep -> consumes sep -> calm ws p -> consumes p ->
  calm ws (fun s => sep_loop ck (S (slen s)) sep p s).
Proof. intros A B ck sep p H1 H2 H3 H4 s. now apply k_sep_loop. Qed.
Lemma k_separated_list0 : forall A B ck (sep : parser B) (p : parser A),
  calm ws sep -> consumes sep -> calm ws p -> consumes p -> calm ws (separated_list0 ck sep p).
Proof.
  intros A B ck sep p Hs Cs Hp Cp s L E. unfold separated_list0 in E.
  destruct (p s) as [r a| | |] eqn:E1; try discriminate; [|exact (Hp s L E1)].
  revert E. apply k_pbind; [now apply k_sep|now apply c_sep|intro; apply k_pret|].
  exact (without_suffix ws r s (Cp s r a E1) L).
Qed.
Lemma k_recognize : forall A (p : parser A), calm ws p -> calm ws (recognize p).
Proof.
  intros A p H s L E. unfold recognize in E.
  destruct (p s) as [r a| | |] eqn:E1; try discriminate. exact (H s L E1).
Qed.
Lemma k_tag : forall t, calm ws (tag t).
Proof. intros t s _ E. unfold tag in E. destruct (String.prefix t s); discriminate. Qed.
Lemma k_take_until : forall t, calm ws (take_until t).
Proof. intros t s _ E. unfold take_until in E. destruct (find_str t s); discriminate. Qed.
Lemma k_chars1 : forall f, calm ws (chars1 f).
Proof. intros f s _ E. unfold chars1 in E. destruct (span f s) as [[|c u] r]; discriminate. Qed.
Lemma k_anychar : calm ws anychar.
Proof. intros [|c s] _ E; discriminate. Qed.
Lemma k_not_line_ending : calm ws not_line_ending.
Proof.
  intros s _ E. unfold not_line_ending in E.
  destruct (span _ s) as [u [|c q]]; [discriminate|].
  destruct (code c =? 13)%nat; [|discriminate].
  destruct q as [|b q]; [discriminate|]. destruct (code b =? 10)%nat; discriminate.
Qed.

End Calm.

Create HintDb pk.
Global Hint Resolve k_pret k_digits k_if k_tag k_take_until k_chars1 k_anychar
  k_not_line_ending : pk.

Ltac calm_tac :=
  repeat match goal with
  | H : calm ?n ?p |- calm ?n ?p => exact H
  | |- calm _ (pbind _ _) => apply k_pbind; [| |intro]
  | |- calm _ (map_res _ _) => unfold map_res
  | |- calm _ (pmap _ _) => unfold pmap
  | |- calm _ (pvalue _ _) => unfold pvalue
  | |- calm _ (pair _ _) => unfold pair
  | |- calm _ (preceded _ _) => unfold preceded
  | |- calm _ (terminated _ _) => unfold terminated
  | |- calm _ (delimited _ _ _) => unfold delimited
  | |- calm _ (separated_pair _ _ _) => unfold separated_pair
  | |- calm _ (alt _) => apply k_alt
  | |- calm _ (opt _) => apply k_opt
  | |- calm _ (many0 _) => apply k_many0
  | |- calm _ (many1 _) => unfold many1
  | |- calm _ (fun s => sep_loop _ (S (slen s)) _ _ s) => apply k_sep
  | |- calm _ (separated_list1 _ _) => unfold separated_list1
  | |- calm _ (separated_list0 _ _ _) => apply k_separated_list0
  | |- calm _ (recognize _) => apply k_recognize
  | |- calm _ (verify _ _) => unfold verify
  | |- Forall (calm _) _ => constructor
  | |- calm _ _ => solve [eauto with pk]
  | |- consumes _ => solve [consume]
  end.

Lemma k_word : forall ws, calm ws word.
Proof. intro. unfold word, alpha1, alphanumeric1. calm_tac. Qed.
Global Hint Resolve k_word : pk.
Lemma k_qualifiable_name : forall ws, calm ws qualifiable_name.
Proof. intro. unfold qualifiable_name. calm_tac. Qed.
Lemma k_hex_integer : forall ws, calm ws hex_integer.
Proof. intro. unfold hex_integer, hex_digit1. calm_tac. Qed.
Lemma k_integer : forall ws, calm ws integer.
Proof. intro. unfold integer, digit1. calm_tac. Qed.
Lemma k_comment : forall ws, calm ws comment.
Proof. intro. unfold comment. calm_tac. Qed.
Lemma k_block_comment : forall ws, calm ws block_comment.
Proof. intro. unfold block_comment. calm_tac. Qed.
Global Hint Resolve k_qualifiable_name k_hex_integer k_integer k_comment k_block_comment : pk.
Lemma k_br : forall ws, calm ws br.
Proof. intro. unfold br, multispace1. calm_tac. Qed.
Global Hint Resolve k_br : pk.
Lemma k_string : forall ws, calm ws p_string.
Proof. intro. unfold p_string. calm_tac. Qed.
Global Hint Resolve k_string : pk.
Lemma k_syntax : forall ws, calm ws p_syntax.
Proof. intro. unfold p_syntax. calm_tac. Qed.
Lemma k_import : forall ws, calm ws p_import.
Proof. intro. unfold p_import. calm_tac. Qed.
Lemma k_package : forall ws, calm ws p_package.
Proof. intro. unfold p_package. calm_tac. Qed.
Lemma k_num_range : forall ws, calm ws num_range.
Proof. intro. unfold num_range. calm_tac. Qed.
Lemma k_comma : forall ws, calm ws comma.
Proof. intro. unfold comma. calm_tac. Qed.
Global Hint Resolve k_num_range k_comma : pk.
Lemma k_reserved_nums : forall ws, calm ws reserved_nums.
Proof. intro. unfold reserved_nums. calm_tac. Qed.
Lemma k_reserved_names : forall ws, calm ws reserved_names.
Proof. intro. unfold reserved_names. calm_tac. Qed.
Lemma k_equals : forall ws, calm ws equals.
Proof. intro. unfold equals. calm_tac. Qed.
Global Hint Resolve k_equals : pk.
Lemma k_key_val : forall ws, calm ws key_val.
Proof. intro. unfold key_val. calm_tac. Qed.
Lemma k_frequency : forall ws, calm ws p_frequency.
Proof. intro. unfold p_frequency. calm_tac. Qed.
Global Hint Resolve k_syntax k_import k_package k_reserved_nums k_reserved_names
  k_key_val k_frequency : pk.
Lemma k_map_field : forall ws ft, calm ws ft -> consumes ft -> calm ws (map_field ft).
Proof. intros ws ft H C. unfold map_field. calm_tac. Qed.
Lemma k_scalars : forall ws, Forall (calm ws) (map (fun '(k, t) => pvalue t (tag k)) scalars).
Proof. intro. unfold scalars. cbn [map]. calm_tac. Qed.
Lemma k_field_type_fuel : forall ws n, calm ws (p_field_type_fuel n).
Proof.
  intros ws n. induction n as [|n IH]; cbn [p_field_type_fuel]; [apply k_fuel|].
  apply k_alt. apply Forall_app. split; [apply k_scalars|].
  constructor; [|constructor; [calm_tac|constructor]].
  unfold pmap. apply k_pbind; [|apply c_map_field, c_field_type_fuel|intro; calm_tac].
  apply k_map_field; [exact IH|apply c_field_type_fuel].
Qed.
Lemma k_field_type : forall ws, calm ws p_field_type.
Proof. intros ws s. apply k_field_type_fuel. Qed.
Global Hint Resolve k_field_type : pk.

(* ---- the guarded places ---- *)

Definition panic_words : list text := ["packed"; "deprecated"; "extensions"].

Definition plain_keys (kvs : list (text * text)) : Prop :=
  Forall (fun kv => ~ In (fst kv) panic_words) kvs.

Lemma key_val_plain : forall s r kv, without panic_words s -> key_val s = POk r kv ->
  ~ In (fst kv) panic_words.
Proof.
  intros s r kv H E. unfold key_val, delimited, preceded, terminated, separated_pair, pbind, pret in E.
  unfold preceded, pbind in E.
  destruct (pair (tag "[") (many0 br) s) as [r1 x| | |] eqn:E1; try discriminate.
  assert (C1 : consumes (pair (tag "[") (many0 br))) by consume.
  pose proof (without_suffix _ _ _ (C1 s r1 x E1) H) as H1.
  destruct (word r1) as [r2 k| | |] eqn:E2; try discriminate.
  destruct (equals r2) as [r3 y| | |]; try discriminate.
  destruct (pmap (take_until "]") trim r3) as [r4 v| | |]; try discriminate.
  destruct (tag "]" r4) as [r5 z| | |]; try discriminate.
  injection E as _ <-. cbn [fst]. apply word_sound in E2. destruct E2 as [_ ->].
  now apply without_prefix in H1.
Qed.

Lemma key_vals_plain : forall s r kvs, without panic_words s -> many0 key_val s = POk r kvs ->
  plain_keys kvs.
Proof.
  intro s. unfold many0. generalize (S (slen s)). intro n. revert s.
  induction n as [|n IH]; intros s r kvs H E; [discriminate|]. cbn [many0_fuel] in E.
  destruct (key_val s) as [r1 kv| | |] eqn:E1; try discriminate.
  - destruct (slen r1 <? slen s)%nat; [|discriminate].
    destruct (many0_fuel n key_val r1) as [r2 l| | |] eqn:E2; try discriminate.
    injection E as _ <-. constructor; [now apply (key_val_plain s r1)|].
    apply (IH r1 r2 l); [|exact E2]. eapply without_suffix; [|exact H].
    exact (c_key_val s r1 kv E1).
  - injection E as _ <-. constructor.
Qed.

Lemma plain_lookup : forall k kvs, plain_keys kvs -> In k panic_words -> lookup_key k kvs = None.
Proof.
  intros k kvs H Hk. unfold lookup_key. induction H as [|kv l Hkv _ IH]; [reflexivity|].
  cbn [find]. match goal with |- context [if ?c then _ else _] => destruct c eqn:E end; [|exact IH].
  apply String.eqb_eq in E. now rewrite <- E in Hk.
Qed.

Lemma default_check_calm : forall sx t kvs, default_check sx t kvs <> CPanic.
Proof.
  intros sx t kvs. unfold default_check. destruct (lookup_key "default" kvs); [|discriminate].
  destruct sx, t; try discriminate; destruct (alt _ _); discriminate.
Qed.

Lemma build_field_calm : forall sx ff x, plain_keys (snd (snd (snd x))) -> build_field sx ff x <> CPanic.
Proof.
  intros sx ff [tok [t [[name n] kvs]]] H. cbn [snd] in H. unfold build_field.
  pose proof (default_check_calm sx t kvs) as D.
  destruct (default_check sx t kvs); [|discriminate|congruence].
  unfold bool_option. rewrite !plain_lookup; try assumption; try (cbn; tauto). discriminate.
Qed.

Lemma k_field_generic : forall sx ff, calm panic_words (field_generic sx ff).
Proof.
  intros sx ff s H E. unfold field_generic, map_res, pbind in E.
  match type of E with match ?p s with _ => _ end = _ => set (body := p) in E end.
  destruct (body s) as [r x| | |] eqn:Eb; try discriminate.
  - assert (K : plain_keys (snd (snd (snd x)))).
    { unfold body, pair, pbind, pret in Eb.
      destruct (opt (terminated p_frequency (many1 br)) s) as [r1 a1| | |] eqn:E1; try discriminate.
      assert (C1 : consumes (opt (terminated p_frequency (many1 br)))) by consume.
      pose proof (without_suffix _ _ _ (C1 s r1 a1 E1) H) as H1.
      destruct (terminated p_field_type (many1 br) r1) as [r2 a2| | |] eqn:E2; try discriminate.
      assert (C2 : consumes (terminated p_field_type (many1 br))) by consume.
      pose proof (without_suffix _ _ _ (C2 r1 r2 a2 E2) H1) as H2.
      destruct (separated_pair word equals (alt [integer; hex_integer]) r2) as [r3 a3| | |] eqn:E3;
        try discriminate.
      assert (C3 : consumes (separated_pair word equals (alt [integer; hex_integer]))) by consume.
      pose proof (without_suffix _ _ _ (C3 r2 r3 a3 E3) H2) as H3.
      unfold delimited, preceded, terminated, pbind in Eb.
      destruct (many0 br r3) as [r4 a4| | |] eqn:E4; try discriminate.
      assert (C4 : consumes (many0 br)) by consume.
      pose proof (without_suffix _ _ _ (C4 r3 r4 a4 E4) H3) as H4.
      destruct (many0 key_val r4) as [r5 kvs| | |] eqn:E5; try discriminate.
      apply key_vals_plain in E5; [|exact H4].
      destruct (many0 br r5) as [r6 a6| | |]; try discriminate.
      destruct (tag ";" r6) as [r7 a7| | |]; try discriminate.
      injection Eb as _ <-. exact E5. }
    pose proof (build_field_calm sx ff x K) as B.
    destruct (build_field sx ff x); try discriminate. congruence.
  - assert (Cb : calm panic_words body) by (unfold body; calm_tac).
    exact (Cb s H Eb).
Qed.

Lemma k_extensions : calm panic_words p_extensions.
Proof.
  intros s H E. unfold p_extensions, map_res, delimited, preceded, pair, pbind in E.
  destruct (tag "extensions" s) as [r x| | |] eqn:Et; try discriminate.
  - apply e_tag in Et. destruct Et as [t [-> ->]]. apply without_prefix in H. apply H. cbn. tauto.
  - revert Et. now apply k_tag with panic_words.
Qed.

Lemma k_message_field : forall sx, calm panic_words (message_field sx).
Proof. intro. apply k_field_generic. Qed.
Lemma k_oneof_message_field : forall sx, calm panic_words (oneof_message_field sx).
Proof. intro. apply k_field_generic. Qed.
Global Hint Resolve k_message_field k_oneof_message_field k_extensions : pk.
Lemma k_one_of : forall sx, calm panic_words (p_one_of sx).
Proof. intros. unfold p_one_of. calm_tac. Qed.
Lemma k_option_ignore : forall ws, calm ws option_ignore.
Proof. intro. unfold option_ignore. calm_tac. Qed.
Global Hint Resolve k_one_of k_option_ignore : pk.
Lemma k_rpc_function : forall ws, calm ws p_rpc_function.
Proof. intro. unfold p_rpc_function. calm_tac. Qed.
Global Hint Resolve k_rpc_function : pk.
Lemma k_rpc_service : forall ws, calm ws p_rpc_service.
Proof. intro. unfold p_rpc_service. calm_tac. Qed.
Lemma k_enum_deprecated : forall ws, calm ws enum_deprecated.
Proof. intro. unfold enum_deprecated, multispace1. calm_tac. Qed.
Global Hint Resolve k_enum_deprecated : pk.
Lemma k_enum_field : forall ws, calm ws enum_field.
Proof. intro. unfold enum_field. calm_tac. Qed.
Global Hint Resolve k_rpc_service k_enum_field : pk.
Lemma k_enum_event : forall ws, calm ws enum_event.
Proof. intro. unfold enum_event. calm_tac. Qed.
Global Hint Resolve k_enum_event : pk.
Lemma k_enumerator : forall ws, calm ws p_enumerator.
Proof. intro. unfold p_enumerator. calm_tac. Qed.
Global Hint Resolve k_enumerator : pk.
Lemma k_message_event : forall sx pm, calm panic_words pm -> consumes pm ->
  calm panic_words (p_message_event sx pm).
Proof. intros sx pm H C. unfold p_message_event. calm_tac. Qed.
Lemma k_message_fuel : forall n sx, calm panic_words (p_message_fuel n sx).
Proof.
  induction n as [|n IH]; intro sx; cbn [p_message_fuel]; [apply k_fuel|].
  pose proof (k_message_event sx _ (IH sx) (c_message_fuel n sx)) as HN.
  pose proof (c_message_event sx _ (c_message_fuel n sx)) as HC.
  calm_tac.
Qed.
Lemma k_message : forall sx, calm panic_words (p_message sx).
Proof. intros sx s. apply k_message_fuel. Qed.
Lemma k_extend : forall sx, calm panic_words (p_extend sx).
Proof. intros. unfold p_extend. calm_tac. Qed.
Global Hint Resolve k_message k_extend : pk.
Lemma k_event : forall sx, calm panic_words (p_event sx).
Proof. intros. unfold p_event. calm_tac. Qed.
Global Hint Resolve k_event : pk.

(* ---- the scan for the syntax declaration ---- *)

Lemma syntax_ends : forall s r sx, p_syntax s = POk r sx -> exists u, s = (u ++ ";" ++ r)%string.
Proof.
  intros s r sx E. unfold p_syntax, delimited, preceded, terminated, pbind, pret in E.
  set (p1 := pair (tag "syntax") (pair (many0 br) (pair (tag "=") (many0 br)))) in E.
  destruct (p1 s) as [r1 x1| | |] eqn:E1; try discriminate.
  assert (C1 : consumes p1) by (unfold p1; consume).
  match type of E with match match ?q with _ => _ end with _ => _ end = _ => idtac | _ => idtac end.
  set (p2 := alt [pvalue Proto2 (tag (quote ++ "proto2" ++ quote)%string);
                  pvalue Proto3 (tag (quote ++ "proto3" ++ quote)%string)]) in E.
  destruct (p2 r1) as [r2 x2| | |] eqn:E2; try discriminate.
  assert (C2 : consumes p2) by (unfold p2; consume).
  unfold pair, pbind, pret in E.
  destruct (many0 br r2) as [r3 x3| | |] eqn:E3; try discriminate.
  assert (C3 : consumes (many0 br)) by consume.
  destruct (tag ";" r3) as [r4 x4| | |] eqn:E4; try discriminate.
  injection E as <- _. apply e_tag in E4. destruct E4 as [t [-> ->]].
  apply C1 in E1. apply C2 in E2. apply C3 in E3.
  destruct E1 as [a ->], E2 as [b ->], E3 as [c ->].
  exists (a ++ b ++ c)%string. now rewrite !append_assoc.
Qed.

Lemma anychars_ok : forall s, exists l, many0 anychar s = POk "" l.
Proof.
  induction s as [|c s [l IH]]; [now exists []|]. exists (c :: l).
  rewrite many0_eq. cbn [anychar]. rewrite IH.
  now rewrite (proj2 (Nat.ltb_lt (slen s) (slen (String c s)))) by (cbn; lia).
Qed.

(** [scan_syntax] succeeds, or the text is a syntax declaration and nothing else *)
Lemma scan_total : forall check s, (exists r sx, scan_syntax check s = POk r sx)
  \/ (check = true /\ exists sx, p_syntax s = POk "" sx /\ scan_syntax check s = PErr).
Proof.
  intros check s. unfold scan_syntax, separated_list0, pmap, pbind, pret.
  destruct (p_syntax s) as [r sx| | |] eqn:E.
  - rewrite sep_loop_eq. destruct (anychars_ok r) as [l ->].
    change (p_syntax "") with (@PErr syntax).
    destruct (check && negb (slen "" <? slen r)%nat) eqn:Ec.
    + right. apply andb_true_iff in Ec. destruct Ec as [-> Ec].
      apply negb_true_iff, Nat.ltb_ge in Ec. destruct r; [|cbn in Ec; lia].
      split; [reflexivity|]. now exists sx.
    + left. eexists _, _. reflexivity.
  - left. eexists _, _. reflexivity.
  - exfalso. apply (k_syntax [] s); [intros w []|exact E].
  - exfalso. apply (n_syntax (S (slen s)) s); [lia|exact E].
Qed.

Lemma k_file : forall check s, without panic_words s ->
  (check = true -> forall u, s <> (u ++ ";")%string) -> p_file check s <> PPanic.
Proof.
  intros check s H Hc E. unfold p_file in E.
  destruct (scan_total check s) as [[r [sx Es]]|[Ck [sx [Es _]]]].
  - rewrite Es in E. revert E.
    assert (K : calm panic_words (pmap (many0 (p_event sx)) (fun es => fold_left add_event es empty_file)))
      by calm_tac.
    now apply K.
  - apply syntax_ends in Es. destruct Es as [u Es]. rewrite append_nil_r in Es. now apply (Hc Ck u).
Qed.
