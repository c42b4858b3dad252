(** Property theorems C43 and C54-C60: the parser of proto files.  The
    specifications are the grammar in ProtoText.v and the predicates at the top
    of ParserOut.v. *)
From Coq Require Import String Ascii Arith Lia.
From Verif Require Import Base Schema Modules Parser ParserFacts ProtoText TextFacts FieldText
  MessageText FileText ParserOut ParserPanic.
Import StringSyntax.
Local Open Scope string_scope.
Local Open Scope list_scope.

(* ---- C54 ---- *)

(** The parser terminates on every text: loops and recursion need no more steps
    than the text has characters.  What it leaves unread is an end of the
    text. *)
Theorem C54_parser_terminates : forall check s,
  p_file check s <> PFuel
  /\ (forall r p, p_file check s = POk r p -> exists t, s = (t ++ r)%string).
Proof.
  intros check s. split.
  - apply (n_file (S (slen s)) check s). lia.
  - intros r p E. exact (c_file check s r p E).
Qed.
Print Assumptions C54_parser_terminates.

(** unbalanced braces: the rest begins where the message cannot be read *)
Example C54_case : p_file true ("enum E { A = 0; } message M { message N { }")%string
  = POk "message M { message N { }"
      (mkParsed (mkDesc "" Proto2 [] [mkEnum "E" [("A", 0%Z)] false "" ""] "") [] [] []).
Proof. vm_compute. reflexivity. Qed.

(* ---- C55 ---- *)

(** Whatever the text, what the parser returns is well formed: names are
    identifiers, numbers are non-negative 32 bit integers, types are scalar types,
    type names or maps, no field is boxed, and the presence of every field is the
    one of one and the same syntax *)
Theorem C55_parsed_well_formed : forall check s r p, p_file check s = POk r p ->
  exists sx, parsed_file sx p.
Proof.
  intros check s r p E. destruct (o_file check s r p E) as [r' [sx [_ H]]]. now exists sx.
Qed.
Print Assumptions C55_parsed_well_formed.

Example C55_case : exists p,
  p_file true "message M { repeated .a.B xs = 3 [default = x]; oneof o { bool b = 2; } } garbage"%string
    = POk "garbage" p
  /\ map m_fields (d_messages (p_desc p))
     = [[mkField "xs" P2Repeated (TMessageOrEnum ".a.B") 3 (Some "x") None false false]].
Proof. eexists. split; vm_compute; reflexivity. Qed.

(* ---- C56 ---- *)

(** The declarations of the file descriptor *)
Record describes (sx : syntax) (ds : list decl) (p : parsed) : Prop := mkDescribes {
  de_syntax : d_syntax (p_desc p) = sx;
  (* the last package declaration; a file should have one at most *)
  de_package : d_package (p_desc p) = last (decl_packages ds) "";
  de_messages : d_messages (p_desc p) = decl_messages ds;
  de_enums : d_enums (p_desc p) = decl_enums ds;
  de_module : d_module (p_desc p) = "";
  de_imports : p_imports p = decl_imports ds;
  de_extends : p_extends p = decl_extends ds;
  de_services : map (fun s => (fst s, map (fun r => (rf_name r, rf_arg r, rf_ret r)) (snd s))) (p_services p)
                = decl_services ds }.

Lemma meaning_describes : forall sx ds, describes sx ds (file_meaning sx ds).
Proof.
  intros sx ds. constructor; try reflexivity. cbn [file_meaning p_services].
  rewrite map_map. rewrite <- (map_id (decl_services ds)) at 2. apply map_ext.
  intros [n rs]. cbn. f_equal. rewrite map_map. rewrite <- (map_id rs) at 2. apply map_ext.
  now intros [[a b] c].
Qed.

(** Every text of the grammar is read to the end, and gives exactly the
    declarations it stands for.  Missing: the texts the grammar leaves out, a
    proto3 declaration that is not at the very start (C43), and with newer
    versions of nom a file that is only a syntax declaration (C58). *)
Theorem C56_grammar_read_partial : forall check g sx ds t, file_text g sx ds t ->
  g = "" \/ sx = Proto2 ->
  (check = true -> ~ syntax_text sx t) ->
  exists p, p_file check t = POk "" p /\ describes sx ds p.
Proof.
  intros check g sx ds t H Hg Hc. exists (file_meaning sx ds). split; [|apply meaning_describes].
  destruct H as [g sx st ds t G Hs Hd|ds t Hd]; [|now apply file_plain_ok].
  apply file_declared_ok; auto. destruct g as [|c g].
  - left. split; [reflexivity|]. intros Hk ->. apply (Hc Hk). cbn. now rewrite append_nil_r.
  - right. split; [discriminate|]. now destruct Hg.
Qed.
Print Assumptions C56_grammar_read_partial.

(** A file of the grammar, put together rule by rule. *)
Definition exText : text := ("syntax = " ++ dq ++ "proto3" ++ dq ++ ";" ++ line_feed
  ++ "message A { // c" ++ line_feed
  ++ "repeated int32 xs = 10[packed=true]; map<string,B> m=2; reserved 3 to 5, 7; }")%string.

Definition exFields : list field :=
  [mkField "xs" P3Repeated TInt32 10 None (Some true) false false;
   mkField "m" P3Map (TMap TStringCow (TMessageOrEnum "B")) 2 None None false false].
Definition exMessage : message :=
  mkMessage "A" exFields [] (Some [3; 4; 5; 7]%Z) None false "" [] [] "" [].

Lemma space_gap : gap " ".
Proof. apply gap_blank; [left; reflexivity|apply gap_nil]. Qed.
Lemma space_break : break " ".
Proof. split; [apply space_gap|discriminate]. Qed.
Lemma feed_gap : gap line_feed.
Proof. apply gap_blank; [cbn; tauto|apply gap_nil]. Qed.

Lemma letter : forall c t, letter_char c -> all word_char t -> ident (String c t).
Proof. intros c t H A. constructor; [now left|exact A]. Qed.
Lemma word_letter : forall c t, letter_char c -> all word_char t -> all word_char (String c t).
Proof. intros c t H A. constructor; [left; now left|exact A]. Qed.
Ltac ident_tac :=
  first [apply letter; [unfold letter_char; cbn; lia|] | idtac];
  repeat (apply word_letter; [unfold letter_char; cbn; lia|]); try apply all_nil.

Lemma digit_number : forall d, (d <= 9)%nat -> number (Z.of_nat d) (digit_text d).
Proof. intros d H. split; [now constructor|unfold i32_max; lia]. Qed.

Lemma plain_B : plain_name "B".
Proof.
  split; [|split; [|discriminate]].
  - apply name_rel, path_one. ident_tac.
  - intros ty k H [b E]. unfold scalar_type in H. cbn [In] in H.
    repeat (destruct H as [H|H]; [injection H as <- _; cbn in E; discriminate|]). contradiction.
Qed.

Lemma ex_number : number 10 "10".
Proof. split; [exact (dec_more 1 "1" 0 (dec_digit 1 ltac:(lia)) ltac:(lia) ltac:(lia))|unfold i32_max; lia]. Qed.

Lemma ex_field1 : message_field_text Proto3
  (mkField "xs" P3Repeated TInt32 10 None (Some true) false false)
  "repeated int32 xs = 10[packed=true];".
Proof.
  refine (field_intro Proto3 (presence Proto3) LRepeated "repeated " TInt32 "int32" " " "xs" " " " "
            10 "10" (OPacked true) "[packed=true];" _ _ _ space_break _ space_gap space_gap ex_number _).
  - apply (lt_some LRepeated " "); [discriminate|apply space_break].
  - apply tt_scalar. unfold scalar_type. cbn [In]. tauto.
  - discriminate.
  - ident_tac.
  - apply (ft_option Proto3 TInt32 (OPacked true) "" "[packed=true]" ""); try apply gap_nil.
    apply ot_packed. exists "", "", "", "". repeat split; try apply gap_nil. apply all_nil.
Qed.

Lemma ex_field2 : message_field_text Proto3
  (mkField "m" P3Map (TMap TStringCow (TMessageOrEnum "B")) 2 None None false false)
  "map<string,B> m=2;".
Proof.
  refine (field_intro Proto3 (presence Proto3) LNone "" (TMap TStringCow (TMessageOrEnum "B"))
            "map<string,B>" " " "m" "" "" 2 "2" ONone ";" lt_none _ _ space_break _ gap_nil gap_nil
            (digit_number 2 ltac:(lia)) _).
  - apply (tt_map TStringCow (TMessageOrEnum "B") "string" "B" "" "" "" "" ""); try apply gap_nil.
    + apply tt_scalar. unfold scalar_type. cbn [In]. tauto.
    + apply tt_name, plain_B.
  - intros _ H. unfold statement_words in H. cbn [In] in H.
    repeat (destruct H as [H|H]; [discriminate|]). contradiction.
  - ident_tac.
  - exact (ft_none Proto3 _ "" gap_nil).
Qed.

Lemma ex_reserved : reserved_nums_text [3; 4; 5; 7]%Z "reserved 3 to 5, 7;".
Proof.
  refine (rn_intro " " [[3; 4; 5]; [7]]%Z "3 to 5, 7" "" space_break _ gap_nil).
  refine (cl_more range_text [3; 4; 5]%Z "3 to 5" "" " " [[7%Z]] "7" _ gap_nil space_gap _).
  - refine (range_two 3 "3" " " " " 5 "5" _ (digit_number 3 ltac:(lia)) space_break space_break
              (digit_number 5 ltac:(lia)) _). reflexivity.
  - apply cl_one. exact (range_one 7 "7" (digit_number 7 ltac:(lia))).
Qed.

Lemma ex_message : message_text Proto3 exMessage
  ("message A { // c" ++ line_feed
   ++ "repeated int32 xs = 10[packed=true]; map<string,B> m=2; reserved 3 to 5, 7; }")%string.
Proof.
  refine (message_intro Proto3 " " "A" " "
            [IField (nth 0 exFields (mkField "" P3Default TBool 0 None None false false));
             IField (nth 1 exFields (mkField "" P3Default TBool 0 None None false false));
             IReservedNums [3; 4; 5; 7]%Z]
            (" // c" ++ line_feed
             ++ "repeated int32 xs = 10[packed=true]; map<string,B> m=2; reserved 3 to 5, 7; ")%string
            "" (Some [3; 4; 5; 7]%Z) None
            space_break _ space_gap _ semi_none eq_refl eq_refl).
  - ident_tac.
  - refine (mi_cons Proto3 (" // c" ++ line_feed)%string _ "repeated int32 xs = 10[packed=true];" _
              " map<string,B> m=2; reserved 3 to 5, 7; " _ (it_field Proto3 _ _ ex_field1) _).
    { apply (gap_blank " "%char); [left; reflexivity|]. apply (gap_line " c" ""); [|apply gap_nil].
      repeat (apply all_cons; [split; cbn; lia|]). apply all_nil. }
    refine (mi_cons Proto3 " " _ "map<string,B> m=2;" _ " reserved 3 to 5, 7; " space_gap
              (it_field Proto3 _ _ ex_field2) _).
    refine (mi_cons Proto3 " " _ "reserved 3 to 5, 7;" _ " " space_gap (it_nums Proto3 _ _ ex_reserved) _).
    apply mi_nil, space_gap.
Qed.

Lemma ex_file : file_text "" Proto3 [DMessage exMessage] exText.
Proof.
  refine (file_declared "" Proto3 ("syntax = " ++ dq ++ "proto3" ++ dq ++ ";")%string [DMessage exMessage] _
            gap_nil (sx_intro Proto3 " " " " "" space_gap space_gap gap_nil) _).
  refine (ds_cons Proto3 line_feed (DMessage exMessage) _ [] "" feed_gap (dt_message _ _ _ ex_message) _).
  apply ds_nil, gap_nil.
Qed.

Lemma last_semi : forall u, String.get (slen u) (u ++ ";")%string = Some ";"%char.
Proof. induction u; [reflexivity|exact IHu]. Qed.

Example C56_case : exists p, p_file true exText = POk "" p /\ describes Proto3 [DMessage exMessage] p.
Proof.
  apply (C56_grammar_read_partial true "" Proto3 [DMessage exMessage] exText ex_file (or_introl eq_refl)).
  intros _ H. assert (E : exists u, exText = (u ++ ";")%string).
  { destruct H as [g1 g2 g3]. exists ("syntax" ++ g1 ++ "=" ++ g2 ++ dq ++ syntax_word Proto3 ++ dq ++ g3)%string.
    cbn [append]. repeat (rewrite !append_assoc; cbn [append]). reflexivity. }
  destruct E as [u E]. pose proof (last_semi u) as L. rewrite <- E in L.
  assert (N : slen u = pred (slen exText)) by (rewrite E, slen_append; cbn; lia).
  rewrite N in L. vm_compute in L. discriminate.
Qed.

(* ---- C43 ---- *)

(** A file whose proto3 declaration follows a line feed is read with the
    presence rules of proto2. *)
Definition lateText : text :=
  (line_feed ++ "syntax = " ++ dq ++ "proto3" ++ dq ++ "; message M { int32 x = 1; }")%string.

Theorem C43_syntax_governs_refuted : exists g st t ds,
  gap g /\ syntax_text Proto3 st /\ decls_text Proto3 ds t
  /\ forall check, exists p, p_file check (g ++ st ++ t)%string = POk "" p
       /\ d_syntax (p_desc p) = Proto3
       /\ map (fun m => map f_freq (m_fields m)) (decl_messages ds) = [[P3Default]]
       /\ map (fun m => map f_freq (m_fields m)) (d_messages (p_desc p)) = [[P2Optional]].
Proof.
  exists line_feed, ("syntax = " ++ dq ++ "proto3" ++ dq ++ ";")%string, " message M { int32 x = 1; }".
  exists [DMessage (mkMessage "M" [mkField "x" P3Default TInt32 1 None None false false] [] None None false "" [] [] "" [])].
  split; [apply feed_gap|]. split; [exact (sx_intro Proto3 " " " " "" space_gap space_gap gap_nil)|].
  split.
  - refine (ds_cons Proto3 " " (DMessage _) "message M { int32 x = 1; }" [] "" space_gap (dt_message _ _ _ _) (ds_nil _ _ gap_nil)).
    refine (message_intro Proto3 " " "M" " " [IField (mkField "x" P3Default TInt32 1 None None false false)]
              " int32 x = 1; " "" None None space_break _ space_gap _ semi_none eq_refl eq_refl).
    + ident_tac.
    + refine (mi_cons Proto3 " " _ "int32 x = 1;" [] " " space_gap (it_field _ _ _ _) (mi_nil _ _ space_gap)).
      refine (field_intro Proto3 (presence Proto3) LNone "" TInt32 "int32" " " "x" " " " " 1 "1" ONone ";"
                lt_none _ _ space_break _ space_gap space_gap (digit_number 1 ltac:(lia)) (ft_none _ _ "" gap_nil)).
      * apply tt_scalar. unfold scalar_type. cbn [In]. tauto.
      * intros _ H. unfold statement_words in H. cbn [In] in H.
        repeat (destruct H as [H|H]; [discriminate|]). contradiction.
      * ident_tac.
  - intros [|]; (eexists; split; [vm_compute; reflexivity|]; vm_compute; auto).
Qed.
Print Assumptions C43_syntax_governs_refuted.

(** Every such file: any gap before the declaration has this effect. *)
Theorem C43_late_declaration : forall check g st ds t,
  break g -> syntax_text Proto3 st -> decls_text Proto2 ds t ->
  exists p, p_file check (g ++ st ++ t)%string = POk "" p /\ describes Proto3 ds p.
Proof.
  intros check g st ds t G S D. exists (file_meaning Proto3 ds).
  split; [now apply file_late_declaration|apply meaning_describes].
Qed.
Print Assumptions C43_late_declaration.

(** The property holds for every text, of the grammar or not, that begins with
    its syntax declaration.  Missing: declarations after white space or
    comments. *)
Theorem C43_syntax_governs_partial : forall check sx st t r p,
  syntax_text sx st -> p_file check (st ++ t)%string = POk r p -> parsed_file sx p.
Proof.
  intros check sx st t r p S E. destruct (o_file _ _ _ _ E) as [r' [sx' [Es H]]].
  assert (Hc : check = true -> t <> "").
  { intros -> ->. rewrite append_nil_r in Es. destruct (scan_total true st) as [[r1 [s1 E1]]|[_ [s1 [_ E1]]]]; [|congruence].
    pose proof (syntax_ok sx st "" S) as E2. rewrite append_nil_r in E2.
    unfold scan_syntax, separated_list0, pmap, pbind, pret in E1. rewrite E2, sep_loop_eq in E1.
    cbn [many0 many0_fuel slen String.length anychar] in E1. discriminate. }
  destruct (scan_declared check sx st t S Hc) as [r1 E1]. rewrite E1 in Es. injection Es as _ <-. exact H.
Qed.
Print Assumptions C43_syntax_governs_partial.

Example C43_case : exists p,
  p_file true ("syntax = " ++ dq ++ "proto3" ++ dq ++ "; message M { int32 x = 1; M m = 2; optional bool b = 3; }")%string
    = POk "" p
  /\ map (fun m => map f_freq (m_fields m)) (d_messages (p_desc p)) = [[P3Default; P3Default; P3Optional]].
Proof. eexists. split; vm_compute; reflexivity. Qed.

(* ---- C57 ---- *)

(** Integer literals of the language: decimal, octal and hexadecimal. *)
Inductive octal_digits : Z -> text -> Prop :=
| oct_digit d : (d <= 7)%nat -> octal_digits (Z.of_nat d) (digit_text d)
| oct_more n t d : octal_digits n t -> (d <= 7)%nat ->
    octal_digits (8 * n + Z.of_nat d)%Z (t ++ digit_text d)%string.
Inductive int_literal : Z -> text -> Prop :=
| il_decimal n t : decimal n t -> int_literal n t
| il_octal n t : octal_digits n t -> int_literal n ("0" ++ t)%string
| il_hex n t : hex_digits n t -> int_literal n ("0x" ++ t)%string.

(** a file with one message with one field; a file with one enum with one value *)
Definition field_file (t : text) : text := ("message M { bool x = " ++ t ++ "; }")%string.
Definition enum_file (t : text) : text := ("enum E { A = " ++ t ++ "; }")%string.
Definition numbers_of (p : parsed) : list (list Z) :=
  map (fun m => map f_number (m_fields m)) (d_messages (p_desc p)).
Definition values_of (p : parsed) : list (list Z) :=
  map (fun e => map snd (en_fields e)) (d_enums (p_desc p)).

(** 010 is 8, but is read as 10, both as field number and as enum value. *)
Theorem C57_integer_literals_refuted : exists n t, int_literal n t /\ forall check,
  (exists p n', p_file check (field_file t) = POk "" p /\ numbers_of p = [[n']] /\ n' <> n)
  /\ (exists p n', p_file check (enum_file t) = POk "" p /\ values_of p = [[n']] /\ n' <> n).
Proof.
  exists 8%Z, "010". split.
  - exact (il_octal 8 "10" (oct_more 1 "1" 0 (oct_digit 1 ltac:(lia)) ltac:(lia))).
  - intros [|]; split; (eexists _, 10%Z; split; [vm_compute; reflexivity|split; [vm_compute; reflexivity|discriminate]]).
Qed.
Print Assumptions C57_integer_literals_refuted.

(** 0x10 is 16, but a message with this field number is not read at all; nor is
    an enum with a negative value *)
Theorem C57_hex_field_number_refuted : exists n t, int_literal n t /\ forall check,
  exists p, p_file check (field_file t) = POk (field_file t) p /\ d_messages (p_desc p) = [].
Proof.
  exists 16%Z, "0x10". split.
  - exact (il_hex 16 "10" (hex_more 1 "1" 0 (hex_digit 1 ltac:(lia)) ltac:(lia))).
  - intros [|]; eexists; (split; [vm_compute; reflexivity|reflexivity]).
Qed.
Print Assumptions C57_hex_field_number_refuted.
Theorem C57_negative_enum_refuted : exists n t, decimal n t /\ forall check,
  exists p, p_file check (enum_file ("-" ++ t)%string) = POk (enum_file ("-" ++ t)%string) p /\ d_enums (p_desc p) = [].
Proof.
  exists 1%Z, "1". split; [exact (dec_digit 1 ltac:(lia))|].
  intros [|]; eexists; (split; [vm_compute; reflexivity|reflexivity]).
Qed.
Print Assumptions C57_negative_enum_refuted.

(** Decimal literals up to 2^31 - 1 are read as they should be, in both
    places, and lower case hexadecimal ones as enum values.  Missing: octal
    literals, hexadecimal field numbers, upper case digits. *)
Lemma field_file_text : forall n t, number n t -> decls_text Proto2
  [DMessage (mkMessage "M" [mkField "x" P2Optional TBool n None None false false] [] None None false "" [] [] "" [])]
  (field_file t).
Proof.
  intros n t H.
  set (f := ("" ++ "bool" ++ " " ++ "x" ++ " " ++ "=" ++ " " ++ t ++ "" ++ ";")%string).
  set (m := ("message" ++ " " ++ "M" ++ " " ++ "{" ++ (" " ++ f ++ " ") ++ "}" ++ "")%string).
  replace (field_file t) with ("" ++ m ++ "")%string
    by (unfold m, f, field_file; cbn [append]; rewrite !append_assoc; reflexivity).
  apply (ds_cons Proto2 "" (DMessage _) m [] "" gap_nil); [|apply ds_nil, gap_nil]. apply dt_message.
  apply (message_intro Proto2 " " "M" " " [IField _] (" " ++ f ++ " ")%string "" None None);
    [apply space_break|ident_tac|apply space_gap| |apply semi_none|reflexivity|reflexivity].
  apply (mi_cons Proto2 " " (IField _) f [] " " space_gap); [|apply mi_nil, space_gap]. apply it_field.
  apply (field_intro Proto2 (presence Proto2) LNone "" TBool "bool" " " "x" " " " " n t ONone ("" ++ ";")%string);
    [apply lt_none| | |apply space_break|ident_tac|apply space_gap|apply space_gap|exact H|apply ft_none, gap_nil].
  - apply tt_scalar. unfold scalar_type. cbn [In]. tauto.
  - intros _ K. unfold statement_words in K. cbn [In] in K.
    repeat (destruct K as [K|K]; [discriminate|]). contradiction.
Qed.

Lemma enum_file_text : forall n t, enum_number n t -> decls_text Proto2
  [DEnum (mkEnum "E" [("A", n)] false "" "")] (enum_file t).
Proof.
  intros n t H.
  set (v := ("A" ++ " " ++ "=" ++ " " ++ t ++ "" ++ "" ++ ";")%string).
  set (e := ("enum" ++ " " ++ "E" ++ " " ++ "{" ++ (" " ++ v ++ " ") ++ "}" ++ "")%string).
  replace (enum_file t) with ("" ++ e ++ "")%string
    by (unfold e, v, enum_file; cbn [append]; rewrite !append_assoc; reflexivity).
  apply (ds_cons Proto2 "" (DEnum _) e [] "" gap_nil); [|apply ds_nil, gap_nil]. apply dt_enum.
  apply (enum_intro " " "E" " " [("A", n)] (" " ++ v ++ " ")%string "");
    [apply space_break|ident_tac|apply space_gap| |apply semi_none].
  apply (eb_value " " ("A", n) v [] " " space_gap); [|apply eb_nil, space_gap].
  apply (ev_intro "A" " " " " n t "" ""); try apply space_gap; [ident_tac|exact H|apply gap_nil|apply vo_none].
Qed.

Theorem C57_integer_literals_partial : forall check n t,
  (number n t ->
     exists p, p_file check (field_file t) = POk "" p /\ numbers_of p = [[n]])
  /\ (enum_number n t ->
     exists p, p_file check (enum_file t) = POk "" p /\ values_of p = [[n]]).
Proof.
  intros check n t. split; intro H; (eexists; split; [|]).
  - apply file_plain_ok. exact (field_file_text n t H).
  - reflexivity.
  - apply file_plain_ok. exact (enum_file_text n t H).
  - reflexivity.
Qed.
Print Assumptions C57_integer_literals_partial.

Example C57_case : number 10 "10" /\ enum_number 31 "0x1f".
Proof.
  split; [exact ex_number|].
  refine (en_hex 31 "1f" (hex_more 1 "1" 15 (hex_digit 1 _) _) _); unfold i32_max; lia.
Qed.

(* ---- C58 ---- *)

(** Two options on one field, both of the language, make the parser panic. *)
Theorem C58_no_panic_refuted : forall check,
  p_file check "message M { repeated int32 x = 1 [packed=true, deprecated=true]; }" = PPanic.
Proof. intros [|]; vm_compute; reflexivity. Qed.
Print Assumptions C58_no_panic_refuted.

(** So do an unreadable bound of a range of extension numbers, and (with newer
    versions of nom) a file that is nothing but a syntax declaration. *)
Theorem C58_extensions_refuted : forall check,
  p_file check "message M { extensions 4 to maximum; }" = PPanic.
Proof. intros [|]; vm_compute; reflexivity. Qed.
Print Assumptions C58_extensions_refuted.

Theorem C58_bare_declaration_refuted : forall sx st, syntax_text sx st ->
  p_file true st = PPanic.
Proof.
  intros sx st S. pose proof (syntax_ok sx st "" S) as E. rewrite append_nil_r in E.
  unfold p_file, scan_syntax, separated_list0, pmap, pbind, pret. rewrite E, sep_loop_eq. reflexivity.
Qed.
Print Assumptions C58_bare_declaration_refuted.

(** Texts with none of the words "packed", "deprecated" and "extensions" never
    make the parser panic; with newer versions of nom they must not end with a
    semicolon either. *)
Theorem C58_no_panic_partial : forall check s,
  ~ occurs "packed" s -> ~ occurs "deprecated" s -> ~ occurs "extensions" s ->
  (check = true -> forall u, s <> (u ++ ";")%string) ->
  p_file check s <> PPanic.
Proof.
  intros check s H1 H2 H3 Hc. apply k_file; [|exact Hc].
  intros w Hw. cbn in Hw. destruct Hw as [<-|[<-|[<-|[]]]]; assumption.
Qed.
Print Assumptions C58_no_panic_partial.

(** a decision procedure for the example *)
Fixpoint occursb (p s : text) : bool :=
  String.prefix p s || match s with "" => false | String _ s' => occursb p s' end.
Lemma occurs_occursb : forall p s, occurs p s -> occursb p s = true.
Proof.
  intros p s [a [b ->]]. induction a as [|c a IH].
  - cbn [append]. pose proof (prefix_app p b) as E.
    destruct (p ++ b)%string; cbn [occursb]; now rewrite E.
  - cbn [append occursb]. rewrite IH. apply orb_true_r.
Qed.
Example C58_case : p_file true "message M { int32 x = 1 [foo=bar, baz=1]; } }}" <> PPanic.
Proof.
  apply C58_no_panic_partial; try (intro H; apply occurs_occursb in H; discriminate).
  intros _ u E. pose proof (last_semi u) as L. rewrite <- E in L.
  assert (N : slen u = 45%nat) by (apply (f_equal slen) in E; rewrite slen_append in E; cbn in E; lia).
  rewrite N in L. discriminate.
Qed.

(* ---- C59 ---- *)

(** An option statement in a message: its name begins with a letter, its value
    is a constant. *)
Inductive option_statement : text -> Prop :=
| os_number k n t : ident k -> int_literal n t ->
    option_statement ("option " ++ k ++ " = " ++ t ++ ";")%string
| os_other t : message_option t -> option_statement t.

(** A message option with a number as value is read as a field of type [option]. *)
Theorem C59_options_ignored_refuted : exists t, option_statement t /\ forall check,
  exists p, p_file check ("message M { " ++ t ++ " }")%string = POk "" p
    /\ map (fun m => map (fun f => (f_name f, f_typ f, f_number f)) (m_fields m)) (d_messages (p_desc p))
       = [[("level", TMessageOrEnum "option", 10%Z)]].
Proof.
  exists ("option " ++ "level" ++ " = " ++ "10" ++ ";")%string. split.
  - apply (os_number "level" 10 "10"); [ident_tac|apply il_decimal, ex_number].
  - intros [|]; eexists; split; vm_compute; reflexivity.
Qed.
Print Assumptions C59_options_ignored_refuted.

(** Other option statements leave the message unchanged: a parenthesised name,
    or a value that does not begin with a digit.  Missing: numbers. *)
Lemma no_semi_end : no_semi "".
Proof. exists "", "". split; [apply gap_nil|]. split; [reflexivity|]. split; lit. Qed.

Theorem C59_options_ignored_partial : forall sx t is b nums names,
  message_option t -> message_items sx is b ->
  at_most_one (item_nums is) nums -> at_most_one (item_names is) names ->
  exists m, p_message sx ("message M {" ++ b ++ "}")%string = POk "" m
    /\ p_message sx ("message M {" ++ (t ++ b) ++ "}")%string = POk "" m.
Proof.
  intros sx t is b nums names T B N1 N2.
  exists (mkMessage "M" (item_fields is) (item_oneofs is) nums names false "" (item_messages is) (item_enums is) "" []).
  split.
  - pose proof (message_ok sx _ _ "" (message_intro sx " " "M" " " is b "" nums names space_break
      ltac:(ident_tac) space_gap B semi_none N1 N2) no_semi_end) as E.
    rewrite append_nil_r in E. exact E.
  - pose proof (message_ok sx _ _ "" (message_intro sx " " "M" " " (INothing :: is) ("" ++ t ++ b)%string "" nums names space_break
      ltac:(ident_tac) space_gap (mi_cons sx "" INothing t is b gap_nil (it_option sx t T) B) semi_none N1 N2) no_semi_end) as E.
    rewrite append_nil_r in E. exact E.
Qed.
Print Assumptions C59_options_ignored_partial.

Example C59_case : message_option "option deprecated = true;" /\ message_option "option (a.b) = 5;".
Proof.
  split.
  - apply (mo_name " " "deprecated" " " " " "t"%char "rue");
      [apply space_break|ident_tac|apply space_gap|apply space_gap| | |discriminate|].
    + unfold digit_char. cbn. lia.
    + unfold blank_char. cbn. lia.
    + intro H. apply occurs_occursb in H. discriminate.
  - apply (mo_paren " " "a.b) = 5"); [apply space_break|].
    intro H. apply occurs_occursb in H. discriminate.
Qed.

(* ---- C60 ---- *)

(** Of several [reserved] statements of a kind, only the last is kept. *)
Theorem C60_reserved_kept_refuted : exists sx is b,
  message_items sx is b /\ item_nums is = [[2%Z]; [9%Z]]
  /\ exists m, p_message sx ("message M {" ++ b ++ "}")%string = POk "" m
       /\ m_reserved_nums m = Some [9%Z].
Proof.
  exists Proto3, [IReservedNums [2%Z]; IReservedNums [9%Z]], "reserved 2;reserved 9;".
  assert (R : forall d, (d <= 9)%nat -> reserved_nums_text [Z.of_nat d] ("reserved " ++ digit_text d ++ ";")%string).
  { intros d L. exact (rn_intro " " [[Z.of_nat d]] (digit_text d) "" space_break
      (cl_one _ _ _ (range_one _ _ (digit_number d L))) gap_nil). }
  split; [|split; [reflexivity|]].
  - exact (mi_cons Proto3 "" _ "reserved 2;" _ "reserved 9;" gap_nil (it_nums _ _ _ (R 2%nat ltac:(lia)))
             (mi_cons Proto3 "" _ "reserved 9;" _ "" gap_nil (it_nums _ _ _ (R 9%nat ltac:(lia))) (mi_nil _ _ gap_nil))).
  - eexists. split; vm_compute; reflexivity.
Qed.
Print Assumptions C60_reserved_kept_refuted.

(** With at most one statement of each kind, everything reserved is kept.
    Missing: several statements of a kind. *)
Theorem C60_reserved_kept_partial : forall sx is b nums names,
  message_items sx is b ->
  at_most_one (item_nums is) nums -> at_most_one (item_names is) names ->
  exists m, p_message sx ("message M {" ++ b ++ "}")%string = POk "" m
    /\ m_reserved_nums m = nums /\ m_reserved_names m = names.
Proof.
  intros sx is b nums names B N1 N2.
  pose proof (message_ok sx _ _ "" (message_intro sx " " "M" " " is b "" nums names space_break
      ltac:(ident_tac) space_gap B semi_none N1 N2) no_semi_end) as E.
  rewrite append_nil_r in E. eexists. split; [exact E|]. auto.
Qed.
Print Assumptions C60_reserved_kept_partial.

Example C60_case : exists is, message_items Proto3 is " reserved 3 to 5, 7; " /\ item_nums is = [[3; 4; 5; 7]%Z].
Proof.
  exists [IReservedNums [3; 4; 5; 7]%Z]. split; [|reflexivity].
  exact (mi_cons Proto3 " " _ "reserved 3 to 5, 7;" _ " " space_gap (it_nums _ _ _ ex_reserved) (mi_nil _ _ space_gap)).
Qed.
