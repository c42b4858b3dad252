(** C78: the generated files are Rust.

    [generated] (GenGood.v) is the text that pb-rs writes, character by character
    (GenText.v).  [parse_rust] (RustLex.v, RustParse.v) is a lexer and a parser
    of Rust that do not know the generator; [parse_print] (RustParseFacts.v)
    proves that the parser gives back every tree that is printed, so that it does
    not accept by accident. *)
From Coq Require Import String Ascii Arith ZArith Lia Bool.
From Verif Require Import Props_EndToEnd Base Schema Keywords Modules Passes Parser Import Gen GenCheck Cycles CycleFacts BreakFacts IndexFacts Pipeline PassFacts.
From Verif Require Import Lifetime RustTypes Emit Uses Output OutputFacts Paths GenText.
From Verif Require Import RustLex RustAst RustParse RustParseFacts GenAst LexFacts GenAstFacts GenAstOk GenGood.
Import Schema StringSyntax.
Local Open Scope string_scope.
Local Open Scope list_scope.

(** ** Specification *)

(** an item in a file, in modules inside of each other *)
Inductive item_in : list ritem_ -> list text -> ritem_ -> Prop :=
| item_here : forall l i, In i l -> item_in l [] i
| item_inside : forall l n items p i, In (RIMod n items) l -> item_in items p i -> item_in l (n :: p) i.
(** a message in messages inside of each other, with the names of the outer ones *)
Inductive nested_in : list message -> list text -> message -> Prop :=
| nested_here : forall l m, In m l -> nested_in l [] m
| nested_inside : forall l m p x, In m l -> nested_in (m_messages m) p x -> nested_in l (m_name m :: p) x.
(** the names of the fields of the struct of a message *)
Definition shown_names (c : config) (m : message) : list text :=
  map f_name (filter (fun f => negb (f_deprecated f && negb (c_add_deprecated_fields c))) (m_fields m)) ++ map o_name (m_oneofs m).
Definition fn_names (l : list ritem_) : list text := flat_map (fun i => match i with RIFn f => [fn_name f] | _ => [] end) l.
(** the struct of a message and how it is read and written *)
Definition has_message (c : config) (l : list ritem_) (p : list text) (m : message) : Prop :=
  exists attrs lt fs, item_in l p (RIStruct attrs true (m_name m) lt fs) /\ map rf_name fs = shown_names c m /\
  (exists t items args, item_in l p (RIImpl [] ["a"] (Some (RTPath false [PSeg "MessageRead" [GLife "a"]])) t items) /\
     t = RTPath false [PSeg (m_name m) args] /\ fn_names items = ["from_reader"]) /\
  (exists lt t items args, item_in l p (RIImpl [] lt (Some (RTPath false [PSeg "MessageWrite" []])) t items) /\
     t = RTPath false [PSeg (m_name m) args] /\
     (fn_names items = ["get_size"; "write_message"] \/ fn_names items = [] /\ m_fields m = [] /\ m_oneofs m = [])).

(** ** The items of a message *)
Lemma item_snoc l p i : item_in l p i -> forall l', (forall x, In x l -> In x l') -> item_in l' p i.
Proof. intros H l' S. destruct H; [constructor; auto|econstructor; eauto]. Qed.
Lemma struct_names g d l : map rf_name (flat_map (struct_fields g d) l) =
  map f_name (filter (fun f => negb (f_deprecated f && negb (c_add_deprecated_fields (g_passes g)))) l).
Proof.
  induction l as [|f l IH]; [reflexivity|]. cbn [flat_map filter]. rewrite map_app, IH. unfold struct_fields at 1, hidden.
  destruct (f_deprecated f && negb (c_add_deprecated_fields (g_passes g))); reflexivity.
Qed.
Lemma unit_empty m : is_unit m = true -> m_fields m = [] /\ m_oneofs m = [].
Proof. destruct m as [? fs os ? ? ? ? ? ? ? ?]. cbn. destruct fs, os; auto; discriminate. Qed.
Lemma own_items g d d0 m : has_message (g_passes g) (message_items g d d0 m) [] m.
Proof.
  assert (A : forall i, In i ([definition_item g d m; message_read g d m; message_write_impl g d d0 m]) -> In i (message_items g d d0 m)).
  { intros i [<-|[<-|[<-|[]]]]; unfold message_items; rewrite !in_app_iff; cbn; auto 8. }
  assert (S : exists attrs lt fs, definition_item g d m = RIStruct attrs true (m_name m) lt fs /\ map rf_name fs = shown_names (g_passes g) m).
  { unfold definition_item. destruct (is_unit m) eqn:U; (eexists _, _, _; split; [reflexivity|]); unfold shown_names.
    - destruct (unit_empty m U) as (-> & ->). reflexivity.
    - rewrite map_app, struct_names. f_equal. rewrite map_map. reflexivity. }
  destruct S as (attrs & lt & fs & S & N). exists attrs, lt, fs. split; [rewrite <- S; constructor; apply A; cbn; auto|]. split; [exact N|]. split.
  - unfold message_read in A. destruct (is_unit m); (eexists _, _, _; split; [constructor; apply A; cbn; auto|split; reflexivity]).
  - unfold message_write_impl in A. destruct (is_unit m) eqn:U; (eexists _, _, _, _; split; [constructor; apply A; cbn; auto|split; [reflexivity|]]).
    + right. split; [reflexivity|]. exact (unit_empty m U).
    + now left.
Qed.
Lemma has_lift c l l' p m : has_message c l [] m -> (forall i, In i l -> item_in l' p i) -> has_message c l' p m.
Proof.
  assert (K : forall i, item_in l [] i -> In i l) by (intros i H; now inversion H).
  intros (attrs & lt & fs & A & B & (t & its & args & D & E & F) & (lt2 & t2 & its2 & args2 & G & I & J)) S.
  exists attrs, lt, fs. split; [auto|]. split; [exact B|]. split; [exists t, its, args; auto|exists lt2, t2, its2, args2; auto].
Qed.
Definition in_module (n : text) : text := ("mod_" ++ n)%string.
Section Tree.
Variables (g : gen_config) (d d0 : file_descriptor).
(** the descriptor before the escape has a message for each one after it *)
Fixpoint paired (m m0 : message) {struct m} : Prop :=
  match m with
  | mkMessage _ _ _ _ _ _ _ messages _ _ _ =>
    (fix go (l l0 : list message) {struct l} : Prop :=
       match l, l0 with
       | [], _ => True
       | x :: l', y :: l0' => paired x y /\ go l' l0'
       | _ :: _, [] => False
       end) messages (m_messages m0)
  end.
Definition all_items (l : list ritem_) (p : list text) (x : message) : Prop := forall i, In i (message_items g d d0 x) -> item_in l p i.
Lemma all_more l l' p m : all_items l p m -> (forall x, In x l -> In x l') -> all_items l' p m.
Proof. intros H S i I. apply item_snoc with l; auto. Qed.
Lemma tree_items : forall m m0, paired m m0 -> all_items (message_ast g d d0 m m0) [] m /\
  forall p x, nested_in (m_messages m) p x -> all_items (message_ast g d d0 m m0) (in_module (m_name m) :: map in_module p) x.
Proof.
  fix IH 1. intros m m0 P. split.
  { intros i J. constructor. destruct m. cbn [message_ast]. apply in_or_app. now left. }
  intros p x N. destruct m as [name fields oneofs rnums rnames imported package messages enums module index]. cbn [m_messages m_name] in *.
  cbn [paired] in P.
  assert (K : all_items ((fix go (l l0 : list message) {struct l} : list ritem_ :=
                 match l, l0 with
                 | x :: l', y :: l0' => message_ast g d d0 x y ++ go l' l0'
                 | _, _ => []
                 end) messages (m_messages m0)) (map in_module p) x).
  { clear - IH P N. revert P. generalize (m_messages m0). induction messages as [|y l IHl]; intros l0 P.
    - exfalso. inversion N; subst; cbn in *; contradiction.
    - destruct l0 as [|y0 l0]; [destruct P|]. destruct P as [P1 P2]. destruct (IH y y0 P1) as [Own Sub].
      assert (C : nested_in l p x \/ (p = [] /\ x = y) \/ exists q, p = m_name y :: q /\ nested_in (m_messages y) q x).
      { inversion N as [l1 m1 I|l1 m1 q x1 I J]; subst.
        - destruct I as [->|I]; [right; left; auto|left; now constructor].
        - destruct I as [->|I]; [right; right; eauto|left; econstructor; eauto]. }
      destruct C as [C|[(-> & ->)|(q & -> & C)]].
      + apply all_more with (1 := IHl C l0 P2). intros i I. apply in_or_app. now right.
      + apply all_more with (1 := Own). intros i I. apply in_or_app. now left.
      + apply all_more with (1 := Sub q x C). intros i I. apply in_or_app. now left. }
  cbn [message_ast]. destruct messages as [|y l]; [exfalso; inversion N; subst; cbn in *; contradiction|].
  intros i J. eapply item_inside; [apply in_or_app; right; left; reflexivity|].
  apply all_more with (1 := K); [|exact J]. intros z I. rewrite !in_app_iff. auto.
Qed.
End Tree.
Lemma paired_escape : forall m, paired (msg_sanitize_names m) m.
Proof.
  fix IH 1. intros [name fields oneofs rnums rnames imported package messages enums module index]. cbn [msg_sanitize_names paired m_messages].
  induction messages as [|x l IHl]; [exact I|]. split; [apply IH|exact IHl].
Qed.
Lemma file_tree g d4 : let d' := after_escape (g_passes g) d4 in
  forall p x, nested_in (filter (fun m => negb (m_imported m)) (d_messages d')) p x ->
  all_items g d' d4 (file_items (file_ast g d' d4)) (map in_module p) x.
Proof.
  intros d' p x N.
  assert (E : d_messages d' = map msg_sanitize_names (d_messages d4)) by (unfold d', after_escape, single_module; now destruct (c_single_module (g_passes g))).
  assert (T : exists m m0 q, In (m, m0) (filter (fun p => negb (m_imported (fst p))) (combine (d_messages d') (d_messages d4))) /\ paired m m0 /\
    ((p = [] /\ x = m) \/ (p = m_name m :: q /\ nested_in (m_messages m) q x))).
  { assert (F : forall m, In m (filter (fun m => negb (m_imported m)) (d_messages d')) -> exists m0,
      In (m, m0) (filter (fun p => negb (m_imported (fst p))) (combine (d_messages d') (d_messages d4))) /\ paired m m0).
    { intros m I. apply filter_In in I. destruct I as [I J]. rewrite E in I |- *. apply in_map_iff in I. destruct I as (m0 & <- & I). exists m0.
      split; [|apply paired_escape]. apply filter_In. split; [|exact J]. clear - I. induction (d_messages d4) as [|y l IH]; [destruct I|].
      destruct I as [->|I]; [now left|right; auto]. }
    inversion N as [l m I|l m q y I J]; subst; destruct (F _ I) as (m0 & I0 & P).
    - exists x, m0, []. auto.
    - exists m, m0, q. auto. }
  destruct T as (m & m0 & q & I & P & C). destruct (tree_items g d' d4 m m0 P) as [Own Sub].
  assert (S : forall i, In i (message_ast g d' d4 m m0) -> In i (file_items (file_ast g d' d4))).
  { intros i J. unfold file_ast. cbn [file_items]. rewrite !in_app_iff. do 3 right. apply in_flat_map. exists (m, m0). auto. }
  destruct C as [(-> & ->)|(-> & C)].
  - apply all_more with (1 := Own). exact S.
  - apply all_more with (1 := Sub q x C). exact S.
Qed.

(** ** C78 *)

(** A schema whose names are identifiers, none of them one of the keywords of
    Rust that pb-rs does not know, and whose default values are numbers and
    strings that Rust reads, becomes a file that Rust parses, for every
    configuration.  The tree that Rust sees is [file_ast]; in it each message of
    the file, at any depth, has its struct with the right fields, in the modules
    of the outer messages, and how it is read and written. *)
Theorem C78_generated_files_are_rust : forall g d filename services s,
  generated g d filename services = (s, None) -> schema_ok d = true -> config_ok g = true -> all_chars not_newline filename = true ->
  exists d4, before_escape (g_passes g) d = GOk d4 /\ parse_rust s = Some (file_ast g (after_escape (g_passes g) d4) d4).
Proof.
  intros g d filename services s H S C F. unfold generated in H. destruct (before_escape (g_passes g) d) as [d4|e] eqn:B; [|discriminate].
  exists d4. split; [reflexivity|]. unfold config_ok in C. apply andb_true_iff in C. destruct C as [C1 C2].
  exact (generated_good g d d4 B S C1 filename services s C2 F H).
Qed.
Print Assumptions C78_generated_files_are_rust.

Theorem C78_messages_in_file : forall g d filename services s d',
  generated g d filename services = (s, None) -> schema_ok d = true -> config_ok g = true -> all_chars not_newline filename = true ->
  process (g_passes g) d = GOk d' ->
  exists f, parse_rust s = Some f /\
  forall p x, nested_in (filter (fun m => negb (m_imported m)) (d_messages d')) p x ->
    has_message (g_passes g) (file_items f) (map (fun n => "mod_" ++ n)%string p) x.
Proof.
  intros g d filename services s d' H S C F P. destruct (C78_generated_files_are_rust _ _ _ _ _ H S C F) as (d4 & B & Q).
  rewrite process_escape, B in P. injection P as <-. eexists. split; [exact Q|]. intros p x N.
  apply has_lift with (1 := own_items g (after_escape (g_passes g) d4) d4 x). exact (file_tree g d4 p x N).
Qed.
Print Assumptions C78_messages_in_file.

Definition textConfig : gen_config :=
  mkGenConfig (path_of "a") (path_of "b") [] false true (mkConfig false false false false) [""] None true false false true true.
Definition one_file (t : text) : file_system := fun p => match fp_parts p with ["a.proto"] => Some t | _ => None end.
Definition read_one (t : text) := read_proto true (one_file t) [path_of ""] 2 (path_of "a.proto").

Definition textSchema : text := "
package p.q;
enum Color { RED = 0; type = 1; }
message Outer {
  message In { optional string match = 1 [default = ""a\nb""]; repeated Outer back = 2; }
  required Color c = 1 [default = RED];
  optional float f = 2 [default = -1.5e3];
  oneof pick { In left = 3; bytes self = 4; }
  map<string, In> all = 5;
  optional int32 old = 6 [deprecated = true];
}"%string.
(** the descriptor, the text and the tree of a schema *)
Ltac case_text :=
  match goal with |- exists d s f, read_one ?t = _ /\ generated ?c _ _ _ = _ /\ _ =>
    let r := eval vm_compute in (match read_one t with ROk d => Some (d, fst (generated c d "a.proto" 0), parse_rust (fst (generated c d "a.proto" 0))) | _ => None end) in
    match r with Some (?d, ?s, Some ?f) => exists d, s, f end
  end; split; [vm_compute; reflexivity|]; split; [vm_compute; reflexivity|].
Definition structs (l : list ritem_) : list (text * list text) :=
  flat_map (fun i => match i with RIStruct _ _ n _ fs => [(n, map rf_name fs)] | _ => [] end) l.
Example C78_case : exists d s f,
  read_one textSchema = ROk d /\ generated textConfig d "a.proto" 0 = (s, None) /\ schema_ok d = true /\ config_ok textConfig = true /\
  parse_rust s = Some f /\
  structs (file_items f) = [("Outer", ["c"; "f"; "all"; "pick"]); ("OuterOwnedInner", ["buf"; "proto"; "_pin"]); ("OuterOwned", ["inner"])] /\
  flat_map (fun i => match i with RIMod n l => [(n, structs l)] | _ => [] end) (file_items f) = 
    [("mod_Outer", [("In", ["match_pb"; "back"]); ("InOwnedInner", ["buf"; "proto"; "_pin"]); ("InOwned", ["inner"])])].
Proof. case_text. split; [vm_compute; reflexivity|]. split; [vm_compute; reflexivity|]. split; [vm_compute; reflexivity|]. split; vm_compute; reflexivity. Qed.

(** What is not Rust.  [async], and nine other words, are missing in
    keywords.rs:5-66; the names of enums and of enum values, and the package, are
    written as they are in some places; numbers may begin with a point in
    protobuf but not in Rust. *)
Ltac not_rust :=
  match goal with |- exists d s, read_one ?t = _ /\ generated ?c _ _ _ = _ /\ _ =>
    let r := eval vm_compute in (match read_one t with ROk d => Some (d, fst (generated c d "a.proto" 0)) | _ => None end) in
    match r with Some (?d, ?s) => exists d, s end
  end; split; [vm_compute; reflexivity|]; split; vm_compute; reflexivity.
Theorem C78_keyword_refuted : exists d s, read_one "message A { optional int32 async = 1; }" = ROk d /\
  generated textConfig d "a.proto" 0 = (s, None) /\ parse_rust s = None.
Proof. not_rust. Qed.
Print Assumptions C78_keyword_refuted.
Theorem C78_enum_value_refuted : exists d s, read_one "enum E { type = 0; } message A { optional E e = 1; }" = ROk d /\
  generated textConfig d "a.proto" 0 = (s, None) /\ parse_rust s = None.
Proof. not_rust. Qed.
Print Assumptions C78_enum_value_refuted.
Theorem C78_enum_name_refuted : exists d s, read_one "enum type { X = 0; } message A { optional type e = 1; }" = ROk d /\
  generated textConfig d "a.proto" 0 = (s, None) /\ parse_rust s = None.
Proof. not_rust. Qed.
Print Assumptions C78_enum_name_refuted.
Theorem C78_package_refuted : exists d s, read_one "package type.x; message A { message B { optional A a = 1; } optional B b = 2; }" = ROk d /\
  generated textConfig d "a.proto" 0 = (s, None) /\ parse_rust s = None.
Proof. not_rust. Qed.
Print Assumptions C78_package_refuted.
Theorem C78_default_refuted : exists d s, read_one "message A { optional float f = 1 [default = .5]; }" = ROk d /\
  generated textConfig d "a.proto" 0 = (s, None) /\ parse_rust s = None.
Proof. not_rust. Qed.
Print Assumptions C78_default_refuted.
(** the string ends at the first quote (parser.rs:265-268) *)
Theorem C78_quote_refuted : exists d s, read_one "message A { optional string f = 1 [default = ""a\""b""]; }" = ROk d /\
  generated textConfig d "a.proto" 0 = (s, None) /\ parse_rust s = None.
Proof. not_rust. Qed.
Print Assumptions C78_quote_refuted.
(** the file is left incomplete *)
Theorem C78_empty_enum_refuted : exists d s, read_one "enum E { } message A { optional int32 f = 1; }" = ROk d /\
  generated textConfig d "a.proto" 0 = (s, Some GenPanic) /\ parse_rust s = None.
Proof. not_rust. Qed.
Print Assumptions C78_empty_enum_refuted.


(** ** C79: what the structs derive *)

(** an attribute [derive] of the struct of that name contains [x] *)
Definition derived (l : list ritem_) (p : list text) (name x : text) : Prop :=
  exists attrs lt fs ts, item_in l p (RIStruct attrs true name lt fs) /\ In (RAttr "derive" (Some ts)) attrs /\ In (TWord x) ts.
(** [Default] is implemented *)
Definition has_default (l : list ritem_) (p : list text) (name : text) : Prop :=
  derived l p name "Default" \/
  exists lt args items, item_in l p (RIImpl [] lt (Some (RTPath false [PSeg "Default" []])) (RTPath false [PSeg name args]) items).

Lemma join_tokens : forall l, l <> [] -> forallb ident l = true -> exists t w, lexed LNone (join_with ", " l) t (LWord w) /\
  forall x, In x l -> In (TWord x) (t ++ [TWord w]).
Proof.
  induction l as [|y l IH]; intros N H; [contradiction|]. cbn [forallb] in H. apply andb_true_iff in H. destruct H as [A H].
  destruct l as [|z l].
  - exists [], y. split; [exact (scan_ident y A)|]. intros x [->|[]]. now left.
  - destruct IH as (t & w & L & K); [discriminate|exact H|]. exists (TWord y :: TSym "," :: t), w. split.
    + rewrite KeywordFacts.join_cons by discriminate. change (TWord y :: TSym "," :: t) with ([] ++ [TWord y; TSym ","] ++ t).
      eapply lexed_app; [exact (scan_ident y A)|]. eapply lexed_app; [|exact L]. reflexivity.
    + intros x [->|I]; [now left|]. do 2 right. auto.
Qed.
Lemma debug_tokens r : forall t w, lexed LNone r t (LWord w) -> tokens_of (r ++ ", Debug, PartialEq, Clone")%string =
  (t ++ [TWord w]) ++ [TSym ","; TWord "Debug"; TSym ","; TWord "PartialEq"; TSym ","; TWord "Clone"].
Proof.
  intros t w L. assert (Q : lexed (LWord w) ", Debug, PartialEq, Clone" [TWord w; TSym ","; TWord "Debug"; TSym ","; TWord "PartialEq"; TSym ","] (LWord "Clone")) by reflexivity.
  rewrite (tokens_lexed _ _ _ (lexed_app _ _ _ _ _ _ _ L Q) eq_refl). cbn [flush]. rewrite <- !app_assoc. reflexivity.
Qed.
Lemma struct_derives g d d0 l p x ts : all_items g d d0 l p x -> tokens_of (derive_text g d x ++ "Debug, PartialEq, Clone")%string = ts ->
  forall y, In (TWord y) ts -> derived l p (m_name x) y.
Proof.
  intros A T y I. assert (S : exists lt fs, definition_item g d x = RIStruct (message_attrs g d x) true (m_name x) lt fs).
  { unfold definition_item. destruct (is_unit x); eauto. }
  destruct S as (lt & fs & S). exists (message_attrs g d x), lt, fs, ts. split; [|split; [|exact I]].
  - rewrite <- S. apply A. unfold message_items. rewrite in_app_iff. left. now left.
  - unfold message_attrs. rewrite T. right. now left.
Qed.

Definition always : list token := [TWord "Debug"; TSym ","; TWord "PartialEq"; TSym ","; TWord "Clone"].
Lemma always_in y : In y ["Debug"; "PartialEq"; "Clone"] -> In (TWord y) always.
Proof. unfold always. cbn. intros [<-|[<-|[<-|[]]]]; auto 8. Qed.
Lemma tokens_after (x z : text) ts : x = z -> tokens_of (z ++ "Debug, PartialEq, Clone")%string = ts -> tokens_of (x ++ "Debug, PartialEq, Clone")%string = ts.
Proof. now intros ->. Qed.

(** Every struct derives [Debug], [PartialEq] and [Clone].  A message for which
    the generator writes [Default] itself, because of a default value, also
    derives what [-C] asks for.  If [-C] is not used, [Default] is implemented or
    derived for each message. *)
Theorem C79_derives_partial : forall g d filename services s d' f,
  generated g d filename services = (s, None) -> schema_ok d = true -> config_ok g = true -> all_chars not_newline filename = true ->
  process (g_passes g) d = GOk d' -> parse_rust s = Some f ->
  forall p x, nested_in (filter (fun m => negb (m_imported m)) (d_messages d')) p x ->
  let path := map (fun n => "mod_" ++ n)%string p in
  (forallb ident (g_derive g) = true -> message_must_generate_impl_default (d_syntax d') (g_passes g) x = true ->
     (forall y, In y (g_derive g ++ ["Debug"; "PartialEq"; "Clone"]) -> derived (file_items f) path (m_name x) y) /\
     has_default (file_items f) path (m_name x)) /\
  (g_derive g = [] \/ g_derive g = [""] ->
     (forall y, In y ["Debug"; "PartialEq"; "Clone"] -> derived (file_items f) path (m_name x) y) /\
     has_default (file_items f) path (m_name x)).
Proof.
  intros g d filename services s d' f H S C F P Pf p x N path. destruct (C78_generated_files_are_rust _ _ _ _ _ H S C F) as (d4 & B & Q).
  rewrite process_escape, B in P. injection P as <-. rewrite Q in Pf. injection Pf as <-. subst path. change (fun n => ("mod_" ++ n)%string) with in_module.
  pose proof (file_tree g d4 p x N) as A.
  assert (Im : message_must_generate_impl_default (d_syntax (after_escape (g_passes g) d4)) (g_passes g) x = true ->
    has_default (file_items (file_ast g (after_escape (g_passes g) d4) d4)) (map in_module p) (m_name x)).
  { intros M. right. assert (I : In (message_default g (after_escape (g_passes g) d4) d4 x) (message_items g (after_escape (g_passes g) d4) d4 x)).
    { unfold message_items. rewrite M. rewrite !in_app_iff. do 3 right. left. now left. }
    apply A in I. unfold message_default in I. destruct (is_unit x); eexists _, _, _; exact I. }
  split.
  - intros D M. split; [|auto]. destruct (g_derive g) as [|t l] eqn:E.
    + cbn [app]. assert (T : derive_text g (after_escape (g_passes g) d4) x = "") by (unfold derive_text; rewrite E, M; reflexivity).
      intros y I. exact (struct_derives _ _ _ _ _ _ always A (tokens_after _ _ _ T eq_refl) y (always_in y I)).
    + destruct (join_tokens (t :: l)) as (ts & w & L & K); [discriminate|exact D|].
      assert (T : (derive_text g (after_escape (g_passes g) d4) x ++ "Debug, PartialEq, Clone")%string = (join_with ", " (t :: l) ++ ", Debug, PartialEq, Clone")%string).
      { unfold derive_text. cbv zeta. rewrite E, M. cbn [negb]. assert (Ne : String.eqb (join_with ", " (t :: l)) "" = false).
        { cbn [forallb] in D. apply andb_true_iff in D. destruct D as [D _]. destruct t; [discriminate|]. destruct l; reflexivity. }
        rewrite Ne. cbn [negb]. rewrite str_app_assoc. reflexivity. }
      intros y I. refine (struct_derives _ _ _ _ _ _ _ A (eq_trans (f_equal tokens_of T) (debug_tokens _ _ _ L)) y _).
      apply in_app_or in I. apply in_or_app. destruct I as [I|I]; [left; auto|right]. right. now apply always_in.
  - intros E. assert (J : join_with ", " (g_derive g) = "") by (destruct E as [-> | ->]; reflexivity).
    assert (T : derive_text g (after_escape (g_passes g) d4) x =
      if message_must_generate_impl_default (d_syntax (after_escape (g_passes g) d4)) (g_passes g) x then "" else "Default, ").
    { unfold derive_text. cbv zeta. rewrite J. destruct (message_must_generate_impl_default _ _ x); reflexivity. }
    destruct (message_must_generate_impl_default _ _ x) eqn:M.
    + split; [|auto]. intros y I. exact (struct_derives _ _ _ _ _ _ always A (tokens_after _ _ _ T eq_refl) y (always_in y I)).
    + split; [|left].
      * intros y I. refine (struct_derives _ _ _ _ _ _ (TWord "Default" :: TSym "," :: always) A (tokens_after _ _ _ T eq_refl) y _).
        right. right. now apply always_in.
      * refine (struct_derives _ _ _ _ _ _ (TWord "Default" :: TSym "," :: always) A (tokens_after _ _ _ T eq_refl) _ _). now left.
Qed.
Print Assumptions C79_derives_partial.

Definition with_derive (l : list text) : gen_config :=
  mkGenConfig (path_of "a") (path_of "b") [] false true (mkConfig false false false false) l None true false false true true.
Definition derive_of (f : rfile) (name : text) : list (list token) :=
  flat_map (fun i => match i with
    | RIStruct attrs _ n _ _ => if String.eqb n name then flat_map (fun a => match a with RAttr "derive" (Some l) => [l] | _ => [] end) attrs else []
    | _ => [] end) (file_items f).
Example C79_case : exists d s f, read_one "message A { required int32 x = 1 [default = 5]; } message B { optional int32 y = 1; }" = ROk d /\
  generated (with_derive ["Eq"; "Hash"]) d "a.proto" 0 = (s, None) /\ parse_rust s = Some f /\
  derive_of f "A" = [idents ["Eq"; "Hash"; "Debug"; "PartialEq"; "Clone"]] /\
  match process (g_passes (with_derive ["Eq"; "Hash"])) d with
  | GOk d' => map (message_must_generate_impl_default (d_syntax d') (g_passes (with_derive ["Eq"; "Hash"]))) (d_messages d') = [true; false]
  | GErr _ => False
  end.
Proof.
  case_text. split; [vm_compute; reflexivity|]. split; vm_compute; reflexivity.
Qed.

(** With [-C Serialize], a message for which no [Default] is written derives neither
    [Serialize] nor [Default], which is implemented nowhere: the separator is
    missing (types.rs:1585-1597). *)
Theorem C79_derives_refuted : exists d s f, read_one "message A { optional int32 x = 1; }" = ROk d /\
  generated (with_derive ["Serialize"]) d "a.proto" 0 = (s, None) /\ parse_rust s = Some f /\
  derive_of f "A" = [idents ["SerializeDefault"; "Debug"; "PartialEq"; "Clone"]] /\
  forall lt t items, ~ In (RIImpl [] lt (Some (RTPath false [PSeg "Default" []])) t items) (file_items f).
Proof.
  case_text. split; [vm_compute; reflexivity|]. split; [vm_compute; reflexivity|].
  cbn [file_items]. intros lt t items I. cbn in I. repeat (destruct I as [I|I]; [discriminate I|]). destruct I.
Qed.
Print Assumptions C79_derives_refuted.
