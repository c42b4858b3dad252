(** C97: the errors of pb-rs can be told apart by what it prints. *)
From Coq Require Import String Ascii Arith ZArith Lia Bool.
From Verif Require Import Base Schema PbErrors.
Import Schema StringSyntax.
Local Open Scope string_scope.
Local Open Scope list_scope.

Lemma cancel a : forall s t : text, (a ++ s)%string = (a ++ t)%string -> s = t.
Proof. induction a as [|x a IH]; intros s t H; [exact H|]. injection H as H. now apply IH. Qed.
Lemma app_length s t : String.length (s ++ t)%string = (String.length s + String.length t)%nat.
Proof. induction s as [|a s IH]; [reflexivity|]. cbn. now rewrite IH. Qed.
Lemma cancel_r a s t : (s ++ a)%string = (t ++ a)%string -> s = t.
Proof.
  revert t. induction s as [|x s IH]; intros t H.
  - destruct t as [|y t]; [reflexivity|]. apply (f_equal String.length) in H. cbn in H. rewrite app_length in H. lia.
  - destruct t as [|y t]; [apply (f_equal String.length) in H; cbn in H; rewrite app_length in H; lia|]. injection H as -> H. f_equal. now apply IH.
Qed.
Lemma str_assoc (a b c : text) : ((a ++ b) ++ c)%string = (a ++ b ++ c)%string.
Proof. induction a as [|x a IH]; [reflexivity|]. cbn. now rewrite IH. Qed.

(** ** Escaped characters *)
Definition unhex (a : ascii) : nat :=
  let n := nat_of_ascii a in if (n <? 58)%nat then (n - 48)%nat else (n - 87)%nat.
Definition read_char (s : text) : option (ascii * text) :=
  match s with
  | String "\" (String "u" (String "{" (String h (String "}" r)))) => Some (ascii_of_nat (unhex h), r)
  | String "\" (String "u" (String "{" (String h (String l (String "}" r))))) => Some (ascii_of_nat (16 * unhex h + unhex l), r)
  | String "\" (String "n" r) => Some ("010"%char, r)
  | String "\" (String "r" r) => Some ("013"%char, r)
  | String "\" (String "t" r) => Some ("009"%char, r)
  | String "\" (String "0" r) => Some ("000"%char, r)
  | String "\" (String x r) => Some (x, r)
  | String """" _ => None
  | String x r => Some (x, r)
  | EmptyString => None
  end.
Lemma read_escape a r : read_char (escape_char a ++ r)%string = Some (a, r).
Proof. destruct a as [[] [] [] [] [] [] [] []]; reflexivity. Qed.
Lemma read_quote r : read_char (String """" r) = None. Proof. reflexivity. Qed.
Lemma debug_read : forall s1 s2 r1 r2, (escape s1 ++ """" ++ r1)%string = (escape s2 ++ """" ++ r2)%string -> s1 = s2 /\ r1 = r2.
Proof.
  induction s1 as [|a s1 IH]; intros [|b s2] r1 r2 H; cbn [escape] in H.
  - injection H as H. now split.
  - apply (f_equal read_char) in H. rewrite str_assoc, read_escape in H. discriminate.
  - apply (f_equal read_char) in H. rewrite str_assoc, read_escape in H. discriminate.
  - apply (f_equal read_char) in H. rewrite !str_assoc, !read_escape in H. injection H as -> H. destruct (IH _ _ _ H) as [-> ->]. now split.
Qed.
Lemma debug_app s1 s2 r1 r2 : (debug s1 ++ r1)%string = (debug s2 ++ r2)%string -> s1 = s2 /\ r1 = r2.
Proof. unfold debug. rewrite !str_assoc. intros H. apply cancel in H. now apply debug_read. Qed.
Lemma more_app : forall l1 l2 r1 r2, (debug_more l1 ++ r1)%string = (debug_more l2 ++ r2)%string -> l1 = l2.
Proof.
  induction l1 as [|a l1 IH]; intros [|b l2] r1 r2 H; try reflexivity; try discriminate. cbn [debug_more] in H. rewrite !str_assoc in H. apply cancel in H.
  apply debug_app in H. destruct H as [-> H]. now rewrite (IH _ _ _ H).
Qed.
Lemma list_app l1 l2 r1 r2 : (debug_list l1 ++ r1)%string = (debug_list l2 ++ r2)%string -> l1 = l2.
Proof.
  destruct l1 as [|a l1], l2 as [|b l2]; intros H; try reflexivity; try discriminate. cbn [debug_list] in H. rewrite !str_assoc in H. apply cancel in H.
  apply debug_app in H. destruct H as [-> H]. now rewrite (more_app _ _ _ _ H).
Qed.

(** ** C97 *)

(** the errors that pb-rs makes itself *)
Definition own_error (e : pb_error) : Prop := match e with PIo _ | PNom _ => False | _ => True end.

(** Two errors with the same text are the same error, with the same payload. *)
Theorem C97_texts : forall e1 e2, own_error e1 -> own_error e2 -> display_pb e1 = display_pb e2 -> e1 = e2.
Proof.
  intros e1 e2 O1 O2 H.
  destruct e1, e2; try contradiction; cbn [display_pb] in H; try reflexivity; try discriminate H; f_equal.
  all: apply cancel in H; try exact H.
  - apply (f_equal (fun x => x ++ "")%string) in H. now apply debug_app in H.
  - now apply cancel_r in H.
  - now apply cancel_r in H.
  - now apply cancel_r in H.
  - now apply cancel_r in H.
  - now apply cancel_r in H.
  - now apply cancel_r in H.
  - now apply list_app in H.
Qed.
Print Assumptions C97_texts.

(** The exit code is 0 exactly after a success, and then nothing is printed.  An
    error of pb-rs is one line; the text of an io error or of a syntax error is
    printed twice. *)
Theorem C97_main : forall r lines code, main_of r = (lines, code) ->
  (r = None <-> code = 0%Z) /\ (r = None <-> lines = []) /\
  (forall e, r = Some e -> code = 1%Z /\
     (own_error e -> lines = [("pb-rs fatal error " ++ display_pb e)%string]) /\
     (~ own_error e -> lines = [("pb-rs fatal error " ++ display_pb e)%string; ("  - " ++ display_pb e)%string])).
Proof.
  intros [e|] lines code H; injection H as <- <-.
  - repeat match goal with |- _ /\ _ => split end; try (split; discriminate). intros x E. injection E as <-. split; [reflexivity|].
    destruct e; split; intros O; try reflexivity; cbn in O; tauto.
  - repeat match goal with |- _ /\ _ => split end; try (split; reflexivity). discriminate.
Qed.
Print Assumptions C97_main.

(** Two runs that end with errors of pb-rs and print the same have the same error. *)
Corollary C97_printed : forall e1 e2, own_error e1 -> own_error e2 -> fst (main_of (Some e1)) = fst (main_of (Some e2)) -> e1 = e2.
Proof.
  intros e1 e2 O1 O2 H. apply C97_texts; [exact O1|exact O2|].
  apply (f_equal (hd "")) in H. cbn [main_of fst hd] in H. now apply cancel in H.
Qed.
Print Assumptions C97_printed.

(** The concrete cases: names with quotes and control characters; and an io
    error with the text of an error of pb-rs, which shows that [own_error] is
    needed. *)
Example C97_case :
  display_pb (PTrailingGarbage (String "010" "}""")) = "parsing abandoned near: ""\n}\"""""
  /\ display_pb (PCycle ["A"; "B"]) = "Messages [""A"", ""B""] are cyclic (missing an optional field)"
  /\ main_of (Some (PIo "No such file or directory (os error 2)")) =
       (["pb-rs fatal error No such file or directory (os error 2)"; "  - No such file or directory (os error 2)"], 1%Z)
  /\ main_of (Some PNoProto) = (["pb-rs fatal error No .proto file provided"], 1%Z)
  /\ display_pb (PIo "No .proto file provided") = display_pb PNoProto.
Proof. repeat split. Qed.
