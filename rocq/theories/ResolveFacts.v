(** Names of declarations and the scopes of a message. *)
From Coq Require Import String Ascii Arith Lia.
From Verif Require Import Base Schema Keywords KeywordFacts Modules ModuleFacts Passes GenCheck Cycles CycleFacts BreakFacts IndexFacts.
Import StringSyntax.
Local Open Scope string_scope.
Local Open Scope list_scope.

(** ** The tables of full names *)
Lemma enumerate_in {A B} (g : nat -> A -> B) l i y :
  In y (enumerate g i l) <-> exists k x, nth_error l k = Some x /\ y = g (i + k)%nat x.
Proof.
  revert i. induction l as [|x l IH]; intros i; cbn.
  - split; [contradiction|]. intros (k & x & H & _). destruct k; discriminate.
  - rewrite IH. split.
    + intros [<-|(k & z & H & ->)]; [exists O, x; now rewrite Nat.add_0_r|].
      exists (S k), z. split; [exact H|]. f_equal. lia.
    + intros ([|k] & z & H & ->); cbn in H.
      * injection H as ->. left. now rewrite Nat.add_0_r.
      * right. exists k, z. split; [exact H|]. f_equal. lia.
Qed.

Lemma msg_names_eq p m : msg_names p m = (msg_full_name m, p) :: msgs_names p O (m_messages m).
Proof.
  destruct m. cbn [msg_names Schema.m_messages]. f_equal. generalize O. induction m_messages as [|x l IH]; intros i; cbn; [reflexivity|].
  now rewrite IH.
Qed.
Lemma enum_names_eq p m : enum_names p m =
  enumerate (fun i e => (nested_enum_full_name e, mkEidx p i)) O (m_enums m) ++ enums_names p O (m_messages m).
Proof.
  destruct m. cbn [enum_names Schema.m_messages Schema.m_enums]. f_equal. generalize O. induction m_messages as [|x l IH]; intros i; cbn; [reflexivity|].
  now rewrite IH.
Qed.

Lemma msgs_names_in l : forall pre i n q,
  (forall m, In m l -> forall pre' n q, In (n, q) (msg_names pre' m) <->
     exists r m', q = pre' ++ r /\ (r = [] /\ m' = m \/ get_in (m_messages m) r = Some m') /\ msg_full_name m' = n) ->
  (In (n, q) (msgs_names pre i l) <->
   exists k r m', q = pre ++ (i + k)%nat :: r /\ get_in l (k :: r) = Some m' /\ msg_full_name m' = n).
Proof.
  induction l as [|x l IH]; intros pre i n q H; cbn [msgs_names].
  - split; [contradiction|]. intros (k & r & m' & _ & G & _). destruct k; discriminate.
  - rewrite in_app_iff, IH by (intros m Hm; apply H; now right). rewrite (H x (or_introl eq_refl)). split.
    + intros [(r & m' & -> & [(-> & ->)|G] & E)|(k & r & m' & -> & G & E)].
      * exists O, [], x. rewrite Nat.add_0_r, app_nil_r. auto.
      * exists O, r, m'. rewrite Nat.add_0_r, <- app_assoc. split; [reflexivity|]. split; [|exact E]. cbn. destruct r; [discriminate|exact G].
      * exists (S k), r, m'. split; [now rewrite Nat.add_succ_r|]. auto.
    + intros ([|k] & r & m' & -> & G & E).
      * left. exists r, m'. rewrite Nat.add_0_r, <- app_assoc. split; [reflexivity|]. split; [|exact E]. cbn in G.
        destruct r; [left; injection G as ->; auto|now right].
      * right. exists k, r, m'. split; [now rewrite Nat.add_succ_r|]. auto.
Qed.
Lemma msg_names_in m : forall pre n q, In (n, q) (msg_names pre m) <->
  exists r m', q = pre ++ r /\ (r = [] /\ m' = m \/ get_in (m_messages m) r = Some m') /\ msg_full_name m' = n.
Proof.
  induction m as [m IH] using message_tree_ind. intros pre n q. rewrite msg_names_eq. cbn [In]. rewrite Forall_forall in IH.
  rewrite (msgs_names_in (m_messages m) pre O n q IH). split.
  - intros [E|(k & r & m' & -> & G & E)].
    + injection E as <- <-. exists [], m. rewrite app_nil_r. auto.
    + exists (k :: r), m'. auto.
  - intros (r & m' & -> & [(-> & ->)|G] & E).
    + left. now rewrite app_nil_r, E.
    + right. destruct r as [|k r]; [discriminate|]. exists k, r, m'. auto.
Qed.

(** the messages of the first table *)
Lemma full_msgs_in d n i : In (n, i) (full_msgs d) <-> exists m, get_message d i = Some m /\ msg_full_name m = n.
Proof.
  unfold full_msgs. rewrite (msgs_names_in (d_messages d) [] O n i (fun m _ => msg_names_in m)). split.
  - intros (k & r & m & -> & G & E). exists m. rewrite get_message_eq. auto.
  - intros (m & G & E). rewrite get_message_eq in G. destruct i as [|k r]; [discriminate|]. exists k, r, m. auto.
Qed.

Lemma enums_names_in l : forall pre i n q,
  (forall m, In m l -> forall pre' n q, In (n, q) (enum_names pre' m) <->
     exists r m' k e, q = mkEidx (pre' ++ r) k /\ (r = [] /\ m' = m \/ get_in (m_messages m) r = Some m') /\
       nth_error (m_enums m') k = Some e /\ nested_enum_full_name e = n) ->
  (In (n, q) (enums_names pre i l) <->
   exists k r m' j e, q = mkEidx (pre ++ (i + k)%nat :: r) j /\ get_in l (k :: r) = Some m' /\
     nth_error (m_enums m') j = Some e /\ nested_enum_full_name e = n).
Proof.
  induction l as [|x l IH]; intros pre i n q H; cbn [enums_names].
  - split; [contradiction|]. intros (k & r & m' & j & e & _ & G & _). destruct k; discriminate.
  - rewrite in_app_iff, IH by (intros m Hm; apply H; now right). rewrite (H x (or_introl eq_refl)). split.
    + intros [(r & m' & j & e & -> & [(-> & ->)|G] & E)|(k & r & m' & j & e & -> & G & E)].
      * exists O, [], x, j, e. rewrite Nat.add_0_r, app_nil_r. auto.
      * exists O, r, m', j, e. rewrite Nat.add_0_r, <- app_assoc. split; [reflexivity|]. split; [|exact E]. cbn. destruct r; [discriminate|exact G].
      * exists (S k), r, m', j, e. split; [now rewrite Nat.add_succ_r|]. auto.
    + intros ([|k] & r & m' & j & e & -> & G & E).
      * left. exists r, m', j, e. rewrite Nat.add_0_r, <- app_assoc. split; [reflexivity|]. split; [|exact E]. cbn in G.
        destruct r; [left; injection G as ->; auto|now right].
      * right. exists k, r, m', j, e. split; [now rewrite Nat.add_succ_r|]. auto.
Qed.
Lemma enum_names_in m : forall pre n q, In (n, q) (enum_names pre m) <->
  exists r m' k e, q = mkEidx (pre ++ r) k /\ (r = [] /\ m' = m \/ get_in (m_messages m) r = Some m') /\
    nth_error (m_enums m') k = Some e /\ nested_enum_full_name e = n.
Proof.
  induction m as [m IH] using message_tree_ind. intros pre n q. rewrite enum_names_eq, in_app_iff, enumerate_in. rewrite Forall_forall in IH.
  rewrite (enums_names_in (m_messages m) pre O n q IH). split.
  - intros [(k & e & H & E)|(k & r & m' & j & e & -> & G & E)].
    + injection E as -> ->. exists [], m, k, e. rewrite app_nil_r. auto.
    + exists (k :: r), m', j, e. auto.
  - intros (r & m' & k & e & -> & [(-> & ->)|G] & H & E).
    + left. exists k, e. rewrite app_nil_r, E. auto.
    + right. destruct r as [|k' r]; [discriminate|]. exists k', r, m', k, e. auto.
Qed.

(** the enums of the second table *)
Lemma full_enums_in d n q : In (n, q) (full_enums d) <->
  exists e, get_enum d q = Some e /\ (match e_msg q with [] => enum_full_name e | _ => nested_enum_full_name e end) = n.
Proof.
  unfold full_enums. rewrite in_app_iff, enumerate_in, (enums_names_in (d_messages d) [] O n q (fun m _ => enum_names_in m)).
  destruct q as [p j]. unfold get_enum. cbn [e_msg e_pos]. split.
  - intros [(k & r & m & j' & e & E & G & N & F)|(k & e & N & E)].
    + injection E as -> ->. exists e. rewrite get_message_eq. cbn [app Nat.add]. rewrite G. auto.
    + injection E as -> -> ->. exists e. auto.
  - intros (e & G & F). destruct p as [|k r].
    + right. exists j, e. cbn. rewrite F. auto.
    + left. rewrite get_message_eq in G. destruct (get_in (d_messages d) (k :: r)) as [m|] eqn:Gm; [|discriminate].
      exists k, r, m, j, e. auto.
Qed.

Lemma lookup_some {A} (l : list (text * A)) k v : lookup l k = Some v -> In (k, v) l.
Proof.
  induction l as [|(k', v') l IH]; cbn; [discriminate|]. destruct (String.eqb_spec k k') as [->|D].
  - intros H; injection H as <-. now left.
  - intros H. right. auto.
Qed.
Lemma lookup_none {A} (l : list (text * A)) k : lookup l k = None -> forall v, ~ In (k, v) l.
Proof.
  induction l as [|(k', v') l IH]; cbn; [auto|]. destruct (String.eqb_spec k k') as [->|D]; [discriminate|].
  intros H v [E|E]; [congruence|]. now apply (IH H v).
Qed.

(** ** The scopes of a package *)
Lemma str_app_assoc a b c : ((a ++ b) ++ c = a ++ (b ++ c))%string.
Proof. induction a; cbn; congruence. Qed.
Lemma str_app_nil a : (a ++ "")%string = a.
Proof. induction a; cbn; congruence. Qed.

Lemma dot_prefixes_none b : contains_char "." b = false -> forall acc, dot_prefixes acc b = [].
Proof.
  induction b as [|y b IHb]; intros N acc; [reflexivity|].
  cbn in N. apply Bool.orb_false_iff in N. destruct N as (Ny & Nb). cbn. rewrite (IHb Nb).
  destruct (Ascii.eqb_spec y "."%char) as [->|]; [|reflexivity]. discriminate Ny.
Qed.
Lemma dot_prefixes_app acc a : forall b, contains_char "." b = false ->
  dot_prefixes acc (a ++ String "." b)%string = (acc ++ a)%string :: dot_prefixes acc a.
Proof.
  revert acc. induction a as [|x a IH]; intros acc b N.
  - cbn. replace (dot_prefixes _ b) with (@nil text); [now rewrite str_app_nil|].
    symmetry. now apply dot_prefixes_none.
  - cbn [append dot_prefixes]. rewrite (IH (acc ++ String x "")%string b N), str_app_assoc. cbn [append].
    destruct (Ascii.eqb x "."); reflexivity.
Qed.
