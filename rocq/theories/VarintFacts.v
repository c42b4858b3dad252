(** Varint reading and writing. *)
From Coq Require Import ZifyBool ZifyNat ZifyN.
From Verif Require Import Base BaseFacts Reader Writer Sizeofs Spec.
Ltac Zify.zify_post_hook ::= Z.div_mod_to_equations.

(** ** Reading *)

Lemma bind_ok {A B} (m : rd A) (f : A -> rd B) bs r a r' :
  m bs r = (Ok a, r') -> bind m f bs r = f a bs r'.
Proof. intros H. unfold bind. rewrite H. reflexivity. Qed.

Lemma bind_err {A B} (m : rd A) (f : A -> rd B) bs r x r' :
  m bs r = (Err x, r') -> bind m f bs r = (Err x, r').
Proof. intros H. unfold bind. rewrite H. reflexivity. Qed.

Lemma read_u8_here bs s e b l :
  here bs s (b :: l) -> read_u8 bs (mkR s e) = (Ok (bz b), mkR (s + 1) e).
Proof.
  intros H. apply here_cons in H. destruct H as [H _].
  unfold read_u8, bind, get_start, get_or_eob, set_start, ret. simpl. rewrite H. reflexivity.
Qed.

Lemma read_u8_end bs s e :
  0 <= s -> zlen bs <= s -> read_u8 bs (mkR s e) = (Err EUnexpectedEndOfBuffer, mkR s e).
Proof.
  intros H0 H. unfold read_u8, bind, get_start, get_or_eob. simpl.
  rewrite (proj2 (get_none bs s H0) H). reflexivity.
Qed.

Lemma msb_clear_lt b : msb_clear (bz b) = (bz b <? 128).
Proof. unfold msb_clear. apply land_80, bz_range. Qed.

Ltac u8step H :=
  erewrite bind_ok by (eapply read_u8_here; exact H);
  apply here_cons in H; destruct H as [_ H];
  rewrite ?msb_clear_lt.

Lemma all_cont_cons b l : all_cont (b :: l) -> 128 <= bz b /\ all_cont l.
Proof. intros H. inversion H; auto. Qed.

Ltac vsplit :=
  repeat match goal with
  | H : is_varint [] |- _ => inversion H
  | H : is_varint (?b :: ?l) |- _ =>
      let H1 := fresh "Hb" in let H2 := fresh "Hv" in
      inversion H as [? H1 | ? ? H1 H2]; clear H; subst
  end.

Lemma shiftl_bound a n k : 0 <= n -> 0 <= a < 2 ^ k -> 0 <= k -> 0 <= a * 2 ^ n < 2 ^ (k + n).
Proof.
  intros Hn Ha Hk. rewrite Z.pow_add_r by lia.
  pose proof (Z.pow_pos_nonneg 2 n ltac:(lia) Hn). nia.
Qed.

(** ten bytes *)
Ltac bounds :=
  repeat match goal with
  | b : byte |- _ =>
    lazymatch goal with
    | _ : 0 <= bz b < 256 |- _ => fail
    | _ => pose proof (bz_range b)
    end
  end.

Ltac lorsum :=
  rewrite ?land_7f, ?land_f;
  repeat match goal with
         | |- context [Z.lor ?a (Z.shiftl ?b ?n)] => rewrite (lor_add a b n) by lia
         end;
  cbn [varint_value].

Lemma wrap64_shift56 r : 0 <= r -> wrapU 64 (Z.shiftl r 56) = Z.shiftl (r mod 256) 56.
Proof.
  intros H. unfold wrapU. rewrite !Z.shiftl_mul_pow2 by lia.
  change (2 ^ 64) with (256 * 2 ^ 56). rewrite Z.mul_mod_distr_r by lia. reflexivity.
Qed.

Lemma res_eq {A} (a b : A) s s' e :
  a = b -> s = s' -> (Ok a, mkR s e) = (Ok b, mkR s' e).
Proof. intros -> ->. reflexivity. Qed.

Ltac vlen := unfold zlen; simpl length; lia.

Lemma read_varint64_ok bs s e l :
  here bs s l -> is_varint l -> (length l <= 10)%nat ->
  read_varint64 bs (mkR s e) = (Ok (varint_value l mod 2 ^ 64), mkR (s + zlen l) e).
Proof.
  intros H Hv Hl.
  do 10 (destruct l as [|? l];
    [ exfalso; vsplit; lia
    | let Hb := fresh "Hb" in inversion Hv as [? Hb|? ? Hb Hv']; subst; clear Hv;
      [ unfold read_varint64;
        repeat (u8step H;
                match goal with |- context [bz ?b <? 128] =>
                  destruct (Z.ltb_spec (bz b) 128); try lia end);
        unfold ret; apply res_eq; [|vlen];
        clear H; bounds; lorsum;
        repeat (rewrite wrap64_shift56 by lia; lorsum); change (2 ^ 64) with 18446744073709551616; lia
      | rename Hv' into Hv ] ]).
  exfalso. destruct l; [inversion Hv|simpl in Hl; lia].
Qed.

Lemma discard_extra_ok bs s e l n r :
  here bs s l -> is_varint l -> (length l <= n)%nat ->
  discard_extra n r bs (mkR s e) = (Ok r, mkR (s + zlen l) e).
Proof.
  revert s l; induction n as [|n IH]; intros s l H Hv Hl.
  - destruct l; [inversion Hv|simpl in Hl; lia].
  - destruct l as [|b l]; [inversion Hv|]. simpl discard_extra. pose proof H as H'. u8step H.
    inversion Hv; subst.
    + destruct (Z.ltb_spec (bz b) 128); [|lia]. unfold ret. apply res_eq; [reflexivity|vlen].
    + destruct (Z.ltb_spec (bz b) 128); [lia|]. erewrite IH; [|exact H|assumption|simpl in Hl; lia].
      apply res_eq; [reflexivity|rewrite zlen_cons; lia].
Qed.

Lemma varint_value_nonneg l : 0 <= varint_value l.
Proof. induction l; cbn [varint_value]; [lia|]. bounds. lia. Qed.

Lemma read_varint32_ok bs s e l :
  here bs s l -> is_varint l -> (length l <= 10)%nat ->
  read_varint32 bs (mkR s e) = (Ok (varint_value l mod 2 ^ 32), mkR (s + zlen l) e).
Proof.
  intros H Hv Hl.
  do 5 (destruct l as [|? l];
    [ exfalso; vsplit; lia
    | let Hb := fresh "Hb" in inversion Hv as [? Hb|? ? Hb Hv']; subst; clear Hv;
      [ unfold read_varint32;
        repeat (u8step H;
                match goal with |- context [bz ?b <? 128] =>
                  destruct (Z.ltb_spec (bz b) 128); try lia end);
        unfold ret; apply res_eq; [|vlen];
        clear H; bounds; lorsum; change (2 ^ 32) with 4294967296; lia
      | rename Hv' into Hv ] ]).
  unfold read_varint32.
  repeat (u8step H;
          match goal with |- context [bz ?b <? 128] =>
            destruct (Z.ltb_spec (bz b) 128); [lia|] end).
  erewrite discard_extra_ok; [|exact H|assumption|simpl in Hl; lia].
  pose proof (varint_value_nonneg l).
  apply res_eq; [|vlen].
  clear H; bounds; lorsum. change (2 ^ 32) with 4294967296; lia.
Qed.

(** ten continuation bytes *)
Lemma discard_extra_long bs s e l n r :
  here bs s l -> all_cont l -> length l = n ->
  discard_extra n r bs (mkR s e) = (Err EVarint, mkR (s + zlen l) e).
Proof.
  revert s l; induction n as [|n IH]; intros s l H Hc Hl.
  - destruct l; [|discriminate]. simpl. unfold fail. rewrite zlen_nil, Z.add_0_r. reflexivity.
  - destruct l as [|b l]; [discriminate|]. simpl discard_extra. u8step H.
    apply all_cont_cons in Hc. destruct Hc as [Hb Hc].
    destruct (Z.ltb_spec (bz b) 128); [lia|].
    erewrite IH; [|exact H|assumption|simpl in Hl; lia].
    rewrite zlen_cons. f_equal. f_equal. lia.
Qed.

Lemma discard_extra_eob bs s e l n r :
  here bs s l -> all_cont l -> (length l < n)%nat -> s + zlen l = zlen bs ->
  discard_extra n r bs (mkR s e) = (Err EUnexpectedEndOfBuffer, mkR (zlen bs) e).
Proof.
  revert s l; induction n as [|n IH]; intros s l H Hc Hl Hend.
  - lia.
  - pose proof (here_nonneg _ _ _ H). destruct l as [|b l].
    + rewrite zlen_nil, Z.add_0_r in Hend. subst s. simpl.
      apply bind_err. apply read_u8_end; lia.
    + simpl discard_extra. u8step H.
      apply all_cont_cons in Hc. destruct Hc as [Hb Hc].
      destruct (Z.ltb_spec (bz b) 128); [lia|].
      eapply IH; [exact H|assumption|simpl in Hl; lia|rewrite zlen_cons in Hend; lia].
Qed.

Ltac contstep H Hc :=
  u8step H;
  let Hb := fresh "Hb" in
  apply all_cont_cons in Hc; destruct Hc as [Hb Hc];
  match goal with |- context [bz ?b <? 128] =>
    destruct (Z.ltb_spec (bz b) 128); [lia|] end.

Lemma read_varint64_long bs s e l :
  here bs s l -> all_cont l -> length l = 10%nat ->
  read_varint64 bs (mkR s e) = (Err EVarint, mkR (s + 10) e).
Proof.
  intros H Hc Hl. do 10 (destruct l as [|? l]; [discriminate|]).
  unfold read_varint64. do 10 contstep H Hc.
  unfold fail. f_equal. f_equal. lia.
Qed.

Lemma read_varint32_long bs s e l :
  here bs s l -> all_cont l -> length l = 10%nat ->
  read_varint32 bs (mkR s e) = (Err EVarint, mkR (s + 10) e).
Proof.
  intros H Hc Hl. do 5 (destruct l as [|? l]; [discriminate|]).
  unfold read_varint32. do 5 contstep H Hc.
  erewrite discard_extra_long; [|exact H|exact Hc|simpl in Hl; lia].
  f_equal. f_equal. unfold zlen. simpl in Hl. lia.
Qed.

Lemma bind_u8_end {B} (f : Z -> rd B) bs s e :
  s = zlen bs -> bind read_u8 f bs (mkR s e) = (Err EUnexpectedEndOfBuffer, mkR (zlen bs) e).
Proof.
  intros ->. apply bind_err. apply read_u8_end; [apply zlen_nonneg|lia].
Qed.

Lemma read_varint64_eob bs s e l :
  here bs s l -> all_cont l -> (length l < 10)%nat -> s + zlen l = zlen bs ->
  read_varint64 bs (mkR s e) = (Err EUnexpectedEndOfBuffer, mkR (zlen bs) e).
Proof.
  intros H Hc Hl Hend. unfold read_varint64.
  do 10 (destruct l as [|? l];
         [ apply bind_u8_end; rewrite <- Hend; vlen
         | contstep H Hc ]).
  simpl in Hl; lia.
Qed.

Lemma read_varint32_eob bs s e l :
  here bs s l -> all_cont l -> (length l < 10)%nat -> s + zlen l = zlen bs ->
  read_varint32 bs (mkR s e) = (Err EUnexpectedEndOfBuffer, mkR (zlen bs) e).
Proof.
  intros H Hc Hl Hend. unfold read_varint32.
  do 5 (destruct l as [|? l];
         [ apply bind_u8_end; rewrite <- Hend; vlen
         | contstep H Hc ]).
  eapply discard_extra_eob; [exact H|exact Hc|simpl in Hl; lia|].
  rewrite <- Hend. vlen.
Qed.

(** every position falls in one of the cases *)
Lemma varint_cases (l : bytes) n :
  (exists l1 l2, l = l1 ++ l2 /\ is_varint l1 /\ (length l1 <= n)%nat) \/
  (exists l1 l2, l = l1 ++ l2 /\ all_cont l1 /\ length l1 = n) \/
  (all_cont l /\ (length l < n)%nat).
Proof.
  revert l; induction n as [|n IH]; intros l.
  - right; left. exists [], l. repeat split. constructor.
  - destruct l as [|b l].
    + right; right. split; [constructor|simpl; lia].
    + destruct (Z.ltb_spec (bz b) 128).
      * left. exists [b], l. repeat split; [constructor; assumption|simpl; lia].
      * destruct (IH l) as [(l1 & l2 & -> & Hv & Hl)|[(l1 & l2 & -> & Hc & Hl)|(Hc & Hl)]].
        -- left. exists (b :: l1), l2. repeat split; [constructor; assumption|simpl; lia].
        -- right; left. exists (b :: l1), l2. repeat split; [constructor; assumption|simpl; lia].
        -- right; right. split; [constructor; assumption|simpl; lia].
Qed.

Lemma read_varint64_beyond bs s e :
  zlen bs <= s -> read_varint64 bs (mkR s e) = (Err EUnexpectedEndOfBuffer, mkR s e).
Proof.
  intros H. pose proof (zlen_nonneg bs). unfold read_varint64. apply bind_err.
  apply read_u8_end; lia.
Qed.
Lemma read_varint32_beyond bs s e :
  zlen bs <= s -> read_varint32 bs (mkR s e) = (Err EUnexpectedEndOfBuffer, mkR s e).
Proof.
  intros H. pose proof (zlen_nonneg bs). unfold read_varint32. apply bind_err.
  apply read_u8_end; lia.
Qed.
