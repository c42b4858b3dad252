(** A parser for the part of Rust in RustAst.v, after the Rust reference:
    precedence of operators, no struct literals in the head of [if], [match],
    [for] and [while], and statements that end with a block.

    This file is a specification: it does not mention the generator.  What the
    parser does not know is an error: items and expressions of other kinds, more
    than one [as], [*] or comparison in a row, and [else if].  The fuel bounds
    the number of nested calls ([parse_file]: more than enough). *)
From Coq Require Import String Ascii Arith.
From Verif Require Import Base Schema RustLex RustAst.
Import Schema StringSyntax.
Local Open Scope string_scope.
Local Open Scope list_scope.

Notation "'let!' p ':=' e 'in' k" := (match e with Some p => k | None => None end) (at level 200, p pattern, right associativity).
Definition presult (A : Type) : Type := option (A * list token).

(** the rest after a symbol or a word *)
Definition eat (s : text) (ts : list token) : option (list token) :=
  match ts with TSym x :: r => if String.eqb x s then Some r else None | _ => None end.
Definition eat_word (s : text) (ts : list token) : option (list token) :=
  match ts with TWord x :: r => if String.eqb x s then Some r else None | _ => None end.
Definition name (ts : list token) : presult text :=
  match ts with TWord x :: r => if is_key x then None else Some (x, r) | _ => None end.
(** an optional word *)
Definition maybe_word (s : text) (ts : list token) : bool * list token :=
  match eat_word s ts with Some r => (true, r) | None => (false, ts) end.
Definition maybe_life (ts : list token) : option text * list token :=
  match ts with TLife a :: r => (Some a, r) | _ => (None, ts) end.

(** ** Types *)
Fixpoint pty (n : nat) (ts : list token) : presult rty_ :=
  match n with
  | O => None
  | S n' =>
    match ts with
    | TSym x :: r =>
      if String.eqb x "&" then
        let '(lt, r1) := maybe_life r in
        let '(mut, r2) := maybe_word "mut" r1 in
        let! (t, r3) := pty n' r2 in Some (RTRef lt mut t, r3)
      else if String.eqb x "[" then let! (t, r1) := pty n' r in let! r2 := eat "]" r1 in Some (RTSlice t, r2)
      else if String.eqb x "(" then
        let! (l, r1) := ptys n' r in match l with [_] => None | _ => Some (RTTuple l, r1) end
      else if String.eqb x "::" then let! (p, r1) := ptpath n' r in Some (RTPath true p, r1)
      else None
    | TWord w :: r =>
      if String.eqb w "_" then Some (RTInfer, r) else let! (p, r1) := ptpath n' ts in Some (RTPath false p, r1)
    | _ => None
    end
  end
with ptpath (n : nat) (ts : list token) : presult (list pseg) :=
  match n with
  | O => None
  | S n' =>
    match ts with
    | TWord w :: r =>
      if is_seg w then
        let! (gs, r1) := match eat "<" r with Some r1 => pgargs n' r1 | None => Some ([], r) end in
        match eat "::" r1 with
        | Some r2 => let! (p, r3) := ptpath n' r2 in Some (PSeg w gs :: p, r3)
        | None => Some ([PSeg w gs], r1)
        end
      else None
    | _ => None
    end
  end
(** after [<] *)
with pgargs (n : nat) (ts : list token) : presult (list garg) :=
  match n with
  | O => None
  | S n' =>
    let! (a, r) := match ts with
                   | TLife s :: r => Some (GLife s, r)
                   | _ => let! (t, r) := pty n' ts in Some (GType t, r)
                   end in
    match eat "," r with
    | Some r1 => let! (l, r2) := pgargs n' r1 in Some (a :: l, r2)
    | None => let! r1 := eat ">" r in Some ([a], r1)
    end
  end
(** after [(] *)
with ptys (n : nat) (ts : list token) : presult (list rty_) :=
  match n with
  | O => None
  | S n' =>
    match eat ")" ts with
    | Some r => Some ([], r)
    | None =>
      let! (t, r) := pty n' ts in
      match eat "," r with
      | Some r1 => let! (l, r2) := ptys n' r1 in Some (t :: l, r2)
      | None => let! r1 := eat ")" r in Some ([t], r1)
      end
    end
  end.

(** ** Patterns *)
Fixpoint pnames (n : nat) (ts : list token) : presult (list text) :=
  match n with
  | O => None
  | S n' =>
    match ts with
    | TWord w :: r =>
      if is_seg w then
        match eat "::" r with
        | Some r1 => let! (p, r2) := pnames n' r1 in Some (w :: p, r2)
        | None => Some ([w], r)
        end
      else None
    | _ => None
    end
  end.
Fixpoint ppat (n : nat) (ts : list token) : presult rpat :=
  match n with
  | O => None
  | S n' =>
    match ts with
    | TSym x :: r =>
      if String.eqb x "&" then let! (p, r1) := ppat n' r in Some (RPRef p, r1)
      else if String.eqb x "(" then let! (l, r1) := ppats n' r in match l with [_] => None | _ => Some (RPTuple l, r1) end
      else if String.eqb x "-" then match r with TNum m :: r1 => Some (RPNum true m, r1) | _ => None end
      else None
    | TNum m :: r => Some (RPNum false m, r)
    | TStr s :: r => Some (RPStr s, r)
    | TWord w :: r =>
      if String.eqb w "_" then Some (RPWild, r)
      else if String.eqb w "ref" then
        let '(mut, r1) := maybe_word "mut" r in let! (x, r2) := name r1 in Some (RPBind true mut x, r2)
      else if String.eqb w "mut" then let! (x, r1) := name r in Some (RPBind false true x, r1)
      else
        let! (p, r1) := pnames n' ts in
        match eat "(" r1 with
        | Some r2 => let! (l, r3) := ppats n' r2 in Some (RPCon p l, r3)
        | None => match p with
                  | [x] => if is_key x then None else Some (RPBind false false x, r1)
                  | _ => Some (RPPath p, r1)
                  end
        end
    | _ => None
    end
  end
(** after [(] *)
with ppats (n : nat) (ts : list token) : presult (list rpat) :=
  match n with
  | O => None
  | S n' =>
    match eat ")" ts with
    | Some r => Some ([], r)
    | None =>
      let! (p, r) := ppat n' ts in
      match eat "," r with
      | Some r1 => let! (l, r2) := ppats n' r1 in Some (p :: l, r2)
      | None => let! r1 := eat ")" r in Some ([p], r1)
      end
    end
  end.
(** the parameters of a closure, after [|] *)
Fixpoint pparams (n : nat) (ts : list token) : presult (list rpat) :=
  match n with
  | O => None
  | S n' =>
    let! (p, r) := ppat n' ts in
    match eat "," r with
    | Some r1 => let! (l, r2) := pparams n' r1 in Some (p :: l, r2)
    | None => let! r1 := eat "|" r in Some ([p], r1)
    end
  end.

(** ** Expressions; [ns]: no struct literals *)

(** a path: [<..>] needs [::] *)
Fixpoint pepath (n : nat) (ts : list token) : presult (list pseg) :=
  match n with
  | O => None
  | S n' =>
    match ts with
    | TWord w :: r =>
      if is_seg w then
        match eat "::" r with
        | None => Some ([PSeg w []], r)
        | Some r1 =>
          match eat "<" r1 with
          | Some r2 =>
            let! (gs, r3) := pgargs n' r2 in
            match eat "::" r3 with
            | Some r4 => let! (p, r5) := pepath n' r4 in Some (PSeg w gs :: p, r5)
            | None => Some ([PSeg w gs], r3)
            end
          | None => let! (p, r2) := pepath n' r1 in Some (PSeg w [] :: p, r2)
          end
        end
      else None
    | _ => None
    end
  end.

Definition block_start (ts : list token) : bool :=
  match ts with
  | TSym x :: _ => String.eqb x "{"
  | TWord w :: _ => existsb (String.eqb w) ["if"; "match"; "for"; "while"; "unsafe"]
  | _ => false
  end.

Fixpoint pexp (n : nat) (ns : bool) (ts : list token) : presult rexp :=
  match n with
  | O => None
  | S n' =>
    let! (a, r) := pcmp n' ns ts in
    match eat "=" r with
    | Some r1 => let! (b, r2) := pexp n' ns r1 in Some (REAssign a b, r2)
    | None => Some (a, r)
    end
  end
with pcmp (n : nat) (ns : bool) (ts : list token) : presult rexp :=
  match n with
  | O => None
  | S n' =>
    let! (a, r) := padd n' ns ts in
    match eat "==" r with
    | Some r1 => let! (b, r2) := padd n' ns r1 in Some (RECmp true a b, r2)
    | None => match eat "!=" r with
              | Some r1 => let! (b, r2) := padd n' ns r1 in Some (RECmp false a b, r2)
              | None => Some (a, r)
              end
    end
  end
with padd (n : nat) (ns : bool) (ts : list token) : presult rexp :=
  match n with
  | O => None
  | S n' =>
    let! (a, r) := pmul n' ns ts in
    let! (es, r1) := psums n' ns r in
    Some (match es with [] => a | _ => RESum a es end, r1)
  end
with psums (n : nat) (ns : bool) (ts : list token) : presult (list rexp) :=
  match n with
  | O => None
  | S n' =>
    match eat "+" ts with
    | Some r => let! (b, r1) := pmul n' ns r in let! (es, r2) := psums n' ns r1 in Some (b :: es, r2)
    | None => Some ([], ts)
    end
  end
with pmul (n : nat) (ns : bool) (ts : list token) : presult rexp :=
  match n with
  | O => None
  | S n' =>
    let! (a, r) := pcast n' ns ts in
    match eat "*" r with
    | Some r1 => let! (b, r2) := pcast n' ns r1 in Some (REMul a b, r2)
    | None => Some (a, r)
    end
  end
with pcast (n : nat) (ns : bool) (ts : list token) : presult rexp :=
  match n with
  | O => None
  | S n' =>
    let! (a, r) := pun n' ns ts in
    match eat_word "as" r with
    | Some r1 => let! (t, r2) := pty n' r1 in Some (RECast a t, r2)
    | None => Some (a, r)
    end
  end
with pun (n : nat) (ns : bool) (ts : list token) : presult rexp :=
  match n with
  | O => None
  | S n' =>
    match eat "-" ts with
    | Some r => let! (e, r1) := pun n' ns r in Some (REUn UNeg e, r1)
    | None =>
    match eat "!" ts with
    | Some r => let! (e, r1) := pun n' ns r in Some (REUn UNot e, r1)
    | None =>
    match eat "*" ts with
    | Some r => let! (e, r1) := pun n' ns r in Some (REUn UDeref e, r1)
    | None =>
    match eat "&" ts with
    | Some r =>
      let '(mut, r1) := maybe_word "mut" r in
      let! (e, r2) := pun n' ns r1 in Some (REUn (if mut then URefMut else URef) e, r2)
    | None => ppost n' ns ts
    end end end end
  end
with ppost (n : nat) (ns : bool) (ts : list token) : presult rexp :=
  match n with
  | O => None
  | S n' =>
    let! (a, r) := pprim n' ns ts in
    let! (ops, r1) := pops n' r in
    Some (match ops with [] => a | _ => REPost a ops end, r1)
  end
with pops (n : nat) (ts : list token) : presult (list rop) :=
  match n with
  | O => None
  | S n' =>
    match eat "." ts with
    | Some r =>
      let! (f, r1) := name r in
      let! (o, r2) :=
        match eat "::" r1 with
        | Some r2 =>
          let! r3 := eat "<" r2 in let! (gs, r4) := pgargs n' r3 in
          let! r5 := eat "(" r4 in let! (args, r6) := pargs n' r5 in Some (OMethod f gs args, r6)
        | None =>
          match eat "(" r1 with
          | Some r2 => let! (args, r3) := pargs n' r2 in Some (OMethod f [] args, r3)
          | None => Some (OField f, r1)
          end
        end in
      let! (ops, r3) := pops n' r2 in Some (o :: ops, r3)
    | None =>
      match eat "?" ts with
      | Some r => let! (ops, r1) := pops n' r in Some (OTry :: ops, r1)
      | None =>
        match eat "(" ts with
        | Some r => let! (args, r1) := pargs n' r in let! (ops, r2) := pops n' r1 in Some (OCall args :: ops, r2)
        | None => Some ([], ts)
        end
      end
    end
  end
with pprim (n : nat) (ns : bool) (ts : list token) : presult rexp :=
  match n with
  | O => None
  | S n' =>
    match ts with
    | TNum _ as t :: r | TStr _ as t :: r | TBStr _ as t :: r => Some (RELit t, r)
    | TLife _ :: _ => None
    | TSym x :: r =>
      if String.eqb x "(" then
        match eat ")" r with
        | Some r1 => Some (RETuple [], r1)
        | None =>
          let! (e, r1) := pexp n' false r in
          match eat ")" r1 with
          | Some r2 => Some (REParen e, r2)
          | None => let! r2 := eat "," r1 in let! (l, r3) := pargs n' r2 in
                    match l with [] => None | _ => Some (RETuple (e :: l), r3) end
          end
        end
      else if String.eqb x "{" then let! (b, r1) := pblock n' r in Some (REBlock b, r1)
      else if String.eqb x "|" then
        let! (ps, r1) := pparams n' r in let! (e, r2) := pexp n' ns r1 in Some (REClosure ps e, r2)
      else if String.eqb x "::" then let! (p, r1) := pepath n' r in Some (REPath true p, r1)
      else None
    | TWord w :: r =>
      if is_seg w then
        let! (p, r1) := pepath n' ts in
        match (if ns then None else eat "{" r1) with
        | Some r2 => let! (fs, trailing, r3) := pinits n' r2 in Some (REStruct p fs trailing, r3)
        | None => Some (REPath false p, r1)
        end
      else if String.eqb w "true" then Some (REBool true, r)
      else if String.eqb w "false" then Some (REBool false, r)
      else if String.eqb w "if" then
        let! (e, r1) := pexp n' true r in
        let! r2 := eat "{" r1 in let! (b, r3) := pblock n' r2 in
        match eat_word "else" r3 with
        | Some r4 => let! r5 := eat "{" r4 in let! (b', r6) := pblock n' r5 in Some (REIf e b (Some b'), r6)
        | None => Some (REIf e b None, r3)
        end
      else if String.eqb w "match" then
        let! (e, r1) := pexp n' true r in
        let! r2 := eat "{" r1 in let! (arms, r3) := parms n' r2 in Some (REMatch e arms, r3)
      else if String.eqb w "for" then
        let! (p, r1) := ppat n' r in
        let! r2 := eat_word "in" r1 in let! (e, r3) := pexp n' true r2 in
        let! r4 := eat "{" r3 in let! (b, r5) := pblock n' r4 in Some (REFor p e b, r5)
      else if String.eqb w "while" then
        let! (e, r1) := pexp n' true r in
        let! r2 := eat "{" r1 in let! (b, r3) := pblock n' r2 in Some (REWhile e b, r3)
      else if String.eqb w "unsafe" then
        let! r1 := eat "{" r in let! (b, r2) := pblock n' r1 in Some (REUnsafe b, r2)
      else if String.eqb w "return" then let! (e, r1) := pexp n' ns r in Some (REReturn e, r1)
      else None
    | [] => None
    end
  end
(** after [(] *)
with pargs (n : nat) (ts : list token) : presult (list rexp) :=
  match n with
  | O => None
  | S n' =>
    match eat ")" ts with
    | Some r => Some ([], r)
    | None =>
      let! (e, r) := pexp n' false ts in
      match eat "," r with
      | Some r1 => let! (l, r2) := pargs n' r1 in Some (e :: l, r2)
      | None => let! r1 := eat ")" r in Some ([e], r1)
      end
    end
  end
(** after [{] *)
with pblock (n : nat) (ts : list token) : presult (list rstmt) :=
  match n with
  | O => None
  | S n' =>
    match eat "}" ts with
    | Some r => Some ([], r)
    | None =>
      match eat_word "let" ts with
      | Some r =>
        let! (p, r1) := ppat n' r in
        let! r2 := eat "=" r1 in let! (e, r3) := pexp n' false r2 in
        let! r4 := eat ";" r3 in let! (b, r5) := pblock n' r4 in Some (RSLet p e :: b, r5)
      | None =>
        if block_start ts then
          let! (e, r) := pprim n' false ts in
          let '(semi, r1) := match eat ";" r with Some r1 => (true, r1) | None => (false, r) end in
          let! (b, r2) := pblock n' r1 in Some (RSExpr e semi :: b, r2)
        else
          let! (e, r) := pexp n' false ts in
          match eat ";" r with
          | Some r1 => let! (b, r2) := pblock n' r1 in Some (RSExpr e true :: b, r2)
          | None => let! r1 := eat "}" r in Some ([RSExpr e false], r1)
          end
      end
    end
  end
(** after [{]: an arm is followed by a comma, or is a block, or is the last *)
with parms (n : nat) (ts : list token) : presult (list rarm) :=
  match n with
  | O => None
  | S n' =>
    match eat "}" ts with
    | Some r => Some ([], r)
    | None =>
      let! (p, r) := ppat n' ts in
      let! r1 := eat "=>" r in
      match eat "{" r1 with
      | Some r2 =>
        let! (b, r3) := pblock n' r2 in
        let '(comma, r4) := match eat "," r3 with Some r4 => (true, r4) | None => (false, r3) end in
        let! (l, r5) := parms n' r4 in Some (RArm p (REBlock b) comma :: l, r5)
      | None =>
        let! (e, r2) := pexp n' false r1 in
        match eat "," r2 with
        | Some r3 => let! (l, r4) := parms n' r3 in Some (RArm p e true :: l, r4)
        | None => let! r3 := eat "}" r2 in Some ([RArm p e false], r3)
        end
      end
    end
  end
(** after [{]; also whether there is a comma at the end *)
with pinits (n : nat) (ts : list token) : option (list rinit * bool * list token) :=
  match n with
  | O => None
  | S n' =>
    match eat "}" ts with
    | Some r => Some ([], false, r)
    | None =>
      let! (f, r) := name ts in
      let! (i, r1) := match eat ":" r with
                      | Some r1 => let! (e, r2) := pexp n' false r1 in Some (RInit f (Some e), r2)
                      | None => Some (RInit f None, r)
                      end in
      match eat "," r1 with
      | Some r2 => match eat "}" r2 with
                   | Some r3 => Some ([i], true, r3)
                   | None => let! (l, trailing, r3) := pinits n' r2 in Some (i :: l, trailing, r3)
                   end
      | None => let! r2 := eat "}" r1 in Some ([i], false, r2)
      end
    end
  end.

(** ** Items *)

(** the tokens up to [)]; no brackets in between *)
Fixpoint pattr_args (ts : list token) : presult (list token) :=
  match ts with
  | [] => None
  | TSym x :: r =>
    if String.eqb x ")" then Some ([], r)
    else if existsb (String.eqb x) ["("; "["; "]"; "{"; "}"] then None
    else let! (l, r1) := pattr_args r in Some (TSym x :: l, r1)
  | t :: r => let! (l, r1) := pattr_args r in Some (t :: l, r1)
  end.
(** after [#] or [#!] *)
Definition pattr (ts : list token) : presult rattr :=
  let! r := eat "[" ts in
  let! (n, r1) := name r in
  match eat "(" r1 with
  | Some r2 => let! (args, r3) := pattr_args r2 in let! r4 := eat "]" r3 in Some (RAttr n (Some args), r4)
  | None => let! r2 := eat "]" r1 in Some (RAttr n None, r2)
  end.
Fixpoint pattrs (n : nat) (ts : list token) : presult (list rattr) :=
  match n with
  | O => None
  | S n' => match eat "#" ts with
            | Some r => let! (a, r1) := pattr r in let! (l, r2) := pattrs n' r1 in Some (a :: l, r2)
            | None => Some ([], ts)
            end
  end.
(** [#!\[..\]] at the beginning of a file *)
Fixpoint pinners (n : nat) (ts : list token) : presult (list rattr) :=
  match n with
  | O => None
  | S n' => match eat "#" ts with
            | Some r => match eat "!" r with
                        | Some r1 => let! (a, r2) := pattr r1 in let! (l, r3) := pinners n' r2 in Some (a :: l, r3)
                        | None => Some ([], ts)
                        end
            | None => Some ([], ts)
            end
  end.

(** a list with commas up to [close], of names or lifetimes *)
Fixpoint pcommas (A : Type) (p : list token -> presult A) (close : text) (n : nat) (ts : list token) : presult (list A) :=
  match n with
  | O => None
  | S n' =>
    let! (x, r) := p ts in
    match eat "," r with
    | Some r1 => let! (l, r2) := pcommas A p close n' r1 in Some (x :: l, r2)
    | None => let! r1 := eat close r in Some ([x], r1)
    end
  end.
Arguments pcommas {A}.
Definition life (ts : list token) : presult text := match ts with TLife a :: r => Some (a, r) | _ => None end.
Definition plts (n : nat) (ts : list token) : presult (list text) :=
  match eat "<" ts with Some r => pcommas life ">" n r | None => Some ([], ts) end.

Fixpoint pfields (n : nat) (ts : list token) : presult (list rfield) :=
  match n with
  | O => None
  | S n' =>
    match eat "}" ts with
    | Some r => Some ([], r)
    | None =>
      let! (attrs, r) := pattrs n' ts in
      let '(pub, r1) := maybe_word "pub" r in
      let! (f, r2) := name r1 in let! r3 := eat ":" r2 in let! (t, r4) := pty n' r3 in let! r5 := eat "," r4 in
      let! (l, r6) := pfields n' r5 in Some (mkRField attrs pub f t :: l, r6)
    end
  end.
Fixpoint pvariants (n : nat) (ts : list token) : presult (list rvariant) :=
  match n with
  | O => None
  | S n' =>
    match eat "}" ts with
    | Some r => Some ([], r)
    | None =>
      let! (attrs, r) := pattrs n' ts in
      let! (v, r1) := name r in
      let! (pl, r2) := match eat "(" r1 with
                       | Some r2 => let! (t, r3) := pty n' r2 in let! r4 := eat ")" r3 in Some (VOne t, r4)
                       | None =>
                         match eat "=" r1 with
                         | Some r2 => match r2 with
                                      | TNum m :: r3 => Some (VNum false m, r3)
                                      | _ => let! r3 := eat "-" r2 in
                                             match r3 with TNum m :: r4 => Some (VNum true m, r4) | _ => None end
                                      end
                         | None => Some (VUnit, r1)
                         end
                       end in
      let! r3 := eat "," r2 in
      let! (l, r4) := pvariants n' r3 in Some (mkRVariant attrs v pl :: l, r4)
    end
  end.

Definition pgeneric (ts : list token) : presult rgeneric :=
  match ts with
  | TLife a :: r => Some (GpLife a, r)
  | _ => let! (x, r) := name ts in let! r1 := eat ":" r in let! (b, r2) := name r1 in Some (GpBound x b, r2)
  end.
Definition pgenerics (n : nat) (ts : list token) : presult (list rgeneric) :=
  match eat "<" ts with Some r => pcommas pgeneric ">" n r | None => Some ([], ts) end.
(** the parameters of a function up to [)] *)
Fixpoint pfnparams (n : nat) (ts : list token) : presult (list (rpat * rty_)) :=
  match n with
  | O => None
  | S n' =>
    match eat ")" ts with
    | Some r => Some ([], r)
    | None =>
      let! (p, r) := ppat n' ts in let! r1 := eat ":" r in let! (t, r2) := pty n' r1 in
      match eat "," r2 with
      | Some r3 => let! (l, r4) := pfnparams n' r3 in Some ((p, t) :: l, r4)
      | None => let! r3 := eat ")" r2 in Some ([(p, t)], r3)
      end
    end
  end.
(** [self], [&self], [&'a mut self] with the comma after it *)
Definition pself (ts : list token) : rself * list token :=
  let after s r := (s, match eat "," r with Some r1 => r1 | None => r end) in
  match eat_word "self" ts with
  | Some r => after SelfValue r
  | None =>
    match eat "&" ts with
    | Some r =>
      let '(lt, r1) := maybe_life r in
      let '(mut, r2) := maybe_word "mut" r1 in
      match eat_word "self" r2 with
      | Some r3 => after (SelfRef lt mut) r3
      | None => (NoSelf, ts)
      end
    | None => (NoSelf, ts)
    end
  end.
(** after [fn] *)
Definition pfn (n : nat) (pub : bool) (ts : list token) : presult rfn :=
  let! (f, r) := name ts in
  let! (gs, r1) := pgenerics n r in
  let! r2 := eat "(" r1 in
  let '(self, r3) := pself r2 in
  let! (ps, r4) := pfnparams n r3 in
  let! (ret, r5) := match eat "->" r4 with Some r5 => let! (t, r6) := pty n r5 in Some (Some t, r6) | None => Some (None, r4) end in
  let! r6 := eat "{" r5 in let! (b, r7) := pblock n r6 in
  Some (mkRFn pub f gs self ps ret b, r7).

(** after [use] *)
Fixpoint puse (n : nat) (ts : list token) : presult (list text * ruse) :=
  match n with
  | O => None
  | S n' =>
    match eat "*" ts with
    | Some r => let! r1 := eat ";" r in Some (([], UGlob), r1)
    | None =>
      match eat "{" ts with
      | Some r => let! (l, r1) := pcommas name "}" n' r in let! r2 := eat ";" r1 in Some (([], UList l), r2)
      | None =>
        match ts with
        | TWord w :: r =>
          if is_seg w then
            match eat "::" r with
            | Some r1 => let! ((p, u), r2) := puse n' r1 in Some ((w :: p, u), r2)
            | None => let! r1 := eat ";" r in if is_key w then None else Some (([], UName w), r1)
            end
          else None
        | _ => None
        end
      end
    end
  end.

(** up to [}] or the end *)
Fixpoint pitems (n : nat) (ts : list token) : presult (list ritem_) :=
  match n with
  | O => None
  | S n' =>
    match ts with
    | [] => Some ([], [])
    | _ =>
      match eat "}" ts with
      | Some _ => Some ([], ts)
      | None => let! (i, r) := pitem n' ts in let! (l, r1) := pitems n' r in Some (i :: l, r1)
      end
    end
  end
with pitem (n : nat) (ts : list token) : presult ritem_ :=
  match n with
  | O => None
  | S n' =>
    let! (attrs, r) := pattrs n' ts in
    let '(pub, r1) := maybe_word "pub" r in
    match r1 with
    | TWord w :: r2 =>
      if String.eqb w "struct" then
        let! (x, r3) := name r2 in let! (lts, r4) := plts n' r3 in let! r5 := eat "{" r4 in
        let! (fs, r6) := pfields n' r5 in Some (RIStruct attrs pub x lts fs, r6)
      else if String.eqb w "enum" then
        if pub then
          let! (x, r3) := name r2 in let! (lts, r4) := plts n' r3 in let! r5 := eat "{" r4 in
          let! (vs, r6) := pvariants n' r5 in Some (RIEnum attrs x lts vs, r6)
        else None
      else if String.eqb w "impl" then
        if pub then None else
        let! (lts, r3) := plts n' r2 in
        let! (t, r4) := pty n' r3 in
        let! (trait, self, r5) := match eat_word "for" r4 with
                                  | Some r5 => let! (t', r6) := pty n' r5 in Some (Some t, t', r6)
                                  | None => Some (None, t, r4)
                                  end in
        let! r6 := eat "{" r5 in
        let! (items, r7) := pitems n' r6 in let! r8 := eat "}" r7 in Some (RIImpl attrs lts trait self items, r8)
      else match attrs with
      | _ :: _ => None
      | [] =>
        if String.eqb w "fn" then let! (f, r3) := pfn n' pub r2 in Some (RIFn f, r3)
        else if String.eqb w "const" then
          let! (x, r3) := name r2 in let! r4 := eat ":" r3 in let! (t, r5) := pty n' r4 in
          let! r6 := eat "=" r5 in let! (e, r7) := pexp n' false r6 in let! r8 := eat ";" r7 in Some (RIConst pub x t e, r8)
        else if String.eqb w "mod" then
          if pub then
            let! (x, r3) := name r2 in let! r4 := eat "{" r3 in
            let! (items, r5) := pitems n' r4 in let! r6 := eat "}" r5 in Some (RIMod x items, r6)
          else None
        else if pub then None
        else if String.eqb w "use" then let! ((p, u), r3) := puse n' r2 in Some (RIUse p u, r3)
        else if String.eqb w "type" then
          let! (x, r3) := name r2 in
          let! (ps, r4) := match eat "<" r3 with Some r4 => pcommas name ">" n' r4 | None => Some ([], r3) end in
          let! r5 := eat "=" r4 in let! (t, r6) := pty n' r5 in let! r7 := eat ";" r6 in Some (RIAlias x ps t, r7)
        else None
      end
    | _ => None
    end
  end.

(** the whole of a text *)
Definition parse_file (ts : list token) : option rfile :=
  let n := (100 * S (length ts))%nat in
  let! (attrs, r) := pinners n ts in
  let! (items, r1) := pitems n r in
  match r1 with [] => Some (mkRFile attrs items) | _ => None end.
Definition parse_rust (s : text) : option rfile := let! ts := lex s in parse_file ts.
