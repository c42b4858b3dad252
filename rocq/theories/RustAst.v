(** Syntax trees of a part of Rust, and the tokens they are written with.

    This file is a specification: it does not mention the generator.  Sums and
    chains of postfix operators are lists, so that a tree has no more structure
    than its text: [a + b + c] is [RESum a [b; c]], and [a.f.g()?] is
    [REPost a [OField f; OMethod g ..; OTry]]. *)
From Coq Require Import String Ascii Arith.
From Verif Require Import Base Schema RustLex.
Import Schema StringSyntax.
Local Open Scope string_scope.
Local Open Scope list_scope.

(** ** Types *)
Inductive rty_ :=
| RTPath (lead : bool) (p : list pseg)            (* [lead]: a path that begins with :: *)
| RTRef (lt : option text) (mut : bool) (t : rty_)
| RTSlice (t : rty_)
| RTTuple (l : list rty_)
| RTInfer
with pseg := PSeg (name : text) (args : list garg)
with garg := GLife (s : text) | GType (t : rty_).

(** ** Patterns *)
Inductive rpat :=
| RPWild
| RPBind (by_ref mut : bool) (x : text)
| RPRef (p : rpat)
| RPTuple (l : list rpat)
| RPCon (path : list text) (l : list rpat)        (* A::B(p, q) *)
| RPPath (path : list text)                       (* A::B, at least two names *)
| RPNum (neg : bool) (n : text)
| RPStr (s : text).

(** ** Expressions *)
Inductive unop := UNeg | UNot | UDeref | URef | URefMut.
Inductive rexp :=
| RELit (t : token)                               (* numbers and strings *)
| REBool (b : bool)
| REPath (lead : bool) (p : list pseg)
| REParen (e : rexp)
| RETuple (l : list rexp)                         (* not one component *)
| REBlock (b : list rstmt)
| REUnsafe (b : list rstmt)
| REIf (e : rexp) (b : list rstmt) (els : option (list rstmt))
| REMatch (e : rexp) (arms : list rarm)
| REFor (p : rpat) (e : rexp) (b : list rstmt)
| REWhile (e : rexp) (b : list rstmt)
| REClosure (ps : list rpat) (body : rexp)
| REReturn (e : rexp)
| REStruct (p : list pseg) (fs : list rinit) (trailing : bool)
| REPost (e : rexp) (ops : list rop)
| REUn (o : unop) (e : rexp)
| RECast (e : rexp) (t : rty_)
| REMul (a b : rexp)
| RESum (e : rexp) (es : list rexp)
| RECmp (eq : bool) (a b : rexp)                  (* == or != *)
| REAssign (a b : rexp)
with rstmt :=
| RSLet (p : rpat) (e : rexp)
| RSExpr (e : rexp) (semi : bool)
with rarm := RArm (p : rpat) (e : rexp) (comma : bool)
with rinit := RInit (f : text) (e : option rexp)
with rop :=
| OField (f : text)
| OMethod (f : text) (gs : list garg) (args : list rexp)
| OCall (args : list rexp)
| OTry.

(** ** Items *)
Inductive rattr := RAttr (name : text) (args : option (list token)).
Inductive ruse := UGlob | UName (n : text) | UList (l : list text).
Record rfield := mkRField { rf_attrs : list rattr; rf_pub : bool; rf_name : text; rf_type : rty_ }.
Inductive rpayload := VUnit | VOne (t : rty_) | VNum (neg : bool) (n : text).
Record rvariant := mkRVariant { rv_attrs : list rattr; rv_name : text; rv_payload : rpayload }.
Inductive rself := NoSelf | SelfValue | SelfRef (lt : option text) (mut : bool).
Inductive rgeneric := GpLife (s : text) | GpBound (name bound : text).
Record rfn := mkRFn {
  fn_pub : bool; fn_name : text; fn_generics : list rgeneric; fn_self : rself;
  fn_params : list (rpat * rty_); fn_ret : option rty_; fn_body : list rstmt }.
Inductive ritem_ :=
| RIUse (path : list text) (leaf : ruse)
| RIAlias (name : text) (params : list text) (t : rty_)   (* type N<..> = T; *)
| RIConst (pub : bool) (name : text) (t : rty_) (e : rexp)
| RIFn (f : rfn)
| RIStruct (attrs : list rattr) (pub : bool) (name : text) (lts : list text) (fs : list rfield)
| RIEnum (attrs : list rattr) (name : text) (lts : list text) (vs : list rvariant)   (* pub enum *)
| RIImpl (attrs : list rattr) (lts : list text) (trait : option rty_) (t : rty_) (items : list ritem_)
| RIMod (name : text) (items : list ritem_).              (* pub mod *)
Record rfile := mkRFile { file_attrs : list rattr; file_items : list ritem_ }.

(** ** Words *)

(** Keywords of the 2018 and 2021 editions, strict and reserved; [_] is no
    identifier *)
Definition keywords : list text :=
  ["as"; "break"; "const"; "continue"; "crate"; "else"; "enum"; "extern"; "false"; "fn"; "for"; "if"; "impl"; "in"; "let";
   "loop"; "match"; "mod"; "move"; "mut"; "pub"; "ref"; "return"; "self"; "Self"; "static"; "struct"; "super"; "trait";
   "true"; "type"; "unsafe"; "use"; "where"; "while"; "async"; "await"; "dyn"; "abstract"; "become"; "box"; "do"; "final";
   "macro"; "override"; "priv"; "typeof"; "unsized"; "virtual"; "yield"; "try"; "_"].
Definition is_key (s : text) : bool := existsb (String.eqb s) keywords.
(** a segment of a path *)
Definition is_seg (s : text) : bool := negb (is_key s) || existsb (String.eqb s) ["self"; "Self"; "super"; "crate"].

(** ** Printing *)
Definition sym (s : text) : list token := [TSym s].
Definition word (s : text) : list token := [TWord s].
(** with [sep] between the elements *)
Definition sep_by {A} (sep : list token) (p : A -> list token) : list A -> list token :=
  fix go (l : list A) : list token :=
    match l with
    | [] => []
    | x :: l' => match l' with [] => p x | _ => p x ++ sep ++ go l' end
    end.
Definition comma_sep {A} (p : A -> list token) (l : list A) : list token := sep_by (sym ",") p l.

Fixpoint print_ty (t : rty_) : list token :=
  match t with
  | RTPath lead p => (if lead then sym "::" else []) ++ sep_by (sym "::") print_tseg p
  | RTRef lt mut t => sym "&" ++ match lt with Some a => [TLife a] | None => [] end ++ (if mut then word "mut" else []) ++ print_ty t
  | RTSlice t => sym "[" ++ print_ty t ++ sym "]"
  | RTTuple l => sym "(" ++ comma_sep print_ty l ++ sym ")"
  | RTInfer => word "_"
  end
(** a segment in a type *)
with print_tseg (s : pseg) : list token :=
  match s with
  | PSeg n [] => word n
  | PSeg n gs => word n ++ sym "<" ++ comma_sep print_garg gs ++ sym ">"
  end
with print_garg (a : garg) : list token :=
  match a with GLife s => [TLife s] | GType t => print_ty t end.
(** [<..>] after [::] in an expression *)
Definition print_turbofish (gs : list garg) : list token :=
  match gs with [] => [] | _ => sym "::" ++ sym "<" ++ comma_sep print_garg gs ++ sym ">" end.
Definition print_eseg (s : pseg) : list token := match s with PSeg n gs => word n ++ print_turbofish gs end.
Definition print_path (lead : bool) (p : list pseg) : list token :=
  (if lead then sym "::" else []) ++ sep_by (sym "::") print_eseg p.
Definition print_names (p : list text) : list token := sep_by (sym "::") word p.

Fixpoint print_pat (p : rpat) : list token :=
  match p with
  | RPWild => word "_"
  | RPBind r m x => (if r then word "ref" else []) ++ (if m then word "mut" else []) ++ word x
  | RPRef p => sym "&" ++ print_pat p
  | RPTuple l => sym "(" ++ comma_sep print_pat l ++ sym ")"
  | RPCon path l => print_names path ++ sym "(" ++ comma_sep print_pat l ++ sym ")"
  | RPPath path => print_names path
  | RPNum neg n => (if neg then sym "-" else []) ++ [TNum n]
  | RPStr s => [TStr s]
  end.

Definition print_unop (o : unop) : list token :=
  match o with
  | UNeg => sym "-" | UNot => sym "!" | UDeref => sym "*" | URef => sym "&" | URefMut => sym "&" ++ word "mut"
  end.
Definition braces (l : list token) : list token := sym "{" ++ l ++ sym "}".
Definition parens (l : list token) : list token := sym "(" ++ l ++ sym ")".

Fixpoint print_exp (e : rexp) : list token :=
  match e with
  | RELit t => [t]
  | REBool b => word (if b then "true" else "false")
  | REPath lead p => print_path lead p
  | REParen e => parens (print_exp e)
  | RETuple l => parens (comma_sep print_exp l)
  | REBlock b => braces (flat_map print_stmt b)
  | REUnsafe b => word "unsafe" ++ braces (flat_map print_stmt b)
  | REIf e b els => word "if" ++ print_exp e ++ braces (flat_map print_stmt b)
                    ++ match els with Some b' => word "else" ++ braces (flat_map print_stmt b') | None => [] end
  | REMatch e arms => word "match" ++ print_exp e ++ braces (flat_map print_arm arms)
  | REFor p e b => word "for" ++ print_pat p ++ word "in" ++ print_exp e ++ braces (flat_map print_stmt b)
  | REWhile e b => word "while" ++ print_exp e ++ braces (flat_map print_stmt b)
  | REClosure ps body => sym "|" ++ comma_sep print_pat ps ++ sym "|" ++ print_exp body
  | REReturn e => word "return" ++ print_exp e
  | REStruct p fs trailing => print_path false p ++ braces (comma_sep print_init fs ++ if trailing then sym "," else [])
  | REPost e ops => print_exp e ++ flat_map print_op ops
  | REUn o e => print_unop o ++ print_exp e
  | RECast e t => print_exp e ++ word "as" ++ print_ty t
  | REMul a b => print_exp a ++ sym "*" ++ print_exp b
  | RESum e es => print_exp e ++ flat_map (fun x => sym "+" ++ print_exp x) es
  | RECmp eq a b => print_exp a ++ sym (if eq then "==" else "!=") ++ print_exp b
  | REAssign a b => print_exp a ++ sym "=" ++ print_exp b
  end
with print_stmt (s : rstmt) : list token :=
  match s with
  | RSLet p e => word "let" ++ print_pat p ++ sym "=" ++ print_exp e ++ sym ";"
  | RSExpr e semi => print_exp e ++ if semi then sym ";" else []
  end
with print_arm (a : rarm) : list token :=
  match a with RArm p e comma => print_pat p ++ sym "=>" ++ print_exp e ++ if comma then sym "," else [] end
with print_init (i : rinit) : list token :=
  match i with
  | RInit f (Some e) => word f ++ sym ":" ++ print_exp e
  | RInit f None => word f
  end
with print_op (o : rop) : list token :=
  match o with
  | OField f => sym "." ++ word f
  | OMethod f gs args => sym "." ++ word f ++ print_turbofish gs ++ parens (comma_sep print_exp args)
  | OCall args => parens (comma_sep print_exp args)
  | OTry => sym "?"
  end.
Definition print_block (b : list rstmt) : list token := braces (flat_map print_stmt b).

Definition print_attr (a : rattr) : list token :=
  match a with
  | RAttr n None => sym "#" ++ sym "[" ++ word n ++ sym "]"
  | RAttr n (Some ts) => sym "#" ++ sym "[" ++ word n ++ parens ts ++ sym "]"
  end.
Definition print_inner (a : rattr) : list token :=
  match a with
  | RAttr n None => sym "#" ++ sym "!" ++ sym "[" ++ word n ++ sym "]"
  | RAttr n (Some ts) => sym "#" ++ sym "!" ++ sym "[" ++ word n ++ parens ts ++ sym "]"
  end.
Definition print_pub (b : bool) : list token := if b then word "pub" else [].
Definition print_lts (l : list text) : list token :=
  match l with [] => [] | _ => sym "<" ++ comma_sep (fun a => [TLife a]) l ++ sym ">" end.
Definition print_field (f : rfield) : list token :=
  flat_map print_attr (rf_attrs f) ++ print_pub (rf_pub f) ++ word (rf_name f) ++ sym ":" ++ print_ty (rf_type f) ++ sym ",".
Definition print_variant (v : rvariant) : list token :=
  flat_map print_attr (rv_attrs v) ++ word (rv_name v)
  ++ match rv_payload v with
     | VUnit => []
     | VOne t => parens (print_ty t)
     | VNum neg n => sym "=" ++ (if neg then sym "-" else []) ++ [TNum n]
     end ++ sym ",".
Definition print_self (s : rself) : list token :=
  match s with
  | NoSelf => []
  | SelfValue => word "self"
  | SelfRef lt mut => sym "&" ++ match lt with Some a => [TLife a] | None => [] end ++ (if mut then word "mut" else []) ++ word "self"
  end.
Definition print_generic (p : rgeneric) : list token :=
  match p with GpLife s => [TLife s] | GpBound n b => word n ++ sym ":" ++ word b end.
Definition print_generics (l : list rgeneric) : list token :=
  match l with [] => [] | _ => sym "<" ++ comma_sep print_generic l ++ sym ">" end.
Definition print_param (p : rpat * rty_) : list token := print_pat (fst p) ++ sym ":" ++ print_ty (snd p).
Definition print_params (s : rself) (l : list (rpat * rty_)) : list token :=
  parens (print_self s ++ match s, l with NoSelf, _ => [] | _, [] => [] | _, _ => sym "," end ++ comma_sep print_param l).
Definition print_fn (f : rfn) : list token :=
  print_pub (fn_pub f) ++ word "fn" ++ word (fn_name f) ++ print_generics (fn_generics f) ++ print_params (fn_self f) (fn_params f)
  ++ match fn_ret f with Some t => sym "->" ++ print_ty t | None => [] end ++ print_block (fn_body f).
Definition print_leaf (u : ruse) : list token :=
  match u with UGlob => sym "*" | UName n => word n | UList l => braces (comma_sep word l) end.
Fixpoint print_item (i : ritem_) : list token :=
  match i with
  | RIUse path leaf => word "use" ++ flat_map (fun n => word n ++ sym "::") path ++ print_leaf leaf ++ sym ";"
  | RIAlias n ps t => word "type" ++ word n ++ match ps with [] => [] | _ => sym "<" ++ comma_sep word ps ++ sym ">" end
                      ++ sym "=" ++ print_ty t ++ sym ";"
  | RIConst pub n t e => print_pub pub ++ word "const" ++ word n ++ sym ":" ++ print_ty t ++ sym "=" ++ print_exp e ++ sym ";"
  | RIFn f => print_fn f
  | RIStruct attrs pub n lts fs =>
    flat_map print_attr attrs ++ print_pub pub ++ word "struct" ++ word n ++ print_lts lts ++ braces (flat_map print_field fs)
  | RIEnum attrs n lts vs =>
    flat_map print_attr attrs ++ word "pub" ++ word "enum" ++ word n ++ print_lts lts ++ braces (flat_map print_variant vs)
  | RIImpl attrs lts trait t items =>
    flat_map print_attr attrs ++ word "impl" ++ print_lts lts
    ++ match trait with Some tr => print_ty tr ++ word "for" | None => [] end ++ print_ty t ++ braces (flat_map print_item items)
  | RIMod n items => word "pub" ++ word "mod" ++ word n ++ braces (flat_map print_item items)
  end.
Definition print_file (f : rfile) : list token := flat_map print_inner (file_attrs f) ++ flat_map print_item (file_items f).
