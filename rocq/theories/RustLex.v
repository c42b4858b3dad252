(** The tokens of Rust text, after the Rust reference, "Lexical structure".

    This file is a specification: it does not mention the generator.  The lexer
    is a function of the characters from left to right.  Left out, and an error
    here: block comments, character literals, raw strings and raw identifiers,
    and characters outside of ASCII except in comments and strings. *)
From Coq Require Import String Ascii Arith Lia.
From Verif Require Import Base Schema.
Import Schema StringSyntax.
Local Open Scope string_scope.
Local Open Scope list_scope.

Inductive token :=
| TWord (s : text)    (* an identifier or a keyword *)
| TNum (s : text)     (* a number, with its suffix *)
| TStr (s : text)     (* a string literal: what is between the quotes *)
| TBStr (s : text)    (* a byte string literal *)
| TLife (s : text)    (* a lifetime, without the quote *)
| TSym (s : text).    (* punctuation *)

(** ** Characters *)
Definition in_range (lo hi : nat) (a : ascii) : bool := (lo <=? nat_of_ascii a)%nat && (nat_of_ascii a <=? hi)%nat.
Definition is_num (a : ascii) : bool := in_range 48 57 a.
Definition is_start (a : ascii) : bool := in_range 65 90 a || in_range 97 122 a || Ascii.eqb a "_".
Definition is_word (a : ascii) : bool := is_start a || is_num a.
Definition is_blank (a : ascii) : bool := Ascii.eqb a " " || in_range 9 13 a.
Definition quote : ascii := "034"%char.
Definition is_symbol (a : ascii) : bool :=
  in_range 33 33 a || in_range 35 38 a || in_range 40 47 a || in_range 58 64 a || in_range 91 94 a || in_range 123 126 a.
(** two characters that are one token; the parser of Rust takes [>>] apart, so
    it is not one here *)
Definition glued (a b : ascii) : bool :=
  existsb (fun p => String.eqb p (String a (String b ""))) 
    ["::"; "->"; "=>"; "=="; "!="; "<="; ">="; "&&"; "||"; "+="; "-="; "*="; "/="; "%="; "^="; "&="; "|="; ".."; "<<"; "<-"].

(** ** The lexer *)

(** what has been read of the current token *)
Inductive lstate :=
| LNone
| LWord (w : text)
| LNum (n : text)
| LNumDot (n : text)             (* a number and a point *)
| LStr (bytes : bool) (s : text) (* in a string *)
| LEsc (bytes : bool) (s : text) (* in a string, after a backslash *)
| LQuote                         (* after a single quote *)
| LLife (s : text)
| LSym (a : ascii)
| LComment
| LBad.

Definition snoc (s : text) (a : ascii) : text := (s ++ String a "")%string.

(** the tokens that end where the text ends *)
Definition flush (st : lstate) : list token :=
  match st with
  | LWord w => [TWord w]
  | LNum n => [TNum n]
  | LNumDot n => [TNum (snoc n ".")]
  | LLife s => [TLife s]
  | LSym a => [TSym (String a "")]
  | _ => []
  end.

(** a character at the beginning of a token *)
Definition start (a : ascii) : lstate :=
  if is_blank a then LNone
  else if is_start a then LWord (String a "")
  else if is_num a then LNum (String a "")
  else if Ascii.eqb a quote then LStr false ""
  else if Ascii.eqb a "'" then LQuote
  else if is_symbol a then LSym a
  else LBad.

Fixpoint last_char (s : text) : option ascii :=
  match s with EmptyString => None | String a s' => match last_char s' with Some b => Some b | None => Some a end end.
(** an exponent whose sign may follow: the number is decimal and ends in e *)
Definition open_exponent (n : text) : bool :=
  match n with
  | String a (String b _) =>
    negb (Ascii.eqb a "0" && (Ascii.eqb b "x" || Ascii.eqb b "o" || Ascii.eqb b "b"))
    && match last_char n with Some e => Ascii.eqb e "e" || Ascii.eqb e "E" | None => false end
  | _ => false
  end.

(** one character: the tokens that it completes, and the new state *)
Definition step (st : lstate) (a : ascii) : list token * lstate :=
  match st with
  | LNone => ([], start a)
  | LWord w =>
    if is_word a then ([], LWord (snoc w a))
    else if Ascii.eqb a quote then if String.eqb w "b" then ([], LStr true "") else ([], LBad)
    else if Ascii.eqb a "'" || Ascii.eqb a "#" then ([], LBad)
    else ([TWord w], start a)
  | LNum n =>
    if is_word a then ([], LNum (snoc n a))
    else if Ascii.eqb a "." then ([], LNumDot n)
    else if (Ascii.eqb a "-" || Ascii.eqb a "+") && open_exponent n then ([], LNum (snoc n a))
    else ([TNum n], start a)
  | LNumDot n =>
    if is_num a then ([], LNum (snoc (snoc n ".") a))
    else if is_start a then ([TNum n; TSym "."], start a)
    else if Ascii.eqb a "." then ([TNum n; TSym ".."], LNone)
    else ([TNum (snoc n ".")], start a)
  | LStr k s =>
    if Ascii.eqb a quote then ([if k then TBStr s else TStr s], LNone)
    else if Ascii.eqb a "\" then ([], LEsc k (snoc s a))
    else ([], LStr k (snoc s a))
  | LEsc k s => ([], LStr k (snoc s a))
  | LQuote => if is_start a then ([], LLife (String a "")) else ([], LBad)
  | LLife s =>
    if is_word a then ([], LLife (snoc s a))
    else if Ascii.eqb a "'" then ([], LBad)
    else ([TLife s], start a)
  | LSym b =>
    if Ascii.eqb b "/" && Ascii.eqb a "/" then ([], LComment)
    else if Ascii.eqb b "/" && Ascii.eqb a "*" then ([], LBad)
    else if glued b a then ([TSym (String b (String a ""))], LNone)
    else ([TSym (String b "")], start a)
  | LComment => if Ascii.eqb a "010" then ([], LNone) else ([], LComment)
  | LBad => ([], LBad)
  end.

Fixpoint scan (st : lstate) (s : text) : list token * lstate :=
  match s with
  | EmptyString => ([], st)
  | String a s' =>
    let '(t, st1) := step st a in
    let '(ts, st2) := scan st1 s' in (t ++ ts, st2)
  end.

(** a text ends well outside of strings *)
Definition ends_well (st : lstate) : bool :=
  match st with LStr _ _ | LEsc _ _ | LQuote | LBad => false | _ => true end.
Definition lex (s : text) : option (list token) :=
  let '(ts, st) := scan LNone s in
  if ends_well st then Some (ts ++ flush st) else None.

Example lex_case :
  lex "Ok(24) => msg.f = r.read_message::<a::M>(bytes)?, // 'x
 -1.5e-3f32&'a Cow::Borrowed(b""x\"""")" = Some
  [TWord "Ok"; TSym "("; TNum "24"; TSym ")"; TSym "=>"; TWord "msg"; TSym "."; TWord "f"; TSym "="; TWord "r"; TSym ".";
   TWord "read_message"; TSym "::"; TSym "<"; TWord "a"; TSym "::"; TWord "M"; TSym ">"; TSym "("; TWord "bytes"; TSym ")"; TSym "?"; TSym ",";
   TSym "-"; TNum "1.5e-3f32"; TSym "&"; TLife "a"; TWord "Cow"; TSym "::"; TWord "Borrowed"; TSym "("; TBStr "x\"""; TSym ")"].
Proof. reflexivity. Qed.
