(** Escaping of identifiers (pb-rs/src/keywords.rs) and the string operations
    of the Rust standard library it uses. *)
From Coq Require Import String Ascii Arith Lia.
From Verif Require Import Base Schema.
Import StringSyntax.
Local Open Scope string_scope.
Local Open Scope list_scope.

(** [str::split(c)] for a single character: always at least one piece *)
Fixpoint split_on (c : ascii) (s : text) : list text :=
  match s with
  | EmptyString => [""]
  | String a s' =>
    if Ascii.eqb a c then "" :: split_on c s'
    else match split_on c s' with
         | p :: ps => String a p :: ps
         | [] => [String a ""]
         end
  end.

(** [[String]::join(sep)] *)
Fixpoint join_with (sep : text) (l : list text) : text :=
  match l with
  | [] => ""
  | [p] => p
  | p :: ps => (p ++ sep ++ join_with sep ps)%string
  end.

(** [str::contains(c)] for a single character *)
Fixpoint contains_char (c : ascii) (s : text) : bool :=
  match s with
  | EmptyString => false
  | String a s' => Ascii.eqb a c || contains_char c s'
  end.

(** keywords.rs:1-77 [RUST_KEYWORDS] *)
Definition rust_keywords : list text :=
  [ "abstract"; "alignof"; "as"; "become"; "bool"; "box"; "Box"; "break";
    "BytesReader"; "const"; "continue"; "crate"; "Cow"; "Default"; "do";
    "else"; "enum"; "Err"; "extern"; "f32"; "f64"; "false"; "final"; "fn";
    "for"; "HashMap"; "i32"; "i64"; "if"; "impl"; "in"; "let"; "loop";
    "match"; "mod"; "move"; "mut"; "None"; "MessageWrite"; "offsetof"; "Ok";
    "Option"; "override"; "priv"; "pub"; "pure"; "ref"; "Result"; "return";
    "self"; "Self"; "sizeof"; "Some"; "static"; "str"; "String"; "struct";
    "super"; "trait"; "true"; "type"; "typeof"; "u8"; "u32"; "u64"; "unsafe";
    "unsized"; "use"; "Vec"; "virtual"; "where"; "while"; "Write"; "Writer";
    "yield" ].

(** [RUST_KEYWORDS.contains(s)] *)
Definition is_keyword (s : text) : bool :=
  existsb (String.eqb s) rust_keywords.

(** the closure of keywords.rs:86-92 *)
Definition sanitize_segment (s : text) : text :=
  if is_keyword s then (s ++ "_pb")%string else s.

(** keywords.rs:80-96 [sanitize_keyword] *)
Definition sanitize_keyword (s : text) : text :=
  if negb (contains_char "." s) && is_keyword s then (s ++ "_pb")%string
  else join_with "." (map sanitize_segment (split_on "." s)).
