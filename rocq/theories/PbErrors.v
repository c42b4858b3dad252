(** The errors of pb-rs: their texts, and what main prints
    (pb-rs/src/errors.rs, pb-rs/src/main.rs:172-187).

    The errors of the standard library and of nom are modelled as their texts. *)
From Coq Require Import String Ascii Arith ZArith Bool.
From Verif Require Import Base Schema.
Import Schema StringSyntax.
Local Open Scope string_scope.
Local Open Scope list_scope.

(** errors.rs:4-39 [Error] *)
Inductive pb_error :=
| PIo (text_ : text)
| PNom (text_ : text)
| PTrailingGarbage (s : text)
| PNoProto
| PInputFile (file : text)
| POutputFile (file : text)
| POutputDirectory (dir : text)
| POutputMultipleInputs
| PInvalidMessage (msg : text)
| PInvalidImport (imp : text)
| PEmptyRead
| PMessageOrEnumNotFound (me : text)
| PInvalidDefaultEnum (en : text)
| PReadFnMap
| PCycle (msgs : list text)
| POutputAndOutputDir.

(** [Debug for str], the format with a question mark: a quote, the characters, a
    quote.  Bytes above 127 belong to longer characters; they are kept, which is
    a simplification for characters that cannot be printed. *)
Definition hex_digit (n : nat) : ascii := nth n (list_ascii_of_string "0123456789abcdef") "0"%char.
Definition escape_char (a : ascii) : text :=
  let n := nat_of_ascii a in
  if Ascii.eqb a """" then "\"""
  else if Ascii.eqb a "\" then "\\"
  else if (n =? 0)%nat then "\0"
  else if (n =? 9)%nat then "\t"
  else if (n =? 10)%nat then "\n"
  else if (n =? 13)%nat then "\r"
  else if (n <? 16)%nat then ("\u{" ++ String (hex_digit n) "}")%string
  else if (n <? 32)%nat || (n =? 127)%nat then ("\u{" ++ String (hex_digit (n / 16)%nat) (String (hex_digit (n mod 16)%nat) "}"))%string
  else String a "".
Fixpoint escape (s : text) : text :=
  match s with EmptyString => "" | String a s' => (escape_char a ++ escape s')%string end.
Definition debug (s : text) : text := ("""" ++ escape s ++ """")%string.
(** [Debug for Vec]: the elements between brackets *)
Fixpoint debug_more (l : list text) : text :=
  match l with [] => "]" | s :: l' => (", " ++ debug s ++ debug_more l')%string end.
Definition debug_list (l : list text) : text :=
  match l with [] => "[]" | s :: l' => ("[" ++ debug s ++ debug_more l')%string end.

Definition crlf : text := String "013" (String "010" "").
(** errors.rs:61-107 [Display for Error].  A backslash at the end of a line
    removes the line end and the blanks after it, so no blank follows the
    semicolon of EmptyRead. *)
Definition display_pb (e : pb_error) : text :=
  match e with
  | PIo s => s
  | PNom s => s
  | PTrailingGarbage s => "parsing abandoned near: " ++ debug s
  | PNoProto => "No .proto file provided"
  | PInputFile file => "Cannot read input file '" ++ file ++ "'"
  | POutputFile file => "Cannot read output file '" ++ file ++ "'"
  | POutputDirectory dir => "Cannot read output directory '" ++ dir ++ "'"
  | POutputMultipleInputs => "--output only allowed for single input file"
  | PInvalidMessage msg => "Message checks errored: " ++ msg ++ crlf ++ "Proto definition might be invalid or something got wrong in the parsing"
  | PInvalidImport imp => "Cannot convert protobuf import into module import:: " ++ imp ++ crlf ++
      "Import definition might be invalid, some characters may not be supported"
  | PEmptyRead => "No message or enum were read;either definition might be invalid or there were only unsupported structures"
  | PMessageOrEnumNotFound me => "Could not find message or enum " ++ me
  | PInvalidDefaultEnum en => "Enum field cannot be set to '" ++ en ++ "', this variant does not exist"
  | PReadFnMap => "There should be a special case for maps"
  | PCycle msgs => "Messages " ++ debug_list msgs ++ " are cyclic (missing an optional field)"
  | POutputAndOutputDir => "only one of --output or --output_directory allowed"
  end%string.

(** errors.rs:50-58 [Error::source]: the text of the error inside.  The io errors
    and the errors of nom that get here have no source themselves: they come from
    the system, and nom's error has none. *)
Definition source_pb (e : pb_error) : option text :=
  match e with PIo s | PNom s => Some s | _ => None end.

(** main.rs:172-187 [main]: the lines on stderr, and the exit code *)
Definition main_of (r : option pb_error) : list text * Z :=
  match r with
  | None => ([], 0%Z)
  | Some e => ((("pb-rs fatal error " ++ display_pb e)%string ::
                match source_pb e with Some s => [("  - " ++ s)%string] | None => [] end), 1%Z)
  end.
