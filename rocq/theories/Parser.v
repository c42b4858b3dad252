(** The proto file parser of pb-rs (pb-rs/src/parser.rs).

    The parser is written with nom 7.  The combinators below model nom's
    documented behaviour; an error carries no position.  A text is a sequence of
    bytes: every character the parser looks for is ASCII, so working on bytes
    instead of characters makes no difference, with one exception: [trim] only
    removes ASCII white space here, where Rust also removes the other Unicode
    white space.

    Loops and recursion run on fuel derived from the length of the text;
    ParserFacts.v shows that it never runs out. *)
From Coq Require Import String Ascii Arith Lia.
From Verif Require Import Base Schema Modules.
Import StringSyntax.
Local Open Scope string_scope.
Local Open Scope list_scope.

(* ---- nom ---- *)

(** [IResult<&str, A>]: a rest and a value, or [Err::Error].  Two outcomes are
    added: a panic, and running out of fuel.  [Err::Failure] and
    [Err::Incomplete] do not occur, since [cut] and the streaming parsers are
    not used. *)
Inductive pres (A : Type) : Type :=
| POk (rest : text) (a : A)
| PErr
| PPanic
| PFuel.
Arguments POk {A}. Arguments PErr {A}. Arguments PPanic {A}. Arguments PFuel {A}.

Definition parser (A : Type) : Type := text -> pres A.

Definition pret {A} (a : A) : parser A := fun s => POk s a.
Definition pbind {A B} (p : parser A) (k : A -> parser B) : parser B :=
  fun s => match p s with
           | POk r a => k a r
           | PErr => PErr
           | PPanic => PPanic
           | PFuel => PFuel
           end.

(** what a closure given to [map_res] does: return, fail, or panic *)
Inductive cres (A : Type) : Type := COk (a : A) | CErr | CPanic.
Arguments COk {A}. Arguments CErr {A}. Arguments CPanic {A}.

(** nom::combinator [map_res], [map], [value] *)
Definition map_res {A B} (p : parser A) (f : A -> cres B) : parser B :=
  pbind p (fun a s => match f a with
                      | COk b => POk s b | CErr => PErr | CPanic => PPanic end).
Definition pmap {A B} (p : parser A) (f : A -> B) : parser B :=
  pbind p (fun a => pret (f a)).
Definition pvalue {A B} (b : B) (p : parser A) : parser B := pmap p (fun _ => b).

(** nom::sequence [pair], [preceded], [terminated], [delimited],
    [separated_pair]; [tuple] is written with [pair] *)
Definition pair {A B} (p : parser A) (q : parser B) : parser (A * B) :=
  pbind p (fun a => pbind q (fun b => pret (a, b))).
Definition preceded {A B} (p : parser A) (q : parser B) : parser B :=
  pbind p (fun _ => q).
Definition terminated {A B} (p : parser A) (q : parser B) : parser A :=
  pbind p (fun a => pbind q (fun _ => pret a)).
Definition delimited {A B C} (p : parser A) (q : parser B) (r : parser C) : parser B :=
  preceded p (terminated q r).
Definition separated_pair {A B C} (p : parser A) (sep : parser B) (q : parser C)
  : parser (A * C) :=
  pbind p (fun a => preceded sep (pbind q (fun c => pret (a, c)))).

(** nom::branch [alt]: the first parser that does not fail, never going back
    into an alternative that succeeded *)
Fixpoint alt {A} (ps : list (parser A)) : parser A :=
  match ps with
  | [] => fun _ => PErr
  | p :: ps' => fun s => match p s with PErr => alt ps' s | r => r end
  end.

(** nom::combinator [opt] *)
Definition opt {A} (p : parser A) : parser (option A) :=
  fun s => match p s with
           | POk r a => POk r (Some a)
           | PErr => POk s None
           | PPanic => PPanic
           | PFuel => PFuel
           end.

(** nom::multi [many0]: stops at the first failure; fails when the inner parser
    succeeds without consuming (nom compares the lengths for equality; no parser
    returns a longer rest, so "not shorter" is the same) *)
Fixpoint many0_fuel {A} (n : nat) (p : parser A) (s : text) : pres (list A) :=
  match n with
  | O => PFuel
  | S n' =>
    match p s with
    | POk r a =>
      if (String.length r <? String.length s)%nat
      then match many0_fuel n' p r with
           | POk r' l => POk r' (a :: l)
           | PErr => PErr | PPanic => PPanic | PFuel => PFuel
           end
      else PErr
    | PErr => POk s []
    | PPanic => PPanic
    | PFuel => PFuel
    end
  end.
Definition many0 {A} (p : parser A) : parser (list A) :=
  fun s => many0_fuel (S (String.length s)) p s.

(** nom::multi [many1]: the first application has to succeed (and, unlike the
    others, is not checked for consuming) *)
Definition many1 {A} (p : parser A) : parser (list A) :=
  pbind p (fun a => pmap (many0 p) (cons a)).

(** nom::multi: the loop of [separated_list0] and [separated_list1] after the
    first element.  When the element after a separator fails the separator is
    given back.  [check] says whether an empty separator is an error. *)
Fixpoint sep_loop {A B} (check : bool) (n : nat) (sep : parser B) (p : parser A)
  (s : text) : pres (list A) :=
  match n with
  | O => PFuel
  | S n' =>
    match sep s with
    | POk r _ =>
      if check && negb (String.length r <? String.length s)%nat then PErr
      else match p r with
           | POk r' a =>
             if (String.length r' <? String.length s)%nat
             then match sep_loop check n' sep p r' with
                  | POk r'' l => POk r'' (a :: l)
                  | PErr => PErr | PPanic => PPanic | PFuel => PFuel
                  end
             else PErr
           | PErr => POk s []
           | PPanic => PPanic
           | PFuel => PFuel
           end
    | PErr => POk s []
    | PPanic => PPanic
    | PFuel => PFuel
    end
  end.
Definition separated_list1 {A B} (sep : parser B) (p : parser A) : parser (list A) :=
  pbind p (fun a => pmap (fun s => sep_loop true (S (String.length s)) sep p s) (cons a)).
Definition separated_list0 {A B} (check : bool) (sep : parser B) (p : parser A)
  : parser (list A) :=
  fun s => match p s with
           | POk r a => pmap (fun s => sep_loop check (S (String.length s)) sep p s)
                             (cons a) r
           | PErr => POk s []
           | PPanic => PPanic
           | PFuel => PFuel
           end.

(** nom::combinator [recognize]: the text the parser consumed; [verify] *)
Definition recognize {A} (p : parser A) : parser text :=
  fun s => match p s with
           | POk r _ => POk r (slice 0 (String.length s - String.length r) s)
           | PErr => PErr | PPanic => PPanic | PFuel => PFuel
           end.
Definition verify {A} (p : parser A) (f : A -> bool) : parser A :=
  pbind p (fun a s => if f a then POk s a else PErr).

(** the text without its first [n] characters *)
Fixpoint drop (n : nat) (s : text) : text :=
  match n, s with
  | O, _ => s
  | S n', String _ s' => drop n' s'
  | S _, EmptyString => ""
  end.
Fixpoint take (n : nat) (s : text) : text :=
  match n, s with
  | S n', String a s' => String a (take n' s')
  | _, _ => ""
  end.

(** nom::bytes::complete [tag] and [take_until] *)
Definition tag (t : text) : parser text :=
  fun s => if String.prefix t s then POk (drop (String.length t) s) t else PErr.
Definition take_until (t : text) : parser text :=
  fun s => match find_str t s with
           | Some i => POk (drop i s) (take i s)
           | None => PErr
           end.

(** the longest prefix of characters satisfying [f], and the rest *)
Fixpoint span (f : ascii -> bool) (s : text) : text * text :=
  match s with
  | EmptyString => ("", "")
  | String a s' => if f a then let '(u, r) := span f s' in (String a u, r) else ("", s)
  end.

Definition code (a : ascii) : nat := nat_of_ascii a.
Definition between (lo hi : nat) (a : ascii) : bool := ((lo <=? code a) && (code a <=? hi))%nat.
Definition is_alpha (a : ascii) : bool := between 65 90 a || between 97 122 a.
Definition is_digit (a : ascii) : bool := between 48 57 a.
Definition is_hex_digit (a : ascii) : bool :=
  is_digit a || between 65 70 a || between 97 102 a.
(** space, tab, carriage return and line feed *)
Definition is_multispace (a : ascii) : bool :=
  ((code a =? 32) || (code a =? 9) || (code a =? 13) || (code a =? 10))%nat.

(** nom::character::complete [alpha1], [alphanumeric1], [digit1], [hex_digit1],
    [multispace1]: one or more ASCII characters of a class *)
Definition chars1 (f : ascii -> bool) : parser text :=
  fun s => match span f s with
           | (EmptyString, _) => PErr
           | (u, r) => POk r u
           end.
Definition alpha1 := chars1 is_alpha.
Definition alphanumeric1 := chars1 is_alphanumeric.
Definition digit1 := chars1 is_digit.
Definition hex_digit1 := chars1 is_hex_digit.
Definition multispace1 := chars1 is_multispace.

(** nom::character::complete [anychar] *)
Definition anychar : parser ascii :=
  fun s => match s with EmptyString => PErr | String a s' => POk s' a end.

(** nom::character::complete [not_line_ending]: up to a line feed or a carriage
    return, which must be followed by a line feed *)
Definition not_line_ending : parser text :=
  fun s =>
    let '(u, r) := span (fun a => negb ((code a =? 10) || (code a =? 13))%nat) s in
    match r with
    | String a r' =>
      if (code a =? 13)%nat
      then match r' with
           | String b _ => if (code b =? 10)%nat then POk r u else PErr
           | EmptyString => PErr
           end
      else POk r u
    | EmptyString => POk r u
    end.

(* ---- std ---- *)

(** [str::trim], ASCII white space only *)
Definition is_whitespace (a : ascii) : bool := between 9 13 a || (code a =? 32)%nat.
Fixpoint trim_end (s : text) : text :=
  match s with
  | EmptyString => ""
  | String a s' =>
    match trim_end s' with
    | EmptyString => if is_whitespace a then "" else String a ""
    | u => String a u
    end
  end.
Definition trim (s : text) : text := trim_end (snd (span is_whitespace s)).

Definition digit_value (a : ascii) : Z :=
  let n := Z.of_nat (code a) in
  if is_digit a then (n - 48)%Z
  else if between 65 70 a then (n - 55)%Z else (n - 87)%Z.
Fixpoint radix_value (radix acc : Z) (s : text) : Z :=
  match s with
  | EmptyString => acc
  | String a s' => radix_value radix (acc * radix + digit_value a)%Z s'
  end.
Definition max_i32 : Z := 2147483647.

(** [str::parse::<i32>] and [i32::from_str_radix] on a non-empty text of digits *)
Definition parse_digits (radix : Z) (s : text) : cres Z :=
  let v := radix_value radix 0 s in
  if (v <=? max_i32)%Z then COk v else CErr.

Fixpoint all_chars (f : ascii -> bool) (s : text) : bool :=
  match s with EmptyString => true | String a s' => f a && all_chars f s' end.

(** [str::parse::<i32>] on any text: an optional sign, then digits *)
Definition parse_i32 (s : text) : option Z :=
  let '(neg, ds) :=
    match s with
    | String a s' =>
      if Ascii.eqb a "-" then (true, s') else if Ascii.eqb a "+" then (false, s') else (false, s)
    | EmptyString => (false, s)
    end in
  match ds with
  | EmptyString => None
  | _ =>
    if all_chars is_digit ds
    then let v := if neg then (- radix_value 10 0 ds)%Z else radix_value 10 0 ds in
         if (-2147483648 <=? v)%Z && (v <=? max_i32)%Z then Some v else None
    else None
  end.

(** [str::parse::<bool>] *)
Definition parse_bool (s : text) : option bool :=
  if String.eqb s "true" then Some true
  else if String.eqb s "false" then Some false else None.

(* ---- parser.rs ---- *)

(** parser.rs:22-27 [ParsingStageFrequencyToken] *)
Inductive freq_token := TokOptional | TokRepeated | TokRequired.

(** parser.rs:70-82 [word_ref] and 84-86 [word] *)
Definition word : parser text :=
  recognize (pair (alt [alpha1; tag "_"]) (many0 (alt [alphanumeric1; tag "_"]))).

(** [str::ends_with('.')] *)
Definition ends_with_dot (s : text) : bool :=
  match String.get (String.length s - 1) s with
  | Some a => Ascii.eqb a "."
  | None => false
  end.

(** parser.rs:60-68 [qualifiable_name] *)
Definition qualifiable_name : parser text :=
  verify (recognize (pair (opt (tag ".")) (separated_list1 (tag ".") word)))
         (fun s => negb (ends_with_dot s) && negb (contains_str ".." s)).

(** parser.rs:88-93 [hex_integer] and 95-97 [integer] *)
Definition hex_integer : parser Z := preceded (tag "0x") (map_res hex_digit1 (parse_digits 16)).
Definition integer : parser Z := map_res digit1 (parse_digits 10).

(** parser.rs:99-101 [comment], 103-105 [block_comment], 115-120 [br] *)
Definition comment : parser unit := pvalue tt (pair (tag "//") not_line_ending).
Definition block_comment : parser unit :=
  pvalue tt (pair (tag "/*") (pair (take_until "*/") (tag "*/"))).
Definition br : parser unit :=
  pvalue tt (many1 (alt [pvalue tt multispace1; comment; block_comment])).

(** the character and the text of one double quote *)
Definition dquote : ascii := ascii_of_nat 34.
Definition quote : text := String dquote "".
Definition squote : text := "'".

(** parser.rs:107-112 [string] *)
Definition p_string : parser text := delimited (tag quote) (take_until quote) (tag quote).

(** parser.rs:122-131 [syntax] *)
Definition p_syntax : parser syntax :=
  delimited (pair (tag "syntax") (pair (many0 br) (pair (tag "=") (many0 br))))
            (alt [pvalue Proto2 (tag (quote ++ "proto2" ++ quote)%string);
                  pvalue Proto3 (tag (quote ++ "proto3" ++ quote)%string)])
            (pair (many0 br) (tag ";")).

(** parser.rs:133-139 [import] *)
Definition p_import : parser text :=
  delimited (pair (tag "import") (many1 br)) p_string (pair (many0 br) (tag ";")).

(** parser.rs:141-147 [package] *)
Definition p_package : parser text :=
  delimited (pair (tag "package") (many1 br)) qualifiable_name (pair (many0 br) (tag ";")).

(** types.rs:2110-2115 [Extensions::max] *)
Definition extensions_max : Z := 536870911.

(** parser.rs:149-170 [extensions]; the upper bound is [unwrap]ped *)
Definition p_extensions : parser (Z * Z) :=
  map_res
    (delimited (pair (tag "extensions") (many1 br))
               (pair integer
                     (preceded (pair (many0 br) (pair (tag "to") (many1 br)))
                               (take_until ";")))
               (tag ";"))
    (fun '(from, to) =>
       let s := trim to in
       if String.eqb s "max" then COk (from, extensions_max)
       else match parse_i32 s with Some n => COk (from, n) | None => CPanic end).

(** [(from..=to).collect()] *)
Definition range_incl (from to : Z) : list Z :=
  map (fun i => (from + Z.of_nat i)%Z) (seq 0 (Z.to_nat (to + 1 - from)%Z)).

(** parser.rs:172-177 [num_range] *)
Definition num_range : parser (list Z) :=
  pmap (separated_pair integer (pair (many1 br) (pair (tag "to") (many1 br))) integer)
       (fun '(a, b) => range_incl a b).

Definition comma : parser unit :=
  pvalue tt (pair (many0 br) (pair (tag ",") (many0 br))).

(** parser.rs:179-191 [reserved_nums] *)
Definition reserved_nums : parser (list Z) :=
  pmap (delimited (pair (tag "reserved") (many1 br))
                  (separated_list1 comma (alt [num_range; pmap integer (fun i => [i])]))
                  (pair (many0 br) (tag ";")))
       (@List.concat Z).

(** parser.rs:193-199 [reserved_names] *)
Definition reserved_names : parser (list text) :=
  delimited (pair (tag "reserved") (many1 br))
            (separated_list1 comma p_string)
            (pair (many0 br) (tag ";")).

(** [delimited(many0(br), tag("="), many0(br))] *)
Definition equals : parser text := delimited (many0 br) (tag "=") (many0 br).

(** parser.rs:201-211 [key_val] *)
Definition key_val : parser (text * text) :=
  delimited (pair (tag "[") (many0 br))
            (separated_pair word equals (pmap (take_until "]") trim))
            (tag "]").

(** parser.rs:213-219 [frequency] *)
Definition p_frequency : parser freq_token :=
  alt [pvalue TokOptional (tag "optional");
       pvalue TokRepeated (tag "repeated");
       pvalue TokRequired (tag "required")].

(** parser.rs:243-253 [map_field], given the parser of types *)
Definition map_field (ft : parser field_type) : parser (field_type * field_type) :=
  delimited (pair (tag "map") (pair (many0 br) (pair (tag "<") (many0 br))))
            (separated_pair ft (delimited (many0 br) (tag ",") (many0 br)) ft)
            (pair (many0 br) (tag ">")).

(** parser.rs:223-237: the keywords of the scalar types, in the order they are
    tried *)
Definition scalars : list (text * field_type) :=
  [("int32", TInt32); ("int64", TInt64); ("uint32", TUint32); ("uint64", TUint64);
   ("sint32", TSint32); ("sint64", TSint64); ("fixed32", TFixed32);
   ("sfixed32", TSfixed32); ("fixed64", TFixed64); ("sfixed64", TSfixed64);
   ("bool", TBool); ("string", TStringCow); ("bytes", TBytesCow);
   ("float", TFloat); ("double", TDouble)].

(** parser.rs:221-241 [field_type] *)
Fixpoint p_field_type_fuel (n : nat) : parser field_type :=
  match n with
  | O => fun _ => PFuel
  | S n' =>
    alt (map (fun '(k, t) => pvalue t (tag k)) scalars
         ++ [pmap (map_field (p_field_type_fuel n')) (fun '(k, v) => TMap k v);
             pmap qualifiable_name TMessageOrEnum])
  end.
Definition p_field_type : parser field_type :=
  fun s => p_field_type_fuel (S (String.length s)) s.

(** the first value of a key; [find_map] with an equality test *)
Definition lookup_key (k : text) (kvs : list (text * text)) : option text :=
  option_map snd (find (fun kv => String.eqb (fst kv) k) kvs).

(** parser.rs:255-279 [default_check] *)
Definition default_check (sx : syntax) (t : field_type) (kvs : list (text * text))
  : cres (option text) :=
  match lookup_key "default" kvs with
  | None => COk None
  | Some v =>
    match sx, t with
    | Proto2, (TStringCow | TBytesCow) =>
      match alt [delimited (tag quote) (take_until quote) (tag quote);
                 delimited (tag squote) (take_until squote) (tag squote)] v with
      | POk _ s => COk (Some s)
      | _ => CErr
      end
    | _, _ => COk (Some v)
    end
  end.

(** parser.rs:281-316 [Frequency::try_from] *)
Definition frequency_of (sx : syntax) (t : field_type) (tok : option freq_token) : frequency :=
  match sx, t, tok with
  | Proto2, TMap _ _, _ => P2Map
  | Proto2, _, Some TokRequired => P2Required
  | Proto2, _, Some TokOptional => P2Optional
  | Proto2, _, Some TokRepeated => P2Repeated
  | Proto2, _, None => P2Optional
  | Proto3, TMap _ _, _ => P3Map
  | Proto3, _, Some TokRequired => P3Optional
  | Proto3, _, Some TokOptional => P3Optional
  | Proto3, _, Some TokRepeated => P3Repeated
  | Proto3, _, None => P3Default
  end.

(** [find_map(.. v.parse().expect(..))]: [Some] of the outcome, or a panic *)
Definition bool_option (k : text) (kvs : list (text * text)) : cres (option bool) :=
  match lookup_key k kvs with
  | None => COk None
  | Some v => match parse_bool v with Some b => COk (Some b) | None => CPanic end
  end.

(** parser.rs:336-361: the closure of [field_generic]; the fields of the struct
    expression are evaluated in the order they are written *)
Definition build_field (sx : syntax)
  (freq_func : syntax -> field_type -> option freq_token -> frequency)
  (x : option freq_token * (field_type * ((text * Z) * list (text * text)))) : cres field :=
  let '(tok, (t, ((name, number), kvs))) := x in
  match default_check sx t kvs with
  | CErr => CErr
  | CPanic => CPanic
  | COk default =>
    match bool_option "packed" kvs, bool_option "deprecated" kvs with
    | COk packed, COk deprecated =>
      COk (mkField name (freq_func sx t tok) t number default packed false
                   (match deprecated with Some b => b | None => false end))
    | _, _ => CPanic
    end
  end.

(** parser.rs:318-365 [field_generic] *)
Definition field_generic (sx : syntax)
  (freq_func : syntax -> field_type -> option freq_token -> frequency) : parser field :=
  map_res
    (pair (opt (terminated p_frequency (many1 br)))
      (pair (terminated p_field_type (many1 br))
        (pair (separated_pair word equals (alt [integer; hex_integer]))
              (delimited (many0 br) (many0 key_val) (pair (many0 br) (tag ";"))))))
    (build_field sx freq_func).

(** parser.rs:367-369 [message_field] *)
Definition message_field (sx : syntax) : parser field := field_generic sx frequency_of.

(** parser.rs:371-378 [oneof_message_field] *)
Definition oneof_frequency (sx : syntax) (_ : field_type) (_ : option freq_token) : frequency :=
  match sx with Proto2 => P2Required | Proto3 => P3Optional end.
Definition oneof_message_field (sx : syntax) : parser field := field_generic sx oneof_frequency.

(** parser.rs:380-400 [one_of] *)
Definition p_one_of (sx : syntax) : parser oneof :=
  pmap (pair (preceded (pair (tag "oneof") (many1 br)) word)
             (delimited (pair (many0 br) (tag "{"))
                        (many1 (delimited (many0 br) (oneof_message_field sx) (many0 br)))
                        (tag "}")))
       (fun '(name, fields) => mkOneof name fields "" "" false).

(** parser.rs:561-566 [option_ignore] *)
Definition option_ignore : parser unit :=
  pvalue tt (delimited (pair (tag "option") (many1 br)) (take_until ";") (tag ";")).

(** types.rs:2081-2086 [RpcFunctionDeclaration] *)
Record rpc_function := mkRpc { rf_name : text; rf_arg : text; rf_ret : text }.

(** parser.rs:402-429 [rpc_function_declaration] *)
Definition p_rpc_function : parser rpc_function :=
  pmap
    (pair (delimited (pair (tag "rpc") (many1 br)) word (many0 br))
      (pair (delimited (pair (tag "(") (many0 br)) word (pair (many0 br) (tag ")")))
        (pair (delimited (pair (many1 br) (pair (tag "returns")
                           (pair (many0 br) (pair (tag "(") (many0 br)))))
                         word
                         (pair (many0 br) (tag ")")))
              (preceded (many0 br)
                 (alt [pvalue tt
                         (delimited (pair (tag "{") (many0 br))
                                    (many0 (alt [option_ignore; pvalue tt (tag ";")]))
                                    (pair (many0 br) (tag "}")));
                       pvalue tt (tag ";")])))))
    (fun '(name, (arg, (ret, _))) => mkRpc name arg ret).

(** parser.rs:431-446 [rpc_service] *)
Definition p_rpc_service : parser (text * list rpc_function) :=
  pair (delimited (pair (tag "service") (many1 br)) word (many0 br))
       (delimited (tag "{")
                  (many0 (delimited (many0 br) p_rpc_function (many0 br)))
                  (tag "}")).

(** parser.rs:507-523: the option of an enum value *)
Definition enum_deprecated : parser unit :=
  pvalue tt
    (pair (tag "[") (pair (many0 multispace1) (pair (tag "deprecated")
      (pair (many0 multispace1) (pair (tag "=") (pair (many0 multispace1)
        (pair word (pair (many0 multispace1) (tag "]"))))))))).

(** parser.rs:497-527 [enum_field] *)
Definition enum_field : parser (text * Z) :=
  terminated (separated_pair word (pair (many0 br) (pair (tag "=") (many0 br)))
                             (alt [hex_integer; integer]))
             (pair (many0 (alt [br; enum_deprecated])) (tag ";")).

(** parser.rs:42-46 [EnumEvent], 529-535 [enum_event] *)
Definition enum_event : parser (option (text * Z)) :=
  alt [pmap enum_field Some; pvalue None option_ignore; pvalue None br].

Definition keep_some {A} (l : list (option A)) : list A :=
  flat_map (fun o => match o with Some a => [a] | None => [] end) l.

(** parser.rs:537-559 [enumerator] *)
Definition p_enumerator : parser enumerator :=
  pmap (terminated
          (pair (delimited (pair (tag "enum") (many1 br)) word (many0 br))
                (delimited (tag "{") (many0 enum_event) (tag "}")))
          (opt (pair (many0 br) (tag ";"))))
       (fun '(name, events) => mkEnum name (keep_some events) false "" "").

(** parser.rs:29-40 [MessageEvent] *)
Inductive message_event :=
| EvMessage (m : message)
| EvEnum (e : enumerator)
| EvField (f : field)
| EvReservedNums (l : list Z)
| EvReservedNames (l : list text)
| EvOneof (o : oneof)
| EvExtensions (e : Z * Z)
| EvIgnore.

(** parser.rs:448-462 [message_event], given the parser of nested messages *)
Definition p_message_event (sx : syntax) (pm : parser message) : parser message_event :=
  alt [pmap reserved_nums EvReservedNums;
       pmap reserved_names EvReservedNames;
       pmap (message_field sx) EvField;
       pmap pm EvMessage;
       pmap p_enumerator EvEnum;
       pmap (p_one_of sx) EvOneof;
       pmap p_extensions EvExtensions;
       pvalue EvIgnore option_ignore;
       pvalue EvIgnore br].

(** parser.rs:478-490: one step of the loop over the events.  Later [reserved]
    statements replace earlier ones.  [Message::extensions] is not part of
    Schema.v: nothing in the generator reads it. *)
Definition add_message_event (m : message) (e : message_event) : message :=
  match e with
  | EvField f =>
    mkMessage (m_name m) (m_fields m ++ [f]) (m_oneofs m) (m_reserved_nums m)
      (m_reserved_names m) (m_imported m) (m_package m) (m_messages m) (m_enums m)
      (m_module m) (m_index m)
  | EvReservedNums r =>
    mkMessage (m_name m) (m_fields m) (m_oneofs m) (Some r)
      (m_reserved_names m) (m_imported m) (m_package m) (m_messages m) (m_enums m)
      (m_module m) (m_index m)
  | EvReservedNames r =>
    mkMessage (m_name m) (m_fields m) (m_oneofs m) (m_reserved_nums m)
      (Some r) (m_imported m) (m_package m) (m_messages m) (m_enums m)
      (m_module m) (m_index m)
  | EvMessage x =>
    mkMessage (m_name m) (m_fields m) (m_oneofs m) (m_reserved_nums m)
      (m_reserved_names m) (m_imported m) (m_package m) (m_messages m ++ [x]) (m_enums m)
      (m_module m) (m_index m)
  | EvEnum x =>
    mkMessage (m_name m) (m_fields m) (m_oneofs m) (m_reserved_nums m)
      (m_reserved_names m) (m_imported m) (m_package m) (m_messages m) (m_enums m ++ [x])
      (m_module m) (m_index m)
  | EvOneof x =>
    mkMessage (m_name m) (m_fields m) (m_oneofs m ++ [x]) (m_reserved_nums m)
      (m_reserved_names m) (m_imported m) (m_package m) (m_messages m) (m_enums m)
      (m_module m) (m_index m)
  | EvExtensions _ => m
  | EvIgnore => m
  end.

(** [Message { name, ..Default::default() }] *)
Definition new_message (name : text) : message :=
  mkMessage name [] [] None None false "" [] [] "" [].

(** parser.rs:464-495 [message] *)
Fixpoint p_message_fuel (n : nat) (sx : syntax) : parser message :=
  match n with
  | O => fun _ => PFuel
  | S n' =>
    pmap (terminated
            (pair (delimited (pair (tag "message") (many1 br)) word (many0 br))
                  (delimited (tag "{")
                             (many0 (p_message_event sx (p_message_fuel n' sx)))
                             (tag "}")))
            (opt (pair (many0 br) (tag ";"))))
         (fun '(name, events) => fold_left add_message_event events (new_message name))
  end.
Definition p_message (sx : syntax) : parser message :=
  fun s => p_message_fuel (S (String.length s)) sx s.

(** parser.rs:568-585 [extend] *)
Definition p_extend (sx : syntax) : parser (text * list field) :=
  terminated
    (pair (delimited (pair (tag "extend") (many1 br)) qualifiable_name (many0 br))
          (delimited (tag "{")
                     (many1 (delimited (many0 br) (message_field sx) (many0 br)))
                     (tag "}")))
    (opt (pair (many0 br) (tag ";"))).

(** parser.rs:587-591 [scan_syntax].  Whether [separated_list0] rejects an empty
    separator before it tries the next element depends on the version of nom 7
    that is used; [check] says so. *)
Definition scan_syntax (check : bool) : parser syntax :=
  pmap (separated_list0 check (many0 anychar) p_syntax)
       (fun v => match v with [] => Proto2 | x :: _ => x end).

(** parser.rs:48-58 [Event] *)
Inductive event :=
| FSyntax (s : syntax)
| FImport (i : text)
| FPackage (p : text)
| FMessage (m : message)
| FEnum (e : enumerator)
| FService (s : text * list rpc_function)
| FExtend (x : text * list field)
| FIgnore.

(** parser.rs:601-611: the alternatives at file level *)
Definition p_event (sx : syntax) : parser event :=
  alt [pmap p_syntax FSyntax;
       pmap p_import FImport;
       pmap p_package FPackage;
       pmap (p_message sx) FMessage;
       pmap p_enumerator FEnum;
       pmap p_rpc_service FService;
       pmap (p_extend sx) FExtend;
       pvalue FIgnore option_ignore;
       pvalue FIgnore br].

(** types.rs:2559-2570 [FileDescriptor] as the parser fills it in: the part in
    Schema.v, and the parts that are left out there *)
Record parsed := mkParsed {
  p_desc : file_descriptor;
  p_imports : list text;
  p_extends : list (text * list field);
  p_services : list (text * list rpc_function) }.

(** parser.rs:612-628: one step of the loop over the events *)
Definition add_event (p : parsed) (e : event) : parsed :=
  let d := p_desc p in
  match e with
  | FSyntax s =>
    mkParsed (mkDesc (d_package d) s (d_messages d) (d_enums d) (d_module d))
             (p_imports p) (p_extends p) (p_services p)
  | FImport i => mkParsed d (p_imports p ++ [i]) (p_extends p) (p_services p)
  | FPackage k =>
    mkParsed (mkDesc k (d_syntax d) (d_messages d) (d_enums d) (d_module d))
             (p_imports p) (p_extends p) (p_services p)
  | FMessage m =>
    mkParsed (mkDesc (d_package d) (d_syntax d) (d_messages d ++ [m]) (d_enums d) (d_module d))
             (p_imports p) (p_extends p) (p_services p)
  | FEnum x =>
    mkParsed (mkDesc (d_package d) (d_syntax d) (d_messages d) (d_enums d ++ [x]) (d_module d))
             (p_imports p) (p_extends p) (p_services p)
  | FService s => mkParsed d (p_imports p) (p_extends p) (p_services p ++ [s])
  | FExtend x => mkParsed d (p_imports p) (p_extends p ++ [x]) (p_services p)
  | FIgnore => p
  end.

(** [FileDescriptor::default()] *)
Definition empty_file : parsed := mkParsed (mkDesc "" Proto2 [] [] "") [] [] [].

(** parser.rs:593-632 [file_descriptor]; [scan_syntax] is [unwrap]ped *)
Definition p_file (check : bool) : parser parsed :=
  fun s =>
    match scan_syntax check s with
    | POk _ sx => pmap (many0 (p_event sx)) (fun es => fold_left add_event es empty_file) s
    | PErr => PPanic
    | PPanic => PPanic
    | PFuel => PFuel
    end.

(** Texts the examples of parser.rs:650-1400 parse *)
Definition nl : text := String newline "".

Example parse_ex1 :
  p_file true ("syntax = " ++ quote ++ "proto3" ++ quote ++ ";" ++ nl
    ++ "package a.b; // c" ++ nl
    ++ "message M { optional int32 x = 1; map<string, .a.N> y=2; enum E { A=0; }; /* z */ }")%string
  = POk "" (mkParsed (mkDesc "a.b" Proto3
      [mkMessage "M"
         [mkField "x" P3Optional TInt32 1 None None false false;
          mkField "y" P3Map (TMap TStringCow (TMessageOrEnum ".a.N")) 2 None None false false]
         [] None None false "" [] [mkEnum "E" [("A", 0)] false "" ""] "" []] [] "") [] [] []).
Proof. vm_compute. reflexivity. Qed.
