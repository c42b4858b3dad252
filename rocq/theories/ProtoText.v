(** What a proto file may look like: a grammar of proto text, after the
    protocol buffer language specification, that says which text stands for
    which declarations.  Nothing here refers to the parser.

    Left out of the specification's grammar, because the parser of pb-rs does
    not accept them or reads them differently (see Props_Parser.v): more than
    one option on a field, octal and hexadecimal field numbers, signed enum
    values, groups, [import public] and [import weak], type names that begin
    with the name of a scalar type, several [reserved] statements of one kind in
    a message, and message options with a number as value.  Bodies of
    rpc functions are empty. *)
From Coq Require Import String Ascii Arith.
From Verif Require Import Base Schema.
Import StringSyntax.
Local Open Scope string_scope.
Local Open Scope list_scope.

(* ---- characters and names ---- *)

Definition digit_char (c : ascii) : Prop := (48 <= nat_of_ascii c <= 57)%nat.
Definition letter_char (c : ascii) : Prop :=
  (65 <= nat_of_ascii c <= 90 \/ 97 <= nat_of_ascii c <= 122)%nat.
Definition start_char (c : ascii) : Prop := letter_char c \/ c = "_"%char.
Definition word_char (c : ascii) : Prop := start_char c \/ digit_char c.
(** space, tab, carriage return, line feed *)
Definition blank_char (c : ascii) : Prop := In (nat_of_ascii c) [32; 9; 13; 10]%nat.

Inductive all (P : ascii -> Prop) : text -> Prop :=
| all_nil : all P ""
| all_cons c t : P c -> all P t -> all P (String c t).

(** [p] occurs in [t] *)
Definition occurs (p t : text) : Prop := exists a b, t = (a ++ p ++ b)%string.

Inductive ident : text -> Prop :=
| ident_intro c t : start_char c -> all word_char t -> ident (String c t).

(** names joined by dots *)
Inductive path : text -> Prop :=
| path_one t : ident t -> path t
| path_more t p : ident t -> path p -> path (t ++ "." ++ p)%string.

(** the name of a type: relative, or absolute with a leading dot *)
Inductive type_name : text -> Prop :=
| name_rel p : path p -> type_name p
| name_abs p : path p -> type_name ("." ++ p)%string.

(* ---- white space and comments ---- *)

Definition line_feed : text := String (ascii_of_nat 10) "".
Definition line_char (c : ascii) : Prop :=
  nat_of_ascii c <> 10%nat /\ nat_of_ascii c <> 13%nat.

Inductive gap : text -> Prop :=
| gap_nil : gap ""
| gap_blank c g : blank_char c -> gap g -> gap (String c g)
| gap_line t g : all line_char t -> gap g -> gap ("//" ++ t ++ line_feed ++ g)%string
| gap_block t g : ~ occurs "*/" t -> gap g -> gap ("/*" ++ t ++ "*/" ++ g)%string.

(** a gap that is not empty *)
Definition break (g : text) : Prop := gap g /\ g <> "".

(* ---- numbers ---- *)

Definition digit_text (d : nat) : text := String (ascii_of_nat (48 + d)) "".

(** decimal literals, without leading zeros *)
Inductive decimal : Z -> text -> Prop :=
| dec_digit d : (d <= 9)%nat -> decimal (Z.of_nat d) (digit_text d)
| dec_more n t d : decimal n t -> (0 < n)%Z -> (d <= 9)%nat ->
    decimal (10 * n + Z.of_nat d)%Z (t ++ digit_text d)%string.

(** the largest value of a 32 bit signed integer *)
Definition i32_max : Z := 2147483647.
Definition number (n : Z) (t : text) : Prop := decimal n t /\ (n <= i32_max)%Z.

Definition hex_text (d : nat) : text :=
  String (ascii_of_nat (if (d <=? 9)%nat then 48 + d else 87 + d)) "".
(** hexadecimal digits, lower case *)
Inductive hex_digits : Z -> text -> Prop :=
| hex_digit d : (d <= 15)%nat -> hex_digits (Z.of_nat d) (hex_text d)
| hex_more n t d : hex_digits n t -> (d <= 15)%nat ->
    hex_digits (16 * n + Z.of_nat d)%Z (t ++ hex_text d)%string.

(* ---- strings ---- *)

Definition dq : text := String (ascii_of_nat 34) "".
Definition sq : text := String (ascii_of_nat 39) "".
(** a string literal: no escapes are interpreted *)
Definition quoted (s t : text) : Prop := ~ occurs dq s /\ t = (dq ++ s ++ dq)%string.

(* ---- types ---- *)

(** the scalar types of the language *)
Definition scalar_type (t : field_type) (k : text) : Prop :=
  In (k, t)
    [("double", TDouble); ("float", TFloat); ("int32", TInt32); ("int64", TInt64);
     ("uint32", TUint32); ("uint64", TUint64); ("sint32", TSint32); ("sint64", TSint64);
     ("fixed32", TFixed32); ("fixed64", TFixed64); ("sfixed32", TSfixed32);
     ("sfixed64", TSfixed64); ("bool", TBool); ("string", TStringCow);
     ("bytes", TBytesCow)].

Definition begins (p t : text) : Prop := exists b, t = (p ++ b)%string.

(** a type name the parser does not take for something else *)
Definition plain_name (t : text) : Prop :=
  type_name t /\ (forall ty k, scalar_type ty k -> ~ begins k t) /\ t <> "map".

Inductive type_text : field_type -> text -> Prop :=
| tt_scalar t k : scalar_type t k -> type_text t k
| tt_name t : plain_name t -> type_text (TMessageOrEnum t) t
| tt_map k v kt vt g1 g2 g3 g4 g5 : type_text k kt -> type_text v vt ->
    gap g1 -> gap g2 -> gap g3 -> gap g4 -> gap g5 ->
    type_text (TMap k v)
      ("map" ++ g1 ++ "<" ++ g2 ++ kt ++ g3 ++ "," ++ g4 ++ vt ++ g5 ++ ">")%string.

(* ---- fields ---- *)

Inductive label := LNone | LOptional | LRepeated | LRequired.
Definition label_word (l : label) : text :=
  match l with
  | LNone => "" | LOptional => "optional" | LRepeated => "repeated" | LRequired => "required"
  end.
Inductive label_text : label -> text -> Prop :=
| lt_none : label_text LNone ""
| lt_some l g : l <> LNone -> break g -> label_text l (label_word l ++ g)%string.

Definition is_map_type (t : field_type) : bool :=
  match t with TMap _ _ => true | _ => false end.

(** the presence of a field: in a proto2 file every field without a label is
    optional; in a proto3 file it has no presence *)
Definition presence (sx : syntax) (t : field_type) (l : label) : frequency :=
  match sx with
  | Proto2 => if is_map_type t then P2Map
              else match l with
                   | LRequired => P2Required
                   | LRepeated => P2Repeated
                   | LOptional | LNone => P2Optional
                   end
  | Proto3 => if is_map_type t then P3Map
              else match l with
                   | LRequired | LOptional => P3Optional
                   | LRepeated => P3Repeated
                   | LNone => P3Default
                   end
  end.
(** members of a oneof *)
Definition member_presence (sx : syntax) : frequency :=
  match sx with Proto2 => P2Required | Proto3 => P3Optional end.

(** the option of a field *)
Inductive field_option :=
| ONone
| OPacked (b : bool)
| ODeprecated (b : bool)
| ODefault (v : text)
| OOther (k v : text).

Definition bool_word (b : bool) : text := if b then "true" else "false".

(** text between the equals sign and the closing bracket *)
Definition first_char (P : ascii -> Prop) (t : text) : Prop :=
  exists c u, t = String c u /\ P c.
Definition last_char (P : ascii -> Prop) (t : text) : Prop :=
  exists u c, t = (u ++ String c "")%string /\ P c.
(** the characters Rust's [trim] removes *)
Definition trimmed_char (c : ascii) : Prop :=
  (9 <= nat_of_ascii c <= 13 \/ nat_of_ascii c = 32)%nat.
Definition value_text (v : text) : Prop :=
  first_char (fun c => ~ trimmed_char c /\ c <> "/"%char) v
  /\ last_char (fun c => ~ trimmed_char c) v
  /\ ~ occurs "]" v.

Definition key_value (k v t : text) : Prop :=
  exists g1 g2 g3 w, gap g1 /\ gap g2 /\ gap g3 /\ all blank_char w
    /\ t = ("[" ++ g1 ++ k ++ g2 ++ "=" ++ g3 ++ v ++ w ++ "]")%string.

(** the default of a proto2 string or bytes field is a string literal, in
    single or double quotes *)
Definition default_text (sx : syntax) (ty : field_type) (d v : text) : Prop :=
  match sx, ty with
  | Proto2, (TStringCow | TBytesCow) =>
    (~ occurs dq d /\ v = (dq ++ d ++ dq)%string)
    \/ (~ occurs sq d /\ v = (sq ++ d ++ sq)%string)
  | _, _ => v = d
  end.

Inductive option_text (sx : syntax) (ty : field_type) : field_option -> text -> Prop :=
| ot_packed b t : key_value "packed" (bool_word b) t -> option_text sx ty (OPacked b) t
| ot_deprecated b t : key_value "deprecated" (bool_word b) t ->
    option_text sx ty (ODeprecated b) t
| ot_default d v t : default_text sx ty d v -> value_text v -> key_value "default" v t ->
    option_text sx ty (ODefault d) t
| ot_other k v t : ident k -> k <> "packed" -> k <> "deprecated" -> k <> "default" ->
    value_text v -> key_value k v t -> option_text sx ty (OOther k v) t.

(** from after the number to the semicolon *)
Inductive field_tail (sx : syntax) (ty : field_type) : field_option -> text -> Prop :=
| ft_none g : gap g -> field_tail sx ty ONone (g ++ ";")%string
| ft_option o g1 t g2 : gap g1 -> option_text sx ty o t -> gap g2 ->
    field_tail sx ty o (g1 ++ t ++ g2 ++ ";")%string.

Definition option_default (o : field_option) : option text :=
  match o with ODefault v => Some v | _ => None end.
Definition option_packed (o : field_option) : option bool :=
  match o with OPacked b => Some b | _ => None end.
Definition option_deprecated (o : field_option) : bool :=
  match o with ODeprecated b => b | _ => false end.

(** words that begin a statement or a label: a type of this name needs a label
    or a leading dot *)
Definition statement_words : list text :=
  ["optional"; "repeated"; "required"; "reserved"; "message"; "enum"; "oneof";
   "extensions"; "option"].

(** the text of a field whose presence is given by [pr] *)
Inductive field_text (sx : syntax) (pr : field_type -> label -> frequency)
  : field -> text -> Prop :=
| field_intro l lt ty tt g1 name g2 g3 n nt o ot :
    label_text l lt -> type_text ty tt -> (l = LNone -> ~ In tt statement_words) ->
    break g1 -> ident name -> gap g2 -> gap g3 -> number n nt ->
    field_tail sx ty o ot ->
    field_text sx pr
      (mkField name (pr ty l) ty n (option_default o) (option_packed o) false
               (option_deprecated o))
      (lt ++ tt ++ g1 ++ name ++ g2 ++ "=" ++ g3 ++ nt ++ ot)%string.

Definition message_field_text (sx : syntax) := field_text sx (presence sx).
Definition member_text (sx : syntax) := field_text sx (fun _ _ => member_presence sx).

(** one or more fields with gaps around them *)
Inductive fields_text (ft : field -> text -> Prop) : list field -> text -> Prop :=
| fields_one g1 f t g2 : gap g1 -> ft f t -> gap g2 ->
    fields_text ft [f] (g1 ++ t ++ g2)%string
| fields_more g f t fs ts : gap g -> ft f t -> fields_text ft fs ts ->
    fields_text ft (f :: fs) (g ++ t ++ ts)%string.

(** a oneof *)
Inductive oneof_text (sx : syntax) : oneof -> text -> Prop :=
| oneof_intro g1 name g2 fs t : break g1 -> ident name -> gap g2 ->
    fields_text (member_text sx) fs t ->
    oneof_text sx (mkOneof name fs "" "" false)
      ("oneof" ++ g1 ++ name ++ g2 ++ "{" ++ t ++ "}")%string.

(* ---- other statements ---- *)

(** an option statement: ignored.  Its text does not begin with an equals sign,
    and ends at the first semicolon. *)
Inductive ignored_option : text -> Prop :=
| ignored_intro g c t : break g -> ~ blank_char c -> c <> "/"%char -> c <> "="%char ->
    ~ occurs ";" (String c t) ->
    ignored_option ("option" ++ g ++ String c t ++ ";")%string.
(** ... in a message: a parenthesised name, or a name with a value that is not
    a number *)
Inductive message_option : text -> Prop :=
| mo_paren g t : break g -> ~ occurs ";" t ->
    message_option ("option" ++ g ++ "(" ++ t ++ ";")%string
| mo_name g k g2 g3 c t : break g -> ident k -> gap g2 -> gap g3 ->
    ~ digit_char c -> ~ blank_char c -> c <> "/"%char ->
    ~ occurs ";" (k ++ g2 ++ "=" ++ g3 ++ String c t)%string ->
    message_option ("option" ++ g ++ k ++ g2 ++ "=" ++ g3 ++ String c t ++ ";")%string.

(** all integers of a range *)
Definition in_range (a b : Z) (l : list Z) : Prop :=
  l = map (fun i => (a + Z.of_nat i)%Z) (seq 0 (Z.to_nat (b + 1 - a)%Z)).

Inductive range_text : list Z -> text -> Prop :=
| range_one n t : number n t -> range_text [n] t
| range_two a at_ g1 g2 b bt l : number a at_ -> break g1 -> break g2 -> number b bt ->
    in_range a b l -> range_text l (at_ ++ g1 ++ "to" ++ g2 ++ bt)%string.

Inductive comma_list {A} (f : A -> text -> Prop) : list A -> text -> Prop :=
| cl_one a t : f a t -> comma_list f [a] t
| cl_more a t g1 g2 l u : f a t -> gap g1 -> gap g2 -> comma_list f l u ->
    comma_list f (a :: l) (t ++ g1 ++ "," ++ g2 ++ u)%string.

Inductive reserved_nums_text : list Z -> text -> Prop :=
| rn_intro g1 ls t g2 : break g1 -> comma_list range_text ls t -> gap g2 ->
    reserved_nums_text (List.concat ls) ("reserved" ++ g1 ++ t ++ g2 ++ ";")%string.
Inductive reserved_names_text : list text -> text -> Prop :=
| rs_intro g1 l t g2 : break g1 -> comma_list quoted l t -> gap g2 ->
    reserved_names_text l ("reserved" ++ g1 ++ t ++ g2 ++ ";")%string.

(** the upper end of a range of extension numbers *)
Inductive extension_end : text -> Prop :=
| ee_max : extension_end "max"
| ee_num n t : number n t -> extension_end t.
Inductive extensions_text : text -> Prop :=
| ex_intro_ g1 n t g2 g3 e w : break g1 -> number n t -> gap g2 -> break g3 ->
    extension_end e -> all blank_char w ->
    extensions_text ("extensions" ++ g1 ++ t ++ g2 ++ "to" ++ g3 ++ e ++ w ++ ";")%string.

(** an optional semicolon after a closing brace *)
Inductive optional_semi : text -> Prop :=
| semi_none : optional_semi ""
| semi_some g : gap g -> optional_semi (g ++ ";")%string.

(* ---- enums ---- *)

Inductive enum_number : Z -> text -> Prop :=
| en_dec n t : number n t -> enum_number n t
| en_hex n t : hex_digits n t -> (n <= i32_max)%Z -> enum_number n ("0x" ++ t)%string.

(** the option of an enum value: ignored *)
Inductive value_option : text -> Prop :=
| vo_none : value_option ""
| vo_deprecated w1 w2 w3 b w4 g : all blank_char w1 -> all blank_char w2 ->
    all blank_char w3 -> ident b -> all blank_char w4 -> gap g ->
    value_option ("[" ++ w1 ++ "deprecated" ++ w2 ++ "=" ++ w3 ++ b ++ w4 ++ "]" ++ g)%string.

Inductive enum_value_text : text * Z -> text -> Prop :=
| ev_intro name g1 g2 n t g3 o : ident name -> gap g1 -> gap g2 -> enum_number n t ->
    gap g3 -> value_option o ->
    enum_value_text (name, n) (name ++ g1 ++ "=" ++ g2 ++ t ++ g3 ++ o ++ ";")%string.

Inductive enum_body : list (text * Z) -> text -> Prop :=
| eb_nil g : gap g -> enum_body [] g
| eb_value g v t vs ts : gap g -> enum_value_text v t -> enum_body vs ts ->
    enum_body (v :: vs) (g ++ t ++ ts)%string
| eb_option g t vs ts : gap g -> ignored_option t -> enum_body vs ts ->
    enum_body vs (g ++ t ++ ts)%string.

Inductive enum_text : enumerator -> text -> Prop :=
| enum_intro g1 name g2 vs b s : break g1 -> ident name -> gap g2 -> enum_body vs b ->
    optional_semi s ->
    enum_text (mkEnum name vs false "" "")
      ("enum" ++ g1 ++ name ++ g2 ++ "{" ++ b ++ "}" ++ s)%string.

(* ---- messages ---- *)

Inductive item :=
| IField (f : field)
| IMessage (m : message)
| IEnum (e : enumerator)
| IOneof (o : oneof)
| IReservedNums (l : list Z)
| IReservedNames (l : list text)
| INothing.

Definition item_fields (l : list item) : list field :=
  flat_map (fun i => match i with IField f => [f] | _ => [] end) l.
Definition item_messages (l : list item) : list message :=
  flat_map (fun i => match i with IMessage m => [m] | _ => [] end) l.
Definition item_enums (l : list item) : list enumerator :=
  flat_map (fun i => match i with IEnum e => [e] | _ => [] end) l.
Definition item_oneofs (l : list item) : list oneof :=
  flat_map (fun i => match i with IOneof o => [o] | _ => [] end) l.
Definition item_nums (l : list item) : list (list Z) :=
  flat_map (fun i => match i with IReservedNums r => [r] | _ => [] end) l.
Definition item_names (l : list item) : list (list text) :=
  flat_map (fun i => match i with IReservedNames r => [r] | _ => [] end) l.

(** at most one statement of a kind, and what it says *)
Definition at_most_one {A} (l : list A) (o : option A) : Prop :=
  match o with None => l = [] | Some a => l = [a] end.

Inductive message_text (sx : syntax) : message -> text -> Prop :=
| message_intro g1 name g2 is b s nums names :
    break g1 -> ident name -> gap g2 -> message_items sx is b -> optional_semi s ->
    at_most_one (item_nums is) nums -> at_most_one (item_names is) names ->
    message_text sx
      (mkMessage name (item_fields is) (item_oneofs is) nums names false ""
                 (item_messages is) (item_enums is) "" [])
      ("message" ++ g1 ++ name ++ g2 ++ "{" ++ b ++ "}" ++ s)%string
with message_items (sx : syntax) : list item -> text -> Prop :=
| mi_nil g : gap g -> message_items sx [] g
| mi_cons g i t is ts : gap g -> item_text sx i t -> message_items sx is ts ->
    message_items sx (i :: is) (g ++ t ++ ts)%string
with item_text (sx : syntax) : item -> text -> Prop :=
| it_field f t : message_field_text sx f t -> item_text sx (IField f) t
| it_message m t : message_text sx m t -> item_text sx (IMessage m) t
| it_enum e t : enum_text e t -> item_text sx (IEnum e) t
| it_oneof o t : oneof_text sx o t -> item_text sx (IOneof o) t
| it_nums l t : reserved_nums_text l t -> item_text sx (IReservedNums l) t
| it_names l t : reserved_names_text l t -> item_text sx (IReservedNames l) t
| it_option t : message_option t -> item_text sx INothing t
| it_extensions t : extensions_text t -> item_text sx INothing t.

(* ---- services and extensions ---- *)

Definition rpc := (text * text * text)%type.
Inductive rpc_text : rpc -> text -> Prop :=
| rpc_intro g1 name g2 g3 arg g4 g5 g6 g7 ret g8 g9 e :
    break g1 -> ident name -> gap g2 -> gap g3 -> ident arg -> gap g4 -> break g5 ->
    gap g6 -> gap g7 -> ident ret -> gap g8 -> gap g9 ->
    (e = ";" \/ exists g, gap g /\ e = ("{" ++ g ++ "}")%string) ->
    rpc_text (name, arg, ret)
      ("rpc" ++ g1 ++ name ++ g2 ++ "(" ++ g3 ++ arg ++ g4 ++ ")" ++ g5 ++ "returns"
       ++ g6 ++ "(" ++ g7 ++ ret ++ g8 ++ ")" ++ g9 ++ e)%string.
(** every function is followed by a gap; an empty service has no white space
    between its braces *)
Inductive rpcs_text : list rpc -> text -> Prop :=
| rpcs_nil : rpcs_text [] ""
| rpcs_one g1 r t g2 : gap g1 -> rpc_text r t -> gap g2 -> rpcs_text [r] (g1 ++ t ++ g2)%string
| rpcs_more g r t rs ts : gap g -> rpc_text r t -> rpcs_text rs ts -> rs <> [] ->
    rpcs_text (r :: rs) (g ++ t ++ ts)%string.
Inductive service_text : text * list rpc -> text -> Prop :=
| service_intro g1 name g2 rs b : break g1 -> ident name -> gap g2 -> rpcs_text rs b ->
    service_text (name, rs) ("service" ++ g1 ++ name ++ g2 ++ "{" ++ b ++ "}")%string.

Inductive extend_text (sx : syntax) : text * list field -> text -> Prop :=
| extend_intro g1 name g2 fs b s : break g1 -> type_name name -> gap g2 ->
    fields_text (message_field_text sx) fs b -> optional_semi s ->
    extend_text sx (name, fs) ("extend" ++ g1 ++ name ++ g2 ++ "{" ++ b ++ "}" ++ s)%string.

(* ---- files ---- *)

Inductive decl :=
| DPackage (p : text)
| DImport (i : text)
| DMessage (m : message)
| DEnum (e : enumerator)
| DService (s : text * list rpc)
| DExtend (x : text * list field)
| DNothing.

Inductive decl_text (sx : syntax) : decl -> text -> Prop :=
| dt_package g1 p g2 : break g1 -> path p -> gap g2 ->
    decl_text sx (DPackage p) ("package" ++ g1 ++ p ++ g2 ++ ";")%string
| dt_import g1 i t g2 : break g1 -> quoted i t -> gap g2 ->
    decl_text sx (DImport i) ("import" ++ g1 ++ t ++ g2 ++ ";")%string
| dt_message m t : message_text sx m t -> decl_text sx (DMessage m) t
| dt_enum e t : enum_text e t -> decl_text sx (DEnum e) t
| dt_service s t : service_text s t -> decl_text sx (DService s) t
| dt_extend x t : extend_text sx x t -> decl_text sx (DExtend x) t
| dt_option t : ignored_option t -> decl_text sx DNothing t.

Inductive decls_text (sx : syntax) : list decl -> text -> Prop :=
| ds_nil g : gap g -> decls_text sx [] g
| ds_cons g d t ds ts : gap g -> decl_text sx d t -> decls_text sx ds ts ->
    decls_text sx (d :: ds) (g ++ t ++ ts)%string.

Definition syntax_word (sx : syntax) : text :=
  match sx with Proto2 => "proto2" | Proto3 => "proto3" end.

(** the syntax declaration *)
Inductive syntax_text (sx : syntax) : text -> Prop :=
| sx_intro g1 g2 g3 : gap g1 -> gap g2 -> gap g3 ->
    syntax_text sx
      ("syntax" ++ g1 ++ "=" ++ g2 ++ dq ++ syntax_word sx ++ dq ++ g3 ++ ";")%string.

Definition decl_packages (l : list decl) : list text :=
  flat_map (fun d => match d with DPackage p => [p] | _ => [] end) l.
Definition decl_imports (l : list decl) : list text :=
  flat_map (fun d => match d with DImport i => [i] | _ => [] end) l.
Definition decl_messages (l : list decl) : list message :=
  flat_map (fun d => match d with DMessage m => [m] | _ => [] end) l.
Definition decl_enums (l : list decl) : list enumerator :=
  flat_map (fun d => match d with DEnum e => [e] | _ => [] end) l.
Definition decl_services (l : list decl) : list (text * list rpc) :=
  flat_map (fun d => match d with DService s => [s] | _ => [] end) l.
Definition decl_extends (l : list decl) : list (text * list field) :=
  flat_map (fun d => match d with DExtend x => [x] | _ => [] end) l.

(** a file: [g] stands before the syntax declaration.  Without a declaration a
    file is proto2. *)
Inductive file_text : text -> syntax -> list decl -> text -> Prop :=
| file_declared g sx st ds t : gap g -> syntax_text sx st -> decls_text sx ds t ->
    file_text g sx ds (g ++ st ++ t)%string
| file_plain ds t : decls_text Proto2 ds t -> file_text "" Proto2 ds t.
