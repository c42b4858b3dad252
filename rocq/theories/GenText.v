(** The text that the generator writes: every [write!], [writeln!] and
    [format!] of pb-rs/src/types.rs from a descriptor to the generated file,
    character by character.

    Not distinguished: [Error::ReadFnMap] and a panic are both [GenPanic].  Left
    out: what is printed on the standard output, custom includes, custom RPC
    generators (the default one writes nothing, lib.rs:73) and the feature
    generateImplFromForEnums. *)
From Coq Require Import String Ascii Arith ZArith DecimalString DecimalZ.
From Verif Require Import Base Schema Keywords Modules Passes Parser Gen GenCheck Lifetime RustTypes Emit Uses Import Output.
Import Schema StringSyntax.
Local Open Scope string_scope.
Local Open Scope list_scope.

(** ** Formatting *)

(** a line feed *)
Definition nl : text := String (ascii_of_nat 10) "".
(** [{}] of an integer *)
Definition show (z : Z) : text := NilZero.string_of_int (Z.to_int z).

(** [gres] for texts: a text that is inserted into another one *)
Definition fmt (x : gres text) (k : text -> text) : gres text := gbind x (fun s => GOk (k s)).

(** What a function with a writer does: the text written, and whether it
    succeeds.  What has been written before a failure stays in the file. *)
Definition out : Type := text * option gen_error.
Definition write (s : text) : out := (s, None).
Definition writeln (s : text) : out := ((s ++ nl)%string, None).
Definition writeln_of (x : gres text) : out :=
  match x with GOk s => writeln s | GErr e => ("", Some e) end.
Definition nothing : out := ("", None).
Definition andthen (a b : out) : out :=
  match a with
  | (s, None) => ((s ++ fst b)%string, snd b)
  | (s, Some e) => (s, Some e)
  end.
Declare Scope out_scope.
Delimit Scope out_scope with out.
Infix ";;;" := andthen (at level 62, right associativity) : out_scope.
Local Open Scope out_scope.
(** [for x in l { f(x)?; }] *)
Fixpoint write_all {A} (f : A -> out) (l : list A) : out :=
  match l with [] => nothing | x :: l' => f x ;;; write_all f l' end.
Definition when (b : bool) (o : out) : out := if b then o else nothing.
(** a test that can fail *)
Definition if_of (x : gres bool) (a b : out) : out :=
  match x with GOk true => a | GOk false => b | GErr e => ("", Some e) end.

Section Text.
Variable g : gen_config.
Let c : config := g_passes g.
(** the descriptor that is written, and the same before its names were escaped:
    the qualified names of enum values are older (types.rs:2132-2152) *)
Variable d d0 : file_descriptor.

(** ** Types: types.rs:231-515 *)

Definition modules_of_message (m : message) : text := get_modules (m_module m) (m_imported m) (d_package d).
Definition modules_of_enum (e : enumerator) : text := get_modules (en_module e) (en_imported e) (d_package d).
Definition modules_of_oneof (o : oneof) : text := get_modules (o_module o) (o_imported o) (d_package d).

(** [str::replace] of a character *)
Fixpoint replace_char (a : ascii) (by_ s : text) : text :=
  match s with
  | EmptyString => ""
  | String b s' => if Ascii.eqb b a then (by_ ++ replace_char a by_ s')%string else String b (replace_char a by_ s')
  end.
(** types.rs:2132-2152: the first of the partially and of the fully qualified
    fields; without fields, indexing panics *)
Definition partially_qualified (e : enumerator) : gres text :=
  match en_fields e with
  | [] => GErr GenPanic
  | (v, _) :: _ => GOk (en_name e ++ "::" ++ v)%string
  end.
Definition fully_qualified (e : enumerator) : gres text :=
  fmt (partially_qualified e) (fun p =>
    if String.eqb (en_module e) "" then p else (replace_char "." "::" (en_module e) ++ "::" ++ p)%string).

(** types.rs:315-344 [singular_field_defaults] *)
Definition singular_default (t : field_type) : gres text :=
  match t with
  | TInt32 | TSint32 => GOk "0i32"
  | TInt64 | TSint64 => GOk "0i64"
  | TUint32 => GOk "0u32"
  | TUint64 => GOk "0u64"
  | TBool => GOk "false"
  | TFixed32 => GOk "0u32"
  | TSfixed32 => GOk "0i32"
  | TFloat => GOk "0f32"
  | TFixed64 => GOk "0u64"
  | TSfixed64 => GOk "0i64"
  | TDouble => GOk "0f64"
  | TStringCow => GOk "Cow::Borrowed("""")"
  | TString => GOk """"".to_string()"
  | TBytesCow => GOk "Cow::Borrowed(b"""")"
  | TBytes => GOk "Vec::<u8>::new()"
  | TEnum q => match get_enum d0 q with Some e => fully_qualified e | None => GErr GenPanic end
  | TMessage i => match get_message d i with
                  | Some m => GOk (modules_of_message m ++ m_name m ++ "::default()")%string
                  | None => GErr GenPanic
                  end
  | TMap _ _ | TMessageOrEnum _ => GErr GenPanic
  end.

(** types.rs:380-413 [rust_type] *)
Fixpoint type_text (t : field_type) : gres text :=
  match t with
  | TInt32 | TSint32 | TSfixed32 => GOk "i32"
  | TInt64 | TSint64 | TSfixed64 => GOk "i64"
  | TUint32 | TFixed32 => GOk "u32"
  | TUint64 | TFixed64 => GOk "u64"
  | TDouble => GOk "f64"
  | TFloat => GOk "f32"
  | TStringCow => GOk "Cow<'a, str>"
  | TBytesCow => GOk "Cow<'a, [u8]>"
  | TString => GOk "String"
  | TBytes => GOk "Vec<u8>"
  | TBool => GOk "bool"
  | TEnum q => match get_enum d q with
               | Some e => GOk (modules_of_enum e ++ en_name e)%string
               | None => GErr GenPanic
               end
  | TMessage i => match get_message d i with
                  | Some m => gbind (message_has_lifetime c d (lifetime_fuel d) [] m) (fun lt =>
                              GOk (modules_of_message m ++ m_name m ++ (if lt then "<'a>" else ""))%string)
                  | None => GErr GenPanic
                  end
  | TMap k v => gbind (type_text k) (fun k' => gbind (type_text v) (fun v' => GOk ("KVMap<" ++ k' ++ ", " ++ v' ++ ">")%string))
  | TMessageOrEnum _ => GErr GenPanic
  end.

(** types.rs:416-449 [read_fn] *)
Definition read_texts (t : field_type) : gres (text * text) :=
  match t with
  | TMessage i => match get_message d i with
                  | Some m => let s := ("r.read_message::<" ++ modules_of_message m ++ m_name m ++ ">(bytes)?")%string in GOk (s, s)
                  | None => GErr GenPanic
                  end
  | TMap _ _ => GErr GenPanic
  | TStringCow | TBytesCow =>
    let m := ("r.read_" ++ proto_type t ++ "(bytes)")%string in GOk (m, (m ++ ".map(Cow::Borrowed)?")%string)
  | TString | TBytes =>
    let m := ("r.read_" ++ proto_type t ++ "(bytes)")%string in GOk (m, (m ++ "?.to_owned()")%string)
  | TMessageOrEnum _ => GErr GenPanic
  | _ => let m := ("r.read_" ++ proto_type t ++ "(bytes)?")%string in GOk (m, m)
  end.

(** types.rs:451-476 [get_size] *)
Fixpoint size_text (t : field_type) (s : text) : gres text :=
  match t with
  | TInt32 | TInt64 | TUint32 | TUint64 | TBool | TEnum _ => GOk ("sizeof_varint(*(&" ++ s ++ ") as u64)")%string
  | TSint32 => GOk ("sizeof_sint32(*(&" ++ s ++ "))")%string
  | TSint64 => GOk ("sizeof_sint64(*(&" ++ s ++ "))")%string
  | TFixed64 | TSfixed64 | TDouble => GOk "8"
  | TFixed32 | TSfixed32 | TFloat => GOk "4"
  | TStringCow | TBytesCow => GOk ("sizeof_len((&" ++ s ++ ").len())")%string
  | TString | TBytes => GOk ("sizeof_len(" ++ s ++ ".len())")%string
  | TMessage _ => GOk ("sizeof_len((" ++ s ++ ").get_size())")%string
  | TMap k v => gbind (size_text k "k") (fun k' => gbind (size_text v "v") (fun v' => GOk ("2 + " ++ k' ++ " + " ++ v')%string))
  | TMessageOrEnum _ => GErr GenPanic
  end.

(** types.rs:478-515 [get_write] *)
Fixpoint write_text (t : field_type) (s : text) (boxed : bool) : gres text :=
  match t with
  | TEnum _ => GOk ("write_enum(*&" ++ s ++ " as i32)")%string
  | TInt32 | TSint32 | TInt64 | TSint64 | TUint32 | TUint64 | TBool
  | TFixed64 | TSfixed64 | TDouble | TFixed32 | TSfixed32 | TFloat => GOk ("write_" ++ proto_type t ++ "(*&" ++ s ++ ")")%string
  | TStringCow | TString => GOk ("write_string(" ++ s ++ ")")%string
  | TBytesCow | TBytes => GOk ("write_bytes(" ++ s ++ ")")%string
  | TMessage _ => if boxed then GOk ("write_message(&*(" ++ s ++ "))")%string else GOk ("write_message(" ++ s ++ ")")%string
  | TMap k v =>
    gbind (size_text (TMap k v) "") (fun z =>
    gbind (write_text k "k" false) (fun k' =>
    gbind (write_text v "v" false) (fun v' =>
    GOk ("write_map(" ++ z ++ ", " ++ show (gen_tag 1 k false) ++ ", |w| w." ++ k' ++ ", "
         ++ show (gen_tag 2 v false) ++ ", |w| w." ++ v' ++ ")")%string)))
  | TMessageOrEnum _ => GErr GenPanic
  end.

(** ** Fields: types.rs:529-1241 *)

(** types.rs:581-592 [must_generate_getter] *)
Definition must_generate_getter (f : field) : bool := must_generate_const (d_syntax d) c f && g_getters g.
(** types.rs:654-656 *)
Definition const_name (f : field) : text := ("DEFAULT_" ++ f_name f)%string.
(** types.rs:658-668 [rust_type_incl_non_cow] *)
Definition const_type_text (f : field) : gres text :=
  match f_typ f with TString => GOk "&str" | TBytes => GOk "&[u8]" | t => type_text t end.

(** types.rs:594-631 [write_getter] *)
Definition write_getter (f : field) : out :=
  if negb (must_generate_getter f) then nothing else
  writeln_of (gbind (const_type_text f) (fun t =>
    let return_type := if is_cow (f_typ f) then ("&" ++ t)%string else t in
    GOk ("    pub fn get_" ++ f_name f ++ "(&self) -> " ++ return_type ++ " {")%string)) ;;;
  match f_typ f with
  | TString => writeln ("        &self." ++ f_name f ++ ".as_ref().map(|s| s.as_str()).unwrap_or(Self::" ++ const_name f ++ ")")%string
  | TBytes => writeln ("        &self." ++ f_name f ++ ".as_ref().map(|s| s.as_slice()).unwrap_or(Self::" ++ const_name f ++ ")")%string
  | t => writeln ("        " ++ (if negb (is_cow t) then "*" else "") ++ "self." ++ f_name f ++ ".as_ref().unwrap_or(&Self::" ++ const_name f ++ ")")%string
  end ;;;
  writeln "    }".

(** types.rs:670-693 [write_custom_default] *)
Definition write_custom_default (f : field) : out :=
  if negb (can_write_default_const (d_syntax d) c f) then nothing else
  writeln_of (gbind (const_type_text f) (fun t =>
    match f_default f with
    | Some s => GOk ("    pub const " ++ const_name f ++ ": " ++ t ++ " = " ++ s ++ ";")%string
    | None => GErr GenPanic
    end)).

(** types.rs:718-771 [get_field_default] *)
Definition default_text (f : field) : gres text :=
  match generated_type_of (f_freq f) with
  | SingularType =>
    if f_boxed f then GOk "None"
    else if freq_is_optional (f_freq f) then GOk "None"
    else match f_default f with
         | Some s => match f_typ f with
                     | TString => GOk (s ++ ".to_string()")%string
                     | TBytes => GOk (s ++ ".to_vec()")%string
                     | _ => GOk s
                     end
         | None => singular_default (f_typ f)
         end
  | ArrayLikeType =>
    if f_is_packed f && is_fixed_size (f_typ f) && negb (c_dont_use_cow c)
    then GOk "PackedFixed::from(Vec::new())" else GOk "Vec::new()"
  | MapType => GOk "HashMap::new()"
  end.

(** types.rs:695-716 [write_default] *)
Definition write_field_default (f : field) : out :=
  if f_deprecated f && negb (c_add_deprecated_fields c) then nothing else
  writeln_of (fmt (default_text f) (fun v => "            " ++ f_name f ++ ": " ++ v ++ ",")%string).

(** types.rs:812-837 [get_type] *)
Definition field_type_text (f : field) : gres text :=
  fmt (type_text (f_typ f)) (fun t =>
    if f_boxed f then ("Option<Box<" ++ t ++ ">>")%string else
    match generated_type_of (f_freq f) with
    | SingularType => if freq_is_optional (f_freq f) then ("Option<" ++ t ++ ">")%string else t
    | ArrayLikeType =>
      if f_is_packed f && is_fixed_size (f_typ f) && negb (c_dont_use_cow c)
      then ("PackedFixed<'a, " ++ t ++ ">")%string else ("Vec<" ++ t ++ ">")%string
    | MapType => t
    end).

(** types.rs:839-855 [write_definition] *)
Definition write_field_definition (f : field) : out :=
  if f_deprecated f && negb (c_add_deprecated_fields c) then nothing else
  when (f_deprecated f) (writeln "    #[deprecated]") ;;;
  writeln_of (fmt (field_type_text f) (fun t => "    pub " ++ f_name f ++ ": " ++ t ++ ",")%string).

(** types.rs:857-935 [write_match_tag] *)
Definition write_field_match_tag (f : field) : out :=
  if f_deprecated f && negb (c_add_deprecated_fields c) then nothing else
  match (if freq_is_map (f_freq f) then GOk ("", "") else read_texts (f_typ f)) with
  | GErr e => ("", Some e)
  | GOk (val, val_cow) =>
    let name := f_name f in
    write ("                Ok(" ++ show (field_tag f) ++ ") => ")%string ;;;
    if f_boxed f then writeln ("msg." ++ name ++ " = Some(Box::new(" ++ val ++ ")),")%string else
    match generated_type_of (f_freq f) with
    | SingularType =>
      match f_freq f with
      | P2Optional => writeln ("msg." ++ name ++ " = Some(" ++ val_cow ++ "),")%string
      | P2Required => writeln ("msg." ++ name ++ " = " ++ val_cow ++ ",")%string
      | P3Optional => writeln ("msg." ++ name ++ " = Some(" ++ val_cow ++ "),")%string
      | P3Default => writeln ("msg." ++ name ++ " = " ++ val_cow ++ ",")%string
      | _ => ("", Some GenPanic)
      end
    | ArrayLikeType =>
      if f_is_packed f then
        if is_fixed_size (f_typ f) then writeln ("msg." ++ name ++ " = r.read_packed_fixed(bytes)?,")%string
        else writeln ("msg." ++ name ++ " = r.read_packed(bytes, |r, bytes| Ok(" ++ val_cow ++ "))?,")%string
      else writeln ("msg." ++ name ++ ".push(" ++ val_cow ++ "),")%string
    | MapType =>
      match f_typ f with
      | TMap k v =>
        writeln "{" ;;;
        writeln_of (gbind (read_texts k) (fun k' => gbind (read_texts v) (fun v' =>
          GOk ("                    let (key, value) = r.read_map(bytes, |r, bytes| Ok(" ++ snd k' ++ "), |r, bytes| Ok(" ++ snd v' ++ "))?;")%string))) ;;;
        writeln ("                    msg." ++ f_name f ++ ".insert(key, value);")%string ;;;
        writeln "                }"
      | _ => ("", Some GenPanic)
      end
    end
  end.

(** types.rs:961-971 [get_size_addition] *)
Definition size_addition_text (f : field) (s : text) : gres text :=
  fmt (size_text (f_typ f) (if is_fixed_size (f_typ f) then "" else s)) (fun z =>
    show (gen_sizeof_varint (field_tag f)) ++ " + " ++ z)%string.
(** types.rs:977-981, 1175-1179 [maybe_deref_m] *)
Definition maybe_deref_m (f : field) : text := if f_boxed f || negb (is_primitive (f_typ f)) then "m" else "&m".
Definition maybe_ampersand (t : field_type) : text := if need_to_dereference t then "&" else "".

(** types.rs:937-1049 [write_get_size] *)
Definition write_field_get_size (f : field) : out :=
  if f_deprecated f && negb (c_add_deprecated_fields c) then nothing else
  let name := f_name f in
  let tag_size := show (gen_sizeof_varint (field_tag f)) in
  write "        + " ;;;
  match generated_type_of (f_freq f) with
  | SingularType =>
    writeln_of (
      gbind (default_text f) (fun def =>
      gbind (size_addition_text f "m") (fun m_size =>
      gbind (size_addition_text f ("self." ++ name)%string) (fun self_size =>
      GOk match negb (has_presence f), freq_is_optional (f_freq f) with
          | true, true => ("self." ++ name ++ ".as_ref().map_or(0, |" ++ maybe_deref_m f ++ "| if m != " ++ def ++ " { " ++ m_size ++ " } else { 0 }")%string
          | true, false => ("if self." ++ name ++ " == " ++ def ++ " { 0 } else { " ++ self_size ++ " }")%string
          | false, true => ("self." ++ name ++ ".as_ref().map_or(0, |" ++ maybe_deref_m f ++ "| " ++ m_size ++ ")")%string
          | false, false => self_size
          end))))
  | ArrayLikeType =>
    if f_is_packed f then
      write ("if self." ++ name ++ ".is_empty() { 0 } else { " ++ tag_size ++ " + ")%string ;;;
      match wire_type_num_non_packed (f_typ f) with
      | 1%Z => writeln ("sizeof_len(self." ++ name ++ ".len() * 8) }")%string
      | 5%Z => writeln ("sizeof_len(self." ++ name ++ ".len() * 4) }")%string
      | _ => writeln_of (fmt (size_text (f_typ f) "s") (fun z => "sizeof_len(self." ++ name ++ ".iter().map(|&s| " ++ z ++ ").sum::<usize>()) }")%string)
      end
    else
      match wire_type_num_non_packed (f_typ f) with
      | 1%Z => writeln ("(" ++ tag_size ++ " + 8) * self." ++ name ++ ".len()")%string
      | 5%Z => writeln ("(" ++ tag_size ++ " + 4) * self." ++ name ++ ".len()")%string
      | _ => writeln_of (fmt (size_text (f_typ f) "s") (fun z =>
               "self." ++ name ++ ".iter().map(|" ++ maybe_ampersand (f_typ f) ++ "s| " ++ tag_size ++ " + " ++ z ++ ").sum::<usize>()")%string)
      end
  | MapType =>
    match f_typ f with
    | TMap k v =>
      writeln_of (fmt (size_text (f_typ f) "") (fun z =>
        "self." ++ name ++ ".iter().map(|(" ++ maybe_ampersand k ++ "k, " ++ maybe_ampersand v ++ "v)| " ++ tag_size
        ++ " + sizeof_len(" ++ z ++ ")).sum::<usize>()")%string)
    | _ => ("", Some GenPanic)
    end
  end.

(** types.rs:1116-1156 [apply_unwrapping_code] *)
Definition unwrapping_text (f : field) (equating_cows : bool) (s : text) : text :=
  let core := if f_boxed f then ("*(" ++ s ++ ")")%string else s in
  let core := if negb (need_to_dereference (f_typ f)) && negb (is_cow (f_typ f))
                 && negb (freq_is_optional (f_freq f)) && negb (is_non_cow_string_or_byte (f_typ f))
              then ("&" ++ core)%string else core in
  if negb equating_cows then
    if is_cow (f_typ f) || is_non_cow_string_or_byte (f_typ f) then ("&" ++ core)%string else core
  else core.
(** types.rs:1158-1164 [get_write_method] *)
Definition write_method_text (f : field) (s : text) : gres text :=
  fmt (write_text (f_typ f) s (f_boxed f)) (fun t => "w.write_with_tag(" ++ show (field_tag f) ++ ", |w| w." ++ t ++ ")")%string.

(** types.rs:1080-1241 [write_write] *)
Definition write_field_write (f : field) : out :=
  if f_deprecated f && negb (c_add_deprecated_fields c) then nothing else
  let name := f_name f in
  write "        " ;;;
  match generated_type_of (f_freq f) with
  | SingularType =>
    writeln_of (
      let m_core := unwrapping_text f false "m" in
      let self_core := unwrapping_text f false ("self." ++ name)%string in
      let self_core_equating := unwrapping_text f true ("self." ++ name)%string in
      gbind (default_text f) (fun def =>
      gbind (write_method_text f m_core) (fun m_write =>
      gbind (write_method_text f self_core) (fun self_write =>
      GOk match negb (has_presence f), freq_is_optional (f_freq f) with
          | true, true => ("self." ++ name ++ ".as_ref().map_or(Ok(()), |" ++ maybe_deref_m f ++ "| if " ++ m_core ++ " != " ++ def
                           ++ " { " ++ m_write ++ " } else { Ok(()) })?;")%string
          | true, false => ("if " ++ self_core_equating ++ " != " ++ def ++ " { " ++ self_write ++ "?; }")%string
          | false, true => ("self." ++ name ++ ".as_ref().map_or(Ok(()), |" ++ maybe_deref_m f ++ "| " ++ m_write ++ ")?;")%string
          | false, false => (self_write ++ "?;")%string
          end))))
  | ArrayLikeType =>
    if f_is_packed f then
      if is_fixed_size (f_typ f)
      then writeln ("w.write_packed_fixed_with_tag(" ++ show (field_tag f) ++ ", &self." ++ name ++ ")?;")%string
      else writeln_of (gbind (write_text (f_typ f) "m" (f_boxed f)) (fun w => fmt (size_text (f_typ f) "m") (fun z =>
             "w.write_packed_with_tag(" ++ show (field_tag f) ++ ", &self." ++ name ++ ", |w, &m| w." ++ w ++ ", &|&m| " ++ z ++ ")?;")%string))
    else
      writeln_of (fmt (write_text (f_typ f) (if need_to_dereference (f_typ f) then "*s" else "s") (f_boxed f)) (fun w =>
        "for s in &self." ++ name ++ " { w.write_with_tag(" ++ show (field_tag f) ++ ", |w| w." ++ w ++ ")?; }")%string)
  | MapType =>
    match f_typ f with
    | TMap k v =>
      writeln_of (fmt (write_text (f_typ f) "" false) (fun w =>
        "for (" ++ maybe_ampersand k ++ "k, " ++ maybe_ampersand v ++ "v) in self." ++ name ++ ".iter() { w.write_with_tag("
        ++ show (field_tag f) ++ ", |w| w." ++ w ++ ")?; }")%string)
    | _ => ("", Some GenPanic)
    end
  end.

(** ** Oneofs: types.rs:2240-2535 *)

Definition oneof_type (o : oneof) : text := (modules_of_oneof o ++ "OneOf" ++ o_name o)%string.
Definition oneof_shown (o : oneof) : list field := filter (fun f => negb (f_deprecated f) || c_add_deprecated_fields c) (o_fields o).

(** types.rs:2241-2253 [write_default], [write_impl_default_field] *)
Definition write_oneof_default (o : oneof) : out :=
  writeln ("            " ++ o_name o ++ ": " ++ oneof_type o ++ "::None,")%string.

(** types.rs:2283-2324 [write_definition] *)
Definition write_oneof_definition (o : oneof) : out :=
  writeln "#[derive(Debug, PartialEq, Clone)]" ;;;
  if_of (oneof_has_lifetime c d o)
    (writeln ("pub enum OneOf" ++ o_name o ++ "<'a> {")%string)
    (writeln ("pub enum OneOf" ++ o_name o ++ " {")%string) ;;;
  write_all (fun f =>
    if f_deprecated f && negb (c_add_deprecated_fields c) then nothing else
    when (f_deprecated f) (writeln "    #[deprecated]") ;;;
    writeln_of (fmt (type_text (f_typ f)) (fun t =>
      if f_boxed f then ("    " ++ f_name f ++ "(Box<" ++ t ++ ">),")%string else ("    " ++ f_name f ++ "(" ++ t ++ "),")%string))) (o_fields o) ;;;
  writeln "    None," ;;;
  writeln "}".

(** types.rs:2358-2371 [write_impl_default] *)
Definition write_oneof_impl_default (o : oneof) : out :=
  if_of (oneof_has_lifetime c d o)
    (writeln ("impl<'a> Default for OneOf" ++ o_name o ++ "<'a> {")%string)
    (writeln ("impl Default for OneOf" ++ o_name o ++ " {")%string) ;;;
  writeln "    fn default() -> Self {" ;;;
  writeln ("        OneOf" ++ o_name o ++ "::None")%string ;;;
  writeln "    }" ;;;
  writeln "}".

(** types.rs:2275-2281 [write] *)
Definition write_oneof (o : oneof) : out :=
  writeln "" ;;; write_oneof_definition o ;;; writeln "" ;;; write_oneof_impl_default o.

(** types.rs:2373-2397 [write_message_definition] *)
Definition write_oneof_message_definition (o : oneof) : out :=
  if_of (oneof_has_lifetime c d o)
    (writeln ("    pub " ++ o_name o ++ ": " ++ oneof_type o ++ "<'a>,")%string)
    (writeln ("    pub " ++ o_name o ++ ": " ++ oneof_type o ++ ",")%string).

(** types.rs:2399-2436 [write_match_tag] *)
Definition write_oneof_match_tag (o : oneof) : out :=
  write_all (fun f =>
    writeln_of (gbind (read_texts (f_typ f)) (fun vals =>
      let '(val, val_cow) := vals in
      GOk (if f_boxed f
           then ("                Ok(" ++ show (field_tag f) ++ ") => msg." ++ o_name o ++ " = " ++ oneof_type o ++ "::" ++ f_name f
                 ++ "(Box::new(" ++ val ++ ")),")%string
           else ("                Ok(" ++ show (field_tag f) ++ ") => msg." ++ o_name o ++ " = " ++ oneof_type o ++ "::" ++ f_name f
                 ++ "(" ++ val_cow ++ "),")%string)))) (oneof_shown o).

(** types.rs:2438-2491 [write_get_size] *)
Definition write_oneof_get_size (o : oneof) : out :=
  writeln ("        + match &self." ++ o_name o ++ " {")%string ;;;
  write_all (fun f =>
    let tag_size := show (gen_sizeof_varint (field_tag f)) in
    writeln_of (
      if is_fixed_size (f_typ f) then
        fmt (size_text (f_typ f) "") (fun z => "            " ++ oneof_type o ++ "::" ++ f_name f ++ "(_) => " ++ tag_size ++ " + " ++ z ++ ",")%string
      else if need_to_dereference (f_typ f) then
        fmt (size_text (f_typ f) "*m") (fun z => "            " ++ oneof_type o ++ "::" ++ f_name f ++ "(m) => " ++ tag_size ++ " + " ++ z ++ ",")%string
      else
        fmt (size_text (f_typ f) "m") (fun z => "            " ++ oneof_type o ++ "::" ++ f_name f ++ "(ref m) => " ++ tag_size ++ " + " ++ z ++ ",")%string))
    (oneof_shown o) ;;;
  writeln ("            " ++ oneof_type o ++ "::None => 0,")%string ;;;
  writeln "        }".

(** types.rs:2493-2535 [write_write] *)
Definition write_oneof_write (o : oneof) : out :=
  writeln ("        match &self." ++ o_name o ++ " {")%string ;;;
  write_all (fun f =>
    writeln_of (fmt (write_text (f_typ f) (if need_to_dereference (f_typ f) || f_boxed f then "*m" else "m") (f_boxed f)) (fun w =>
      "            " ++ oneof_type o ++ "::" ++ f_name f ++ "(m) => { w.write_with_tag(" ++ show (field_tag f) ++ ", |w| w." ++ w ++ ")? },")%string))
    (oneof_shown o) ;;;
  writeln ("            " ++ oneof_type o ++ "::None => {},")%string ;;;
  writeln "        }".

(** ** Enums: types.rs:2163-2239 *)

Definition write_enum_definition (e : enumerator) : out :=
  writeln "#[derive(Debug, PartialEq, Eq, Clone, Copy)]" ;;;
  writeln ("pub enum " ++ en_name e ++ " {")%string ;;;
  write_all (fun f => writeln ("    " ++ fst f ++ " = " ++ show (snd f) ++ ",")%string) (en_fields e) ;;;
  writeln "}".
(** [e0] is the enum before its names were escaped *)
Definition write_enum_default (e e0 : enumerator) : out :=
  writeln ("impl Default for " ++ en_name e ++ " {")%string ;;;
  writeln "    fn default() -> Self {" ;;;
  writeln_of (fmt (partially_qualified e0) (fun p => "        " ++ p)%string) ;;;
  writeln "    }" ;;;
  writeln "}".
Definition write_enum_from_i32 (e : enumerator) : out :=
  writeln ("impl From<i32> for " ++ en_name e ++ " {")%string ;;;
  writeln "    fn from(i: i32) -> Self {" ;;;
  writeln "        match i {" ;;;
  write_all (fun f => writeln ("            " ++ show (snd f) ++ " => " ++ en_name e ++ "::" ++ fst f ++ ",")%string) (en_fields e) ;;;
  writeln "            _ => Self::default()," ;;;
  writeln "        }" ;;;
  writeln "    }" ;;;
  writeln "}".
(** [{:?}] of a name: names are letters, digits and underscores *)
Definition write_enum_from_str (e : enumerator) : out :=
  writeln ("impl<'a> From<&'a str> for " ++ en_name e ++ " {")%string ;;;
  writeln "    fn from(s: &'a str) -> Self {" ;;;
  writeln "        match s {" ;;;
  write_all (fun f => writeln ("            " ++ quoted (fst f) ++ " => " ++ en_name e ++ "::" ++ fst f ++ ",")%string) (en_fields e) ;;;
  writeln "            _ => Self::default()," ;;;
  writeln "        }" ;;;
  writeln "    }" ;;;
  writeln "}".
(** types.rs:2163-2178 [Enumerator::write] *)
Definition write_enum (e e0 : enumerator) : out :=
  writeln "" ;;;
  write_enum_definition e ;;;
  writeln "" ;;;
  match en_fields e with
  | [] => nothing
  | _ => write_enum_default e e0 ;;; writeln "" ;;; write_enum_from_i32 e ;;; writeln "" ;;; write_enum_from_str e
  end.

(** ** Messages: types.rs:1283-1956 *)

(** types.rs:1309-1312 and the like: the [impl] line has a lifetime *)
Definition own_lifetime (m : message) : gres bool :=
  message_has_lifetime c d (lifetime_fuel d) (if c_dont_use_cow c then [m_index m] else []) m.

(** types.rs:1284-1329 [write_default_consts] *)
Definition write_default_consts (m : message) : out :=
  match d_syntax d with
  | Proto3 => nothing
  | Proto2 =>
    if negb (existsb (can_write_default_const (d_syntax d) c) (m_fields m)) then nothing else
    if_of (own_lifetime m)
      (writeln ("impl<'a> " ++ m_name m ++ "<'a> {")%string)
      (writeln ("impl " ++ m_name m ++ " {")%string) ;;;
    write_all write_custom_default (m_fields m) ;;;
    writeln "}" ;;;
    writeln ""
  end.

(** types.rs:1401-1455 [write_common_uses] *)
Definition any_lifetime (ms : list message) : gres bool :=
  gany (fun m => gbind (if g_owned g then message_has_lifetime c d (lifetime_fuel d) [] m else GOk false) (fun b =>
                 GOk (b || existsb f_boxed (all_fields m)))) ms.
Definition write_common_uses (ms : list message) : out :=
  when (g_nostd g) (writeln "use alloc::vec::Vec;") ;;;
  (if negb (c_dont_use_cow c) then
     when (existsb (fun m => existsb (fun f => has_cow (f_typ f) || (f_is_packed f && is_fixed_size (f_typ f))) (all_fields m)) ms)
       (if g_nostd g then writeln "use alloc::borrow::Cow;" else writeln "use std::borrow::Cow;")
   else when (g_nostd g && existsb (fun m => existsb (fun f => has_bytes_and_string (f_typ f)) (all_fields m)) ms)
          (writeln "use alloc::borrow::ToOwned;")) ;;;
  when (g_nostd g)
    (if_of (any_lifetime ms) (writeln "" ;;; writeln "use alloc::boxed::Box;") nothing) ;;;
  when (existsb (fun m => existsb (fun f => type_is_map (f_typ f)) (all_fields m)) (filter (fun m => negb (m_imported m)) ms))
    (if g_hashbrown g then writeln "use hashbrown::HashMap;" ;;; writeln "type KVMap<K, V> = HashMap<K, V>;"
     else if g_nostd g then writeln "use alloc::collections::BTreeMap;" ;;; writeln "type KVMap<K, V> = BTreeMap<K, V>;"
     else writeln "use std::collections::HashMap;" ;;; writeln "type KVMap<K, V> = HashMap<K, V>;").

(** types.rs:1457-1480 [write_getters] *)
Definition write_getters (m : message) : out :=
  if_of (own_lifetime m)
    (writeln ("impl<'a> " ++ m_name m ++ "<'a> {")%string)
    (writeln ("impl " ++ m_name m ++ " {")%string) ;;;
  write_all write_getter (m_fields m) ;;;
  writeln "}" ;;;
  writeln "".

(** types.rs:1577-1629 [write_definition].  No separator is put between the
    custom derives and Default. *)
Definition derive_text (m : message) : text :=
  let s := join_with ", " (g_derive g) in
  let s := if negb (message_must_generate_impl_default (d_syntax d) c m) then (s ++ "Default")%string else s in
  if negb (String.eqb s "") then (s ++ ", ")%string else s.
Definition write_definition (m : message) : out :=
  writeln "#[allow(clippy::derive_partial_eq_without_eq)]" ;;;
  writeln ("#[derive(" ++ derive_text m ++ "Debug, PartialEq, Clone)]")%string ;;;
  match g_repr g with Some r => writeln ("#[repr(" ++ r ++ ")]")%string | None => nothing end ;;;
  if is_unit m then writeln ("pub struct " ++ m_name m ++ " { }")%string else
  if_of (own_lifetime m)
    (writeln ("pub struct " ++ m_name m ++ "<'a> {")%string)
    (writeln ("pub struct " ++ m_name m ++ " {")%string) ;;;
  write_all write_field_definition (m_fields m) ;;;
  write_all write_oneof_message_definition (m_oneofs m) ;;;
  writeln "}".

(** types.rs:1631-1667 [write_impl_default] *)
Definition write_impl_default (m : message) : out :=
  if is_unit m then
    writeln ("impl Default for " ++ m_name m ++ " {")%string ;;;
    writeln "    fn default() -> Self {" ;;;
    writeln "        Self {}" ;;;
    writeln "    }" ;;;
    writeln "}"
  else
    if_of (own_lifetime m)
      (writeln ("impl<'a> Default for " ++ m_name m ++ "<'a> {")%string)
      (writeln ("impl Default for " ++ m_name m ++ " {")%string) ;;;
    writeln "    fn default() -> Self {" ;;;
    writeln "        Self {" ;;;
    write_all write_field_default (m_fields m) ;;;
    write_all write_oneof_default (m_oneofs m) ;;;
    writeln "        }" ;;;
    writeln "    }" ;;;
    writeln "}".

(** types.rs:1669-1691 [write_impl_message_info] *)
Definition write_impl_message_info (m : message) : out :=
  if_of (own_lifetime m)
    (writeln ("impl<'a> MessageInfo for " ++ m_name m ++ "<'a> {")%string)
    (writeln ("impl MessageInfo for " ++ m_name m ++ " {")%string) ;;;
  writeln ("    const PATH : &'static str = """ ++ m_module m ++ "." ++ m_name m ++ """;")%string ;;;
  writeln "}".

(** types.rs:1693-1751 [write_impl_message_read] *)
Definition write_impl_message_read (m : message) : out :=
  if is_unit m then
    writeln ("impl<'a> MessageRead<'a> for " ++ m_name m ++ " {")%string ;;;
    writeln "    fn from_reader(r: &mut BytesReader, _: &[u8]) -> Result<Self> {" ;;;
    writeln "        r.read_to_end();" ;;;
    writeln "        Ok(Self::default())" ;;;
    writeln "    }" ;;;
    writeln "}"
  else
    if_of (own_lifetime m)
      (writeln ("impl<'a> MessageRead<'a> for " ++ m_name m ++ "<'a> {")%string ;;;
       writeln "    fn from_reader(r: &mut BytesReader, bytes: &'a [u8]) -> Result<Self> {")
      (writeln ("impl<'a> MessageRead<'a> for " ++ m_name m ++ " {")%string ;;;
       writeln "    fn from_reader(r: &mut BytesReader, bytes: &'a [u8]) -> Result<Self> {") ;;;
    writeln "        let mut msg = Self::default();" ;;;
    writeln "        while !r.is_eof() {" ;;;
    writeln "            match r.next_tag(bytes) {" ;;;
    write_all write_field_match_tag (m_fields m) ;;;
    write_all write_oneof_match_tag (m_oneofs m) ;;;
    writeln "                Ok(t) => { r.read_unknown(bytes, t)?; }" ;;;
    writeln "                Err(e) => return Err(e)," ;;;
    writeln "            }" ;;;
    writeln "        }" ;;;
    writeln "        Ok(msg)" ;;;
    writeln "    }" ;;;
    writeln "}".

(** types.rs:1901-1917 [write_get_size] *)
Definition write_get_size (m : message) : out :=
  writeln "    fn get_size(&self) -> usize {" ;;;
  writeln "        0" ;;;
  write_all write_field_get_size (m_fields m) ;;;
  write_all write_oneof_get_size (m_oneofs m) ;;;
  writeln "    }".
(** types.rs:1937-1956 [write_write_message] *)
Definition write_write_message (m : message) : out :=
  writeln "    fn write_message<W: WriterBackend>(&self, w: &mut Writer<W>) -> Result<()> {" ;;;
  write_all write_field_write (m_fields m) ;;;
  write_all write_oneof_write (m_oneofs m) ;;;
  writeln "        Ok(())" ;;;
  writeln "    }".
(** types.rs:1753-1778 [write_impl_message_write] *)
Definition write_impl_message_write (m : message) : out :=
  if is_unit m then writeln ("impl MessageWrite for " ++ m_name m ++ " { }")%string else
  if_of (own_lifetime m)
    (writeln ("impl<'a> MessageWrite for " ++ m_name m ++ "<'a> {")%string)
    (writeln ("impl MessageWrite for " ++ m_name m ++ " {")%string) ;;;
  write_get_size m ;;;
  writeln "" ;;;
  write_write_message m ;;;
  writeln "}".

(** the lines of a raw string, and what follows its last line break: the
    indentation of the closing quote *)
Definition lines (l : list text) : out := write_all writeln l.
Definition raw_end : text := "            ".
(** types.rs:1780-1899 [write_impl_owned] *)
Definition write_impl_owned (m : message) : out :=
  let name := m_name m in
  lines [
    "";
    "            // IMPORTANT: For any future changes, note that the lifetime parameter";
    "            // of the `proto` field is set to 'static!!!";
    "            //";
    "            // This means that the internals of `proto` should at no point create a";
    "            // mutable reference to something using that lifetime parameter, on pain";
    "            // of UB. This applies even though it may be transmuted to a smaller";
    "            // lifetime later (through `proto()` or `proto_mut()`).";
    "            //";
    "            // At the time of writing, the only possible thing that uses the";
    "            // lifetime parameter is `Cow<'a, T>`, which never does this, so it's";
    "            // not UB.";
    "            //";
    "            #[derive(Debug)]";
    ("            struct " ++ name ++ "OwnedInner {")%string;
    "                buf: Vec<u8>,";
    ("                proto: Option<" ++ name ++ "<'static>>,")%string;
    "                _pin: core::marker::PhantomPinned,";
    "            }";
    "";
    ("            impl " ++ name ++ "OwnedInner {")%string;
    "                fn new(buf: Vec<u8>) -> Result<core::pin::Pin<Box<Self>>> {";
    "                    let inner = Self {";
    "                        buf,";
    "                        proto: None,";
    "                        _pin: core::marker::PhantomPinned,";
    "                    };";
    "                    let mut pinned = Box::pin(inner);";
    "";
    "                    let mut reader = BytesReader::from_bytes(&pinned.buf);";
    ("                    let proto = " ++ name ++ "::from_reader(&mut reader, &pinned.buf)?;")%string;
    "";
    "                    unsafe {";
    ("                        let proto = core::mem::transmute::<_, " ++ name ++ "<'_>>(proto);")%string;
    "                        pinned.as_mut().get_unchecked_mut().proto = Some(proto);";
    "                    }";
    "                    Ok(pinned)";
    "                }";
    "            }";
    "";
    ("            pub struct " ++ name ++ "Owned {")%string;
    ("                inner: core::pin::Pin<Box<" ++ name ++ "OwnedInner>>,")%string;
    "            }";
    "";
    "            #[allow(dead_code)]";
    ("            impl " ++ name ++ "Owned {")%string;
    "                pub fn buf(&self) -> &[u8] {";
    "                    &self.inner.buf";
    "                }";
    "";
    ("                pub fn proto<'a>(&'a self) -> &'a " ++ name ++ "<'a> {")%string;
    "                    let proto = self.inner.proto.as_ref().unwrap();";
    ("                    unsafe { core::mem::transmute::<&" ++ name ++ "<'static>, &" ++ name ++ "<'a>>(proto) }")%string;
    "                }";
    "";
    ("                pub fn proto_mut<'a>(&'a mut self) -> &'a mut " ++ name ++ "<'a> {")%string;
    "                    let inner = self.inner.as_mut();";
    "                    let inner = unsafe { inner.get_unchecked_mut() };";
    "                    let proto = inner.proto.as_mut().unwrap();";
    ("                    unsafe { core::mem::transmute::<_, &mut " ++ name ++ "<'a>>(proto) }")%string;
    "                }";
    "            }";
    "";
    ("            impl core::fmt::Debug for " ++ name ++ "Owned {")%string;
    "                fn fmt(&self, f: &mut core::fmt::Formatter<'_>) -> core::fmt::Result {";
    "                    self.inner.proto.as_ref().unwrap().fmt(f)";
    "                }";
    "            }";
    "";
    ("            impl TryFrom<Vec<u8>> for " ++ name ++ "Owned {")%string;
    "                type Error=quick_protobuf::Error;";
    "";
    "                fn try_from(buf: Vec<u8>) -> Result<Self> {";
    ("                    Ok(Self { inner: " ++ name ++ "OwnedInner::new(buf)? })")%string;
    "                }";
    "            }";
    "";
    ("            impl TryInto<Vec<u8>> for " ++ name ++ "Owned {")%string;
    "                type Error=quick_protobuf::Error;";
    "";
    "                fn try_into(self) -> Result<Vec<u8>> {";
    "                    let mut buf = Vec::new();";
    "                    let mut writer = Writer::new(&mut buf);";
    "                    self.inner.proto.as_ref().unwrap().write_message(&mut writer)?;";
    "                    Ok(buf)";
    "                }";
    "            }";
    "";
    ("            impl From<" ++ name ++ "<'static>> for " ++ name ++ "Owned {")%string;
    ("                fn from(proto: " ++ name ++ "<'static>) -> Self {")%string;
    "                    Self {";
    ("                        inner: Box::pin(" ++ name ++ "OwnedInner {")%string;
    "                            buf: Vec::new(),";
    "                            proto: Some(proto),";
    "                            _pin: core::marker::PhantomPinned,";
    "                        })";
    "                    }";
    "                }";
    "            }" ] ;;;
  write raw_end ;;;
  when (g_gen_info g) (lines [
    "";
    ("            impl MessageInfo for " ++ name ++ "Owned {")%string;
    ("                const PATH: &'static str = """ ++ m_module m ++ "." ++ name ++ """;")%string;
    "            }" ] ;;; write raw_end).
(** types.rs:1919-1935 [write_impl_try_from] *)
Definition write_impl_try_from (m : message) : out :=
  lines [
    "";
    ("            impl TryFrom<&[u8]> for " ++ m_name m ++ " {")%string;
    "                type Error=quick_protobuf::Error;";
    "";
    "                fn try_from(buf: &[u8]) -> Result<Self> {";
    "                    let mut reader = BytesReader::from_bytes(&buf);";
    ("                    Ok(" ++ m_name m ++ "::from_reader(&mut reader, &buf)?)")%string;
    "                }";
    "            }" ] ;;;
  write raw_end.

(** types.rs:1501-1548 [Message::write], the part about the message itself *)
Definition write_message_items (m : message) : out :=
  writeln "" ;;;
  write_definition m ;;;
  writeln "" ;;;
  when (existsb (must_generate_const (d_syntax d) c) (m_fields m)) (write_default_consts m ;;; writeln "") ;;;
  when (existsb must_generate_getter (m_fields m) && g_getters g) (write_getters m ;;; writeln "") ;;;
  when (message_must_generate_impl_default (d_syntax d) c m) (write_impl_default m ;;; writeln "") ;;;
  write_impl_message_read m ;;;
  writeln "" ;;;
  write_impl_message_write m ;;;
  when (g_gen_info g) (write_impl_message_info m ;;; writeln "") ;;;
  when (g_owned g)
    (writeln "" ;;; if_of (message_has_lifetime c d (lifetime_fuel d) [] m) (write_impl_owned m) (write_impl_try_from m)).

(** types.rs:1501-1575 [Message::write]; [m0] is the message before its names
    were escaped *)
Fixpoint write_message_text (m m0 : message) {struct m} : out :=
  match m with
  | mkMessage _ _ oneofs _ _ _ _ messages enums _ _ =>
    write_message_items m ;;;
    match messages, enums, oneofs with
    | [], [], [] => nothing
    | _, _, _ =>
      writeln "" ;;;
      writeln ("pub mod mod_" ++ m_name m ++ " {")%string ;;;
      writeln "" ;;;
      write_common_uses messages ;;;
      when (match messages, oneofs with [], [] => false | _, _ => true end) (writeln "use super::*;") ;;;
      ((fix go (l l0 : list message) {struct l} : out :=
          match l, l0 with
          | x :: l', y :: l0' => write_message_text x y ;;; go l' l0'
          | _, _ => nothing
          end) messages (m_messages m0)) ;;;
      write_all (fun p => write_enum (fst p) (snd p)) (combine enums (m_enums m0)) ;;;
      write_all write_oneof oneofs ;;;
      writeln "" ;;;
      writeln "}"
    end
  end.

(** ** Files: types.rs:3019-3144 *)

(** types.rs:3039-3063 [write_headers] *)
Definition write_headers (filename : text) : out :=
  writeln ("// Automatically generated rust module for '" ++ filename ++ "' file")%string ;;;
  writeln "" ;;;
  writeln "#![allow(non_snake_case)]" ;;;
  writeln "#![allow(non_upper_case_globals)]" ;;;
  writeln "#![allow(non_camel_case_types)]" ;;;
  writeln "#![allow(unused_imports)]" ;;;
  writeln "#![allow(unknown_lints)]" ;;;
  writeln "#![allow(clippy::all)]" ;;;
  when (c_add_deprecated_fields c) (writeln "#![allow(deprecated)]") ;;;
  writeln "#![cfg_attr(rustfmt, rustfmt_skip)]" ;;;
  writeln "".
(** types.rs:3068-3095 [write_uses] *)
Definition write_uses : out :=
  if forallb is_unit (d_messages d) then
    writeln "use quick_protobuf::{BytesReader, Result, MessageInfo, MessageRead, MessageWrite};" ;;;
    when (g_owned g) (writeln "use core::convert::{TryFrom, TryInto};")
  else
    write_common_uses (d_messages d) ;;;
    writeln "use quick_protobuf::{MessageInfo, MessageRead, MessageWrite, BytesReader, Writer, WriterBackend, Result, PackedFixed, PackedFixedIntoIter, PackedFixedRefIter};" ;;;
    when (g_owned g) (writeln "use core::convert::{TryFrom, TryInto};") ;;;
    writeln "use quick_protobuf::sizeofs::*;".
(** types.rs:3097-3113 [write_imports] *)
Fixpoint repeat_text (n : nat) (s : text) : text := match n with O => "" | S n' => (s ++ repeat_text n' s)%string end.
Definition write_imports : out := writeln ("use " ++ repeat_text (imports_depth (d_package d)) "super::" ++ "*;")%string.
(** types.rs:3115-3128 [write_enums]: unlike in a message, an enum without
    values is not spared (the first of its values is asked for) *)
Definition write_enums : out :=
  write_all (fun p => let '(e, e0) := p in
    writeln "" ;;; write_enum_definition e ;;; writeln "" ;;; write_enum_default e e0 ;;; writeln "" ;;;
    write_enum_from_i32 e ;;; writeln "" ;;; write_enum_from_str e)
    (filter (fun p => negb (en_imported (fst p))) (combine (d_enums d) (d_enums d0))).
(** types.rs:3139-3144 [write_messages] *)
Definition write_messages : out :=
  write_all (fun p => write_message_text (fst p) (snd p))
    (filter (fun p => negb (m_imported (fst p))) (combine (d_messages d) (d_messages d0))).
(** types.rs:3019-3037 [FileDescriptor::write]; [services] is the number of
    services, for each of which an empty line is written (3130-3137) *)
Definition write_file (filename : text) (services : nat) : out :=
  when (g_headers g) (write_headers filename) ;;;
  writeln "" ;;;
  write_uses ;;;
  write_imports ;;;
  write_enums ;;;
  write_messages ;;;
  write_all (fun _ => writeln "") (repeat tt services) ;;;
  writeln "".
End Text.
