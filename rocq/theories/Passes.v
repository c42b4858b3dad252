(** The passes of the generator between parsing and writing
    (pb-rs/src/types.rs): packages, indices, name resolution, sanity checks,
    type conversion, packing defaults, literal defaults, escaping of names.
    Cycle breaking is in Cycles.v. *)
From Coq Require Import String Ascii Arith Lia.
From Verif Require Import Base Schema Keywords Modules.
Import StringSyntax.
Local Open Scope string_scope.
Local Open Scope list_scope.

(** pb-rs/src/errors.rs: the errors these passes report, without the text
    that is only printed; [GenPanic] is a panic *)
Inductive gen_error :=
| ErrNotFound (name : text)          (* Error::MessageOrEnumNotFound *)
| ErrInvalidMessage (name : text)    (* Error::InvalidMessage *)
| ErrInvalidDefaultEnum (name : text)
| ErrCycle (names : list text)
| ErrEmptyRead
| GenPanic
| GenNoFuel.                         (* the fuel of the model, never reported *)
Inductive gres (A : Type) := GOk (a : A) | GErr (e : gen_error).
Arguments GOk {A} a.
Arguments GErr {A} e.
(** the [?] operator *)
Definition gbind {A B} (x : gres A) (k : A -> gres B) : gres B :=
  match x with GOk a => k a | GErr e => GErr e end.

(** [for x in l { f(x)? }] on mutable references: stops at the first error *)
Fixpoint gmap {A B} (f : A -> gres B) (l : list A) : gres (list B) :=
  match l with
  | [] => GOk []
  | x :: l' => gbind (f x) (fun y => gbind (gmap f l') (fun ys => GOk (y :: ys)))
  end.

(* ---- updates of the data structures ---- *)
Definition set_typ (f : field) (t : field_type) : field :=
  mkField (f_name f) (f_freq f) t (f_number f) (f_default f) (f_packed f) (f_boxed f) (f_deprecated f).
Definition set_packed (f : field) (p : option bool) : field :=
  mkField (f_name f) (f_freq f) (f_typ f) (f_number f) (f_default f) p (f_boxed f) (f_deprecated f).
Definition set_default (f : field) (d : option text) : field :=
  mkField (f_name f) (f_freq f) (f_typ f) (f_number f) d (f_packed f) (f_boxed f) (f_deprecated f).
Definition set_fname (f : field) (n : text) : field :=
  mkField n (f_freq f) (f_typ f) (f_number f) (f_default f) (f_packed f) (f_boxed f) (f_deprecated f).
Definition set_boxed (f : field) (q : frequency) : field :=
  mkField (f_name f) q (f_typ f) (f_number f) (f_default f) (f_packed f) true (f_deprecated f).

Definition set_ofields (o : oneof) (fs : list field) : oneof :=
  mkOneof (o_name o) fs (o_package o) (o_module o) (o_imported o).
Definition set_fields (m : message) (fs : list field) (os : list oneof) : message :=
  mkMessage (m_name m) fs os (m_reserved_nums m) (m_reserved_names m) (m_imported m)
            (m_package m) (m_messages m) (m_enums m) (m_module m) (m_index m).
Definition set_messages (m : message) (ms : list message) : message :=
  mkMessage (m_name m) (m_fields m) (m_oneofs m) (m_reserved_nums m) (m_reserved_names m) (m_imported m)
            (m_package m) ms (m_enums m) (m_module m) (m_index m).
Definition set_index (m : message) (i : midx) : message :=
  mkMessage (m_name m) (m_fields m) (m_oneofs m) (m_reserved_nums m) (m_reserved_names m) (m_imported m)
            (m_package m) (m_messages m) (m_enums m) (m_module m) i.
Definition set_dmessages (d : file_descriptor) (ms : list message) : file_descriptor :=
  mkDesc (d_package d) (d_syntax d) ms (d_enums d) (d_module d).

(** types.rs:2072-2080 [all_fields_mut] used as a loop *)
Definition map_fields (g : field -> field) (m : message) : message :=
  set_fields m (map g (m_fields m)) (map (fun o => set_ofields o (map g (o_fields o))) (m_oneofs m)).
(** the same with a body that may fail *)
Definition gmap_fields (g : field -> gres field) (m : message) : gres message :=
  gbind (gmap g (m_fields m)) (fun fs =>
  gbind (gmap (fun o => gbind (gmap g (o_fields o)) (fun fs' => GOk (set_ofields o fs'))) (m_oneofs m)) (fun os =>
  GOk (set_fields m fs os))).

(* ---- packages and modules ---- *)
Definition dot (a b : text) : text := (a ++ "." ++ b)%string.

(** types.rs:2132-2152 [Enumerator::set_package]; the qualified names derived
    from it are not part of the model *)
Definition enum_set_package (package module : text) (e : enumerator) : enumerator :=
  mkEnum (en_name e) (en_fields e) (en_imported e) package module.
(** types.rs:2263-2266 [OneOf::set_package] *)
Definition oneof_set_package (package module : text) (o : oneof) : oneof :=
  mkOneof (o_name o) (o_fields o) package module (o_imported o).
(** types.rs:1992-2019 [Message::set_package] *)
Fixpoint msg_set_package (package module : text) (m : message) : message :=
  match m with
  | mkMessage name fields oneofs rnums rnames imported mpackage messages enums _ index =>
    let empty := String.eqb package "" in
    let child_package := if empty then name else dot package name in
    let child_module := (module ++ ".mod_" ++ name)%string in
    mkMessage name fields
      (map (oneof_set_package child_package child_module) oneofs)
      rnums rnames imported
      (if empty then mpackage else package)
      (map (msg_set_package child_package child_module) messages)
      (map (enum_set_package child_package child_module) enums)
      module index
  end.
(** types.rs:1378-1389 [set_imported] *)
Fixpoint msg_set_imported (m : message) : message :=
  match m with
  | mkMessage name fields oneofs rnums rnames _ package messages enums module index =>
    mkMessage name fields
      (map (fun o => mkOneof (o_name o) (o_fields o) (o_package o) (o_module o) true) oneofs)
      rnums rnames true package
      (map msg_set_imported messages)
      (map (fun e => mkEnum (en_name e) (en_fields e) true (en_package e) (en_module e)) enums)
      module index
  end.
(** types.rs:2704-2710: the first half of [fetch_imports] *)
Definition set_own_package (d : file_descriptor) : file_descriptor :=
  mkDesc (d_package d) (d_syntax d)
    (map (msg_set_package (d_package d) (d_module d)) (d_messages d))
    (map (enum_set_package (d_package d) (d_module d)) (d_enums d))
    (d_module d).
(** types.rs:2736-2767: what [fetch_imports] adds for one import, given the
    descriptor [read_proto] returned for it *)
Definition add_import (d f : file_descriptor) : file_descriptor :=
  mkDesc (d_package d) (d_syntax d)
    (d_messages d ++
     map (fun m => msg_set_imported
            (if String.eqb (m_package m) "" then msg_set_package (d_package f) (d_module f) m else m))
         (d_messages f))
    (d_enums d ++
     map (fun e => let e' := if String.eqb (en_package e) ""
                             then enum_set_package (d_package f) (d_module f) e else e in
            mkEnum (en_name e') (en_fields e') true (en_package e') (en_module e'))
         (d_enums f))
    (d_module d).

(* ---- indices and full names ---- *)

(** types.rs:2896-2928 [rec_full_names], the part that sets [index] *)
Fixpoint set_indices (index : midx) (m : message) : message :=
  match m with
  | mkMessage name fields oneofs rnums rnames imported package messages enums module _ =>
    mkMessage name fields oneofs rnums rnames imported package
      ((fix go (i : nat) (l : list message) : list message :=
          match l with
          | [] => []
          | x :: l' => set_indices (index ++ [i]) x :: go (S i) l'
          end) O messages)
      enums module index
  end.
Fixpoint set_indices_from (index : midx) (i : nat) (l : list message) : list message :=
  match l with
  | [] => []
  | x :: l' => set_indices (index ++ [i]) x :: set_indices_from index (S i) l'
  end.
(** types.rs:2933-2937 *)
Definition assign_indices (d : file_descriptor) : file_descriptor :=
  set_dmessages d (set_indices_from [] O (d_messages d)).

(** types.rs:2904-2912: the full name of a message *)
Definition msg_full_name (m : message) : text :=
  if String.eqb (m_package m) "" then m_name m else dot (m_package m) (m_name m).
(** types.rs:2919-2921 (nested enums) and 2944-2952 (top-level enums) *)
Definition nested_enum_full_name (e : enumerator) : text := dot (en_package e) (en_name e).
Definition enum_full_name (e : enumerator) : text :=
  if String.eqb (en_package e) "" then en_name e else dot (en_package e) (en_name e).

Fixpoint enumerate {A B} (g : nat -> A -> B) (i : nat) (l : list A) : list B :=
  match l with [] => [] | x :: l' => g i x :: enumerate g (S i) l' end.

(** types.rs:2896-2928 [rec_full_names], the part that fills the two hash
    maps: the insertions in program order.  [entry(..).or_insert(..)] keeps the
    first, so looking up a key is looking for its first insertion. *)
Fixpoint msg_names (index : midx) (m : message) : list (text * midx) :=
  (msg_full_name m, index) ::
  (fix go (i : nat) (l : list message) : list (text * midx) :=
     match l with [] => [] | x :: l' => msg_names (index ++ [i]) x ++ go (S i) l' end) O (m_messages m).
Fixpoint msgs_names (index : midx) (i : nat) (l : list message) : list (text * midx) :=
  match l with [] => [] | x :: l' => msg_names (index ++ [i]) x ++ msgs_names index (S i) l' end.
Fixpoint enum_names (index : midx) (m : message) : list (text * eidx) :=
  enumerate (fun i e => (nested_enum_full_name e, mkEidx index i)) O (m_enums m) ++
  (fix go (i : nat) (l : list message) : list (text * eidx) :=
     match l with [] => [] | x :: l' => enum_names (index ++ [i]) x ++ go (S i) l' end) O (m_messages m).
Fixpoint enums_names (index : midx) (i : nat) (l : list message) : list (text * eidx) :=
  match l with [] => [] | x :: l' => enum_names (index ++ [i]) x ++ enums_names index (S i) l' end.
(** types.rs:2930-2954 *)
Definition full_msgs (d : file_descriptor) : list (text * midx) :=
  msgs_names [] O (d_messages d).
Definition full_enums (d : file_descriptor) : list (text * eidx) :=
  enums_names [] O (d_messages d) ++
  enumerate (fun i e => (enum_full_name e, mkEidx [] i)) O (d_enums d).

(** [HashMap::get] *)
Fixpoint lookup {A} (l : list (text * A)) (k : text) : option A :=
  match l with
  | [] => None
  | (k', v) :: l' => if String.eqb k k' then Some v else lookup l' k
  end.

(* ---- name resolution ---- *)

(** [package.match_indices('.').rev()] as the prefixes [&package[..index]] *)
Fixpoint dot_prefixes (acc : text) (s : text) : list text :=
  match s with
  | EmptyString => []
  | String a s' =>
    let rest := dot_prefixes (acc ++ String a "")%string s' in
    if Ascii.eqb a "." then rest ++ [acc] else rest
  end.

(** types.rs:2982-2996 [test_names] *)
Definition test_names (package mname name : text) : list text :=
  match name with
  | String a rest =>
    if Ascii.eqb a "." then [rest]
    else if String.eqb package "" then [dot mname name; name]
    else [dot (dot package mname) name; dot package name]
           ++ map (fun p => dot p name) (dot_prefixes "" package) ++ [name]
  | EmptyString =>
    if String.eqb package "" then [dot mname name; name]
    else [dot (dot package mname) name; dot package name]
           ++ map (fun p => dot p name) (dot_prefixes "" package) ++ [name]
  end.

Section Resolve.
Variable fm : list (text * midx).
Variable fe : list (text * eidx).

(** types.rs:2997-3005 *)
Fixpoint first_match (names : list text) : option field_type :=
  match names with
  | [] => None
  | n :: ns =>
    match lookup fm n with
    | Some i => Some (TMessage i)
    | None => match lookup fe n with
              | Some e => Some (TEnum e)
              | None => first_match ns
              end
    end
  end.

(** types.rs:2981-3007 *)
Definition resolve_name (package mname : text) (t : field_type) : gres field_type :=
  match t with
  | TMessageOrEnum name =>
    match first_match (test_names package mname name) with
    | Some t' => GOk t'
    | None => GErr (ErrNotFound name)
    end
  | _ => GOk t
  end.
(** types.rs:2974-2979: the key and the value of a map, otherwise the type *)
Definition resolve_type (package mname : text) (t : field_type) : gres field_type :=
  match t with
  | TMap k v =>
    gbind (resolve_name package mname k) (fun k' =>
    gbind (resolve_name package mname v) (fun v' => GOk (TMap k' v')))
  | _ => resolve_name package mname t
  end.

(** types.rs:2960-3013 [rec_resolve_types] *)
Definition resolve_field (package mname : text) (f : field) : gres field :=
  gbind (resolve_type package mname (f_typ f)) (fun t => GOk (set_typ f t)).
Fixpoint resolve_message (m : message) : gres message :=
  match m with
  | mkMessage name fields oneofs rnums rnames imported package messages enums module index =>
    gbind (gmap (resolve_field package name) fields) (fun fs =>
    gbind (gmap (fun o => gbind (gmap (resolve_field package name) (o_fields o))
                            (fun fs' => GOk (set_ofields o fs'))) oneofs) (fun os =>
    gbind ((fix go (l : list message) : gres (list message) :=
              match l with
              | [] => GOk []
              | x :: l' => gbind (resolve_message x) (fun y => gbind (go l') (fun ys => GOk (y :: ys)))
              end) messages) (fun ms =>
    GOk (mkMessage name fs os rnums rnames imported package ms enums module index))))
  end.
End Resolve.

(** types.rs:2957-3019 [resolve_types] *)
Definition resolve_types (d : file_descriptor) : gres file_descriptor :=
  let d' := assign_indices d in
  gbind (gmap (resolve_message (full_msgs d) (full_enums d)) (d_messages d')) (fun ms =>
  GOk (set_dmessages d' ms)).

(* ---- sanity checks ---- *)
Definition is_reserved (m : message) (f : field) : bool :=
  match m_reserved_names m with Some l => existsb (String.eqb (f_name f)) l | None => false end
  || match m_reserved_nums m with Some l => existsb (Z.eqb (f_number f)) l | None => false end.

(** types.rs:1958-1990 [Message::sanity_checks] *)
Definition field_sanity (d : file_descriptor) (m : message) (f : field) : gres unit :=
  if is_reserved m f then GErr (ErrInvalidMessage (m_name m))
  else match f_default f, f_typ f with
       | Some var, TEnum e =>
         match get_enum d e with
         | None => GErr GenPanic
         | Some en => if existsb (fun p => String.eqb (fst p) var) (en_fields en)
                      then GOk tt else GErr (ErrInvalidDefaultEnum (m_name m))
         end
       | _, _ => GOk tt
       end.
Definition message_sanity (d : file_descriptor) (m : message) : gres unit :=
  gbind (gmap (field_sanity d m) (all_fields m)) (fun _ => GOk tt).
(** types.rs:2696-2701 [sanity_checks]: top-level messages only *)
Definition sanity_checks (d : file_descriptor) : gres unit :=
  gbind (gmap (message_sanity d) (d_messages d)) (fun _ => GOk tt).

(* ---- --dont-use-cow ---- *)
Definition midx_eqb (a b : midx) : bool := if list_eq_dec Nat.eq_dec a b then true else false.
(** [==] on FieldType (derived) *)
Fixpoint ft_eqb (a b : field_type) : bool :=
  match a, b with
  | TInt32, TInt32 | TInt64, TInt64 | TUint32, TUint32 | TUint64, TUint64
  | TSint32, TSint32 | TSint64, TSint64 | TBool, TBool
  | TFixed64, TFixed64 | TSfixed64, TSfixed64 | TDouble, TDouble
  | TStringCow, TStringCow | TBytesCow, TBytesCow | TString, TString | TBytes, TBytes
  | TFixed32, TFixed32 | TSfixed32, TSfixed32 | TFloat, TFloat => true
  | TEnum e, TEnum e' => midx_eqb (e_msg e) (e_msg e') && (e_pos e =? e_pos e')%nat
  | TMessage m, TMessage m' => midx_eqb m m'
  | TMessageOrEnum n, TMessageOrEnum n' => String.eqb n n'
  | TMap k v, TMap k' v' => ft_eqb k k' && ft_eqb v v'
  | _, _ => false
  end.

(** types.rs:1332-1334 *)
Definition convert_field (from to : field_type) (f : field) : field :=
  if ft_eqb (f_typ f) from then set_typ f to else f.
(** types.rs:1337-1353 *)
Definition convert_map_field (from to : field_type) (f : field) : field :=
  set_typ f
    match f_typ f with
    | TMap k v =>
      if ft_eqb k from && ft_eqb v from then TMap to to
      else if ft_eqb k from then TMap to v
      else if ft_eqb v from then TMap k to
      else TMap k v
    | t => t
    end.
(** types.rs:1331-1358 [Message::convert_field_types] *)
Fixpoint msg_convert (from to : field_type) (m : message) : message :=
  match m with
  | mkMessage name fields oneofs rnums rnames imported package messages enums module index =>
    map_fields (convert_map_field from to) (map_fields (convert_field from to)
      (mkMessage name fields oneofs rnums rnames imported package
         (map (msg_convert from to) messages) enums module index))
  end.
(** types.rs:2659-2664 [FileDescriptor::convert_field_types] *)
Definition convert_field_types (from to : field_type) (d : file_descriptor) : file_descriptor :=
  set_dmessages d (map (msg_convert from to) (d_messages d)).
(** types.rs:2592-2595 *)
Definition drop_cows (c : config) (d : file_descriptor) : file_descriptor :=
  if c_dont_use_cow c
  then convert_field_types TBytesCow TBytes (convert_field_types TStringCow TString d)
  else d.

(* ---- packing and literal defaults ---- *)

(** types.rs:2021-2027 [set_repeated_as_packed] *)
Definition set_repeated_as_packed : message -> message :=
  map_fields (fun f => match f_packed f with
                       | None => if freq_is_repeated (f_freq f) then set_packed f (Some true) else f
                       | Some _ => f
                       end).
(** types.rs:2029-2035 [unset_packed_non_primitives] *)
Definition unset_packed_non_primitives : message -> message :=
  map_fields (fun f => if negb (is_primitive (f_typ f)) && match f_packed f with Some _ => true | None => false end
                       then set_packed f None else f).

(** [str::to_lowercase] on ASCII text *)
Definition lower (a : ascii) : ascii :=
  let n := nat_of_ascii a in
  if ((65 <=? n) && (n <=? 90))%nat then ascii_of_nat (n + 32) else a.

Definition float_literal (ty d : text) : text :=
  let l := map_chars lower d in
  if String.eqb l "inf" then ("::core::" ++ ty ++ "::INFINITY")%string
  else if String.eqb l "-inf" then ("::core::" ++ ty ++ "::NEG_INFINITY")%string
  else if String.eqb l "nan" then ("::core::" ++ ty ++ "::NAN")%string
  else (d ++ ty)%string.
Definition quoted (s : text) : text := String (ascii_of_nat 34) (s ++ String (ascii_of_nat 34) "")%string.

(** types.rs:777-806 [sanitize_default], the new text, with the relevant part of
    380-413 [rust_type].  For messages and maps, which have no defaults in
    protobuf, the text is never used; the model keeps it. *)
Definition default_literal (d : file_descriptor) (t : field_type) (s : text) : gres text :=
  match t with
  | TUint32 | TFixed32 => GOk (s ++ "u32")%string
  | TUint64 | TFixed64 => GOk (s ++ "u64")%string
  | TInt32 | TSint32 | TSfixed32 => GOk (s ++ "i32")%string
  | TInt64 | TSint64 | TSfixed64 => GOk (s ++ "i64")%string
  | TFloat => GOk (float_literal "f32" s)
  | TDouble => GOk (float_literal "f64" s)
  | TStringCow => GOk ("Cow::Borrowed(" ++ quoted s ++ ")")%string
  | TBytesCow => GOk ("Cow::Borrowed(b" ++ quoted s ++ ")")%string
  | TString => GOk (quoted s)
  | TBytes => GOk ("b" ++ quoted s)%string
  | TBool => if String.eqb s "true" then GOk s
             else if String.eqb s "false" then GOk s else GErr GenPanic
  | TEnum e =>
    match get_enum d e with
    | Some en => GOk (get_modules (en_module en) (en_imported en) (d_package d)
                      ++ en_name en ++ "::" ++ s)%string
    | None => GErr GenPanic
    end
  | TMessageOrEnum _ => GErr GenPanic
  | TMessage _ | TMap _ _ => GOk s
  end.
(** types.rs:777-806 [sanitize_default] *)
Definition sanitize_default (d : file_descriptor) (f : field) : gres field :=
  match f_default f with
  | None => GOk f
  | Some s => gbind (default_literal d (f_typ f) s) (fun s' => GOk (set_default f (Some s')))
  end.
(** types.rs:2037-2045 [sanitize_defaults] *)
Fixpoint msg_sanitize_defaults (d : file_descriptor) (m : message) : gres message :=
  match m with
  | mkMessage name fields oneofs rnums rnames imported package messages enums module index =>
    gbind (gmap (sanitize_default d) fields) (fun fs =>
    gbind (gmap (fun o => gbind (gmap (sanitize_default d) (o_fields o))
                            (fun fs' => GOk (set_ofields o fs'))) oneofs) (fun os =>
    gbind ((fix go (l : list message) : gres (list message) :=
              match l with
              | [] => GOk []
              | x :: l' => gbind (msg_sanitize_defaults d x) (fun y => gbind (go l') (fun ys => GOk (y :: ys)))
              end) messages) (fun ms =>
    GOk (mkMessage name fs os rnums rnames imported package ms enums module index))))
  end.

(** types.rs:2772-2790 [set_defaults] *)
Definition set_defaults (d : file_descriptor) : gres file_descriptor :=
  let d1 := match d_syntax d with
            | Proto3 => set_dmessages d (map set_repeated_as_packed (d_messages d))
            | Proto2 => d
            end in
  gbind (gmap (msg_sanitize_defaults d1) (d_messages d1)) (fun ms =>
  GOk (set_dmessages d1 (map unset_packed_non_primitives ms))).

(* ---- escaping ---- *)

(** types.rs:2154-2160 [Enumerator::sanitize_names] *)
Definition enum_sanitize_names (e : enumerator) : enumerator :=
  mkEnum (sanitize_keyword (en_name e))
         (map (fun p => (sanitize_keyword (fst p), snd p)) (en_fields e))
         (en_imported e) (sanitize_keyword (en_package e)) (en_module e).
(** types.rs:2268-2274 [OneOf::sanitize_names] *)
Definition oneof_sanitize_names (o : oneof) : oneof :=
  mkOneof (sanitize_keyword (o_name o))
          (map (fun f => set_fname f (sanitize_keyword (f_name f))) (o_fields o))
          (sanitize_keyword (o_package o)) (o_module o) (o_imported o).
(** types.rs:2047-2062 [Message::sanitize_names] *)
Fixpoint msg_sanitize_names (m : message) : message :=
  match m with
  | mkMessage name fields oneofs rnums rnames imported package messages enums module index =>
    mkMessage (sanitize_keyword name)
      (map (fun f => set_fname f (sanitize_keyword (f_name f))) fields)
      (map oneof_sanitize_names oneofs)
      rnums rnames imported (sanitize_keyword package)
      (map msg_sanitize_names messages)
      (map enum_sanitize_names enums) module index
  end.
(** types.rs:2792-2799 [sanitize_names] *)
Definition sanitize_names (d : file_descriptor) : file_descriptor :=
  mkDesc (d_package d) (d_syntax d)
         (map msg_sanitize_names (d_messages d))
         (map enum_sanitize_names (d_enums d)) (d_module d).
