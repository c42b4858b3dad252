(** The literals of [default] options in protobuf and the literals of Rust.

    This file is a specification: what value a text denotes in each of the two
    languages.  It does not mention the generator.

    protobuf: https://protobuf.dev/reference/protobuf/proto2-spec (intLit,
    floatLit, strLit) and the behaviour of protoc (-inf and -nan are accepted,
    the sign [+] is not).  Rust: the reference, "Literal expressions" and
    "Tokens".  Left out, in Rust: digits separated by underscores, [\u{..}] and
    the line continuation; in protobuf: [\u] and [\U]. *)
From Coq Require Import String Ascii ZArith Lia.
From Verif Require Import Base Schema RustTypes.
Import StringSyntax.
Local Open Scope string_scope.
Local Open Scope list_scope.
Local Open Scope Z_scope.

(** ** Characters *)
Definition code (a : ascii) : Z := Z.of_nat (nat_of_ascii a).
Definition digit (a : ascii) : option Z :=
  let n := code a in
  if (48 <=? n) && (n <=? 57) then Some (n - 48)
  else if (97 <=? n) && (n <=? 102) then Some (n - 87)
  else if (65 <=? n) && (n <=? 70) then Some (n - 55)
  else None.
Definition is_digit (base : Z) (a : ascii) : bool :=
  match digit a with Some d => d <? base | None => false end.
Definition quotation : ascii := "034"%char.
Definition backslash : ascii := "092"%char.

(** the longest prefix whose characters satisfy [p], and the rest *)
Fixpoint run_of (p : ascii -> bool) (s : text) : text * text :=
  match s with
  | String a r => if p a then let (x, y) := run_of p r in (String a x, y) else ("", s)
  | EmptyString => ("", "")
  end.
(** the number that digits denote *)
Fixpoint digits_from (base acc : Z) (s : text) : Z :=
  match s with
  | String a r => digits_from base (acc * base + match digit a with Some d => d | None => 0 end) r
  | EmptyString => acc
  end.
Definition digits (base : Z) (s : text) : Z := digits_from base 0 s.
Definition empty (s : text) : bool := match s with EmptyString => true | _ => false end.
Fixpoint text_length (s : text) : Z := match s with String _ r => 1 + text_length r | EmptyString => 0 end.

(** ** Constants; [CFloat neg m e] is the number m * 10^e, or its negative *)
Inductive constant :=
| CInt (z : Z)
| CFloat (neg : bool) (m e : Z)
| CInf (neg : bool)
| CNan
| CBool (b : bool)
| CStr (l : list ascii)
| CBytes (l : list ascii).

(** the exponent at the beginning of a text, and the rest of the text; it is
    the same in both languages *)
Definition exponent (s : text) : option (Z * text) :=
  match s with
  | String a r =>
    if (code a =? 101) || (code a =? 69) then
      let '(neg, r1) := match r with
                        | String b r' => if code b =? 45 then (true, r') else if code b =? 43 then (false, r') else (false, r)
                        | EmptyString => (false, r)
                        end in
      let (ds, r2) := run_of (is_digit 10) r1 in
      if empty ds then None else Some (if neg then - digits 10 ds else digits 10 ds, r2)
    else Some (0, s)
  | EmptyString => Some (0, s)
  end.

(** ** Protobuf *)

Inductive magnitude := MInt (z : Z) | MFloat (m e : Z) | MInf | MNan.

(** decimals "." [decimals] [exponent] | decimals exponent | "."decimals [exponent] *)
Definition proto_float (s : text) : option magnitude :=
  let (ds, r) := run_of (is_digit 10) s in
  match r with
  | String a r' =>
    if code a =? 46 then
      let (fs, r2) := run_of (is_digit 10) r' in
      if empty ds && empty fs then None
      else match exponent r2 with
           | Some (e, EmptyString) => Some (MFloat (digits 10 (ds ++ fs)%string) (e - text_length fs))
           | _ => None
           end
    else if empty ds then None
    else match exponent r with
         | Some (e, EmptyString) => Some (MFloat (digits 10 ds) e)
         | _ => None
         end
  | EmptyString => None
  end.
Definition all_digits (base : Z) (s : text) : bool := empty (snd (run_of (is_digit base) s)).
Definition proto_magnitude (s : text) : option magnitude :=
  if String.eqb s "inf" then Some MInf
  else if String.eqb s "nan" then Some MNan
  else match s with
       | String a r =>
         if code a =? 48 then
           match r with
           | EmptyString => Some (MInt 0)
           | String b r' =>
             if ((code b =? 120) || (code b =? 88)) && negb (empty r') && all_digits 16 r' then Some (MInt (digits 16 r'))
             else if all_digits 8 r then Some (MInt (digits 8 r))
             else proto_float s
           end
         else if all_digits 10 s then Some (MInt (digits 10 s))
         else proto_float s
       | EmptyString => None
       end.
(** the sign and the magnitude *)
Definition proto_number (s : text) : option (bool * magnitude) :=
  match s with
  | String a r => if code a =? 45 then option_map (pair true) (proto_magnitude r) else option_map (pair false) (proto_magnitude s)
  | EmptyString => None
  end.

(** the characters between the quotes *)
Definition simple_escape (a : ascii) : option ascii :=
  match code a with
  | 97 => Some "007"%char | 98 => Some "008"%char | 102 => Some "012"%char | 110 => Some "010"%char
  | 114 => Some "013"%char | 116 => Some "009"%char | 118 => Some "011"%char | 63 => Some "063"%char
  | 92 => Some "092"%char | 39 => Some "039"%char | 34 => Some "034"%char
  | _ => None
  end.
Definition byte (z : Z) : ascii := ascii_of_nat (Z.to_nat z).
Definition digit_or_0 (a : ascii) : Z := match digit a with Some d => d | None => 0 end.
Fixpoint proto_chars (s : text) : option (list ascii) :=
  match s with
  | EmptyString => Some []
  | String a r =>
    if Ascii.eqb a backslash then
      match r with
      | EmptyString => None
      | String b r' =>
        if (code b =? 120) || (code b =? 88) then
          match r' with
          | String h r1 =>
            if is_digit 16 h then
              match r1 with
              | String h' r2 =>
                if is_digit 16 h' then option_map (cons (byte (digit_or_0 h * 16 + digit_or_0 h'))) (proto_chars r2)
                else option_map (cons (byte (digit_or_0 h))) (proto_chars r1)
              | EmptyString => Some [byte (digit_or_0 h)]
              end
            else None
          | EmptyString => None
          end
        else if is_digit 8 b then
          match r' with
          | String o1 r1 =>
            if is_digit 8 o1 then
              match r1 with
              | String o2 r2 =>
                if is_digit 8 o2 then
                  option_map (cons (byte ((digit_or_0 b * 64 + digit_or_0 o1 * 8 + digit_or_0 o2) mod 256))) (proto_chars r2)
                else option_map (cons (byte (digit_or_0 b * 8 + digit_or_0 o1))) (proto_chars r1)
              | EmptyString => Some [byte (digit_or_0 b * 8 + digit_or_0 o1)]
              end
            else option_map (cons (byte (digit_or_0 b))) (proto_chars r')
          | EmptyString => Some [byte (digit_or_0 b)]
          end
        else match simple_escape b with
             | Some x => option_map (cons x) (proto_chars r')
             | None => None
             end
      end
    else if (code a =? 0) || (code a =? 10) then None
    else option_map (cons a) (proto_chars r)
  end.
(** the text up to the quote [q] that is not escaped, and the rest *)
Fixpoint until_quote (q : ascii) (s : text) : option (text * text) :=
  match s with
  | EmptyString => None
  | String a r =>
    if Ascii.eqb a q then Some ("", r)
    else if Ascii.eqb a backslash then
      match r with
      | String b r' => option_map (fun p => (String a (String b (fst p)), snd p)) (until_quote q r')
      | EmptyString => None
      end
    else option_map (fun p => (String a (fst p), snd p)) (until_quote q r)
  end.
(** one or more literals, separated by blanks; the fuel is the length *)
Fixpoint proto_string (n : nat) (s : text) : option (list ascii) :=
  match n, s with
  | S n', String q r =>
    if Ascii.eqb q quotation || Ascii.eqb q "'" then
      match until_quote q r with
      | Some (body, r') =>
        let rest := snd (run_of (fun a => code a =? 32) r') in
        match proto_chars body, (if empty rest then Some [] else proto_string n' rest) with
        | Some l, Some l' => Some (l ++ l')
        | _, _ => None
        end
      | None => None
      end
    else None
  | _, _ => None
  end.

Definition int_range (t : field_type) : option (Z * Z) :=
  match t with
  | TInt32 | TSint32 | TSfixed32 => Some (- 2 ^ 31, 2 ^ 31 - 1)
  | TInt64 | TSint64 | TSfixed64 => Some (- 2 ^ 63, 2 ^ 63 - 1)
  | TUint32 | TFixed32 => Some (0, 2 ^ 32 - 1)
  | TUint64 | TFixed64 => Some (0, 2 ^ 64 - 1)
  | _ => None
  end.
Definition unsigned (t : field_type) : bool :=
  match t with TUint32 | TFixed32 | TUint64 | TFixed64 => true | _ => false end.

(** the value of the text [s] as the default of a field of type [t]; enums are
    not treated here *)
Definition proto_constant (t : field_type) (s : text) : option constant :=
  match t with
  | TBool => if String.eqb s "true" then Some (CBool true) else if String.eqb s "false" then Some (CBool false) else None
  | TFloat | TDouble =>
    match proto_number s with
    | Some (neg, MInt z) => Some (CFloat neg z 0)
    | Some (neg, MFloat m e) => Some (CFloat neg m e)
    | Some (neg, MInf) => Some (CInf neg)
    | Some (_, MNan) => Some CNan
    | None => None
    end
  | TStringCow | TString => option_map CStr (proto_string (String.length s) s)
  | TBytesCow | TBytes => option_map CBytes (proto_string (String.length s) s)
  | _ =>
    match int_range t, proto_number s with
    | Some (lo, hi), Some (neg, MInt z) =>
      let v := if neg then - z else z in
      if (lo <=? v) && (v <=? hi) && negb (neg && unsigned t) then Some (CInt v) else None
    | _, _ => None
    end
  end.

(** ** Rust *)

(** a number without sign: its value and its suffix *)
Inductive rust_num := NInt (z : Z) (suffix : text) | NFloat (m e : Z) (suffix : text).
Definition is_int_suffix (s : text) : bool :=
  existsb (String.eqb s) ["u8"; "u16"; "u32"; "u64"; "u128"; "usize"; "i8"; "i16"; "i32"; "i64"; "i128"; "isize"].
Definition is_float_suffix (s : text) : bool := String.eqb s "f32" || String.eqb s "f64".
Definition based (base : Z) (s : text) : option rust_num :=
  let (ds, suffix) := run_of (is_digit base) s in
  if empty ds then None else if empty suffix || is_int_suffix suffix then Some (NInt (digits base ds) suffix) else None.
Definition with_exponent (ds fs s : text) : option rust_num :=
  match exponent s with
  | Some (e, suffix) => if empty suffix || is_float_suffix suffix
                        then Some (NFloat (digits 10 (ds ++ fs)%string) (e - text_length fs) suffix) else None
  | None => None
  end.
Definition decimal (s : text) : option rust_num :=
  let (ds, r) := run_of (is_digit 10) s in
  if empty ds then None else
  match r with
  | EmptyString => Some (NInt (digits 10 ds) "")
  | String a r' =>
    if code a =? 46 then
      let (fs, r2) := run_of (is_digit 10) r' in
      if empty fs then (if empty r' then Some (NFloat (digits 10 ds) 0 "") else None)
      else with_exponent ds fs r2
    else if (code a =? 101) || (code a =? 69) then with_exponent ds "" r
    else if is_int_suffix r then Some (NInt (digits 10 ds) r)
    else if is_float_suffix r then Some (NFloat (digits 10 ds) 0 r)
    else None
  end.
Definition rust_number (s : text) : option rust_num :=
  match s with
  | String a (String b r) =>
    if (code a =? 48) && (code b =? 120) then based 16 r
    else if (code a =? 48) && (code b =? 111) then based 8 r
    else if (code a =? 48) && (code b =? 98) then based 2 r
    else decimal s
  | _ => decimal s
  end.

(** the rest of a string or byte string after the opening quote; the closing
    quote is the last character *)
Fixpoint rust_chars (bytes : bool) (s : text) : option (list ascii) :=
  match s with
  | EmptyString => None
  | String a r =>
    if Ascii.eqb a quotation then (if empty r then Some [] else None)
    else if Ascii.eqb a backslash then
      match r with
      | EmptyString => None
      | String b r' =>
        if code b =? 120 then
          match r' with
          | String h (String h' r2) =>
            if is_digit 16 h && is_digit 16 h' && (bytes || (digit_or_0 h <? 8))
            then option_map (cons (byte (digit_or_0 h * 16 + digit_or_0 h'))) (rust_chars bytes r2) else None
          | _ => None
          end
        else match code b with
             | 110 => option_map (cons "010"%char) (rust_chars bytes r')
             | 114 => option_map (cons "013"%char) (rust_chars bytes r')
             | 116 => option_map (cons "009"%char) (rust_chars bytes r')
             | 48 => option_map (cons "000"%char) (rust_chars bytes r')
             | 92 => option_map (cons "092"%char) (rust_chars bytes r')
             | 39 => option_map (cons "039"%char) (rust_chars bytes r')
             | 34 => option_map (cons "034"%char) (rust_chars bytes r')
             | _ => None
             end
      end
    else if (code a =? 13) || (bytes && (128 <=? code a)) then None
    else option_map (cons a) (rust_chars bytes r)
  end.
Definition rust_str (s : text) : option (list ascii) :=
  match s with String a r => if Ascii.eqb a quotation then rust_chars false r else None | EmptyString => None end.
Definition rust_bytes (s : text) : option (list ascii) :=
  match s with
  | String b (String a r) => if (code b =? 98) && Ascii.eqb a quotation then rust_chars true r else None
  | _ => None
  end.
(** the argument of [Cow::Borrowed(..)] *)
Fixpoint strip (p s : text) : option text :=
  match p, s with
  | EmptyString, _ => Some s
  | String a p', String b s' => if Ascii.eqb a b then strip p' s' else None
  | _, _ => None
  end.
Fixpoint before_paren (s : text) : option text :=
  match s with
  | String a r => if empty r then (if Ascii.eqb a ")" then Some "" else None) else option_map (String a) (before_paren r)
  | EmptyString => None
  end.
Definition cow_argument (s : text) : option text :=
  match strip "Cow::Borrowed(" s with Some r => before_paren r | None => None end.

Definition rust_int (name : text) (lo hi : Z) (s : text) : option constant :=
  let '(neg, r) := match s with
                   | String a r => if code a =? 45 then (true, r) else (false, s)
                   | EmptyString => (false, s)
                   end in
  match rust_number r with
  | Some (NInt z suffix) =>
    let v := if neg then - z else z in
    (* [-] is not defined on unsigned numbers *)
    if (empty suffix || String.eqb suffix name) && (lo <=? v) && (v <=? hi) && negb (neg && (lo =? 0))
    then Some (CInt v) else None
  | _ => None
  end.
Definition rust_float (name s : text) : option constant :=
  if String.eqb s ("::core::" ++ name ++ "::INFINITY")%string then Some (CInf false)
  else if String.eqb s ("::core::" ++ name ++ "::NEG_INFINITY")%string then Some (CInf true)
  else if String.eqb s ("::core::" ++ name ++ "::NAN")%string then Some CNan
  else
    let '(neg, r) := match s with
                     | String a r => if code a =? 45 then (true, r) else (false, s)
                     | EmptyString => (false, s)
                     end in
    match rust_number r with
    | Some (NFloat m e suffix) => if empty suffix || String.eqb suffix name then Some (CFloat neg m e) else None
    | _ => None
    end.

(** the value of the text as a Rust constant of type [t] *)
Definition rust_constant (t : rtype) (s : text) : option constant :=
  match t with
  | YI32 => rust_int "i32" (- 2 ^ 31) (2 ^ 31 - 1) s
  | YI64 => rust_int "i64" (- 2 ^ 63) (2 ^ 63 - 1) s
  | YU32 => rust_int "u32" 0 (2 ^ 32 - 1) s
  | YU64 => rust_int "u64" 0 (2 ^ 64 - 1) s
  | YF32 => rust_float "f32" s
  | YF64 => rust_float "f64" s
  | YBool => if String.eqb s "true" then Some (CBool true) else if String.eqb s "false" then Some (CBool false) else None
  | YRef YStr => option_map CStr (rust_str s)
  | YRef (YSlice YU8) => option_map CBytes (rust_bytes s)
  | YCow YStr => match cow_argument s with Some r => option_map CStr (rust_str r) | None => None end
  | YCow (YSlice YU8) => match cow_argument s with Some r => option_map CBytes (rust_bytes r) | None => None end
  | _ => None
  end.
