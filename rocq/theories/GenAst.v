(** The syntax trees of the generated code: what GenText.v writes, as trees of
    RustAst.v.  GenAstFacts.v proves that the text has these trees.

    Where the generator fails, no text is written, and the trees below have
    something arbitrary instead. *)
From Coq Require Import String Ascii Arith ZArith.
From Verif Require Import Base Schema Keywords Modules Passes Gen GenCheck Lifetime RustTypes Emit Uses Output Paths GenText.
From Verif Require Import RustLex RustAst RustParse.
Import Schema StringSyntax.
Local Open Scope string_scope.
Local Open Scope list_scope.

(** ** Abbreviations *)

(** a path, with arguments for its last segment *)
Fixpoint spath (l : list text) (gs : list garg) : list pseg :=
  match l with
  | [] => []
  | x :: l' => match l' with [] => [PSeg x gs] | _ => PSeg x [] :: spath l' gs end
  end.
Definition tpath (l : list text) (gs : list garg) : rty_ := RTPath false (spath l gs).
Definition tname (x : text) : rty_ := tpath [x] [].
Definition tapp (x : text) (gs : list garg) : rty_ := tpath [x] gs.
Definition tvec (t : rty_) : rty_ := tapp "Vec" [GType t].
Definition tbytes : rty_ := RTSlice (tname "u8").
Definition tresult (t : rty_) : rty_ := tapp "Result" [GType t].
Definition tstatic_str : rty_ := RTRef (Some "static") false (tname "str").
Definition lts (b : bool) : list text := if b then ["a"] else [].
Definition lt_args (b : bool) : list garg := if b then [GLife "a"] else [].
Definition epath (l : list text) : rexp := REPath false (spath l []).
Definition var (x : text) : rexp := epath [x].
Definition bind (x : text) : rpat := RPBind false false x.
(** a lone name before a bracket or a point *)
Definition call (f : rexp) (args : list rexp) : rexp := REPost f [OCall args].
Definition method (f : text) (args : list rexp) : rop := OMethod f [] args.
Definition self_field (x : text) (ops : list rop) : rexp := REPost (var "self") (OField x :: ops).
Definition msg_field (x : text) (ops : list rop) : rexp := REPost (var "msg") (OField x :: ops).
(** more postfix operators *)
Definition post (e : rexp) (ops : list rop) : rexp :=
  match e with REPost e0 ops0 => REPost e0 (ops0 ++ ops) | _ => REPost e ops end.
Definition num (z : Z) : rexp := RELit (TNum (show z)).
Definition zero : rexp := RELit (TNum "0").
Definition str (s : text) : rexp := RELit (TStr s).
Definition ok_unit : rexp := call (var "Ok") [RETuple []].
Definition sum_of (l : list rexp) : rexp :=
  match l with [] => zero | [x] => x | x :: l' => RESum x l' end.
Definition closure (ps : list rpat) (e : rexp) : rexp := REClosure ps e.
(** [|w| w.op] *)
Definition on_writer (o : rop) : rexp := closure [bind "w"] (REPost (var "w") [o]).
(** a method without generics *)
Definition fn (pub : bool) (name : text) (self : rself) (params : list (rpat * rty_)) (ret : rty_) (body : list rstmt) : ritem_ :=
  RIFn (mkRFn pub name [] self params (Some ret) body).
Definition result (e : rexp) : rstmt := RSExpr e false.
Definition run (e : rexp) : rstmt := RSExpr e true.
Definition or_else {A} (x : gres A) (a : A) : A := match x with GOk b => b | GErr _ => a end.

(** the tokens of a text, and the expression that a text stands for *)
Definition tokens_of (s : text) : list token := match lex s with Some ts => ts | None => [] end.
Definition exp_of (s : text) : rexp :=
  match pexp (100 * S (length (tokens_of s))) true (tokens_of s) with Some (e, []) => e | _ => zero end.

Section Ast.
Variable g : gen_config.
Let c : config := g_passes g.
Variable d d0 : file_descriptor.

(** ** Types: types.rs:231-515 *)

(** types.rs:315-344 [singular_field_defaults] *)
Definition singular_default_exp (t : field_type) : rexp :=
  match t with
  | TInt32 | TSint32 | TSfixed32 => RELit (TNum "0i32")
  | TInt64 | TSint64 | TSfixed64 => RELit (TNum "0i64")
  | TUint32 | TFixed32 => RELit (TNum "0u32")
  | TUint64 | TFixed64 => RELit (TNum "0u64")
  | TBool => REBool false
  | TFloat => RELit (TNum "0f32")
  | TDouble => RELit (TNum "0f64")
  | TStringCow => call (epath ["Cow"; "Borrowed"]) [str ""]
  | TString => REPost (str "") [method "to_string" []]
  | TBytesCow => call (epath ["Cow"; "Borrowed"]) [RELit (TBStr "")]
  | TBytes => call (REPath false [PSeg "Vec" [GType (tname "u8")]; PSeg "new" []]) []
  | TEnum q => match get_enum d0 q with
               | Some e => match qualified_value e with Some p => epath p | None => zero end
               | None => zero
               end
  | TMessage i => match get_message d i with
                  | Some m => call (epath (message_path d m ++ ["default"])) []
                  | None => zero
                  end
  | TMap _ _ | TMessageOrEnum _ => zero
  end.

(** types.rs:380-413 [rust_type] *)
Fixpoint type_ast (t : field_type) : rty_ :=
  match t with
  | TInt32 | TSint32 | TSfixed32 => tname "i32"
  | TInt64 | TSint64 | TSfixed64 => tname "i64"
  | TUint32 | TFixed32 => tname "u32"
  | TUint64 | TFixed64 => tname "u64"
  | TDouble => tname "f64"
  | TFloat => tname "f32"
  | TStringCow => tapp "Cow" [GLife "a"; GType (tname "str")]
  | TBytesCow => tapp "Cow" [GLife "a"; GType tbytes]
  | TString => tname "String"
  | TBytes => tvec (tname "u8")
  | TBool => tname "bool"
  | TEnum q => match get_enum d q with Some e => tpath (enum_path d e) [] | None => RTInfer end
  | TMessage i => match get_message d i with
                  | Some m => tpath (message_path d m) (lt_args (or_else (message_has_lifetime c d (lifetime_fuel d) [] m) false))
                  | None => RTInfer
                  end
  | TMap k v => tapp "KVMap" [GType (type_ast k); GType (type_ast v)]
  | TMessageOrEnum _ => RTInfer
  end.

(** types.rs:416-449 [read_fn]: the second of the two expressions, which
    borrows, and the first, which is used in a [Box] *)
Definition read_exp (t : field_type) : rexp :=
  let m := method ("read_" ++ proto_type t)%string [var "bytes"] in
  REPost (var "r")
    match t with
    | TMessage i => match get_message d i with
                    | Some x => [OMethod "read_message" [GType (tpath (message_path d x) [])] [var "bytes"]; OTry]
                    | None => [OTry]
                    end
    | TStringCow | TBytesCow => [m; method "map" [epath ["Cow"; "Borrowed"]]; OTry]
    | TString | TBytes => [m; OTry; method "to_owned" []]
    | _ => [m; OTry]
    end.
Definition read_boxed_exp (t : field_type) : rexp :=
  match t with
  | TStringCow | TBytesCow | TString | TBytes => REPost (var "r") [method ("read_" ++ proto_type t)%string [var "bytes"]]
  | _ => read_exp t
  end.

(** types.rs:451-476 [get_size]: the summands *)
Fixpoint size_terms (t : field_type) (s : rexp) : list rexp :=
  match t with
  | TInt32 | TInt64 | TUint32 | TUint64 | TBool | TEnum _ =>
    [call (var "sizeof_varint") [RECast (REUn UDeref (REParen (REUn URef s))) (tname "u64")]]
  | TSint32 => [call (var "sizeof_sint32") [REUn UDeref (REParen (REUn URef s))]]
  | TSint64 => [call (var "sizeof_sint64") [REUn UDeref (REParen (REUn URef s))]]
  | TFixed64 | TSfixed64 | TDouble => [RELit (TNum "8")]
  | TFixed32 | TSfixed32 | TFloat => [RELit (TNum "4")]
  | TStringCow | TBytesCow => [call (var "sizeof_len") [REPost (REParen (REUn URef s)) [method "len" []]]]
  | TString | TBytes => [call (var "sizeof_len") [post s [method "len" []]]]
  | TMessage _ => [call (var "sizeof_len") [REPost (REParen s) [method "get_size" []]]]
  | TMap k v => RELit (TNum "2") :: size_terms k (var "k") ++ size_terms v (var "v")
  | TMessageOrEnum _ => [zero]
  end.

(** types.rs:478-515 [get_write] *)
Fixpoint write_op (t : field_type) (s : rexp) (boxed : bool) : rop :=
  match t with
  | TEnum _ => method "write_enum" [RECast (REUn UDeref (REUn URef s)) (tname "i32")]
  | TInt32 | TSint32 | TInt64 | TSint64 | TUint32 | TUint64 | TBool
  | TFixed64 | TSfixed64 | TDouble | TFixed32 | TSfixed32 | TFloat =>
    method ("write_" ++ proto_type t)%string [REUn UDeref (REUn URef s)]
  | TStringCow | TString => method "write_string" [s]
  | TBytesCow | TBytes => method "write_bytes" [s]
  | TMessage _ => method "write_message" [if boxed then REUn URef (REUn UDeref (REParen s)) else s]
  | TMap k v =>
    method "write_map"
      [sum_of (size_terms (TMap k v) zero);
       num (gen_tag 1 k false); on_writer (write_op k (var "k") false);
       num (gen_tag 2 v false); on_writer (write_op v (var "v") false)]
  | TMessageOrEnum _ => OTry
  end.

(** ** Fields: types.rs:529-1241 *)

(** types.rs:658-668 [rust_type_incl_non_cow] *)
Definition const_type (f : field) : rty_ :=
  match f_typ f with
  | TString => RTRef None false (tname "str")
  | TBytes => RTRef None false tbytes
  | t => type_ast t
  end.
(** types.rs:594-631 [write_getter] *)
Definition getter_items (f : field) : list ritem_ :=
  if negb (must_generate_getter g d f) then [] else
  let cow := is_cow (f_typ f) in
  let default := epath ["Self"; const_name f] in
  [fn true ("get_" ++ f_name f)%string (SelfRef None false) [] (if cow then RTRef None false (const_type f) else const_type f)
    [result
       match f_typ f with
       | TString =>
         REUn URef (self_field (f_name f) [method "as_ref" []; method "map" [closure [bind "s"] (REPost (var "s") [method "as_str" []])];
                                           method "unwrap_or" [default]])
       | TBytes =>
         REUn URef (self_field (f_name f) [method "as_ref" []; method "map" [closure [bind "s"] (REPost (var "s") [method "as_slice" []])];
                                           method "unwrap_or" [default]])
       | _ =>
         let e := self_field (f_name f) [method "as_ref" []; method "unwrap_or" [REUn URef default]] in
         if negb cow then REUn UDeref e else e
       end]].
(** types.rs:670-693 [write_custom_default] *)
Definition const_items (f : field) : list ritem_ :=
  if negb (can_write_default_const (d_syntax d) c f) then [] else
  match f_default f with
  | Some s => [RIConst true (const_name f) (const_type f) (exp_of s)]
  | None => []
  end.
(** types.rs:718-771 [get_field_default] *)
Definition default_exp (f : field) : rexp :=
  match generated_type_of (f_freq f) with
  | SingularType =>
    if f_boxed f then var "None"
    else if freq_is_optional (f_freq f) then var "None"
    else match f_default f with
         | Some s => match f_typ f with
                     | TString => post (exp_of s) [method "to_string" []]
                     | TBytes => post (exp_of s) [method "to_vec" []]
                     | _ => exp_of s
                     end
         | None => singular_default_exp (f_typ f)
         end
  | ArrayLikeType =>
    if f_is_packed f && is_fixed_size (f_typ f) && negb (c_dont_use_cow c)
    then call (epath ["PackedFixed"; "from"]) [call (epath ["Vec"; "new"]) []] else call (epath ["Vec"; "new"]) []
  | MapType => call (epath ["HashMap"; "new"]) []
  end.
Definition hidden (f : field) : bool := f_deprecated f && negb (c_add_deprecated_fields c).
(** types.rs:695-716 [write_default] *)
Definition field_inits (f : field) : list rinit :=
  if hidden f then [] else [RInit (f_name f) (Some (default_exp f))].
(** types.rs:812-837 [get_type] *)
Definition field_type_ast (f : field) : rty_ :=
  let t := type_ast (f_typ f) in
  if f_boxed f then tapp "Option" [GType (tapp "Box" [GType t])] else
  match generated_type_of (f_freq f) with
  | SingularType => if freq_is_optional (f_freq f) then tapp "Option" [GType t] else t
  | ArrayLikeType =>
    if f_is_packed f && is_fixed_size (f_typ f) && negb (c_dont_use_cow c)
    then tapp "PackedFixed" [GLife "a"; GType t] else tvec t
  | MapType => t
  end.
(** types.rs:839-855 [write_definition] *)
Definition deprecated_attr (f : field) : list rattr := if f_deprecated f then [RAttr "deprecated" None] else [].
Definition struct_fields (f : field) : list rfield :=
  if hidden f then [] else [mkRField (deprecated_attr f) true (f_name f) (field_type_ast f)].
(** types.rs:857-935 [write_match_tag] *)
Definition tag_pattern (f : field) : rpat := RPCon ["Ok"] [RPNum false (show (field_tag f))].
Definition some (e : rexp) : rexp := call (var "Some") [e].
Definition read_closure (t : field_type) : rexp := closure [bind "r"; bind "bytes"] (call (var "Ok") [read_exp t]).
Definition read_arms (f : field) : list rarm :=
  if hidden f then [] else
  let val := read_exp (f_typ f) in
  let assign e := REAssign (msg_field (f_name f) []) e in
  let arm e := [RArm (tag_pattern f) e true] in
  if f_boxed f then arm (assign (some (call (epath ["Box"; "new"]) (if freq_is_map (f_freq f) then [] else [read_boxed_exp (f_typ f)])))) else
  match generated_type_of (f_freq f) with
  | SingularType => if freq_is_optional (f_freq f) then arm (assign (some val)) else arm (assign val)
  | ArrayLikeType =>
    if f_is_packed f then
      if is_fixed_size (f_typ f) then arm (assign (REPost (var "r") [method "read_packed_fixed" [var "bytes"]; OTry]))
      else arm (assign (REPost (var "r") [method "read_packed" [var "bytes"; read_closure (f_typ f)]; OTry]))
    else arm (msg_field (f_name f) [method "push" [val]])
  | MapType =>
    match f_typ f with
    | TMap k v =>
      [RArm (tag_pattern f)
         (REBlock
            [RSLet (RPTuple [bind "key"; bind "value"])
               (REPost (var "r") [method "read_map" [var "bytes"; read_closure k; read_closure v]; OTry]);
             run (msg_field (f_name f) [method "insert" [var "key"; var "value"]])]) false]
    | _ => []
    end
  end.

(** types.rs:961-971 [get_size_addition] *)
Definition tag_size (f : field) : rexp := num (gen_sizeof_varint (field_tag f)).
Definition size_addition_terms (f : field) (s : rexp) : list rexp := tag_size f :: size_terms (f_typ f) s.
Definition option_pat (f : field) : rpat := if f_boxed f || negb (is_primitive (f_typ f)) then bind "m" else RPRef (bind "m").
Definition deref_pat (t : field_type) (x : text) : rpat := if need_to_dereference t then RPRef (bind x) else bind x.
Definition sum_usize : rop := OMethod "sum" [GType (tname "usize")] [].
(** types.rs:937-1049 [write_get_size]: the summands *)
Definition field_size_terms (f : field) : list rexp :=
  if hidden f then [] else
  let self ops := self_field (f_name f) ops in
  match generated_type_of (f_freq f) with
  | SingularType =>
    if has_presence f then
      if freq_is_optional (f_freq f)
      then [self [method "as_ref" []; method "map_or" [zero; closure [option_pat f] (sum_of (size_addition_terms f (var "m")))]]]
      else size_addition_terms f (self [])
    else [REIf (RECmp true (self []) (default_exp f)) [result zero] (Some [result (sum_of (size_addition_terms f (self [])))])]
  | ArrayLikeType =>
    if f_is_packed f then
      [REIf (self [method "is_empty" []]) [result zero]
         (Some [result (RESum (tag_size f)
            [call (var "sizeof_len")
               [match wire_type_num_non_packed (f_typ f) with
                | 1%Z => REMul (self [method "len" []]) (RELit (TNum "8"))
                | 5%Z => REMul (self [method "len" []]) (RELit (TNum "4"))
                | _ => self [method "iter" []; method "map" [closure [RPRef (bind "s")] (sum_of (size_terms (f_typ f) (var "s")))]; sum_usize]
                end]])])]
    else
      [match wire_type_num_non_packed (f_typ f) with
       | 1%Z => REMul (REParen (RESum (tag_size f) [RELit (TNum "8")])) (self [method "len" []])
       | 5%Z => REMul (REParen (RESum (tag_size f) [RELit (TNum "4")])) (self [method "len" []])
       | _ => self [method "iter" [];
                    method "map" [closure [deref_pat (f_typ f) "s"] (sum_of (tag_size f :: size_terms (f_typ f) (var "s")))]; sum_usize]
       end]
  | MapType =>
    match f_typ f with
    | TMap k v =>
      [self [method "iter" [];
             method "map" [closure [RPTuple [deref_pat k "k"; deref_pat v "v"]]
                             (RESum (tag_size f) [call (var "sizeof_len") [sum_of (size_terms (f_typ f) zero)]])]; sum_usize]]
    | _ => []
    end
  end.

(** types.rs:1116-1156 [apply_unwrapping_code] *)
Definition unwrapping_exp (f : field) (equating_cows : bool) (s : rexp) : rexp :=
  let core := if f_boxed f then REUn UDeref (REParen s) else s in
  let core := if negb (need_to_dereference (f_typ f)) && negb (is_cow (f_typ f))
                 && negb (freq_is_optional (f_freq f)) && negb (is_non_cow_string_or_byte (f_typ f))
              then REUn URef core else core in
  if negb equating_cows then
    if is_cow (f_typ f) || is_non_cow_string_or_byte (f_typ f) then REUn URef core else core
  else core.
(** types.rs:1158-1164 [get_write_method] *)
Definition write_with_tag (f : field) (o : rop) (ops : list rop) : rexp :=
  REPost (var "w") (method "write_with_tag" [num (field_tag f); on_writer o] :: ops).
Definition write_method_exp (f : field) (s : rexp) (ops : list rop) : rexp :=
  write_with_tag f (write_op (f_typ f) s (f_boxed f)) ops.
(** types.rs:1080-1241 [write_write] *)
Definition field_writes (f : field) : list rstmt :=
  if hidden f then [] else
  let self ops := self_field (f_name f) ops in
  match generated_type_of (f_freq f) with
  | SingularType =>
    let m_core := unwrapping_exp f false (var "m") in
    if has_presence f then
      if freq_is_optional (f_freq f)
      then [run (self [method "as_ref" []; method "map_or" [ok_unit; closure [option_pat f] (write_method_exp f m_core [])]; OTry])]
      else [run (write_method_exp f (unwrapping_exp f false (self [])) [OTry])]
    else [result (REIf (RECmp false (unwrapping_exp f true (self [])) (default_exp f))
                    [run (write_method_exp f (unwrapping_exp f false (self [])) [OTry])] None)]
  | ArrayLikeType =>
    if f_is_packed f then
      if is_fixed_size (f_typ f)
      then [run (REPost (var "w") [method "write_packed_fixed_with_tag" [num (field_tag f); REUn URef (self [])]; OTry])]
      else [run (REPost (var "w")
              [method "write_packed_with_tag"
                 [num (field_tag f); REUn URef (self []);
                  closure [bind "w"; RPRef (bind "m")] (REPost (var "w") [write_op (f_typ f) (var "m") (f_boxed f)]);
                  REUn URef (closure [RPRef (bind "m")] (sum_of (size_terms (f_typ f) (var "m"))))]; OTry])]
    else
      let s := if need_to_dereference (f_typ f) then REUn UDeref (var "s") else var "s" in
      [result (REFor (bind "s") (REUn URef (self [])) [run (write_with_tag f (write_op (f_typ f) s (f_boxed f)) [OTry])])]
  | MapType =>
    match f_typ f with
    | TMap k v =>
      [result (REFor (RPTuple [deref_pat k "k"; deref_pat v "v"]) (self [method "iter" []])
                 [run (write_with_tag f (write_op (f_typ f) zero false) [OTry])])]
    | _ => []
    end
  end.

(** ** Oneofs: types.rs:2240-2535 *)
Definition oneof_name (o : oneof) : text := ("OneOf" ++ o_name o)%string.
Definition oneof_lt (o : oneof) : bool := or_else (oneof_has_lifetime c d o) false.
(** types.rs:2241-2253 [write_default] *)
Definition oneof_init (o : oneof) : rinit := RInit (o_name o) (Some (epath (oneof_path d o ++ ["None"]))).
Definition derives (l : list token) : rattr := RAttr "derive" (Some l).
Definition idents (l : list text) : list token := comma_sep RustAst.word l.
(** types.rs:2283-2324 [write_definition] *)
Definition oneof_variant (o : oneof) (f : field) : list rvariant :=
  if hidden f then [] else
  let t := type_ast (f_typ f) in
  [mkRVariant (deprecated_attr f) (f_name f) (VOne (if f_boxed f then tapp "Box" [GType t] else t))].
Definition default_impl (generics : list text) (t : rty_) (e : rexp) : ritem_ :=
  RIImpl [] generics (Some (tname "Default")) t [fn false "default" NoSelf [] (tname "Self") [result e]].
(** types.rs:2275-2371 *)
Definition oneof_items (o : oneof) : list ritem_ :=
  [RIEnum [derives (idents ["Debug"; "PartialEq"; "Clone"])] (oneof_name o) (lts (oneof_lt o))
     (flat_map (oneof_variant o) (o_fields o) ++ [mkRVariant [] "None" VUnit]);
   default_impl (lts (oneof_lt o)) (tapp (oneof_name o) (lt_args (oneof_lt o))) (epath [oneof_name o; "None"])].
(** types.rs:2373-2397 [write_message_definition] *)
Definition oneof_field (o : oneof) : rfield :=
  mkRField [] true (o_name o) (tpath (oneof_path d o) (lt_args (oneof_lt o))).
(** types.rs:2399-2436 [write_match_tag] *)
Definition oneof_read_arms (o : oneof) : list rarm :=
  map (fun f =>
    let val := if f_boxed f then call (epath ["Box"; "new"]) [read_boxed_exp (f_typ f)] else read_exp (f_typ f) in
    RArm (tag_pattern f) (REAssign (msg_field (o_name o) []) (call (epath (oneof_path d o ++ [f_name f])) [val])) true)
    (oneof_shown g o).
(** types.rs:2438-2491 [write_get_size] *)
Definition oneof_pattern (o : oneof) (f : field) (p : rpat) : rpat := RPCon (oneof_path d o ++ [f_name f]) [p].
Definition oneof_none (o : oneof) : rpat := RPPath (oneof_path d o ++ ["None"]).
Definition oneof_size (o : oneof) : rexp :=
  REMatch (REUn URef (self_field (o_name o) []))
    (map (fun f =>
       if is_fixed_size (f_typ f)
       then RArm (oneof_pattern o f RPWild) (sum_of (tag_size f :: size_terms (f_typ f) zero)) true
       else if need_to_dereference (f_typ f)
       then RArm (oneof_pattern o f (bind "m")) (sum_of (tag_size f :: size_terms (f_typ f) (REUn UDeref (var "m")))) true
       else RArm (oneof_pattern o f (RPBind true false "m")) (sum_of (tag_size f :: size_terms (f_typ f) (var "m"))) true)
       (oneof_shown g o)
     ++ [RArm (oneof_none o) zero true]).
(** types.rs:2493-2535 [write_write] *)
Definition oneof_write (o : oneof) : rstmt :=
  result (REMatch (REUn URef (self_field (o_name o) []))
    (map (fun f =>
       let m := if need_to_dereference (f_typ f) || f_boxed f then REUn UDeref (var "m") else var "m" in
       RArm (oneof_pattern o f (bind "m")) (REBlock [result (write_with_tag f (write_op (f_typ f) m (f_boxed f)) [OTry])]) true)
       (oneof_shown g o)
     ++ [RArm (oneof_none o) (REBlock []) true])).

(** ** Enums: types.rs:2163-2239 *)
Definition negative (z : Z) : bool := (z <? 0)%Z.
Definition enum_definition (e : enumerator) : ritem_ :=
  RIEnum [derives (idents ["Debug"; "PartialEq"; "Eq"; "Clone"; "Copy"])] (en_name e) []
    (map (fun f => mkRVariant [] (fst f) (VNum (negative (snd f)) (show (Z.abs (snd f))))) (en_fields e)).
Definition enum_default_value (e0 : enumerator) : rexp :=
  match en_fields e0 with (v, _) :: _ => epath [en_name e0; v] | [] => zero end.
Definition from_impl (e : enumerator) (generics : list text) (t : rty_) (x : text) (arms : list rarm) : ritem_ :=
  RIImpl [] generics (Some (tapp "From" [GType t])) (tname (en_name e))
    [fn false "from" NoSelf [(bind x, t)] (tname "Self")
       [result (REMatch (var x) (arms ++ [RArm RPWild (call (epath ["Self"; "default"]) []) true]))]].
Definition enum_impls (e e0 : enumerator) : list ritem_ :=
  let value f := epath [en_name e; fst f] in
  [default_impl [] (tname (en_name e)) (enum_default_value e0);
   from_impl e [] (tname "i32") "i"
     (map (fun f => RArm (RPNum (negative (snd f)) (show (Z.abs (snd f)))) (value f) true) (en_fields e));
   from_impl e ["a"] (RTRef (Some "a") false (tname "str")) "s"
     (map (fun f => RArm (RPStr (fst f)) (value f) true) (en_fields e))].
(** types.rs:2163-2178 [Enumerator::write] *)
Definition enum_items (e e0 : enumerator) : list ritem_ :=
  enum_definition e :: match en_fields e with [] => [] | _ => enum_impls e e0 end.

(** ** Messages: types.rs:1283-1956 *)
Definition own_lt (m : message) : bool := or_else (own_lifetime g d m) false.
Definition own_type (m : message) : rty_ := tapp (m_name m) (lt_args (own_lt m)).
Definition inherent_impl (m : message) (items : list ritem_) : ritem_ := RIImpl [] (lts (own_lt m)) None (own_type m) items.
(** types.rs:1284-1329 [write_default_consts] *)
Definition consts_items (m : message) : list ritem_ :=
  match d_syntax d with
  | Proto3 => []
  | Proto2 =>
    if negb (existsb (can_write_default_const (d_syntax d) c) (m_fields m)) then []
    else [inherent_impl m (flat_map const_items (m_fields m))]
  end.
(** types.rs:1401-1455 [write_common_uses] *)
Definition kv_alias (map_type : text) : ritem_ :=
  RIAlias "KVMap" ["K"; "V"] (tapp map_type [GType (tname "K"); GType (tname "V")]).
Definition unless {A} (b : bool) (l : list A) : list A := if b then [] else l.
Definition only {A} (b : bool) (l : list A) : list A := if b then l else [].
Definition common_uses (ms : list message) : list ritem_ :=
  only (g_nostd g) [RIUse ["alloc"; "vec"] (UName "Vec")]
  ++ (if negb (c_dont_use_cow c) then
        only (existsb (fun m => existsb (fun f => has_cow (f_typ f) || (f_is_packed f && is_fixed_size (f_typ f))) (all_fields m)) ms)
          [RIUse [if g_nostd g then "alloc" else "std"; "borrow"] (UName "Cow")]
      else only (g_nostd g && existsb (fun m => existsb (fun f => has_bytes_and_string (f_typ f)) (all_fields m)) ms)
             [RIUse ["alloc"; "borrow"] (UName "ToOwned")])
  ++ only (g_nostd g && or_else (any_lifetime g d ms) false) [RIUse ["alloc"; "boxed"] (UName "Box")]
  ++ only (existsb (fun m => existsb (fun f => type_is_map (f_typ f)) (all_fields m)) (filter (fun m => negb (m_imported m)) ms))
       (if g_hashbrown g then [RIUse ["hashbrown"] (UName "HashMap"); kv_alias "HashMap"]
        else if g_nostd g then [RIUse ["alloc"; "collections"] (UName "BTreeMap"); kv_alias "BTreeMap"]
        else [RIUse ["std"; "collections"] (UName "HashMap"); kv_alias "HashMap"]).
(** types.rs:1457-1480 [write_getters] *)
Definition getters_items (m : message) : list ritem_ := [inherent_impl m (flat_map getter_items (m_fields m))].
(** types.rs:1577-1629 [write_definition] *)
Definition message_attrs (m : message) : list rattr :=
  [RAttr "allow" (Some [TWord "clippy"; TSym "::"; TWord "derive_partial_eq_without_eq"]);
   derives (tokens_of (derive_text g d m ++ "Debug, PartialEq, Clone")%string)]
  ++ match g_repr g with Some r => [RAttr "repr" (Some (tokens_of r))] | None => [] end.
Definition definition_item (m : message) : ritem_ :=
  if is_unit m then RIStruct (message_attrs m) true (m_name m) [] []
  else RIStruct (message_attrs m) true (m_name m) (lts (own_lt m)) (flat_map struct_fields (m_fields m) ++ map oneof_field (m_oneofs m)).
(** types.rs:1631-1667 [write_impl_default] *)
Definition message_default (m : message) : ritem_ :=
  let inits := flat_map field_inits (m_fields m) ++ map oneof_init (m_oneofs m) in
  let self := [PSeg "Self" []] in
  if is_unit m then default_impl [] (tname (m_name m)) (REStruct self [] false)
  else default_impl (lts (own_lt m)) (own_type m) (REStruct self inits match inits with [] => false | _ => true end).
(** types.rs:1669-1691 [write_impl_message_info] *)
Definition path_const (m : message) : ritem_ :=
  RIConst false "PATH" tstatic_str (str (m_module m ++ "." ++ m_name m)%string).
Definition message_info (m : message) : ritem_ :=
  RIImpl [] (lts (own_lt m)) (Some (tname "MessageInfo")) (own_type m) [path_const m].
(** types.rs:1693-1751 [write_impl_message_read] *)
Definition from_reader_fn (bytes : rpat) (lt : option text) (body : list rstmt) : ritem_ :=
  fn false "from_reader" NoSelf [(bind "r", RTRef None true (tname "BytesReader")); (bytes, RTRef lt false tbytes)] (tresult (tname "Self")) body.
Definition read_body (arms : list rarm) : list rstmt :=
  [RSLet (RPBind false true "msg") (call (epath ["Self"; "default"]) []);
   result (REWhile (REUn UNot (REPost (var "r") [method "is_eof" []]))
     [result (REMatch (REPost (var "r") [method "next_tag" [var "bytes"]])
        (arms
         ++ [RArm (RPCon ["Ok"] [bind "t"]) (REBlock [run (REPost (var "r") [method "read_unknown" [var "bytes"; var "t"]; OTry])]) false;
             RArm (RPCon ["Err"] [bind "e"]) (REReturn (call (var "Err") [var "e"])) true]))]);
   result (call (var "Ok") [var "msg"])].
Definition message_read (m : message) : ritem_ :=
  RIImpl [] ["a"] (Some (tapp "MessageRead" [GLife "a"])) (if is_unit m then tname (m_name m) else own_type m)
    [if is_unit m
     then from_reader_fn RPWild None [run (REPost (var "r") [method "read_to_end" []]); result (call (var "Ok") [call (epath ["Self"; "default"]) []])]
     else from_reader_fn (bind "bytes") (Some "a")
            (read_body (flat_map read_arms (m_fields m) ++ flat_map oneof_read_arms (m_oneofs m)))].
(** types.rs:1901-1917 [write_get_size] *)
Definition get_size_fn (m : message) : ritem_ :=
  fn false "get_size" (SelfRef None false) [] (tname "usize")
    [result (sum_of (zero :: flat_map field_size_terms (m_fields m) ++ map oneof_size (m_oneofs m)))].
(** types.rs:1937-1956 [write_write_message] *)
Definition write_message_fn (m : message) : ritem_ :=
  RIFn (mkRFn false "write_message" [GpBound "W" "WriterBackend"] (SelfRef None false)
    [(bind "w", RTRef None true (tapp "Writer" [GType (tname "W")]))] (Some (tresult (RTTuple [])))
    (flat_map field_writes (m_fields m) ++ map oneof_write (m_oneofs m) ++ [result ok_unit])).
(** types.rs:1753-1778 [write_impl_message_write] *)
Definition message_write_impl (m : message) : ritem_ :=
  if is_unit m then RIImpl [] [] (Some (tname "MessageWrite")) (tname (m_name m)) []
  else RIImpl [] (lts (own_lt m)) (Some (tname "MessageWrite")) (own_type m) [get_size_fn m; write_message_fn m].

(** types.rs:1780-1899 [write_impl_owned] *)
Definition unit_method (f : text) : rop := method f [].
Definition phantom : list text := ["core"; "marker"; "PhantomPinned"].
Definition tpin (t : rty_) : rty_ := tpath ["core"; "pin"; "Pin"] [GType (tapp "Box" [GType t])].
Definition transmute (from to : rty_) (x : text) : rexp :=
  call (REPath false (spath ["core"; "mem"; "transmute"] [GType from; GType to])) [var x].
Definition error_alias : ritem_ := RIAlias "Error" [] (tpath ["quick_protobuf"; "Error"] []).
Definition let_ (x : text) (e : rexp) : rstmt := RSLet (bind x) e.
Definition let_mut (x : text) (e : rexp) : rstmt := RSLet (RPBind false true x) e.
Definition owned_items (m : message) : list ritem_ :=
  let name := m_name m in
  let inner := (name ++ "OwnedInner")%string in
  let owned := (name ++ "Owned")%string in
  let static := tapp name [GLife "static"] in
  let with_a := tapp name [GLife "a"] in
  let bytes := tvec (tname "u8") in
  let proto_of := [OField "inner"; OField "proto"; unit_method "as_ref"; unit_method "unwrap"] in
  [RIStruct [derives [TWord "Debug"]] false inner []
     [mkRField [] false "buf" bytes; mkRField [] false "proto" (tapp "Option" [GType static]);
      mkRField [] false "_pin" (tpath phantom [])];
   RIImpl [] [] None (tname inner)
     [fn false "new" NoSelf [(bind "buf", bytes)] (tresult (tpin (tname "Self")))
        [let_ "inner" (REStruct [PSeg "Self" []]
           [RInit "buf" None; RInit "proto" (Some (var "None")); RInit "_pin" (Some (epath phantom))] true);
         let_mut "pinned" (call (epath ["Box"; "pin"]) [var "inner"]);
         let_mut "reader" (call (epath ["BytesReader"; "from_bytes"]) [REUn URef (REPost (var "pinned") [OField "buf"])]);
         let_ "proto" (REPost (epath [name; "from_reader"])
           [OCall [REUn URefMut (var "reader"); REUn URef (REPost (var "pinned") [OField "buf"])]; OTry]);
         result (REUnsafe
           [let_ "proto" (transmute RTInfer (tapp name [GLife "_"]) "proto");
            run (REAssign (REPost (var "pinned") [unit_method "as_mut"; unit_method "get_unchecked_mut"; OField "proto"]) (some (var "proto")))]);
         result (call (var "Ok") [var "pinned"])]];
   RIStruct [] true owned [] [mkRField [] false "inner" (tpin (tname inner))];
   RIImpl [RAttr "allow" (Some [TWord "dead_code"])] [] None (tname owned)
     [fn true "buf" (SelfRef None false) [] (RTRef None false tbytes)
        [result (REUn URef (REPost (var "self") [OField "inner"; OField "buf"]))];
      RIFn (mkRFn true "proto" [GpLife "a"] (SelfRef (Some "a") false) [] (Some (RTRef (Some "a") false with_a))
        [let_ "proto" (REPost (var "self") proto_of);
         result (REUnsafe [result (transmute (RTRef None false static) (RTRef None false with_a) "proto")])]);
      RIFn (mkRFn true "proto_mut" [GpLife "a"] (SelfRef (Some "a") true) [] (Some (RTRef (Some "a") true with_a))
        [let_ "inner" (REPost (var "self") [OField "inner"; unit_method "as_mut"]);
         let_ "inner" (REUnsafe [result (REPost (var "inner") [unit_method "get_unchecked_mut"])]);
         let_ "proto" (REPost (var "inner") [OField "proto"; unit_method "as_mut"; unit_method "unwrap"]);
         result (REUnsafe [result (transmute RTInfer (RTRef None true with_a) "proto")])])];
   RIImpl [] [] (Some (tpath ["core"; "fmt"; "Debug"] [])) (tname owned)
     [fn false "fmt" (SelfRef None false) [(bind "f", RTRef None true (tpath ["core"; "fmt"; "Formatter"] [GLife "_"]))]
        (tpath ["core"; "fmt"; "Result"] [])
        [result (REPost (var "self") (proto_of ++ [method "fmt" [var "f"]]))]];
   RIImpl [] [] (Some (tapp "TryFrom" [GType bytes])) (tname owned)
     [error_alias;
      fn false "try_from" NoSelf [(bind "buf", bytes)] (tresult (tname "Self"))
        [result (call (var "Ok")
           [REStruct [PSeg "Self" []] [RInit "inner" (Some (REPost (epath [inner; "new"]) [OCall [var "buf"]; OTry]))] false])]];
   RIImpl [] [] (Some (tapp "TryInto" [GType bytes])) (tname owned)
     [error_alias;
      fn false "try_into" SelfValue [] (tresult bytes)
        [let_mut "buf" (call (epath ["Vec"; "new"]) []);
         let_mut "writer" (call (epath ["Writer"; "new"]) [REUn URefMut (var "buf")]);
         run (REPost (var "self") (proto_of ++ [method "write_message" [REUn URefMut (var "writer")]; OTry]));
         result (call (var "Ok") [var "buf"])]];
   RIImpl [] [] (Some (tapp "From" [GType static])) (tname owned)
     [fn false "from" NoSelf [(bind "proto", static)] (tname "Self")
        [result (REStruct [PSeg "Self" []]
           [RInit "inner" (Some (call (epath ["Box"; "pin"])
              [REStruct [PSeg inner []]
                 [RInit "buf" (Some (call (epath ["Vec"; "new"]) [])); RInit "proto" (Some (some (var "proto")));
                  RInit "_pin" (Some (epath phantom))] true]))] false)]]]
  ++ only (g_gen_info g) [RIImpl [] [] (Some (tname "MessageInfo")) (tname owned) [path_const m]].
(** types.rs:1919-1935 [write_impl_try_from] *)
Definition try_from_item (m : message) : ritem_ :=
  let slice := RTRef None false tbytes in
  RIImpl [] [] (Some (tapp "TryFrom" [GType slice])) (tname (m_name m))
    [error_alias;
     fn false "try_from" NoSelf [(bind "buf", slice)] (tresult (tname "Self"))
       [let_mut "reader" (call (epath ["BytesReader"; "from_bytes"]) [REUn URef (var "buf")]);
        result (call (var "Ok")
          [REPost (epath [m_name m; "from_reader"]) [OCall [REUn URefMut (var "reader"); REUn URef (var "buf")]; OTry]])]].

(** types.rs:1501-1548 [Message::write] *)
Definition message_items (m : message) : list ritem_ :=
  [definition_item m]
  ++ only (existsb (must_generate_const (d_syntax d) c) (m_fields m)) (consts_items m)
  ++ only (existsb (must_generate_getter g d) (m_fields m) && g_getters g) (getters_items m)
  ++ only (message_must_generate_impl_default (d_syntax d) c m) [message_default m]
  ++ [message_read m; message_write_impl m]
  ++ only (g_gen_info g) [message_info m]
  ++ only (g_owned g)
       (if or_else (message_has_lifetime c d (lifetime_fuel d) [] m) false then owned_items m else [try_from_item m]).
(** types.rs:1501-1575 [Message::write] *)
Fixpoint message_ast (m m0 : message) {struct m} : list ritem_ :=
  match m with
  | mkMessage _ _ oneofs _ _ _ _ messages enums _ _ =>
    message_items m ++
    match messages, enums, oneofs with
    | [], [], [] => []
    | _, _, _ =>
      [RIMod ("mod_" ++ m_name m)%string
         (common_uses messages
          ++ only (match messages, oneofs with [], [] => false | _, _ => true end) [RIUse ["super"] UGlob]
          ++ ((fix go (l l0 : list message) {struct l} : list ritem_ :=
                 match l, l0 with
                 | x :: l', y :: l0' => message_ast x y ++ go l' l0'
                 | _, _ => []
                 end) messages (m_messages m0))
          ++ flat_map (fun p => enum_items (fst p) (snd p)) (combine enums (m_enums m0))
          ++ flat_map oneof_items oneofs)]
    end
  end.

(** ** Files: types.rs:3019-3144 *)
Definition allow (l : list token) : rattr := RAttr "allow" (Some l).
(** types.rs:3039-3063 [write_headers] *)
Definition header_attrs : list rattr :=
  [allow [TWord "non_snake_case"]; allow [TWord "non_upper_case_globals"]; allow [TWord "non_camel_case_types"];
   allow [TWord "unused_imports"]; allow [TWord "unknown_lints"]; allow [TWord "clippy"; TSym "::"; TWord "all"]]
  ++ only (c_add_deprecated_fields c) [allow [TWord "deprecated"]]
  ++ [RAttr "cfg_attr" (Some [TWord "rustfmt"; TSym ","; TWord "rustfmt_skip"])].
(** types.rs:3068-3095 [write_uses] *)
Definition use_items : list ritem_ :=
  let convert := only (g_owned g) [RIUse ["core"; "convert"] (UList ["TryFrom"; "TryInto"])] in
  if forallb is_unit (d_messages d) then
    RIUse ["quick_protobuf"] (UList ["BytesReader"; "Result"; "MessageInfo"; "MessageRead"; "MessageWrite"]) :: convert
  else
    common_uses (d_messages d)
    ++ [RIUse ["quick_protobuf"] (UList ["MessageInfo"; "MessageRead"; "MessageWrite"; "BytesReader"; "Writer"; "WriterBackend";
                                         "Result"; "PackedFixed"; "PackedFixedIntoIter"; "PackedFixedRefIter"])]
    ++ convert ++ [RIUse ["quick_protobuf"; "sizeofs"] UGlob].
(** types.rs:3019-3037 [FileDescriptor::write] *)
Definition file_ast : rfile :=
  mkRFile (only (g_headers g) header_attrs)
    (use_items
     ++ [RIUse (repeat "super" (imports_depth (d_package d))) UGlob]
     ++ flat_map (fun p => enum_definition (fst p) :: enum_impls (fst p) (snd p))
          (filter (fun p => negb (en_imported (fst p))) (combine (d_enums d) (d_enums d0)))
     ++ flat_map (fun p => message_ast (fst p) (snd p))
          (filter (fun p => negb (m_imported (fst p))) (combine (d_messages d) (d_messages d0)))).
End Ast.
