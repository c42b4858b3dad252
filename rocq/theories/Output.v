(** Configurations and output files: the command line
    (pb-rs/src/main.rs:5-171), [ConfigBuilder] (pb-rs/src/lib.rs:49-246),
    [FileDescriptor::run] and [write_proto] with the directories and mod.rs
    files it makes (pb-rs/src/types.rs:2538-2647, 3156-3232).

    A disk says which paths are directories and what the readable files hold.
    A path is its components (Import.v): there are no links, and ".." is a name
    like any other.  Permissions and failing devices are left out: creating a
    file fails only because its directory is missing or it is a directory
    itself. *)
From Coq Require Import String Ascii Arith.
From Verif Require Import Base Schema Keywords Modules Passes Parser Pipeline Import.
Import Schema StringSyntax.
Local Open Scope string_scope.
Local Open Scope list_scope.

(* ---- paths: std::path on Unix ---- *)

Fixpoint texts_eqb (a b : list text) : bool :=
  match a, b with
  | [], [] => true
  | x :: a', y :: b' => String.eqb x y && texts_eqb a' b'
  | _, _ => false
  end.
(** [PartialEq for Path] *)
Definition path_eqb (p q : fpath) : bool :=
  Bool.eqb (fp_absolute p) (fp_absolute q) && texts_eqb (fp_parts p) (fp_parts q).

(** [Path::file_name] *)
Definition file_name (p : fpath) : option text :=
  match fp_parts p with
  | [] => None
  | ps => if String.eqb (last ps "") ".." then None else Some (last ps "")
  end.
(** [PathBuf::pop]: nothing happens without a parent *)
Definition pop (p : fpath) : fpath := match parent p with Some q => q | None => p end.
(** [PathBuf::push] *)
Definition push (p : fpath) (s : text) : fpath := join p (path_of s).
(** [Path::with_file_name] *)
Definition with_file_name (p : fpath) (s : text) : fpath :=
  match file_name p with Some _ => push (pop p) s | None => push p s end.
(** [Path::with_extension] for a nonempty extension *)
Definition with_extension (p : fpath) (e : text) : fpath :=
  match file_stem p with
  | Some s => with_file_name p (s ++ "." ++ e)%string
  | None => p
  end.
(** [Path::extension] *)
Definition extension (p : fpath) : option text :=
  match file_name p with
  | None => None
  | Some n => match rfind_char "." n with
              | None | Some O => None
              | Some i => Some (slice (i + 1) (String.length n) n)
              end
  end.

(* ---- the disk ---- *)

Record disk := mkDisk { dk_dir : fpath -> bool; dk_file : fpath -> option text }.

(** the current directory and the root are always there *)
Definition is_dir (d : disk) (p : fpath) : bool :=
  match fp_parts p with [] => true | _ => dk_dir d p end.
(** [Path::exists] *)
Definition path_exists (d : disk) (p : fpath) : bool :=
  is_dir d p || file_exists (dk_file d) p.

Definition set_file (d : disk) (p : fpath) (s : text) : disk :=
  mkDisk (dk_dir d) (fun q => if path_eqb p q then Some s else dk_file d q).

(** [File::create] followed by writing [s]; [None] is the error *)
Definition create_file (d : disk) (p : fpath) (s : text) : option disk :=
  if is_dir d (pop p) && negb (is_dir d p) then Some (set_file d p s) else None.

(** [q] is [p] or a directory above it *)
Fixpoint is_prefix (a b : list text) : bool :=
  match a, b with
  | [], _ => true
  | x :: a', y :: b' => String.eqb x y && is_prefix a' b'
  | _, [] => false
  end.
Definition above (q p : fpath) : bool :=
  Bool.eqb (fp_absolute q) (fp_absolute p) && is_prefix (fp_parts q) (fp_parts p).
Definition ancestors (p : fpath) : list fpath :=
  map (fun n => mkPath (fp_absolute p) (firstn n (fp_parts p))) (seq 1 (List.length (fp_parts p))).
(** [std::fs::create_dir_all]: fails when the path or something above it is a file *)
Definition create_dir_all (d : disk) (p : fpath) : option disk :=
  if existsb (fun q => file_exists (dk_file d) q) (ancestors p) then None
  else Some (mkDisk (fun q => above q p || dk_dir d q) (dk_file d)).

(* ---- results ---- *)

(** how [write_proto] ends *)
Inductive wres :=
| WOk
| WRead (e : read_error)   (* read_proto *)
| WGen (e : gen_error)     (* the passes *)
| WIo                      (* creating directories and files, or writing *)
| WOutputFile              (* the output path has no stem *)
| WPanic
| WFuel.

(* ---- lib.rs and types.rs: configurations ---- *)

(** types.rs:2538-2557 [Config]; [custom_rpc_generator] and [custom_includes]
    are left out *)
Record gen_config := mkGenConfig {
  g_in : fpath;
  g_out : fpath;
  g_search : list fpath;
  g_no_output : bool;
  g_headers : bool;
  g_passes : config;   (* single_module, error_cycle, dont_use_cow, add_deprecated_fields *)
  g_derive : list text;
  g_repr : option text;
  g_owned : bool;
  g_nostd : bool;
  g_hashbrown : bool;
  g_gen_info : bool;
  g_getters : bool }.

(** lib.rs:49-67 [ConfigBuilder] *)
Record builder := mkBuilder {
  b_in_files : list fpath;
  b_out_file : option fpath;
  b_include_paths : list fpath;
  b_single_module : bool;
  b_no_output : bool;
  b_error_cycle : bool;
  b_headers : bool;
  b_dont_use_cow : bool;
  b_derive : list text;
  b_repr : option text;
  b_owned : bool;
  b_nostd : bool;
  b_hashbrown : bool;
  b_gen_info : bool;
  b_add_deprecated_fields : bool;
  b_getters : bool }.

(** the errors of [ConfigBuilder::new] (errors.rs) *)
Inductive build_error :=
| NoProto
| InputFile (p : fpath)
| OutputMultipleInputs
| OutputDirectory (p : fpath)
| OutputAndOutputDir.

(** lib.rs:97-108: what is kept of the two output options *)
Definition choose_output (d : disk) (inputs : nat) (output output_dir : option fpath)
  : option fpath + build_error :=
  match output, output_dir with
  | Some o, None => if (1 <? inputs)%nat then inr OutputMultipleInputs else inl (Some o)
  | None, Some dir => if is_dir d dir then inl (Some dir) else inr (OutputDirectory dir)
  | Some _, Some _ => inr OutputAndOutputDir
  | None, None => inl None
  end.
(** lib.rs:110-113 *)
Definition with_current (paths : list fpath) : list fpath :=
  if existsb (path_eqb (path_of ".")) paths then paths else paths ++ [path_of "."].

(** lib.rs:70-122 [ConfigBuilder::new] *)
Definition new_builder (d : disk) (in_files : list fpath) (output output_dir : option fpath)
  (include_paths : list fpath) : builder + build_error :=
  match in_files with
  | [] => inr NoProto
  | _ =>
    match find (fun f => negb (path_exists d f)) in_files with
    | Some f => inr (InputFile f)
    | None =>
      match choose_output d (List.length in_files) output output_dir with
      | inr e => inr e
      | inl out =>
        inl (mkBuilder in_files out (with_current include_paths)
               false false false true false [] None false false false false false false)
      end
    end
  end.

(** lib.rs:210-218: the output path of one input; [None] is the panic of
    [out_file.file_name().unwrap()] *)
Definition out_of (d : disk) (out : option fpath) (in_file : fpath) : option fpath :=
  let o := with_extension in_file "rs" in
  match out with
  | None => Some o
  | Some ofile =>
    if is_dir d ofile
    then match file_name o with Some n => Some (push ofile n) | None => None end
    else Some ofile
  end.

(** lib.rs:220-240 *)
Definition config_for (b : builder) (in_file out_file : fpath) : gen_config :=
  mkGenConfig in_file out_file (b_include_paths b) (b_no_output b) (b_headers b)
    (mkConfig (b_dont_use_cow b) (b_add_deprecated_fields b) (b_error_cycle b) (b_single_module b))
    (b_derive b) (b_repr b) (b_owned b) (b_nostd b) (b_hashbrown b) (b_gen_info b) (b_getters b).

(** lib.rs:206-244 [ConfigBuilder::build]; [None] is a panic *)
Fixpoint build_configs (d : disk) (b : builder) (in_files : list fpath) : option (list gen_config) :=
  match in_files with
  | [] => Some []
  | f :: fs =>
    match out_of d (b_out_file b) f, build_configs d b fs with
    | Some o, Some l => Some (config_for b f o :: l)
    | _, _ => None
    end
  end.
Definition build (d : disk) (b : builder) : option (list gen_config) :=
  build_configs d b (b_in_files b).

(** main.rs:6-115: the options after clap has read them *)
Record options := mkOptions {
  o_INPUT : list text;
  o_OUTPUT : option text;
  o_OUTPUT_DIR : option text;
  o_INCLUDE_PATH : list text;
  o_SINGLE_MOD : bool;
  o_NO_OUTPUT : bool;
  o_CYCLE : bool;
  o_NO_HEADERS : bool;
  o_CUSTOM_STRUCT_DERIVE : option text;
  o_CUSTOM_REPR : option text;
  o_DONT_USE_COW : bool;
  o_OWNED : bool;
  o_NOSTD : bool;
  o_HASHBROWN : bool;
  o_GEN_INFO : bool;
  o_ADD_DEPRECATED_FIELDS : bool;
  o_GENERATE_GETTERS : bool }.

(** main.rs:152-162 [extension_matches] *)
Definition extension_matches (path expected : text) : bool :=
  match extension (path_of path) with Some x => String.eqb x expected | None => false end.
(** main.rs:10-17, 46-51: what the validators let through; INPUT is required *)
Definition options_valid (o : options) : bool :=
  match o_INPUT o with [] => false | l => forallb (fun x => extension_matches x "proto") l end
  && match o_OUTPUT o with Some x => extension_matches x "rs" | None => true end.

(** main.rs:117-149 [run], up to the configurations.  [inr None] is the panic of
    [build]. *)
Definition configure (d : disk) (o : options) : list gen_config + option build_error :=
  match new_builder d (map path_of (o_INPUT o)) (option_map path_of (o_OUTPUT o))
                    (option_map path_of (o_OUTPUT_DIR o)) (map path_of (o_INCLUDE_PATH o)) with
  | inr e => inr (Some e)
  | inl b =>
    let b' := mkBuilder (b_in_files b) (b_out_file b) (b_include_paths b)
      (o_SINGLE_MOD o) (o_NO_OUTPUT o) (o_CYCLE o) (negb (o_NO_HEADERS o)) (o_DONT_USE_COW o)
      (split_on "," (match o_CUSTOM_STRUCT_DERIVE o with Some s => s | None => "" end))
      (o_CUSTOM_REPR o) (o_OWNED o) (o_NOSTD o) (o_HASHBROWN o) (o_GEN_INFO o)
      (o_ADD_DEPRECATED_FIELDS o) (o_GENERATE_GETTERS o) in
    match build d b' with Some l => inl l | None => inr None end
  end.

(* ---- types.rs: writing ---- *)

(** types.rs:3169-3217 [update_mod_file] on a disk: the mod.rs next to [p] *)
Definition update_mod_at (d : disk) (p : fpath) : wres * disk :=
  match file_stem p with
  | None => (WPanic, d)
  | Some name =>
    let m := push (pop p) "mod.rs" in
    if is_dir d m then (WIo, d)
    else match update_mod_file name (dk_file d m) with
         | Some (Some s) =>
           match dk_file d m with
           | Some _ => (WOk, set_file d m s)
           | None => match create_file d m s with Some d' => (WOk, d') | None => (WIo, d) end
           end
         | _ => (WPanic, d)
         end
  end.

(** types.rs:2624-2631: the loop over the directories of the package *)
Fixpoint make_dirs (d : disk) (p : fpath) (segs : list text) : wres * disk * fpath :=
  match segs with
  | [] => (WOk, d, p)
  | s :: rest =>
    let q := push p s in
    if path_exists d q then make_dirs d q rest
    else match create_dir_all d q with
         | None => (WIo, d, q)
         | Some d1 =>
           match update_mod_at d1 q with
           | (WOk, d2) => make_dirs d2 q rest
           | (e, d2) => (e, d2, q)
           end
         end
  end.

(** the file that [desc.write] writes for: the number of its services, the
    descriptor as it was read, and as the passes leave it.  (An enum keeps names
    made before the passes, types.rs:2132-2152; for a service [write_rpc_services]
    calls the generator of the configuration, types.rs:3134-3137.) *)
Record input := mkInput { in_services : nat; in_read : file_descriptor; in_desc : file_descriptor }.
(** what [desc.write] puts into the file, and how it ends *)
Definition renderer := gen_config -> input -> text * wres.

(** types.rs:2603-2646: everything after the passes *)
Definition emit (render : renderer) (c : gen_config) (desc : input) (d : disk) : wres * disk :=
  let (prefix, file_package) := split_package (d_package (in_desc desc)) in
  match (if String.eqb file_package "" then get_file_stem (g_out c)
         else Some (sanitize_keyword file_package)) with
  | None => (WOutputFile, d)
  | Some stem =>
    let out := with_file_name (g_out c) (stem ++ ".rs")%string in
    match file_name out with
    | None => (WPanic, d)
    | Some file =>
      let '(r, d1, out1) :=
        if String.eqb prefix "" then (WOk, d, out)
        else match make_dirs d (pop out) (split_on "." prefix) with
             | (r, d1, dir) => (r, d1, push dir file)
             end in
      match r with
      | WOk =>
        if g_no_output c then (WOk, d1)
        else match file_name (g_in c) with
             | None => (WPanic, d1)
             | Some _ =>
               let (content, ended) := render c desc in
               match create_file d1 out1 content with
               | None => (WIo, d1)
               | Some d2 => match ended with WOk => update_mod_at d2 out1 | e => (e, d2) end
               end
             end
      | e => (e, d1)
      end
    end
  end.

(** the number of services in a file *)
Definition services (check : bool) (fs : file_system) (f : fpath) : nat :=
  match fs f with
  | Some s => match p_file check s with POk _ p => length (p_services p) | _ => O end
  | None => O
  end.
(** types.rs:2580-2602: reading and the passes *)
Definition describe (check : bool) (fuel : nat) (c : gen_config) (d : disk) : input + wres :=
  match read_proto check (dk_file d) (g_search c) fuel (g_in c) with
  | ROk desc =>
    match process (g_passes c) desc with
    | GOk desc' => inl (mkInput (services check (dk_file d) (g_in c)) desc desc')
    | GErr e => inr (WGen e)
    end
  | RErr e => inr (WRead e)
  | RPanic => inr WPanic
  | RFuel => inr WFuel
  end.

(** types.rs:2579-2647 [write_proto] *)
Definition write_proto (render : renderer) (check : bool) (fuel : nat) (c : gen_config) (d : disk) : wres * disk :=
  match describe check fuel c d with
  | inl desc => emit render c desc d
  | inr e => (e, d)
  end.

(** types.rs:2572-2577 [run] *)
Fixpoint run (render : renderer) (check : bool) (fuel : nat) (cs : list gen_config) (d : disk) : wres * disk :=
  match cs with
  | [] => (WOk, d)
  | c :: cs' =>
    match write_proto render check fuel c d with
    | (WOk, d') => run render check fuel cs' d'
    | r => r
    end
  end.

(** main.rs:117-149 and 173-188 [run] and [main]: the result, and the disk it
    leaves.  The exit code is 0 for [inl WOk], else 1, unless it is a panic. *)
Definition cli (render : renderer) (check : bool) (fuel : nat) (o : options) (d : disk)
  : (wres + build_error) * disk :=
  match configure d o with
  | inl cs => let (r, d') := run render check fuel cs d in (inl r, d')
  | inr (Some e) => (inr e, d)
  | inr None => (inl WPanic, d)
  end.
