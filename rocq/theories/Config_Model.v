(** * Model of the configuration: built-in patterns, how it reaches SimpLL, custom patterns
    (diffkemp/config.py, diffkemp/cli.py, diffkemp/simpll/simpll.py:33-163,
    diffkemp/simpll/SimpLL.cpp, diffkemp/simpll/library/FFI.cpp,
    diffkemp/semdiff/custom_pattern_config.py) *)
From Coq Require Import String Ascii ZArith Arith Bool Lia List DecimalString.
From Verif Require Import PyBase Path_Model Compare_Model.
Import ListNotations.
Open Scope list_scope.

(** ** Built-in patterns *)

(** config.py:12-61: the settings of a new [BuiltinPatterns]. *)
Definition initial_settings : dict string bool :=
  [("struct-alignment", true); ("function-splits", true); ("unused-return-types", true);
   ("kernel-prints", true); ("dead-code", true); ("numerical-macros", true); ("relocations", true);
   ("type-casts", false); ("control-flow-only", false); ("inverse-conditions", true);
   ("reordered-bin-ops", true); ("group-vars", true)]%string.

(** cli.py:149-160 the names accepted on the command line. *)
Definition cli_patterns : list string :=
  ["struct-alignment"; "function-splits"; "unused-returns"; "kernel-prints"; "dead-code"; "numerical-macros";
   "relocations"; "type-casts"; "control-flow-only"; "inverse-conditions"; "reordered-bin-ops"; "group-vars"]%string.

(** The pattern options of a command line, in order. *)
Inductive popt := EnablePattern (p : string) | DisablePattern (p : string) | EnableAll | DisableAll.

(** cli.py:163-178: argparse appends to the lists enable_pattern and disable_pattern and
    exits on a name that is not among the choices. *)
Definition parse_popt (ed : list string * list string) (o : popt) : res (list string * list string) :=
  let '(e, d) := ed in
  match o with
  | EnablePattern p => if mem p cli_patterns then Ok (e ++ [p], d) else Err SystemExit
  | DisablePattern p => if mem p cli_patterns then Ok (e, d ++ [p]) else Err SystemExit
  | EnableAll => Ok (e ++ ["all"%string], d)
  | DisableAll => Ok (e, d ++ ["all"%string])
  end.
Definition parse_popts (l : list popt) : res (list string * list string) := fold_res parse_popt ([], []) l.

(** config.py:86-91 [resolve_dependencies] *)
Definition resolve_dependencies (s : dict string bool) : dict string bool :=
  match dget s "control-flow-only"%string with
  | Some true => dset s "type-casts"%string true
  | _ => s
  end.

(** config.py:64-84 [update_from_args] *)
Definition set_all (b : bool) (s : dict string bool) : dict string bool := map (fun kv => (fst kv, b)) s.
Definition update_one (e d : list string) (kv : string * bool) : string * bool :=
  let b1 := if mem (fst kv) e then true else snd kv in
  let b2 := if mem (fst kv) d then false else b1 in
  (fst kv, b2).
Definition update_from_args (e d : list string) (s : dict string bool) : dict string bool :=
  let s1 := if mem "all"%string e then set_all true s else s in
  let s2 := if mem "all"%string d then set_all false s1 else s1 in
  resolve_dependencies (map (update_one e d) s2).

(** config.py:180-181 the settings for a command line. *)
Definition builtin_patterns (l : list popt) : res (dict string bool) :=
  do ed <- parse_popts l;
  Ok (update_from_args (fst ed) (snd ed) (resolve_dependencies initial_settings)).

(** ** SimpLL's configuration *)

(** simpll/Config.h BuiltinPatterns *)
Record patterns := mkPatterns {
  StructAlignment : bool; FunctionSplits : bool; UnusedReturnTypes : bool; KernelPrints : bool;
  DeadCode : bool; NumericalMacros : bool; Relocations : bool; TypeCasts : bool;
  ControlFlowOnly : bool; InverseConditions : bool; ReorderedBinOps : bool; GroupVars : bool }.

(** config.py:93-109 [as_ffi_struct] and FFI.cpp:63-78 [BuiltinPatternsFromC]. *)
Definition setting (s : dict string bool) (k : string) : res bool :=
  match dget s k with Some b => Ok b | None => Err KeyError end.
Definition as_ffi_struct (s : dict string bool) : res patterns :=
  do a <- setting s "struct-alignment"; do b <- setting s "function-splits";
  do c <- setting s "unused-return-types"; do d <- setting s "kernel-prints";
  do e <- setting s "dead-code"; do f <- setting s "numerical-macros";
  do g <- setting s "relocations"; do h <- setting s "type-casts";
  do i <- setting s "control-flow-only"; do j <- setting s "inverse-conditions";
  do k <- setting s "reordered-bin-ops"; do l <- setting s "group-vars";
  Ok (mkPatterns a b c d e f g h i j k l).

(** simpll/Config.cpp:33-57 what the SimpLL configuration is built from. *)
Record sconfig := mkSconfig {
  s_fun1 : string; s_fun2 : string; s_file1 : string; s_file2 : string; s_out1 : string; s_out2 : string;
  s_cache : string; s_custom : string; s_patterns : patterns; s_var : string; s_ir : bool; s_asm : bool;
  s_stacks : bool; s_ext : bool; s_verb : nat }.

(** The arguments of [run_simpll] (simpll.py:24-25) and the parts of the configuration it
    uses. *)
Record request := mkRequest {
  q_file1 : string; q_file2 : string; q_fun1 : string; q_fun2 : string; q_var : option string;
  q_suffix : option string; q_cache : option string; q_custom : option string;
  q_settings : dict string bool; q_ir : bool; q_asm : bool; q_ext : bool; q_verb : nat }.

(** [if x] of an optional string. *)
Definition truthy (x : option string) : option string :=
  match x with Some s => if String.eqb s "" then None else Some s | None => None end.

(** [s.rpartition(c)]: the parts before and after the last [c]. *)
Fixpoint rsplit (c : ascii) (s : string) : option (string * string) :=
  match s with
  | EmptyString => None
  | String x s' =>
      match rsplit c s' with
      | Some (a, b) => Some (String x a, b)
      | None => if Ascii.eqb x c then Some (""%string, s') else None
      end
  end.
Fixpoint all_dots (s : string) : bool :=
  match s with EmptyString => true | String c s' => Ascii.eqb c "." && all_dots s' end.
(** os.path.splitext (Lib/genericpath.py [_splitext]) *)
Definition splitext (p : string) : string * string :=
  match rsplit "." p with
  | None => (p, ""%string)
  | Some (b, e) =>
      if has_char "/" e then (p, ""%string)
      else let base := match rsplit "/" b with Some (_, x) => x | None => b end in
           if all_dots base then (p, ""%string) else (b, ("." ++ e)%string)
  end.
(** simpll.py:18-21 [add_suffix] *)
Definition add_suffix (file suffix : string) : string :=
  let '(name, ext) := splitext file in (name ++ "-" ++ suffix ++ ext)%string.
(** SimpLL.cpp:126-129 [addSuffix]; [substr(npos)] throws (None). *)
Definition addSuffix (file suffix : string) : option string :=
  match rsplit "." file with
  | None => None
  | Some (b, e) => Some (b ++ "-" ++ suffix ++ "." ++ e)%string
  end.
(** simpll.py:36-37 the names of the output files. *)
Definition out_name (suffix : option string) (file : string) : string :=
  match truthy suffix with Some x => add_suffix file x | None => file end.

(** [s.encode("ascii")] *)
Fixpoint is_ascii (s : string) : bool :=
  match s with EmptyString => true | String c s' => (nat_of_ascii c <? 128)%nat && is_ascii s' end.
Definition encode (s : string) : res string := if is_ascii s then Ok s else Err UnicodeEncodeError.
Definition encode_opt (x : option string) : res string :=
  match truthy x with Some s => encode s | None => Ok ""%string end.

(** simpll.py:39-85 the call through the library, and FFI.cpp:235-259 [runSimpLL].
    Simplifications: the module cache only replaces the file by its parsed form and is left
    out; strings contain no NUL. *)
Definition through_library (q : request) : res sconfig :=
  do ps <- as_ffi_struct (q_settings q);
  do cache <- encode_opt (q_cache q);
  do custom <- encode_opt (q_custom q);
  do var <- encode_opt (q_var q);
  do f1 <- encode (q_file1 q);
  do f2 <- encode (q_file2 q);
  do o1 <- encode (out_name (q_suffix q) (q_file1 q));
  do o2 <- encode (out_name (q_suffix q) (q_file2 q));
  do g1 <- encode (q_fun1 q);
  do g2 <- encode (q_fun2 q);
  Ok (mkSconfig g1 g2 f1 f2 o1 o2 cache custom ps var (q_ir q) (q_asm q) true (q_ext q) (q_verb q)).

(** simpll.py:119-163 the command line (without the name of the program). *)
Definition py_bool (b : bool) : string := if b then "True" else "False".
Definition pattern_arg (kv : string * bool) : string := ("--" ++ fst kv ++ "=" ++ py_bool (snd kv))%string.
Definition opt_arg (name : string) (x : option string) : list string :=
  match truthy x with Some v => [name; v] | None => [] end.
Definition command (q : request) : list string :=
  [q_file1 q; q_file2 q; "--print-callstacks"%string; "--fun"%string] ++
  [if String.eqb (q_fun1 q) (q_fun2 q) then q_fun1 q else (q_fun1 q ++ "," ++ q_fun2 q)%string] ++
  opt_arg "--var" (q_var q) ++
  (if q_ir q then opt_arg "--suffix" (q_suffix q) else []) ++
  opt_arg "--cache-dir" (q_cache q) ++
  (* [if config.custom_pattern_config]: the object, not its path *)
  match q_custom q with Some p => ["--custom-pattern-config"%string; p] | None => [] end ++
  map pattern_arg (q_settings q) ++
  (if q_ir q then ["--output-llvm-ir"%string] else []) ++
  (if q_asm q then ["--print-asm-diffs"%string] else []) ++
  (if q_ext q then ["--extended-stat"%string] else []) ++
  (if (0 <? q_verb q)%nat then ["--verbosity"%string; dec (q_verb q)] else []).

(** SimpLL.cpp:25-120 the options of the binary: with a value, or Boolean. *)
Inductive okind := OValue | OBool.
Definition simpll_options : dict string okind :=
  [("fun", OValue); ("var", OValue); ("output-llvm-ir", OBool); ("suffix", OValue); ("cache-dir", OValue);
   ("custom-pattern-config", OValue); ("print-callstacks", OBool); ("verbosity", OValue); ("print-asm-diffs", OBool);
   ("extended-stat", OBool);
   ("struct-alignment", OBool); ("function-splits", OBool); ("unused-return-types", OBool); ("kernel-prints", OBool);
   ("dead-code", OBool); ("numerical-macros", OBool); ("relocations", OBool); ("type-casts", OBool);
   ("control-flow-only", OBool); ("inverse-conditions", OBool); ("reordered-bin-ops", OBool); ("group-vars", OBool)]%string.

(** llvm::cl::ParseCommandLineOptions, as far as it is used: an argument starting with a
    dash is an option (one or two dashes), optionally with =value; options with a value
    otherwise take the next argument; an unknown or repeated option is an error (None);
    everything else is positional. *)
Fixpoint split_eq (s : string) : string * option string :=
  match s with
  | EmptyString => (""%string, None)
  | String c s' => if Ascii.eqb c "=" then (""%string, Some s')
                   else let '(a, b) := split_eq s' in (String c a, b)
  end.
Definition option_name (a : string) : option string :=
  match a with
  | String d1 (String d2 s) =>
      if Ascii.eqb d1 "-" then Some (if Ascii.eqb d2 "-" then s else String d2 s) else None
  | _ => None
  end.
Fixpoint cl_parse (args pos : list string) (vals : dict string string) : option (list string * dict string string) :=
  match args with
  | [] => Some (pos, vals)
  | a :: rest =>
      match option_name a with
      | None => cl_parse rest (pos ++ [a]) vals
      | Some body =>
          let '(name, v) := split_eq body in
          match dget simpll_options name with
          | None => None
          | Some k =>
              if dmem vals name then None
              else match k, v with
                   | OBool, Some x => cl_parse rest pos (dset vals name x)
                   | OBool, None => cl_parse rest pos (dset vals name "true"%string)
                   | OValue, Some x => cl_parse rest pos (dset vals name x)
                   | OValue, None => match rest with
                                     | [] => None
                                     | x :: rest' => cl_parse rest' pos (dset vals name x)
                                     end
                   end
          end
      end
  end.

(** llvm::cl::parser<bool>; options not given are false. *)
Definition cl_bool (vals : dict string string) (name : string) : option bool :=
  match dget vals name with
  | None => Some false
  | Some v => if mem v ["true"; "TRUE"; "True"; "1"; ""]%string then Some true
              else if mem v ["false"; "FALSE"; "False"; "0"]%string then Some false
              else None
  end.
Definition cl_string (vals : dict string string) (name : string) : string :=
  match dget vals name with Some v => v | None => ""%string end.
(** llvm::cl::parser<int>, for decimal numbers. *)
Definition cl_nat (vals : dict string string) (name : string) : option nat :=
  match dget vals name with
  | None => Some 0
  | Some v => match NilZero.uint_of_string v with Some u => Some (Nat.of_uint u) | None => None end
  end.

(** SimpLL.cpp:135-151 [parseFunOption] *)
Fixpoint split_comma (s : string) : option (string * string) :=
  match s with
  | EmptyString => None
  | String c s' => if Ascii.eqb c "," then Some (""%string, s')
                   else match split_comma s' with Some (a, b) => Some (String c a, b) | None => None end
  end.
Definition parse_fun (s : string) : string * string :=
  match split_comma s with Some ab => ab | None => (s, s) end.

Notation "'get' x <- m ; k" := (match m with Some x => k | None => None end)
  (at level 200, x pattern, m at level 100, k at level 200).

(** SimpLL.cpp:153-195 [main] up to the configuration; None is an error exit or a crash. *)
Definition simpll_main (args : list string) : option sconfig :=
  get pv <- cl_parse args [] [];
  let '(pos, v) := pv in
  match pos with
  | [f1; f2] =>
      get a <- cl_bool v "struct-alignment"; get b <- cl_bool v "function-splits";
      get c <- cl_bool v "unused-return-types"; get d <- cl_bool v "kernel-prints";
      get e <- cl_bool v "dead-code"; get f <- cl_bool v "numerical-macros";
      get g <- cl_bool v "relocations"; get h <- cl_bool v "type-casts";
      get i <- cl_bool v "control-flow-only"; get j <- cl_bool v "inverse-conditions";
      get k <- cl_bool v "reordered-bin-ops"; get l <- cl_bool v "group-vars";
      get ir <- cl_bool v "output-llvm-ir"; get asm <- cl_bool v "print-asm-diffs";
      get stacks <- cl_bool v "print-callstacks"; get ext <- cl_bool v "extended-stat";
      get verb <- cl_nat v "verbosity";
      let suffix := cl_string v "suffix" in
      get o1 <- (if String.eqb suffix "" then Some ""%string else addSuffix f1 suffix);
      get o2 <- (if String.eqb suffix "" then Some ""%string else addSuffix f2 suffix);
      let '(g1, g2) := parse_fun (cl_string v "fun") in
      Some (mkSconfig g1 g2 f1 f2 o1 o2 (cl_string v "cache-dir") (cl_string v "custom-pattern-config")
                      (mkPatterns a b c d e f g h i j k l) (cl_string v "var") ir asm stacks ext verb)
  | _ => None
  end.

(** ** Custom patterns *)

(** [s.lower()] (simplification: ASCII letters only). *)
Definition lower_char (c : ascii) : ascii :=
  let n := nat_of_ascii c in if (65 <=? n)%nat && (n <=? 90)%nat then ascii_of_nat (n + 32) else c.
Fixpoint lower (s : string) : string :=
  match s with EmptyString => EmptyString | String c s' => String (lower_char c) (lower s') end.

(** custom_pattern_config.py:64-72 [get_extension] *)
Definition get_extension (path : string) : string := drop 1 (lower (snd (splitext path))).

(** A loaded YAML configuration: the keys "patterns" and "on_parse_failure". *)
Record cyaml := mkCyaml { cy_patterns : option (list string); cy_on_failure : option string }.

(** The files: readable ones, whether opt accepts them, the YAML in them. *)
Record cfiles := mkCfiles { f_readable : string -> bool; f_valid : string -> bool; f_yaml : string -> cyaml }.

Record pattern_config := mkPatternConfig { pc_files : list string; pc_on_failure : string }.

(** custom_pattern_config.py:133-141 [_on_parse_failure]: an exception, or a message *)
Definition on_parse_failure (c : pattern_config) : res pattern_config :=
  if String.eqb (pc_on_failure c) "ERROR" then Err UnsupportedCustomPatternError else Ok c.

(** custom_pattern_config.py:74-94 [add_pattern] with 114-131 [_add_llvm_pattern] *)
Definition pattern_path (patterns_path : option string) (path : string) : string :=
  match truthy patterns_path with Some d => path_join d path | None => path end.
Definition add_pattern (fl : cfiles) (patterns_path : option string) (c : pattern_config) (path : string)
  : res pattern_config :=
  let full := pattern_path patterns_path path in
  if negb (f_readable fl full) then Err ValueError
  else if String.eqb (get_extension full) "ll" then
    do c1 <- (if f_valid fl full then Ok c else on_parse_failure c);
    Ok (mkPatternConfig (set_add full (pc_files c1)) (pc_on_failure c1))
  else on_parse_failure c.

(** custom_pattern_config.py:96-112 [_load_yaml] *)
Definition load_yaml (fl : cfiles) (patterns_path : option string) (c : pattern_config) (y : cyaml) : res pattern_config :=
  match cy_patterns y with
  | None => Ok c
  | Some l =>
      do c1 <- match cy_on_failure y with
               | None => Ok c
               | Some a => if mem a ["ERROR"; "WARN"]%string then Ok (mkPatternConfig (pc_files c) a) else Err ValueError
               end;
      fold_res (add_pattern fl patterns_path) c1 l
  end.

(** custom_pattern_config.py:37-53 [create_from_file]; [x not in ("ll")] is a substring
    test. *)
Definition create_from_file (fl : cfiles) (path : string) (patterns_path : option string) : res pattern_config :=
  if negb (f_readable fl path) then Err ValueError
  else
    let c := mkPatternConfig [] "ERROR" in
    if negb (contains "ll" (get_extension path)) then load_yaml fl patterns_path c (f_yaml fl path)
    else add_pattern fl patterns_path c path.
