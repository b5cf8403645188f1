(** * Model of building a project with the compiler wrapper (diffkemp/building/cc_wrapper.py,
    diffkemp/diffkemp.py:44-133, diffkemp/llvm_ir/wrapper_build_finder.py,
    diffkemp/utils.py:8, 82-104) *)
From Coq Require Import String Ascii ZArith Arith Bool Lia List.
From Verif Require Import PyBase Path_Model Syndiff_Model.
From Verif Require Config_Model.
Import ListNotations.
Open Scope list_scope.

(** ** The compiler wrapper *)

(** cc_wrapper.py:17-25, 93-98: the environment variables (without llvm_dis, never read). *)
Record wenv := mkWenv {
  we_db : option string; we_clang : option string; we_append : option string;
  we_drop : option string; we_debug : option string; we_link : option string }.

(** What the wrapper does to the outside: it runs a program, or appends lines to the
    database. *)
Inductive action := Run (file : string) (args : list string) | Append (db : string) (lines : list string).

(** The outside: exit statuses and existence of files may depend on everything done before
    (the list of actions, last one first).  A status covers "cannot be executed": then the
    child raises OSError and ends with a non-zero status (cc_wrapper.py:53-75, 82-88). *)
Record outside := mkOutside {
  o_cwd : string;
  o_run : list action -> string -> list string -> Z;
  o_exists : list action -> string -> bool }.

(** cc_wrapper.py:124-126 *)
Definition is_object_file (a : string) : bool := endswith a ".o" || endswith a ".lo" || endswith a ".ko".
Definition is_source_file (a : string) : bool := endswith a ".c".
(** [arg.rsplit(".", 1)[0] + ".ll"] *)
Definition to_ll (a : string) : string :=
  ((match Config_Model.rsplit "." a with Some (b, _) => b | None => a end) ++ ".ll")%string.

(** The variables of the loop in cc_wrapper.py:121-143. *)
Record phase1 := mkPhase1 {
  p_argv : list string; p_clang : string; p_sources : bool; p_output : option string }.

(** cc_wrapper.py:121-143, one iteration; [prev] is the previous argument if the index is
    greater than 1. *)
Definition phase1_step (link : string) (drop : list string) (linking : bool) (prev : option string)
    (st : phase1) (arg : string) : phase1 :=
  if mem arg drop then st
  else if opt_eqb prev (Some "-o"%string) then
    let arg1 := if is_object_file arg && negb linking then to_ll arg else arg in
    let arg2 := if negb (is_object_file arg) && linking then (arg1 ++ ".llw")%string else arg1 in
    mkPhase1 (p_argv st ++ [arg2]) (p_clang st) (p_sources st) (Some arg2)
  else if is_object_file arg && linking then
    mkPhase1 (p_argv st ++ [to_ll arg]) link (p_sources st) (p_output st)
  else if is_source_file arg && linking then
    mkPhase1 (p_argv st ++ [arg]) (p_clang st) true (p_output st)
  else mkPhase1 (p_argv st ++ [arg]) (p_clang st) (p_sources st) (p_output st).
Fixpoint phase1_loop (link : string) (drop : list string) (linking : bool) (prev : option string)
    (args : list string) (st : phase1) : phase1 :=
  match args with
  | [] => st
  | a :: args' => phase1_loop link drop linking (Some a) args' (phase1_step link drop linking prev st a)
  end.
(** cc_wrapper.py:115-149: argv[0] is "gcc", with index 0; the first argument has index 1. *)
Definition analyse (clang link : string) (drop : list string) (args : list string) : phase1 :=
  let argv := "gcc"%string :: args in
  let linking := negb (mem "-c"%string argv) in
  let st0 := phase1_step link drop linking None (mkPhase1 [] clang false None) "gcc" in
  let st := match args with
            | [] => st0
            | a :: rest => phase1_loop link drop linking (Some a) rest (phase1_step link drop linking None st0 a)
            end in
  if p_sources st && String.eqb (p_clang st) link
  then mkPhase1 (filter (fun a => negb (endswith a ".ll")) (p_argv st)) clang (p_sources st) (p_output st)
  else st.

(** cc_wrapper.py:151-159: whether clang is not run at all. *)
Definition skipped (args : list string) (output : option string) : bool :=
  match output with
  | Some f => negb (endswith f ".ll") && negb (endswith f ".llw") ||
              mem f ["conftest.ll"; "conftest.llw"]%string
  | None => false
  end || mem "conftest.c"%string ("gcc"%string :: args).

(** cc_wrapper.py:161-169: the entries for the database. *)
Definition entries (cwd link : string) (args : list string) (st : phase1) : list string :=
  match p_output st with
  | Some f => [((if String.eqb (p_clang st) link then "f:" else "o:") ++ path_join cwd f)%string]
  | None =>
      if mem "-c"%string ("gcc"%string :: args)
      then map (fun a => ("o:" ++ path_join cwd (to_ll a))%string)
               (filter (fun a => negb (endswith a ".c")) (p_argv st))
      else []
  end.

(** cc_wrapper.py:183-193 the loop removing files that do not exist. *)
Fixpoint keep_existing (ex : string -> bool) (after_o : bool) (l : list string) : list string :=
  match l with
  | [] => []
  | a :: l' =>
      (* an argument that is not kept is neither "-o" nor behind it *)
      let rest := keep_existing ex (String.eqb a "-o") l' in
      if after_o || ex a || String.eqb a "-o" then a :: rest else rest
  end.

(** cc_wrapper.py:171-193 the final command; IndexError if every argument was dropped. *)
Definition clang_command (ex : string -> bool) (link : string) (append : list string) (st : phase1)
  : res (list string) :=
  match p_argv st with
  | [] => Err IndexError
  | _ :: rest =>
      let argv := p_clang st :: rest in
      if negb (String.eqb (p_clang st) link)
      then Ok (argv ++ append ++ ["-S"; "-emit-llvm"; "-g"]%string)
      else
        let argv1 := filter (fun a => String.eqb a (p_clang st) || endswith a ".ll" || endswith a ".llw" || String.eqb a "-o") argv in
        Ok (match argv1 with
            | [] => [] (* unreachable: the first element is kept *)
            | c :: rest1 => c :: "-S"%string :: keep_existing ex false rest1
            end)
  end.

(** [entry.split(":")[1]] *)
Definition second_part (c : ascii) (s : string) : res string :=
  match split_char c s with _ :: x :: _ => Ok x | _ => Err IndexError end.

(** cc_wrapper.py:207-212: the lines written.  Simplification: the database can be opened, and
    all lines are written at once when it is closed. *)
Definition existing_entries (ex : string -> bool) (l : list string) : res (list string) :=
  fold_res (fun acc e => do p <- second_part ":" e; Ok (if ex p then acc ++ [e] else acc)) [] l.

(** cc_wrapper.py:91-214 [wrapper]: the actions (first one first) and the result. *)
Definition wrapper (o : outside) (env : wenv) (args : list string) : list action * res Z :=
  match we_db env, we_clang env, we_append env, we_drop env, we_link env with
  | Some db, Some clang, Some append, Some drop, Some link =>
      let native := Run "gcc" ("gcc"%string :: args) in
      if negb (o_run o [] "gcc" ("gcc"%string :: args) =? 0)%Z then ([native], Ok 1%Z)
      else
        let st := analyse clang link (split_char "," drop) args in
        if skipped args (p_output st) then ([native], Ok 0%Z)
        else
          match clang_command (o_exists o [native]) link (split_char "," append) st with
          | Err e => ([native], Err e)
          | Ok argv =>
              let ir := Run (p_clang st) argv in
              if negb (o_run o [native] (p_clang st) argv =? 0)%Z then ([native; ir], Ok 0%Z)
              else
                match existing_entries (o_exists o [ir; native]) (entries (o_cwd o) link args st) with
                | Err e => ([native; ir], Err e)
                | Ok lines => ([native; ir; Append db lines], Ok 0%Z)
                end
          end
  | _, _, _, _, _ => ([], Ok 1%Z)
  end.

(** The exit status of the process.  The translated (RPython) program returns the result of
    [wrapper] (cc_wrapper.py:217-218); the script calls it and ignores the result
    (cc_wrapper.py:222-223); an uncaught exception gives 1. *)
Inductive variant := Native | Script.
Definition exit_status (v : variant) (r : res Z) : Z :=
  match r, v with
  | Err _, _ => 1
  | Ok z, Native => z
  | Ok _, Script => 0
  end%Z.
(** cc_wrapper.py:28-50 [get_cc_wrapper_path]: which variant is used, given whether the
    executable is in the build directory, whether it is in PATH and whether the source file
    is executable. *)
Definition chosen_variant (in_build in_path no_native : bool) : variant :=
  if in_build && negb no_native then Native
  else if in_path && negb no_native then Native
  else Script.

(** ** The environment of the build (diffkemp.py:46-61) *)
Definition var_db := "DIFFKEMP_WRAPPER_DB_FILENAME"%string.
Definition var_clang := "DIFFKEMP_WRAPPER_CLANG"%string.
Definition var_append := "DIFFKEMP_WRAPPER_CLANG_APPEND"%string.
Definition var_drop := "DIFFKEMP_WRAPPER_CLANG_DROP"%string.
Definition var_debug := "DIFFKEMP_WRAPPER_DEBUG"%string.
Definition var_link := "DIFFKEMP_WRAPPER_LLVM_LINK"%string.

Definition joined (l : option (list string)) : string := match l with Some l => join "," l | None => ""%string end.
Definition build_environment (os_environ : dict string string) (db clang link : string)
    (append drop : option (list string)) : dict string string :=
  fold_left (fun a kv => dset a (fst kv) (snd kv)) os_environ
    [(var_db, db); (var_clang, clang); (var_append, joined append); (var_drop, joined drop); (var_link, link)].
(** What a wrapper started by the build program sees (simplification: the build program passes
    the environment on unchanged). *)
Definition seen (e : dict string string) : wenv :=
  mkWenv (dget e var_db) (dget e var_clang) (dget e var_append) (dget e var_drop) (dget e var_debug) (dget e var_link).

(** ** config.log (diffkemp.py:71-85, 87-114) *)

(** The two files config.log and config.log.bak. *)
Record logs := mkLogs { l_log : option string; l_bak : option string }.
Definition backup (s : logs) : logs := match l_log s with Some c => mkLogs None (Some c) | None => s end.
Definition restore (s : logs) : logs := match l_bak s with Some c => mkLogs (Some c) None | None => s end.
(** The whole step; [clean] is the effect of "make clean" on the two files, whose failure is
    ignored. *)
Definition clean_step (clean : logs -> logs) (s : logs) : logs := restore (clean (backup s)).

(** diffkemp.py:90-101: the command to configure again; [make_cc_setting] is CC="...". *)
Definition dollar : ascii := "$".
Fixpoint find_dollar (lines : list string) : option string :=
  match lines with
  | [] => None
  | l :: ls => if has_char dollar l then Some (strip l) else find_dollar ls
  end.
(** [s.split(sep, 1)] *)
Fixpoint split_once (sep s : string) : option (string * string) :=
  if startswith s sep then Some (""%string, PyBase.drop (String.length sep) s)
  else match s with
       | EmptyString => None
       | String c s' => match split_once sep s' with Some (a, b) => Some (String c a, b) | None => None end
       end.
Definition reconfigure_command (make_cc_setting : string) (text : string) : res (option string) :=
  match find_dollar (readlines (universal text)) with
  | None => Ok None
  | Some cmd =>
      if contains cmd make_cc_setting then Ok None
      else match split_once "$ " cmd with
           | Some (_, c) => Ok (Some (c ++ " " ++ make_cc_setting)%string)
           | None => Err IndexError
           end
  end.

(** ** Reading the database *)

(** wrapper_build_finder.py:33-36 *)
Definition read_db (text : string) : res (list string) :=
  map_res (fun line => do p <- second_part ":" line; Ok (rstrip p))
          (filter (fun line => startswith line "o:") (readlines (universal text))).

(** Characters of [\w].  Simplification: ASCII only. *)
Definition is_alpha (c : ascii) : bool :=
  let n := nat_of_ascii c in ((65 <=? n) && (n <=? 90) || (97 <=? n) && (n <=? 122))%nat.
Definition word_char (c : ascii) : bool := is_alpha c || is_digit c || Ascii.eqb c "_".
(** [(\w+)\(] at the start of [s]. *)
Fixpoint take_word (s : string) : string * string :=
  match s with
  | String c s' => if word_char c then let '(a, b) := take_word s' in (String c a, b) else (EmptyString, s)
  | EmptyString => (EmptyString, EmptyString)
  end.
Definition word_paren (s : string) : option string :=
  let '(w, rest) := take_word s in
  if String.eqb w "" then None else if startswith rest "(" then Some w else None.
(** [.*@(\w+)\(]: the last possible [@] (the star is greedy). *)
Fixpoint last_ref (s : string) : option string :=
  match s with
  | EmptyString => None
  | String c s' =>
      match last_ref s' with
      | Some w => Some w
      | None => if Ascii.eqb c "@" then word_paren s' else None
      end
  end.
(** utils.py:8 LLVM_FUNCTION_REGEX on one line: a match lies within a line and starts at its
    beginning. *)
Definition line_function (line : string) : option string :=
  match expect "define" line with Some s => last_ref s | None => None end.
Definition option_list {A} (o : option A) : list A := match o with Some x => [x] | None => [] end.
Definition functions_in (text : string) : list string :=
  flat_map (fun l => option_list (line_function l)) (split_char nl (universal text)).

(** utils.py:82-104 [get_functions_from_llvm]; the warning about a missing file uses
    [os.stderr], which does not exist.  [f] gives the contents of the files ([None]: missing). *)
Definition functions_from (f : string -> option string) (files : list string) : res (dict string string) :=
  fold_res (fun d file =>
      match f file with
      | None => Err AttributeError
      | Some text => Ok (fold_left (fun d n => dset d n file) (functions_in text) d)
      end) [] files.

(** wrapper_build_finder.py:29-45 [initialize]: the functions and the text of the list written
    to the file function_list. *)
Definition build_finder (f : string -> option string) (db : string) : res (dict string string * string) :=
  do files <- read_db db;
  do d <- functions_from f files;
  Ok (d, String.concat "" (map (fun n => (n ++ String nl "")%string) (dkeys d))).
