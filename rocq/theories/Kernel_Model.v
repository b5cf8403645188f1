(** * Model of building kernel sources into LLVM IR
    (diffkemp/llvm_ir/kernel_llvm_source_builder.py, diffkemp/utils.py:28-46,
    diffkemp/diffkemp.py:160-191) *)
From Coq Require Import String Ascii ZArith Arith Bool Lia List.
From Verif Require Import PyBase Path_Model Syndiff_Model.
From Verif Require Output_Model.
Import ListNotations.
Open Scope list_scope.

#[export] Instance EqB_bool : EqB bool := {| eqb := Bool.eqb; eqb_spec := Bool.eqb_spec |}.

(** ** Words and lines *)

(** [s.split()] *)
Fixpoint words (s : string) : list string :=
  match s with
  | EmptyString => []
  | String c s' =>
      if is_space c then words s'
      else match s' with
           | EmptyString => [String c ""]
           | String d _ =>
               if is_space d then String c "" :: words s'
               else match words s' with w :: ws => String c w :: ws | [] => [String c ""] end
           end
  end.
(** [line.split()[0]] and [line.split()[1]] *)
Definition first_word (line : string) : res string :=
  match words line with w :: _ => Ok w | [] => Err IndexError end.
Definition two_words (line : string) : res (string * string) :=
  match words line with w :: v :: _ => Ok (w, v) | _ => Err IndexError end.

(** Characters ending a line for [str.splitlines] besides CR: LF, VT, FF, FS, GS, RS.
    Simplification: only ASCII. *)
Definition line_end (c : ascii) : bool :=
  let n := nat_of_ascii c in ((10 <=? n) && (n <=? 12) || (28 <=? n) && (n <=? 30))%nat.
(** [s.splitlines()]; [cur] is the current line, [after_cr] whether the last character was
    CR. *)
Fixpoint splitlines_from (cur : string) (after_cr : bool) (s : string) : list string :=
  match s with
  | EmptyString => if String.eqb cur "" then [] else [cur]
  | String c s' =>
      if Ascii.eqb c nl && after_cr then splitlines_from "" false s'
      else if Ascii.eqb c cr then cur :: splitlines_from "" true s'
      else if line_end c then cur :: splitlines_from "" false s'
      else splitlines_from (cur ++ String c "") false s'
  end.
Definition splitlines (s : string) : list string := splitlines_from "" false s.

(** ** Finding sources with cscope *)

(** The outside of the lookup: whether the cscope database exists or can be built, and what
    cscope prints for a symbol and a kind of search ([None]: it fails).  Simplification: the
    answer does not change during the run of the program. *)
Record cscope := mkCscope { cs_db : bool; cs_out : string -> bool -> option string }.
(** The cache, and (for the statements) the searches cscope was run for, last one first. *)
Record cstate := mkCstate { cs_cache : dict (string * bool) (list string); cs_runs : list (string * bool) }.

(** kernel_llvm_source_builder.py:219-221 the filter of the lines *)
Definition cscope_lines (out : string) : res (list string) :=
  do ls <- map_res (fun line => do w <- first_word line; Ok (line, endswith w "c")) (splitlines out);
  Ok (map fst (filter snd ls)).

(** kernel_llvm_source_builder.py:196-226 [_cscope_run] *)
Definition cscope_run (cs : cscope) (st : cstate) (symbol : string) (definition : bool)
  : res (list string) * cstate :=
  match dget (cs_cache st) (symbol, definition) with
  | Some r => (Ok r, st)
  | None =>
      if negb (cs_db cs) then (Err BuildException, st)
      else
        let st1 := mkCstate (cs_cache st) ((symbol, definition) :: cs_runs st) in
        match cs_out cs symbol definition with
        | None => (Ok [], st1)
        | Some out =>
            match cscope_lines out with
            | Err e => (Err e, st1)
            | Ok r => (Ok r, mkCstate (dset (cs_cache st) (symbol, definition) r) (cs_runs st1))
            end
        end
  end.

(** kernel_llvm_source_builder.py:228-237 [_find_tracepoint_macro_use] *)
Definition tracepoint_uses (cs : cscope) (st : cstate) (symbol : string) : res (list string) * cstate :=
  let '(r, st1) := cscope_run cs st "EXPORT_TRACEPOINT_SYMBOL" false in
  (do candidates <- r;
   Ok (filter (fun c => endswith c ("(" ++ drop (String.length "__tracepoint_") symbol ++ ");")%string) candidates), st1).

(** kernel_llvm_source_builder.py:297-306 [prio_key] *)
Definition prio_key (item : string) : string :=
  if startswith item "drivers/" then ("}" ++ item)%string
  else if startswith item "arch/x86" then ("}}" ++ item)%string
  else if startswith item "arch/" then ("}}}" ++ item)%string
  else item.
(** [sorted(l, key=prio_key)] *)
Definition sort_files (l : list string) : list string := Output_Model.sort_by String.leb prio_key l.

(** kernel_llvm_source_builder.py:308-325: [f in seen or seen.add(f)] along a list: the files
    not seen before, and the files seen afterwards. *)
Fixpoint unseen (seen l : list string) : list string * list string :=
  match l with
  | [] => ([], seen)
  | f :: l' => if mem f seen then unseen seen l'
               else let '(fs, seen') := unseen (f :: seen) l' in (f :: fs, seen')
  end.
Definition is_global (x : string * string) : bool := String.eqb (snd x) "<global>".
Definition candidates (defs uses : list string) : res (list string) :=
  do ds <- map_res first_word defs;
  let '(a, seen1) := unseen [] ds in
  do us <- map_res two_words uses;
  let '(b, seen2) := unseen seen1 (map fst (filter is_global us)) in
  let '(c, _) := unseen seen2 (map fst (filter (fun x => negb (is_global x)) us)) in
  Ok (sort_files a ++ sort_files b ++ sort_files c).

(** kernel_llvm_source_builder.py:239-325 [_find_srcs_with_symbol_def] (the changes of the
    working directory are left out: they are undone by the finally clause). *)
Definition is_param (symbol : string) : bool :=
  existsb (startswith symbol) ["param_get_"; "param_set_"; "param_ops_"]%string.
Definition find_srcs (cs : cscope) (st : cstate) (symbol : string) : res (list string) * cstate :=
  let '(rd, st1) := cscope_run cs st symbol true in
  match rd with
  | Err e => (Err e, st1)
  | Ok defs =>
      let '(ru, st2) := cscope_run cs st1 symbol false in
      match ru with
      | Err e => (Err e, st2)
      | Ok uses =>
          let '(rdefs, st3) :=
            if is_param symbol then (Ok ("kernel/params.c"%string :: defs), st2)
            else if startswith symbol "__tracepoint_" then
              let '(rt, st3) := tracepoint_uses cs st2 symbol in (do t <- rt; Ok (t ++ defs), st3)
            else if String.eqb symbol "rcu_barrier" then (Ok ("kernel/rcutree.c"%string :: defs), st2)
            else (Ok defs, st2) in
          (do defs2 <- rdefs;
           match defs2, uses with
           | [], [] => if String.eqb symbol "vfree" then candidates ["mm/vmalloc.c"%string] []
                       else Err SourceNotFoundException
           | _, _ => candidates defs2 uses
           end, st3)
      end
  end.

(** ** Translation of commands *)

(** kernel_llvm_source_builder.py:330-338 [_strip_bash_quotes]: all quotes of one kind. *)
Definition squote : ascii := "'".
Definition dquote : ascii := """".
Fixpoint remove_char (c : ascii) (s : string) : string :=
  match s with
  | EmptyString => EmptyString
  | String x s' => if Ascii.eqb x c then remove_char c s' else String x (remove_char c s')
  end.
Definition strip_quotes (p : string) : string :=
  if has_char squote p then remove_char squote p else remove_char dquote p.

(** kernel_llvm_source_builder.py:353-361 the parameters that are left out *)
Definition gcc_drops (p : string) : bool :=
  String.eqb p "gcc" ||
  (startswith p "-W" && negb (contains p "-MD")) ||
  startswith p "-f" || startswith p "-m" || startswith p "-O" ||
  String.eqb p "-DCC_HAVE_ASM_GOTO" || String.eqb p "-g" || String.eqb p "-o" || endswith p ".o".
(** kernel_llvm_source_builder.py:363-369 *)
Definition debug_hash (p : string) : string :=
  let p1 := if startswith p "-D""DEBUG_HASH=" then "-D""DEBUG_HASH=1"""%string else p in
  if startswith p1 "-D""DEBUG_HASH2=" then "-D""DEBUG_HASH2=1"""%string else p1.
(** kernel_llvm_source_builder.py:340-379 [_gcc_to_llvm] *)
Definition clang_base : list string :=
  ["clang"; "-S"; "-emit-llvm"; "-O1"; "-Xclang"; "-disable-llvm-passes"; "-g"; "-fdebug-macro"; "-Wno-format-security"]%string.
Definition gcc_step (st : list string * option string) (p : string) : list string * option string :=
  if gcc_drops p then st
  else
    let q := debug_hash p in
    (fst st ++ [strip_quotes q], if endswith q ".c" then Some (chop 2 q ++ ".ll")%string else snd st).
Definition gcc_to_llvm (command : string) : res (list string) :=
  let '(cmd, out) := fold_left gcc_step (words command) (clang_base, None) in
  match out with
  | None => Err BuildException
  | Some o => Ok (cmd ++ ["-o"%string; o])
  end.

(** kernel_llvm_source_builder.py:381-396 [_ld_to_llvm] *)
Definition ld_to_llvm (command : string) : list string :=
  ["llvm-link"; "-S"]%string ++
  flat_map (fun p => if endswith p ".o" then [(chop 2 p ++ ".ll")%string]
                     else if String.eqb p "-o" then [p] else []) (words command).

(** kernel_llvm_source_builder.py:398-411 [_kbuild_to_llvm_commands] *)
Fixpoint kbuild_to_llvm (commands : list string) (mod_name : string) : res (list (list string)) :=
  match commands with
  | [] => Ok []
  | c :: cs =>
      let command := lstrip c in
      if startswith command "gcc" && negb (contains command (mod_name ++ ".mod")) then
        do x <- gcc_to_llvm command; do r <- kbuild_to_llvm cs mod_name; Ok (x :: r)
      else if startswith command "ld" && negb (contains command (mod_name ++ ".ko")) then
        do r <- kbuild_to_llvm cs mod_name; Ok (ld_to_llvm command :: r)
      else kbuild_to_llvm cs mod_name
  end.

(** kernel_llvm_source_builder.py:443-453 [_extract_command] *)
Fixpoint extract_command (parts : list string) (programs : list string) : option string :=
  match parts with
  | [] => None
  | c :: cs => if existsb (startswith (lstrip c)) programs then Some (lstrip c) else extract_command cs programs
  end.
Definition extract (programs : list string) (line : string) : option string :=
  extract_command (split_char ";" line) programs.
(** kernel_llvm_source_builder.py:470-478 (the test "if command" only skips None: a found
    command starts with a program) *)
Definition extract_list (programs : list string) (lines : list string) : list string :=
  flat_map (fun l => match extract programs l with Some c => [c] | None => [] end) lines.
(** kernel_llvm_source_builder.py:513-518: the last gcc command of the output of make *)
Definition object_command (output : string) : res string :=
  match rev (extract_list ["gcc"%string] (splitlines output)) with
  | c :: _ => Ok c
  | [] => Err BuildException
  end.

(** kernel_llvm_source_builder.py:480-488: [command[command.index(x) + 1]] *)
Fixpoint after_arg (x : string) (command : list string) : res string :=
  match command with
  | [] => Err ValueError
  | a :: l => if String.eqb a x then match l with b :: _ => Ok b | [] => Err IndexError end
              else after_arg x l
  end.

(** utils.py:28-46 [get_opt_command] *)
Definition opt_command (version : Z) (passes : list (string * string)) (file : string) (overwrite : bool) : list string :=
  ["opt"%string; file] ++
  (if (16 <=? version)%Z
   then [("-passes=" ++ join "," (map (fun p => snd p ++ "(" ++ fst p ++ ")")%string passes))%string]
   else map (fun p => ("-" ++ fst p)%string) passes) ++
  (if overwrite then ["-S"%string; "-o"%string; file] else []).

(** ** The kernel headers *)

Definition goto_old : string := "asm goto(x)".
Definition goto_new : string := "asm (""goto("" #x "")"")".
Definition ifdef_text : string := "#ifdef CONFIG_CC_HAS_ASM_INLINE".
Definition undef_line : string := "#undef CONFIG_CC_HAS_ASM_INLINE // DiffKemp generated".

(** sed on a text cut at the newlines: a line gives lines before it, and itself unless deleted;
    what follows the last newline is a line if it is not empty, and keeps lacking the
    newline. *)
Definition sed_line (f : string -> list string * option string) (ending line : string) : string :=
  let '(before, this) := f line in
  (String.concat "" (map (fun l => (l ++ String nl "")%string) before) ++
   match this with Some t => (t ++ ending)%string | None => ""%string end)%string.
Fixpoint sed_pieces (f : string -> list string * option string) (pieces : list string) : string :=
  match pieces with
  | [] => ""%string
  | [l] => if String.eqb l "" then ""%string else sed_line f "" l
  | l :: ps => (sed_line f (String nl "") l ++ sed_pieces f ps)%string
  end.
Definition sed (f : string -> list string * option string) (text : string) : string := sed_pieces f (split_char nl text).
(** kernel_llvm_source_builder.py:124-148 [_disable_asm_features] and 150-169
    [_enable_asm_features] for one header that is a file.  Simplification: sed does not fail. *)
Definition disable_goto (l : string) : list string * option string := ([], Some (replace goto_old goto_new l)).
Definition disable_inline (l : string) : list string * option string :=
  (if contains l ifdef_text then [undef_line] else [], Some l).
Definition enable_goto (l : string) : list string * option string := ([], Some (replace goto_new goto_old l)).
Definition enable_inline (l : string) : list string * option string :=
  ([], if contains l undef_line then None else Some l).
Definition disable_header (text : string) : string := sed disable_inline (sed disable_goto text).
Definition enable_header (text : string) : string := sed enable_inline (sed enable_goto text).

(** diffkemp.py:160-191 [build_kernel] as seen by the headers of the source tree ([None]:
    the header is no file): the source builder is initialised when it is made, and finalised
    at the end, if the end is reached.  [list_empty]: the symbol list is empty; [fails]: the
    generation of the snapshot raises an exception. *)
Definition on_header (f : string -> string) (h : option string) : option string := option_map f h.
Definition build_kernel_headers (list_empty fails : bool) (h : option string) : option string :=
  let h1 := on_header disable_header h in
  if list_empty then h1 else if fails then h1 else on_header enable_header h1.

(** ** Building a source *)

(** Contents of files: versions of a source; LLVM IR compiled from one, optimised or not;
    LLVM IR linked from others. *)
Inductive content := Source (version : nat) | Compiled (c : content) | Optimised (c : content) | Linked (l : list content).
(** Files with the time of their last change, and the time. *)
Record files := mkFiles { f_at : dict string (Z * content); f_clock : Z }.
Definition f_get (f : files) (p : string) : option (Z * content) := dget (f_at f) p.
Definition write (f : files) (p : string) (c : content) : files :=
  mkFiles (dset (f_at f) p (f_clock f, c)) (f_clock f + 1).

(** The outside of the build: what make prints for an object ([None]: it fails) and for a
    module (with its exit status), whether clang, opt and llvm-link succeed (arbitrary, may
    depend on the files). *)
Record tools := mkTools {
  t_make : files -> string -> option string;
  t_module : files -> string -> string -> Z * string;
  t_clang : files -> list string -> bool;
  t_opt : files -> string -> bool;
  t_link : files -> list string -> bool }.

(** clang on a translated command: it compiles the file after -c into the file after -o.
    Simplification: paths are relative to the source directory and a failing run leaves the
    files unchanged. *)
Definition run_clang (t : tools) (f : files) (cmd : list string) : option files :=
  match after_arg "-c" cmd, after_arg "-o" cmd with
  | Ok src, Ok out =>
      match f_get f src with
      | Some (_, c) => if t_clang t f cmd then Some (write f out (Compiled c)) else None
      | None => None
      end
  | _, _ => None
  end.
Definition run_opt (t : tools) (f : files) (file : string) : option files :=
  match f_get f file with
  | Some (_, c) => if t_opt t f file then Some (write f file (Optimised c)) else None
  | None => None
  end.
(** kernel_llvm_source_builder.py:560-594 [_build_source_to_llvm] for a path relative to the
    source directory (the working directory is the source directory then).  The second
    component tells which files there are afterwards. *)
Definition build_source (t : tools) (f : files) (source : string) : res string * files :=
  let llvm := (chop 2 source ++ ".ll")%string in
  let reuse := match f_get f llvm with
               | None => Ok false
               | Some (tl, _) => match f_get f source with
                                 | None => Err FileNotFoundError
                                 | Some (ts, _) => Ok (negb (tl <? ts)%Z)
                                 end
               end in
  match reuse with
  | Err e => (Err e, f)
  | Ok true => (Ok llvm, f)
  | Ok false =>
      match t_make t f (chop 2 source ++ ".o") with
      | None => (Err BuildException, f)
      | Some out =>
          match (do c <- object_command out; gcc_to_llvm c) with
          | Err e => (Err e, f)
          | Ok cmd =>
              match run_clang t f cmd with
              | None => (Err BuildException, f)
              | Some f1 =>
                  match run_opt t f1 llvm with
                  | None => (Err BuildException, f1)
                  | Some f2 => (Ok llvm, f2)
                  end
              end
          end
      end
  end.

(** kernel_llvm_source_builder.py:52-78 [find_llvm_with_symbol_def] after the candidates are
    known; [defines f p s]: the module [p] defines [s]. *)
Fixpoint find_def (t : tools) (defines : files -> string -> string -> bool) (symbol : string)
    (f : files) (srcs : list string) : res (option string) * files :=
  match srcs with
  | [] => (Ok None, f)
  | src :: rest =>
      let '(r, f1) := build_source t f src in
      match r with
      | Ok p => match f_get f1 p with
                | Some _ => if defines f1 p symbol then (Ok (Some p), f1)
                            else find_def t defines symbol f1 rest
                | None => find_def t defines symbol f1 rest
                end
      | Err BuildException => find_def t defines symbol f1 rest
      | Err e => (Err e, f1)
      end
  end.

(** kernel_llvm_source_builder.py:80-110 [find_llvm_with_symbol_use]: raising the exception
    class without its argument raises TypeError instead. *)
Fixpoint find_uses (t : tools) (f : files) (lines : list string) (found : list string) : res (list string) * files :=
  match lines with
  | [] => (Ok found, f)
  | line :: rest =>
      match words line with
      | w :: scope =>
          if endswith w ".h" then find_uses t f rest found
          else match scope with
               | [] => (Err IndexError, f)
               | s :: _ =>
                   if String.eqb s "<global>" then find_uses t f rest found
                   else
                     let '(r, f1) := build_source t f w in
                     match r with
                     | Ok p => find_uses t f1 rest (match f_get f1 p with Some _ => if mem p found then found else found ++ [p] | None => found end)
                     | Err BuildException => find_uses t f1 rest found
                     | Err e => (Err e, f1)
                     end
               end
      | [] => (Err IndexError, f)
      end
  end.
Definition find_llvm_with_symbol_use (cs : cscope) (t : tools) (st : cstate) (f : files) (symbol : string)
  : res (list string) * files * cstate :=
  let '(r, st1) := cscope_run cs st symbol false in
  match r with
  | Err e => (Err e, f, st1)
  | Ok [] => (Err TypeError, f, st1)
  | Ok lines => (find_uses t f lines [], st1)
  end.

(** ** Building a kernel module *)

(** llvm-link on a translated command: the inputs are the other .ll arguments. *)
Definition link_inputs (cmd : list string) (out : string) : list string :=
  filter (fun a => endswith a ".ll" && negb (String.eqb a out)) cmd.
Fixpoint contents_of (f : files) (l : list string) : option (list content) :=
  match l with
  | [] => Some []
  | p :: l' => match f_get f p, contents_of f l' with Some (_, c), Some cs => Some (c :: cs) | _, _ => None end
  end.
Definition run_link (t : tools) (f : files) (cmd : list string) : option files :=
  match after_arg "-o" cmd with
  | Ok out => match contents_of f (link_inputs cmd out) with
              | Some cs => if t_link t f cmd then Some (write f out (Linked cs)) else None
              | None => None
              end
  | Err _ => None
  end.
(** kernel_llvm_source_builder.py:615-626: the loop over the commands. *)
Fixpoint run_commands (t : tools) (f : files) (built : bool) (cmds : list (list string)) : res unit * files :=
  match cmds with
  | [] => (Ok tt, f)
  | c :: rest =>
      match c with
      | [] => (Err IndexError, f)
      | prog :: _ =>
          if String.eqb prog "clang" then
            match after_arg "-c" c with
            | Err e => (Err e, f)
            | Ok src =>
                match after_arg "-o" c with
                | Err e => (Err e, f)
                | Ok obj =>
                    match (match f_get f obj with
                           | None => Ok true
                           | Some (tobj, _) => match f_get f src with
                                               | None => Err FileNotFoundError
                                               | Some (ts, _) => Ok (tobj <? ts)%Z
                                               end
                           end) with
                    | Err e => (Err e, f)
                    | Ok false => run_commands t f built rest
                    | Ok true =>
                        match run_clang t f c with
                        | None => (Err BuildException, f)
                        | Some f1 => run_commands t f1 true rest
                        end
                    end
                end
            end
          else if String.eqb prog "llvm-link" then
            match after_arg "-o" c with
            | Err e => (Err e, f)
            | Ok obj =>
                if match f_get f obj with None => true | Some _ => built end then
                  match run_link t f c with
                  | None => (Err BuildException, f)
                  | Some f1 => run_commands t f1 built rest
                  end
                else run_commands t f built rest
            end
          else run_commands t f built rest
      end
  end.
(** kernel_llvm_source_builder.py:518-558 [_kbuild_module_commands]: the name of the module in
    the file names and the commands. *)
Definition module_commands (t : tools) (f : files) (mod_dir mod_name : string) : res (string * list string) :=
  let commands out := extract_list ["gcc"; "ld"]%string (splitlines out) in
  match t_module t f mod_dir mod_name with
  | (0%Z, out) => Ok (mod_name, commands out)
  | (2%Z, _) =>
      let name := replace_char "_" "-" mod_name in
      match t_module t f mod_dir name with
      | (0%Z, out) => Ok (name, commands out)
      | _ => Err BuildException
      end
  | _ => Err BuildException
  end.
(** kernel_llvm_source_builder.py:596-635 [_build_kernel_mod_to_llvm] *)
Definition build_module (t : tools) (f : files) (mod_dir mod_name : string) : res string * files :=
  match module_commands t f mod_dir mod_name with
  | Err e => (Err e, f)
  | Ok (file_name, commands) =>
      match kbuild_to_llvm commands file_name with
      | Err e => (Err e, f)
      | Ok cmds =>
          match run_commands t f false cmds with
          | (Err e, f1) => (Err e, f1)
          | (Ok _, f1) =>
              let llvm := path_join mod_dir (file_name ++ ".ll")%string in
              match run_opt t f1 llvm with
              | None => (Err BuildException, f1)
              | Some f2 => (Ok llvm, f2)
              end
          end
      end
  end.
