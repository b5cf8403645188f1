(** * Model of the preparation of modules and of the modules kept in memory
    (diffkemp/simpll/ModuleAnalysis.cpp, diffkemp/simpll/library/FFI.cpp, diffkemp/simpll/simpll.py) *)
From Coq Require Import String Arith Bool List.
From Verif Require Import PyBase.
Import ListNotations.
Open Scope list_scope.

(** ModuleAnalysis.cpp:86-110: the passes that may be run on a module. *)
Inductive pass :=
| ControlFlow | KernelPrints | Memcpy | DeadCode | Expect | ReduceMetadata | SeparateBitcasts
| MergeNumbered | KernelGlobals | Lifetimes | StructHash.

(** The patterns that choose passes (Config.h BuiltinPatterns; the other patterns do not choose a
    pass of the preparation). *)
Record patterns := mkPatterns { control_flow_only : bool; kernel_prints : bool; dead_code : bool }.

Section Modcache.
  (** The code of a module, a module file at a moment (the state of the disk) and the answer of a
      comparison are left open. *)
  Variables body disk text : Type.
  (** LLVM_VERSION_MAJOR < 15 *)
  Variable old_llvm : bool.
  (** [functions]: the names of functions of a module in their order; [has_var]: getGlobalVariable. *)
  Variable functions : body -> list string.
  Variable has_var : body -> string -> bool.
  (** One pass on one function, one pass on the module, the slicing of a function by a variable. *)
  Variable on_function : pass -> string -> body -> body.
  Variable on_module : pass -> body -> body.
  Variable slice : string -> string -> body -> body.

  (** A module: its code and whether it has the metadata "preprocessed". *)
  Record module := mkModule { code : body; marked : bool }.

  (** parseIRFile: [None] when the file is missing or is not a module. *)
  Variable parse : disk -> string -> option module.
  (** simplifyModulesDiff and reportOutputToString on two modules ([true]: on one module object that
      is both); the answer and the code left behind.  [None]: the process dies. *)
  Variable simplify : bool -> body -> body -> string -> string -> option (text * body * body).

  (** ModuleAnalysis.cpp:82-98 *)
  Definition function_passes (p : patterns) : list pass :=
    (if control_flow_only p then [ControlFlow] else []) ++
    (if kernel_prints p then [KernelPrints] else []) ++
    [Memcpy] ++
    (if dead_code p then [DeadCode] else []) ++
    [Expect; ReduceMetadata] ++
    (if old_llvm then [SeparateBitcasts] else []).
  (** ModuleAnalysis.cpp:102-110 *)
  Definition module_passes : list pass := [MergeNumbered; KernelGlobals; Lifetimes; StructHash].
  (** ModuleAnalysis.cpp:82-112: all function passes on one function, then on the next one;
      simplified: the functions are those the module has at the start. *)
  Definition run_passes (p : patterns) (b : body) : body :=
    let b := fold_left (fun b f => fold_left (fun b x => on_function x f b) (function_passes p) b) (functions b) b in
    fold_left (fun b x => on_module x b) module_passes b.

  (** ModuleAnalysis.cpp:60-118 preprocessModule.  [None]: [*Main] of no function. *)
  Definition preprocess (p : patterns) (main var : option string) (m : module) : option module :=
    match (match var, main with
           | None, _ => Some m
           | Some v, Some f => Some (mkModule (slice f v (code m)) (marked m))
           | Some _, None => None
           end) with
    | None => None
    | Some m => Some (if marked m then m else mkModule (run_passes p (code m)) true)
    end.

  (** The memory of a process: modules by their addresses. *)
  Definition memory := list module.
  Fixpoint store (h : memory) (a : nat) (m : module) : memory :=
    match h, a with
    | [], _ => []
    | _ :: h, 0 => m :: h
    | x :: h, S a => x :: store h a m
    end.

  Record request := mkRequest { r_disk : disk; r_first : string; r_second : string;
                                r_fun1 : string; r_fun2 : string; r_var : string }.

  (** Config.cpp:33-58 and Config.cpp:79-82: the function and the variable of a module; an empty
      name of the variable is none. *)
  Definition find_main (b : body) (f : string) : option string := if mem f (functions b) then Some f else None.
  Definition find_var (b : body) (v : string) : option string :=
    if String.eqb v "" then None else if has_var b v then Some v else None.

  (** FFI.cpp:238-267 runSimpLL and ModuleAnalysis.cpp:246-262 processAndCompare on the modules at
      two addresses: the answer and the memory afterwards; [None]: the process dies. *)
  Definition process_and_compare (p : patterns) (h : memory) (l r : nat) (q : request) : option (text * memory) :=
    match nth_error h l, nth_error h r with
    | Some ml, Some mr =>
      match preprocess p (find_main (code ml) (r_fun1 q)) (find_var (code ml) (r_var q)) ml with
      | None => None
      | Some ml' =>
        let h := store h l ml' in
        match nth_error h r with
        | None => None
        | Some mr' =>
          match preprocess p (find_main (code mr) (r_fun2 q)) (find_var (code mr) (r_var q)) mr' with
          | None => None
          | Some mr' =>
            let h := store h r mr' in
            match nth_error h l, nth_error h r with
            | Some a, Some b =>
              match simplify (Nat.eqb l r) (code a) (code b) (r_fun1 q) (r_fun2 q) with
              | None => None
              | Some (t, a', b') => Some (t, store (store h l (mkModule a' true)) r (mkModule b' true))
              end
            | _, _ => None
            end
          end
        end
      end
    | _, _ => None
    end.

  (** What a comparison leads to: the text of results; SimpLLException; ValueError (both are an error
      of the compared function, function_diff.py:310-315); the end of the whole process. *)
  Inductive outcome := Answer (t : text) | Failed | Invalid | Ended.

  (** The process of the tool: its memory and [module_cache] (diffkemp.py:388). *)
  Record tool := mkTool { t_memory : memory; t_cache : list (string * nat) }.
  Definition start : tool := mkTool [] [].
  Definition cached (t : tool) (path : string) : option nat := dget (t_cache t) path.

  (** simpll.py:46-49 with library.py:33-36, FFI.cpp:81-89 loadModule and FFI.cpp:318-322
      preprocessModuleC: one of the two modules. [None]: ValueError. *)
  Definition load (p : patterns) (to_cache : list string) (d : disk) (t : tool) (path : string) : option tool :=
    match cached t path with
    | Some _ => Some t
    | None =>
      if mem path to_cache then
        match parse d path with
        | None => None
        | Some m =>
          match preprocess p None None m with
          | None => None
          | Some m => Some (mkTool (t_memory t ++ [m]) (dset (t_cache t) path (length (t_memory t))))
          end
        end
      else Some t
    end.

  (** FFI.cpp:293-313 parseAndRunSimpLL, and SimpLL.cpp:172-205 main of the program. *)
  Definition parse_and_run (p : patterns) (q : request) : option text :=
    match parse (r_disk q) (r_first q), parse (r_disk q) (r_second q) with
    | Some ml, Some mr =>
      match process_and_compare p [ml; mr] 0 1 q with Some (t, _) => Some t | None => None end
    | _, _ => None
    end.

  (** simpll.py:39-166: the run of SimpLL.  The child made by fork has a copy of the memory; what it
      changes there is lost. *)
  Definition run_simpll (ffi : bool) (p : patterns) (to_cache : list string) (t : tool) (q : request) : outcome * tool :=
    if ffi then
      match load p to_cache (r_disk q) t (r_first q) with
      | None => (Invalid, t)
      | Some t =>
        match load p to_cache (r_disk q) t (r_second q) with
        | None => (Invalid, t)
        | Some t =>
          match cached t (r_first q), cached t (r_second q) with
          | Some l, Some r =>
            (match process_and_compare p (t_memory t) l r q with Some (x, _) => Answer x | None => Failed end, t)
          | _, _ => (match parse_and_run p q with Some x => Answer x | None => Ended end, t)
          end
        end
      end
    else (match parse_and_run p q with Some x => Answer x | None => Failed end, t).

  (** The comparisons of a group, one after another (diffkemp.py:397-476); [to_cache] is chosen
      before them (Compare_Model.modules_to_cache). *)
  Fixpoint run_from (ffi : bool) (p : patterns) (to_cache : list string) (t : tool) (qs : list request) : list outcome :=
    match qs with
    | [] => []
    | q :: qs =>
      let '(o, t) := run_simpll ffi p to_cache t q in
      o :: match o with Ended => [] | _ => run_from ffi p to_cache t qs end
    end.
  Definition session (ffi : bool) (p : patterns) (to_cache : list string) (qs : list request) : list outcome :=
    run_from ffi p to_cache start qs.
End Modcache.

Arguments mkModule {body}. Arguments code {body}. Arguments marked {body}.
Arguments mkRequest {disk}. Arguments r_disk {disk}. Arguments r_first {disk}. Arguments r_second {disk}.
Arguments r_fun1 {disk}. Arguments r_fun2 {disk}. Arguments r_var {disk}.
Arguments Answer {text}. Arguments Failed {text}. Arguments Invalid {text}. Arguments Ended {text}.
