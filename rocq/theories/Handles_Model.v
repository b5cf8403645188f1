(** * Model of the lifetime of LLVM modules behind Python objects
    (diffkemp/simpll/library.py, diffkemp/simpll/library/FFI.cpp) *)
From Coq Require Import Arith Bool List.
Import ListNotations.
Open Scope list_scope.

(** Addresses in the C++ heap (0 is NULL) and identities of Python objects. *)
Definition addr := nat.
Definition oid := nat.

(** library.py:31-158: a module, a function and a table of sysctls with their attributes [module] and
    [pointer].  Simplification: the pointer to a function is the parsed module it is in (by the number
    of its loading) and the function. *)
Inductive obj :=
| PMod (p : addr)
| PFun (m : oid) (owner f : nat)
| PTab (m : oid) (p : addr).

(** What happens, for the statements: a module is loaded for object [o] as loading [n]; an operation
    on object [o] of module object [m] follows a pointer and arrives at a loading (or at freed memory,
    [None]); the same for a function, with the answer whether the function is still in the module; a
    function is erased; a module is freed (with the answer whether its context existed). *)
Inductive item :=
| Born (o : oid) (n : nat)
| Access (o m : oid) (got : option nat)
| FunAccess (o m : oid) (got : option nat) (f : nat) (present : bool)
| Erase (n f : nat)
| Freed (n : nat) (context : bool).

(** The state of a process: Python objects, references to them from variables, and the C++ side:
    FFI.cpp:26-30 [ModuleMap] and [ContextMap], the functions of loaded modules, the tables of sysctls
    with their pointers to modules, and the number of arrays given to Python that were not freed.
    [log]: the newest item is the first. *)
Record state := mkState {
  objs : oid -> option obj; vars : list oid; next : oid;
  modules : addr -> option nat; contexts : addr -> bool; live : nat -> option (list nat); loads : nat;
  tables : addr -> option addr; arrays : nat; log : list item }.

Definition init : state :=
  mkState (fun _ => None) [] 0 (fun _ => None) (fun _ => false) (fun _ => None) 0 (fun _ => None) 0 [].

Definition upd {A} (f : nat -> A) (k : nat) (v : A) : nat -> A := fun x => if x =? k then v else f x.
Definition mem (x : nat) (l : list nat) : bool := existsb (Nat.eqb x) l.

Definition note (x : item) (s : state) : state :=
  mkState (objs s) (vars s) (next s) (modules s) (contexts s) (live s) (loads s) (tables s) (arrays s) (x :: log s).

Definition set_vars (v : list oid) (s : state) : state :=
  mkState (objs s) v (next s) (modules s) (contexts s) (live s) (loads s) (tables s) (arrays s) (log s).

Definition set_arrays (n : nat) (s : state) : state :=
  mkState (objs s) (vars s) (next s) (modules s) (contexts s) (live s) (loads s) (tables s) n (log s).

(** A new Python object that a variable refers to. *)
Definition new_obj (x : obj) (s : state) : state :=
  mkState (upd (objs s) (next s) (Some x)) (next s :: vars s) (S (next s)) (modules s) (contexts s) (live s) (loads s)
          (tables s) (arrays s) (log s).

(** FFI.cpp:81-89 [loadModule] and library.py:33-36: [a] is the address the allocator gives (one that
    is not in use), 0 when the file cannot be parsed; [fs] are the functions.  After a failure the
    object exists, with NULL, until it is collected; no variable gets it.  Paths that are not ASCII (an
    exception before the loading) are not modelled. *)
Definition load_module (a : addr) (fs : list nat) (s : state) : state :=
  if a =? 0 then
    mkState (upd (objs s) (next s) (Some (PMod 0))) (vars s) (S (next s)) (modules s) (upd (contexts s) 0 true) (live s)
            (loads s) (tables s) (arrays s) (log s)
  else match modules s a with
       | Some _ => s
       | None =>
         mkState (upd (objs s) (next s) (Some (PMod a))) (next s :: vars s) (S (next s))
                 (upd (modules s) a (Some (loads s))) (upd (contexts s) a true)
                 (upd (live s) (loads s) (Some fs)) (S (loads s)) (tables s) (arrays s) (Born (next s) (loads s) :: log s)
       end.

(** FFI.cpp:91-95 [freeModule]: the module is destroyed while its context is still in the map. *)
Definition free_module (a : addr) (s : state) : state :=
  let s1 := match modules s a with
            | None => s
            | Some n =>
              mkState (objs s) (vars s) (next s) (upd (modules s) a None) (contexts s) (upd (live s) n None) (loads s)
                      (tables s) (arrays s) (Freed n (contexts s a) :: log s)
            end in
  mkState (objs s1) (vars s1) (next s1) (modules s1) (upd (contexts s1) a false) (live s1) (loads s1)
          (tables s1) (arrays s1) (log s1).

(** FFI.cpp:176-178 [freeSysctlTable] *)
Definition free_table (p : addr) (s : state) : state :=
  mkState (objs s) (vars s) (next s) (modules s) (contexts s) (live s) (loads s) (upd (tables s) p None) (arrays s) (log s).

(** A program uses only objects that a variable of it refers to. *)
Definition held (s : state) (o : oid) : option obj := if mem o (vars s) then objs s o else None.

(** The functions of a loaded module, none when it was freed. *)
Definition functions_of (s : state) (got : option nat) : list nat :=
  match got with Some n => match live s n with Some fs => fs | None => [] end | None => [] end.

(** What a pointer to a module, to a function of a loading, and to a table leads to. *)
Definition at_module (s : state) (a : addr) : option nat := modules s a.
Definition at_function (s : state) (n : nat) : option nat := match live s n with Some _ => Some n | None => None end.
Definition at_table (s : state) (p : addr) : option nat :=
  match tables s p with Some a => modules s a | None => None end.

(** Making Python functions for those of the given functions that are in the module (LLVM gives no
    others). *)
Definition give (m : oid) (got : option nat) (gs : list nat) (s : state) : state :=
  match got with
  | None => s
  | Some n => fold_left (fun s g => new_obj (PFun m n g) s) (filter (fun g => mem g (functions_of s (Some n))) gs) s
  end.

(** FFI.cpp:318-322 [preprocessModuleC]: passes erase functions (MergeNumberedFunctionsPass.cpp:48-55);
    which ones is left open. *)
Definition erase_functions (n : nat) (gone : list nat) (s : state) : state :=
  match live s n with
  | None => s
  | Some fs =>
    mkState (objs s) (vars s) (next s) (modules s) (contexts s)
            (upd (live s) n (Some (filter (fun f => negb (mem f gone)) fs))) (loads s) (tables s) (arrays s)
            (map (Erase n) (filter (fun f => mem f gone) fs) ++ log s)
  end.

(** The module object an object refers to. *)
Definition refers (o : oid) (x : obj) : bool :=
  match x with PMod _ => false | PFun m _ _ => m =? o | PTab m _ => m =? o end.
Definition referred (s : state) (o : oid) : bool :=
  existsb (fun q => match objs s q with Some x => refers o x | None => false end) (seq 0 (next s)).

Definition forget (o : oid) (s : state) : state :=
  mkState (upd (objs s) o None) (vars s) (next s) (modules s) (contexts s) (live s) (loads s) (tables s) (arrays s) (log s).

(** Python destroys an object that nothing refers to; when is left open.  library.py:44-45 and 121-122
    [__del__]; the attribute [module] is released afterwards. *)
Definition collect (o : oid) (s : state) : state :=
  if mem o (vars s) || referred s o then s
  else match objs s o with
       | None => s
       | Some (PMod a) => free_module a (forget o s)
       | Some (PFun _ _ _) => forget o s
       | Some (PTab _ p) => free_table p (forget o s)
       end.

Fixpoint remove_one (o : oid) (l : list oid) : list oid :=
  match l with [] => [] | x :: r => if x =? o then r else x :: remove_one o r end.

(** The operations of library.py.
    [Load]: SimpLLModule(path) (33-36); [GetFunction]: 47-53; [AskModule]: find_param_var and
    get_functions_using_param (55-81; the array is freed, 7-13); [Preprocess]: 83-84; [AskFunction]:
    get_name and is_declaration (99-107); [Called]: 109-112; [Table]: SimpLLSysctlTable (116-119);
    [Sysctls]: 124-128 (the array is freed, 16-28); [ProcFun]: 130-135; [Param]: get_child and get_data
    (137-158; nobody calls freeKernelParam, FFI.cpp:197-201); [ModuleOf]: the attribute module;
    [Copy], [Drop]: a variable more and less; [Collect]: see above. *)
Inductive event :=
| Load (a : addr) (fs : list nat)
| GetFunction (m : oid) (f : nat)
| AskModule (m : oid)
| Preprocess (m : oid) (gone : list nat)
| AskFunction (o : oid)
| Called (o : oid) (gs : list nat)
| Table (m : oid) (p : addr)
| Sysctls (t : oid)
| ProcFun (t : oid) (f : nat)
| Param (t : oid)
| ModuleOf (o : oid)
| Copy (o : oid)
| Drop (o : oid)
| Collect (o : oid).

Definition ask_function (s : state) (o m : oid) (n f : nat) : state :=
  let got := at_function s n in note (FunAccess o m got f (mem f (functions_of s got))) s.

Definition step (s : state) (e : event) : state :=
  match e with
  | Load a fs => load_module a fs s
  | GetFunction m f =>
    match held s m with
    | Some (PMod a) => let got := at_module s a in give m got [f] (note (Access m m got) s)
    | _ => s
    end
  | AskModule m =>
    match held s m with
    | Some (PMod a) => set_arrays (pred (S (arrays s))) (note (Access m m (at_module s a)) s)
    | _ => s
    end
  | Preprocess m gone =>
    match held s m with
    | Some (PMod a) =>
      let s1 := note (Access m m (at_module s a)) s in
      match at_module s a with Some n => erase_functions n gone s1 | None => s1 end
    | _ => s
    end
  | AskFunction o =>
    match held s o with Some (PFun m n f) => ask_function s o m n f | _ => s end
  | Called o gs =>
    match held s o with
    | Some (PFun m n f) => give m (at_function s n) gs (ask_function s o m n f)
    | _ => s
    end
  | Table m p =>
    match held s m with
    | Some (PMod a) =>
      match p, tables s p with
      | S _, None =>
        let s1 := note (Access m m (at_module s a)) s in
        let s2 := new_obj (PTab m p) s1 in
        mkState (objs s2) (vars s2) (next s2) (modules s2) (contexts s2) (live s2) (loads s2)
                (upd (tables s2) p (Some a)) (arrays s2) (log s2)
      | _, _ => s
      end
    | _ => s
    end
  | Sysctls t =>
    match held s t with
    | Some (PTab m p) => set_arrays (pred (S (arrays s))) (note (Access t m (at_table s p)) s)
    | _ => s
    end
  | ProcFun t f =>
    match held s t with
    | Some (PTab m p) => let got := at_table s p in give m got [f] (note (Access t m got) s)
    | _ => s
    end
  | Param t =>
    match held s t with
    | Some (PTab m p) => set_arrays (S (arrays s)) (note (Access t m (at_table s p)) s)
    | _ => s
    end
  | ModuleOf o =>
    match held s o with
    | Some (PFun m _ _) => set_vars (m :: vars s) s
    | Some (PTab m _) => set_vars (m :: vars s) s
    | _ => s
    end
  | Copy o => match held s o with Some _ => set_vars (o :: vars s) s | None => s end
  | Drop o => set_vars (remove_one o (vars s)) s
  | Collect o => collect o s
  end.

Definition run (es : list event) : state := fold_left step es init.
