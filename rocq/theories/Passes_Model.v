(** * Model of the passes over modules that come before the comparison:
    diffkemp/simpll/passes/MergeNumberedFunctionsPass.cpp, CalledFunctionsAnalysis.cpp,
    FunctionAbstractionsGenerator.cpp, RemoveUnusedReturnValuesPass.cpp, UnifyMemcpyPass.cpp,
    SimplifyKernelFunctionCallsPass.cpp, SimplifyKernelGlobalsPass.cpp, RemoveLifetimeCallsPass.cpp
    (diffkemp/simpll/passes), and cmpGlobalValues of
    diffkemp/simpll/DifferentialFunctionComparator.cpp for functions.
    The IR is that of Funcomp_Model.  A function has an identity, by which instructions refer to
    it, and a name; the callee is the last operand of a call.
    Simplified: there are no constant expressions other than in [CalledFunctionsAnalysis]; names of
    global variables do not collide with those of functions. *)
From Coq Require Import String Ascii ZArith Arith Bool List.
From Verif Require Import PyBase Funcomp_Model Source_Model Compare_Model.
Import ListNotations.
Open Scope list_scope.
Open Scope nat_scope.

Record ftype := mkType { t_ret : string; t_params : list string; t_variadic : bool }.
(** [g_asm]: the metadata "inlineasm", the code and its constraints.  [g_body]: [None] for a
    declaration. *)
Record gfun := mkGfun { g_id : string; g_name : string; g_type : ftype; g_asm : option (string * string); g_body : option func }.
Definition gmodule := list gfun.

Definition strings_eqb (a b : list string) : bool := if list_eq_dec string_dec a b then true else false.
(** LLVM types are unique: equality of pointers. *)
Definition same_type (a b : ftype) : bool :=
  String.eqb (t_ret a) (t_ret b) && strings_eqb (t_params a) (t_params b) && Bool.eqb (t_variadic a) (t_variadic b).
Definition by_id (m : gmodule) (id : string) : option gfun := find (fun g => String.eqb (g_id g) id) m.
(** Module::getFunction *)
Definition by_name (m : gmodule) (n : string) : option gfun := find (fun g => String.eqb (g_name g) n) m.

Definition with_name (n : string) (g : gfun) : gfun := mkGfun (g_id g) n (g_type g) (g_asm g) (g_body g).
Definition with_body (b : option func) (g : gfun) : gfun := mkGfun (g_id g) (g_name g) (g_type g) (g_asm g) b.
(** Value::replaceAllUsesWith, of a function *)
Definition map_value (sub : string -> string) (v : value) : value := match v with VConst (CGlobal g) => VConst (CGlobal (sub g)) | _ => v end.
Definition map_inst (sub : string -> string) (i : inst) : inst := mkInst (i_reg i) (i_code i) (i_rest i) (map (map_value sub) (i_ops i)).
Definition map_insts (h : inst -> inst) (f : func) : func := mkFunc (f_sig f) (f_args f) (map (fun kb => (fst kb, map h (snd kb))) (f_blocks f)).
Definition map_bodies (h : func -> func) (m : gmodule) : gmodule := map (fun g => with_body (option_map h (g_body g)) g) m.
Definition one (a b x : string) : string := if String.eqb x a then b else x.
Definition replace_uses (a b : string) (m : gmodule) : gmodule := map_bodies (map_insts (map_inst (one a b))) m.
(** Function::eraseFromParent *)
Definition erase (a : string) (m : gmodule) : gmodule := filter (fun g => negb (String.eqb (g_id g) a)) m.

(** FunctionAbstractionsGenerator.h:22-23 and FunctionAbstractionsGenerator.cpp:161-174 *)
Definition is_abstraction (name : string) : bool := startswith name "simpll__indirect." || startswith name "simpll__inlineasm.".
Definition intrinsic_name (name : string) : bool := startswith name "llvm.".
(** CallInst::getCalledFunction *)
Definition callee_id (i : inst) : option string := match rev (i_ops i) with VConst (CGlobal g) :: _ => Some g | _ => None end.
Definition call_args (i : inst) : list value := removelast (i_ops i).

Section Names.
  (** ValueSymbolTable::makeUniqueName: a name that is not taken. *)
  Variable unique : list string -> string -> string.
  (** Value::setName *)
  Definition set_name (id n : string) (m : gmodule) : gmodule :=
    let others := map g_name (filter (fun g => negb (String.eqb (g_id g) id)) m) in
    let n' := if mem n others then unique others n else n in
    map (fun g => if String.eqb (g_id g) id then with_name n' g else g) m.

  (** ** MergeNumberedFunctionsPass *)

  (** MergeNumberedFunctionsPass.cpp:31-39 *)
  Definition mergeable (g : gfun) : bool := negb (is_abstraction (g_name g) || intrinsic_name (g_name g)).
  Definition push {A} (d : dict string (list A)) (k : string) (x : A) : dict string (list A) :=
    dset d k (match dget d k with Some l => l ++ [x] | None => [x] end).
  Definition groups (m : gmodule) : dict string (list gfun) :=
    fold_left (fun d g => if mergeable g then push d (base_name (g_name g)) g else d) m [].
  (** MergeNumberedFunctionsPass.cpp:50-55 *)
  Definition merge_one (first : gfun) (m : gmodule) (g : gfun) : gmodule :=
    if same_type (g_type first) (g_type g) then erase (g_id g) (replace_uses (g_id g) (g_id first) m) else m.
  (** MergeNumberedFunctionsPass.cpp:43-62 *)
  Definition merge_group (m : gmodule) (kl : string * list gfun) : gmodule :=
    match snd kl with
    | first :: (_ :: _) as rest =>
      set_name (g_id first) (base_name (g_name first)) (fold_left (merge_one first) (tl (snd kl)) m)
    | _ => m
    end.
  (** MergeNumberedFunctionsPass.cpp:21-65 run; [order]: that of the unordered map. *)
  Definition merge_numbered (order : dict string (list gfun) -> list (string * list gfun)) (m : gmodule) : gmodule :=
    fold_left merge_group (order (groups m)) m.

  (** ** RemoveUnusedReturnValuesPass *)

  (** RemoveUnusedReturnValuesPass.cpp:42-63 *)
  Definition may_be_void (other : gmodule) (called : list string) (g : gfun) : bool :=
    negb (intrinsic_name (g_name g)) && negb (String.eqb (t_ret (g_type g)) "void") &&
    (is_abstraction (g_name g) ||
     match by_name other (g_name g) with
     | Some o => String.eqb (t_ret (g_type o)) "void" && mem (g_id g) called
     | None => false
     end).
  (** RemoveUnusedReturnValuesPass.cpp:67-76: the calls of [id] in [f] whose result is not used *)
  Definition unused_call (id : string) (f : func) (i : inst) : bool :=
    is_call i && opt_eqb (callee_id i) (Some id) && match users f (VReg (i_reg i)) with [] => true | _ => false end.
  (** What is left of the attributes and types of a call (Utils.cpp:722-746 copyCallInstProperties). *)
  Variable void_rest : string -> string.
  (** RemoveUnusedReturnValuesPass.cpp:155-178 *)
  Definition void_call (vid : string) (i : inst) : inst := mkInst (i_reg i) Call (void_rest (i_rest i)) (call_args i ++ [VConst (CGlobal vid)]).
  Definition void_calls (id vid : string) (f : func) : func := map_insts (fun i => if unused_call id f i then void_call vid i else i) f.
  (** RemoveUnusedReturnValuesPass.cpp:132-137 *)
  Definition void_ret (i : inst) : inst := match i_code i with Ret => mkInst (i_reg i) Ret "void" [] | _ => i end.
  (** RemoveUnusedReturnValuesPass.cpp:65-185: the clone has the identity of the function, which it
      replaces.  Not modelled: the simplification of the new function. *)
  Definition make_void (fresh : list string -> string -> string) (m : gmodule) (id : string) : gmodule :=
    match by_id m id with
    | None => m
    | Some g =>
      if existsb (fun h => match g_body h with Some f => existsb (unused_call id f) (insts f) | None => false end) m then
        let vid := fresh (map g_id m) id in
        let orig := base_name (g_name g) in
        let m1 := map (fun h => if String.eqb (g_id h) id then h else with_body (option_map (void_calls id vid) (g_body h)) h) m in
        let new := mkGfun vid "" (mkType "void" (t_params (g_type g)) (t_variadic (g_type g))) (g_asm g)
                     (option_map (fun f => map_insts void_ret (void_calls id vid f)) (g_body g)) in
        set_name vid (orig ++ ".void")%string (set_name id orig m1 ++ [new])
      else m
    end.
  (** RemoveUnusedReturnValuesPass.cpp:25-189 run *)
  Definition remove_unused (fresh : list string -> string -> string) (other : gmodule) (called : list string) (m : gmodule) : gmodule :=
    fold_left (fun m' g => if may_be_void other called g then make_void fresh m' (g_id g) else m') m m.
End Names.

(** ** CalledFunctionsAnalysis *)

(** Constants: functions, global variables, aliases, bit casts and other constants with their
    operands; [KPlain] stands for values that are no constants. *)
Inductive cval := KFun (id : string) | KVar (id : string) | KAlias (of : cval) | KCast (of : cval) | KOther (ops : list cval) | KPlain (n : nat).
(** A function as a list of instructions, each with the called value and the operands; a global
    variable with whether it is constant and its initialiser. *)
Record kmodule := mkK { k_funs : dict string (list (option cval * list cval)); k_vars : dict string (bool * option cval) }.
Fixpoint cval_eqb (a b : cval) : bool :=
  match a, b with
  | KFun x, KFun y | KVar x, KVar y => String.eqb x y
  | KAlias x, KAlias y | KCast x, KCast y => cval_eqb x y
  | KOther xs, KOther ys => (fix go l r := match l, r with [], [] => true | x :: l', y :: r' => cval_eqb x y && go l' r' | _, _ => false end) xs ys
  | KPlain x, KPlain y => Nat.eqb x y
  | _, _ => false
  end.
(** Utils.cpp:65-75 valueToFunction *)
Fixpoint value_function (v : cval) : option string :=
  match v with
  | KFun f => Some f
  | KCast (KFun f) => Some f
  | KAlias a => value_function a
  | _ => None
  end.
Section Called.
  Variable m : kmodule.
  (** The sets Called and ProcessedValues. *)
  Definition cstate := (list string * list cval)%type.
  Inductive task := Collect (f : string) | Process (v : cval).
  Definition seen (l : list cval) (v : cval) : bool := existsb (cval_eqb v) l.
  Definition instr_tasks (i : option cval * list cval) : list task :=
    match fst i with Some c => match value_function c with Some f => [Collect f] | None => [] end | None => [] end ++ map Process (snd i).
  (** CalledFunctionsAnalysis.cpp:59-78: what is done for a value that was not processed *)
  Definition value_tasks (v : cval) : list task :=
    match value_function v with
    | Some f => [Collect f]
    | None =>
      match v with
      | KVar g => match dget (k_vars m) g with Some (true, Some c) => [Process c] | _ => [] end
      | KCast c => [Process c]
      | KAlias c => [Process c]
      | KOther ops => map Process ops
      | _ => []
      end
    end.
  (** CalledFunctionsAnalysis.cpp:35-53 collectCalled and 57-78 processValue; [None]: the number of
      steps is exceeded. *)
  Fixpoint collect (n : nat) (t : task) (s : cstate) : option cstate :=
    match n with
    | O => None
    | S n' =>
      match t with
      | Collect f =>
        if mem f (fst s) then Some s
        else fold_left (fun o t' => match o with Some s' => collect n' t' s' | None => None end)
               (flat_map instr_tasks (match dget (k_funs m) f with Some l => l | None => [] end)) (Some (f :: fst s, snd s))
      | Process v =>
        if seen (snd s) v then Some s
        else fold_left (fun o t' => match o with Some s' => collect n' t' s' | None => None end) (value_tasks v) (Some (fst s, v :: snd s))
      end
    end.
  (** CalledFunctionsAnalysis.cpp:23-31 run *)
  Definition called_functions (n : nat) (main : string) : option (list string) :=
    match collect n (Collect main) ([], []) with Some s => Some (fst s) | None => None end.
End Called.

(** ** FunctionAbstractionsGenerator *)

Section Abstractions.
  (** typeName (Utils.cpp), the type of the function that is called, and inline assembly: its code
      and constraints. *)
  Variable type_name : ftype -> string.
  Variable call_type : inst -> ftype.
  Variable assembly : string -> option (string * string).
  (** The functions of the module (for getCalledFunction). *)
  Variable known : string -> bool.
  Variable pointer : string.

  Definition asm_of (i : inst) : option (string * string) := match callee_id i with Some g => assembly g | None => None end.
  (** FunctionAbstractionsGenerator.cpp:124-131 funHash *)
  Definition fun_hash (i : inst) : string :=
    match asm_of i with
    | Some (code, constraints) => (type_name (call_type i) ++ "$" ++ code ++ "$" ++ constraints)%string
    | None => type_name (call_type i)
    end.
  (** FunctionAbstractionsGenerator.cpp:133-138 abstractionPrefix *)
  Definition prefix_for (i : inst) : string := match asm_of i with Some _ => "simpll__inlineasm."%string | None => "simpll__indirect."%string end.
  Definition needs_abstraction (i : inst) : bool := is_call i && match callee_id i with Some g => negb (known g) | None => true end.
  (** funAbstractions, the counter, and the new functions; a new function has its name as identity. *)
  Record astate := mkA { a_map : dict string string; a_new : list gfun }.
  (** FunctionAbstractionsGenerator.cpp:54-90 *)
  Definition abstraction (i : inst) (s : astate) : string * astate :=
    match dget (a_map s) (fun_hash i) with
    | Some f => (f, s)
    | None =>
      let t := call_type i in
      let name := (prefix_for i ++ dec (length (a_new s)))%string in
      let params := t_params t ++ (match asm_of i with Some _ => [] | None => [pointer] end) in
      (name, mkA (dset (a_map s) (fun_hash i) name) (a_new s ++ [mkGfun name name (mkType (t_ret t) params false) (asm_of i) None]))
    end.
  (** FunctionAbstractionsGenerator.cpp:92-110 *)
  Definition abstract_call (i : inst) (f : string) : inst :=
    mkInst (i_reg i) Call (i_rest i)
      (match asm_of i with Some _ => call_args i ++ [VConst (CGlobal f)] | None => i_ops i ++ [VConst (CGlobal f)] end).
  Definition abstract_inst (i : inst) (s : astate) : inst * astate :=
    if needs_abstraction i then let '(f, s1) := abstraction i s in (abstract_call i f, s1) else (i, s).
  Fixpoint abstract_all {A} (step : A -> astate -> A * astate) (l : list A) (s : astate) : list A * astate :=
    match l with
    | [] => ([], s)
    | x :: l' => let '(y, s1) := step x s in let '(ys, s2) := abstract_all step l' s1 in (y :: ys, s2)
    end.
  Definition abstract_block (kb : nat * list inst) (s : astate) : (nat * list inst) * astate :=
    let '(l, s1) := abstract_all abstract_inst (snd kb) s in ((fst kb, l), s1).
  Definition abstract_fun (called : list string) (g : gfun) (s : astate) : gfun * astate :=
    match g_body g with
    | Some f =>
      if mem (g_id g) called then
        let '(bs, s1) := abstract_all abstract_block (f_blocks f) s in (with_body (Some (mkFunc (f_sig f) (f_args f) bs)) g, s1)
      else (g, s)
    | None => (g, s)
    end.
  (** FunctionAbstractionsGenerator.cpp:27-119 run *)
  Definition abstractions (called : list string) (m : gmodule) : gmodule * dict string string :=
    let '(m1, s) := abstract_all (abstract_fun called) m (mkA [] []) in (m1 ++ a_new s, a_map s).
End Abstractions.

(** DifferentialFunctionComparator.cpp:1267-1328 cmpGlobalValues of two functions: the rest of the
    answer is that of the comparison of the functions themselves, which is noted. *)
Definition print_function (n : string) : bool := mem n ["_dev_info"; "dev_warn"; "dev_err"; "sprintf"; "printk"]%string.
Definition same_asm (a b : option (string * string)) : bool :=
  match a, b with Some (x, y), Some (u, v) => String.eqb x u && String.eqb y v | _, _ => false end.
Definition same_functions (l r : gfun) : bool :=
  let nl := base_name (g_name l) in
  let nr := base_name (g_name r) in
  if String.eqb nl nr || print_function nl && print_function nr then
    if startswith (g_name l) "simpll__inlineasm." && startswith (g_name r) "simpll__inlineasm." then same_asm (g_asm l) (g_asm r) else true
  else false.

(** ** Passes over functions *)

Section Calls.
  (** The name of a called function, and the code of called inline assembly. *)
  Variable name_of : string -> option string.
  Variable assembly : string -> option string.
  Definition callee_name (i : inst) : option string := match callee_id i with Some g => name_of g | None => None end.
  Definition calls_named (n : string) (i : inst) : bool := is_call i && opt_eqb (callee_name i) (Some n).
  Definition null : value := VConst (CGlobal "null").

  (** UnifyMemcpyPass.cpp:31-49: the call of the intrinsic has the identity of the old call; its
      last argument says that it is not volatile. *)
  Definition memcpy_call (memcpy : string) (i : inst) : inst := mkInst (i_reg i) Call "" (firstn 3 (call_args i) ++ [VConst (CInt 0); VConst (CGlobal memcpy)]).
  Definition replace_value (a b : value) (i : inst) : inst := mkInst (i_reg i) (i_code i) (i_rest i) (map (fun v => if eqb v a then b else v) (i_ops i)).
  Definition unify_one (memcpy : string) (f : func) (r : nat) : func :=
    match find_inst f r with
    | Some i =>
      if calls_named "__memcpy" i then
        map_insts (replace_value (VReg r) (op 1 i)) (map_insts (fun j => if Nat.eqb (i_reg j) r then memcpy_call memcpy j else j) f)
      else f
    | None => f
    end.
  (** UnifyMemcpyPass.cpp:19-83 run *)
  Definition unify_memcpy (memcpy : string) (f : func) : func := fold_left (unify_one memcpy) (map i_reg (insts f)) f.

  (** SimplifyKernelFunctionCallsPass.cpp:31-51: only constants are numbers; [is_pointer] by the
      place of the argument. *)
  Variable is_pointer : inst -> nat -> bool.
  Definition set_op (k : nat) (v : value) (i : inst) : inst := mkInst (i_reg i) (i_code i) (i_rest i) (firstn k (i_ops i) ++ v :: skipn (S k) (i_ops i)).
  Definition zero_arg (k : nat) (i : inst) : inst := match nth_error (call_args i) k with Some (VConst (CInt _)) => set_op k (VConst (CInt 0)) i | _ => i end.
  Definition null_arg (k : nat) (i : inst) : inst := match nth_error (call_args i) k with Some _ => if is_pointer i k then set_op k null i else i | None => i end.
  Definition warn_function (n : string) : bool :=
    mem n ["warn_slowpath_null"; "warn_slowpath_fmt"; "__might_sleep"; "__might_fault"; "acpi_ut_predefined_warning"]%string.
  (** SimplifyKernelFunctionCallsPass.cpp:54-122; the new call has the identity of the old one. *)
  Definition simplify_call (i : inst) : inst :=
    if negb (is_call i) then i
    else
      match callee_name i with
      | None =>
        match callee_id i with
        | Some g =>
          match assembly g with
          | Some code =>
            let i1 := if contains code "__bug_table" then zero_arg 1 (null_arg 0 i) else i in
            if contains code ".discard.reachable" || contains code ".discard.unreachable" then zero_arg 0 i1 else i1
          | None => i
          end
        | None => i
        end
      | Some n =>
        if print_function n then mkInst (i_reg i) Call (i_rest i) [null; null; VConst (CGlobal (match callee_id i with Some g => g | None => n end))]
        else if warn_function n then zero_arg 1 (null_arg 0 i)
        else i
      end.
  Definition simplify_calls (f : func) : func := map_insts simplify_call f.

  (** RemoveLifetimeCallsPass.cpp:18-42 run, of one function *)
  Definition lifetime (i : inst) : bool :=
    is_call i && match callee_name i with Some n => contains n "llvm.lifetime.start" || contains n "llvm.lifetime.end" | None => false end.
  Definition remove_lifetime (f : func) : func :=
    mkFunc (f_sig f) (f_args f) (map (fun kb => (fst kb, filter (fun i => negb (lifetime i)) (snd kb))) (f_blocks f)).
End Calls.

(** SimplifyKernelGlobalsPass.cpp:103-115, the functions; there is no other function of the name
    when a function gets it. *)
Definition assert_function (n : string) : bool := contains n "__compiletime_assert" && negb (String.eqb n "__compiletime_assert").
Definition unify_assert (m : gmodule) (id : string) : gmodule :=
  match by_id m id with
  | Some g =>
    if assert_function (g_name g) then
      match by_name m "__compiletime_assert" with
      | Some o => replace_uses id (g_id o) m
      | None => map (fun h => if String.eqb (g_id h) id then with_name "__compiletime_assert" h else h) m
      end
    else m
  | None => m
  end.
Definition unify_asserts (m : gmodule) : gmodule := fold_left unify_assert (map g_id m) m.
