(** * Model of the removal of the kernel symbol table:
    diffkemp/simpll/passes/SimplifyKernelGlobalsPass.cpp:36-100 (the rest of the pass is in
    Passes_Model).
    Simplified: a function is its name and the constants its instructions use, in the order of
    the text.  Of the properties of a global variable, its name and its initial value are kept.
    A cast of a null pointer is not folded to a null pointer. *)
From Coq Require Import String Ascii ZArith Arith Bool List.
From Verif Require Import PyBase.
Import ListNotations.
Open Scope list_scope.
Open Scope nat_scope.

(** Constants.  [KGlobal]: a function or a variable, by its name.  [KCast]: a constant expression
    with its first operand and the rest of it. *)
Inductive const :=
| KNull | KInt (n : Z) | KGlobal (n : string) | KCast (c : const) (rest : string)
| KStruct (l : list const) | KArray (l : list const).

Record var := mkVar { v_name : string; v_init : option const }.
Record kmodule := mkModule { m_vars : list var; m_funs : list (string * list const) }.

(** SimplifyKernelGlobalsPass.cpp:43 and 63 *)
Definition symbol_name (n : string) : bool := startswith n "__ksym".

(** Value::getName; constants other than functions and variables have none. *)
Definition const_name (c : const) : string := match c with KGlobal n => n | _ => EmptyString end.
(** SimplifyKernelGlobalsPass.cpp:54-61 *)
Definition entry_name (c : const) : string := match c with KCast c _ => const_name c | _ => const_name c end.

(** Module::getGlobalVariable *)
Definition lookup (n : string) (l : list var) : option var := find (fun v => String.eqb (v_name v) n) l.
(** GlobalVariable::eraseFromParent *)
Definition erase_var (n : string) (l : list var) : list var := filter (fun v => negb (String.eqb (v_name v) n)) l.

(** SimplifyKernelGlobalsPass.cpp:48-84; [None]: a null pointer is used (or an assertion fails),
    as the initial value is not an array, or there is none. *)
Definition clean_used (l : list var) : option (list var) :=
  match lookup "llvm.used" l with
  | None => Some l
  | Some u =>
      match v_init u with
      | Some (KArray es) =>
          let new := filter (fun e => negb (symbol_name (entry_name e))) es in
          Some (erase_var "llvm.used" l ++ match new with [] => [] | _ => [mkVar "llvm.used" (Some (KArray new))] end)
      | _ => None
      end
  end.

(** Value::replaceAllUsesWith of the variable [n], with a null pointer, in a constant *)
Fixpoint drop (n : string) (c : const) : const :=
  match c with
  | KGlobal m => if String.eqb m n then KNull else c
  | KCast d r => KCast (drop n d) r
  | KStruct l => KStruct (map (drop n) l)
  | KArray l => KArray (map (drop n) l)
  | _ => c
  end.
Definition drop_var (n : string) (v : var) : var := mkVar (v_name v) (option_map (drop n) (v_init v)).
Definition drop_fun (n : string) (f : string * list const) : string * list const := (fst f, map (drop n) (snd f)).

(** Constants are unique: equality of pointers. *)
Fixpoint const_eqb (a b : const) {struct a} : bool :=
  let fix all (l m : list const) {struct l} : bool :=
    match l, m with [], [] => true | x :: l', y :: m' => const_eqb x y && all l' m' | _, _ => false end in
  match a, b with
  | KNull, KNull => true
  | KInt x, KInt y => Z.eqb x y
  | KGlobal x, KGlobal y => String.eqb x y
  | KCast x r, KCast y s => const_eqb x y && String.eqb r s
  | KStruct l, KStruct m => all l m
  | KArray l, KArray m => all l m
  | _, _ => false
  end.
(** [a] is used in [c] or is [c]. *)
Fixpoint inside (a c : const) : bool :=
  const_eqb a c || match c with
                   | KCast d _ => inside a d
                   | KStruct l => existsb (inside a) l
                   | KArray l => existsb (inside a) l
                   | _ => false
                   end.
Definition used_in (a : const) (m : kmodule) : bool :=
  existsb (fun v => match v_init v with Some c => inside a c | None => false end) (m_vars m)
  || existsb (fun f => existsb (inside a) (snd f)) (m_funs m).

(** SimplifyKernelGlobalsPass.cpp:87-100; [None]: an assertion fails, as the variable has no
    initial value, or Constant::destroyConstant is called for a constant that is in use. *)
Definition remove_symbol (n : string) (m : kmodule) : option kmodule :=
  match lookup n (m_vars m) with
  | Some (mkVar _ (Some init)) =>
      let m' := mkModule (map (drop_var n) (erase_var n (m_vars m))) (map (drop_fun n) (m_funs m)) in
      match init with
      | KStruct _ => if used_in (drop n init) m' then None else Some m'
      | _ => Some m'
      end
  | _ => None
  end.
Fixpoint remove_symbols (ns : list string) (m : kmodule) : option kmodule :=
  match ns with
  | [] => Some m
  | n :: ns' => match remove_symbol n m with Some m' => remove_symbols ns' m' | None => None end
  end.

(** SimplifyKernelGlobalsPass.cpp:36-100 *)
Definition remove_symbol_table (m : kmodule) : option kmodule :=
  let ns := filter symbol_name (map v_name (m_vars m)) in
  match clean_used (m_vars m) with
  | Some vs => remove_symbols ns (mkModule vs (m_funs m))
  | None => None
  end.
