(** * Model of the search for variables of parameters and for functions that use them
    (diffkemp/simpll/library/DiffKempUtils.cpp) *)
From Coq Require Import String Ascii ZArith Arith Bool List.
From Verif Require Import PyBase.
Import ListNotations.
Open Scope list_scope.
Open Scope Z_scope.

(** ** Functions that use a parameter *)
(** Operands of instructions and of constant expressions.  [OpNum] has the number as getZExtValue
    gives it.  Constants that are neither numbers, expressions nor global variables, and values of
    the function, are [OpOther]. *)
Inductive operand := OpVar (name : string) | OpNum (v : Z) | OpExpr (gep : bool) (ops : list operand) | OpOther.
Record inst := mkInst { i_gep : bool; i_ops : list operand }.
(** Names of functions are unique in LLVM. *)
Record module := mkModule { m_vars : list string; m_funs : list (string * list inst) }.

Section Using.
  (** What is in memory behind the list of indices: reading it is undefined in C++. *)
  Variable beyond : nat -> Z.
  Variable indices : list Z.
  (** DiffKempUtils.cpp:59-73 checkGEPIndicesCorrespond, for the operands from [i] on (counted from 0
      without the pointer). *)
  Fixpoint correspond (i : nat) (ops : list operand) : bool :=
    match ops with
    | [] => true
    | op :: ops' =>
      (if Nat.leb (length indices) i
       then match op with OpNum v => Z.eqb v (beyond i mod 2 ^ 32) | _ => true end
       else true) && correspond (S i) ops'
    end.
  Definition checked (gep : bool) (ops : list operand) : bool :=
    if gep && negb (Nat.eqb (length indices) 0) then correspond 0 (tl ops) else true.
  Definition is_var (g : string) (op : operand) : bool := match op with OpVar x => String.eqb x g | _ => false end.
  (** DiffKempUtils.cpp:85-115, from the side of the instruction: the code goes through the uses of the
      variable and through those of the expressions that use it. *)
  Definition uses (g : string) (i : inst) : bool :=
    existsb (fun op => match op with
                       | OpVar x => String.eqb x g && checked (i_gep i) (i_ops i)
                       | OpExpr gep ops => existsb (is_var g) ops && checked gep ops
                       | _ => false
                       end) (i_ops i).
  (** DiffKempUtils.cpp:76-119 getFunctionsUsingParam; simplified: the order is that of the module. *)
  Definition functions_using (m : module) (g : string) : list string :=
    if mem g (m_vars m)
    then map fst (filter (fun f => negb (contains (fst f) ".old") && existsb (uses g) (snd f)) (m_funs m))
    else [].
End Using.

(** ** The variable of a parameter *)
(** Constants: global variables, expressions with their operands, structures with their elements, others. *)
Inductive const := KVar (name : string) | KExpr (ops : list const) | KStruct (elems : list const) | KOther.
(** Global variables with their initial values; none for declarations. *)
Definition globals := dict string (option const).
(** [Crash]: an operand or initialiser that is not there is used. *)
Inductive outcome := Name (s : string) | Nothing | Crash.

Definition wrapper (g : string) : bool := contains g "__param_arr" || contains g "__param_string".
Definition last_of (l : list const) : option const := match rev l with c :: _ => Some c | [] => None end.
(** DiffKempUtils.cpp:25-49 extractParamName; [None] if [n] steps do not suffice. *)
Fixpoint extract (n : nat) (m : globals) (c : const) : option outcome :=
  match n with
  | O => None
  | S n' =>
    match c with
    | KVar g =>
      if wrapper g then
        match dget m g with
        | Some (Some (KStruct es)) => match last_of es with Some c' => extract n' m c' | None => Some Crash end
        | Some (Some _) => Some Nothing
        | _ => Some Crash
        end
      else Some (Name g)
    | KExpr (c' :: _) => extract n' m c'
    | KExpr [] => Some Crash
    | _ => Some Nothing
    end
  end.
(** DiffKempUtils.cpp:130-152 findParamVar, and FFI.cpp:150-157 findParamVarC: an empty name is none. *)
Definition find_param_var (n : nat) (m : globals) (param : string) : option outcome :=
  match dget m ("__param_" ++ param)%string with
  | None => Some Nothing
  | Some None => Some Crash
  | Some (Some (KStruct es)) =>
    match last_of es with
    | None => Some Crash
    | Some (KStruct [c]) =>
      match extract n m c with Some (Name EmptyString) => Some Nothing | x => x end
    | Some _ => Some Nothing
    end
  | Some (Some _) => Some Nothing
  end.
