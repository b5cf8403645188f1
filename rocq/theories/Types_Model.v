(** * Model of the comparison of types and of constants
    (diffkemp/simpll/DifferentialFunctionComparator.cpp: cmpTypes, cmpAPInts, cmpConstants,
    cmpGlobalValues; diffkemp/simpll/llvm-lib/15/FunctionComparator.cpp: cmpTypes, cmpAPInts,
    cmpAPFloats, cmpMem, cmpConstants).  Only whether the answer is zero is modelled, not the order.
    Not modelled: block addresses, opaque structures. *)
From Coq Require Import String Ascii ZArith Arith Bool List.
From Verif Require Import PyBase.
Import ListNotations.
Open Scope list_scope.
Open Scope Z_scope.

(** ** Types of LLVM, with opaque pointers.  [TPrim] are the types without parameters (void,
    labels, floating point).  A literal structure has the name "" (getStructName has an assertion
    against that, which is off in releases). *)
Inductive ty :=
| TInt (bits : Z) | TPtr (space : nat) | TPrim (id : nat)
| TStruct (name : string) (packed : bool) (elems : list ty)
| TFunc (vararg : bool) (ret : ty) (params : list ty)
| TArray (n : Z) (elem : ty) | TVector (scalable : bool) (n : Z) (elem : ty).

Section Types.
  Variables p_structs p_casts : bool.        (* config.Patterns.StructAlignment, TypeCasts *)
  Variable pointer_bits : Z.                 (* the width of DL.getIntPtrType *)
  Variables size_l size_r : ty -> Z.         (* getTypeAllocSize of the layouts of both modules *)

  Definition is_struct (t : ty) : bool := match t with TStruct _ _ _ => true | _ => false end.
  Definition is_union (t : ty) : bool := match t with TStruct name _ _ => String.prefix "union" name | _ => false end.
  (** DifferentialFunctionComparator.cpp:1674-1696: the structure is that of the first version if
      both are. *)
  Definition union_rule (l r : ty) : bool :=
    p_structs && (is_struct l || is_struct r)
    && (if is_struct l then is_union l && Z.leb (size_r r) (size_l l) else is_union r && Z.leb (size_l l) (size_r r)).
  (** FunctionComparator.cpp:425-429 *)
  Definition lower (t : ty) : ty := match t with TPtr 0 => TInt pointer_bits | t => t end.

  (** DifferentialFunctionComparator.cpp:1667-1713 cmpTypes with FunctionComparator.cpp:421-515 cmpTypes, which
      calls it again.  That the same type is equal to itself is looked at first in the code; here
      it is found by its structure. *)
  Fixpoint cmp_types (l r : ty) {struct l} : bool :=
    if union_rule l r then true
    else
      match l, r with
      | TInt a, TInt b => if p_casts then (if Z.eqb a 1 || Z.eqb b 1 then Z.eqb a b else true) else Z.eqb a b
      | TArray a x, TArray b y => if p_casts then cmp_types x y else Z.eqb a b && cmp_types x y
      | _, _ =>
        match lower l, lower r with
        | TInt a, TInt b => Z.eqb a b
        | TPrim a, TPrim b | TPtr a, TPtr b => Nat.eqb a b
        | TStruct _ p _, TStruct _ q ys =>
          match l with
          | TStruct _ _ xs =>
            Nat.eqb (length xs) (length ys) && Bool.eqb p q
            && (fix all (xs ys : list ty) : bool :=
                  match xs, ys with x :: xs', y :: ys' => cmp_types x y && all xs' ys' | _, _ => true end) xs ys
          | _ => false
          end
        | TFunc _ _ _, TFunc v' y ys =>
          match l with
          | TFunc v x xs =>
            Nat.eqb (length xs) (length ys) && Bool.eqb v v' && cmp_types x y
            && (fix all (xs ys : list ty) : bool :=
                  match xs, ys with x :: xs', y :: ys' => cmp_types x y && all xs' ys' | _, _ => true end) xs ys
          | _ => false
          end
        | TVector _ _ _, TVector s' b y =>
          match l with TVector s a x => Bool.eqb s s' && Z.eqb a b && cmp_types x y | _ => false end
        | _, _ => false
        end
      end.

  (** ** Constants.  [KZero] are ConstantAggregateZero and ConstantPointerNull; [KFp] has the bits of
      a number; [KData] are ConstantDataArray and ConstantDataVector with their bytes; [KAgg] are
      ConstantArray, ConstantStruct and ConstantVector. *)
  Inductive constant :=
  | KInt (bits v : Z) | KFp (id : nat) (v : Z) | KZero (t : ty) | KUndef (t : ty) | KPoison (t : ty)
  | KData (t : ty) (bytes : list Z) | KAgg (t : ty) (elems : list constant)
  | KExpr (opcode : string) (t : ty) (ops : list constant) | KGlobal (id : string).
  Record global := mkGlobal { g_constant : bool; g_init : option constant }.
  Variables gl gr : dict string global.
  Variable same_named : string -> string -> bool.  (* the rest of cmpGlobalValues: see [same_functions] of Passes_Model *)
  Variable vector_bits : ty -> Z.                  (* getPrimitiveSizeInBits of a vector *)
  Variable is_cast : string -> bool.               (* ConstantExpr::isCast for an opcode *)

  Definition type_of (c : constant) : ty :=
    match c with
    | KInt b _ => TInt b | KFp id _ => TPrim id | KZero t | KUndef t | KPoison t | KData t _ | KAgg t _ | KExpr _ t _ => t
    | KGlobal _ => TPtr 0
    end.
  (** Constant::isNullValue *)
  Definition is_null (c : constant) : bool := match c with KInt _ v | KFp _ v => Z.eqb v 0 | KZero _ => true | _ => false end.
  Definition shape (t : ty) : nat := match t with TArray _ _ => 0%nat | TVector _ _ _ => 1%nat | _ => 2%nat end.
  (** FunctionComparator.cpp:222-270: types that are not equal, but of vectors of the same width *)
  Definition width (t : ty) : Z := match t with TVector _ _ _ => vector_bits t | _ => 0 end.
  Definition bit_castable (l r : ty) : bool := Z.eqb (width l) (width r) && negb (Z.eqb (width l) 0).
  (** FunctionComparator.cpp:77-85 and DifferentialFunctionComparator.cpp:1717-1731 cmpAPInts;
      simplified: integers of over 64 bits are compared as others, getZExtValue has an assertion. *)
  Definition same_int (a x b y : Z) : bool := if p_casts then Z.eqb x y else Z.eqb a b && Z.eqb x y.
  (** FunctionComparator.cpp:106-114 cmpMem *)
  Fixpoint same_bytes (a b : list Z) : bool :=
    match a, b with [], [] => true | x :: a', y :: b' => Z.eqb x y && same_bytes a' b' | _, _ => false end.
  Definition constants : Type := list (string * string).

  (** The operands or elements of two constants, one after the other. *)
  Fixpoint cmp_each (cmp : constant -> constant -> option bool) (ls rs : list constant) : option bool :=
    match ls, rs with
    | l :: ls', r :: rs' => match cmp l r with Some true => cmp_each cmp ls' rs' | x => x end
    | _, _ => Some true
    end.
  (** DifferentialFunctionComparator.cpp:1247-1335 cmpGlobalValues; [assumed] is assumedEqual. *)
  Definition variables (a b : string) : option (constant * constant) :=
    match dget gl a, dget gr b with
    | Some x, Some y =>
      match g_init x, g_init y with Some c, Some d => if g_constant x && g_constant y then Some (c, d) else None | _, _ => None end
    | _, _ => None
    end.
  Definition cmp_global (cmp : constants -> constant -> constant -> option bool) (assumed : constants) (a b : string) : option bool :=
    if mem (a, b) assumed then Some true
    else match variables a b with Some (c, d) => cmp ((a, b) :: assumed) c d | None => Some (same_named a b) end.
  (** FunctionComparator.cpp:214-410 cmpConstants; [cmp] is the virtual function. *)
  Definition cmp_constants_base (cmp : constants -> constant -> constant -> option bool) (assumed : constants) (l r : constant) : option bool :=
    let same := cmp_types (type_of l) (type_of r) in
    if negb same && negb (bit_castable (type_of l) (type_of r)) then Some false
    else if is_null l && is_null r then Some same
    else if is_null l || is_null r then Some false
    else
      match l, r with
      | KGlobal a, KGlobal b => cmp_global cmp assumed a b
      | KData t a, KData u b => Some (Nat.eqb (shape t) (shape u) && same_bytes a b)
      | KUndef _, KUndef _ | KPoison _, KPoison _ => Some same
      | KInt a x, KInt b y => Some (same_int a x b y)
      | KFp a x, KFp b y => Some (Nat.eqb a b && Z.eqb x y)
      | KAgg t xs, KAgg u ys =>
        if Nat.eqb (shape t) (shape u) && Nat.eqb (length xs) (length ys) then cmp_each (cmp assumed) xs ys else Some false
      | KExpr _ _ xs, KExpr _ _ ys => if Nat.eqb (length xs) (length ys) then cmp_each (cmp assumed) xs ys else Some false
      | _, _ => Some false
      end.
  (** DifferentialFunctionComparator.cpp:1597-1625 cmpConstants *)
  Definition cast_of (c : constant) : option constant :=
    match c with KExpr o _ (x :: _) => if is_cast o then Some x else None | _ => None end.
  Fixpoint cmp_constants (n : nat) (assumed : constants) (l r : constant) : option bool :=
    match n with
    | O => None
    | S n' =>
      match cmp_constants_base (cmp_constants n') assumed l r with
      | Some false =>
        if p_casts then
          match cast_of l, cast_of r with
          | Some a, Some b => cmp_constants n' assumed a b
          | Some a, None => cmp_constants n' assumed a r
          | None, Some b => cmp_constants n' assumed l b
          | None, None => Some false
          end
        else Some false
      | x => x
      end
    end.
End Types.
