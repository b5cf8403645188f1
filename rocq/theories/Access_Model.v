(** * Model of the comparison of accesses to fields and of calls for changed structures
    (diffkemp/simpll/DifferentialFunctionComparator.cpp: cmpFieldAccess, the part of cmpOperations
    about calls, cmpAllocs, cmpMemset, cmpCallsWithExtraArg; diffkemp/simpll/FieldAccessUtils.cpp:
    isConstantMemoryAccessToPtr).  Values, instructions and the state of a comparison are those of
    Funcomp_Model. *)
From Coq Require Import String Ascii ZArith Arith Bool List.
From Verif Require Import PyBase Funcomp_Model.
Import ListNotations.
Open Scope list_scope.
Open Scope nat_scope.

(** FieldAccessUtils.cpp:63 [Offset = InstOffset.getZExtValue()]: 64 bits are stored in an int. *)
Definition as_int (z : Z) : Z := let m := Z.modulo z (2 ^ 32) in if Z.ltb m (2 ^ 31) then m else Z.sub m (2 ^ 32).
(** [uint64_t OffsetL += offset] (DifferentialFunctionComparator.cpp:1471, 1479) *)
Definition add64 (a b : Z) : Z := Z.modulo (Z.add a b) (2 ^ 64).

Section Access.
  Variable w : world.
  Variables fl fr : func.
  Variable to_int : inst -> bool.   (* the conversion is a PtrToIntInst *)

  (** FieldAccessUtils.cpp:49-70 isConstantMemoryAccessToPtr *)
  Definition access_to (i : inst) (ptr : value) : option Z :=
    match i_code i with
    | Gep o => if value_eqb ptr (op 0 i) then match o with Some z => Some (as_int z) | None => None end else None
    | Cast _ => if negb (to_int i) && value_eqb ptr (op 0 i) then Some 0%Z else None
    | _ => None
    end.
  (** One side of the loop of DifferentialFunctionComparator.cpp:1468-1485; the sides do not
      depend on each other. *)
  Fixpoint along (ptr : value) (offset : Z) (l : list inst) : value * Z * list inst :=
    match l with
    | i :: l' =>
      match access_to i ptr with Some z => along (VReg (i_reg i)) (add64 offset z) l' | None => (ptr, offset, l) end
    | [] => (ptr, offset, [])
    end.
  (** DifferentialFunctionComparator.cpp:1434-1496 cmpFieldAccess; the answer is where the
      comparison goes on, if the accesses are equal.  All indices are constant exactly if the
      offset is known. *)
  Definition field_access (n : nat) (ls rs : list inst) (s : state) : option (option (list inst * list inst) * state) :=
    match ls, rs with
    | i :: _, j :: _ =>
      match i_code i, i_code j with
      | Gep (Some _), Gep (Some _) =>
        match cmp_values w fl fr n (op 0 i) (op 0 j) s with
        | None => None
        | Some (false, s1) => Some (None, s1)
        | Some (true, s1) =>
          let '(p, a, ls') := along (op 0 i) 0 ls in
          let '(q, b, rs') := along (op 0 j) 0 rs in
          if Z.eqb a b
          then match cmp_values w fl fr n p q s1 with None => None | Some (_, s2) => Some (Some (ls', rs'), s2) end
          else Some (None, s1)
        end
      | _, _ => Some (None, s)
      end
    | _, _ => Some (None, s)
    end.
  (** DifferentialFunctionComparator.cpp:960-970, 1156-1157: two instructions are compared, and if they are
      different GEPs the accesses they start. *)
  Definition step (n : nat) (ls rs : list inst) (s : state) : option (option (list inst * list inst) * state) :=
    match ls, rs with
    | i :: ls', j :: rs' =>
      match cmp_insts w fl fr (cmp_values w fl fr n) i j s with
      | None => None
      | Some (true, s1) => Some (Some (ls', rs'), s1)
      | Some (false, s1) =>
        match i_code i, i_code j with Gep _, Gep _ => field_access n ls rs s1 | _, _ => Some (None, s1) end
      end
    | _, _ => Some (None, s)
    end.
End Access.

(** ** Calls *)
Section Calls.
  Variable p_structs : bool.                        (* config.Patterns.StructAlignment *)
  Variable p_control : bool.                        (* config.Patterns.ControlFlowOnly *)
  Variable cv : comparer.                           (* cmpValues *)
  Variable called : bool -> inst -> option string.  (* the name of getCalledFunction; the first function has [true] *)
  Variable memset : string -> bool.                 (* a function of this name is the intrinsic memset *)
  Variable following : bool -> inst -> option inst. (* getNextNode *)
  Variable bit_cast : bool -> value -> option value. (* a value that is a BitCastInst, and its operand *)
  Variable pointee : bool -> value -> string * Z.   (* Utils.cpp:618-655 getPointeeStructTypeInfo *)
  Variable is_zero : const -> bool.                 (* isNullValue or isZeroValue *)
  Variable same_types : value -> value -> bool.     (* cmpTypes of the types of two values *)

  (** Utils.cpp:210-213 isAllocFunction *)
  Definition is_alloc (name : string) : bool := String.eqb name "kzalloc" || String.eqb name "__kmalloc" || String.eqb name "kmalloc".
  Definition constant_int (v : value) : option Z := match v with VConst (CInt z) => Some z | _ => None end.
  (** DifferentialFunctionComparator.cpp:467-473 cmpIntWithConstant (of 64 bits) *)
  Definition int_is (z : Z) (v : value) : bool :=
    match constant_int v with Some c => Z.eqb (Z.modulo c (2 ^ 64)) z | None => false end.
  (** The last lines of cmpAllocs and cmpMemset (504-508 and 1770-1774) *)
  Definition same_structs (l r : value) (size_l size_r : value) : bool :=
    let a := pointee true l in
    let b := pointee false r in
    negb (String.eqb (fst a) "") && negb (String.eqb (fst b) "") && String.eqb (fst a) (fst b)
    && int_is (snd a) size_l && int_is (snd b) size_r.
  (** DifferentialFunctionComparator.cpp:479-509 cmpAllocs *)
  Definition result_of (left : bool) (i : inst) : value :=
    match following left i with
    | Some k => match bit_cast left (VReg (i_reg k)) with Some _ => VReg (i_reg k) | None => VReg (i_reg i) end
    | None => VReg (i_reg i)
    end.
  Definition cmp_allocs (i j : inst) (s : state) : option (bool * state) :=
    match cv (op 0 i) (op 0 j) s with
    | None => None
    | Some (true, s1) => Some (true, s1)
    | Some (false, s1) =>
      match constant_int (op 0 i), constant_int (op 0 j) with
      | Some _, Some _ => Some (same_structs (result_of true i) (result_of false j) (op 0 i) (op 0 j), s1)
      | _, _ => Some (false, s1)
      end
    end.
  (** DifferentialFunctionComparator.cpp:1737-1775 cmpMemset; the last operand of a call is the
      called function. *)
  Fixpoint cmp_but_size (k : nat) (ls rs : list value) (s : state) : option (bool * state) :=
    match ls, rs with
    | l :: ls', r :: rs' =>
      if Nat.eqb k 2 then cmp_but_size (S k) ls' rs' s
      else match cv l r s with Some (true, s1) => cmp_but_size (S k) ls' rs' s1 | x => x end
    | _, _ => Some (true, s)
    end.
  Definition args (i : inst) : list value := removelast (i_ops i).
  Definition destination (left : bool) (i : inst) : value :=
    match bit_cast left (op 0 i) with Some v => v | None => op 0 i end.
  Definition cmp_memset (i j : inst) (s : state) : option (bool * state) :=
    match cmp_but_size 0 (args i) (args j) s with
    | None => None
    | Some (false, s1) => Some (false, s1)
    | Some (true, s1) =>
      match cv (op 2 i) (op 2 j) s1 with
      | None => None
      | Some (true, s2) => Some (true, s2)
      | Some (false, s2) => Some (same_structs (destination true i) (destination false j) (op 2 i) (op 2 j), s2)
      end
    end.
  (** DifferentialFunctionComparator.cpp:1627-1663 cmpCallsWithExtraArg; a value of the call with
      more arguments is given first to cmpValues, also if it is one of the second function.  (So the
      identities of the values of both functions have to be different here.) *)
  Fixpoint cmp_common (ls rs : list value) (s : state) : option (bool * state) :=
    match ls, rs with
    | l :: ls', r :: rs' =>
      if same_types l r then match cv l r s with Some (true, s1) => cmp_common ls' rs' s1 | x => x end else Some (false, s)
    | _, _ => Some (true, s)
    end.
  Definition cmp_extra (i j : inst) (s : state) : option (bool * state) :=
    let '(more, fewer) := if Nat.ltb (length (i_ops j)) (length (i_ops i)) then (i, j) else (j, i) in
    match nth_error (i_ops more) (length (i_ops more) - 2) with
    | Some (VConst c) =>
      if negb (is_zero c) then Some (false, s)
      else if negb (same_types (VReg (i_reg more)) (VReg (i_reg fewer))) then Some (false, s)
      else cmp_common (firstn (length (i_ops fewer) - 1) (i_ops more)) (args fewer) s
    | _ => Some (false, s)
    end.
  (** DifferentialFunctionComparator.cpp:282-322, the part of cmpOperations about calls: [result]
      and [need] are the answers so far (see [cmp_operation_base] of Funcomp_Model). *)
  Definition cmp_calls (i j : inst) (result need : bool) (s : state) : option (bool * bool * state) :=
    match i_code i, i_code j, called true i, called false j with
    | Call, Call, Some a, Some b =>
      if negb (String.eqb a b) then Some (result, need, s) else
      match (if is_alloc a && p_structs then cmp_allocs i j s else Some (false, s)) with
      | None => None
      | Some (true, s1) => Some (true, false, s1)
      | Some (false, s1) =>
        match (if memset a && memset b && p_structs then cmp_memset i j s1 else Some (false, s1)) with
        | None => None
        | Some (true, s2) => Some (true, false, s2)
        | Some (false, s2) =>
          if negb result && p_control && (Nat.eqb (length (i_ops i)) (S (length (i_ops j))) || Nat.eqb (length (i_ops j)) (S (length (i_ops i))))
          then match cmp_extra i j s2 with None => None | Some (b', s3) => Some (b', false, s3) end
          else Some (result, need, s2)
        end
      end
    | _, _, _, _ => Some (result, need, s)
    end.
End Calls.
