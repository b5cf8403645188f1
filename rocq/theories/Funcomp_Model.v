(** * Model of the comparison of two functions, instruction by instruction
    (diffkemp/simpll/DifferentialFunctionComparator.cpp,
    diffkemp/simpll/llvm-lib/15/FunctionComparator.cpp, diffkemp/simpll/Utils.cpp).
    Not modelled here: custom patterns (see Pattern_Model), the exceptions for changed structures
    (cmpFieldAccess, cmpAllocs, cmpMemset, cmpCallsWithExtraArg: see Access_Model; the field names in
    cmpGEPs: see Layout_Model).  Not modelled: the predicates that differ in their sign only when
    type casts are ignored, the search for the source of a difference, inlining (see
    Modcomp_Model). *)
From Coq Require Import String Ascii ZArith Arith Bool List.
From Verif Require Import PyBase.
Import ListNotations.
Open Scope list_scope.
Open Scope nat_scope.

(** ** LLVM IR *)

Inductive const := CInt (z : Z) | CGlobal (name : string).
(** Values: arguments, instructions, basic blocks and constants (with globals and inline
    assembly); each has an identity within its function. *)
Inductive value := VArg (n : nat) | VReg (n : nat) | VBlock (n : nat) | VConst (c : const).
(** What is done.  Conversions are either bit casts or not; [Gep] carries its offset if it is
    constant; [Phi] the incoming blocks (the incoming values are the operands); [Br] has the
    operands of LLVM: the condition, then the targets from the last to the first. *)
Inductive code :=
| Phi (from : list nat) | Alloca | Load | Store | Call | Cast (bit : bool) | Gep (offset : option Z)
| Binop (name : string) | Cmp (predicate : string) | Br | Switch | Ret | Unreachable | Other | Debug.
(** [i_rest] stands for everything else an instruction has: its type and those of its operands,
    flags, alignment, attributes. *)
Record inst := mkInst { i_reg : nat; i_code : code; i_rest : string; i_ops : list value }.
(** The first block is the entry. *)
Record func := mkFunc { f_sig : string; f_args : nat; f_blocks : list (nat * list inst) }.

Definition const_eqb (a b : const) : bool :=
  match a, b with CInt x, CInt y => Z.eqb x y | CGlobal x, CGlobal y => String.eqb x y | _, _ => false end.
Lemma const_eqb_spec a b : reflect (a = b) (const_eqb a b).
Proof. destruct a, b; cbn; try (constructor; congruence); [destruct (Z.eqb_spec z z0)|destruct (String.eqb_spec name name0)]; constructor; congruence. Qed.
Definition value_eqb (a b : value) : bool :=
  match a, b with VArg x, VArg y | VReg x, VReg y | VBlock x, VBlock y => Nat.eqb x y | VConst x, VConst y => const_eqb x y | _, _ => false end.
Lemma value_eqb_spec a b : reflect (a = b) (value_eqb a b).
Proof. destruct a, b; cbn; try (constructor; congruence); [destruct (Nat.eqb_spec n n0)|destruct (Nat.eqb_spec n n0)|destruct (Nat.eqb_spec n n0)|destruct (const_eqb_spec c c0)]; constructor; congruence. Qed.
#[export] Instance EqB_value : EqB value := {| eqb := value_eqb; eqb_spec := value_eqb_spec |}.

Definition is_block (v : value) : bool := match v with VBlock _ => true | _ => false end.
Definition is_reg (v : value) : bool := match v with VReg _ => true | _ => false end.
Definition is_phi (i : inst) : bool := match i_code i with Phi _ => true | _ => false end.
Definition is_debug (i : inst) : bool := match i_code i with Debug => true | _ => false end.
Definition is_call (i : inst) : bool := match i_code i with Call => true | _ => false end.
Definition is_terminator (i : inst) : bool := match i_code i with Br | Switch | Ret | Unreachable => true | _ => false end.
Definition blocks_of (ops : list value) : list nat := flat_map (fun v => match v with VBlock b => [b] | _ => [] end) ops.
(** Instruction::getSuccessor *)
Definition successors (i : inst) : list nat :=
  match i_code i with Br => rev (blocks_of (i_ops i)) | Switch => blocks_of (i_ops i) | _ => [] end.
Definition block (f : func) (b : nat) : list inst := match dget (f_blocks f) b with Some l => l | None => [] end.
Definition terminator (l : list inst) : option inst := match rev l with i :: _ => if is_terminator i then Some i else None | [] => None end.
Definition insts (f : func) : list inst := flat_map snd (f_blocks f).
Definition find_inst (f : func) (r : nat) : option inst := find (fun i => Nat.eqb (i_reg i) r) (insts f).
Definition inst_of (f : func) (v : value) : option inst := match v with VReg r => find_inst f r | _ => None end.
(** Value::users *)
Definition users (f : func) (v : value) : list inst := filter (fun i => mem v (i_ops i)) (insts f).
(** llvm::predecessors *)
Definition predecessors (f : func) (b : nat) : list nat :=
  flat_map (fun kb => match terminator (snd kb) with Some t => if mem b (successors t) then [fst kb] else [] | None => [] end) (f_blocks f).
Definition op (n : nat) (i : inst) : value := nth n (i_ops i) (VConst (CInt 0)).

(** ** What the comparison gets from elsewhere *)
Record world := mkWorld {
  same_rest : string -> string -> bool;      (* the rest of the instructions, or the signatures, compare equal *)
  same_const : const -> const -> bool;       (* cmpConstants and cmpGlobalValues, with changed macro values *)
  csource : inst -> inst -> nat -> bool;     (* cmpCallArgumentUsingCSource finds the arguments equal *)
  safe_cast : inst -> bool;                  (* the types and users for which maySkipCast says yes *)
  is_not : inst -> bool;                     (* Utils.cpp:246-262 isLogicalNot *)
  inverse_of : string -> string;             (* CmpInst::getInversePredicate *)
  p_relocations : bool; p_inverse : bool; p_reordered : bool; p_groupvars : bool; p_casts : bool }.

(** ** The state of a comparison *)
Inductive status := NoReloc | Stored | Matching.
(** DifferentialFunctionComparator.h:186-205 RelocationInfo; [r_first]: the relocated code is in
    the first function, in the block [r_block]. *)
Record relocation := mkReloc { r_status : status; r_first : bool; r_block : nat; r_begin : list inst; r_end : nat; r_restore : list inst }.
(** What was done beyond comparing instruction by instruction (not in the code: for
    reference). *)
Inductive exception :=
| Blocks_taken_for_equal | Replaced | Skipped | Reordered | Inverted | Relocated | Source_argument | Phi_block_unknown | Phi_value_differs | Phi_not_compared.
Record state := mkState {
  snL : dict value nat; snR : dict value nat; by_sn : dict nat (value * value);
  skipL : list value; skipR : list value; ignL : list value; ignR : list value;
  replL : dict value value; replR : dict value value;
  inverses : list (option value * option value); swapped : list nat;
  phis : list (inst * inst); reloc : relocation; log : list exception }.
Definition no_reloc : relocation := mkReloc NoReloc true 0 [] 0 [].
Definition start : state := mkState [] [] [] [] [] [] [] [] [] [] [] [] no_reloc [].

Definition set_sn (s : state) (l r : dict value nat) (m : dict nat (value * value)) : state :=
  mkState l r m (skipL s) (skipR s) (ignL s) (ignR s) (replL s) (replR s) (inverses s) (swapped s) (phis s) (reloc s) (log s).
Definition set_skip (s : state) (l r : list value) : state :=
  mkState (snL s) (snR s) (by_sn s) l r (ignL s) (ignR s) (replL s) (replR s) (inverses s) (swapped s) (phis s) (reloc s) (log s).
Definition set_ign (s : state) (l r : list value) : state :=
  mkState (snL s) (snR s) (by_sn s) (skipL s) (skipR s) l r (replL s) (replR s) (inverses s) (swapped s) (phis s) (reloc s) (log s).
Definition set_repl (s : state) (l r : dict value value) : state :=
  mkState (snL s) (snR s) (by_sn s) (skipL s) (skipR s) (ignL s) (ignR s) l r (inverses s) (swapped s) (phis s) (reloc s) (log s).
Definition set_inv (s : state) (i : list (option value * option value)) (w : list nat) : state :=
  mkState (snL s) (snR s) (by_sn s) (skipL s) (skipR s) (ignL s) (ignR s) (replL s) (replR s) i w (phis s) (reloc s) (log s).
Definition set_phis (s : state) (p : list (inst * inst)) : state :=
  mkState (snL s) (snR s) (by_sn s) (skipL s) (skipR s) (ignL s) (ignR s) (replL s) (replR s) (inverses s) (swapped s) p (reloc s) (log s).
Definition set_reloc (s : state) (r : relocation) : state :=
  mkState (snL s) (snR s) (by_sn s) (skipL s) (skipR s) (ignL s) (ignR s) (replL s) (replR s) (inverses s) (swapped s) (phis s) r (log s).
Definition note (e : exception) (s : state) : state :=
  mkState (snL s) (snR s) (by_sn s) (skipL s) (skipR s) (ignL s) (ignR s) (replL s) (replR s) (inverses s) (swapped s) (phis s) (reloc s) (e :: log s).

(** DenseMap::insert({v, size}): the number of a value. *)
Definition number (sn : dict value nat) (v : value) : nat * dict value nat :=
  match dget sn v with Some k => (k, sn) | None => (length sn, dset sn v (length sn)) end.

Section Compare.
  Variable w : world.
  Variables fl fr : func.

  Definition fn (left : bool) : func := if left then fl else fr.
  Definition sn (left : bool) (s : state) : dict value nat := if left then snL s else snR s.
  Definition skip (left : bool) (s : state) : list value := if left then skipL s else skipR s.
  Definition ign (left : bool) (s : state) : list value := if left then ignL s else ignR s.
  Definition repl (left : bool) (s : state) : dict value value := if left then replL s else replR s.
  Definition put_skip (left : bool) (l : list value) (s : state) : state := if left then set_skip s l (skipR s) else set_skip s (skipL s) l.
  Definition put_ign (left : bool) (l : list value) (s : state) : state := if left then set_ign s l (ignR s) else set_ign s (ignL s) l.
  (** An entry that is there is kept. *)
  Definition put_repl (left : bool) (v u : value) (s : state) : state :=
    if dmem (repl left s) v then s
    else if left then set_repl s (dset (replL s) v u) (replR s) else set_repl s (replL s) (dset (replR s) v u).
  Definition without (v : value) (l : list value) : list value := filter (fun x => negb (eqb v x)) l.

  (** An instruction of the second function as it is now: the targets of a branch may have been
      swapped (DifferentialFunctionComparator.cpp:337-340). *)
  Definition swap_targets (i : inst) : inst :=
    match i_ops i with [c; a; b] => mkInst (i_reg i) (i_code i) (i_rest i) [c; b; a] | _ => i end.
  Definition now (s : state) (i : inst) : inst := if mem (i_reg i) (swapped s) then swap_targets i else i.

  (** Utils.cpp:229-241 isZeroGEP *)
  Definition zero_gep (i : inst) : bool :=
    match i_code i with Gep _ => forallb (fun v => eqb v (VConst (CInt 0))) (tl (i_ops i)) | _ => false end.
  (** DifferentialFunctionComparator.cpp:759-784 getReplacementValue *)
  Definition replacement (left : bool) (v : value) (s : state) : option value * state :=
    match dget (repl left s) v with
    | Some u => (Some u, s)
    | None =>
      match inst_of (fn left) v with
      | None => (None, s)
      | Some i =>
        let cast := match i_code i with Cast true => safe_cast w i | _ => false end in
        let s1 := if cast then put_repl left v (op 0 i) s else s in
        if (cast || zero_gep i) && (negb (is_reg (op 0 i)) || dmem (sn left s) (op 0 i)) then (Some (op 0 i), s1) else (None, s1)
      end
    end.

  (** llvm-lib/15/FunctionComparator.cpp:755-796 cmpValues (a reference to the compared function
      itself is a constant) and DifferentialFunctionComparator.cpp:1549-1592. *)
  Definition phi_of (f : func) (v : value) : option inst :=
    match inst_of f v with Some i => if is_phi i then Some i else None | None => None end.
  Definition cmp_numbered (l r : value) (s : state) : bool * state :=
    let '(a, sl) := number (snL s) l in
    let '(b, sr) := number (snR s) r in
    if Nat.eqb a b then
      if Nat.eqb (length sl) (S (length (snL s))) then
        let s1 := set_sn s sl sr (dset (by_sn s) (length (snL s)) (l, r)) in
        match phi_of fl l, phi_of fr r with
        | Some p, Some q => (true, set_phis s1 (phis s1 ++ [(p, q)]))
        | None, None => (true, s1)
        | _, _ => (false, s1)
        end
      else (true, set_sn s sl sr (by_sn s))
    else if is_block l && is_block r then
      let '(sl', sr') :=
        if Nat.eqb (length sl) (length sr) then (sl, sr)
        else (if Nat.eqb a (length sl - 1) then ddel sl l else sl, if Nat.eqb b (length sr - 1) then ddel sr r else sr) in
      (true, note Blocks_taken_for_equal (set_sn s sl' sr' (by_sn s)))
    else (false, set_sn s sl sr (by_sn s)).
  Definition cmp_base (l r : value) (s : state) : bool * state :=
    match l, r with
    | VConst a, VConst b => (same_const w a b, s)
    | VConst _, _ | _, VConst _ => (false, s)
    | _, _ => cmp_numbered l r s
    end.

  (** ** Instructions *)
  Definition same_code (a b : code) : bool :=
    match a, b with
    | Alloca, Alloca | Load, Load | Store, Store | Call, Call | Br, Br | Switch, Switch | Ret, Ret | Unreachable, Unreachable | Other, Other | Debug, Debug => true
    | Cast x, Cast y => Bool.eqb x y
    | Binop x, Binop y | Cmp x, Cmp y => String.eqb x y
    | _, _ => false
    end.
  (** The types of the operands are a part of [i_rest]; only whether they are blocks is seen. *)
  Definition same_kinds (a b : list value) : bool := forallb (fun p => Bool.eqb (is_block (fst p)) (is_block (snd p))) (combine a b).
  Definition comparer := value -> value -> state -> option (bool * state).

  Fixpoint cmp_all (cv : comparer) (ls rs : list value) (s : state) : option (bool * state) :=
    match ls, rs with
    | l :: ls', r :: rs' => match cv l r s with Some (true, s1) => cmp_all cv ls' rs' s1 | x => x end
    | _, _ => Some (true, s)
    end.
  (** DifferentialFunctionComparator.cpp:2116-2129 checkInverseCondUsers *)
  Fixpoint inverse_users (n : nat) (f : func) (i : inst) : bool :=
    match n with
    | O => false
    | S n' => forallb (fun u => if is_not w u then inverse_users n' f u else match i_code u with Br => true | _ => false end) (users f (VReg (i_reg i)))
    end.
  Definition only_conditions (f : func) (i : inst) : bool := inverse_users (S (length (insts f))) f i.

  (** FunctionComparator.cpp:521-694 cmpOperations; the answer says whether the operands are
      still to be compared. *)
  Definition cmp_operation_base (cv : comparer) (i j : inst) (s : state) : option (bool * bool * state) :=
    match cv (VReg (i_reg i)) (VReg (i_reg j)) s with
    | None => None
    | Some (false, s1) => Some (false, true, s1)
    | Some (true, s1) =>
      match i_code i, i_code j with
      | Gep x, Gep y =>
        match cv (op 0 i) (op 0 j) s1 with
        | None => None
        | Some (false, s2) => Some (false, false, s2)
        | Some (true, s2) =>
          match x, y with
          | Some a, Some b => Some (Z.eqb a b, false, s2)
          | _, _ =>
            if same_rest w (i_rest i) (i_rest j) && Nat.eqb (length (i_ops i)) (length (i_ops j)) && same_kinds (i_ops i) (i_ops j) then
              match cmp_all cv (i_ops i) (i_ops j) s2 with None => None | Some (b, s3) => Some (b, false, s3) end
            else Some (false, false, s2)
          end
        end
      | a, b =>
        Some (same_code a b && Nat.eqb (length (i_ops i)) (length (i_ops j)) && same_rest w (i_rest i) (i_rest j) && same_kinds (i_ops i) (i_ops j), true, s1)
      end
    end.
  (** DifferentialFunctionComparator.cpp:267-399 cmpOperations *)
  Definition cmp_operation (cv : comparer) (i j : inst) (s : state) : option (bool * bool * state) :=
    if is_phi i && is_phi j then Some (true, false, s)
    else
      match cmp_operation_base cv i j s with
      | None => None
      | Some (result, need, s1) =>
        match i_code i, i_code j with
        | Br, Br =>
          match i_ops i, i_ops j with
          | [c; _; _], [d; _; _] =>
            if mem (Some c, Some d) (inverses s1)
            then Some (true, need, note Inverted (set_inv s1 (inverses s1) (if mem (i_reg j) (swapped s1) then filter (fun r => negb (Nat.eqb r (i_reg j))) (swapped s1) else i_reg j :: swapped s1)))
            else Some (result, need, s1)
          | _, _ => Some (result, need, s1)
          end
        | Cmp a, Cmp b =>
          if negb result && p_inverse w && Nat.eqb (length (i_ops i)) (length (i_ops j)) && same_rest w (i_rest i) (i_rest j)
             && String.eqb a (inverse_of w b) && only_conditions fl i && only_conditions fr j
          then Some (true, need, note Inverted (set_inv s1 ((Some (VReg (i_reg i)), Some (VReg (i_reg j))) :: inverses s1) (swapped s1)))
          else Some (result, need, s1)
        | _, _ => Some (result, need, s1)
        end
      end.
  (** DifferentialFunctionComparator.cpp:1839-1855 *)
  Fixpoint cmp_operands (cv : comparer) (i j : inst) (k : nat) (ls rs : list value) (s : state) : option (bool * state) :=
    match ls, rs with
    | l :: ls', r :: rs' =>
      match cv l r s with
      | None => None
      | Some (true, s1) => cmp_operands cv i j (S k) ls' rs' s1
      | Some (false, s1) =>
        if is_call i && is_call j && csource w i j k then Some (true, note Source_argument s1) else Some (false, s1)
      end
    | _, _ => Some (true, s)
    end.
  (** DifferentialFunctionComparator.cpp:1808-1858 cmpOperationsWithOperands *)
  Definition cmp_insts (cv : comparer) (i j0 : inst) (s : state) : option (bool * state) :=
    match cmp_operation cv i (now s j0) s with
    | None => None
    | Some (false, _, s1) => Some (false, s1)
    | Some (true, false, s1) => Some (true, s1)
    | Some (true, true, s1) => cmp_operands cv i (now s1 j0) 0 (i_ops i) (i_ops (now s1 j0)) s1
    end.

  (** DifferentialFunctionComparator.cpp:1504-1593 cmpValues *)
  Fixpoint cmp_values (n : nat) (l r : value) (s : state) : option (bool * state) :=
    match n with
    | O => None
    | S n' =>
      let a := mem l (skipL s) in
      let b := mem r (skipR s) in
      if a && b then
        match inst_of fl l, inst_of fr r with
        | Some i, Some j =>
          match cmp_insts (cmp_values n') i j (note Skipped (set_skip s (without l (skipL s)) (without r (skipR s)))) with
          | None => None
          | Some (true, s1) => Some (true, s1)
          | Some (false, s1) =>
            let s2 := set_skip s1 (l :: skipL s1) (r :: skipR s1) in
            let sl := ddel (snL s2) l in
            Some (false, set_sn s2 sl (ddel (snR s2) r) (ddel (by_sn s2) (length sl)))
          end
        | _, _ => None
        end
      else if mem l (ignL s) || mem r (ignR s) || a || b then Some (false, s)
      else
        let '(x, s1) := replacement true l s in
        let '(y, s2) := replacement false r s1 in
        match x, y with
        | None, None => Some (cmp_base l r s2)
        | _, _ => cmp_values n' (match x with Some u => u | None => l end) (match y with Some u => u | None => r end) (note Replaced s2)
        end
    end.

  (** ** Skipping *)

  (** Utils.cpp:930-941 getAllocaFromPtr *)
  Fixpoint alloca_of (n : nat) (f : func) (v : value) : option value :=
    match n with
    | O => None
    | S n' =>
      match inst_of f v with
      | Some i => match i_code i with Alloca => Some v | Gep _ => alloca_of n' f (op 0 i) | _ => None end
      | None => None
      end
    end.
  Definition pointer (i : inst) : value := match i_code i with Store => op 1 i | _ => op 0 i end.
  Definition alloca_op (f : func) (i : inst) : option value := alloca_of (S (length (insts f))) f (pointer i).
  (** Utils.cpp:898-925 mayAlias *)
  Fixpoint indices_diverge (a b : list value) : bool :=
    match a, b with
    | x :: a', y :: b' =>
      match x, y with VConst (CInt p), VConst (CInt q) => negb (Z.eqb p q) | _, _ => false end || indices_diverge a' b'
    | _, _ => false
    end.
  Definition may_alias (f : func) (p q : value) : bool :=
    match alloca_of (S (length (insts f))) f p, alloca_of (S (length (insts f))) f q with
    | Some a, Some b =>
      if eqb a b then
        match inst_of f p, inst_of f q with
        | Some i, Some j => match i_code i, i_code j with Gep _, Gep _ => negb (indices_diverge (tl (i_ops i)) (tl (i_ops j))) | _, _ => true end
        | _, _ => true
        end
      else false
    | _, _ => true
    end.
  (** Utils.cpp:882-894 mayStoreTo *)
  Definition may_store (f : func) (i : inst) (p : value) : bool :=
    match i_code i with Store => may_alias f (pointer i) p | Call => true | _ => false end.

  (** DifferentialFunctionComparator.cpp:623-708 maySkipLoad.  Searching a block backwards: the
      replacement, a conflict, or nothing. *)
  Inductive scanned := Found (v : value) | Conflict | Nothing.
  Fixpoint scan_back (left : bool) (s : state) (p : value) (l : list inst) : scanned :=
    match l with
    | [] => Nothing
    | i :: l' =>
      let candidate :=
        match i_code i with
        | Load => if eqb (pointer i) p then Some (VReg (i_reg i)) else None
        | Store => if mem (VReg (i_reg i)) (ign left s) && eqb (pointer i) p then Some (op 0 i) else None
        | _ => None
        end in
      match candidate with
      | Some v => Found v
      | None => if may_store (fn left) i p then Conflict else scan_back left s p l'
      end
    end.
  Fixpoint search_back (n : nat) (left : bool) (s : state) (p : value) (queue : list (nat * list inst)) (visited : list nat) (found : option value) : option value :=
    match n with
    | O => None
    | S n' =>
      match queue with
      | [] => found
      | (b, l) :: queue' =>
        match scan_back left s p l with
        | Found v => match found with Some _ => None | None => search_back n' left s p queue' visited (Some v) end
        | Conflict => None
        | Nothing =>
          match predecessors (fn left) b with
          | [] => None
          | ps => let new := filter (fun x => negb (mem x visited)) (dedup ps) in
                  search_back n' left s p (queue' ++ map (fun x => (x, rev (block (fn left) x))) new) (visited ++ new) found
          end
        end
      end
    end.
  Fixpoint before (r : nat) (l : list inst) : list inst :=
    match l with [] => [] | i :: l' => if Nat.eqb (i_reg i) r then [] else i :: before r l' end.
  Definition skip_load (left : bool) (b : nat) (i : inst) (s : state) : option value :=
    search_back (S (length (f_blocks (fn left)))) left s (pointer i) [(b, rev (before (i_reg i) (block (fn left) b)))] [b] None.

  (** DifferentialFunctionComparator.cpp:2134-2154 *)
  Definition extra_memory (left : bool) (s : state) (i : inst) : bool :=
    match i_code i with
    | Load | Store => match alloca_op (fn left) i with Some a => mem a (ign left s) || mem a (skip left s) | None => false end
    | _ => false
    end.
  (** Utils.cpp:265-279 isReorderableBinaryOp *)
  Definition reorderable (i : inst) : bool :=
    match i_code i with Binop b => mem b ["xor"; "add"; "and"; "or"; "mul"]%string | _ => false end.
  Definition same_binop (i u : inst) : bool := match i_code i, i_code u with Binop a, Binop b => String.eqb a b | _, _ => false end.
  Definition forget (left : bool) (i : inst) (s : state) : bool * state := (true, put_ign left (VReg (i_reg i) :: ign left s) s).
  Definition replace_by (left : bool) (i : inst) (v : value) (s : state) : bool * state := (true, put_repl left (VReg (i_reg i)) v s).
  (** DifferentialFunctionComparator.cpp:515-617, 712-751 maySkipInstruction in block [b] *)
  Definition may_skip (left : bool) (b : nat) (i : inst) (s : state) : bool * state :=
    let f := fn left in
    let v := VReg (i_reg i) in
    match i_code i with
    | Alloca => (true, put_skip left (v :: skip left s) s)
    | c =>
      if p_groupvars w && negb (is_call i) && negb (is_terminator i) && negb (match users f v with [] => true | _ => false end) && forallb (extra_memory left s) (users f v)
      then forget left i s
      else if p_reordered w && reorderable i && forallb (same_binop i) (users f v) then forget left i s
      else
        match c with
        | Cast _ => if p_casts w || safe_cast w i then replace_by left i (op 0 i) s else (false, s)
        | Gep _ => if zero_gep i then replace_by left i (op 0 i) s else (false, s)
        | Store =>
          if p_groupvars w then
            match alloca_op f i with
            | Some a =>
              if mem a (skip left s) then let s1 := put_skip left (without a (skip left s)) s in (true, put_ign left (v :: a :: ign left s1) s1)
              else if mem a (ign left s) then forget left i s else (false, s)
            | None => (false, s)
            end
          else (false, s)
        | Load => match skip_load left b i s with Some u => replace_by left i u s | None => (false, s) end
        | _ => (false, s)
        end
    end.

  (** DifferentialFunctionComparator.cpp:811-819 undoLastInstCompare *)
  Definition undo (i j : inst) (s : state) : state :=
    let sl := ddel (snL s) (VReg (i_reg i)) in
    set_sn s sl (ddel (snR s) (VReg (i_reg j))) (ddel (by_sn s) (length sl)).

  (** DifferentialFunctionComparator.cpp:2069-2109 collectBinaryOperands *)
  Fixpoint collect (n : nat) (left : bool) (b : string) (v : value) (s : state) : option (list nat * list Z) :=
    match n with
    | O => None
    | S n' =>
      let u := match dget (repl left s) v with Some u => u | None => v end in
      match u with
      | VConst (CInt z) => Some ([], [z])
      | _ =>
        let inner :=
          match inst_of (fn left) u with
          | Some i =>
            match i_code i with
            | Binop b' =>
              if String.eqb b b' then
                match collect n' left b (op 0 i) s, collect n' left b (op 1 i) s with
                | Some (x, p), Some (y, q) => Some (x ++ y, p ++ q)
                | _, _ => None
                end
              else None
            | _ => None
            end
          | None => None
          end in
        match inner with
        | Some r => Some r
        | None =>
          match dget (sn left s) u with
          | Some k => if Nat.eqb k (length (sn left s) - 1) then None else Some ([k], [])
          | None => None
          end
        end
      end
    end.
  Fixpoint remove_one {K} `{EqB K} (x : K) (l : list K) : option (list K) :=
    match l with [] => None | y :: l' => if eqb x y then Some l' else match remove_one x l' with Some r => Some (y :: r) | None => None end end.
  Fixpoint same_multiset {K} `{EqB K} (a b : list K) : bool :=
    match a with [] => match b with [] => true | _ => false end | x :: a' => match remove_one x b with Some b' => same_multiset a' b' | None => false end end.
  Definition reordered (i j : inst) (s : state) : bool :=
    p_reordered w && reorderable i && reorderable j &&
    match i_code i, i_code j with
    | Binop a, Binop b =>
      String.eqb a b &&
      match collect (S (length (insts fl))) true a (VReg (i_reg i)) s, collect (S (length (insts fr))) false b (VReg (i_reg j)) s with
      | Some (x, p), Some (y, q) => same_multiset x y && same_multiset p q
      | _, _ => false
      end
    | _, _ => false
    end.

  (** DifferentialFunctionComparator.cpp:1955-1967 getMappedValue *)
  Definition mapped (left : bool) (v : value) (s : state) : option value :=
    match dget (sn left s) v with
    | Some k => match dget (by_sn s) k with Some (l, r) => Some (if left then r else l) | None => None end
    | None => None
    end.
  (** DifferentialFunctionComparator.cpp:1028-1070 *)
  Definition negation (left : bool) (i : inst) (s : state) : state :=
    let v := op 0 i in
    let m := mapped left v s in
    let pair := if left then (Some (VReg (i_reg i)), m) else (m, Some (VReg (i_reg i))) in
    let previous := if left then (Some v, m) else (m, Some v) in
    let s1 := put_repl left (VReg (i_reg i)) v s in
    if mem previous (inverses s1) then set_inv s1 (filter (fun p => negb (eqb previous p)) (inverses s1)) (swapped s1)
    else set_inv s1 (pair :: inverses s1) (swapped s1).

  (** ** Relocations *)

  (** DifferentialFunctionComparator.cpp:2042-2064 isDependingOnReloc: [None] if the end of the
      relocated code is missed and the search leaves the block. *)
  Fixpoint depends (load store : option inst) (finish : nat) (l : list inst) : option bool :=
    match l with
    | [] => None
    | i :: l' =>
      let load' := match load, i_code i with None, Load => Some i | _, _ => load end in
      let store' := match store, i_code i with None, Store => Some i | _, _ => store end in
      match load', store' with
      | Some a, Some b => if eqb (pointer a) (pointer b) then Some true
                          else match l' with j :: _ => if Nat.eqb (i_reg j) finish then Some false else depends load' store' finish l' | [] => None end
      | _, _ => match l' with j :: _ => if Nat.eqb (i_reg j) finish then Some false else depends load' store' finish l' | [] => None end
      end
    end.
  Definition depends_on_reloc (i : inst) (s : state) : option bool :=
    match i_code i with
    | Load => depends (Some i) None (r_end (reloc s)) (r_begin (reloc s))
    | Store => depends None (Some i) (r_end (reloc s)) (r_begin (reloc s))
    | _ => Some false
    end.
  (** The last instruction before the first of [l] that is not debug information. *)
  Definition last_real (skipped : list inst) : nat := match filter (fun i => negb (is_debug i)) (rev skipped) with i :: _ => i_reg i | [] => 0 end.
  (** DifferentialFunctionComparator.cpp:1978-2033 findMatchingOpWithOffset: [passed] is what was
      moved over.  The answer: whether a relocation was found, and where the search ends. *)
  Fixpoint find_match (n : nat) (first : bool) (b : nat) (other : inst) (begin : list inst) (passed l : list inst) (s : state) : option (bool * list inst * state) :=
    match l with
    | [] => Some (false, begin, s)
    | i :: l' =>
      match (if first then cmp_insts (cmp_values n) i other s else cmp_insts (cmp_values n) other i s) with
      | None => None
      | Some (true, s1) =>
        let s2 := set_reloc s1 (mkReloc (r_status (reloc s1)) (r_first (reloc s1)) b begin (last_real passed) (r_restore (reloc s1))) in
        match depends_on_reloc i s2 with
        | None => None
        | Some true => Some (false, l, s2)
        | Some false => Some (true, l, note Relocated (set_reloc s2 (mkReloc Stored first b begin (last_real passed) (r_restore (reloc s2)))))
        end
      | Some (false, s1) => find_match n first b other begin (passed ++ [i]) l' (set_sn s1 (snL s) (snR s) (by_sn s))
      end
    end.
  Definition find_reloc (n : nat) (first : bool) (b : nat) (pl pr : list inst) (s : state) : option (bool * list inst * list inst * state) :=
    match pl, pr with
    | i :: pl', j :: pr' =>
      let s1 := undo i j s in
      if first then match find_match n true b j pl [i] pl' s1 with None => None | Some (x, l, s2) => Some (x, l, pr, s2) end
      else match find_match n false b i pr [j] pr' s1 with None => None | Some (x, r, s2) => Some (x, pl, r, s2) end
    | _, _ => None
    end.

  (** ** Blocks *)

  (** DifferentialFunctionComparator.cpp:911-1165 cmpBasicBlocks on the rest of the blocks [bl] and
      [br].  [awayL], [awayR]: the position is in another block, which has no end for the loop. *)
  Fixpoint cmp_blocks (n : nat) (bl br : nat) (awayL awayR : bool) (pl pr : list inst) (s : state) : option (bool * state) :=
    match n with
    | O => None
    | S n' =>
      match pl, pr with
      | [], [] => if awayL || awayR then None else Some (true, s)
      | [], _ :: _ => if awayL then None else Some (false, s)
      | _ :: _, [] => if awayR then None else Some (false, s)
      | i :: pl', j :: pr' =>
        if is_debug i then cmp_blocks n' bl br awayL awayR pl' pr s
        else if is_debug j then cmp_blocks n' bl br awayL awayR pl pr' s
        else
          match cmp_insts (cmp_values n') i j s with
          | None => None
          | Some (false, s1) =>
            let '(skip1, s2) := may_skip true (if awayL then r_block (reloc s1) else bl) i s1 in
            let '(skip2, s3) := may_skip false (if awayR then r_block (reloc s2) else br) j s2 in
            if skip1 || skip2 then
              cmp_blocks n' bl br awayL awayR (if skip1 then pl' else pl) (if skip2 then pr' else pr) (note Skipped (undo i j s3))
            else if reordered i j s3 then cmp_blocks n' bl br awayL awayR pl' pr' (note Reordered s3)
            else if p_inverse w && (is_not w i && only_conditions fl i) then
              cmp_blocks n' bl br awayL awayR pl' pr (note Inverted (negation true i (undo i j s3)))
            else if p_inverse w && (is_not w j && only_conditions fr j) then
              if is_not w i then cmp_blocks n' bl br awayL awayR pl' pr (note Inverted (negation true i (undo i j s3)))
              else cmp_blocks n' bl br awayL awayR pl pr' (note Inverted (negation false j (undo i j s3)))
            else
              match r_status (reloc s3) with
              | Stored =>
                let s4 := undo i j s3 in
                let r := reloc s4 in
                if r_first r
                then cmp_blocks n' bl br (negb (Nat.eqb (r_block r) bl)) awayR (r_begin r) pr (set_reloc s4 (mkReloc Matching true (r_block r) (r_begin r) (r_end r) pl))
                else cmp_blocks n' bl br awayL (negb (Nat.eqb (r_block r) br)) pl (r_begin r) (set_reloc s4 (mkReloc Matching false (r_block r) (r_begin r) (r_end r) pr))
              | Matching => Some (false, s3)
              | NoReloc =>
                if p_relocations w then
                  match find_reloc n' false br pl pr s3 with
                  | None => None
                  | Some (true, ql, qr, s4) => cmp_blocks n' bl br awayL awayR (tl ql) (tl qr) s4
                  | Some (false, ql, qr, s4) =>
                    match find_reloc n' true bl ql qr s4 with
                    | None => None
                    | Some (true, ql', qr', s5) => cmp_blocks n' bl br awayL awayR (tl ql') (tl qr') s5
                    | Some (false, _, _, s5) => Some (false, s5)
                    end
                  end
                else Some (false, s3)
              end
          | Some (true, s1) =>
            match r_status (reloc s1) with
            | NoReloc => cmp_blocks n' bl br awayL awayR pl' pr' s1
            | Stored =>
              match depends_on_reloc (if r_first (reloc s1) then i else j) s1 with
              | None => None
              | Some true => Some (false, s1)
              | Some false => cmp_blocks n' bl br awayL awayR pl' pr' s1
              end
            | Matching =>
              let r := reloc s1 in
              let done := set_reloc s1 (mkReloc NoReloc (r_first r) (r_block r) (r_begin r) (r_end r) (r_restore r)) in
              if r_first r && Nat.eqb (i_reg i) (r_end r) then cmp_blocks n' bl br false awayR (r_restore r) pr' done
              else if negb (r_first r) && Nat.eqb (i_reg j) (r_end r) then cmp_blocks n' bl br awayL false pl' (r_restore r) done
              else cmp_blocks n' bl br awayL awayR pl' pr' s1
            end
          end
      end
    end.

  (** FunctionComparator.cpp:893-920: the walk through the blocks.  The last blocks pushed are
      compared first. *)
  Fixpoint push (ls rs : list nat) (stack : list (nat * nat)) (visited : list nat) : list (nat * nat) * list nat :=
    match ls, rs with
    | l :: ls', r :: rs' => if mem l visited then push ls' rs' stack visited else push ls' rs' ((l, r) :: stack) (l :: visited)
    | _, _ => (stack, visited)
    end.
  Fixpoint walk (n : nat) (stack : list (nat * nat)) (visited : list nat) (s : state) : option (bool * state) :=
    match n with
    | O => None
    | S n' =>
      match stack with
      | [] => Some (true, s)
      | (bl, br) :: stack' =>
        match cmp_values n' (VBlock bl) (VBlock br) s with
        | Some (true, s1) =>
          match cmp_blocks n' bl br false false (block fl bl) (block fr br) s1 with
          | Some (true, s2) =>
            match terminator (block fl bl), terminator (block fr br) with
            | Some tl, Some tr =>
              let ls := successors tl in
              let rs := successors (now s2 tr) in
              if Nat.eqb (length ls) (length rs) then let '(stack2, visited2) := push ls rs stack' visited in walk n' stack2 visited2 s2 else None
            | _, _ => None
            end
          | x => x
          end
        | x => x
        end
      end
    end.

  (** DifferentialFunctionComparator.cpp:1782-1805 cmpPHIs; operator[] of a map gives an unknown
      block the number 0. *)
  Definition block_number (sn : dict value nat) (b : nat) : nat * dict value nat :=
    match dget sn (VBlock b) with Some k => (k, sn) | None => (0, dset sn (VBlock b) 0) end.
  Fixpoint cmp_incoming (n : nat) (v : value) (b : nat) (l : list (value * nat)) (s : state) : option (bool * state) :=
    match l with
    | [] => Some (false, s)
    | (u, c) :: l' =>
      let '(x, sl) := block_number (snL s) b in
      let '(y, sr) := block_number (snR s) c in
      let s0 := set_sn s sl sr (by_sn s) in
      let s1 := if dmem (snL s) (VBlock b) && dmem (snR s) (VBlock c) then s0 else note Phi_block_unknown s0 in
      if Nat.eqb x y then
        match cmp_values n v u s1 with
        | Some (false, s2) => cmp_incoming n v b l' (note Phi_value_differs s2)
        | x => x
        end
      else cmp_incoming n v b l' s1
    end.
  Definition incoming (p : inst) : list (value * nat) := match i_code p with Phi from => combine (i_ops p) from | _ => [] end.
  Fixpoint cmp_incomings (n : nat) (ls : list (value * nat)) (rs : list (value * nat)) (s : state) : option (bool * state) :=
    match ls with
    | [] => Some (true, s)
    | (v, b) :: ls' => match cmp_incoming n v b rs s with Some (true, s1) => cmp_incomings n ls' rs s1 | x => x end
    end.
  Definition cmp_phi (n : nat) (p q : inst) (s : state) : option (bool * state) :=
    if Nat.eqb (length (incoming p)) (length (incoming q)) then cmp_incomings n (incoming p) (incoming q) s else Some (false, s).
  (** DifferentialFunctionComparator.cpp:56-62.  Comparing PHI nodes may add pairs to the list that
      is gone through; they are not compared (with the iterators of std::vector this is
      undefined). *)
  Fixpoint cmp_phis (n : nat) (l : list (inst * inst)) (s : state) : option (bool * state) :=
    match l with
    | [] => Some (true, s)
    | (p, q) :: l' => match cmp_phi n p q s with Some (true, s1) => cmp_phis n l' s1 | x => x end
    end.

  (** FunctionComparator.cpp:831-876 compareSignature: the arguments are numbered. *)
  Fixpoint cmp_args (n : nat) (k : nat) (from : nat) (s : state) : option (bool * state) :=
    match k with
    | O => Some (true, s)
    | S k' => match cmp_values n (VArg from) (VArg from) s with Some (true, s1) => cmp_args n k' (S from) s1 | x => x end
    end.
  Definition entry (f : func) : nat := match f_blocks f with (b, _) :: _ => b | [] => 0 end.
  (** DifferentialFunctionComparator.cpp:48-65, FunctionComparator.cpp:878-920 compare *)
  Definition compare (n : nat) : option (bool * state) :=
    if same_rest w (f_sig fl) (f_sig fr) && Nat.eqb (f_args fl) (f_args fr) then
      match cmp_args n (f_args fl) 0 start with
      | Some (true, s0) =>
        match walk n [(entry fl, entry fr)] [entry fl] s0 with
        | Some (true, s1) =>
          match r_status (reloc s1) with
          | NoReloc =>
            match cmp_phis n (phis s1) s1 with
            | Some (true, s2) => Some (true, if Nat.eqb (length (phis s1)) (length (phis s2)) then s2 else note Phi_not_compared s2)
            | x => x
            end
          | _ => Some (false, s1)
          end
        | x => x
        end
      | x => x
      end
    else Some (false, start).
End Compare.
