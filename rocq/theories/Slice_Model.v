(** * Model of slicing: diffkemp/simpll/passes/ControlFlowSlicer.cpp,
    diffkemp/simpll/passes/VarDependencySlicer.cpp, hasSideEffect and isAllocFunction of
    diffkemp/simpll/Utils.cpp.  The LLVM IR is that of Funcomp_Model; every instruction, also a
    store or the end of a block, has its own [i_reg], which is its identity; the called value is
    the last operand of a call, as in LLVM.
    Simplified: there are no constant expressions (a constant is a number or has a name) and no
    aliases.  Not modelled: UnifyFunctionExitNodesPass (the functions are those after it), the
    third phase of VarDependencySlicer (debug information is dropped).  The deletion of blocks that became
    empty or cannot be reached and the change of the return type are in Trim_Model. *)
From Coq Require Import String Ascii ZArith Arith Bool List.
From Verif Require Import PyBase Funcomp_Model.
Import ListNotations.
Open Scope list_scope.
Open Scope nat_scope.

(** The functions of a module by name; [None]: only declared. *)
Definition module := dict string (option func).
(** UndefValue *)
Definition undefined : value := VConst (CGlobal "undef").
(** Utils.cpp:92-98 getCallee *)
Definition callee (i : inst) : option value := match rev (i_ops i) with v :: _ => Some v | [] => None end.
(** CallInst::getCalledFunction *)
Definition called (m : module) (i : inst) : option string :=
  match callee i with Some (VConst (CGlobal n)) => if dmem m n then Some n else None | _ => None end.

Section Effect.
  Variable m : module.
  Definition ignored (n : string) : bool := mem n ["llvm.dbg.declare"; "llvm.dbg.value"; "llvm.expect"]%string.
  (** Utils.cpp:185-200: the instructions of a function; [rec] is the call of the function itself.
      The second component is the set Visited. *)
  Fixpoint effect_of (rec : string -> list string -> option (bool * list string)) (l : list inst) (visited : list string) : option (bool * list string) :=
    match l with
    | [] => Some (false, visited)
    | i :: l' =>
      match i_code i with
      | Store => Some (true, visited)
      | Call =>
        match called m i with
        | None => Some (true, visited)
        | Some g =>
          if mem g visited then effect_of rec l' visited
          else match rec g visited with Some (false, v) => effect_of rec l' v | x => x end
        end
      | _ => effect_of rec l' visited
      end
    end.
  (** Utils.cpp:178-201 hasSideEffect *)
  Fixpoint side_effect (n : nat) (f : string) (visited : list string) : option (bool * list string) :=
    match n with
    | O => None
    | S n' =>
      match dget m f with
      | Some (Some b) => effect_of (side_effect n') (insts b) (f :: visited)
      | _ => Some (negb (ignored f), visited)
      end
    end.
  (** Utils.cpp:204-207 *)
  Definition has_side_effect (f : string) : bool :=
    match side_effect (S (length m)) f [] with Some (b, _) => b | None => false end.
End Effect.

(** Utils.cpp:210-213 isAllocFunction *)
Definition alloc_function (n : string) : bool := mem n ["kzalloc"; "__kmalloc"; "kmalloc"]%string.

(** ** ControlFlowSlicer *)

Section Control.
  Variable m : module.
  Variable f : func.

  (** ControlFlowSlicer.cpp:26-36 addWithOperands; the recursion ends because the set grows. *)
  Fixpoint add_with_operands (n : nat) (i : inst) (dep : list nat) : list nat :=
    match n with
    | O => dep
    | S n' =>
      if mem (i_reg i) dep then dep
      else fold_left (fun d v => match inst_of f v with Some j => add_with_operands n' j d | None => d end) (i_ops i) (i_reg i :: dep)
    end.
  Definition add (i : inst) (dep : list nat) : list nat := add_with_operands (S (length (insts f))) i dep.
  (** ControlFlowSlicer.cpp:40-46 addWithUsers *)
  Definition add_with_users (i : inst) (dep : list nat) : list nat :=
    fold_left (fun d u => add u d) (users f (VReg (i_reg i))) (i_reg i :: dep).
  (** ControlFlowSlicer.cpp:49-74 hasIndirectCall *)
  Definition intrinsic (i : inst) : bool :=
    is_debug i || is_call i && match called m i with Some g => String.prefix "llvm." g | None => false end.
  Definition indirect_call : bool :=
    existsb (fun i => is_call i && match called m i with
                                   | Some _ => false
                                   | None => existsb (fun u => negb (Nat.eqb (i_reg u) (i_reg i)) && negb (intrinsic u)) (match callee i with Some v => users f v | None => [] end)
                                   end) (insts f).
  (** ControlFlowSlicer.cpp:77-84 isResultOnlyStored *)
  Definition is_store (i : inst) : bool := match i_code i with Store => true | _ => false end.
  Definition only_stored (i : inst) : bool :=
    match users f (VReg (i_reg i)) with [] => false | us => forallb is_store us end.
  Definition function_operand (i : inst) : bool :=
    existsb (fun v => match v with VConst (CGlobal n) => dmem m n | _ => false end) (i_ops i).
  (** ControlFlowSlicer.cpp:95-126; debug information is calls of functions without results. *)
  Definition keeps (i : inst) : bool :=
    if is_terminator i then true
    else
      match i_code i with
      | Debug => true
      | Call => match called m i with Some g => negb (negb (has_side_effect m g) && only_stored i) | None => true end
      | _ => function_operand i && indirect_call
      end.
  Definition allocates (i : inst) : bool :=
    is_call i && match called m i with Some g => alloc_function g | None => false end.
  (** ControlFlowSlicer.cpp:93-131 *)
  Definition visit (i : inst) (next : option inst) (dep : list nat) : list nat :=
    let dep1 :=
      if allocates i then match next with Some c => match i_code c with Cast true => add_with_users c dep | _ => dep end | None => dep end
      else dep in
    if keeps i then add i dep1 else dep1.
  Fixpoint visit_all (l : list inst) (dep : list nat) : list nat :=
    match l with [] => dep | i :: l' => visit_all l' (visit i (hd_error l') dep) end.
  Definition control_kept : list nat := fold_left (fun d kb => visit_all (snd kb) d) (f_blocks f) [].
End Control.

(** Instruction::replaceAllUsesWith(Undef) and eraseFromParent for all but the instructions
    [kept]. *)
Definition erased_operand (f : func) (kept : list nat) (v : value) : value :=
  match inst_of f v with Some d => if mem (i_reg d) kept then v else undefined | None => v end.
Definition erased (f : func) (kept : list nat) (i : inst) : inst :=
  mkInst (i_reg i) (i_code i) (i_rest i) (map (erased_operand f kept) (i_ops i)).
Definition erase_others (kept : list nat) (f : func) : func :=
  mkFunc (f_sig f) (f_args f) (map (fun kb => (fst kb, map (erased f kept) (filter (fun i => mem (i_reg i) kept) (snd kb)))) (f_blocks f)).
(** ControlFlowSlicer.cpp:88-154 run *)
Definition control_slice (m : module) (f : func) : func := erase_others (control_kept m f) f.

(** ** VarDependencySlicer *)

(** The sets of VarDependencySlicer.h: DependentInstrs, IncludedInstrs, AffectedBasicBlocks,
    IncludedBasicBlocks. *)
Record sets := mkSets { dependent : list nat; included : list nat; affected : list nat; in_blocks : list nat }.
Definition no_sets : sets := mkSets [] [] [] [].

Section Variable_slice.
  (** llvm::isPotentiallyReachable in the graph of blocks given by the successors. *)
  Variable reachable : (nat -> list nat) -> nat -> nat -> bool.
  Variable var : string.

  Definition targets (f : func) (b : nat) : list nat :=
    match terminator (block f b) with Some t => successors t | None => [] end.
  Definition parent (f : func) (r : nat) : option nat :=
    match find (fun kb => mem r (map i_reg (snd kb))) (f_blocks f) with Some kb => Some (fst kb) | None => None end.
  Definition add_block (f : func) (r : nat) (bs : list nat) : list nat :=
    match parent f r with Some b => b :: bs | None => bs end.
  (** VarDependencySlicer.cpp:301-304, 314-326 addToDependent, addToSet *)
  Definition add_dependent (f : func) (r : nat) (s : sets) : sets :=
    if mem r (dependent s) then s else mkSets (r :: dependent s) (included s) (affected s) (add_block f r (in_blocks s)).
  (** VarDependencySlicer.cpp:306-311 addToIncluded *)
  Definition add_included (f : func) (r : nat) (s : sets) : bool * sets :=
    if mem r (dependent s) || mem r (included s) then (false, s)
    else (true, mkSets (dependent s) (r :: included s) (affected s) (add_block f r (in_blocks s))).

  (** VarDependencySlicer.cpp:468-482 reachableBlocksThroughSucc: block [b] ends with a jump to
      [t] only; 455-465 reachableBlocks: all blocks but [b] itself. *)
  Definition through (f : func) (b t : nat) : nat -> list nat := fun x => if Nat.eqb x b then [t] else targets f x.
  Definition reached_through (f : func) (b t c : nat) : bool := negb (Nat.eqb c b) && reachable (through f b t) b c.
  (** VarDependencySlicer.cpp:234-266 affectedBasicBlocks *)
  Definition affected_blocks (f : func) (b : nat) (t : inst) : list nat :=
    match successors t with
    | [] | [_] => []
    | ts => filter (fun c => existsb (fun x => reached_through f b x c) ts && negb (forallb (fun x => reached_through f b x c) ts)) (dkeys (f_blocks f))
    end.
  (** VarDependencySlicer.cpp:269-279 addAllInstrs *)
  Definition add_all (f : func) (bs : list nat) (s : sets) : sets :=
    mkSets (flat_map (fun b => map i_reg (block f b)) bs ++ dependent s) (included s) (bs ++ affected s) (bs ++ in_blocks s).
  (** VarDependencySlicer.cpp:284-299 checkDependency *)
  Definition depends_operand (s : sets) (v : value) : bool :=
    match v with VReg r => mem r (dependent s) | VConst (CGlobal n) => String.eqb n var | _ => false end.

  (** PHINode::getIncomingValueForBlock *)
  Definition value_from (p : inst) (b : nat) : option value :=
    match find (fun e => Nat.eqb (snd e) b) (incoming p) with Some (v, _) => Some v | None => None end.
  (** VarDependencySlicer.cpp:553-600 checkPhiDependency: the values from the included blocks, *)
  Definition values_differ (l : list (option value)) : bool :=
    match l with [] => false | v :: l' => negb (forallb (eqb v) l') end.
  (** and a value that comes from elsewhere. *)
  Definition other_way (f : func) (s : sets) (b : nat) : bool :=
    existsb (fun c => match terminator (block f c) with
                      | Some t =>
                        mem (i_reg t) (included s) &&
                        match successors t with [x; y] => negb (Bool.eqb (reachable (targets f) x b) (reachable (targets f) y b)) | _ => false end
                      | None => false
                      end) (in_blocks s).
  Definition phi_dependent (f : func) (s : sets) (p : inst) : bool :=
    let blocks := map snd (incoming p) in
    let from_included := map (value_from p) (filter (fun b => mem b (in_blocks s)) blocks) in
    values_differ from_included ||
    match from_included with
    | [] => false
    | v :: _ => existsb (fun b => negb (mem b (in_blocks s)) && negb (eqb (value_from p b) v) && other_way f s b) blocks
    end.
  (** VarDependencySlicer.cpp:51-85: an instruction of block [b] in the first phase. *)
  Definition first_inst (f : func) (b : nat) (s : sets) (i : inst) : sets :=
    if negb (is_debug i) && (existsb (depends_operand s) (i_ops i) || is_phi i && phi_dependent f s i) then
      let s1 := add_dependent f (i_reg i) s in
      match i_code i with
      | Br => add_all f (affected_blocks f b i) s1
      | Store => match op 1 i with VReg r => add_dependent f r s1 | _ => s1 end
      | _ => s1
      end
    else s.
  Definition first_block (f : func) (s : sets) (kb : nat * list inst) : sets :=
    if mem (fst kb) (affected s) then s else fold_left (first_inst f (fst kb)) (snd kb) s.
  (** VarDependencySlicer.cpp:48-86 *)
  Definition first_phase (f : func) : sets := fold_left (first_block f) (f_blocks f) no_sets.

  (** ** The second phase *)

  (** Instruction::getNextNode, and the first instructions of the targets of a branch
      (VarDependencySlicer.cpp:647-654) *)
  Fixpoint next_of (r : nat) (l : list inst) : option inst :=
    match l with [] => None | i :: l' => if Nat.eqb (i_reg i) r then hd_error l' else next_of r l' end.
  Definition next_node (f : func) (i : inst) : list inst :=
    match parent f (i_reg i) with
    | Some b => match next_of (i_reg i) (block f b) with Some j => [j] | None => [] end
    | None => []
    end.
  Definition next_insts (f : func) (i : inst) : list inst :=
    match i_code i with
    | Br => flat_map (fun b => match block f b with j :: _ => [j] | [] => [] end) (successors i)
    | _ => next_node f i
    end.

  (** VarDependencySlicer.cpp:329-347 addAllOpsToIncluded and 602-664 addStoresToIncluded, which
      call one another; [None] if the number of steps is exceeded. *)
  Fixpoint add_operands (n : nat) (f : func) (i : inst) (s : sets) : option sets :=
    match n with
    | O => None
    | S n' =>
      (fix ops (l : list value) (s : sets) : option sets :=
         match l with
         | [] => Some s
         | v :: l' =>
           match inst_of f v with
           | None => ops l' s
           | Some d =>
             let '(new, s1) := add_included f (i_reg d) s in
             match (if new then add_operands n' f d s1 else Some s1) with
             | None => None
             | Some s2 =>
               match (match i_code d with Alloca => add_stores n' f d i (next_node f d) [i_reg d; i_reg i] s2 | _ => Some s2 end) with
               | None => None
               | Some s3 => ops l' s3
               end
             end
           end
         end) (i_ops i) s
    end
  with add_stores (n : nat) (f : func) (a use : inst) (work : list inst) (visited : list nat) (s : sets) : option sets :=
    match n with
    | O => None
    | S n' =>
      match work with
      | [] => Some s
      | i :: work' =>
        let p := VReg (i_reg a) in
        let takes := match i_code i with Store => eqb (op 1 i) p | Call => mem p (i_ops i) | _ => false end in
        let derived := match i_code i with Cast true | Gep _ => eqb (op 0 i) p | _ => false end in
        let '(new, s1) := if takes then add_included f (i_reg i) s else (false, s) in
        match (if new then add_operands n' f i s1 else Some s1) with
        | None => None
        | Some s2 =>
          match (if derived then add_stores n' f i use (next_node f i) [i_reg i; i_reg use] s2 else Some s2) with
          | None => None
          | Some s3 =>
            add_stores n' f a use (work' ++ filter (fun j => negb (mem (i_reg j) visited)) (next_insts f i)) (i_reg i :: visited) s3
          end
        end
      end
    end.

  (** VarDependencySlicer.cpp:353-416 includedSuccessors of a branch [t] at the end of [b] to [x]
      and [y], from which one or both are taken; [exit] is the block of the return. *)
  Definition included_through (f : func) (s : sets) (exit : option nat) (b t : nat) : list nat :=
    filter (fun c => reached_through f b t c && mem c (in_blocks s) && negb (opt_eqb exit (Some c))) (dkeys (f_blocks f)).
  Definition subset (a b : list nat) : bool := forallb (fun x => mem x b) a.
  Definition included_successors (f : func) (s : sets) (exit : option nat) (b : nat) (t : inst) : list nat :=
    match successors t with
    | [x; y] =>
      let rx := included_through f s exit b x in
      let ry := included_through f s exit b y in
      let one := if opt_eqb exit (Some x) then y else x in
      if subset rx ry && subset ry rx then
        match rx with
        | [] => [one]
        | _ => if negb (reachable (targets f) x b) then [x] else if negb (reachable (targets f) y b) then [y] else [one]
        end
      else if subset ry rx then [x]
      else if subset rx ry then [y]
      else [x; y]
    | ts => ts
    end.

  (** BasicBlock::removePredecessor: the PHI nodes of [c] lose the values from [b]. *)
  Definition drop_incoming (b : nat) (i : inst) : inst :=
    match i_code i with
    | Phi _ =>
      let l := filter (fun e => negb (Nat.eqb (snd e) b)) (incoming i) in
      mkInst (i_reg i) (Phi (map snd l)) (i_rest i) (map fst l)
    | _ => i
    end.
  (** VarDependencySlicer.cpp:116-131: block [b] ends with a jump to [t]; the new branch has the
      identity of the old one. *)
  Definition jump (t : nat) (i : inst) : inst := mkInst (i_reg i) Br "" [VBlock t].
  Definition redirect (f : func) (b t : nat) (gone : list nat) : func :=
    mkFunc (f_sig f) (f_args f)
      (map (fun kb =>
              let l := if mem (fst kb) gone then map (drop_incoming b) (snd kb) else snd kb in
              (fst kb, if Nat.eqb (fst kb) b then map (fun i => if is_terminator i then jump t i else i) l else l)) (f_blocks f)).

  (** VarDependencySlicer.cpp:108-136: the branch at the end of block [b]. *)
  Definition end_of_block (n : nat) (exit : option nat) (fs : func * sets) (b : nat) : option (func * sets) :=
    let '(f, s) := fs in
    match terminator (block f b) with
    | None => Some fs
    | Some t =>
      match i_code t with
      | Br =>
        if mem (i_reg t) (dependent s) then Some fs
        else
          match successors t with
          | [] => Some fs
          | first :: _ =>
            match included_successors f s exit b t with
            | x :: _ :: _ => match add_operands n f t (snd (add_included f (i_reg t) s)) with Some s1 => Some (f, s1) | None => None end
            | l =>
              let new := match l with x :: _ => x | [] => first end in
              Some (redirect f b new (filter (fun c => negb (Nat.eqb c new)) (successors t)),
                    mkSets (dependent s) (i_reg t :: included s) (affected s) (in_blocks s))
            end
          end
      | _ => Some fs
      end
    end.
  Fixpoint each {A S} (step : S -> A -> option S) (l : list A) (s : S) : option S :=
    match l with [] => Some s | x :: l' => match step s x with Some s' => each step l' s' | None => None end end.

  (** VarDependencySlicer.cpp:92-96 *)
  Definition operands_of_dependent (n : nat) (f : func) (s : sets) (r : nat) : option sets :=
    match find_inst f r with
    | Some i => if is_phi i then Some s else add_operands n f i s
    | None => Some s
    end.
  (** VarDependencySlicer.cpp:139-154: what comes to the PHI nodes. *)
  Definition incoming_of (n : nat) (f : func) (s : sets) (v : value) : option sets :=
    match inst_of f v with Some d => add_operands n f d (snd (add_included f (i_reg d) s)) | None => Some s end.
  Definition phi_operands (n : nat) (f : func) (s : sets) (i : inst) : option sets :=
    if is_phi i && (mem (i_reg i) (included s) || mem (i_reg i) (dependent s)) then each (incoming_of n f) (i_ops i) s else Some s.
  (** VarDependencySlicer.cpp:762-768 findReturnBlock *)
  Definition return_block (f : func) : option nat :=
    match find (fun kb => match terminator (snd kb) with Some t => match i_code t with Ret => true | _ => false end | None => false end) (f_blocks f) with
    | Some kb => Some (fst kb)
    | None => None
    end.
  (** VarDependencySlicer.cpp:88-154: the function with its new branches, and the instructions to
      be kept.  The set of dependent instructions is ordered by addresses in the code. *)
  Definition second_phase (n : nat) (f : func) (s : sets) : option (func * sets) :=
    match each (operands_of_dependent n f) (dependent s) s with
    | None => None
    | Some s1 =>
      match each (end_of_block n (return_block f)) (dkeys (f_blocks f)) (f, s1) with
      | None => None
      | Some (g, s2) => match each (phi_operands n g) (insts g) s2 with Some s3 => Some (g, s3) | None => None end
      end
    end.
  (** VarDependencySlicer.cpp:165-181: the fourth phase; ends of blocks are kept. *)
  Definition remove_others (f : func) (s : sets) : func :=
    let kept := included s ++ dependent s in
    mkFunc (f_sig f) (f_args f)
      (map (fun kb => (fst kb, map (erased f kept) (filter (fun i => mem (i_reg i) kept || is_terminator i) (snd kb)))) (f_blocks f)).
  (** VarDependencySlicer.cpp:27-181 run *)
  Definition variable_slice (n : nat) (f : func) : option func :=
    match second_phase n f (first_phase f) with Some (g, s) => Some (remove_others g s) | None => None end.
End Variable_slice.
