(** * Model of the end of slicing by a variable: the removal of blocks and of the return value
    (diffkemp/simpll/passes/VarDependencySlicer.cpp:193-225, 419-460, 669-752), and of the parts of
    LLVM it uses (DeleteDeadBlock, TryToSimplifyUncondBranchFromEmptyBlock,
    BasicBlock::removePredecessor).
    Simplified: LLVM replaces a PHI node that is left with one value by the value; here it is
    kept. *)
From Coq Require Import String Ascii ZArith Arith Bool List.
From Verif Require Import PyBase Funcomp_Model Slice_Model.
Import ListNotations.
Open Scope list_scope.
Open Scope nat_scope.

(** llvm::predecessors: one entry for each edge into block [b]. *)
Definition into (f : func) (b : nat) : list nat :=
  flat_map (fun kb => map (fun _ => fst kb) (filter (Nat.eqb b) (match terminator (snd kb) with Some t => successors t | None => [] end))) (f_blocks f).
Definition no_predecessor (f : func) (b : nat) : bool := match into f b with [] => true | _ => false end.

(** A PHI node with the values [l]. *)
Definition with_incoming (i : inst) (l : list (value * nat)) : inst :=
  mkInst (i_reg i) (Phi (map snd l)) (i_rest i) (map fst l).

(** ** Deleted blocks *)

(** DeleteDeadBlock (LLVM) and VarDependencySlicer.cpp:690-703: the blocks in [D] are deleted.  Their
    values become undefined, and the PHI nodes of the blocks they go to lose what comes from
    them. *)
Definition defined_in (D : nat -> bool) (f : func) (r : nat) : bool :=
  existsb (fun kb => D (fst kb) && mem r (map i_reg (snd kb))) (f_blocks f).
Definition left_value (D : nat -> bool) (f : func) (v : value) : value :=
  match v with VReg r => if defined_in D f r then undefined else v | v => v end.
Definition left_inst (D : nat -> bool) (f : func) (c : nat) (i : inst) : inst :=
  let i1 := match i_code i with
            | Phi _ => with_incoming i (filter (fun e => negb (D (snd e) && mem c (targets f (snd e)))) (incoming i))
            | _ => i
            end in
  mkInst (i_reg i1) (i_code i1) (i_rest i1) (map (left_value D f) (i_ops i1)).
Definition delete (D : nat -> bool) (f : func) : func :=
  mkFunc (f_sig f) (f_args f)
    (map (fun kb => (fst kb, map (left_inst D f (fst kb)) (snd kb))) (filter (fun kb => negb (D (fst kb))) (f_blocks f))).

(** VarDependencySlicer.cpp:192-198: blocks that are not included and have no predecessors, except
    the first; [inc] are the included blocks. *)
Definition clear_one (inc : list nat) (f : func) (b : nat) : func :=
  if negb (mem b inc) && no_predecessor f b then delete (Nat.eqb b) f else f.
Definition clear_dead (inc : list nat) (f : func) : func :=
  fold_left (clear_one inc) (tl (dkeys (f_blocks f))) f.

(** ** Blocks that only go on *)

(** VarDependencySlicer.cpp:419-442 canRemoveBlock, for a block with the one successor [s] *)
Definition can_remove (f : func) (b s : nat) : bool :=
  forallb (fun i =>
    negb (is_phi i) ||
    forallb (fun e =>
      Nat.eqb (snd e) b ||
      forallb (fun p => match value_from i p with None => true | Some v => eqb (Some v) (value_from i b) end) (into f b))
      (incoming i)) (block f s).
(** TryToSimplifyUncondBranchFromEmptyBlock (LLVM): whoever went to [b] goes to [s]; the PHI nodes
    of [s] get the value that came from [b] from each of the predecessors [ps] of [b]. *)
Definition redirected_value (b s : nat) (v : value) : value :=
  match v with VBlock x => if Nat.eqb x b then VBlock s else v | v => v end.
Definition moved (b s : nat) (ps : list nat) (c : nat) (i : inst) : inst :=
  match i_code i with
  | Phi _ =>
    if Nat.eqb c s then
      with_incoming i (filter (fun e => negb (Nat.eqb (snd e) b)) (incoming i) ++ match value_from i b with Some v => map (pair v) ps | None => [] end)
    else i
  | _ => mkInst (i_reg i) (i_code i) (i_rest i) (map (redirected_value b s) (i_ops i))
  end.
Definition merge (b s : nat) (f : func) : func :=
  mkFunc (f_sig f) (f_args f)
    (map (fun kb => (fst kb, map (moved b s (into f b) (fst kb)) (snd kb))) (filter (fun kb => negb (Nat.eqb (fst kb) b)) (f_blocks f))).
(** VarDependencySlicer.cpp:199-215; a block that goes to itself is kept. *)
Definition merge_one (inc : list nat) (f : func) (b : nat) : func :=
  if mem b inc then f
  else
    match targets f b with
    | [s] => if can_remove f b s && negb (Nat.eqb s b) then merge b s f else f
    | _ => f
    end.
Definition merge_empty (inc : list nat) (f : func) : func :=
  fold_left (merge_one inc) (tl (dkeys (f_blocks f))) f.

(** ** The first block, and what cannot be reached *)

(** VarDependencySlicer.cpp:444-454 canRemoveFirstBlock *)
Definition can_remove_first (inc : list nat) (f : func) (e : nat) : bool :=
  forallb (fun t => negb (mem t inc && negb (no_predecessor f t))) (targets f e).
(** VarDependencySlicer.cpp:216-220 *)
Definition drop_first (inc : list nat) (f : func) : func :=
  let e := entry f in
  if negb (mem e inc) && can_remove_first inc f e then delete (Nat.eqb e) f else f.

(** VarDependencySlicer.cpp:669-680 calculateReachableBlocksRecursive; the sets Reachable and
    Visited. *)
Fixpoint reach_from (n : nat) (f : func) (b : nat) (rv : list nat * list nat) : list nat * list nat :=
  match n with
  | O => rv
  | S n' =>
    if mem b (snd rv) then rv
    else fold_left (fun rv t => reach_from n' f t (t :: fst rv, snd rv)) (targets f b) (fst rv, b :: snd rv)
  end.
(** VarDependencySlicer.cpp:683-705 deleteUnreachableBlocks; [None]: a function without blocks has
    no entry block (the code takes one that does not exist). *)
Definition delete_unreachable (f : func) : option func :=
  match f_blocks f with
  | [] => None
  | _ =>
    let r := fst (reach_from (S (length (f_blocks f))) f (entry f) ([entry f], [])) in
    Some (delete (fun b => negb (mem b r)) f)
  end.

(** VarDependencySlicer.cpp:192-224 *)
Definition trim (inc : list nat) (f : func) : option func :=
  delete_unreachable (drop_first inc (merge_empty inc (clear_dead inc f))).

(** ** The return value *)

(** VarDependencySlicer.cpp:711-752 changeToVoid: the copy of the function. *)
Definition void_return (i : inst) : inst := match i_code i with Ret => mkInst (i_reg i) Ret "" [] | _ => i end.
Definition to_void (f : func) : func :=
  mkFunc (String.append "void " (f_sig f)) (f_args f) (map (fun kb => (fst kb, map void_return (snd kb))) (f_blocks f)).

(** What is in the module under the name of the function, and with ".old" after it. *)
Record sliced := mkSliced { named : func; old : option func }.
(** VarDependencySlicer.cpp:165-232: [void]: the function returns nothing; [used]: an instruction
    of the module calls it or takes its address.  If it is changed to return nothing, what follows
    is done with the old function. *)
Definition finish (void used : bool) (ret : option nat) (s : sets) (f : func) : option sliced :=
  let g := remove_others f s in
  let keeps := match ret with
               | Some b => match terminator (block g b) with Some t => mem (i_reg t) (included s ++ dependent s) | None => true end
               | None => true
               end in
  match trim (in_blocks s) g with
  | None => None
  | Some h => Some (if keeps || void || used then mkSliced h None else mkSliced (to_void g) (Some h))
  end.
(** VarDependencySlicer.cpp:27-232 run *)
Definition slice_function (reachable : (nat -> list nat) -> nat -> nat -> bool) (var : string) (n : nat) (void used : bool) (f : func) : option sliced :=
  match second_phase reachable n f (first_phase reachable var f) with
  | Some (g, s) => finish void used (return_block f) s g
  | None => None
  end.
