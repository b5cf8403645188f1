(** * What is left of a function when its empty blocks are removed (for Trim_Props).  Only the IR and
    its meaning (Funcomp_Spec, Slice_Spec) are used. *)
From Coq Require Import String Ascii ZArith Arith Bool List.
From Verif Require Import PyBase Funcomp_Model Funcomp_Spec Slice_Model Slice_Spec.
Import ListNotations.
Open Scope list_scope.
Open Scope nat_scope.

(** The function ends with [o] when it starts in memory [m]. *)
Definition ends_with (S : semantics) (cs : const -> V S) (args : nat -> V S) (f : func) (m : M S) (o : outcome (V S) (M S)) : Prop :=
  (forall m', o <> Running m') /\ exists n, result S cs args f n m = o.
(** An unconditional jump goes to its target, and the undefined constant is the undefined value. *)
Record plain_jumps (S : semantics) (cs : const -> V S) : Prop := mkPlain {
  jump_first : forall r v, choose S Br r [v] = Some 0;
  undef_const : cs (CGlobal "undef") = undef S }.

(** What a function is when the instructions not needed were removed; [inc] are the blocks
    with instructions that are needed.  Nothing goes to the first block; a PHI node has a value for
    each edge; the other blocks have only their ends. *)
Record emptied (inc : list nat) (f : func) : Prop := mkEmptied {
  em_regs : NoDup (map i_reg (insts f));
  em_blocks : NoDup (dkeys (f_blocks f));
  em_some : f_blocks f <> [];
  em_ended : ended f;
  em_first : forall b, ~ In (entry f) (next_blocks f b);
  em_phis : forall p c i, In c (next_blocks f p) -> In i (block f c) -> is_phi i = true -> exists v, In (v, p) (incoming i);
  em_empty : forall b l, In (b, l) (f_blocks f) -> ~ In b inc -> exists t, l = [t] /\ is_terminator t = true;
  em_jumps : forall i t, In i (insts f) -> successors i = [t] -> i_code i = Br /\ i_ops i = [VBlock t] }.

(** What a function is before slicing: nothing goes to the first block, a PHI node has a value for
    each edge, each block has an end, and what has one target is a jump. *)
Record whole (f : func) : Prop := mkWholeFun {
  wh_regs : NoDup (map i_reg (insts f));
  wh_blocks : NoDup (dkeys (f_blocks f));
  wh_some : f_blocks f <> [];
  wh_ended : ended f;
  wh_end : forall b l, In (b, l) (f_blocks f) -> exists k t, l = k ++ [t] /\ is_terminator t = true;
  wh_first : forall b, ~ In (entry f) (next_blocks f b);
  wh_phis : forall p c i, In c (next_blocks f p) -> In i (block f c) -> is_phi i = true -> exists v, In (v, p) (incoming i);
  wh_jumps : forall i t, In i (insts f) -> successors i = [t] -> i_code i = Br /\ i_ops i = [VBlock t] }.

(** From [b], the function only goes on to [c], through blocks that are not in [inc]. *)
Inductive goes_on (inc : list nat) (f : func) : nat -> nat -> Prop :=
| goes_here b : goes_on inc f b b
| goes_step b t c : ~ In b inc -> ~ In t inc -> next_blocks f b = [t] -> goes_on inc f t c -> goes_on inc f b c.

(** The same instruction, except for targets, incoming values and operands that are undefined
    now. *)
Definition same_inst (i i' : inst) : Prop :=
  i_reg i' = i_reg i /\ i_rest i' = i_rest i /\ is_phi i' = is_phi i /\
  (is_phi i = false -> i_code i' = i_code i /\
     Forall2 (fun v v' => v' = v \/ (exists b c, v = VBlock b /\ v' = VBlock c) \/ (exists r, v = VReg r) /\ v' = VConst (CGlobal "undef")) (i_ops i) (i_ops i')).

(** A run in which nothing is returned. *)
Definition without_values {V M : Type} (o : outcome V M) : outcome V M :=
  match o with Returned _ m => Returned [] m | o => o end.
