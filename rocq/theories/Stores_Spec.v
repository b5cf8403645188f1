(** * What is stored in local variables before they are read (for Stores_Props).  Only the IR is
    used, with what depends on a variable from Slice_Spec. *)
From Coq Require Import String Ascii ZArith Arith Bool List.
From Verif Require Import PyBase Funcomp_Model Slice_Spec.
Import ListNotations.
Open Scope list_scope.
Open Scope nat_scope.

(** [j] may be executed right after [i]; what comes after a switch does not count. *)
Definition goes_on (f : func) (i j : inst) : Prop :=
  i_code i <> Br /\ follows f i j \/ i_code i = Br /\ exists t l, In t (successors i) /\ In (t, j :: l) (f_blocks f).
(** [j] may be executed after [a] without [u] in between. *)
Inductive way (f : func) (u a : inst) : inst -> Prop :=
| way_next j : follows f a j -> way f u a j
| way_on i j : way f u a i -> i <> u -> goes_on f i j -> way f u a j.
(** [i] stores to the address [p], or calls a function with it. *)
Definition writes (p : nat) (i : inst) : Prop := i_code i = Store /\ (exists v, i_ops i = [v; VReg p]) \/ i_code i = Call /\ In (VReg p) (i_ops i).
(** [d] is the address [p] with another type, or that of a part of what is at [p]. *)
Definition part_of (p : nat) (d : inst) : Prop := (i_code d = Cast true \/ exists k, i_code d = Gep k) /\ exists l, i_ops d = VReg p :: l.
(** [x] may write to what [a] points to, by way of [a] or of addresses computed from it, before
    [u].  An address computed by [u] itself does not count. *)
Inductive may_write (f : func) (u : inst) : inst -> inst -> Prop :=
| write_here a x : way f u a x -> writes (i_reg a) x -> may_write f u a x
| write_part a d x : way f u a d -> d <> u -> part_of (i_reg a) d -> may_write f u d x -> may_write f u a x.

(** What is in [P], what that is computed from, and what may have written to the local variables
    it uses; what PHI nodes are computed from does not count. *)
Inductive required (P : inst -> Prop) (f : func) : inst -> Prop :=
| required_start i : P i -> required P f i
| required_operand u d : required P f u -> is_phi u = false -> In d (insts f) -> uses u d -> required P f d
| required_write u a x : required P f u -> is_phi u = false -> In a (insts f) -> i_code a = Alloca -> uses u a -> may_write f u a x -> required P f x.

(** What uses the variable, or a value computed from it earlier in the text of the function. *)
Inductive computed_from (var : string) (f : func) : inst -> Prop :=
| computed_variable i : In i (insts f) -> i_code i <> Debug -> In (VConst (CGlobal var)) (i_ops i) -> computed_from var f i
| computed_value d i : computed_from var f d -> In i (insts f) -> i_code i <> Debug -> uses i d -> later f d i -> computed_from var f i.
