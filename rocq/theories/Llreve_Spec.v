(** * Answers of z3 *)
From Coq Require Import String ZArith List.
From Verif Require Import PyBase Result_Model Compare_Spec Llreve_Model.
Import ListNotations.
Open Scope list_scope.

(** A line that consists of a word, with blanks around it *)
Definition Word (line w : string) : Prop := exists a b, line = (a ++ w ++ b)%string /\ blank a /\ blank b.
Definition Means (line : string) (k : kind) : Prop :=
  (Word line "sat" /\ k = NOT_EQUAL) \/ (Word line "unsat" /\ k = EQUAL) \/ (Word line "unknown" /\ k = UNKNOWN).
(** The last answer counts; without any it is an error. *)
Definition Answer (ls : list string) (k : kind) : Prop :=
  (exists a l b, ls = a ++ l :: b /\ Means l k /\ forall m j, In m b -> ~ Means m j) \/ (k = ERROR /\ forall l j, In l ls -> ~ Means l j).
Definition Verdict (ls : list string) (code : Z) (k : kind) : Prop := (code <> 0%Z /\ k = ERROR) \/ (code = 0%Z /\ Answer ls k).
(** All lines z3 writes if nobody kills it *)
Inductive Output : list action -> list string -> Prop :=
| Output_none : Output [] []
| Output_read t ls : Output t ls -> Output (Read :: t) ls
| Output_line l t ls : Output t ls -> Output (Write l :: t) (l :: ls).
Inductive Fits : list string -> nat -> Prop :=
| Fits_none n : Fits [] n
| Fits_more l ls n : Fits ls n -> Fits (l :: ls) (String.length l + n).
(** No step is possible any more. *)
Definition Stuck (room : nat) (code : Z) (s : system) : Prop := forall s', ~ step room code s s'.
