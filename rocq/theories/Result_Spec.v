(** * Specification vocabulary for comparison verdicts
    (documentation of Result.Kind: "Sorted by priority for result aggregation"). *)
From Coq Require Import String ZArith Arith List.
From Verif Require Import PyBase Result_Model.
Import ListNotations.
Open Scope list_scope.

(** The severity order, as a list from the weakest to the strongest verdict. *)
Definition severity_order : list kind :=
  [NONE; EQUAL; ASSUMED_EQUAL; NOT_EQUAL; UNKNOWN; TIMEOUT; ERROR].

(** [at_most a b]: verdict [a] is not more severe than [b], i.e. [b] does not come
    strictly before [a] in [severity_order]. *)
Definition at_most (a b : kind) : Prop :=
  exists l1 l2, severity_order = l1 ++ a :: l2 /\ In b (a :: l2).

(** The last element of [l] with the given name, if any. *)
Fixpoint last_named {A} (name_of : A -> string) (n : string) (l : list A) : option A :=
  match l with
  | [] => None
  | x :: l' => match last_named name_of n l' with
               | Some y => Some y
               | None => if String.eqb (name_of x) n then Some x else None
               end
  end.

(** The spelling SimpLL uses for verdicts in its YAML output
    (diffkemp/simpll/Output.cpp:99-106). *)
Definition simpll_spelling (k : kind) : option string :=
  match k with
  | EQUAL => Some "equal"%string
  | NOT_EQUAL => Some "not-equal"%string
  | ASSUMED_EQUAL => Some "assumed-equal"%string
  | UNKNOWN => Some "unknown"%string
  | _ => None
  end.
