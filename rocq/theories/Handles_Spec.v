(** * What is expected of the lifetime of modules behind Python objects *)
From Coq Require Import Arith Bool List.
From Verif Require Import Handles_Model.
Import ListNotations.
Open Scope list_scope.

(** The items of a history are newest first: [x] happened when the items [before] had happened. *)
Definition happened (l : list item) (x : item) (before : list item) : Prop := exists later, l = later ++ x :: before.

(** Object [m] stands for loading [n], and this was not freed. *)
Definition stands (before : list item) (m : oid) (n : nat) : Prop :=
  In (Born m n) before /\ forall b, ~ In (Freed n b) before.

(** A variable refers to the object or to an object that keeps it as its module. *)
Definition reachable (s : state) (m : oid) : Prop :=
  In m (vars s) \/ exists o n f p, In o (vars s) /\ (objs s o = Some (PFun m n f) \/ objs s o = Some (PTab m p)).

(** Only the collection of objects. *)
Definition collects (cs : list event) : Prop := forall e, In e cs -> exists o, e = Collect o.

Definition preprocesses (e : event) : Prop := exists m gone, e = Preprocess m gone.
Definition asks_param (e : event) : Prop := exists t, e = Param t.
