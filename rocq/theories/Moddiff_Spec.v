(** * What is compared for a global variable *)
From Coq Require Import String Arith Bool List.
From Verif Require Import PyBase Result_Model Moddiff_Model.
Import ListNotations.
Open Scope list_scope.

Section Spec.
  Context {G M : Type}.
  Variables (w : world G M) (g : string).

  (** A function of the first module is compared: the second one has it among those that use the variable,
      too, and neither it nor one before it lacks a definition. *)
  Definition compared (m1 m2 : M) (f : string) : Prop :=
    exists l1 l2, users w m1 g = l1 ++ f :: l2 /\ In f (users w m2 g) /\
      forall h, In h (l1 ++ [f]) -> In h (users w m2 g) -> has_function w m1 h = true /\ has_function w m2 h = true.

  (** A source whose modules were built and both have the variable. *)
  Definition both (src : string) (m1 m2 : M) : Prop :=
    In src (srcs1 w g) /\ In src (srcs2 w g) /\ build1 w src = Ok m1 /\ build2 w src = Ok m2 /\
    has_global w m1 g = true /\ has_global w m2 g = true.

  (** The building fails for a source, at the start or when one of its functions is compared. *)
  Definition not_built (src : string) : Prop :=
    In src (srcs1 w g) /\ In src (srcs2 w g) /\
    (build1 w src = Err BuildException \/
     (exists m1, build1 w src = Ok m1 /\ build2 w src = Err BuildException) \/
     (exists m1 m2 f, both src m1 m2 /\ compared m1 m2 f /\ fdiff w m1 m2 f = Err BuildException)).

  (** A verdict about a part: of a source (by its name) or of a function. *)
  Inductive part : string -> kind -> Prop :=
  | only_first src : In src (srcs1 w g) -> ~ In src (srcs2 w g) -> part src NOT_EQUAL
  | no_build src : not_built src -> part src ERROR
  | pair src m1 m2 f r : both src m1 m2 -> ~ not_built src -> compared m1 m2 f -> fdiff w m1 m2 f = Ok r -> part f (r_kind r).

  (** What the called functions promise: sets have no element twice; the result of a function has its name. *)
  Definition proper : Prop :=
    (forall m, NoDup (users w m g)) /\ (forall m1 m2 f r, fdiff w m1 m2 f = Ok r -> en_name (r_first r) = f).
End Spec.
