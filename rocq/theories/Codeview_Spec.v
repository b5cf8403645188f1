(** * Specification of the code of a function in the result viewer *)
From Coq Require Import String Ascii ZArith Arith Bool List.
From Verif Require Import PyBase Show_Model Codeview_Model.
Import ListNotations.
Open Scope list_scope.

Section FetchSpec.
  Variable src : string -> string.
  Variable has_diff : string -> bool.
  Variable file : string -> string.

  (** The function that was asked for last, if code is shown at all. *)
  Fixpoint wanted_from (w : option string) (es : list event) : option string :=
    match es with
    | [] => w
    | Render _ f :: es => wanted_from (Some f) es
    | Away :: es => wanted_from None es
    | _ :: es => wanted_from w es
    end.
  Definition wanted (es : list event) : option string := wanted_from None es.
  (** The code and the difference of a function. *)
  Definition right_code (f : string) : string := file ("src/" ++ src (plain_name f)).
  Definition right_diff (f : string) : string :=
    if has_diff (plain_name f) then file ("diffs/" ++ plain_name f ++ ".diff") else "".

  (** Names of compared functions have no hyphen. *)
  Fixpoint plain (s : string) : Prop :=
    match s with EmptyString => True | String c s => c <> "-"%char /\ plain s end.
  Definition plain_names (es : list event) : Prop := forall comp f, In (Render comp f) es -> plain comp.
End FetchSpec.

(** Lines of a function that are to be shown: those of the difference, the first and the last one, and for a function
    that calls the next one, all of them or (for more than 25 lines) those near the calls. *)
Definition of_function (hunks : nat -> bool) (s e : nat) (calls : option (Z * Z)) (x : nat) : Prop :=
  hunks x = true \/ x = s \/ x = e \/
  match calls with
  | None => False
  | Some (c, c') => e - s + 1 <= 25 \/ (Z.abs (Z.of_nat x - c) <= 10)%Z \/ (Z.abs (Z.of_nat x - c') <= 10)%Z
  end.
(** Lines around the function that are to be shown: those of a hunk that touches it. *)
Definition around (hunks : nat -> bool) (s e x : nat) : Prop :=
  (x < s /\ forall y, x <= y < s -> hunks y = true) \/ (e < x /\ forall y, e < y <= x -> hunks y = true).
