(** * Comparisons and what is to be logged of them *)
From Coq Require Import String Arith Bool List.
From Verif Require Import Log_Model.
Import ListNotations.
Open Scope list_scope.

Section Spec.
  Variable text : Type.
  (** A comparison with the comparisons made for it, whether it found a difference, and whether it is
      one that is of interest also without. *)
  Inductive comparison := Comparison (t : text) (parts : list comparison) (differs interesting : bool).
  Definition about (c : comparison) : text := match c with Comparison t _ _ _ => t end.
  Definition parts (c : comparison) : list comparison := match c with Comparison _ l _ _ => l end.
  Definition differs (c : comparison) : bool := match c with Comparison _ _ d _ => d end.
  Definition interesting (c : comparison) : bool := match c with Comparison _ _ _ i => i end.

  (** What the comparison tells the logger *)
  Fixpoint told (c : comparison) : list (event text) :=
    match c with Comparison t l d i => Prepare t :: flat_map told l ++ [Finish d i] end.

  (** A comparison made for another one, with all in between, the outermost first. *)
  Inductive Within : comparison -> list comparison -> comparison -> Prop :=
  | Within_self c : Within c [] c
  | Within_part c p above x : In p (parts c) -> Within p above x -> Within c (c :: above) x.

  (** It is logged if it found a difference or is of interest, and all around it found a difference or are
      of interest just as itself. *)
  Definition Logged (extra : bool) (above : list comparison) (x : comparison) : Prop :=
    (differs x = true \/ (extra = true /\ interesting x = true)) /\
    Forall (fun a => differs a = true \/ (extra = true /\ interesting a = true /\ interesting x = true)) above.

  (** The same as a list, in the order of the comparisons; [only] is whether one around it found no difference. *)
  Fixpoint log_of (extra only : bool) (depth : nat) (c : comparison) : list (nat * text) :=
    match c with
    | Comparison t l d i =>
      if d || (extra && i) then
        (if only && negb (extra && i) then [] else [(depth, t)]) ++ flat_map (log_of extra (only || negb d) (S depth)) l
      else []
    end.
End Spec.
Arguments Comparison {text}. Arguments about {text}. Arguments parts {text}. Arguments differs {text}. Arguments interesting {text}.
Arguments told {text}. Arguments Within {text}. Arguments Logged {text}. Arguments log_of {text}.
