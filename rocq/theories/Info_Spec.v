(** * Structures of a module *)
From Coq Require Import String Ascii ZArith Arith Bool List.
From Verif Require Import PyBase Info_Model.
Import ListNotations.
Open Scope list_scope.

(** ** Debug info *)
(** A type that another one is made from: a pointer, member or other derived type from its base, a composite
    type from its elements. *)
Inductive Part (g : dinfo) : nat -> nat -> Prop :=
| Part_base a b : dget g a = Some (Derived (Some b)) -> Part g a b
| Part_elem a s n l b : dget g a = Some (Composite s n l) -> In b l -> Part g a b.
Inductive Reached (g : dinfo) (roots : list nat) : nat -> Prop :=
| Reached_root a : In a roots -> Reached g roots a
| Reached_part a b : Reached g roots a -> Part g a b -> Reached g roots b.
Definition Structure (g : dinfo) (id : nat) (name : string) : Prop :=
  name <> ""%string /\ exists l, dget g id = Some (Composite true name l).
Definition In_units (g : dinfo) (units : list unit) (id : nat) : Prop :=
  exists u, In u units /\ Reached g (u_retained u ++ u_globals u) id.

(** ** Names of anonymous structures *)
Definition Begins (n p : string) : Prop := exists r, n = (p ++ r)%string.
Definition Dotless (s : string) : Prop := has_char "." s = false.
(** The name LLVM gives instead of a taken one *)
Definition Renamer (fresh : list string -> string -> string) : Prop :=
  forall taken n, ~ In (fresh taken n) taken /\ exists k, fresh taken n = (n ++ "." ++ k)%string.
(** The name, maybe with a suffix *)
Definition Named (n base : string) : Prop := n = base \/ exists k, n = (base ++ "." ++ k)%string.
Definition Anonymous (n : string) : Prop := Begins n "union.anon" \/ Begins n "struct.anon".
Definition kind_of (n : string) : string := if startswith n "union.anon" then "union.anon."%string else "struct.anon."%string.
(** The name of a structure, and its declaration with the names of the structures in it *)
Definition called (ns : names) (id : nat) : string := match dget ns id with Some n => n | None => ""%string end.
Fixpoint written_as (ns : names) (l : list piece) : string :=
  match l with [] => ""%string | Text t :: l' => (t ++ written_as ns l')%string | Ref id :: l' => ("%" ++ called ns id ++ written_as ns l')%string end.
Definition declared (ns : names) (s : struct) : string := written_as ns (s_pieces s).
(** No anonymous structure is in the declaration. *)
Definition Simple (ns : names) (s : struct) : Prop :=
  forall id, In (Ref id) (s_pieces s) -> ~ Anonymous (called ns id).
