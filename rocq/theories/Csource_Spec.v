(** * Types of expressions in C, and arguments with sizes *)
From Coq Require Import String Ascii ZArith Arith Bool List.
From Verif Require Import PyBase Source_Spec Csource_Model.
Import ListNotations.
Open Scope list_scope.

(** What a type points to, behind names and qualifiers *)
Inductive Points : dtype -> dtype -> Prop :=
| Points_to n b : Points (Derived Pointer n (Some b)) b
| Points_as k n t b : k <> Pointer -> Points t b -> Points (Derived k n (Some t)) b.
Definition Letter (c : ascii) : Prop :=
  let n := nat_of_ascii c in (65 <= n <= 90 \/ 97 <= n <= 122 \/ 48 <= n <= 57 \/ n = 95)%nat.
Definition Identifier (x : string) : Prop := Forall Letter (list_ascii_of_string x).
(** The variable a name stands for: the local one, or else the global one *)
Definition Variable_of (s : side) (x : string) (t : dtype) : Prop :=
  dget (s_locals s) (s_fun s ++ "::" ++ x)%string = Some t \/ (dget (s_locals s) (s_fun s ++ "::" ++ x)%string = None /\ dget (s_globals s) x = Some t).
(** The type of a name with stars and ampersands before it *)
Inductive C_type (s : side) : string -> dtype -> Prop :=
| C_name x t : Identifier x -> Variable_of s x t -> C_type s x t
| C_deref e t b : C_type s e t -> Points t b -> C_type s (String "*" e) b
| C_ref e t : C_type s e t -> C_type s (String "&" e) (Derived Pointer "" (Some t)).
(** No names for types of pointers *)
Fixpoint Only_pointers (t : dtype) : Prop :=
  match t with
  | Derived k _ b => k = Pointer /\ match b with Some u => Only_pointers u | None => True end
  | Opaque _ => True
  end.
(** No local variable with the name of a global one, and no typedefs or qualifiers in the types of variables *)
Definition Simple (s : side) : Prop :=
  (forall x, dget (s_globals s) x <> None -> dget (s_locals s) (s_fun s ++ "::" ++ x)%string = None) /\
  (forall x t, dget (s_globals s) x = Some t -> Only_pointers t) /\ (forall x t, dget (s_locals s) x = Some t -> Only_pointers t).

(** An argument that is sizeof of something, maybe with something behind it *)
Definition Sizeof (arg inner : string) : Prop := exists t, arg = ("sizeof" ++ t)%string /\ closes t ("(" ++ inner ++ ")").
(** The number, stored in 32 bits with a sign *)
Definition In_int (x z : Z) : Prop := (- 2 ^ 31 <= z < 2 ^ 31 /\ exists k, x = z + k * 2 ^ 32)%Z.
(** There are structures of these sizes, and they are those of the same names. *)
Definition Same_structures (l r : side) (a b : Z) : Prop :=
  (exists n, In (n, Some a) (s_structs l)) /\ (forall n, In (n, Some a) (s_structs l) <-> In (n, Some b) (s_structs r)).
