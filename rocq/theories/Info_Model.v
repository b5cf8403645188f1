(** * Model of the analyses of structure types and of the renaming of anonymous ones
    (diffkemp/simpll/passes/StructureDebugInfoAnalysis.cpp, StructureSizeAnalysis.cpp,
    StructHashGeneratorPass.cpp) *)
From Coq Require Import String Ascii ZArith Arith Bool List.
From Verif Require Import PyBase.
Import ListNotations.
Open Scope list_scope.

(** ** StructureDebugInfoAnalysis.cpp *)
(** Types of debug info, by numbers.  Elements of a composite type that are no types are left out.
    [Subroutine] are types of functions (result and parameters), all others are [Plain]. *)
Inductive ditype := Derived (base : option nat) | Composite (structure : bool) (name : string) (elems : list nat)
| Subroutine (types : list nat) | Plain.
Definition dinfo := dict nat ditype.
(** A compile unit has its retained types and the types of its global variables
    (StructureDebugInfoAnalysis.cpp:28-40); simplified: every variable has a type. *)
Record unit := mkUnit { u_retained : list nat; u_globals : list nat }.
Definition found := dict string nat.

(** StructureDebugInfoAnalysis.cpp:52-54, 61-67: what is pushed on the stack *)
Definition next (t : ditype) : list nat :=
  match t with Derived (Some b) => [b] | Composite _ _ elems => elems | _ => [] end.
(** StructureDebugInfoAnalysis.cpp:55-60 *)
Definition note (t : ditype) (id : nat) (res : found) : found :=
  match t with Composite true name _ => if String.eqb name "" then res else dset res name id | _ => res end.
(** StructureDebugInfoAnalysis.cpp:46-68; the stack has its top first.  [None] if [n] steps do not suffice. *)
Fixpoint search (n : nat) (g : dinfo) (stack seen : list nat) (res : found) : option found :=
  match n with
  | O => None
  | S n' =>
    match stack with
    | [] => Some res
    | id :: stack' =>
      if mem id seen then search n' g stack' seen res
      else match dget g id with
           | Some t => search n' g (rev (next t) ++ stack') (id :: seen) (note t id res)
           | None => search n' g stack' (id :: seen) res
           end
    end
  end.
(** StructureDebugInfoAnalysis.cpp:24-71 run *)
Fixpoint debug_structs (n : nat) (g : dinfo) (units : list unit) (res : found) : option found :=
  match units with
  | [] => Some res
  | u :: us =>
    match search n g (rev (u_retained u ++ u_globals u)) [] res with
    | Some res' => debug_structs n g us res'
    | None => None
    end
  end.

(** ** StructureSizeAnalysis.cpp:18-44.  The named structures of a module, with their sizes if they have one. *)
(** StructureSizeAnalysis.h: the result *)
Definition sizes := dict Z (list string).
(** StructureSizeAnalysis.cpp:27-40, one structure; the set of names is a list *)
Definition add_size (m : sizes) (s : string * option Z) : sizes :=
  match snd s with
  | None => m
  | Some z => dset m z (match dget m z with Some names => names ++ [fst s] | None => [fst s] end)
  end.
(** StructureSizeAnalysis.cpp:18-44 run *)
Definition struct_sizes (structs : list (string * option Z)) : sizes := fold_left add_size structs [].

(** ** StructHashGeneratorPass.cpp:18-51 *)
(** A structure is printed with the names of the structures in it. *)
Inductive piece := Text (s : string) | Ref (id : nat).
Record struct := mkStruct { s_id : nat; s_opaque : bool; s_pieces : list piece }.
Definition names := dict nat string.
Section Hash.
  Variable hash : string -> string.                     (* to_string(hash_value(...)) *)
  Variable fresh : list string -> string -> string.     (* the name LLVM gives if the wished one is taken *)
  (** StructType::getName *)
  Definition name_of (ns : names) (id : nat) : string := match dget ns id with Some n => n | None => ""%string end.
  (** StructHashGeneratorPass.cpp:29-38: the printed type from its first brace *)
  Definition piece_text (ns : names) (p : piece) : string := match p with Text s => s | Ref id => ("%" ++ name_of ns id)%string end.
  Definition declaration (ns : names) (s : struct) : string := String.concat "" (map (piece_text ns) (s_pieces s)).
  (** StructHashGeneratorPass.cpp:25-27 *)
  Definition anonymous (n : string) : bool := startswith n "union.anon" || startswith n "struct.anon".
  (** StructHashGeneratorPass.cpp:39-43 *)
  Definition new_name (ns : names) (s : struct) : string :=
    ((if startswith (name_of ns (s_id s)) "union.anon" then "union.anon." else "struct.anon.") ++ hash (declaration ns s))%string.
  (** StructType::setName: the old name is free, too. *)
  Definition set_name (ns : names) (id : nat) (n : string) : names :=
    if String.eqb n (name_of ns id) then ns
    else dset ns id (if mem n (dvals ns) then fresh (dvals ns) n else n).
  (** StructHashGeneratorPass.cpp:24-47, one structure *)
  Definition rename (ns : names) (s : struct) : names :=
    if anonymous (name_of ns (s_id s)) && negb (s_opaque s) then set_name ns (s_id s) (new_name ns s) else ns.
  (** StructHashGeneratorPass.cpp:18-51 run *)
  Definition hash_structs (structs : list struct) (ns : names) : names := fold_left rename structs ns.
End Hash.
