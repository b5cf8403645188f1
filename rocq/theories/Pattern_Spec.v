(** * What the properties of custom patterns speak of. *)
From Coq Require Import String Ascii ZArith Arith Bool List.
From Verif Require Import PyBase Funcomp_Model Source_Model Pattern_Model.
Import ListNotations.
Open Scope list_scope.
Open Scope nat_scope.

(** ** A piece of code as an instance of a pattern *)

Definition is_const (v : value) : bool := match v with VConst _ => true | _ => false end.
(** Constants that correspond: the same number, or globals with corresponding names
    ([names_match], see C49). *)
Inductive consts_correspond (left : bool) : const -> const -> Prop :=
| Same_number z : consts_correspond left (CInt z) (CInt z)
| Same_name x y : names_match x y left = true -> consts_correspond left (CGlobal x) (CGlobal y).
(** The value [a] of the code stands for the value [b] of the pattern, where [phi] says what the
    inputs of the pattern stand for. *)
Inductive stands_for (left : bool) (inputs : list value) (phi : value -> option value) : value -> value -> Prop :=
| Stands_const a b : consts_correspond left a b -> stands_for left inputs phi (VConst a) (VConst b)
| Stands_value a b : is_const a = false -> is_const b = false -> (In b inputs -> phi b = Some a) -> stands_for left inputs phi a b.
(** The instruction [m] does what [p] does, on the values that [S] relates. *)
Inductive instance_of (same_rest : string -> string -> bool) (S : value -> value -> Prop) (m p : inst) : Prop :=
| Instance_plain :
    i_code m = i_code p -> (forall x, i_code p <> Gep x) -> (forall x, i_code p <> Phi x) ->
    same_rest (i_rest m) (i_rest p) = true -> Forall2 S (i_ops m) (i_ops p) -> instance_of same_rest S m p
| Instance_phi x y :
    i_code m = Phi x -> i_code p = Phi y -> same_rest (i_rest m) (i_rest p) = true -> Forall2 S (i_ops m) (i_ops p) -> instance_of same_rest S m p
| Instance_gep x y :
    i_code m = Gep x -> i_code p = Gep y -> same_rest (i_rest m) (i_rest p) = true -> Forall2 S (i_ops m) (i_ops p) -> instance_of same_rest S m p
| Instance_offset z :
    i_code m = Gep (Some z) -> i_code p = Gep (Some z) -> S (op 0 m) (op 0 p) -> instance_of same_rest S m p.

(** ** Code that contains a pattern *)

Definition ordinary (i : inst) : Prop := match i_code i with Gep _ | Phi _ => False | _ => True end.
(** [m] is [p] with its values renamed. *)
Definition copy (same_rest : string -> string -> bool) (phi : value -> value) (m p : inst) : Prop :=
  ordinary p /\ i_code m = i_code p /\ same_rest (i_rest m) (i_rest p) = true /\
  i_ops m = map phi (i_ops p) /\ VReg (i_reg m) = phi (VReg (i_reg p)).
(** The values that occur in a function of one block. *)
Definition occurring (f : func) (b : nat) (v : value) : Prop :=
  v = VBlock b \/ In v (arguments f) \/ exists i, In i (insts f) /\ (v = VReg (i_reg i) \/ In v (i_ops i)).
(** A renaming of values: one to one, constants to constants that correspond. *)
Definition renames (left : bool) (D : value -> Prop) (phi : value -> value) : Prop :=
  (forall a b, D a -> D b -> phi a = phi b -> a = b) /\
  (forall b, D b ->
    match b with
    | VConst d => exists c, phi b = VConst c /\ consts_correspond left c d
    | VBlock _ => exists x, phi b = VBlock x
    | _ => is_const (phi b) = false /\ is_block (phi b) = false
    end).
(** The instructions [ps], renamed, come in [ms] in their order, and something after them; an
    instruction between them does something else than the one that is awaited there, and nothing
    of the pattern stands for it. *)
Inductive contains (same_rest : string -> string -> bool) (D : value -> Prop) (phi : value -> value) : list inst -> list inst -> Prop :=
| Contains_end m ms : contains same_rest D phi [] (m :: ms)
| Contains_next p ps m ms : copy same_rest phi m p -> contains same_rest D phi ps ms -> contains same_rest D phi (p :: ps) (m :: ms)
| Contains_other p ps m ms :
    is_terminator m = false -> i_code m <> i_code p -> (forall b, D b -> phi b <> VReg (i_reg m)) ->
    contains same_rest D phi (p :: ps) ms -> contains same_rest D phi (p :: ps) (m :: ms).
(** No instruction has the result of one that comes later, or uses it. *)
Definition in_order (l : list inst) : Prop :=
  forall a p b, l = a ++ p :: b -> forall q, In q a -> i_reg q <> i_reg p /\ ~ In (VReg (i_reg p)) (i_ops q).

(** ** Both sides *)

(** By the numbering [d] of the comparison so far, [x] of the old function and [y] of the new one
    are the same: they have the same number, or are noted as a pair under the number of one of
    them. *)
Definition paired (d : numbering) (x y : value) : Prop :=
  (exists i, dget (d_L d) (true, x) = Some i /\ dget (d_R d) (false, y) = Some i) \/
  (exists i k c, dget (d_L d) (true, x) = Some i /\ dget (d_by d) i = Some (k, (c, y))) \/
  (exists i k c, dget (d_R d) (false, y) = Some i /\ dget (d_by d) i = Some ((c, x), k)).
(** The instructions of a side that are matched, with their counterparts in the pattern. *)
Definition matched (s : mstate) (p m : nat) : Prop := dget (imm s) p = Some m.
Definition bound (s : mstate) (v x : value) : Prop := dget (pim s) v = Some x.

(** ** Loading *)

Definition known_marks : list string :=
  ["pattern-start"; "pattern-end"; "group-start"; "group-end"; "disable-name-comparison"; "not-an-input"; "no-value-pattern-detection"]%string.
(** The instruction carries the mark, in a node in which every name is known. *)
Definition marked (md : dict nat (list mdop)) (i : inst) (name : string) : Prop :=
  exists ops, dget md (i_reg i) = Some ops /\ In (MString name) ops /\ forall o, In o ops -> exists n, o = MString n /\ In n known_marks.
(** The instruction gives the outputs: a return, or a call of [diffkemp.output_mapping]. *)
Definition gives_outputs (i : inst) (outs : list value) : Prop :=
  (i_code i = Ret /\ outs = i_ops i) \/
  (i_code i = Call /\ i_ops i = outs ++ [VConst (CGlobal "diffkemp.output_mapping")]).
(** The first of a list with a property. *)
Definition first_with {A} (P : A -> Prop) (l : list A) (x : A) : Prop :=
  exists a b, l = a ++ x :: b /\ P x /\ forall y, In y a -> ~ P y.
