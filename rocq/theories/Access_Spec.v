(** * What it means that accesses to fields, and calls for changed structures, are equal *)
From Coq Require Import String Ascii ZArith Arith Bool List.
From Verif Require Import PyBase Funcomp_Model Funcomp_Spec.
Import ListNotations.
Open Scope list_scope.
Open Scope Z_scope.

(** ** Accesses *)
Section Access.
  Variable to_int : inst -> bool.   (* the conversion is to an integer *)

  (** An instruction that yields the pointer it is given, moved by a number of bytes. *)
  Inductive moves : inst -> Z -> Prop :=
  | moves_gep i z : i_code i = Gep (Some z) -> moves i z
  | moves_cast i b : i_code i = Cast b -> to_int i = false -> moves i 0.
  (** Each one is given the result of the one before; the offsets are those of the list. *)
  Inductive unbroken : value -> list inst -> list Z -> value -> Prop :=
  | unbroken_end p : unbroken p [] [] p
  | unbroken_step p i l z zs q : moves i z -> op 0 i = p -> unbroken (VReg (i_reg i)) l zs q -> unbroken p (i :: l) (z :: zs) q.
  (** The instruction that follows is not a further one. *)
  Definition ends (p : value) (rest : list inst) : Prop := forall i rest' z, rest = i :: rest' -> moves i z -> op 0 i <> p.
  (** The addresses are as the instructions compute them. *)
  Definition computed (address : value -> Z) (l : list inst) : Prop :=
    forall i z, In i l -> moves i z -> (address (VReg (i_reg i)) mod 2 ^ 64 = (address (op 0 i) + z) mod 2 ^ 64).
End Access.

Definition sum (l : list Z) : Z := fold_right Z.add 0 l.
(** What fits into an int, and what is left of other numbers. *)
Definition small (z : Z) : Prop := - 2 ^ 31 <= z < 2 ^ 31.
Definition truncated (z t : Z) : Prop := small t /\ exists k, z = t + k * 2 ^ 32.
(** The same number of bytes in 64 bits, if each offset is truncated. *)
Definition same_bytes (zl zr : list Z) : Prop :=
  exists tl tr, Forall2 truncated zl tl /\ Forall2 truncated zr tr /\ (sum tl) mod 2 ^ 64 = (sum tr) mod 2 ^ 64.

(** ** The numbers of values *)
(** Both functions have the same number of numbered values. *)
Definition in_step (s : state) : Prop := length (snL s) = length (snR s).
(** Nothing but its number is known about a value. *)
Definition simple_value (f : func) (skipped ignored : list value) (replaced : dict value value) (v : value) : Prop :=
  ~ In v skipped /\ ~ In v ignored /\ dget replaced v = None /\ (is_block v = false) /\ (forall c, v <> VConst c) /\
  forall i, inst_of f v = Some i -> ~ by_zeros i /\ (forall b, i_code i <> Cast b) /\ (forall from, i_code i <> Phi from).
Definition simple_l (f : func) (s : state) := simple_value f (skipL s) (ignL s) (replL s).
Definition simple_r (f : func) (s : state) := simple_value f (skipR s) (ignR s) (replR s).
(** It has no number yet. *)
Definition new_l (s : state) (v : value) : Prop := dget (snL s) v = None.
Definition new_r (s : state) (v : value) : Prop := dget (snR s) v = None.
(** Values with the same number. *)
Definition same_number (s : state) (v u : value) : Prop := exists k, dget (snL s) v = Some k /\ dget (snR s) u = Some k.

(** ** Calls *)
Definition allocators : list string := ["kzalloc"; "__kmalloc"; "kmalloc"]%string.
Section Calls.
  Variable equal : value -> value -> Prop.          (* the values were found equal *)
  Variable pointee : bool -> value -> string * Z.   (* the structure a value points to, and its size *)

  (** Constants that are the sizes of structures of one name, to which the values point. *)
  Definition sizes_of_structure (l r size_l size_r : value) : Prop :=
    exists name a b x y, name <> ""%string /\ pointee true l = (name, a) /\ pointee false r = (name, b) /\
      size_l = VConst (CInt x) /\ size_r = VConst (CInt y) /\ x mod 2 ^ 64 = a /\ y mod 2 ^ 64 = b.
  Variable following : bool -> inst -> option inst.  (* the next instruction *)
  Variable bit_cast : bool -> value -> option value. (* what a bit cast is of *)
  (** The result of an allocation, or the bit cast behind it. *)
  Definition used_as (left : bool) (i : inst) (v : value) : Prop :=
    (exists k u, following left i = Some k /\ v = VReg (i_reg k) /\ bit_cast left v = Some u) \/
    ((forall k, following left i = Some k -> bit_cast left (VReg (i_reg k)) = None) /\ v = VReg (i_reg i)).
  Definition same_allocation (i j : inst) : Prop :=
    equal (op 0 i) (op 0 j) \/ exists l r, used_as true i l /\ used_as false j r /\ sizes_of_structure l r (op 0 i) (op 0 j).
  (** A pointer, or what it is a bit cast of. *)
  Definition before_cast (left : bool) (a v : value) : Prop := bit_cast left a = Some v \/ (bit_cast left a = None /\ v = a).
  Definition same_setting (i j : inst) : Prop :=
    exists a v n x b u m y f g, i_ops i = [a; v; n; x; f] /\ i_ops j = [b; u; m; y; g] /\ equal a b /\ equal v u /\ equal x y /\
      (equal n m \/ exists l r, before_cast true a l /\ before_cast false b r /\ sizes_of_structure l r n m).
  (** The longer call has one more argument, behind the others, that is zero. *)
  Variable is_zero : const -> bool.
  Variable same_types : value -> value -> bool.
  Definition one_more (equal_args : value -> value -> Prop) (more fewer : inst) : Prop :=
    exists xs ys c f g, i_ops more = xs ++ [VConst c; f] /\ i_ops fewer = ys ++ [g] /\ is_zero c = true /\
      same_types (VReg (i_reg more)) (VReg (i_reg fewer)) = true /\
      Forall2 (fun x y => same_types x y = true /\ equal_args x y) xs ys.
End Calls.
