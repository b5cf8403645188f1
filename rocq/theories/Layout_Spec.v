(** What is meant by fields of structures, accesses to them and constants of macros (C116-C119). *)
From Coq Require Import String Ascii ZArith Arith Bool List.
From Verif Require Import PyBase Layout_Model.
Import ListNotations.
Open Scope list_scope.
Open Scope Z_scope.

(** ** Structures of C in LLVM *)
(** A structure type of LLVM is a list of slots: padding, or what holds a member and the bit-fields
    that share its storage. *)
Inductive slot := Padding | Slot (m : dmember) (more : list dmember).
Definition held (s : slot) : list dmember := match s with Padding => [] | Slot m more => m :: more end.
Definition members (l : list slot) : list dmember := flat_map held l.
Definition named (n : string) (m : dmember) : Prop := match m with Member n' _ _ _ _ => n' = n | Nonmember => False end.

(** A member that is no bit-field or the first one in its storage *)
Definition starts (m : dmember) : Prop :=
  match m with Member _ off _ _ bits => bits = None \/ bits = Some off | Nonmember => False end.
(** A bit-field that is not the first one in its storage, without an alignment of its own *)
Definition joins (m : dmember) : Prop :=
  match m with Member _ off _ align bits => align = 0 /\ exists s, bits = Some s /\ s <> off | Nonmember => False end.
(** The member needs no padding before it, where the member before it ends at [next]. *)
Definition aligned (next : Z) (m : dmember) : Prop :=
  match m with Member _ _ _ align _ => align = 0 \/ next mod align = 0 | Nonmember => False end.
Definition end_of (m : dmember) : Z := match m with Member _ off size _ _ => off + size | Nonmember => 0 end.
Definition sized (m : dmember) : Prop := match m with Member _ _ size _ _ => 0 < size | Nonmember => False end.
Definition member_end (m : dmember) (more : list dmember) : Z := end_of (last more m).

(** Slots in their order; only the last member of the structure may have no size (a flexible
    array); padding is only where a member has an explicit alignment that needs it. *)
Inductive laid : Z -> list slot -> Prop :=
| laid_nil next : laid next []
| laid_slot next m more rest :
    starts m -> Forall joins more -> aligned next m ->
    (Forall sized (m :: more) \/ (rest = [] /\ more = [])) ->
    laid (member_end m more) rest -> laid next (Slot m more :: rest)
| laid_padding next m more rest :
    starts m -> Forall joins more -> ~ aligned next m ->
    (Forall sized (m :: more) \/ (rest = [] /\ more = [])) ->
    laid (member_end m more) rest -> laid next (Padding :: Slot m more :: rest).
Definition no_padding (l : list slot) : Prop := ~ In Padding l.
Definition offset_of (m : dmember) : Z := match m with Member _ off _ _ _ => off | Nonmember => 0 end.
(** Only the first slot is at offset 0. *)
Definition offsets (l : list slot) : Prop :=
  forall k m more, nth_error l k = Some (Slot m more) -> (k = 0%nat -> offset_of m = 0) /\ (k <> 0%nat -> 0 < offset_of m).
(** A structure with these members has a member with this name in this slot. *)
Definition field (els : list dmember) (x : Z) (n : string) : Prop :=
  exists l k m more y, members l = els /\ laid 0 l /\ nth_error l k = Some (Slot m more) /\ x = Z.of_nat k
                       /\ In y (m :: more) /\ named n y.

(** ** Accesses *)
(** From an object of a type, the indices lead to one of another type. *)
Inductive reaches (W : types) : ty -> list index -> ty -> Prop :=
| reaches_here t : reaches W t [] t
| reaches_element n e i l t : reaches W e l t -> reaches W (Array n e) (i :: l) t
| reaches_field s w k f l t : nth_error (s_fields W s) k = Some f -> reaches W f l t -> reaches W (Struct s) (Cst w (Z.of_nat k) :: l) t.
(** The [k]-th index of a GEP is applied to this type; the first one (0) to the pointer: it selects
    among objects of the source type, which is then that of the second one (1) as well. *)
Definition applied_to (W : types) (g : gep) (k : nat) (t : ty) : Prop :=
  reaches W (g_type g) (firstn (k - 1) (tl (g_idx g))) t.
Definition valid (W : types) (g : gep) : Prop :=
  forall k, (k < length (g_idx g))%nat -> exists t, applied_to W g k t.

Section Equal.
  Variable W : types.
  Variable names : dict (option nat * Z) string.
  Variable same_value : index -> index -> bool.
  Variable same_type : ty -> ty -> bool.
  Variable offset : gep -> option Z.
  Variable enum_index : index -> option bool.

  (** Values of the same kind at the same places *)
  Definition same_operands (l r : gep) : Prop :=
    same_value (g_base l) (g_base r) = true /\ Forall2 (fun i j => same_value i j = true) (g_idx l) (g_idx r).
  (** The same number of bytes is added; or, if a number is not known, the types are equal and so
      are all operands. *)
  Definition same_address (l r : gep) : Prop :=
    g_space l = g_space r /\
    ((exists x, offset l = Some x /\ offset r = Some x) \/
     ((offset l = None \/ offset r = None) /\ same_type (g_type l) (g_type r) = true /\ same_operands l r)).
  (** Elements of arrays that differ in their length, selected by a variable of an enumeration *)
  Definition same_element (l r : gep) : Prop :=
    exists n e m f i j, g_type l = Array n e /\ g_type r = Array m f /\ n <> m /\ same_type e f = true /\
      (exists i0 j0, g_idx l = [i0; i] /\ g_idx r = [j0; j]) /\ same_operands l r /\
      enum_index i = Some true /\ enum_index j = Some true.
  (** Equal values, or members of structures for which the same name is noted *)
  Definition same_step (tl tr : ty) (i j : index) : Prop :=
    same_value i j = true \/
    exists s t w x w' y n, tl = Struct s /\ tr = Struct t /\ i = Cst w x /\ j = Cst w' y
                           /\ dget names (Some s, x) = Some n /\ dget names (Some t, y) = Some n.
  Definition constants (l : list index) : Prop := Forall (fun i => exists w v, i = Cst w v) l.
  Definition same_fields (l r : gep) : Prop :=
    g_inst l = true /\ g_inst r = true /\ constants (g_idx l) /\ constants (g_idx r) /\
    length (g_idx l) = length (g_idx r) /\
    forall k i j tl tr, nth_error (g_idx l) k = Some i -> nth_error (g_idx r) k = Some j ->
      applied_to W l k tl -> applied_to W r k tr -> same_step tl tr i j.
  (** One index that is not a constant on both sides *)
  Definition same_single (l r : gep) : Prop :=
    exists i j, g_idx l = [i] /\ g_idx r = [j] /\ ~ (constants [i] /\ constants [j]) /\ same_value i j = true.
  Definition same_struct (l r : gep) : Prop :=
    exists s t, g_type l = Struct s /\ g_type r = Struct t /\ c_name (s_name W s) = c_name (s_name W t) /\ g_space l = g_space r.
  Definition same_access (l r : gep) : Prop :=
    same_address l r \/ same_element l r \/ (same_struct l r /\ (same_fields l r \/ same_single l r)).
End Equal.

(** ** Where names come from *)
(** GEPs at the same place in functions of the two modules *)
Definition at_place (f : body) (b k : nat) (g : gep) : Prop :=
  exists bl, nth_error f b = Some bl /\ nth_error bl k = Some (Some g).
(** A GEP of a function that is compared *)
Definition in_compared (first second : dict string body) (called : list string) (g : gep) : Prop :=
  exists name f o b k, In (name, f) first /\ dget second name = Some o /\ In name called /\ at_place f b k g.
Definition paired (first second : dict string body) (called : list string) (g o : gep) : Prop :=
  exists name f fo b k, In (name, f) first /\ dget second name = Some fo /\ In name called /\ at_place f b k g /\ at_place fo b k o.
(** An access to a member of the object that is pointed to *)
Definition plain_access (g : gep) : Prop := (length (g_idx g) <= 2)%nat.

(** ** Constants *)
Definition defines (units : list (list (string * string))) (name value : string) : Prop :=
  exists u, In u units /\ In (name, value) u.
(** The constant is used in a function that is compared. *)
Definition constant_used (first : dict string (list constant_of)) (second called : list string) (c : constant_of) : Prop :=
  exists f l, In (f, l) first /\ In f second /\ In f called /\ In c l.

(** ** Plain accesses *)
Section Plain.
  Variable W : types.
  Variables dfirst dsecond : dinfo.
  Variable by_name : string -> option nat.
  Variables first second : dict string body.
  Variable called : list string.

  (** A name of a member of the structure type [s], at the index [v] in the first version, and its
      index [j] in the second one as the code finds it there, as a number of 64 bits. *)
  Definition moved (s : nat) (v : Z) (n : string) (j : Z) : Prop :=
    s_name W s <> ""%string /\
    exists d1 d2, dget dfirst (c_name (s_name W s)) = Some d1 /\ dget dsecond (c_name (s_name W s)) = Some d2 /\
      n = name_at d1 v /\ j = (member_index d2 n) mod 2^64 /\ 0 < j.
  (** A compared function of the first version has an access with this index to this type. *)
  Definition accessed (s : nat) (v : Z) : Prop :=
    exists g w, in_compared first second called g /\ g_type g = Struct s /\ In (Cst w v) (g_idx g).

  (** All GEPs of compared functions are plain accesses; [other] gives for each structure type that of the
      second version, which is no type of the first one, has the same name in LLVM, and is that of
      any GEP at the same place. *)
  Definition plain_program (other : nat -> nat) : Prop :=
    (forall g, in_compared first second called g -> plain_access g) /\
    (forall g o, paired first second called g o -> plain_access o /\ forall s, g_type g = Struct s -> g_type o = Struct (other s)) /\
    (forall s, by_name (s_name W s) = Some (other s)) /\
    (forall s t, accessed s t -> forall u, s <> other u).
End Plain.
(** How a constant is written in a macro: an integer with its digits and sign, others not at all *)
Definition written (show : Z -> string) (c : constant_of) : string := match c_value c with Some z => show z | None => ""%string end.
