(** * What slices should have (for Slice_Props).  Only the IR and its meaning (Funcomp_Spec) are
    used, with the modules of Slice_Model. *)
From Coq Require Import String Ascii ZArith Arith Bool List.
From Verif Require Import PyBase Funcomp_Model Funcomp_Spec Slice_Model.
Import ListNotations.
Open Scope list_scope.
Open Scope nat_scope.

(** ** Side effects *)

(** [i] calls the function named [g] of the module. *)
Definition calls (m : module) (i : inst) (g : string) : Prop :=
  i_code i = Call /\ (exists ops, i_ops i = ops ++ [VConst (CGlobal g)]) /\ In g (dkeys m).
(** The function writes to memory, calls what is not known, or calls a function that does. *)
Inductive effect (m : module) : string -> Prop :=
| effect_declared g : (forall b, dget m g <> Some (Some b)) -> ~ In g ["llvm.dbg.declare"; "llvm.dbg.value"; "llvm.expect"]%string -> effect m g
| effect_store g b i : dget m g = Some (Some b) -> In i (insts b) -> i_code i = Store -> effect m g
| effect_unknown g b i : dget m g = Some (Some b) -> In i (insts b) -> i_code i = Call -> (forall h, ~ calls m i h) -> effect m g
| effect_call g b i h : dget m g = Some (Some b) -> In i (insts b) -> calls m i h -> effect m h -> effect m g.

(** ** What control flow needs *)

Definition uses (u i : inst) : Prop := In (VReg (i_reg i)) (i_ops u).
(** [c] follows [i] in a block of [f]. *)
Definition follows (f : func) (i c : inst) : Prop := exists b l1 l2, In (b, l1 ++ i :: c :: l2) (f_blocks f).
(** A function is called through a value that is used elsewhere, too. *)
Definition through_value (m : module) (f : func) : Prop :=
  exists i ops v u, In i (insts f) /\ i_code i = Call /\ (forall g, ~ calls m i g) /\ i_ops i = ops ++ [v] /\
    In u (insts f) /\ In v (i_ops u) /\ i_reg u <> i_reg i /\ i_code u <> Debug /\ (forall g, calls m u g -> String.prefix "llvm." g = false).
Definition no_result_needed (m : module) (f : func) (i : inst) : Prop :=
  exists g, calls m i g /\ ~ effect m g /\ (exists u, In u (insts f) /\ uses u i) /\ forall u, In u (insts f) -> uses u i -> i_code u = Store.
(** The bit cast after a call that allocates memory. *)
Definition after_allocation (m : module) (f : func) (c : inst) : Prop :=
  exists i g, follows f i c /\ calls m i g /\ In g ["kzalloc"; "__kmalloc"; "kmalloc"]%string /\ i_code c = Cast true.
Inductive needed (m : module) (f : func) : inst -> Prop :=
| needed_end i : In i (insts f) -> is_terminator i = true -> needed m f i
| needed_call i : In i (insts f) -> i_code i = Call -> ~ no_result_needed m f i -> needed m f i
| needed_debug i : In i (insts f) -> i_code i = Debug -> needed m f i
| needed_function i g : In i (insts f) -> i_code i <> Call -> In (VConst (CGlobal g)) (i_ops i) -> In g (dkeys m) -> through_value m f -> needed m f i
| needed_cast c : after_allocation m f c -> needed m f c
| needed_access c u : after_allocation m f c -> In u (insts f) -> uses u c -> needed m f u
| needed_operand i d : needed m f i -> In d (insts f) -> uses i d -> needed m f d.
(** The cast after an allocation is one of its result. *)
Definition casts_result (m : module) (f : func) : Prop :=
  forall i c g, follows f i c -> calls m i g -> In g ["kzalloc"; "__kmalloc"; "kmalloc"]%string -> i_code c = Cast true -> i_ops c = [VReg (i_reg i)].
(** [g] is [f] without the instructions that are not in [P]; the others are as they were. *)
Definition keeps_only (P : inst -> Prop) (f g : func) : Prop :=
  f_sig g = f_sig f /\ f_args g = f_args f /\
  exists keep : inst -> bool, (forall i, In i (insts f) -> (keep i = true <-> P i)) /\
    f_blocks g = map (fun kb => (fst kb, filter keep (snd kb))) (f_blocks f).

(** ** What a slice does *)

(** What is left out is not noticed by the rest: [same] relates memories that the instructions in
    [P] cannot tell apart, and the others neither end the run nor change to unrelated memory. *)
Record unnoticed (S : semantics) (P : inst -> Prop) (f : func) (same : M S -> M S -> Prop) : Prop := mkUnnoticed {
  kept_same : forall i vs m m', In i (insts f) -> P i -> is_terminator i = false -> same m m' ->
    match exec S (plain (i_code i)) (i_rest i) vs m, exec S (plain (i_code i)) (i_rest i) vs m' with
    | Some (v, n), Some (v', n') => v = v' /\ same n n'
    | None, None => True
    | _, _ => False
    end;
  left_same : forall i vs m m', In i (insts f) -> ~ P i -> same m m' ->
    exists v n, exec S (plain (i_code i)) (i_rest i) vs m = Some (v, n) /\ same n m' }.
Definition same_outcome {V M : Type} (same : M -> M -> Prop) (a b : outcome V M) : Prop :=
  match a, b with
  | Returned vs m, Returned vs' m' => vs = vs' /\ same m m'
  | Stuck, Stuck => True
  | Running m, Running m' => same m m'
  | _, _ => False
  end.

(** ** What depends on a variable *)

(** From [b], [c] is reached in the graph given by [next]. *)
Inductive path (next : nat -> list nat) : nat -> nat -> Prop :=
| path_refl b : path next b b
| path_step b c d : path next b c -> In d (next c) -> path next b d.
(** What [reachable] says about graphs on the blocks of [f] is true. *)
Definition exact (f : func) (reachable : (nat -> list nat) -> nat -> nat -> bool) : Prop :=
  forall next b c, (forall x, ~ In x (dkeys (f_blocks f)) -> next x = []) -> (reachable next b c = true <-> path next b c).

Definition next_blocks (f : func) (b : nat) : list nat := match terminator (block f b) with Some t => successors t | None => [] end.
(** If [b] goes to [t] only. *)
Definition by_way (f : func) (b t c : nat) : Prop := c <> b /\ path (fun x => if Nat.eqb x b then [t] else next_blocks f x) b c.
(** Whether [c] is reached is up to the branch at the end of [b]. *)
Definition decides (f : func) (b c : nat) : Prop :=
  exists l t x y, In (b, l ++ [t]) (f_blocks f) /\ i_code t = Br /\ successors t = [x; y] /\ In c (dkeys (f_blocks f)) /\
    (by_way f b x c /\ ~ by_way f b y c \/ by_way f b y c /\ ~ by_way f b x c).
(** [j] comes after [i] in the text of the function. *)
Definition later (f : func) (i j : inst) : Prop := exists l1 l2 l3, insts f = l1 ++ i :: l2 ++ j :: l3.
Inductive depends_on (var : string) (f : func) : inst -> Prop :=
| depends_variable i : In i (insts f) -> In (VConst (CGlobal var)) (i_ops i) -> depends_on var f i
| depends_value d i : depends_on var f d -> In i (insts f) -> uses i d -> depends_on var f i
| depends_branch b l t c i : depends_on var f t -> In (b, l ++ [t]) (f_blocks f) -> decides f b c -> In i (block f c) -> depends_on var f i
| depends_address b l s p i : depends_on var f s -> i_code s = Store -> In (b, l) (f_blocks f) -> In s l -> (forall a, ~ decides f a b) ->
    op 1 s = VReg (i_reg p) -> In p (insts f) -> later f s i -> In i (insts f) -> uses i p -> depends_on var f i
(** A PHI node with different values from two blocks where something depends on the variable. *)
| depends_merge p d1 d2 b1 b2 v1 v2 : depends_on var f d1 -> depends_on var f d2 -> In d1 (block f b1) -> In d2 (block f b2) ->
    In p (insts f) -> later f d1 p -> later f d2 p -> NoDup (map snd (incoming p)) -> In (v1, b1) (incoming p) -> In (v2, b2) (incoming p) -> v1 <> v2 -> depends_on var f p.
(** What is decided by a branch that is decided by another one, is decided by that one. *)
Definition nested (f : func) : Prop := forall a b c, decides f a b -> decides f b c -> decides f a c.
(** Values are computed before they are used, and blocks come before those they lead to, in the
    text of the function: there are no loops. *)
Record in_order (f : func) : Prop := mkInOrder {
  order_regs : NoDup (map i_reg (insts f));
  order_blocks : NoDup (dkeys (f_blocks f));
  order_uses : forall d i, In d (insts f) -> In i (insts f) -> uses i d -> later f d i;
  order_edges : forall l1 b l l2 t, f_blocks f = l1 ++ (b, l) :: l2 -> In t (next_blocks f b) -> In t (dkeys l2);
  order_values : forall d i, In d (insts f) -> In i (insts f) -> uses i d -> is_terminator d = false /\ i_code d <> Store;
  order_branches : forall i, In i (insts f) -> i_code i = Br -> length (successors i) <= 2;
  order_ends : forall b l1 i l2, In (b, l1 ++ i :: l2) (f_blocks f) -> is_terminator i = true -> l2 = [];
  order_debug : forall i, In i (insts f) -> is_debug i = true -> i_ops i = [] }.


(** ** What an instruction may be in a slice by a variable *)

(** Blocks end where their first end is. *)
Definition ended (f : func) : Prop := forall b l1 i l2, In (b, l1 ++ i :: l2) (f_blocks f) -> is_terminator i = true -> l2 = [].

(** The same; a PHI node with fewer incoming values; a jump to one of the targets of a branch; or an
    end that is no branch (or a branch without targets), whose operands may be gone but not its
    targets. *)
Definition in_slice (i i' : inst) : Prop :=
  i' = i \/
  is_phi i = true /\ is_phi i' = true /\ i_reg i' = i_reg i /\ i_rest i' = i_rest i /\ incl (i_ops i') (i_ops i) \/
  i_code i = Br /\ i_code i' = Br /\ i_reg i' = i_reg i /\ (exists t, In t (successors i) /\ i_ops i' = [VBlock t]) \/
  is_terminator i = true /\ (i_code i = Br -> successors i = []) /\ i_reg i' = i_reg i /\ i_rest i' = i_rest i /\ i_code i' = i_code i /\ successors i' = successors i.
