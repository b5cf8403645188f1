(** * Parameters and what uses them *)
From Coq Require Import String Ascii ZArith Arith Bool List.
From Verif Require Import PyBase Param_Model.
Import ListNotations.
Open Scope list_scope.
Open Scope Z_scope.

(** ** Functions *)
(** An instruction has the variable as an operand, or in a constant expression that is one. *)
Definition Touches (g : string) (i : inst) : Prop :=
  In (OpVar g) (i_ops i) \/ exists gep ops, In (OpExpr gep ops) (i_ops i) /\ In (OpVar g) ops.
Definition Function_touches (m : module) (g f : string) : Prop :=
  exists body i, In (f, body) (m_funs m) /\ In i body /\ Touches g i.
(** Functions that are left out *)
Definition Left_out (f : string) : Prop := exists a b, f = (a ++ ".old" ++ b)%string.
(** Address computations from the variable, in instructions and expressions, with their indices *)
Inductive Computed (g : string) (i : inst) : list operand -> Prop :=
| Computed_here p l : i_gep i = true -> i_ops i = p :: l -> In (OpVar g) (i_ops i) -> Computed g i l
| Computed_const p l : In (OpExpr true (p :: l)) (i_ops i) -> In (OpVar g) (p :: l) -> Computed g i l.
(** The variable is used in the instruction so that the indices beyond the list agree with what follows it in memory. *)
Definition Agree (beyond : nat -> Z) (indices : list Z) (l : list operand) : Prop :=
  forall k v, (length indices <= k)%nat -> nth_error l k = Some (OpNum v) -> v = beyond k mod 2 ^ 32.
Definition Accepted (beyond : nat -> Z) (indices : list Z) (g : string) (i : inst) : Prop :=
  (In (OpVar g) (i_ops i) /\ (i_gep i = true -> indices <> [] -> Agree beyond indices (tl (i_ops i)))) \/
  exists gep ops, In (OpExpr gep ops) (i_ops i) /\ In (OpVar g) ops /\ (gep = true -> indices <> [] -> Agree beyond indices (tl ops)).
(** Accesses to a field: the given indices are those of the computation. *)
Definition Field (indices : list Z) (l : list operand) : Prop := l = map OpNum indices.

(** ** Variables *)
Definition Wrapper (g : string) : Prop :=
  exists a b, g = (a ++ "__param_arr" ++ b)%string \/ g = (a ++ "__param_string" ++ b)%string.
(** Where the pointer in a parameter leads *)
Inductive Leads (m : globals) : const -> outcome -> Prop :=
| Leads_var g : ~ Wrapper g -> Leads m (KVar g) (Name g)
| Leads_wrapper g es c o : Wrapper g -> dget m g = Some (Some (KStruct (es ++ [c]))) -> Leads m c o -> Leads m (KVar g) o
| Leads_empty g : Wrapper g -> dget m g = Some (Some (KStruct [])) -> Leads m (KVar g) Crash
| Leads_nothing g c : Wrapper g -> dget m g = Some (Some c) -> (forall es, c <> KStruct es) -> Leads m (KVar g) Nothing
| Leads_declared g : Wrapper g -> dget m g = Some None \/ dget m g = None -> Leads m (KVar g) Crash
| Leads_expr c cs o : Leads m c o -> Leads m (KExpr (c :: cs)) o
| Leads_bad : Leads m (KExpr []) Crash
| Leads_struct es : Leads m (KStruct es) Nothing
| Leads_other : Leads m KOther Nothing.
(** A parameter as the kernel defines it: a structure that ends with a union with the pointer. *)
Definition Is_param (m : globals) (p : string) (c : const) : Prop :=
  exists es, dget m ("__param_" ++ p)%string = Some (Some (KStruct (es ++ [KStruct [c]]))).
(** What an expression is made from: its first operand, and so on *)
Fixpoint start (c : const) : const := match c with KExpr (d :: _) => start d | _ => c end.
