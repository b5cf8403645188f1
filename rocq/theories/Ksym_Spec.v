(** * What the kernel symbol table is (for Ksym_Props).  Only the types of modules and constants
    are used. *)
From Coq Require Import String Ascii ZArith Arith Bool List.
From Verif Require Import Ksym_Model.
Import ListNotations.
Open Scope list_scope.

(** The name of a kernel symbol *)
Definition symbol (n : string) : Prop := exists r, n = ("__ksym" ++ r)%string.
(** A variable of the module that is a kernel symbol *)
Definition symbol_of (m : kmodule) (n : string) : Prop := symbol n /\ exists v, In v (m_vars m) /\ v_name v = n.

(** [n] is referred to in a constant. *)
Inductive refers (n : string) : const -> Prop :=
| refers_global : refers n (KGlobal n)
| refers_cast c r : refers n c -> refers n (KCast c r)
| refers_struct l c : In c l -> refers n c -> refers n (KStruct l)
| refers_array l c : In c l -> refers n c -> refers n (KArray l).

(** The constant with null pointers in the place of what is [gone] *)
Inductive without (gone : string -> Prop) : const -> const -> Prop :=
| without_null : without gone KNull KNull
| without_int n : without gone (KInt n) (KInt n)
| without_gone n : gone n -> without gone (KGlobal n) KNull
| without_kept n : ~ gone n -> without gone (KGlobal n) (KGlobal n)
| without_cast c d r : without gone c d -> without gone (KCast c r) (KCast d r)
| without_struct l l' : Forall2 (without gone) l l' -> without gone (KStruct l) (KStruct l')
| without_array l l' : Forall2 (without gone) l l' -> without gone (KArray l) (KArray l').

Definition without_init (gone : string -> Prop) (a b : option const) : Prop :=
  match a, b with Some c, Some d => without gone c d | None, None => True | _, _ => False end.
Definition without_var (gone : string -> Prop) (v w : var) : Prop := v_name v = v_name w /\ without_init gone (v_init v) (v_init w).
Definition without_fun (gone : string -> Prop) (f g : string * list const) : Prop := fst f = fst g /\ Forall2 (without gone) (snd f) (snd g).

(** The part of [l] with what is in [P], in order *)
Inductive part {A} (P : A -> Prop) : list A -> list A -> Prop :=
| part_nil : part P [] []
| part_keep x l k : P x -> part P l k -> part P (x :: l) (x :: k)
| part_skip x l k : ~ P x -> part P l k -> part P (x :: l) k.

(** An entry of "llvm.used" for a kernel symbol *)
Definition symbol_entry (e : const) : Prop := exists n, symbol n /\ (e = KGlobal n \/ exists r, e = KCast (KGlobal n) r).

(** [n] is referred to by a constant of the module other than the initial value of [x]. *)
Definition referred_elsewhere (m : kmodule) (x n : string) : Prop :=
  (exists v c, In v (m_vars m) /\ v_name v <> x /\ v_init v = Some c /\ refers n c)
  \/ (exists f c, In f (m_funs m) /\ In c (snd f) /\ refers n c).

(** Names of variables are unique. *)
Definition named (m : kmodule) : Prop := NoDup (map v_name (m_vars m)).
(** The entries of "llvm.used" *)
Definition used (m : kmodule) (es : list const) : Prop := In (mkVar "llvm.used" (Some (KArray es))) (m_vars m).
