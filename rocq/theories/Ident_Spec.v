(** * Expressions of C for values *)
From Coq Require Import String Ascii ZArith Arith List.
From Verif Require Import PyBase Reason_Spec Ident_Model.
Import ListNotations.
Open Scope list_scope.

Inductive cexpr := Var (x : string) | Literal (text : string) | Arrow (e : cexpr) (field : string) | Index (e i : cexpr) | Deref (e : cexpr) | Cast_expr (t : string) (e : cexpr).
Fixpoint print (e : cexpr) : string :=
  let base b := match b with Deref _ => ("(" ++ print b ++ ")")%string | _ => print b end in
  match e with
  | Var x => x
  | Literal t => t
  | Arrow b f => (base b ++ "->" ++ f)%string
  | Index b i => (base b ++ "[" ++ print i ++ "]")%string
  | Deref b => ("*(" ++ print b ++ ")")%string
  | Cast_expr t b => ("((" ++ t ++ ") " ++ print b ++ ")")%string
  end.
(** No field or element of what a pointer to a pointer points to *)
Fixpoint Simple (e : cexpr) : Prop :=
  match e with
  | Var _ | Literal _ => True
  | Arrow b _ => Simple b /\ forall x, b <> Deref x
  | Index b i => Simple b /\ Simple i /\ forall x, b <> Deref x
  | Deref b | Cast_expr _ b => Simple b
  end.
(** Names and texts of constants are not empty and do not start with an ampersand. *)
Definition Proper (x : string) : Prop := x <> ""%string /\ forall r, x <> ("&" ++ r)%string.
Inductive Type_shown : itype -> string -> Prop :=
| Shown_bool : Type_shown (Integer 1) "bool"
| Shown_int b d : b <> 1 -> d = Reason_Model.decimal b -> Type_shown (Integer b) ("int" ++ d ++ "_t")
| Shown_struct x fs : Type_shown (Structure ("struct." ++ x) fs) ("struct " ++ x)
| Shown_union x fs : Type_shown (Structure ("union." ++ x) fs) ("union " ++ x)
| Shown_array t s : Type_shown t s -> Type_shown (Array t) (s ++ "[]")
| Shown_pointer : Type_shown Pointer "void*".
(** The text of a register: a number behind a percent sign, and no other percent sign behind it *)
Definition Register_text (printed : string) (r : nat) : Prop :=
  exists before digits rest, printed = (before ++ "%" ++ digits ++ rest)%string /\ digits <> ""%string /\ Reason_Spec.Number digits r /\
    (forall a b, rest <> (a ++ "%" ++ b)%string) /\ (forall c b, rest = String c b -> ~ 48 <= nat_of_ascii c <= 57).
(** The expression that has the same value; [Place]: that of which the value is the address *)
Inductive Is (f : parent) : value -> cexpr -> Prop :=
| Is_named x : Proper x -> Is f (Named x) (Var x)
| Is_argument printed r x nodes : Register_text printed r -> r < arguments f -> retained f = Some nodes -> nth_error nodes r = Some (Some x) -> Proper x -> Is f (Plain printed) (Var x)
| Is_number n t : Proper t -> Is f (Ident_Model.Number n t) (Literal t)
| Is_constant t : Proper t -> Is f (Constant_of t) (Literal t)
| Is_zext v e : Is f v e -> Is f (Zext v) e
| Is_cast t n v e : Type_shown t n -> Is f v e -> Is f (Cast_to t v) (Cast_expr n e)
| Is_load v e : Place f v e -> Is f (Load_of v) e
| Is_deref v e : Is f v e -> Is f (Load_of v) (Deref e)
with Place (f : parent) : value -> cexpr -> Prop :=
| Place_field v s fields k x e zero text : Is f v e -> nth_error fields k = Some (Some x) -> Place f (Gep_of v (Structure s fields) [Ident_Model.Number 0 zero; Ident_Model.Number k text]) (Arrow e x)
| Place_element v t i e ie zero : Place f v e -> Is f i ie -> (forall s fs, t <> Structure s fs) -> Place f (Gep_of v t [Ident_Model.Number 0 zero; i]) (Index e ie).
