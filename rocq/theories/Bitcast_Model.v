(** * Model of the pass that separates casts from calls (diffkemp/simpll/passes/SeparateCallsToBitcastPass.cpp)
    Functions are blocks of instructions; what an instruction other than a call or a cast does is left open. *)
From Coq Require Import String Arith Bool List.
Import ListNotations.
Open Scope list_scope.

(** Types: without values, numbers (with whether they are floating) of a size, pointers of an address space, and structures *)
Inductive ty := Void | Num (float : bool) (bits : nat) | Ptr (to : nat) (space : nat) | Struct (name : nat).
Definition ty_eqb (a b : ty) : bool :=
  match a, b with
  | Void, Void => true
  | Num f n, Num g m => Bool.eqb f g && Nat.eqb n m
  | Ptr t s, Ptr u v => Nat.eqb t u && Nat.eqb s v
  | Struct n, Struct m => Nat.eqb n m
  | _, _ => false
  end.
(** Values: the results of instructions of the function (numbered) and of those made by the pass for a call: the new call, the cast of
    its result, and the casts of arguments; and constants and parameters *)
Inductive value := Result (i : nat) | New_call (i : nat) | New_cast (i : nat) | New_arg (i k : nat) | Const (c : nat).
(** The function that is called: itself, through a cast, or not known.  A function has a number. *)
Inductive callee := Direct (f : nat) | Casted (f : nat) | Unknown (v : value).
Inductive inst :=
| Call (res : value) (t : ty) (c : callee) (args : list (value * ty)) (properties : nat)
| Cast (res : value) (from to : ty) (v : value)
| Other (res : value) (code : nat) (ops : list value).
(** A block: its instructions and the end of it *)
Record block := mkblock { b_insts : list inst; b_end : nat; b_ops : list value }.

Section Pass.
  (** The types of the parameters and the type of the result of a function *)
  Variable params : nat -> list ty.
  Variable returns : nat -> ty.
  (** SeparateCallsToBitcastPass.cpp:41-54 *)
  Definition separated (t : ty) (f : nat) (args : list (value * ty)) : bool :=
    negb (Nat.ltb (length args) (length (params f))) && negb (ty_eqb (returns f) Void && negb (ty_eqb t Void)).
  (** SeparateCallsToBitcastPass.cpp:97-110: what replaces the call *)
  Definition needs_cast (t : ty) (f : nat) : bool := negb (ty_eqb t (returns f)) && negb (ty_eqb (returns f) Void).
  Definition replacement (i : nat) (t : ty) (f : nat) : value := if needs_cast t f then New_cast i else New_call i.
  (** SeparateCallsToBitcastPass.cpp:116: the uses of the calls that are replaced, in the whole function *)
  Fixpoint replaced (l : list inst) (i : nat) : option value :=
    match l with
    | [] => None
    | Call (Result j) t (Casted f) args _ :: l' => if Nat.eqb i j && separated t f args then Some (replacement i t f) else replaced l' i
    | _ :: l' => replaced l' i
    end.
  Definition rename (l : list inst) (v : value) : value :=
    match v with Result i => match replaced l i with Some v' => v' | None => v end | _ => v end.
  (** SeparateCallsToBitcastPass.cpp:60-84 *)
  Fixpoint convert (i k : nat) (ps : list ty) (args : list (value * ty)) : list inst * list (value * ty) :=
    match ps, args with
    | p :: ps', (v, t) :: args' =>
      let (casts, args'') := convert i (S k) ps' args' in
      if ty_eqb t p then (casts, (v, t) :: args'') else (Cast (New_arg i k) t p v :: casts, (New_arg i k, p) :: args'')
    | _, _ => ([], args)
    end.
  (** SeparateCallsToBitcastPass.cpp:86-110 *)
  Definition separate (i : nat) (t : ty) (f : nat) (args : list (value * ty)) (properties : nat) : list inst :=
    let (casts, args') := convert i 0 (params f) args in
    casts ++ Call (New_call i) (returns f) (Direct f) args' properties ::
    (if needs_cast t f then [Cast (New_cast i) (returns f) t (New_call i)] else []).
  (** SeparateCallsToBitcastPass.cpp:33-120: one instruction; [l] are all instructions of the function.  The operands of all instructions are
      renamed. *)
  Definition rewrite (l : list inst) (x : inst) : list inst :=
    let rn := rename l in
    match x with
    | Call r t c args pr =>
      let args := map (fun a => (rn (fst a), snd a)) args in
      match r, c with
      | Result i, Casted f => if separated t f args then separate i t f args pr else [Call r t c args pr]
      | _, Unknown v => [Call r t (Unknown (rn v)) args pr]
      | _, _ => [Call r t c args pr]
      end
    | Cast r a b v => [Cast r a b (rn v)]
    | Other r c ops => [Other r c (map rn ops)]
    end.
  (** SeparateCallsToBitcastPass.cpp:28-129 *)
  Definition pass (fn : list block) : list block :=
    let l := flat_map b_insts fn in
    map (fun b => mkblock (flat_map (rewrite l) (b_insts b)) (b_end b) (map (rename l) (b_ops b))) fn.
End Pass.
