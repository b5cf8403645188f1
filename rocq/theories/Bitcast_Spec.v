(** * What functions do, and which casts there are *)
From Coq Require Import String Arith Bool List.
From Verif Require Import Bitcast_Model.
Import ListNotations.
Open Scope list_scope.

(** What is done and seen from outside: a call of a function, of an unknown one, or another instruction, with its operands *)
Inductive event {bits : Type} := Calls (f : nat) (args : list bits) (properties : nat) | Calls_at (target : bits) (args : list bits) (properties : nat) | Does (code : nat) (ops : list bits).
Arguments event : clear implicits.
Section Behaviour.
  Variable bits : Type.
  (** The value of a constant; what an event gives after those before it (and after the blocks passed); where the end of a block leads *)
  Variable const : nat -> bits.
  Variable gives : list nat -> list (event bits) -> event bits -> bits.
  Variable leads : nat -> list bits -> option nat.
  Definition store := value -> bits.
  Definition value_of (s : store) (v : value) : bits := match v with Const c => const c | _ => s v end.
  Definition value_eqb (a b : value) : bool :=
    match a, b with
    | Result i, Result j | New_call i, New_call j | New_cast i, New_cast j | Const i, Const j => Nat.eqb i j
    | New_arg i k, New_arg j m => Nat.eqb i j && Nat.eqb k m
    | _, _ => false
    end.
  Definition write (s : store) (v : value) (b : bits) : store := fun w => if value_eqb w v then b else s w.
  (** A cast keeps the bits.  A call through a cast calls the function with the bits of the arguments. *)
  Definition event_of (s : store) (x : inst) : option (event bits) :=
    match x with
    | Call _ _ (Direct f) args p | Call _ _ (Casted f) args p => Some (Calls f (map (fun a => value_of s (fst a)) args) p)
    | Call _ _ (Unknown v) args p => Some (Calls_at (value_of s v) (map (fun a => value_of s (fst a)) args) p)
    | Cast _ _ _ _ => None
    | Other _ c ops => Some (Does c (map (value_of s) ops))
    end.
  Definition step (path : list nat) (st : store * list (event bits)) (x : inst) : store * list (event bits) :=
    let (s, h) := st in
    match x with
    | Cast r _ _ v => (write s r (value_of s v), h)
    | Call r _ _ _ _ | Other r _ _ =>
      match event_of s x with Some e => (write s r (gives path h e), e :: h) | None => st end
    end.
  (** The events of [n] blocks from a block, the latest first, and where it went *)
  Fixpoint run (n : nat) (fn : list block) (path : list nat) (at_block : option nat) (st : store * list (event bits)) : list (event bits) * list nat * option nat :=
    match n, at_block with
    | S n', Some b =>
      match nth_error fn b with
      | Some blk => let st' := fold_left (step path) (b_insts blk) st in run n' fn (b :: path) (leads (b_end blk) (map (value_of (fst st')) (b_ops blk))) st'
      | None => (snd st, path, at_block)
      end
    | _, _ => (snd st, path, at_block)
    end.
End Behaviour.

(** What the pass gets: the results of instructions are numbered, each number once. *)
Definition result_of (x : inst) : value := match x with Call r _ _ _ _ | Cast r _ _ _ | Other r _ _ => r end.
Definition operands (x : inst) : list value :=
  match x with Call _ _ (Unknown v) args _ => v :: map fst args | Call _ _ _ args _ => map fst args | Cast _ _ _ v => [v] | Other _ _ ops => ops end.
Definition Original (v : value) : Prop := match v with Result _ | Const _ => True | _ => False end.
Definition Function_ok (fn : list block) : Prop :=
  NoDup (map result_of (flat_map b_insts fn)) /\
  (forall x, In x (flat_map b_insts fn) -> (exists i, result_of x = Result i) /\ Forall Original (operands x)) /\
  (forall b, In b fn -> Forall Original (b_ops b)).
(** A call through a cast that is to stay: with fewer arguments than the function has parameters, or with a result that the function
    does not have *)
Definition Stays (params : nat -> list ty) (returns : nat -> ty) (t : ty) (f : nat) (args : list (value * ty)) : Prop :=
  length args < length (params f) \/ (returns f = Void /\ t <> Void).
(** The types LLVM's bitcast accepts (of those that differ) *)
Inductive Castable : ty -> ty -> Prop :=
| Castable_num f g n : Castable (Num f n) (Num g n)
| Castable_ptr t u s : Castable (Ptr t s) (Ptr u s).
