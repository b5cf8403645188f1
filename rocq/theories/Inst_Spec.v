(** * What two instructions have in common (for Inst_Props).  Only the types of the model are
    used. *)
From Coq Require Import String Ascii ZArith Arith Bool List.
From Verif Require Import Inst_Model.
Import ListNotations.
Open Scope list_scope.
Open Scope Z_scope.

Section Spec.
  Variable ty : Type.
  (** Two types count as the same. *)
  Variable alike : ty -> ty -> Prop.

  (** Instructions of the same kind with the same properties.  What is written with two names
      (primed and not) may differ. *)
  Inductive same_special : special ty -> special ty -> Prop :=
  | same_alloca t t' align inalloca inalloca' : alike t t' -> same_special (IAlloca _ t align inalloca) (IAlloca _ t' align inalloca')
  | same_load volatile align order scope range : same_special (ILoad _ volatile align order scope range) (ILoad _ volatile align order scope range)
  | same_store volatile align order scope : same_special (IStore _ volatile align order scope) (IStore _ volatile align order scope)
  | same_icmp p : same_special (IIcmp _ p) (IIcmp _ p)
  | same_fcmp p : same_special (IFcmp _ p) (IFcmp _ p)
  | same_call conv attributes attributes' bundles tail range :
      same_special (ICall _ 0 conv attributes bundles tail range) (ICall _ 0 conv attributes' bundles tail range)
  | same_invoke kind conv attributes attributes' bundles tail tail' range :
      kind = 1 \/ kind = 2 -> same_special (ICall _ kind conv attributes bundles tail range) (ICall _ kind conv attributes' bundles tail' range)
  | same_insert indices : same_special (IInsert _ indices) (IInsert _ indices)
  | same_extract indices : same_special (IExtract _ indices) (IExtract _ indices)
  | same_fence order scope : same_special (IFence _ order scope) (IFence _ order scope)
  | same_cmpxchg volatile weak success failure scope align align' :
      same_special (ICmpxchg _ volatile weak success failure scope align) (ICmpxchg _ volatile weak success failure scope align')
  | same_rmw operation volatile order scope align align' :
      same_special (IRmw _ operation volatile order scope align) (IRmw _ operation volatile order scope align')
  | same_shuffle mask : same_special (IShuffle _ mask) (IShuffle _ mask)
  | same_landing cleanup cleanup' : same_special (ILanding _ cleanup) (ILanding _ cleanup')
  | same_other opcode : same_special (IOther _ opcode) (IOther _ opcode).

  (** The same operation: also the type of the result, the flags (as "nsw") and the types of the
      operands; other metadata may differ. *)
  Definition same_operation (a b : instr ty) : Prop :=
    same_special (i_special _ a) (i_special _ b) /\ alike (i_type _ a) (i_type _ b) /\ i_flags _ a = i_flags _ b /\ Forall2 alike (i_optypes _ a) (i_optypes _ b).
End Spec.

(** The comparisons differ at most in whether they are signed. *)
Inductive up_to_sign : ipred -> ipred -> Prop :=
| sign_same p : up_to_sign p p
| sign_gt s s' : up_to_sign (PGt s) (PGt s')
| sign_ge s s' : up_to_sign (PGe s) (PGe s')
| sign_lt s s' : up_to_sign (PLt s) (PLt s')
| sign_le s s' : up_to_sign (PLe s) (PLe s').

(** The numbers of opcodes and kinds of calls are as in LLVM: [IOther] is for other opcodes. *)
Definition proper {ty} (a : instr ty) : Prop :=
  match i_special _ a with
  | ICall _ kind _ _ _ _ _ => kind = 0 \/ kind = 1 \/ kind = 2
  | IOther _ n => ~ In n [5; 11; 31; 32; 33; 34; 35; 36; 37; 53; 54; 55; 56; 63; 64; 65; 66]
  | _ => True
  end.
