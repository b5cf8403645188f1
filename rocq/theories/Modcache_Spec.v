(** * Specification of the preparation of modules and of modules kept in memory *)
From Coq Require Import String Arith Bool List.
From Verif Require Import PyBase Modcache_Model.
Import ListNotations.
Open Scope list_scope.

(** Whether a pass on functions is asked for by the configuration. *)
Definition asked (old_llvm : bool) (p : patterns) (x : pass) : bool :=
  match x with
  | ControlFlow => control_flow_only p
  | KernelPrints => kernel_prints p
  | DeadCode => dead_code p
  | SeparateBitcasts => old_llvm
  | _ => true
  end.

(** What is done to a module, in order: the passes on functions, those on the module, the slicing. *)
Inductive deed := OnFunction (x : pass) (f : string) | OnModule (x : pass) | Sliced (f v : string).
(** The deeds of a whole preparation of a module with functions [fs]. *)
Definition preparation (old_llvm : bool) (p : patterns) (fs : list string) : list deed :=
  flat_map (fun f => map (fun x => OnFunction x f)
    (filter (asked old_llvm p) [ControlFlow; KernelPrints; Memcpy; DeadCode; Expect; ReduceMetadata; SeparateBitcasts])) fs
  ++ [OnModule MergeNumbered; OnModule KernelGlobals; OnModule Lifetimes; OnModule StructHash].
(** The deeds of a call of the preparation with a function and a variable. *)
Definition slicing (c : option string * option string) : list deed :=
  match c with (Some f, Some v) => [Sliced f v] | _ => [] end.

(** An answer of one of two records of the same comparisons, at the same place, is that of the other
    one, unless the comparison was not finished there. *)
Definition agree {text} (o1 o2 : list (outcome text)) : Prop :=
  forall i t1 t2, nth_error o1 i = Some (Answer t1) -> nth_error o2 i = Some (Answer t2) -> t1 = t2.

(** The files of modules to be kept in memory do not change during the comparisons. *)
Definition stable {body disk} (parse : disk -> string -> option (module body)) (to_cache : list string)
    (qs : list (request disk)) : Prop :=
  forall q q' path, In q qs -> In q' qs -> In path to_cache -> parse (r_disk q) path = parse (r_disk q') path.

(** Both modules of a comparison are to be kept in memory. *)
Definition kept {disk} (to_cache : list string) (q : request disk) : Prop :=
  In (r_first q) to_cache /\ In (r_second q) to_cache.
