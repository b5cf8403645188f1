(** * Specification vocabulary for the comparison of one function pair *)
From Coq Require Import String Ascii ZArith Arith Bool Lia List Permutation.
From Verif Require Import PyBase Result_Model Result_Spec Graph_Model Graph_Spec Cache_Model Module_Model Driver_Model.
Import ListNotations.
Open Scope list_scope.

(** Number of times SimpLL was run, according to a log. *)
Fixpoint runs (lg : list event) : nat :=
  match lg with
  | [] => 0
  | ERunSimpll _ _ :: lg' => S (runs lg')
  | _ :: lg' => runs lg'
  end.

(** Events of printing and checking single differences; everything else touches SimpLL, the
    source trees, the modules or the cache. *)
Definition only_shows (e : event) : Prop :=
  match e with ESyntaxDiff _ | ESemdiff _ => True | _ => False end.

(** Exceptions turned into the verdict ERROR: those of SimpLL and Python's ValueError with its
    subclasses UnicodeDecodeError and UnicodeEncodeError. *)
Definition caught (e : exn) : Prop :=
  e = SimpLLException \/ e = ValueError \/ e = UnicodeDecodeError \/ e = UnicodeEncodeError.

(** The last action of the log failed with the exception [e]. *)
Definition last_action_failed (w : world) (cwd dir : string) (lg : list event) (e : exn) : Prop :=
  match lg with
  | ERunSimpll l r :: before => exists h, w_simpll w before h l r = Err e
  | ECacheUpdate :: before => exists c h g, update_from_graph cwd dir c h g = Err e
  | ESyntaxDiff o :: before => w_syntax_diff w before o = Err e
  | ESemdiff o :: before => w_semdiff w before o = Err e
  | _ => False
  end.

(** [k] is the most severe of the verdicts [ks]. *)
Definition worst (k : kind) (ks : list kind) : Prop :=
  In k ks /\ forall k', In k' ks -> at_most k' k.

(** What is shown of object [o] as an inner result [i]: verdict [k], both entities. *)
Definition shows (o : cobject) (i : result graph) : Prop :=
  r_kind i = o_kind o /\ r_first i = o_first o /\ r_second i = o_second o.

(** Name under which an object is stored. *)
Definition object_name (o : cobject) : string := en_name (o_first o).

(** A set of objects hashed by identity may be listed in any order. *)
Definition any_order (w : world) : Prop := forall l, Permutation (w_order w l) l.

(** The comparison of [f1] and [f2] started in state [st] ends in state [st'] with [out]. *)
Definition ends (w : world) (cwd dir : string) (cfg : dconfig) (f1 f2 : string) (st st' : dst)
           (out : res (result graph)) : Prop :=
  terminates_with (fun n => functions_diff w cwd dir cfg n f1 f2 st) (st', out).

(** The object list of a graph in a heap, without or with --full-diff. *)
Definition object_list (w : world) (h : heap) (g : graph) (f1 f2 : string) (full : bool) (p : pair_list) : Prop :=
  terminates_with (fun n => graph_to_fun_pair_list (w_order w) n h g f1 f2 full) (Ok p).

(** The answers of the z3 solver. *)
Definition z3_answer (line : string) (k : kind) : Prop :=
  (line = "sat"%string /\ k = NOT_EQUAL) \/ (line = "unsat"%string /\ k = EQUAL) \/
  (line = "unknown"%string /\ k = UNKNOWN).
Definition last_answer (lines : list string) (k : kind) : Prop :=
  exists before line after, lines = before ++ line :: after /\ z3_answer line k /\
    forall x k', In x after -> ~ z3_answer x k'.
