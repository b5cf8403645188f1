(** * What is to arrive *)
From Coq Require Import String Ascii ZArith Arith Bool Permutation Sorted List.
From Verif Require Import PyBase Result_Model Source_Model Modcomp_Model Graph_Model Graph_Spec.
Import ListNotations.
Open Scope list_scope.

(** The verdicts of SimpLL and of the tool *)
Inductive Same_verdict : verdict -> kind -> Prop :=
| Same_equal : Same_verdict Modcomp_Model.EQUAL Result_Model.EQUAL
| Same_not_equal : Same_verdict Modcomp_Model.NOT_EQUAL Result_Model.NOT_EQUAL
| Same_assumed : Same_verdict Modcomp_Model.ASSUMED_EQUAL Result_Model.ASSUMED_EQUAL
| Same_unknown : Same_verdict Modcomp_Model.UNKNOWN Result_Model.UNKNOWN.
(** The calls of a function that is in a file *)
Definition Same_calls (file : string) (calls : dict string (Z * bool)) (edges : list edge) : Prop :=
  Permutation edges (map (fun c : string * (Z * bool) => mkEdge (fst c) file (fst (snd c)) (if snd (snd c) then WEAK else STRONG)) calls) /\
  StronglySorted (fun a b => String.leb (e_target a) (e_target b) = true) edges.
Definition Same_line (line : Z) (o : option Z) : Prop := (line = 0%Z /\ o = None) \/ (line <> 0%Z /\ o = Some line).

Section Arrived.
  Context {W F C V : Type}.
  Variable E : @env W F C V nonfun.
  Variable file : F -> string.
  Variable line : F -> Z.
  Variable counts : F * F -> stats.
  (** The vertex has everything of the result of the pair. *)
  Record Arrived (l r : F) (x : @Modcomp_Model.result nonfun) (v : vertex) : Prop := {
    ar_names : v_names v = (e_name E l, e_name E r);
    ar_verdict : Same_verdict (r_kind x) (v_result v);
    ar_left : Same_calls (file l) (r_left x) (fst (v_succ v));
    ar_right : Same_calls (file r) (r_right x) (snd (v_succ v));
    ar_objects : v_nonfun v = r_objects x;
    ar_files : v_files v = (Some (file l), Some (file r));
    ar_line_l : Same_line (line l) (fst (v_lines v));
    ar_line_r : Same_line (line r) (snd (v_lines v));
    ar_stats : v_stats v = counts (l, r) }.
  (** Under which name the result of a pair is stored *)
  Definition Stored (l r : F) (k : string) : Prop :=
    (dotted (e_name E l) /\ k = e_name E l) \/ (~ dotted (e_name E l) /\ k = e_name E r).
  (** The name under which a value without a definition is reported: none for no value and for a value without a name *)
  Variable var_name : V -> string.
  Inductive Reported : option (@value F V) -> option string -> Prop :=
  | Rep_none : Reported None None
  | Rep_fun f : e_name E f <> ""%string -> Reported (Some (VFun f)) (Some (e_name E f))
  | Rep_var x : var_name x <> ""%string -> Reported (Some (VVar x)) (Some (var_name x))
  | Rep_fun_unnamed f : e_name E f = ""%string -> Reported (Some (VFun f)) None
  | Rep_var_unnamed x : var_name x = ""%string -> Reported (Some (VVar x)) None.
End Arrived.

(** Texts without zero bytes *)
Definition No_zero (s : string) : Prop := forall a c b, s = (a ++ String c b)%string -> c <> "000"%char.
