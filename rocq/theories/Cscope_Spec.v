(** * Specification of the index of kernel sources *)
From Coq Require Import String Arith Bool List.
From Verif Require Import PyBase Cscope_Model.
Import ListNotations.
Open Scope list_scope.

Definition part_of (part s : string) : Prop := exists a b, s = (a ++ part ++ b)%string.
Definition ends_in (suffix s : string) : Prop := exists a, s = (a ++ suffix)%string.

(** A file is in the index. *)
Definition in_index (source_dir : string) (e : entry) : Prop :=
  let dir := if String.eqb (e_sub e) "" then source_dir else (source_dir ++ "/" ++ e_sub e)%string in
  ~ part_of "/Documentation/" dir /\ ~ part_of "/scripts/" dir /\ ~ part_of "/tmp" dir /\ e_link e = false /\
  (ends_in ".c" (e_name e) \/ ends_in ".h" (e_name e) \/ ends_in ".x" (e_name e) \/ ends_in ".s" (e_name e) \/ ends_in ".S" (e_name e)).
Definition path_of (e : entry) : string := if String.eqb (e_sub e) "" then e_name e else (e_sub e ++ "/" ++ e_name e)%string.

Section IndexSpec.
  Variable sources : Type.
  Variable files_of : sources -> list entry.
  Variable data : Type.
  Variable index : sources -> list string -> data.
  Variable query : data -> string -> bool -> option (list (string * string)).
  Variable source_dir : string.

  (** The lines of C files that cscope finds. *)
  Definition c_lines (d : data) (symbol : string) (definition : bool) : list (string * string) :=
    match query d symbol definition with Some ls => filter (fun l => endswith (fst l) "c") ls | None => [] end.
  (** What the searches answer: [d] is the index made at the first search at which it could be made, for the sources of
      that moment; there is no other one. *)
  Fixpoint answers (x : sources) (d : option data) (es : list (event sources)) : list answer :=
    match es with
    | [] => []
    | Search sy de ok :: es =>
      match d with
      | Some d => Found (c_lines d sy de) :: answers x (Some d) es
      | None => if ok then let d := index x (listed source_dir (files_of x)) in Found (c_lines d sy de) :: answers x (Some d) es
                else Not_built :: answers x None es
      end
    | Change y :: es => answers y d es
    | _ :: es => answers x d es
    end.
  Definition killed (e : event sources) : Prop := exists k, e = Killed k.
  (** No search could make an index. *)
  Definition no_index_made (es : list (event sources)) : Prop := forall sy de, ~ In (Search sy de true) es.
End IndexSpec.
