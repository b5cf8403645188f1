(** * Specification vocabulary for snapshots *)
From Coq Require Import String Ascii ZArith Arith Bool Lia List.
From Verif Require Import PyBase Path_Model Snapshot_Model.
Import ListNotations.
Open Scope list_scope.

(** A history of additions: group, name, description; oldest first. *)
Definition addition := (option string * string * fdesc)%type.
Definition after (h : list addition) : groups :=
  fold_left (fun s a => let '(g, n, d) := a in add_fun n d g s) h [].

(** The description given by the last addition for a name in a group. *)
Inductive last_added (g : option string) (n : string) : list addition -> fdesc -> Prop :=
| la_here h d : last_added g n (h ++ [(g, n, d)]) d
| la_before h g2 n2 d2 d : (g2, n2) <> (g, n) -> last_added g n h d ->
    last_added g n (h ++ [(g2, n2, d2)]) d.

(** [first_occurrences l k]: the list [k] has the elements of [l], each once, in the order
    of their first occurrence. *)
Inductive first_occurrences {A} : list A -> list A -> Prop :=
| fo_nil : first_occurrences [] []
| fo_new l k x : first_occurrences l k -> ~ In x l -> first_occurrences (l ++ [x]) (k ++ [x])
| fo_old l k x : first_occurrences l k -> In x l -> first_occurrences (l ++ [x]) k.

(** Two paths, each relative to its own current directory, name the same file: same
    components after making them absolute and resolving "." and "..". *)
Definition same_file (cwd1 p1 cwd2 p2 : string) : Prop := abs_comps cwd1 p1 = abs_comps cwd2 p2.

(** Same function entry, up to the spelling of the module path. *)
Definition same_fun (cwd1 cwd2 : string) (a b : string * fdesc) : Prop :=
  fst a = fst b /\ fd_glob (snd a) = fd_glob (snd b) /\ fd_tag (snd a) = fd_tag (snd b) /\
  match fd_mod (snd a), fd_mod (snd b) with
  | None, None => True
  | Some m1, Some m2 => same_file cwd1 m1 cwd2 m2
  | _, _ => False
  end.
(** Same groups with the same functions in the same order. *)
Definition same_snapshot (cwd1 cwd2 : string) (a b : groups) : Prop :=
  Forall2 (fun x y => fst x = fst y /\ Forall2 (same_fun cwd1 cwd2) (snd x) (snd y)) a b.
