(** * Specification vocabulary for the cache properties (C15-C18, C61) *)
From Coq Require Import String Ascii ZArith Arith Bool Lia List Permutation.
From Verif Require Import PyBase Path_Model Result_Model Graph_Model Cache_Model.
Import ListNotations.
Open Scope list_scope.

(** The text of a file; a missing file has no text. *)
Definition text (f : fs) (name : string) : string :=
  match dget f name with Some c => c | None => "" end.

(** [x] is a vertex whose pair of source files is stored in the cache file [name]. *)
Definition stored_in (c : cache) (name : string) (x : vertex) : bool :=
  match dget (cache_map c) (v_files x) with Some n => String.eqb n name | None => false end.

(** The text of a list of function pairs: one "left:right" line per pair. *)
Inductive Lines : list (string * string) -> string -> Prop :=
| Lines_nil : Lines [] ""
| Lines_cons l r ps t : Lines ps t -> Lines ((l, r) :: ps) (l ++ ":" ++ r ++ String "010" t).

(** A function name that does not break the line format of the cache. *)
Definition plain (n : string * string) : Prop :=
  has_char ":" (fst n) = false /\ has_char "010" (fst n) = false /\ has_char "010" (snd n) = false.

(** A cache directory that has seen the given updates, starting empty. *)
Inductive history (cwd directory : string) : list (list vertex) -> cache -> Prop :=
| history_nil : history cwd directory [] (mkCache [] [])
| history_snoc us c vs c' : history cwd directory us c -> update cwd directory c vs = Ok c' ->
                            history cwd directory (us ++ [vs]) c'.

(** No directory or file name on the path starts with a dollar sign. *)
Definition no_dollar (p : string) : Prop :=
  forall comp, In comp (split_char "/" p) -> startswith comp "$" = false.

(** A normalised absolute path: "/a/b/c" with ordinary components. *)
Definition ordinary (comp : string) : Prop :=
  comp <> ""%string /\ comp <> "."%string /\ comp <> ".."%string /\ has_char "/" comp = false.
Definition normal_path (p : string) (comps : list string) : Prop :=
  p = ("/" ++ join "/" comps)%string /\ comps <> [] /\ Forall ordinary comps.
