(** * Model of the index of kernel sources: which files are in it, when it is built and what is found with it
    (diffkemp/llvm_ir/kernel_llvm_source_builder.py:168-226).  Kernel_Model has what is done with the lines found. *)
From Coq Require Import String Arith Bool List.
From Verif Require Import PyBase.
Import ListNotations.
Open Scope list_scope.

(** A file of the tree: its directory relative to the source directory (empty: the source directory itself), its name
    and whether it is a symbolic link. *)
Record entry := mkEntry { e_sub : string; e_name : string; e_link : bool }.

(** os.walk: [root]; simplified: the source directory has no slash at its end. *)
Definition root (source_dir : string) (e : entry) : string :=
  if String.eqb (e_sub e) "" then source_dir else (source_dir ++ "/" ++ e_sub e)%string.
(** os.path.relpath(os.path.join(root, f), source_dir) *)
Definition rel_path (e : entry) : string := if String.eqb (e_sub e) "" then e_name e else (e_sub e ++ "/" ++ e_name e)%string.
(** kernel_llvm_source_builder.py:182-191 *)
Definition wanted_file (source_dir : string) (e : entry) : bool :=
  negb (contains (root source_dir e) "/Documentation/" || contains (root source_dir e) "/scripts/" || contains (root source_dir e) "/tmp") &&
  negb (e_link e) && existsb (endswith (e_name e)) [".c"; ".h"; ".x"; ".s"; ".S"]%string.
(** kernel_llvm_source_builder.py:180-194: the lines of cscope.files *)
Definition listed (source_dir : string) (es : list entry) : list string := map rel_path (filter (wanted_file source_dir) es).

Section Index.
  (** The sources at a moment; the files they have in the order of os.walk. *)
  Variable sources : Type.
  Variable files_of : sources -> list entry.
  (** What cscope makes of the files in its list, and what it prints for a symbol with it: the file and the rest of each
      line; [None]: it fails.  Without a database it fails. *)
  Variable data : Type.
  Variable index : sources -> list string -> data.
  Variable query : data -> string -> bool -> option (list (string * string)).
  Variable source_dir : string.

  Record state := mkState { now : sources; cscope_files : option (list string); database : option data;
                            cache : list (string * bool * list (string * string)) }.

  (** What happens: a search ([ok]: whether cscope can build a database if it has to); the tool is started again; it is
      killed while it builds the index, with [k] lines of the list written; the sources change. *)
  Inductive event := Search (symbol : string) (definition ok : bool) | Restart | Killed (k : nat) | Change (s : sources).
  Inductive answer := Found (l : list (string * string)) | Not_built.

  (** kernel_llvm_source_builder.py:171-201 [_build_cscope_database] *)
  Definition build (ok : bool) (s : state) : bool * state :=
    match cscope_files s with
    | Some _ => (true, s)
    | None =>
      let l := listed source_dir (files_of (now s)) in
      if ok then (true, mkState (now s) (Some l) (Some (index (now s) l)) (cache s))
      else (false, mkState (now s) None (database s) (cache s))
    end.
  Fixpoint cached (c : list (string * bool * list (string * string))) (symbol : string) (definition : bool) : option (list (string * string)) :=
    match c with
    | [] => None
    | (s, d, r) :: c => if String.eqb s symbol && Bool.eqb d definition then Some r else cached c symbol definition
    end.
  (** kernel_llvm_source_builder.py:203-226 [_cscope_run] *)
  Definition search (symbol : string) (definition ok : bool) (s : state) : answer * state :=
    match cached (cache s) symbol definition with
    | Some r => (Found r, s)
    | None =>
      match build ok s with
      | (false, s) => (Not_built, s)
      | (true, s) =>
        match match database s with Some d => query d symbol definition | None => None end with
        | None => (Found [], s)
        | Some ls =>
          let r := filter (fun l => endswith (fst l) "c") ls in
          (Found r, mkState (now s) (cscope_files s) (database s) ((symbol, definition, r) :: cache s))
        end
      end
    end.
  Definition step (s : state) (e : event) : option answer * state :=
    match e with
    | Search sy d ok => let (a, s) := search sy d ok s in (Some a, s)
    | Restart => (None, mkState (now s) (cscope_files s) (database s) [])
    | Killed k =>
      (None, match cscope_files s with
             | Some _ => mkState (now s) (cscope_files s) (database s) []
             | None => mkState (now s) (Some (firstn k (listed source_dir (files_of (now s))))) (database s) []
             end)
    | Change x => (None, mkState x (cscope_files s) (database s) (cache s))
    end.
  (** The answers of searches. *)
  Fixpoint run (s : state) (es : list event) : list answer :=
    match es with
    | [] => []
    | e :: es => let (a, s) := step s e in match a with Some a => a :: run s es | None => run s es end
    end.
  (** A tree in which no index was built. *)
  Definition fresh (x : sources) : state := mkState x None None [].
End Index.
Arguments Search {sources}. Arguments Restart {sources}. Arguments Killed {sources}. Arguments Change {sources}.
