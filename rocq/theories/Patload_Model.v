(** * Model of the loading of custom patterns by SimpLL, from the file that was checked by
    diffkemp/semdiff/custom_pattern_config.py (see Config_Model):
    diffkemp/simpll/CustomPatternSet.cpp:70-85, 142-180.
    Simplified: a YAML file is a mapping with unique keys, "patterns" is a list of texts and
    "on_parse_failure" a text.  What is loaded from a file is in Pattern_Model. *)
From Coq Require Import String Ascii ZArith Arith Bool List.
From Verif Require Import PyBase Config_Model.
Import ListNotations.
Open Scope list_scope.

(** A mapping, with its other keys *)
Record ydoc := mkYdoc { d_patterns : option (list string); d_on_failure : option string; d_others : list string }.
(** The files: which can be read, which are accepted by opt, which are parsed by llvm::parseIRFile,
    and the mappings in them. *)
Record pfiles := mkPfiles { p_readable : string -> bool; p_valid : string -> bool; p_parses : string -> bool; p_doc : string -> option ydoc }.

(** custom_pattern_config.py:98-99, as the files are seen in Python *)
Definition python_files (x : pfiles) : cfiles :=
  mkCfiles (p_readable x) (p_valid x) (fun f => match p_doc x f with Some d => mkCyaml (d_patterns d) (d_on_failure d) | None => mkCyaml None None end).

(** llvm::sys::path::extension *)
Definition llvm_extension (p : string) : string :=
  let f := match rsplit "/" p with Some (_, x) => x | None => p end in
  match rsplit "." f with
  | None => EmptyString
  | Some (_, e) => if String.eqb f "." || String.eqb f ".." then EmptyString else ("." ++ e)%string
  end.

(** CustomPatternSet.cpp:168-180 addPatternFromFile: the files that are loaded *)
Definition load_file (x : pfiles) (p : string) : list string := if p_parses x p then [p] else [].
(** CustomPatternSet.cpp:142-165 addPatternsFromConfig, with 35-42: llvm::yaml::Input fails for keys
    that are not asked for. *)
Definition load_config (x : pfiles) (p : string) : list string :=
  if p_readable x p then
    match p_doc x p with
    | Some (mkYdoc ps _ []) => flat_map (load_file x) (match ps with Some l => l | None => [] end)
    | _ => []
    end
  else [].
(** CustomPatternSet.cpp:75-85: the constructor *)
Definition load_patterns (x : pfiles) (p : string) : list string :=
  if String.eqb p "" then [] else if String.eqb (llvm_extension p) ".ll" then load_file x p else load_config x p.
