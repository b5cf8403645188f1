(** * Model of SimpLLCache (diffkemp/semdiff/caching.py:573-629) and of its reader
    (diffkemp/simpll/ResultsCache.cpp) *)
From Coq Require Import String Ascii ZArith Arith Bool Lia List.
From Verif Require Import PyBase Path_Model Result_Model Graph_Model.
Import ListNotations.
Open Scope list_scope.

(** caching.py:580-588 the name of the cache file of a pair of source files.  [None] files
    make [os.path.commonprefix] raise TypeError. *)
Definition cache_filename (cwd directory : string) (files : option string * option string) : res string :=
  match files with
  | (Some l, Some r) =>
      let prefix := common_prefix l r in
      match relpath cwd l prefix with
      | Err e => Err e
      | Ok rl =>
          match relpath cwd r prefix with
          | Err e => Err e
          | Ok rr => Ok (path_join directory (replace_char "/" "$" rl ++ ":" ++ replace_char "/" "$" rr)%string)
          end
      end
  | _ => Err TypeError
  end.

(** Files of the cache directory: name and contents. *)
Definition fs := dict string string.

(** caching.py:590-594 [add_function_pairs]: opening with mode "a" creates the file. *)
Definition pair_line (names : string * string) : string := (fst names ++ ":" ++ snd names ++ String "010" "")%string.
Fixpoint lines_of (pairs : list (string * string)) : string :=
  match pairs with [] => ""%string | p :: ps => (pair_line p ++ lines_of ps)%string end.
Definition add_function_pairs (f : fs) (filename : string) (pairs : list (string * string)) : fs :=
  dset f filename ((match dget f filename with Some c => c | None => "" end) ++ lines_of pairs)%string.

(** caching.py:599-603 the cache object; [cache_map] maps pairs of source files to the name of
    the cache file ([CacheFile.filename]). *)
Definition files_t := (option string * option string)%type.
Record cache := mkCache { cache_map : dict files_t string; cache_fs : fs }.

(** caching.py:608-615 sorting the vertices by source files. *)
Definition sort_vertex (m : dict files_t (list (string * string))) (x : vertex) : dict files_t (list (string * string)) :=
  if negb (v_cachable x) then m
  else dset m (v_files x)
            ((match dget m (v_files x) with Some l => l | None => [] end) ++ [v_names x]).

(** caching.py:618-624 writing one group. *)
Definition write_group (cwd directory : string) (c : cache) (g : files_t * list (string * string)) : res cache :=
  match dget (cache_map c) (fst g) with
  | Some filename => Ok (mkCache (cache_map c) (add_function_pairs (cache_fs c) filename (snd g)))
  | None =>
      match cache_filename cwd directory (fst g) with
      | Err e => Err e
      | Ok filename => Ok (mkCache (dset (cache_map c) (fst g) filename)
                                   (add_function_pairs (cache_fs c) filename (snd g)))
      end
  end.

(** caching.py:605-624 [update] *)
Definition update (cwd directory : string) (c : cache) (vs : list vertex) : res cache :=
  fold_res (write_group cwd directory) c (fold_left sort_vertex vs []).

(** caching.py:626-629 [clear]: [os.remove] of every cache file, then [os.rmdir] (which fails
    on a non-empty directory).  The result is the set of files left, the directory itself
    being gone. *)
Definition remove_file (f : fs) (name : string) : res fs :=
  if dmem f name then Ok (ddel f name) else Err FileNotFoundError.
Definition clear (c : cache) : res fs :=
  match fold_res remove_file (cache_fs c) (dvals (cache_map c)) with
  | Err e => Err e
  | Ok [] => Ok []
  | Ok _ => Err OSError
  end.

(** function_diff.py:250-254 which vertices of the graph are handed to the cache. *)
Definition decided (x : vertex) : bool := negb (mem (v_result x) [UNKNOWN; ASSUMED_EQUAL]).
Definition update_from_graph (cwd directory : string) (c : cache) (h : heap) (g : graph) : res cache :=
  update cwd directory c (filter decided (map h (dvals (g_verts g)))).

(** ** The reader *)

(** ResultsCache.cpp:41-56 the name of the cache file SimpLL looks for. *)
Definition simpll_filename (directory l r : string) : string :=
  (directory ++ "/" ++ replace_char "/" "$" l ++ ":" ++ replace_char "/" "$" r)%string.

(** llvm::StringRef::split(char): at the first separator; no separator gives (s, ""). *)
Fixpoint split_first (c : ascii) (s : string) : string * string :=
  match s with
  | EmptyString => (""%string, ""%string)
  | String x s' => if Ascii.eqb x c then (""%string, s')
                   else let '(a, b) := split_first c s' in (String x a, b)
  end.
(** ResultsCache.cpp:23-38 [importFileToCacheMap] *)
Definition import_file (contents : string) : list (string * string) :=
  map (split_first ":") (split_char "010" contents).

(** ResultsCache.cpp:42-70 [isFunctionPairCached] for functions with debug info from the files
    [l] and [r]. *)
Definition is_cached (f : fs) (directory l r : string) (names : string * string) : bool :=
  match dget f (simpll_filename directory l r) with
  | None => false
  | Some contents => mem names (import_file contents)
  end.
