(** * Model of snapshots (diffkemp/snapshot.py) and of their generation
    (diffkemp/diffkemp.py:226-322) *)
From Coq Require Import String Ascii ZArith Arith Bool Lia List.
From Verif Require Import PyBase Path_Model.
Import ListNotations.
Open Scope list_scope.

(** snapshot.py:29-39 [FunctionDesc].  Simplification: a module is represented by the path
    of its LLVM file ([None]: no module); the identity of module objects is modelled in
    Module_Model. *)
Record fdesc := mkDesc { fd_mod : option string; fd_glob : option string; fd_tag : option string }.
(** snapshot.py:41-48 [FunctionGroup] *)
Definition group := dict string fdesc.
(** snapshot.py:50-58: the attribute [fun_groups]. *)
Definition groups := dict (option string) group.

(** snapshot.py:133-147 [add_fun] *)
Definition add_fun (name : string) (d : fdesc) (g : option string) (s : groups) : groups :=
  let fs := match dget s g with Some fs => fs | None => [] end in
  dset s g (dset fs name d).

(** snapshot.py:149-155 [modules]: the modules of all functions (as a list; the code makes
    a set of module objects of it). *)
Definition modules (s : groups) : list string :=
  flat_map (fun kg => flat_map (fun kf => match fd_mod (snd kf) with Some m => [m] | None => [] end) (snd kg)) s.

(** snapshot.py:157-166 [get_by_name] *)
Definition get_by_name (s : groups) (name : string) (g : option string) : option fdesc :=
  match dget s g with Some fs => dget fs name | None => None end.

(** snapshot.py:168-175 [filter]: a dict comprehension over the requested names. *)
Definition filter_funs (s : groups) (names : list string) (g : option string) : res groups :=
  match dget s g with
  | None => Err KeyError
  | Some fs =>
      do fs2 <- fold_res (fun acc f => match dget fs f with
                                       | Some d => Ok (dset acc f d)
                                       | None => Err KeyError end) [] names;
      Ok (dset s g fs2)
  end.

(** ** YAML form: the value under the key "list" of the document.
    Simplification: the text layer (yaml.dump / yaml.load) is not modelled; only the tree. *)
Record yfun := mkYfun { y_name : string; y_llvm : option string; y_glob : option string; y_tag : option string }.
Inductive ylist :=
| YFuns (fs : list yfun)
    (** a plain list of functions *)
| YGroups (key : string) (gs : list (option string * list yfun)).
    (** a list of mappings {key: group name, "functions": [...]} *)

(** snapshot.py:253-260: one function entry; [dir] is [snapshot_tree.source_dir]. *)
Definition fun_to_yaml (cwd dir : string) (nf : string * fdesc) : res yfun :=
  let '(name, d) := nf in
  match fd_mod d with
  | None => Ok (mkYfun name None (fd_glob d) (fd_tag d))
  | Some m => do r <- relpath cwd m dir; Ok (mkYfun name (Some r) (fd_glob d) (fd_tag d))
  end.
Definition group_to_yaml (cwd dir : string) (kg : option string * group) : res (option string * list yfun) :=
  do fs <- map_res (fun_to_yaml cwd dir) (snd kg); Ok (fst kg, fs).

(** snapshot.py:245-281 [to_yaml], the part about the function list. *)
Definition to_yaml (cwd dir list_kind : string) (s : groups) : res ylist :=
  do gs <- map_res (group_to_yaml cwd dir) s;
  match gs with
  | [(None, fs)] => Ok (YFuns fs)
  | _ => Ok (YGroups list_kind gs)
  end.

(** snapshot.py:233-243: the functions of one group.  An "llvm" entry that is missing or
    empty gives no module. *)
Definition fun_from_yaml (cwd dir : string) (g : option string) (s : groups) (f : yfun) : res groups :=
  match y_llvm f with
  | None => Ok (add_fun (y_name f) (mkDesc None (y_glob f) (y_tag f)) g s)
  | Some l =>
      if String.eqb l "" then Ok (add_fun (y_name f) (mkDesc None (y_glob f) (y_tag f)) g s)
      else
        (* os.path.relpath(dir), relative to the current directory *)
        do r <- relpath cwd dir ".";
        Ok (add_fun (y_name f) (mkDesc (Some (path_join r l)) (y_glob f) (y_tag f)) g s)
  end.

(** snapshot.py:177-243 [_from_yaml], the part about the function list.
    For list kind "function" the whole list is one group; its elements are functions, and an
    element without a "name" raises KeyError.  For other kinds every element is a group: a
    mapping with the key "sysctl", or else anything iterable whose elements are functions
    (iterating over a mapping gives its keys, and indexing a string by "name" raises
    TypeError). *)
Definition from_yaml (cwd dir list_kind : string) (y : ylist) : res groups :=
  if String.eqb list_kind "function" then
    match y with
    | YFuns fs => fold_res (fun_from_yaml cwd dir None) [] fs
    | YGroups _ [] => Ok []
    | YGroups _ (_ :: _) => Err KeyError
    end
  else
    match y with
    | YFuns [] => Ok []
    | YFuns (_ :: _) => Err TypeError
    | YGroups key gs =>
        fold_res (fun s kg =>
                    if String.eqb key "sysctl" then fold_res (fun_from_yaml cwd dir (fst kg)) s (snd kg)
                    else Err TypeError) [] gs
    end.

(** ** Generation *)

(** What is found for a symbol (source_tree.get_module_for_symbol and has_function): no
    source, a module that does not define a function of that name, or one that does. *)
Inductive found := NotFound | NotAFunction | FunctionIn (llvm : string).

(** diffkemp.py:226-253 [generate_from_function_list] (without the printing). *)
Definition generate_fun (find : string -> found) (s : groups) (symbol : string) : groups :=
  match find symbol with
  | FunctionIn m => add_fun symbol (mkDesc (Some m) None None) None s
  | NotAFunction => add_fun symbol (mkDesc None None None) None s
  | NotFound => add_fun symbol (mkDesc None None None) None s
  end.
Definition generate_from_function_list (find : string -> found) (l : list string) (s : groups) : groups :=
  fold_left (generate_fun find) l s.

(** What the source tree answers about sysctl options; arbitrary functions. *)
Record sysctl_world := mkSysctlWorld {
  w_sysctl_module : string -> option string;      (* get_sysctl_module; None: SourceNotFoundException *)
  w_parse : string -> string -> list string;      (* module, pattern: parse_sysctls *)
  w_proc : string -> string -> option string;     (* module, sysctl: get_proc_fun *)
  w_module_for : string -> option string;         (* get_module_for_symbol; None: SourceNotFoundException *)
  w_data : string -> string -> option string;     (* module, sysctl: name of get_data *)
  w_using : string -> res (list (string * list string))
    (* get_modules_using_symbol with get_functions_using_param of each module *)
}.

Definition data_tag (v : string) : string :=
  ("using data variable " ++ String (ascii_of_nat 34) v ++ String (ascii_of_nat 34) "")%string.

(** diffkemp.py:309-317: the functions of one module that use the data variable. *)
Definition add_data_funs (proc : option string) (v sysctl : string) (s : groups) (mf : string * list string) : groups :=
  fold_left (fun s f =>
    if opt_eqb (Some f) proc then s
    else add_fun f (mkDesc (Some (fst mf)) (Some v) (Some (data_tag v))) (Some sysctl) s) (snd mf) s.

(** diffkemp.py:283-322: one sysctl option.  An empty proc handler name or an empty data
    name counts as none; a SourceNotFoundException for the data variable is not caught. *)
Definition sysctl_one (w : sysctl_world) (m : string) (s : groups) (sysctl : string) : res groups :=
  let proc := w_proc w m sysctl in
  let s1 := match proc with
            | Some p => if String.eqb p "" then s else
                match w_module_for w p with
                | Some pm => add_fun p (mkDesc (Some pm) None (Some "proc handler function"%string)) (Some sysctl) s
                | None => s
                end
            | None => s
            end in
  match w_data w m sysctl with
  | None => Ok s1
  | Some v =>
      match w_using w v with
      | Err e => Err e
      | Ok ms => Ok (fold_left (add_data_funs proc v sysctl) ms s1)
      end
  end.

(** diffkemp.py:269-282: one entry of the list.  The assignment to [sysctl_list] inside the
    loop does not affect the iteration, which holds its own iterator. *)
Definition sysctl_entry (w : sysctl_world) (s : groups) (symbol : string) : res groups :=
  match w_sysctl_module w symbol with
  | None => Ok s
  | Some m => fold_res (sysctl_one w m) s (w_parse w m symbol)
  end.
(** diffkemp.py:256-322 [generate_from_sysctl_list] *)
Definition generate_from_sysctl_list (w : sysctl_world) (l : list string) (s : groups) : res groups :=
  fold_res (sysctl_entry w) s l.
