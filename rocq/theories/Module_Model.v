(** * Model of LLVM module objects and source trees
    (diffkemp/llvm_ir/llvm_module.py, diffkemp/llvm_ir/source_tree.py) *)
From Coq Require Import String Ascii ZArith Arith Bool Lia List.
From Verif Require Import PyBase Path_Model.
Import ListNotations.
Open Scope list_scope.

(** Identity of an LlvmModule object. *)
Notation mid := nat.

(** The attribute [llvm_module]: None, a module parsed from the given file, or deleted
    (llvm_module.py:64 [del self.llvm_module]). *)
Inductive parsed := PNone | PModule (file : string) | PDeleted.

(** llvm_module.py:49-54 [LlvmModule].  [source] is not modelled. *)
Record lmod := mkMod {
  m_llvm : string; m_unlinked : option string; m_linked : list mid; m_parsed : parsed }.
Definition new_mod (llvm : string) : lmod := mkMod llvm None [] PNone.

(** llvm_module.py:56-59 [parse_module].  Parsing itself is assumed to succeed. *)
Definition parse_module (force : bool) (m : lmod) : res lmod :=
  if force then Ok (mkMod (m_llvm m) (m_unlinked m) (m_linked m) (PModule (m_llvm m)))
  else match m_parsed m with
       | PDeleted => Err AttributeError
       | PModule _ => Ok m
       | PNone => Ok (mkMod (m_llvm m) (m_unlinked m) (m_linked m) (PModule (m_llvm m)))
       end.

(** llvm_module.py:61-64 [clean_module] *)
Definition clean_module (m : lmod) : res lmod :=
  match m_parsed m with
  | PDeleted => Err AttributeError
  | PNone => Ok m
  | PModule _ => Ok (mkMod (m_llvm m) (m_unlinked m) (m_linked m) PDeleted)
  end.

(** Files on disk: the name of an LLVM file and the definitions in it (as names of the
    original modules they come from). *)
Definition disk := dict string (list string).
Definition file_of (d : disk) (f : string) : list string := match dget d f with Some c => c | None => [] end.

(** What the external commands of [link_modules] do: llvm-link fails; llvm-link writes its
    output but opt fails; both succeed (and then SimpLL can or cannot parse the result). *)
Inductive link_outcome := LinkFails | OptFails | LinkOk (parses : bool).

(** llvm_module.py:78-81 the output file. *)
Definition linked_name (llvm : string) : string :=
  if contains llvm "-linked" then llvm else (chop 3 llvm ++ "-linked.ll")%string.

(** llvm_module.py:71-98 [link_modules].  [files] gives the LLVM file of each module object.
    The [return] in the [finally] block swallows every exception. *)
Definition link_modules (o : link_outcome) (files : mid -> string) (d : disk) (m : lmod) (mods : list mid)
  : disk * lmod * bool :=
  let new := filter (fun x => negb (mem x (m_linked m))) mods in
  match new with
  | [] => (d, m, false)
  | _ =>
      let target := linked_name (m_llvm m) in
      let d' := dset d target (file_of d (m_llvm m) ++ concat (map (fun x => file_of d (files x)) new)) in
      match o with
      | LinkFails => (d, m, false)
      | OptFails => (d', m, false)
      | LinkOk parses =>
          (d', mkMod target
                     (match m_unlinked m with None => Some (m_llvm m) | u => u end)
                     (fold_left (fun l x => set_add x l) new (m_linked m))
                     (if parses then PModule target else m_parsed m), true)
      end
  end.

(** llvm_module.py:141-147 [restore_unlinked_llvm] *)
Definition restore_unlinked (m : lmod) : lmod :=
  match m_unlinked m with
  | None => m
  | Some u => mkMod u None [] (PModule u)
  end.

(** ** Source trees *)

(** source_tree.py:19-22 [SourceTree.__init__]; [t_modules] maps source paths to module
    objects, [t_next] is the next object identity. *)
Record tree := mkTree { t_dir : string; t_modules : dict string mid; t_next : mid }.

(** source_tree.py:43-53 [_get_module_from_source] *)
Definition module_from_source (t : tree) (source : string) : tree * mid :=
  match dget (t_modules t) source with
  | Some m => (t, m)
  | None => (mkTree (t_dir t) (dset (t_modules t) source (t_next t)) (S (t_next t)), t_next t)
  end.

(** source_tree.py:37-40 [_make_abs_path] *)
Definition make_abs (t : tree) (file : string) : string :=
  if isabs file then file else path_join (t_dir t) file.

(** What the file system says about a path: not a file, a file whose time cannot be read, or a
    file with its modification time. *)
Inductive fstat := NoFile | FileNoTime | FileTime (t : Z).
Definition isfile (s : fstat) : bool := match s with NoFile => false | _ => true end.

(** source_tree.py:55-81 [get_module_for_symbol].  [finder] is None without a source finder;
    otherwise [found] is the answer of [find_llvm_with_symbol_def].  An empty string is not
    made absolute ([if source]) and is never a file.  A [created_before] of 0 is ignored
    ([if created_before]). *)
Definition get_module_for_symbol (stat : string -> fstat) (finder : option (string -> option string))
           (t : tree) (symbol : string) (created_before : option Z) : res (tree * mid) :=
  match finder with
  | None => Err SourceNotFoundException
  | Some find =>
      match find symbol with
      | None => Err SourceNotFoundException
      | Some src0 =>
          let src := if String.eqb src0 "" then src0 else make_abs t src0 in
          if negb (isfile (stat src)) then Err SourceNotFoundException
          else
            let too_new := match created_before, stat src with
                           | Some limit, FileTime tm => negb (Z.eqb limit 0) && (limit <? tm)%Z
                           | _, _ => false
                           end in
            if too_new then Err SourceNotFoundException
            else Ok (module_from_source t src)
      end
  end.

(** source_tree.py:83-101 [get_modules_using_symbol].  [sources] is what the finder returns,
    iterated over. *)
Fixpoint modules_for (stat : string -> fstat) (t : tree) (sources : list string) : tree * list mid :=
  match sources with
  | [] => (t, [])
  | s :: ss =>
      let src := make_abs t s in
      if isfile (stat src) then
        let '(t1, m) := module_from_source t src in
        let '(t2, ms) := modules_for stat t1 ss in (t2, m :: ms)
      else modules_for stat t ss
  end.
(** single_llvm_finder.py:36-37 and wrapper_build_finder.py:56-57 return one string (or None)
    instead of a list: iterating over a string yields its characters; iterating over None is a
    TypeError. *)
Fixpoint chars (s : string) : list string :=
  match s with EmptyString => [] | String c s' => String c "" :: chars s' end.
Definition get_modules_using_symbol_str (stat : string -> fstat) (t : tree) (answer : option string)
  : res (tree * list mid) :=
  match answer with
  | None => Err TypeError
  | Some s => Ok (modules_for stat t (chars s))
  end.
