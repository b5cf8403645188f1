(** * Model of the copying of source files into a snapshot
    (diffkemp/llvm_ir/source_tree.py: copy_source_files; diffkemp/llvm_ir/llvm_module.py:
    move_to_other_root_dir, get_included_sources; diffkemp/snapshot.py: create_from_source).
    The file system is a dictionary from the components of absolute paths to texts.
    Simplified: no symbolic links; no carriage returns in the texts (Python would replace them);
    directories are not files, so that creating them (os.makedirs) does nothing here and always works. *)
From Coq Require Import String Ascii ZArith Arith Bool List.
From Verif Require Import PyBase Path_Model.
Import ListNotations.
Open Scope list_scope.

Fixpoint list_eqb {K} `{EqB K} (a b : list K) : bool :=
  match a, b with [], [] => true | x :: a', y :: b' => eqb x y && list_eqb a' b' | _, _ => false end.
Lemma list_eqb_spec {K} `{EqB K} (a b : list K) : reflect (a = b) (list_eqb a b).
Proof.
  revert b. induction a as [|x a IH]; intros [|y b]; cbn; try (constructor; congruence).
  destruct (eqb_spec x y) as [->|N]; cbn; [|constructor; congruence].
  destruct (IH b) as [->|N]; constructor; congruence.
Qed.
#[export] Instance EqB_list {K} `{EqB K} : EqB (list K) := {| eqb := list_eqb; eqb_spec := list_eqb_spec |}.

Definition files := dict (list string) string.
Definition newline : ascii := ascii_of_nat 10.
Definition quote : ascii := ascii_of_nat 34.
(** file.readlines() *)
Fixpoint lines (s : string) : list string :=
  match s with
  | EmptyString => []
  | String c t =>
    if Ascii.eqb c newline then String c "" :: lines t
    else match lines t with [] => [String c ""] | l :: ls => String c l :: ls end
  end.
(** str.strip("/") *)
Fixpoint strip_left (c : ascii) (s : string) : string :=
  match s with String d t => if Ascii.eqb d c then strip_left c t else s | EmptyString => s end.
Fixpoint strip_right (c : ascii) (s : string) : string :=
  match s with
  | EmptyString => s
  | String d t => match strip_right c t with EmptyString => if Ascii.eqb d c then EmptyString else String d "" | t' => String d t' end
  end.
Definition strip_char (c : ascii) (s : string) : string := strip_right c (strip_left c s).

(** ** llvm_module.py:178-193 get_included_sources *)
(** \s of a regular expression, without characters beyond ASCII *)
Definition is_space (c : ascii) : bool := let n := nat_of_ascii c in (Nat.leb 9 n && Nat.leb n 13) || (Nat.leb 28 n && Nat.leb n 32).
Fixpoint skip_spaces (s : string) : string := match s with String c t => if is_space c then skip_spaces t else s | EmptyString => s end.
Definition after (p s : string) : option string := if startswith s p then Some (drop (String.length p) s) else None.
(** All up to the next quotation mark, which has to be there. *)
Fixpoint until_quote (s : string) : option (string * string) :=
  match s with
  | EmptyString => None
  | String c t =>
    if Ascii.eqb c quote then Some (EmptyString, t)
    else match until_quote t with Some (a, b) => Some (String c a, b) | None => None end
  end.
Definition quoted (s : string) : option (string * string) :=
  match skip_spaces s with String c t => if Ascii.eqb c quote then until_quote t else None | EmptyString => None end.
(** llvm_module.py:184-185: the regular expression at a position *)
Definition match_here (s : string) : option (string * string) :=
  match after "filename:" s with
  | None => None
  | Some s1 =>
    match quoted s1 with
    | None => None
    | Some (f, s2) =>
      match after ", directory:" s2 with
      | None => None
      | Some s3 => match quoted s3 with Some (d, _) => Some (f, d) | None => None end
      end
    end
  end.
Fixpoint search (s : string) : option (string * string) :=
  match match_here s with
  | Some x => Some x
  | None => match s with String _ t => search t | EmptyString => None end
  end.
Definition included_by (line : string) : list string :=
  match search line with
  | Some (f, d) => if endswith f ".h" || endswith f ".c" then [path_join d f] else []
  | None => []
  end.
Definition included_sources (text : string) : list string := dedup (flat_map included_by (lines text)).

(** ** llvm_module.py:149-176 move_to_other_root_dir.  The attribute source is never set. *)
Definition moved_line (old_root new_root line : string) : string :=
  if contains line "constant" then line else replace (strip_char "/" old_root) (strip_char "/" new_root) line.
Definition moved_text (old_root new_root text : string) : string := String.concat "" (map (moved_line old_root new_root) (lines text)).

Section Copy.
  Variable cwd : string.
  Variable order : list string -> list string.   (* of the iteration over a set *)
  Definition place (p : string) : list string := abs_comps cwd p.

  (** Opening the file for writing makes it empty before it is read if it is the same. *)
  Definition move (old_root new_root : string) (f : files) (llvm : string) : res (files * string) :=
    if startswith llvm old_root then
      do rel <- relpath cwd llvm old_root;
      let dest := path_join new_root rel in
      match dget f (place llvm) with
      | None => Err FileNotFoundError
      | Some text =>
        let text := if eqb (place dest) (place llvm) then ""%string else text in
        Ok (dset f (place dest) (moved_text old_root new_root text), dest)
      end
    else Ok (f, llvm).

  (** source_tree.py:117-126, for one included source *)
  Definition copy_source (dir target : string) (f : files) (src : string) : res files :=
    if startswith src dir then
      do rel <- relpath cwd src dir;
      let dest := path_join target rel in
      if dmem f (place dest) then Ok f
      else match dget f (place src) with Some text => Ok (dset f (place dest) text) | None => Err FileNotFoundError end
    else Ok f.
  (** source_tree.py:109-129, for one module, given by its file *)
  Definition copy_module (dir target : string) (acc : files * list string) (llvm : string) : res (files * list string) :=
    let '(f, out) := acc in
    do rel <- relpath cwd llvm dir;
    match dget f (place llvm) with
    | None => Err FileNotFoundError
    | Some text =>
      do f1 <- fold_res (copy_source dir target) f (order (included_sources text));
      do (f2, llvm') <- move dir target f1 llvm;
      Ok (f2, out ++ [llvm'])
    end.
  (** source_tree.py:98-129 copy_source_files; the new files of the modules are returned, too. *)
  Definition copy_source_files (dir target : string) (f : files) (modules : list string) : res (files * list string) :=
    fold_res (copy_module dir target) (f, []) modules.

  (** snapshot.py:77-82: the output directory is removed and made again.  Simplified: its parent
      exists. *)
  Fixpoint within (d p : list string) : bool :=
    match d, p with [], _ => true | x :: d', y :: p' => String.eqb x y && within d' p' | _, [] => false end.
  Definition setup_dir (f : files) (out : string) : res files :=
    if dmem f (place out) then Err FileExistsError
    else Ok (filter (fun e => negb (within (place out) (fst e))) f).
End Copy.
