(** * Model of how a comparison starts and ends: snapshots are opened, the configuration is made, the trees are finalised
    (diffkemp/cli.py:190-197 [run_from_cli]; diffkemp/diffkemp.py:355-374, 484-485 [compare]; diffkemp/config.py:111-205
    [Config.__init__], [from_args]; diffkemp/snapshot.py:86-121 [load_from_dir], [finalize], 177-243 [_from_yaml];
    diffkemp/llvm_ir/source_tree.py:18-34; diffkemp/llvm_ir/wrapper_build_finder.py:15-47;
    diffkemp/llvm_ir/kernel_llvm_source_builder.py:22-53).  The functions of a snapshot are those of Snapshot_Model, the headers of a
    kernel those of Kernel_Model, the settings of patterns those of Config_Model. *)
From Coq Require Import String ZArith Arith Bool List.
From Verif Require Import PyBase Path_Model Snapshot_Model Config_Model Kernel_Model.
Import ListNotations.
Open Scope list_scope.

(** snapshot.yaml (snapshot.py:262-281); the time and the version of DiffKemp are left out *)
Record document := mkDocument { y_version : Z; y_finder : string; y_source : option string; y_kind : string; y_list : ylist }.
(** What is only read: the description of the snapshot in a directory, which directories there are, and the functions in the object files
    that diffkemp-wdb in a directory lists.  Simplified: directories are given by absolute paths. *)
Record disk := mkDisk { d_yaml : string -> option document; d_isdir : string -> bool; d_wdb : string -> option (list string) }.
(** What is written: the compiler header and function_list of a directory ([None]: no such file).  Simplified: one header instead of two. *)
Record world := mkWorld { w_header : string -> option string; w_functions : string -> option (list string) }.
Definition upd {A} (f : string -> A) (k : string) (v : A) : string -> A := fun x => if String.eqb x k then v else f x.

(** kernel_llvm_source_builder.py:45-53 [initialize], [finalize]; wrapper_build_finder.py:28-44 [initialize] *)
Definition prepare (dir : string) (w : world) : world := mkWorld (upd (w_header w) dir (on_header disable_header (w_header w dir))) (w_functions w).
Definition restore (dir : string) (w : world) : world := mkWorld (upd (w_header w) dir (on_header enable_header (w_header w dir))) (w_functions w).
Definition write_list (dir : string) (l : list string) (w : world) : world := mkWorld (w_header w) (upd (w_functions w) dir (Some l)).

(** A source tree with its finder *)
Inductive tree := Plain (dir : string) | Kernel (dir : string) | Wrapper (dir : string) (functions : list string).
(** source_tree.py:26-28 [finalize]; wrapper_build_finder.py:46-47 *)
Definition finalize_tree (t : tree) (w : world) : world := match t with Kernel dir => restore dir w | _ => w end.
(** source_tree.py:30-34 [clone_to_dir]: the finder is made again for the other directory, which initialises it *)
Definition clone (t : tree) (dir : string) (w : world) : tree * world :=
  match t with
  | Plain _ => (Plain dir, w)
  | Kernel _ => (Kernel dir, prepare dir w)
  | Wrapper _ l => (Wrapper dir l, write_list dir l w)
  end.

Record opened := mkOpened { o_tree : tree; o_source : option tree; o_funs : groups }.
(** Why a run stops: an exception, an exit with a code, or the semantic tool is not built (ConfigException) *)
Inductive stop := Raised (e : exn) | Exit (code : Z) | Not_built.

Record arguments := mkArguments {
  a_old : string; a_new : string; a_out : option string; a_stdout : bool; a_function : option string; a_patterns : list popt;
  a_custom : option string; a_show : bool; a_no_show : bool; a_verbose : nat; a_debug : nat; a_no_ffi : bool; a_semdiff : bool }.
Record config := mkConfig {
  c_first : opened; c_second : opened; c_settings : dict string bool; c_show : bool; c_verbosity : nat; c_ffi : bool }.

Section Run.
  Context (d : disk) (cwd : string) (llvm : Z) (llreve_built : bool).
  (** What becomes of a file of custom patterns (Config_Model) and of the comparison itself (Compare_Model): an exception or none. *)
  Context (custom : string -> option exn) (comparison : config -> option exn).

  (** snapshot.py:192-204: the finder of the snapshot *)
  Definition open_tree (dir : string) (y : document) (w : world) : res tree * world :=
    if String.eqb (y_finder y) "kernel_with_builder" then (Ok (Kernel dir), prepare dir w)
    else if String.eqb (y_finder y) "wrapper_build_tree"
    then match d_wdb d dir with Some l => (Ok (Wrapper dir l), write_list dir l w) | None => (Err FileNotFoundError, w) end
    else (Ok (Plain dir), w).
  (** snapshot.py:206-218: the source tree, if its directory is still there *)
  Definition open_source (t : tree) (y : document) (w : world) : option tree * world :=
    match y_source y with
    | Some s => if d_isdir d s then let (t', w') := clone t s w in (Some t', w') else (None, w)
    | None => (None, w)
    end.
  (** snapshot.py:86-114 [load_from_dir] with 177-243 [_from_yaml] *)
  Definition load (dir : string) (w : world) : (stop + opened) * world :=
    match d_yaml d dir with
    | None => (inl (Raised FileNotFoundError), w)
    | Some y =>
      match open_tree dir y w with
      | (Err e, w1) => (inl (Raised e), w1)
      | (Ok t, w1) =>
        let (s, w2) := open_source t y w1 in
        match from_yaml cwd dir (y_kind y) (y_list y) with
        | Err e => (inl (Raised e), w2)
        | Ok fs => if Z.eqb llvm (y_version y) then (inr (mkOpened t s fs), w2) else (inl (Exit 22), w2)
        end
      end
    end.
  (** config.py:175-177: [if args.function]; an empty name counts as none *)
  Definition chosen (f : option string) (o : opened) : res opened :=
    match truthy f with
    | Some n => do fs <- filter_funs (o_funs o) [n] None; Ok (mkOpened (o_tree o) (o_source o) fs)
    | None => Ok o
    end.
  (** cli.py:195-196 *)
  Definition verbosity (verbose debug : nat) : nat := if Nat.eqb verbose 0 && Nat.eqb debug 0 then verbose else S debug.
  (** config.py:163-205 [from_args], 150-161 [__init__]; [settings]: what comes of the pattern options *)
  Definition from_args (a : arguments) (settings : dict string bool) (w : world) : (stop + config) * world :=
    match load (a_old a) w with
    | (inl s, w1) => (inl s, w1)
    | (inr first, w1) =>
      match load (a_new a) w1 with
      | (inl s, w2) => (inl s, w2)
      | (inr second, w2) =>
        match chosen (a_function a) first, chosen (a_function a) second with
        | Ok f, Ok s =>
          match match truthy (a_custom a) with Some p => custom p | None => None end with
          | Some e => (inl (Raised e), w2)
          | None =>
            if a_semdiff a && negb llreve_built then (inl Not_built, w2)
            else (inr (mkConfig f s settings (negb (a_no_show a) || a_show a) (verbosity (a_verbose a) (a_debug a)) (negb (a_no_ffi a))), w2)
          end
        | Err e, _ => (inl (Raised e), w2)
        | _, Err e => (inl (Raised e), w2)
        end
      end
    end.
  (** snapshot.py:116-121 [finalize] *)
  Definition finalize (o : opened) (w : world) : world :=
    finalize_tree (o_tree o) (match o_source o with Some t => finalize_tree t w | None => w end).
  (** cli.py:190-197; diffkemp.py:355-374, 484-497 [compare]: argparse refuses unknown patterns with exit code 2, an output directory that
      is there already is refused with EEXIST *)
  Definition run (a : arguments) (w : world) : option stop * world :=
    match builtin_patterns (a_patterns a) with
    | Err _ => (Some (Exit 2), w)
    | Ok settings =>
      if negb (a_stdout a) && match truthy (a_out a) with Some o => d_isdir d o | None => false end then (Some (Exit 17), w)
      else
        match from_args a settings w with
        | (inl s, w1) => (Some s, w1)
        | (inr c, w1) =>
          match comparison c with
          | Some e => (Some (Raised e), w1)
          | None => (None, finalize (c_second c) (finalize (c_first c) w1))
          end
        end
    end.
End Run.
