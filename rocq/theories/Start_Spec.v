(** * Specification of the start and the end of a comparison: which snapshots can be read and which directories belong to them *)
From Coq Require Import String ZArith Bool List.
From Verif Require Import PyBase Snapshot_Model Kernel_Spec Start_Model.
Import ListNotations.
Open Scope list_scope.

(** The snapshot in a directory has a description, its list can be read, and, if it was built with the compiler wrapper, the database of
    the wrapper is there. *)
Definition readable (d : disk) (cwd dir : string) (y : document) (fs : groups) : Prop :=
  d_yaml d dir = Some y /\ from_yaml cwd dir (y_kind y) (y_list y) = Ok fs /\
  (y_finder y = "wrapper_build_tree"%string -> exists l, d_wdb d dir = Some l).
(** The directory of a snapshot of the given kind, or the directory of its sources if there still is one *)
Definition belongs (d : disk) (kind dir x : string) : Prop :=
  exists y, d_yaml d dir = Some y /\ y_finder y = kind /\ (x = dir \/ (y_source y = Some x /\ d_isdir d x = true)).
Definition kernel_dir (d : disk) : string -> string -> Prop := belongs d "kernel_with_builder".
Definition wrapper_dir (d : disk) : string -> string -> Prop := belongs d "wrapper_build_tree".

(** The worlds that any runs, of any versions of LLVM, with any snapshots there are at that time, can lead to from the headers [h] *)
Inductive After (h : string -> option string) : world -> Prop :=
| After_none w : w_header w = h -> After h w
| After_run w d cwd llvm built custom comparison a r w' :
    After h w -> run d cwd llvm built custom comparison a w = (r, w') -> After h w'.
(** The headers do not have the replacement texts yet. *)
Definition original (h : string -> option string) : Prop :=
  forall x t, h x = Some t -> ~ inside "asm (""goto("" #x "")"")" t /\ ~ inside "#undef CONFIG_CC_HAS_ASM_INLINE // DiffKemp generated" t.
