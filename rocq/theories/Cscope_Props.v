(** * C153-C155: the index of kernel sources *)
From Coq Require Import String Arith Bool Lia List.
From Verif Require Import PyBase Cscope_Model Cscope_Spec Cscope_Proofs.
Import ListNotations.
Open Scope list_scope.

(** C153: which files are in the index. *)
Theorem C153_indexed source_dir es path :
  In path (listed source_dir es) <-> exists e, In e es /\ path = path_of e /\ in_index source_dir e.
Proof.
  unfold listed. rewrite in_map_iff. split.
  - intros (e & <- & H). apply filter_In in H. destruct H as [H W]. exists e. split; [exact H|]. split; [reflexivity|]. apply wanted_iff. exact W.
  - intros (e & H & -> & W). exists e. split; [reflexivity|]. apply filter_In. split; [exact H|]. apply wanted_iff. exact W.
Qed.
Print Assumptions C153_indexed.

(** C153: the index of a kernel in a directory with /tmp in its path is empty. *)
Theorem C153_tmp source_dir es : part_of "/tmp" source_dir -> listed source_dir es = [].
Proof.
  intros (a & b & ->). unfold listed. apply (f_equal (map rel_path) (y := [])).
  induction es as [|e es IH]; [reflexivity|]. cbn [filter].
  destruct (wanted_file _ e) eqn:W; [|exact IH]. exfalso. apply wanted_iff in W. destruct W as (_ & _ & W & _). apply W.
  destruct (String.eqb (e_sub e) ""); [exists a, b; reflexivity|]. exists a, (b ++ "/" ++ e_sub e)%string.
  rewrite !app_assoc_s. reflexivity.
Qed.
Print Assumptions C153_tmp.

Section Claims.
  Variable sources : Type.
  Variable files_of : sources -> list entry.
  Variable data : Type.
  Variable index : sources -> list string -> data.
  Variable query : data -> string -> bool -> option (list (string * string)).
  Variable source_dir : string.
  Notation run := (run sources files_of data index query source_dir).

  (** C154: unless the tool is killed, all searches of all runs use the index made at the first one. *)
  Theorem C154_answers x es :
    (forall e, In e es -> ~ killed sources e) ->
    run (fresh sources data x) es = answers sources files_of data index query source_dir x None es.
  Proof.
    intros K. apply (run_answers sources files_of data index query source_dir es (fresh sources data x)); [exact K|].
    split; [reflexivity|]. split; [cbn; tauto|]. cbn. discriminate.
  Qed.

  (** C155: after the tool was killed while it made the index, no search of any run finds anything. *)
  Theorem C155_killed x es k es' :
    no_index_made sources es -> (forall e, In e es -> ~ killed sources e) ->
    exists before after, run (fresh sources data x) (es ++ Killed k :: es') = before ++ after /\
      before = run (fresh sources data x) es /\ Forall (fun a => a = Found []) after.
  Proof.
    intros N K. destruct (run_app sources files_of data index query source_dir es (Killed k :: es') (fresh sources data x)) as (s & R & P).
    destruct P as (F & D & C); [cbn; auto|]. do 2 eexists. split; [exact R|]. split; [reflexivity|].
    apply Forall_forall. cbn [Cscope_Model.run Cscope_Model.step]. rewrite F.
    apply (dead sources files_of data index query source_dir es'); [cbn; discriminate|exact D|reflexivity].
  Qed.
End Claims.
Print Assumptions C154_answers.
Print Assumptions C155_killed.

(** ** Cases *)
Definition tree (n : nat) : list entry :=
  [mkEntry "" "main.c" false; mkEntry "Documentation" "a.c" false; mkEntry "Documentation/x" "b.c" false;
   mkEntry "kernel" "link.c" true; mkEntry "kernel" (if Nat.eqb n 0 then "old.c" else "new.c") false; mkEntry "kernel" "x.h" false;
   mkEntry "mm/tmp" "c.c" false]%string.
Example C153_example :
  listed "/src/linux" (tree 0) = ["main.c"; "Documentation/a.c"; "kernel/old.c"; "kernel/x.h"]%string.
Proof. reflexivity. Qed.
Example C153_tmp_example : part_of "/tmp" "/var/tmp/linux" /\ listed "/var/tmp/linux" (tree 0) = [].
Proof. split; [exists "/var"%string, "/linux"%string; reflexivity|reflexivity]. Qed.
(** Lines are the names of files in the index; a search cannot make an index, the next one can, then the sources change and the tool is
    started again. *)
Definition lines_of (d : list string) (s : string) (b : bool) : option (list (string * string)) := Some (map (fun f => (f, s)) d).
Example C154_example :
  Cscope_Model.run nat tree (list string) (fun _ l => l) lines_of "/src"
    (fresh nat (list string) 0) [Search "f" true false; Search "f" true true; Change 1; Restart; Search "f" true false] =
  [Not_built; Found [("main.c", "f"); ("Documentation/a.c", "f"); ("kernel/old.c", "f")];
   Found [("main.c", "f"); ("Documentation/a.c", "f"); ("kernel/old.c", "f")]]%string.
Proof. reflexivity. Qed.
Example C155_example :
  Cscope_Model.run nat tree (list string) (fun _ l => l) lines_of "/src"
    (fresh nat (list string) 0) [Search "f" true false; Killed 2; Search "f" true true; Restart; Search "f" true true] =
  [Not_built; Found []; Found []]%string.
Proof. reflexivity. Qed.
