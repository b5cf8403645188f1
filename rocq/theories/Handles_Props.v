(** * Properties of the lifetime of modules behind Python objects (C163) *)
From Coq Require Import Arith Bool Lia List.
From Verif Require Import Handles_Model Handles_Spec Handles_Proof.
Import ListNotations.
Open Scope list_scope.

(** Every operation on a module or on a table of sysctls works with the module that its object was
    loaded as, and this was not freed before: also when addresses are used again. *)
Theorem C163_access es o m got before :
  happened (log (run es)) (Access o m got) before -> exists n, got = Some n /\ stands before m n.
Proof.
  intros [later E]. destruct (good_split _ _ _ _ (i_good _ (run_inv es)) E) as [H _]. exact H.
Qed.

(** An operation on a function works with the module the function was taken from, not freed; the
    function is still in it, unless it was erased. *)
Theorem C163_function es o m got f present before :
  happened (log (run es)) (FunAccess o m got f present) before ->
  exists n, got = Some n /\ stands before m n /\ (present = true \/ In (Erase n f) before).
Proof.
  intros [later E]. destruct (good_split _ _ _ _ (i_good _ (run_inv es)) E) as [H _]. exact H.
Qed.

(** Without preparation of modules functions are always there. *)
Theorem C163_unprepared es o m got f present :
  (forall e, In e es -> ~ preprocesses e) -> In (FunAccess o m got f present) (log (run es)) -> present = true.
Proof.
  intros He Hi. apply in_split in Hi. destruct Hi as (later & before & E).
  destruct (C163_function es o m got f present before) as (n & _ & _ & [?|Hr]); [exists later; auto | auto |].
  exfalso. apply (run_erase es n f He). rewrite E. apply in_or_app. right. right. auto.
Qed.

(** Wish refuted: a function that a variable refers to is always in its module.  The preparation erases
    functions (functions with numbers are merged), and the object does not notice. *)
Theorem C163_function_refuted :
  exists es o m got f, In (FunAccess o m got f false) (log (run es)).
Proof.
  exists [Load 7 [1; 2]; GetFunction 0 2; Preprocess 0 [2]; AskFunction 1], 1, 0, (Some 0), 2. vm_compute. auto.
Qed.

(** A module is freed at most once, after it was loaded and while its context exists; an object is
    loaded once, as a loading of its own. *)
Theorem C163_once es n b before :
  happened (log (run es)) (Freed n b) before ->
  b = true /\ (forall b', ~ In (Freed n b') before) /\ exists o, In (Born o n) before.
Proof.
  intros [later E]. destruct (good_split _ _ _ _ (i_good _ (run_inv es)) E) as [H _]. exact H.
Qed.

Theorem C163_own es o n before :
  happened (log (run es)) (Born o n) before ->
  (forall n', ~ In (Born o n') before) /\ (forall o', ~ In (Born o' n) before).
Proof.
  intros [later E]. destruct (good_split _ _ _ _ (i_good _ (run_inv es)) E) as [H _]. simpl in H. tauto.
Qed.

(** A module is kept as long as a variable refers to it, to a function of it or to a table of it. *)
Theorem C163_kept es m n b :
  reachable (run es) m -> In (Born m n) (log (run es)) -> ~ In (Freed n b) (log (run es)).
Proof.
  intros Hr Hb Hf. pose proof (run_inv es) as H. set (s := run es) in *.
  assert (Hm : exists x, objs s m = Some x).
  { destruct Hr as [Hv|(o & n' & f & p & _ & [Ho|Ho])].
    - eapply i_vars; eauto.
    - destruct (i_fun s H _ _ _ _ Ho) as (a & ? & ? & ? & _). eauto.
    - destruct (i_tab s H _ _ _ Ho) as (a & ? & ? & _). eauto. }
  destruct Hm as [x Hx]. destruct (i_born s H _ _ Hb) as (_ & _ & [(a & Ho & Ha & Hn)|[Hno _]]); [|congruence].
  destruct (i_mod s H _ _ Ho Ha) as (n' & fs & E & Hl & _). rewrite Hn in E. injection E as <-.
  destruct (i_freed s H _ _ Hf). congruence.
Qed.

(** After any history Python can collect objects so that every loaded module is freed that no variable
    leads to; when there are no variables, nothing is left of modules, contexts and tables. *)
Theorem C163_released es :
  exists cs, collects cs /\ vars (run (es ++ cs)) = vars (run es) /\
    (forall m n, In (Born m n) (log (run (es ++ cs))) ->
       reachable (run (es ++ cs)) m \/ In (Freed n true) (log (run (es ++ cs)))) /\
    (vars (run es) = [] ->
       (forall a, modules (run (es ++ cs)) a = None) /\ (forall a, contexts (run (es ++ cs)) a = false) /\
       (forall p, tables (run (es ++ cs)) p = None) /\ (forall o, objs (run (es ++ cs)) o = None)).
Proof.
  exists (sweep (next (run es))). split; [apply sweep_collects|].
  assert (E : run (es ++ sweep (next (run es))) = fold_left step (sweep (next (run es))) (run es)).
  { unfold run. apply fold_left_app. }
  rewrite E. destruct (sweep_settled (next (run es)) (run es) (run_inv es) (settled_start _ (run_inv es))) as (H & Hs & Hv & _).
  cbv zeta in *. set (s := fold_left step _ _) in *. split; auto. split.
  - intros m n Hb. destruct (i_born s H _ _ Hb) as (_ & _ & [(a & Ho & _)|[_ [b Hf]]]).
    + left. eapply settled_reachable; eauto.
    + right. pose proof Hf as Hf'. apply in_split in Hf'. destruct Hf' as (later & before & El).
      destruct (good_split _ _ _ _ (i_good _ H) El) as [[-> _] _]. auto.
  - intros Hv0. rewrite Hv0 in Hv. pose proof (settled_novars s H Hs Hv) as Hno. repeat split; auto.
    + intros a. destruct (modules s a) eqn:Ea; auto. destruct (i_has s H _ _ Ea) as (_ & _ & o & Ho). rewrite Hno in Ho. discriminate.
    + intros a. destruct (contexts s a) eqn:Ea; auto. destruct (i_ctx s H _ Ea) as (o & Ho). rewrite Hno in Ho. discriminate.
    + intros p. destruct (tables s p) eqn:Ep; auto. destruct (i_tabs s H _ _ Ep) as (o & m & Ho). rewrite Hno in Ho. discriminate.
Qed.

(** Every operation on an object in use is in the history: what is said above is said of all of them. *)
Theorem C163_seen es m a x : let s := run es in
  In m (vars s) -> objs s m = Some (PMod a) ->
  (exists f, x = GetFunction m f) \/ x = AskModule m \/ (exists gone, x = Preprocess m gone) ->
  exists got, happened (log (step s x)) (Access m m got) (log s).
Proof.
  intros s Hv Ho Hx. assert (Hh : held s m = Some (PMod a)) by (unfold held; rewrite (proj2 (mem_in _ _) Hv); auto).
  destruct Hx as [[f ->]|[->|[gone ->]]]; simpl; rewrite Hh; exists (modules s a).
  - exists []. rewrite (proj1 (give_log _ _ _ _)). reflexivity.
  - exists []. reflexivity.
  - unfold at_module. destruct (modules s a) as [n|]; [|exists []; reflexivity].
    unfold erase_functions. simpl. destruct (live s n) as [fs|]; [|exists []; reflexivity].
    eexists. simpl. reflexivity.
Qed.

Theorem C163_seen_function es o m n f x : let s := run es in
  In o (vars s) -> objs s o = Some (PFun m n f) -> x = AskFunction o \/ (exists gs, x = Called o gs) ->
  exists got present, happened (log (step s x)) (FunAccess o m got f present) (log s).
Proof.
  intros s Hv Ho Hx. assert (Hh : held s o = Some (PFun m n f)) by (unfold held; rewrite (proj2 (mem_in _ _) Hv); auto).
  destruct Hx as [->|[gs ->]]; simpl; rewrite Hh; eexists; eexists; exists [].
  - reflexivity.
  - rewrite (proj1 (give_log _ _ _ _)). reflexivity.
Qed.

Theorem C163_seen_table es t m p x : let s := run es in
  In t (vars s) -> objs s t = Some (PTab m p) -> x = Sysctls t \/ x = Param t \/ (exists f, x = ProcFun t f) ->
  exists got, happened (log (step s x)) (Access t m got) (log s).
Proof.
  intros s Hv Ho Hx. assert (Hh : held s t = Some (PTab m p)) by (unfold held; rewrite (proj2 (mem_in _ _) Hv); auto).
  destruct Hx as [->|[->|[f ->]]]; simpl; rewrite Hh; eexists; exists []; try reflexivity.
  rewrite (proj1 (give_log _ _ _ _)). reflexivity.
Qed.

(** Loading gives a new object in use; asking for a function gives one exactly if it is in the module. *)
Theorem C163_loaded es a fs : let s := run es in
  a <> 0 -> (forall o, objs s o <> Some (PMod a)) ->
  let s' := step s (Load a fs) in
  exists n, log s' = Born (next s) n :: log s /\ objs s' (next s) = Some (PMod a) /\ vars s' = next s :: vars s /\
            live s' n = Some fs.
Proof.
  intros s Ha Hn s'. pose proof (run_inv es) as H. fold s in H. exists (loads s). subst s'. simpl. unfold load_module.
  rewrite (proj2 (Nat.eqb_neq a 0) Ha). destruct (modules s a) eqn:E.
  - exfalso. destruct (i_has s H _ _ E) as (_ & _ & o & Ho). eapply Hn; eauto.
  - simpl. rewrite !upd_same. auto.
Qed.

Theorem C163_functions es m a f : let s := run es in
  In m (vars s) -> objs s m = Some (PMod a) ->
  exists n fs, In (Born m n) (log s) /\ live s n = Some fs /\
    let s' := step s (GetFunction m f) in
    (In f fs -> objs s' (next s) = Some (PFun m n f) /\ vars s' = next s :: vars s) /\
    (~ In f fs -> objs s' = objs s /\ vars s' = vars s).
Proof.
  intros s Hv Ho. pose proof (run_inv es) as H. fold s in H.
  destruct (i_mod s H _ _ Ho (i_null s H _ _ Ho Hv)) as (n & fs & En & Hl & _ & Hb).
  exists n, fs. split; auto. split; auto. simpl.
  assert (Hh : held s m = Some (PMod a)) by (unfold held; rewrite (proj2 (mem_in _ _) Hv); auto).
  rewrite Hh. unfold at_module. rewrite En. unfold give. simpl. rewrite Hl. split; intros Hf.
  - rewrite (proj2 (mem_in _ _) Hf). simpl. rewrite upd_same. auto.
  - rewrite (proj2 (mem_out _ _) Hf). simpl. auto.
Qed.

(** Two module objects in use are equal (library.py:38-39: equal pointers) only if they are the same. *)
Theorem C163_equal es o o' a a' :
  let s := run es in
  In o (vars s) -> In o' (vars s) -> objs s o = Some (PMod a) -> objs s o' = Some (PMod a') -> (a = a' <-> o = o').
Proof.
  intros s Hv Hv' Ho Ho'. pose proof (run_inv es) as H. fold s in H. split.
  - intros <-. eapply i_one; eauto. eapply i_null; eauto.
  - intros <-. congruence.
Qed.

(** Arrays given to Python are freed if nobody asks for the child or the data of a sysctl. *)
Theorem C163_arrays es : (forall e, In e es -> ~ asks_param e) -> arrays (run es) = 0.
Proof. apply run_arrays. Qed.

(** Wish refuted: when everything was dropped and collected, no memory is left.  The indices of the child
    or the data of a sysctl are never freed. *)
Theorem C163_arrays_refuted : exists es, vars (run es) = [] /\ (forall o, objs (run es) o = None) /\ arrays (run es) = 2.
Proof.
  exists [Load 7 []; Table 0 3; Param 1; Param 1; Drop 0; Drop 1; Collect 1; Collect 0].
  split; [vm_compute; reflexivity|]. split; [|vm_compute; reflexivity].
  intros o. cbn. unfold upd. destruct o as [|[|o]]; reflexivity.
Qed.

(** The module is dropped but its function keeps it; the address is used again after it was freed, for
    another module with its own function. *)
Definition story : list event :=
  [Load 0 []; Load 7 [1; 2]; GetFunction 1 1; Drop 1; Collect 1; AskFunction 2; Called 2 [2; 5]; Drop 2; Drop 3;
   Collect 3; Collect 2; Collect 1; Collect 0; Load 7 [4]; Table 4 9; Drop 4; Collect 4; ProcFun 5 4; Sysctls 5;
   Drop 5; AskFunction 6; ModuleOf 6; Drop 6; Collect 6; Collect 5; AskModule 4].
Example C163_example :
  rev (log (run story)) =
  [Born 1 0; Access 1 1 (Some 0); FunAccess 2 1 (Some 0) 1 true; FunAccess 2 1 (Some 0) 1 true; Freed 0 true;
   Born 4 1; Access 4 4 (Some 1); Access 5 4 (Some 1); Access 5 4 (Some 1); FunAccess 6 4 (Some 1) 4 true;
   Access 4 4 (Some 1)].
Proof. vm_compute. reflexivity. Qed.
Example C163_example_reachable : reachable (run story) 4 /\ vars (run story) = [4].
Proof. vm_compute. auto. Qed.

Print Assumptions C163_access.
Print Assumptions C163_function.
Print Assumptions C163_unprepared.
Print Assumptions C163_function_refuted.
Print Assumptions C163_once.
Print Assumptions C163_own.
Print Assumptions C163_kept.
Print Assumptions C163_released.
Print Assumptions C163_equal.
Print Assumptions C163_arrays.
Print Assumptions C163_arrays_refuted.
Print Assumptions C163_seen.
Print Assumptions C163_seen_function.
Print Assumptions C163_seen_table.
Print Assumptions C163_loaded.
Print Assumptions C163_functions.
