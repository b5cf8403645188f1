(** * Properties of the comparison of two functions (C93-C101) *)
From Coq Require Import String Ascii ZArith Arith Bool Lia List.
From Verif Require Import PyBase Funcomp_Model Funcomp_Spec Funcomp_Log Funcomp_Sim Funcomp_Fuel Funcomp_Copy Funcomp_Check Funcomp_Straight Funcomp_Reorder Funcomp_Loads Funcomp_Inverse Funcomp_Visible Funcomp_Skip Funcomp_Walk Funcomp_Numbers.
Import ListNotations.
Open Scope string_scope.
Open Scope list_scope.
Open Scope nat_scope.

(** ** The functions of the examples *)
Definition settings (rel inv reo grp cst : bool) : world :=
  mkWorld String.eqb const_eqb (fun _ _ _ => false) (fun _ => true) (fun _ => false) (fun p => p) rel inv reo grp cst.
Definition strict := settings false false false false false.
Definition relocs := settings true false false false false.
Definition int z := VConst (CInt z).
Definition call r g args := mkInst r Call "" (args ++ [VConst (CGlobal g)]).
Definition load r p := mkInst r Load "" [p].
Definition store r v p := mkInst r Store "" [v; p].
Definition br r b := mkInst r Br "" [VBlock b].
Definition cbr r c t f := mkInst r Br "" [c; VBlock f; VBlock t].
Definition ret r l := mkInst r Ret "" l.
Definition phi r l := mkInst r (Phi (map snd l)) "" (map fst l).
Definition gep r p z := mkInst r (Gep (Some z)) "" [p; int z].
Definition cast r v := mkInst r (Cast true) "" [v].
Definition debug r := mkInst r Debug "" [].

Lemma settings_exact rel inv reo grp cst : exact (settings rel inv reo grp cst).
Proof. split; cbn; intros a b H; [apply String.eqb_eq; exact H|]. destruct (const_eqb_spec a b); [assumption|discriminate]. Qed.

(** ** C93: a function is found equal to a copy of it *)

(** Whatever the settings, a function compared with a copy of it, in which the instructions and
    the blocks have other names, other debug information and another order of the blocks, is
    found equal: from some number of steps on, that is the answer. *)
Theorem C93_copy_equal w fl fr reg blk :
  well_formed fl -> well_formed fr -> copy reg blk fl fr ->
  (forall r, same_rest w r r = true) -> (forall c, same_const w c c = true) ->
  (forall i, In i (insts fl) -> safe_cast w (rename_inst reg blk i) = safe_cast w i) ->
  (forall b c, reach fl c -> edge fl b c -> reach fl b) ->
  exists N s, forall n, N <= n -> compare w fl fr n = Some (true, s).
Proof. apply compare_copy. Qed.
Print Assumptions C93_copy_equal.

(** Whenever there is an answer, it is that one. *)
Theorem C93_copy_never_differs w fl fr reg blk n b s :
  well_formed fl -> well_formed fr -> copy reg blk fl fr ->
  (forall r, same_rest w r r = true) -> (forall c, same_const w c c = true) ->
  (forall i, In i (insts fl) -> safe_cast w (rename_inst reg blk i) = safe_cast w i) ->
  (forall b c, reach fl c -> edge fl b c -> reach fl b) ->
  compare w fl fr n = Some (b, s) -> b = true.
Proof.
  intros WL WR CP R C SC AR H. destruct (compare_copy w fl fr reg blk WL WR CP R C SC AR) as [N [s' E]].
  pose proof (compare_one w fl fr n N _ _ H (E N (le_n _))) as Q. injection Q as -> _. reflexivity.
Qed.
Print Assumptions C93_copy_never_differs.

(** More steps do not change an answer. *)
Theorem C93_answer_stays w fl fr n m x : n <= m -> compare w fl fr n = Some x -> compare w fl fr m = Some x.
Proof. apply compare_le. Qed.
Print Assumptions C93_answer_stays.

(** A loop with a PHI node and a cast, and its copy. *)
Definition loop := mkFunc "i32 (i32*)" 1
  [(0, [cast 0 (VArg 0); br 1 1]);
   (1, [phi 2 [(int 0, 0); (VReg 4, 1)]; load 3 (VReg 0); call 4 "f" [VReg 3; VReg 2]; debug 9; cbr 5 (VReg 4) 1 2]);
   (2, [ret 6 [VReg 2]])].
Definition loop_copy := mkFunc "i32 (i32*)" 1
  [(5, [debug 3; cast 10 (VArg 0); br 11 6]);
   (7, [ret 16 [VReg 12]]);
   (6, [phi 12 [(int 0, 5); (VReg 14, 6)]; load 13 (VReg 10); call 14 "f" [VReg 13; VReg 12]; cbr 15 (VReg 14) 6 7])].
Definition all_reached (f : func) : Prop := forall b c, reach f c -> edge f b c -> reach f b.
Lemma reach_succ f b l c : reach f b -> dget (f_blocks f) b = Some l -> In c (succs l) -> reach f c.
Proof. intros R G I. eapply reach_step; [exact R|]. apply edge_succs. exists l. auto. Qed.
Lemma loop_wf : well_formed loop.
Proof. apply (check_sound loop (table [(1, [0]); (2, [0; 2; 3; 4])])). reflexivity. Qed.
Lemma loop_copy_wf : well_formed loop_copy.
Proof. apply (check_sound loop_copy (table [(6, [10]); (7, [10; 12; 13; 14])])). reflexivity. Qed.
Lemma loop_is_copied : copy (Nat.add 10) (Nat.add 5) loop loop_copy.
Proof.
  split; [intros x y H; lia|]. split; [intros x y H; lia|]. split; [reflexivity|]. split; [reflexivity|]. split; [reflexivity|].
  intros b l G. destruct b as [|[|[|b]]]; try (cbn in G; injection G as <-; eexists; split; reflexivity). discriminate G.
Qed.
Lemma loop_reached : all_reached loop.
Proof.
  intros b c _ E. apply edge_succs in E. destruct E as [l [G _]].
  assert (R1 : reach loop 1) by (apply (reach_succ loop 0 [cast 0 (VArg 0); br 1 1]); [constructor|reflexivity|left; reflexivity]).
  destruct b as [|[|[|b]]]; [constructor|exact R1| |discriminate G]. eapply (reach_succ loop 1); [exact R1|reflexivity|right; left; reflexivity].
Qed.
Example C93_ex : exists s, compare (settings true true true true true) loop loop_copy 40 = Some (true, s).
Proof. eexists. vm_compute. reflexivity. Qed.
Example C93_ex_hypotheses : forall n b s, compare strict loop loop_copy n = Some (b, s) -> b = true.
Proof.
  intros n b s. apply (C93_copy_never_differs strict loop loop_copy (Nat.add 10) (Nat.add 5)); [exact loop_wf|exact loop_copy_wf|exact loop_is_copied|apply String.eqb_refl| |reflexivity|exact loop_reached].
  intros c. cbn. destruct (const_eqb_spec c c); congruence.
Qed.
(** A real difference is found. *)
Example C93_ex_differs : exists s, compare strict loop
  (mkFunc "i32 (i32*)" 1 [(5, [cast 10 (VArg 0); br 11 6]); (7, [ret 16 [VReg 12]]);
    (6, [phi 12 [(int 1, 5); (VReg 14, 6)]; load 13 (VReg 10); call 14 "f" [VReg 13; VReg 12]; cbr 15 (VReg 14) 6 7])]) 40 = Some (false, s).
Proof. eexists. vm_compute. reflexivity. Qed.

(** ** C94: functions found equal do the same *)

(** If two functions are found equal and the comparison made no exception other than taking the
    operand of a cast or of a GEP by zeros in its place, they do the same: for every meaning of
    the instructions in which what compares equal means the same, for all arguments and
    memories, and after any number of blocks, they have both returned the same with the same
    memory, both got stuck, or both go on with the same memory. *)
Theorem C94_equal_same_runs w fl fr n s S : well_formed fl -> well_formed fr -> lawful w S fl fr ->
  compare w fl fr n = Some (true, s) -> (forall e, In e (log s) -> e = Replaced) ->
  forall args steps m, result S (constL S) args fl steps m = result S (constR S) args fr steps m.
Proof. apply compare_sound. Qed.
Print Assumptions C94_equal_same_runs.

(** Without patterns, functions of one block without loads, casts, allocations and GEPs by zeros
    that are found equal do the same; nothing is asked of the course of the comparison. *)
Theorem C94_straight_same_runs w fl fr n s S : well_formed fl -> well_formed fr -> lawful w S fl fr ->
  straight fl -> straight fr -> patterns_off w ->
  compare w fl fr n = Some (true, s) ->
  forall args steps m, result S (constL S) args fl steps m = result S (constR S) args fr steps m.
Proof.
  intros WL WR LAW SL SR OFF H. eapply compare_sound; [exact WL|exact WR|exact LAW|exact H|].
  exact (straight_tame w fl fr WL WR SL SR OFF n s H).
Qed.
Print Assumptions C94_straight_same_runs.

(** The loop with its cast no longer used: a difference, with the same effect. *)
Definition loop_uncast := mkFunc "i32 (i32*)" 1
  [(0, [cast 7 (VArg 0); br 1 1]);
   (2, [ret 6 [VReg 2]]);
   (1, [phi 2 [(int 0, 0); (VReg 4, 1)]; load 3 (VArg 0); call 4 "f" [VReg 3; VReg 2]; cbr 5 (VReg 4) 1 2])].
Example C94_ex : well_formed loop /\ well_formed loop_uncast /\ lawful strict ex_sem loop loop_uncast /\
  exists s, compare strict loop loop_uncast 40 = Some (true, s) /\ log s = [Replaced; Replaced].
Proof.
  split; [exact loop_wf|]. split; [apply (check_sound loop_uncast (table [(1, [7]); (2, [7; 2; 3; 4])])); reflexivity|].
  split; [apply ex_lawful; [apply settings_exact|apply simpleb_sound; reflexivity|apply simpleb_sound; reflexivity]|].
  eexists. split; [vm_compute; reflexivity|reflexivity].
Qed.
(** GEPs with the same offset, and a return of the result of a call. *)
Definition straight1 := mkFunc "" 2 [(0, [gep 0 (VArg 0) 8; store 1 (VArg 1) (VReg 0); call 2 "f" [VReg 0]; ret 3 [VReg 2]])].
Definition straight2 := mkFunc "" 2 [(4, [gep 7 (VArg 0) 8; debug 1; store 5 (VArg 1) (VReg 7); call 6 "f" [VReg 7]; ret 3 [VReg 6]])].

Example C94_ex_straight : straight straight1 /\ straight straight2 /\ patterns_off strict /\
  well_formed straight1 /\ well_formed straight2 /\ lawful strict ex_sem straight1 straight2 /\
  exists s, compare strict straight1 straight2 20 = Some (true, s).
Proof.
  split; [|split; [|split; [|split; [|split; [|split]]]]].
  - exists 0. eexists. split; [reflexivity|]. intros i I. cbn in I. repeat (destruct I as [<-|I]; [first [exact Logic.I|intros [_ Z]; specialize (Z _ (or_introl eq_refl)); discriminate]|]). destruct I.
  - exists 4. eexists. split; [reflexivity|]. intros i I. cbn in I. repeat (destruct I as [<-|I]; [first [exact Logic.I|intros [_ Z]; specialize (Z _ (or_introl eq_refl)); discriminate]|]). destruct I.
  - repeat split.
  - apply (check_sound straight1 (table [])). reflexivity.
  - apply (check_sound straight2 (table [])). reflexivity.
  - apply ex_lawful; [apply settings_exact|apply simpleb_sound; reflexivity|apply simpleb_sound; reflexivity].
  - eexists. vm_compute. reflexivity.
Qed.
Example C94_ex_runs : result ex_sem value_of (fun n => Z.of_nat n) straight1 1 ([], []) = Returned [1%Z] ([(8, 1)]%Z, [[8; 1102]]%Z).
Proof. vm_compute. reflexivity. Qed.

(** ** C95: where functions found equal differ *)

(** Functions that LLVM accepts, found equal whenever the comparison runs long enough, by
    settings that take nothing different for the same, with these exceptions, and that do
    different things. *)
Definition misjudged (w : world) (exceptions : list exception) (fl fr : func) : Prop :=
  exact w /\ well_formed fl /\ well_formed fr /\ lawful w ex_sem fl fr /\
  (exists N s, (forall n, N <= n -> compare w fl fr n = Some (true, s)) /\ log s = exceptions) /\
  exists args steps m m', result ex_sem value_of args fl steps m = Returned [] m' /\ result ex_sem value_of args fr steps m <> Returned [] m'.

Lemma misjudged_by w fl fr ex avl avr args steps m m' s : exact w -> check fl (table avl) = true -> check fr (table avr) = true -> simpleb fl = true -> simpleb fr = true ->
  compare w fl fr 100 = Some (true, s) -> log s = ex ->
  result ex_sem value_of args fl steps m = Returned [] m' -> result ex_sem value_of args fr steps m <> Returned [] m' -> misjudged w ex fl fr.
Proof.
  intros E CL CR SL SR H L R1 R2. split; [exact E|]. split; [exact (check_sound _ _ CL)|]. split; [exact (check_sound _ _ CR)|]. split; [apply ex_lawful; [exact E|apply simpleb_sound; exact SL|apply simpleb_sound; exact SR]|].
  split; [exists 100, s; split; [intros n LE; apply (compare_le w fl fr 100 n _ LE H)|exact L]|]. exists args, steps, m, m'. auto.
Qed.
Definition ones : nat -> Z := fun n => Z.of_nat (S n).
Ltac misjudge w avl avr args :=
  eapply (misjudged_by w _ _ _ avl avr args 10 ([], [])); [apply settings_exact|reflexivity|reflexivity|reflexivity|reflexivity|vm_compute; reflexivity|reflexivity|vm_compute; reflexivity|vm_compute; discriminate].

(** With no pattern on: a loop over f and g, and f followed by a loop over g.  Blocks are not
    told apart when a branch back to one of them is compared. *)
Definition cycle t := mkFunc "" 1 [(0, [br 0 1]); (1, [call 1 "f" []; br 2 2]); (2, [call 3 "g" []; cbr 4 (VReg 3) t 3]); (3, [ret 5 []])].
Theorem C95_targets_of_branches_refuted : misjudged strict [Blocks_taken_for_equal] (cycle 1) (cycle 2).
Proof. misjudge strict (@nil (nat * list nat)) (@nil (nat * list nat)) ones. Qed.
Print Assumptions C95_targets_of_branches_refuted.

(** With no pattern on: f is called for 1 and 2, and f for 1 and g for 2.  The block of the second
    function for the second case is never compared. *)
Definition cases (l : bool) := mkFunc "" 1 ([(0, [mkInst 0 Switch "" ([VArg 0; VBlock 3; int 1; VBlock 1; int 2] ++ [VBlock (if l then 1 else 2)])]); (1, [call 1 "f" []; ret 2 []]); (3, [ret 3 []])] ++
  if l then [] else [(2, [call 4 "g" []; ret 5 []])]).
Theorem C95_split_case_refuted : misjudged strict [Blocks_taken_for_equal] (cases true) (cases false) /\ exists s, compare strict (cases false) (cases true) 100 = Some (false, s).
Proof. split; [|eexists; vm_compute; reflexivity]. misjudge strict (@nil (nat * list nat)) (@nil (nat * list nat)) (fun _ : nat => 2%Z). Qed.
Print Assumptions C95_split_case_refuted.

(** With no pattern on: the argument of f is 1 or 2, and 1 or 3.  PHI nodes reached from other
    PHI nodes only when these are compared at the end are not compared themselves. *)
Definition chained z := mkFunc "" 1 [(0, [cbr 0 (VArg 0) 1 2]); (1, [br 1 3]); (2, [br 2 3]); (3, [phi 3 [(int z, 1); (int 1, 2)]; br 4 4]);
  (4, [phi 5 [(VReg 3, 3); (VReg 5, 4)]; call 6 "f" [VReg 5]; cbr 7 (VReg 6) 4 5]); (5, [ret 8 []])].
Theorem C95_phi_nodes_refuted : misjudged strict [Phi_not_compared] (chained 2) (chained 3).
Proof. misjudge strict [(4, [3]); (5, [3; 5; 6])] [(4, [3]); (5, [3; 5; 6])] ones. Qed.
Print Assumptions C95_phi_nodes_refuted.

(** With no pattern on: f is called with 1, and with 2.  The values of PHI nodes are exchanged
    if one of the blocks they come from can not be reached. *)
Definition from_dead a b := mkFunc "" 0 [(0, [br 0 2]); (1, [br 1 2]); (2, [phi 2 [(int a, 0); (int b, 1)]; call 3 "f" [VReg 2]; ret 4 []])].
Theorem C95_unreachable_code_refuted : misjudged strict [Phi_block_unknown; Phi_block_unknown; Phi_value_differs] (from_dead 1 2) (from_dead 2 1).
Proof. misjudge strict (@nil (nat * list nat)) (@nil (nat * list nat)) ones. Qed.
Print Assumptions C95_unreachable_code_refuted.

(** With no pattern on: the value is loaded in each round of the loop, and once before it.  Loads
    are left out and matched with a load that was compared before. *)
Definition loads_again := mkFunc "" 1 [(0, [load 0 (VArg 0); br 1 1]);
  (1, [load 2 (VArg 0); call 3 "f" [VReg 2]; store 4 (VReg 3) (VArg 0); cbr 5 (VReg 3) 1 2]); (2, [ret 6 []])].
Definition loads_once := mkFunc "" 1 [(0, [load 0 (VArg 0); br 1 1]);
  (1, [call 3 "f" [VReg 0]; store 4 (VReg 3) (VArg 0); cbr 5 (VReg 3) 1 2]); (2, [ret 6 []])].
Theorem C95_loads_refuted : exists ex, misjudged strict ex loads_again loads_once.
Proof. eexists. misjudge strict [(1, [0]); (2, [0; 2; 3])] [(1, [0]); (2, [0; 3])] ones. Qed.
Print Assumptions C95_loads_refuted.

(** With no pattern on: f is called with a pointer, and with the pointer moved by 8.  A GEP by
    zeros is left out after it was given the number of another GEP. *)
Definition unmoved := mkFunc "" 1 [(0, [br 0 1]);
  (1, [phi 1 [(VArg 0, 0); (VReg 1, 1)]; gep 2 (VReg 1) 0; gep 3 (VReg 1) 8; call 4 "f" [VReg 1]; cbr 5 (VReg 4) 1 2]); (2, [ret 6 []])].
Definition moved := mkFunc "" 1 [(0, [br 0 1]);
  (1, [phi 1 [(VArg 0, 0); (VReg 1, 1)]; gep 3 (VReg 1) 8; call 4 "f" [VReg 3]; cbr 5 (VReg 4) 1 2]); (2, [ret 6 []])].
Theorem C95_zero_geps_refuted : misjudged strict [Skipped] unmoved moved.
Proof. misjudge strict [(2, [1; 2; 3; 4])] [(2, [1; 3; 4])] ones. Qed.
Print Assumptions C95_zero_geps_refuted.

(** With the relocation pattern: f is called always, and in one of two branches. *)
Definition called_always := mkFunc "" 1 [(0, [call 0 "f" []; cbr 1 (VArg 0) 1 2]); (1, [call 2 "g" []; ret 3 []]); (2, [ret 4 []])].
Definition called_in_branch := mkFunc "" 1 [(0, [cbr 1 (VArg 0) 1 2]); (1, [call 0 "f" []; call 2 "g" []; ret 3 []]); (2, [ret 4 []])].
Theorem C95_relocation_to_branch_refuted : misjudged relocs [Relocated] called_always called_in_branch.
Proof. misjudge relocs (@nil (nat * list nat)) (@nil (nat * list nat)) (fun _ : nat => 0%Z). Qed.
Print Assumptions C95_relocation_to_branch_refuted.

(** With the relocation pattern: the second function calls g, the first does not. *)
Definition without_g := mkFunc "" 2 [(0, [store 0 (VArg 0) (VArg 1); call 1 "f" []; store 2 (VArg 0) (VArg 1); ret 3 []])].
Definition with_g := mkFunc "" 2 [(0, [load 0 (VArg 1); call 1 "g" []; store 2 (VArg 0) (VArg 1); store 3 (VArg 0) (VArg 1); call 4 "f" []; ret 5 []])].
Theorem C95_relocation_lost_refuted : exists ex, misjudged relocs ex without_g with_g.
Proof. eexists. misjudge relocs (@nil (nat * list nat)) (@nil (nat * list nat)) ones. Qed.
Print Assumptions C95_relocation_lost_refuted.

(** With the relocation pattern: two stores to the same place in another order. *)
Definition seven_last := mkFunc "" 2 [(0, [call 5 "h" []; store 0 (VArg 0) (VArg 1); store 1 (int 7) (VArg 1); ret 3 []])].
Definition seven_first := mkFunc "" 2 [(0, [store 1 (int 7) (VArg 1); call 5 "h" []; store 0 (VArg 0) (VArg 1); ret 3 []])].
Theorem C95_relocation_of_store_refuted : exists ex, misjudged relocs ex seven_first seven_last.
Proof. eexists. misjudge relocs (@nil (nat * list nat)) (@nil (nat * list nat)) ones. Qed.
Print Assumptions C95_relocation_of_store_refuted.
(** The other way round, the search for what depends on the relocated code leaves the block:
    there is no answer, however many steps are made. *)
Theorem C95_relocation_answers_refuted : well_formed seven_last /\ well_formed seven_first /\ forall n, compare relocs seven_last seven_first n = None.
Proof.
  split; [apply (check_sound seven_last (table [])); reflexivity|]. split; [apply (check_sound seven_first (table [])); reflexivity|].
  assert (A : forall n, compare relocs seven_last seven_first (100 + n) = None) by (intros n; vm_compute; reflexivity).
  intros n. destruct (compare relocs seven_last seven_first n) as [x|] eqn:E; [|reflexivity].
  rewrite <- E, <- (A n), E. symmetry. apply (compare_le relocs seven_last seven_first n); [lia|exact E].
Qed.
Print Assumptions C95_relocation_answers_refuted.

(** With the relocation pattern: two calls are exchanged. *)
Definition two_calls g h := mkFunc "" 0 [(0, [call 0 g []; call 1 h []; ret 3 []])].
Theorem C95_relocation_of_call_refuted : misjudged relocs [Relocated] (two_calls "f" "g") (two_calls "g" "f").
Proof. misjudge relocs (@nil (nat * list nat)) (@nil (nat * list nat)) ones. Qed.
Print Assumptions C95_relocation_of_call_refuted.

(** With inverse conditions: f is called if the value at the argument is 0, and if it is not.  The
    negated value is one that was left out, so that nothing is known of it. *)
Definition is_negation (i : inst) : bool := match i_code i with Binop b => String.eqb b "not" | _ => false end.
Definition inverted := mkWorld String.eqb const_eqb (fun _ _ _ => false) (fun _ => true) is_negation (fun p => p) false true false false false.
Definition if_zero := mkFunc "" 1 [(0, [load 0 (VArg 0); load 1 (VArg 0); mkInst 2 (Binop "not") "" [VReg 1]; cbr 3 (VReg 2) 1 2]); (1, [call 4 "f" []; ret 5 []]); (2, [ret 6 []])].
Definition if_not_zero := mkFunc "" 1 [(0, [load 0 (VArg 0); cbr 3 (VReg 0) 1 2]); (1, [call 4 "f" []; ret 5 []]); (2, [ret 6 []])].
Theorem C95_inverse_condition_refuted : exists ex, misjudged inverted ex if_zero if_not_zero.
Proof.
  eexists. eapply (misjudged_by inverted _ _ _ [(1, [0; 1; 2]); (2, [0; 1; 2])] [(1, [0]); (2, [0])] ones 10 ([], []));
    [|reflexivity|reflexivity|reflexivity|reflexivity|vm_compute; reflexivity|reflexivity|vm_compute; reflexivity|vm_compute; discriminate].
  exact (settings_exact false false false false false).
Qed.
Print Assumptions C95_inverse_condition_refuted.

(** With inverse conditions: f is called if the arguments are equal, and if they are not.  The
    negation of the comparison, which nothing uses, undoes what is known of the comparison itself. *)
Definition inverse (p : string) : string := if String.eqb p "eq" then "ne" else "eq".
Definition inverted_eq := mkWorld String.eqb const_eqb (fun _ _ _ => false) (fun _ => true) is_negation inverse false true false false false.
Definition cmp r p := mkInst r (Cmp p) "" [VArg 0; VArg 1].
Definition not_ r v := mkInst r (Binop "not") "" [v].
Definition then_call l := mkFunc "" 2 [(0, l); (1, [call 4 "f" []; ret 5 []]); (2, [ret 6 []])].
Definition eq_negated := then_call [cmp 0 "eq"; not_ 1 (VReg 0); cbr 3 (VReg 0) 1 2].
Definition ne_only := then_call [cmp 0 "ne"; cbr 3 (VReg 0) 1 2].
Theorem C95_negated_comparison_refuted : exists ex, misjudged inverted_eq ex eq_negated ne_only.
Proof.
  eexists. eapply (misjudged_by inverted_eq _ _ _ [(1, [0; 1]); (2, [0; 1])] [(1, [0]); (2, [0])] (fun _ => 1%Z) 10 ([], []));
    [|reflexivity|reflexivity|reflexivity|reflexivity|vm_compute; reflexivity|reflexivity|vm_compute; reflexivity|vm_compute; discriminate].
  exact (settings_exact false false false false false).
Qed.
Print Assumptions C95_negated_comparison_refuted.

(** With no pattern on: a store in between two loads is taken to be to another place, since the
    last indices of the pointers differ, although these are relative to different pointers. *)
Definition alloca r := mkInst r Alloca "" [].
Definition nested l := mkFunc "" 0 [(0, [alloca 0; gep 1 (VReg 0) 1; gep 2 (VReg 1) 0; gep 3 (VReg 0) 1; load 4 (VReg 3); store 5 (int 7) (VReg 2)] ++ l)].
Definition nested_reload := nested [load 6 (VReg 3); call 7 "f" [VReg 6]; ret 8 []].
Definition nested_reuse := nested [call 7 "f" [VReg 4]; ret 8 []].
Theorem C95_aliases_refuted : exists ex, misjudged strict ex nested_reload nested_reuse.
Proof. eexists. misjudge strict (@nil (nat * list nat)) (@nil (nat * list nat)) ones. Qed.
Print Assumptions C95_aliases_refuted.

(** With no pattern on: an atomic addition in between two loads is not seen as a change. *)
Definition atomic l := mkFunc "" 1 [(0, [load 4 (VArg 0); mkInst 5 Other "atomicrmw add" [int 7; VArg 0]] ++ l)].
Theorem C95_atomics_refuted : exists ex, misjudged strict ex (atomic [load 6 (VArg 0); call 7 "f" [VReg 6]; ret 8 []]) (atomic [call 7 "f" [VReg 4]; ret 8 []]).
Proof. eexists. misjudge strict (@nil (nat * list nat)) (@nil (nat * list nat)) ones. Qed.
Print Assumptions C95_atomics_refuted.

(** With no pattern on: a load of an integer is replaced by an earlier load of a byte. *)
Theorem C95_types_of_loads_refuted : exists ex, misjudged strict ex
  (mkFunc "" 1 [(0, [mkInst 4 Load "i8" [VArg 0]; load 6 (VArg 0); call 7 "f" [VReg 6]; ret 8 []])])
  (mkFunc "" 1 [(0, [mkInst 4 Load "i8" [VArg 0]; call 7 "f" [VReg 4]; ret 8 []])]).
Proof.
  eexists. eapply (misjudged_by strict _ _ _ [] [] ones 10 ([(1, 300)]%Z, [])); [apply settings_exact|reflexivity|reflexivity|reflexivity|reflexivity|vm_compute; reflexivity|reflexivity|vm_compute; reflexivity|vm_compute; discriminate].
Qed.
Print Assumptions C95_types_of_loads_refuted.

(** Once one argument of a call is found equal by the source, the arguments after it are not
    compared. *)
Definition by_source := mkWorld String.eqb const_eqb (fun _ _ k => Nat.eqb k 0) (fun _ => true) (fun _ => false) (fun p => p) false false false false false.
Definition two_arguments a b := mkFunc "" 0 [(0, [call 0 "f" [int a; int b]; ret 1 []])].
Theorem C95_call_arguments_refuted : misjudged by_source [Source_argument] (two_arguments 1 2) (two_arguments 3 4) /\
  exists s, compare by_source (two_arguments 1 2) (two_arguments 1 4) 100 = Some (false, s).
Proof.
  split; [|eexists; vm_compute; reflexivity].
  eapply (misjudged_by by_source _ _ _ [] [] ones 10 ([], [])); [|reflexivity|reflexivity|reflexivity|reflexivity|vm_compute; reflexivity|reflexivity|vm_compute; reflexivity|vm_compute; discriminate].
  exact (settings_exact false false false false false).
Qed.
Print Assumptions C95_call_arguments_refuted.

(** ** C96: reordered operations have the same value *)

(** Two chains of one reorderable operation that are found the same up to the order have the same
    value, if what the comparison knows already holds of the values and the operation is
    associative and commutative. *)
Theorem C96_reordered_same_value w fl fr S bin args envL envR i j s :
  ac bin -> (forall z, constL S (CInt z) = constR S (CInt z)) ->
  computed S bin (constL S) args envL fl -> computed S bin (constR S) args envR fr ->
  agrees S args envL envR s ->
  reordered w fl fr i j s = true -> envL (i_reg i) = envR (i_reg j).
Proof.
  intros AC INT HL HR [R1 [R2 SM]]. apply (reordered_same w fl fr S bin args envL envR AC INT HL HR s).
  - intros [|] v u; [apply R1|apply R2].
  - exact SM.
Qed.
Print Assumptions C96_reordered_same_value.

(** (a + b) + 5 and b + (5 + a), of the arguments. *)
Definition add r x y := mkInst r (Binop "add") "" [x; y].
Definition sum_left := mkFunc "i32 (i32, i32)" 2 [(0, [add 0 (VArg 0) (VArg 1); add 1 (VReg 0) (int 5); ret 2 [VReg 1]])].
Definition sum_right := mkFunc "i32 (i32, i32)" 2 [(0, [add 0 (int 5) (VArg 0); add 1 (VArg 1) (VReg 0); ret 2 [VReg 1]])].
Example C96_found_equal : exists s, compare (settings false false true false false) sum_left sum_right 30 = Some (true, s).
Proof. eexists. vm_compute. reflexivity. Qed.
Definition sums : state := set_sn start [(VArg 0, 0); (VArg 1, 1); (VReg 1, 2)] [(VArg 0, 0); (VArg 1, 1); (VReg 1, 2)] [].
Example C96_hypotheses_met envL envR :
  reordered (settings false false true false false) sum_left sum_right (add 1 (VReg 0) (int 5)) (add 1 (VArg 1) (VReg 0)) sums = true /\
  agrees ex_sem (fun n => Z.of_nat n + 3)%Z envL envR sums /\ ac (fun (_ : string) => Z.add).
Proof.
  split; [vm_compute; reflexivity|]. split; [|intros b _; split; intros; lia].
  split; [intros v u H; discriminate H|]. split; [intros v u H; discriminate H|]. intros u v k U V N _. apply dget_In in U. apply dget_In in V.
  cbn [snL snR sums set_sn length Nat.sub] in *. destruct U as [U|[U|[U|[]]]]; injection U as <- <-; destruct V as [V|[V|[V|[]]]]; injection V as <-; try discriminate; try reflexivity; contradiction.
Qed.
Example C96_computed : exists envL envR, computed ex_sem (fun _ => Z.add) value_of (fun n => Z.of_nat n + 3)%Z envL sum_left /\ computed ex_sem (fun _ => Z.add) value_of (fun n => Z.of_nat n + 3)%Z envR sum_right.
Proof.
  exists (fun r => if Nat.eqb r 0 then 7 else 12)%Z, (fun r => if Nat.eqb r 0 then 8 else 12)%Z.
  split; intros i b I; cbn in I; repeat (destruct I as [<-|I]; [intros C; cbn in C; try discriminate; eexists _, _; split; reflexivity|]); destruct I.
Qed.

(** ** C97: loads that are left out *)

(** A load that may be left out, in a block that is not on a cycle, reads the value of what is put
    in its place, whenever a run comes to it. *)
Theorem C97_skipped_load_same_value fl fr (left : bool) b l1 i l2 s u S consts args read :
  let f := if left then fl else fr in
  well_formed f -> accesses f -> flat f -> reads_memory S consts args f read ->
  dget (f_blocks f) b = Some (l1 ++ i :: l2) -> i_code i = Load -> (forall c, edge f b c -> ~ leads f c b) ->
  skip_load fl fr left b i s = Some u ->
  forall done l env m, At S consts args f done b (i :: l) env m ->
  exec S Load (i_rest i) (map (eval S consts args env) (i_ops i)) m = Some (eval S consts args env u, m).
Proof. apply skipped_load. Qed.
Print Assumptions C97_skipped_load_same_value.

(** The points of a run are those that lead to its result. *)
Theorem C97_results_are_reached S consts args f n m vs m' : result S consts args f n m = Returned vs m' ->
  exists done b t l env, At S consts args f done b (t :: l) env m' /\ i_code t = Ret /\ vs = map (eval S consts args env) (i_ops t).
Proof. apply result_at. Qed.
Print Assumptions C97_results_are_reached.

(** In the examples' meaning, functions with allocations of different names and without GEPs,
    byte loads and atomic operations have such a memory. *)
Definition plainb (f : func) : bool :=
  forallb (fun i => match i_code i with Gep _ | Other => false | Load => negb (String.eqb (i_rest i) "i8") | _ => true end) (insts f) &&
  nodupb (flat_map (fun i => match i_code i with Alloca => [String.length (i_rest i)] | _ => [] end) (insts f)).
Lemma ex_alloca f args d c l env m : well_formed f -> At ex_sem value_of args f d c l env m -> forall i, In i (insts f) -> i_code i = Alloca -> In (i_reg i) d ->
  env (i_reg i) = (5000 + 1000 * Z.of_nat (String.length (i_rest i)))%Z.
Proof.
  intros W. destruct (wf_ssa _ W) as [av SA]. 
  assert (ONE : forall x i, In x (insts f) -> In i (insts f) -> i_reg x = i_reg i -> x = i).
  { intros x i X I E. apply (Funcomp_Inv.In_find f) in X; [|apply wf_regs, W]. apply (Funcomp_Inv.In_find f) in I; [|apply wf_regs, W]. congruence. }
  induction 1 as [m|d c x l env m A IH DP|d c x l env m v m' A IH ND NT EX|d c x l env m k c' A IH TX CH K]; intros i I C D; [destruct D| | |];
    pose proof (at_block f f true W av SA ex_sem value_of args _ _ _ _ _ A) as [R [pre [G _]]];
    assert (X : In x (insts f)) by (eapply (get_insts f); [exact G|apply in_or_app; right; left; reflexivity]).
  - destruct D as [D|D]; [|auto]. rewrite (ONE _ _ X I D) in DP. unfold is_debug, is_phi in DP. rewrite C in DP. discriminate.
  - unfold upd. destruct (Nat.eqb_spec (i_reg i) (i_reg x)) as [E|N].
    + rewrite (ONE x i X I (eq_sym E)) in EX. rewrite C in EX. cbn in EX. injection EX as <- _. reflexivity.
    + destruct D as [D|D]; [congruence|auto].
  - destruct D as [D|D]; [rewrite (ONE _ _ X I D) in TX; unfold is_terminator in TX; rewrite C in TX; discriminate|].
    unfold enter. destruct (find _ (block f c')) as [y|] eqn:F; [|auto]. exfalso. apply find_some in F. destruct F as [IY E]. apply andb_true_iff in E. destruct E as [E1 E2]. apply Nat.eqb_eq in E2.
    unfold block in IY. destruct (dget (f_blocks f) c') as [lc|] eqn:GC; [|destruct IY]. pose proof (get_insts f _ _ _ GC IY) as Y. rewrite (ONE _ _ Y I E2) in E1. unfold is_phi in E1. rewrite C in E1. discriminate.
Qed.
Lemma nodup_once {A} (g : A -> list nat) l : NoDup (flat_map g l) -> forall x y k, In x l -> In y l -> In k (g x) -> In k (g y) -> x = y.
Proof.
  induction l as [|z l IH]; cbn; [intros _ x y k []|]. intros N. assert (DJ : forall k y, In k (g z) -> In y l -> In k (g y) -> False).
  { intros k y KZ Y KY. clear IH. induction (g z) as [|a gz IHz]; [destruct KZ|]. cbn in N. inversion N as [|? ? N1 N2]; subst. destruct KZ as [->|KZ]; [|auto]. apply N1, in_or_app. right. apply in_flat_map. eauto. }
  apply NoDup_app_remove_l in N. intros x y k [<-|X] [<-|Y] KX KY; [reflexivity|exfalso; eauto|exfalso; eauto|eauto].
Qed.
Lemma ex_reads f args : well_formed f -> plainb f = true -> reads_memory ex_sem value_of args f (fun p m => stored (fst m) p).
Proof.
  intros W H. unfold plainb in H. apply andb_true_iff in H. destruct H as [H N]. apply nodupb_sound in N. rewrite forallb_forall in H. constructor.
  - intros i p m I C. specialize (H i I). rewrite C in H. cbn. destruct (String.eqb (i_rest i) "i8"); [discriminate|reflexivity].
  - intros i v p m x m' _ _ E. cbn in E. injection E as _ <-. cbn. unfold stored. cbn. rewrite Z.eqb_refl. reflexivity.
  - intros d b i l env m x m' v p q A C O E SP D. cbn in E. injection E as _ <-. cbn [fst]. unfold stored. cbn [find fst snd].
    assert (NG : forall y o, In y (insts f) -> i_code y <> Gep o) by (intros y o Y Q; specialize (H y Y); rewrite Q in H; discriminate).
    destruct SP as [[a [c [BP [BQ NE]]]]|[y [_ [_ [o [_ [_ [_ [_ [Y [_ [_ [_ [Q _]]]]]]]]]]]]]]; [|destruct (NG y o Y Q)].
    inversion BP as [y Y CY E1 E2|y o a' Y CY _ E1 E2]; [subst|destruct (NG y o Y CY)]. inversion BQ as [z Z CZ E1 E2|z o a' Z CZ _ E1 E2]; [subst|destruct (NG z o Z CZ)].
    cbn [eval]. rewrite (ex_alloca f args _ _ _ _ _ W A y Y CY), (ex_alloca f args _ _ _ _ _ W A z Z CZ) by (apply D; auto).
    destruct (Z.eqb_spec (5000 + 1000 * Z.of_nat (String.length (i_rest y))) (5000 + 1000 * Z.of_nat (String.length (i_rest z)))) as [E|_]; [exfalso|reflexivity].
    apply NE. f_equal. apply (nodup_once _ _ N y z (String.length (i_rest y)) Y Z); [rewrite CY; left; reflexivity|rewrite CZ; left]. lia.
  - intros i vs m x m' p I NS NK E. specialize (H i I). destruct (i_code i); try contradiction; try discriminate; cbn [plain exec ex_sem ex_exec] in E;
      repeat match type of E with context [match ?x with _ => _ end] => destruct x end; try discriminate; injection E as _ <-; reflexivity.
Qed.

(** Two allocations; the first is read, the second written on one of two ways, and the first
    read again. *)
Definition twice_read := mkFunc "i32 (i32)" 1
  [(0, [alloca 0; mkInst 1 Alloca "x" []; store 2 (VArg 0) (VReg 0); load 3 (VReg 0); cbr 4 (VReg 3) 1 2]);
   (1, [store 5 (int 7) (VReg 1); br 6 3]);
   (2, [br 7 3]);
   (3, [load 8 (VReg 0); ret 9 [VReg 8]])].
Lemma twice_read_wf : well_formed twice_read.
Proof. apply (check_sound twice_read (table [(1, [0; 1; 2; 3]); (2, [0; 1; 2; 3]); (3, [0; 1; 2; 3])])). reflexivity. Qed.
Example C97_hypotheses_met :
  accesses twice_read /\ flat twice_read /\ reads_memory ex_sem value_of (fun _ => 4%Z) twice_read (fun p m => stored (fst m) p) /\
  (forall c, edge twice_read 3 c -> ~ leads twice_read c 3) /\
  skip_load twice_read twice_read true 3 (load 8 (VReg 0)) start = Some (VReg 3) /\
  result ex_sem value_of (fun _ => 4%Z) twice_read 9 ([], []) = Returned [4%Z] ([(6000%Z, 7%Z); (5000%Z, 4%Z)], []).
Proof.
  split; [|split; [|split; [|split; [|split]]]].
  - intros i I. cbn in I. repeat (destruct I as [<-|I]; [cbn; eauto|]). destruct I.
  - intros i j o o' I _ C. cbn in I. repeat (destruct I as [<-|I]; [discriminate C|]). destruct I.
  - apply ex_reads; [apply twice_read_wf|reflexivity].
  - intros c E. apply edge_succs in E. destruct E as [l [G I]]. cbn in G. injection G as <-. destruct I.
  - vm_compute. reflexivity.
  - vm_compute. reflexivity.
Qed.
(** The load is also replaced by the value of a store that was left out before. *)
Example C97_replaced_by_stored : skip_load twice_read twice_read true 0 (load 3 (VReg 0)) (put_ign true [VReg 2] start) = Some (VArg 0).
Proof. vm_compute. reflexivity. Qed.

(** ** C98: inverse conditions *)

(** Two comparisons that are found to match have the same value for the same operands, or they are
    noted as inverse, have negated values, and are used for nothing but branches, possibly through
    negations. *)
Theorem C98_comparisons w fl fr S truth neg cv i j s a b need s' : conditions w S truth neg ->
  i_code i = Cmp a -> i_code j = Cmp b -> cmp_operation w fl fr cv i j s = Some (true, need, s') ->
  need = true /\ ((forall vs m, exec S (Cmp a) (i_rest i) vs m = exec S (Cmp b) (i_rest j) vs m) \/
    (In (Some (VReg (i_reg i)), Some (VReg (i_reg j))) (inverses s') /\
     (forall vs m v m', exec S (Cmp b) (i_rest j) vs m = Some (v, m') -> exec S (Cmp a) (i_rest i) vs m = Some (neg v, m')) /\
     (forall u, feeds w fl i u -> is_not w u = true \/ i_code u = Br) /\ (forall u, feeds w fr j u -> is_not w u = true \/ i_code u = Br))).
Proof. intros C. apply (comparisons w fl fr S truth neg C). Qed.
Print Assumptions C98_comparisons.

(** Of two branches by conditions that are noted as inverse, and have negated values, the block that
    the second goes to is, among the targets as they are then compared, where the block that the
    first goes to is among its own; the targets of other branches are compared as they are. *)
Theorem C98_branches w fl fr S truth neg n i j s c d x y z t need s' : conditions w S truth neg ->
  i_code i = Br -> i_code j = Br -> i_ops i = [c; VBlock x; VBlock y] -> i_ops j = [d; VBlock z; VBlock t] ->
  inst_of fl (VReg (i_reg i)) = Some i -> inst_of fr (VReg (i_reg j)) = Some j -> ~ In (VReg (i_reg i)) (skipL s) ->
  dget (replL s) (VReg (i_reg i)) = None -> dget (replR s) (VReg (i_reg j)) = None -> ~ In (i_reg j) (swapped s) ->
  cmp_operation w fl fr (cmp_values w fl fr n) i j s = Some (true, need, s') ->
  (In (Some c, Some d) (inverses s) -> forall v xl yl xr yr k k', truth v ->
     choose S Br (i_rest i) [neg v; xl; yl] = Some k -> choose S Br (i_rest j) [v; xr; yr] = Some k' ->
     nth_error (successors j) k' = nth_error (successors (now s' j)) k) /\
  (~ In (Some c, Some d) (inverses s) -> now s' j = j).
Proof. intros C. apply (branches w fl fr S truth neg C). Qed.
Print Assumptions C98_branches.

(** When a negation is left out, the negated value stands for it, and whether the pair of the
    negation with the value of the other function is noted as inverse is right, if it was right for
    the negated value; nothing changes for other pairs. *)
Theorem C98_negations w S truth neg (left : bool) i s m (val : bool -> value -> V S) : conditions w S truth neg ->
  let v := op 0 i in let n := VReg (i_reg i) in let pair x := if left then (Some x, Some m) else (Some m, Some x) in
  truth (val (negb left) m) -> mapped left v s = Some m -> dget (repl left s) n = None -> n <> v -> ~ In (pair n) (inverses s) -> val left n = neg (val left v) ->
  (In (pair v) (inverses s) -> val left v = neg (val (negb left) m)) -> (~ In (pair v) (inverses s) -> val left v = val (negb left) m) ->
  dget (repl left (negation left i s)) n = Some v /\
  (In (pair n) (inverses (negation left i s)) -> val left n = neg (val (negb left) m)) /\
  (~ In (pair n) (inverses (negation left i s)) -> val left n = val (negb left) m) /\
  (forall p, p <> pair v -> p <> pair n -> (In p (inverses (negation left i s)) <-> In p (inverses s))).
Proof. intros C. apply (negations w S truth neg C). Qed.
Print Assumptions C98_negations.

Example C98_conditions : conditions inverted_eq ex_sem (fun v => v = 0 \/ v = 1)%Z (fun v => 1 - v)%Z.
Proof.
  constructor.
  - intros v _. lia.
  - intros a r r' vs m H. cbn in H. apply String.eqb_eq in H. subst r'. reflexivity.
  - intros b r vs m. cbn [exec ex_sem inverse_of inverted_eq]. destruct vs as [|x [|y vs]]; [reflexivity|reflexivity|]. cbn [ex_exec].
    unfold inverse. destruct (String.eqb b "eq"), (Z.eqb x y); reflexivity.
  - intros b r vs m v m'. cbn [exec ex_sem]. destruct vs as [|x [|y vs]]; [discriminate|discriminate|]. cbn [ex_exec].
    intros H. injection H as <- _. destruct (Bool.eqb _ _); auto.
  - intros r v x y k H. cbn in H. injection H as <-. destruct (Z.eqb v 0); auto.
  - intros r r' v x y x' y' k T H. cbn in *. injection H as <-. destruct T as [->| ->]; reflexivity.
Qed.
(** if (a == b) f(); and if (a != b) ; else f(); and if (!(a == b)) ; else f(); *)
Definition eq_call := then_call [cmp 0 "eq"; cbr 3 (VReg 0) 1 2].
Definition ne_else_call := then_call [cmp 0 "ne"; cbr 3 (VReg 0) 2 1].
Definition eq_not_else_call := then_call [cmp 0 "eq"; not_ 1 (VReg 0); cbr 3 (VReg 1) 2 1].
Example C98_found_equal : (exists s, compare inverted_eq eq_call ne_else_call 30 = Some (true, s)) /\ (exists s, compare inverted_eq eq_not_else_call eq_call 30 = Some (true, s)) /\
  (exists s, compare inverted_eq eq_call ne_only 30 = Some (false, s)) /\ (exists s, compare inverted_eq eq_not_else_call ne_only 30 = Some (false, s)).
Proof. repeat split; eexists; vm_compute; reflexivity. Qed.
Definition noted : state := set_inv start [(Some (VReg 0), Some (VReg 0))] [].
Example C98_hypotheses_met :
  (exists s, cmp_operation inverted_eq eq_call ne_else_call (cmp_values inverted_eq eq_call ne_else_call 5) (cmp 0 "eq") (cmp 0 "ne") start = Some (true, true, s)) /\
  (exists s, cmp_operation inverted_eq eq_call ne_else_call (cmp_values inverted_eq eq_call ne_else_call 5) (cbr 3 (VReg 0) 1 2) (cbr 3 (VReg 0) 2 1) noted = Some (true, true, s)) /\
  inst_of eq_call (VReg 3) = Some (cbr 3 (VReg 0) 1 2) /\ inst_of ne_else_call (VReg 3) = Some (cbr 3 (VReg 0) 2 1) /\
  mapped true (VReg 0) (set_sn start [(VReg 0, 0)] [(VReg 0, 0)] [(0, (VReg 0, VReg 0))]) = Some (VReg 0).
Proof. split; [eexists; vm_compute; reflexivity|]. split; [eexists; vm_compute; reflexivity|]. repeat split; reflexivity. Qed.
(** The negation of a comparison that is equal to the one of the other function: it is noted as
    inverse to it; a negation of one that is inverse is not. *)
Definition truth_values (a b c : Z) (left : bool) (v : value) : Z := if left then match v with VReg 0 => a | _ => b end else c.
Definition paired (l : list (option value * option value)) : state := set_inv (set_sn start [(VReg 0, 0)] [(VReg 0, 0)] [(0, (VReg 0, VReg 0))]) l [].
Example C98_negations_met :
  (truth_values 1 0 1 true (VReg 1) = 1 - truth_values 1 0 1 false (VReg 0))%Z /\ In (Some (VReg 1), Some (VReg 0)) (inverses (negation true (not_ 1 (VReg 0)) (paired []))) /\
  (truth_values 0 1 1 true (VReg 1) = truth_values 0 1 1 false (VReg 0))%Z /\ ~ In (Some (VReg 1), Some (VReg 0)) (inverses (negation true (not_ 1 (VReg 0)) (paired [(Some (VReg 0), Some (VReg 0))]))).
Proof.
  assert (I : In (Some (VReg 1), Some (VReg 0)) (inverses (negation true (not_ 1 (VReg 0)) (paired [])))) by (left; reflexivity).
  assert (N : ~ In (Some (VReg 1), Some (VReg 0)) (inverses (negation true (not_ 1 (VReg 0)) (paired [(Some (VReg 0), Some (VReg 0))])))) by (vm_compute; intros []).
  destruct (C98_negations inverted_eq ex_sem _ _ true (not_ 1 (VReg 0)) (paired []) (VReg 0) (truth_values 1 0 1) C98_conditions) as [_ [K _]];
    [right; reflexivity|reflexivity|reflexivity|discriminate|intros []|reflexivity|intros []|reflexivity|].
  destruct (C98_negations inverted_eq ex_sem _ _ true (not_ 1 (VReg 0)) (paired [(Some (VReg 0), Some (VReg 0))]) (VReg 0) (truth_values 0 1 1) C98_conditions) as [_ [_ [K' _]]];
    [right; reflexivity|reflexivity|reflexivity|discriminate|intros [F|[]]; discriminate|reflexivity|reflexivity|intros F; destruct F; left; reflexivity|].
  exact (conj (K I) (conj I (conj (K' N) N))).
Qed.

(** ** C99: calls are compared whatever patterns are on *)

(** Whatever patterns are on and whatever is left out, replaced, reordered or inverted: if the
    functions are found equal, without a relocation and without arguments compared by the source,
    every block of the first that can be reached has a block of the second that can be reached,
    with the same calls and the same end, in the same order, and with the same stores unless group
    variables are on. *)
Theorem C99_visible_operations w fl fr n s : well_formed fr -> (forall i, is_not w i = true -> exists b, i_code i = Binop b) ->
  compare w fl fr n = Some (true, s) -> ~ In Relocated (log s) -> ~ In Source_argument (log s) ->
  exists h, h (entry fl) = entry fr /\ forall b, reach fl b ->
    reach fr (h b) /\ Forall2 (corresponds w) (filter (visible w) (block fl b)) (filter (visible w) (block fr (h b))).
Proof. intros W N. apply (compared w fl fr W N). Qed.
Print Assumptions C99_visible_operations.

Definition everything := mkWorld String.eqb const_eqb (fun _ _ _ => false) (fun _ => true) is_negation inverse false true true true true.
(** Stack memory is only written, a sum is reordered, a condition is inverse, and a load is done
    once more. *)
Definition mixed1 := mkFunc "" 2 [(0, [alloca 20; gep 21 (VReg 20) 4; store 22 (VArg 1) (VReg 21); add 0 (VArg 0) (VArg 1); add 1 (VReg 0) (int 5); call 2 "f" [VReg 1]; cmp 3 "eq"; cbr 4 (VReg 3) 1 2]);
  (1, [call 5 "g" [int 3]; ret 6 []]); (2, [ret 7 [VReg 1]])].
Definition mixed2 := mkFunc "" 2 [(0, [add 0 (int 5) (VArg 0); add 1 (VArg 1) (VReg 0); call 2 "f" [VReg 1]; cmp 3 "ne"; cbr 4 (VReg 3) 2 1]);
  (1, [call 5 "g" [int 3]; ret 6 []]); (2, [ret 7 [VReg 1]])].
Example C99_hypotheses_met : well_formed mixed2 /\ (forall i, is_not everything i = true -> exists b, i_code i = Binop b) /\
  exists s, compare everything mixed1 mixed2 40 = Some (true, s) /\ ~ In Relocated (log s) /\ ~ In Source_argument (log s) /\ In Inverted (log s) /\ In Reordered (log s) /\ In Skipped (log s).
Proof.
  split; [apply (check_sound mixed2 (table [(1, [0; 1; 2; 3]); (2, [0; 1; 2; 3])])); reflexivity|].
  split; [intros i; cbn; unfold is_negation; destruct (i_code i); try discriminate; eauto|].
  eexists. split; [vm_compute; reflexivity|]. cbn. repeat split; try (intros H; repeat destruct H as [H|H]; discriminate || exact H); auto 10.
Qed.

(** ** C100: what is left out *)

(** An instruction is left out only in one of the seven ways of [left_out]; what becomes of its
    value is said there. *)
Theorem C100_left_out w fl fr (left : bool) b i s s' : dget (if left then replL s else replR s) (VReg (i_reg i)) = None ->
  may_skip w fl fr left b i s = (true, s') -> left_out w fl fr left b i s s'.
Proof. apply skipped. Qed.
Print Assumptions C100_left_out.
(** With grouping of variables on, what is used only by loads and stores at stack memory that is left
    out, is left out and its value is ignored. *)
Theorem C100_addresses w fl fr (left : bool) b i s : let f := if left then fl else fr in
  p_groupvars w = true -> i_code i <> Alloca -> is_call i = false -> is_terminator i = false -> users f (VReg (i_reg i)) <> [] ->
  (forall u, In u (users f (VReg (i_reg i))) -> (i_code u = Load \/ i_code u = Store) /\
     exists a, alloca_op f u = Some a /\ (In a (ign left s) \/ In a (skip left s))) ->
  may_skip w fl fr left b i s = (true, put_ign left (VReg (i_reg i) :: ign left s) s).
Proof.
  intros f G A C T N H. unfold may_skip. fold f.
  assert (E : forallb (extra_memory fl fr left s) (users f (VReg (i_reg i))) = true).
  { apply forallb_forall. intros u U. destruct (H u U) as (K & a & Ea & M). unfold extra_memory.
    assert (X : (match alloca_op (fn fl fr left) u with Some a0 => mem a0 (ign left s) || mem a0 (skip left s) | None => false end) = true).
    { replace (fn fl fr left) with f by reflexivity. rewrite Ea. apply orb_true_iff. destruct M as [M|M]; [left|right]; apply mem_In; exact M. }
    destruct K as [K|K]; rewrite K; exact X. }
  replace (fn fl fr left) with f by reflexivity.
  rewrite G, C, T, E. destruct (users f (VReg (i_reg i))) eqn:U; [congruence|]. destruct (i_code i); try reflexivity. congruence.
Qed.
Print Assumptions C100_addresses.
(** A value that is ignored is found equal to nothing. *)
Theorem C100_ignored_values w fl fr n l r s s' : In l (ignL s) /\ ~ In l (skipL s) \/ In r (ignR s) /\ ~ In r (skipR s) ->
  cmp_values w fl fr n l r s <> Some (true, s').
Proof. apply ignored. Qed.
Print Assumptions C100_ignored_values.

(** If the comparison of two allocations that were left out fails, they stay left out and have no
    numbers, neither does the place in the numbering have a pair. *)
Theorem C100_failed_pair w fl fr n l r s s' : NoDup (dkeys (snL s)) -> NoDup (dkeys (snR s)) -> NoDup (dkeys (by_sn s)) ->
  In l (skipL s) -> In r (skipR s) -> cmp_values w fl fr n l r s = Some (false, s') ->
  In l (skipL s') /\ In r (skipR s') /\ dget (snL s') l = None /\ dget (snR s') r = None /\ dget (by_sn s') (length (snL s')) = None.
Proof. intros A B C. apply failed_pair. repeat split; assumption. Qed.
Print Assumptions C100_failed_pair.
Example C100_failed_pair_met : exists s', cmp_values strict (mkFunc "" 0 [(0, [mkInst 0 Alloca "i32" []; ret 1 []])]) (mkFunc "" 0 [(0, [mkInst 0 Alloca "i64" []; ret 1 []])]) 9 (VReg 0) (VReg 0)
  (set_skip start [VReg 0] [VReg 0]) = Some (false, s') /\ snL s' = [] /\ skipL s' = [VReg 0].
Proof. eexists. split; [vm_compute; reflexivity|]. split; reflexivity. Qed.

Definition after_alloca : state := set_skip start [VReg 20] [].
Example C100_hypotheses_met : exists s1 s2,
  may_skip everything mixed1 mixed2 true 0 (gep 21 (VReg 20) 4) after_alloca = (true, s1) /\ In (VReg 21) (ignL s1) /\
  may_skip everything mixed1 mixed2 true 0 (store 22 (VArg 1) (VReg 21)) s1 = (true, s2) /\ In (VReg 20) (ignL s2) /\ ~ In (VReg 20) (skipL s2) /\
  cmp_values everything mixed1 mixed2 9 (VReg 20) (VReg 0) s2 = Some (false, s2) /\
  may_skip everything mixed1 mixed2 true 0 (store 22 (VArg 1) (VReg 21)) start = (false, start).
Proof.
  do 2 eexists. split; [vm_compute; reflexivity|]. split; [left; reflexivity|]. split; [vm_compute; reflexivity|]. split; [right; left; reflexivity|].
  split; [intros []|]. split; vm_compute; reflexivity.
Qed.

(** ** C101: relocated code *)

(** Once the comparison has gone back to relocated code, the functions are found equal only if all
    visible operations of that code, up to its end, are the next ones of the other function, in the
    same order; or the matching is never finished, and then the functions are not equal in the end. *)
Theorem C101_relocated_code w fl fr n bl br al ar pl pr s s' : well_formed fr -> (forall i, is_not w i = true -> exists b, i_code i = Binop b) ->
  (forall j, In j pr -> In j (insts fr)) -> only_regs fr s -> r_status (reloc s) = Matching ->
  cmp_blocks w fl fr n bl br al ar pl pr s = Some (true, s') -> ~ In Source_argument (log s') ->
  r_status (reloc s') = Matching \/
  if r_first (reloc s)
  then exists pl1 e pl2 pr1 pr2, pl = pl1 ++ e :: pl2 /\ i_reg e = r_end (reloc s) /\ pr = pr1 ++ pr2 /\
    Forall2 (corresponds w) (filter (visible w) (pl1 ++ [e])) (filter (visible w) pr1)
  else exists pl1 pl2 pr1 e pr2, pl = pl1 ++ pl2 /\ pr = pr1 ++ e :: pr2 /\ i_reg e = r_end (reloc s) /\
    Forall2 (corresponds w) (filter (visible w) pl1) (filter (visible w) (pr1 ++ [e])).
Proof. intros W N. apply (relocated_correspond w fl fr W N). Qed.
Print Assumptions C101_relocated_code.
(** Nothing is found equal while relocated code was not matched. *)
Theorem C101_no_relocation_left w fl fr n s : compare w fl fr n = Some (true, s) ->
  exists s1, walk w fl fr n [(entry fl, entry fr)] [entry fl] (match cmp_args w fl fr n (f_args fl) 0 start with Some (_, s0) => s0 | None => start end) = Some (true, s1) /\ r_status (reloc s1) = NoReloc.
Proof.
  unfold compare. destruct (_ && _); [|discriminate]. destruct (cmp_args w fl fr n _ 0 start) as [[[|] s0]|]; [| |discriminate]; [|discriminate].
  destruct (walk w fl fr n _ _ s0) as [[[|] s1]|]; [| |discriminate]; [|discriminate]. destruct (r_status (reloc s1)) eqn:R; try discriminate. intros _. exists s1. auto.
Qed.
Print Assumptions C101_no_relocation_left.
Definition matching : state := set_reloc start (mkReloc Matching true 0 [] 0 [ret 3 []]).
Example C101_hypotheses_met :
  well_formed (two_calls "g" "f") /\ only_regs (two_calls "g" "f") matching /\
  (exists s, cmp_blocks relocs (two_calls "f" "g") (two_calls "g" "f") 9 0 0 false false [call 0 "f" []; call 1 "g" []; ret 3 []] [call 1 "f" []; ret 3 []] matching = Some (true, s)) /\
  (exists s, cmp_blocks relocs (two_calls "f" "g") (two_calls "g" "f") 9 0 0 false false [call 0 "f" []; call 1 "g" []; ret 3 []] [call 1 "h" []; ret 3 []] matching = Some (false, s)).
Proof.
  split; [apply (check_sound (two_calls "g" "f") (table [])); reflexivity|]. split; [constructor; intros v; cbn; try (intros []; fail); intros u; discriminate|].
  split; eexists; vm_compute; reflexivity.
Qed.
