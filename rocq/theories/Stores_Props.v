(** * What the slice by a variable reads from local variables: C159 *)
From Coq Require Import String Ascii ZArith Arith Bool Lia List.
From Verif Require Import PyBase Funcomp_Model Funcomp_Spec Slice_Model Slice_Spec Slice_Control Slice_Reach Slice_Variable Slice_Whole Slice_Result Slice_Props Stores_Spec Stores_Proof.
Import ListNotations.
Open Scope list_scope.
Open Scope nat_scope.

Lemma depends_in var f i : depends_on var f i -> In i (insts f).
Proof.
  intros [j I _|d j _ I _|b l t c j _ _ _ I|b l s p j _ _ _ _ _ _ _ _ I _|p d1 d2 b1 b2 v1 v2 _ _ _ _ I _ _ _ _ _ _]; try exact I. apply (block_insts f c). exact I.
Qed.
Lemma slice_required reachable var n f g b l i (P : inst -> Prop) : NoDup (map i_reg (insts f)) -> NoDup (dkeys (f_blocks f)) -> ended f ->
  (forall u d, In u (insts f) -> In d (insts f) -> uses u d -> i_code d <> Br) ->
  (forall j, P j -> In j (insts f)) -> (forall j, In j (insts f) -> P j -> In (i_reg j) (dependent (first_phase reachable var f))) ->
  variable_slice reachable var n f = Some g -> required P f i -> In (b, l) (f_blocks f) -> In i l ->
  exists l' i', In (b, l') (f_blocks g) /\ In i' l' /\ i_reg i' = i_reg i /\ i_rest i' = i_rest i /\
    (is_phi i = false -> i' = i) /\ (is_phi i = true -> is_phi i' = true /\ incl (i_ops i') (i_ops i)).
Proof.
  intros U B En V Pi Df H Q L I. unfold variable_slice in H. destruct (second_phase _ _ _ _) as [[h s]|] eqn:E; [|discriminate]. injection H as <-.
  destruct (phase_located reachable var f U) as [I0 _].
  assert (So : second_ok f (first_phase reachable var f) h s) by (apply (second_spec reachable f U B En n); assumption).
  destruct (required_kept reachable P f U B En n _ h s I0 Df Pi E i Q) as [Ii K].
  apply (slice_kept f (first_phase reachable var f) h s b l i So L I K).
  destruct Q as [i D|u d Qu Ph Id Us|u a x Qu Ph Ia C Us M].
  - right. apply Df; assumption.
  - left. destruct (required_kept reachable P f U B En n _ h s I0 Df Pi E u Qu) as [Iu _]. apply (V u d Iu Id Us).
  - left. intros Cx. clear - M Cx. induction M as [a x _ [(C & _)|(C & _)]|a d x _ _ _ _ IH]; [congruence|congruence|auto].
Qed.
(** What is required by what depends on the variable is in its block of the slice, with its
    operands. *)
Theorem C159_required_kept reachable var n f g b l i : exact f reachable -> in_order f -> nested f -> variable_slice reachable var n f = Some g ->
  required (depends_on var f) f i -> In (b, l) (f_blocks f) -> In i l ->
  exists l' i', In (b, l') (f_blocks g) /\ In i' l' /\ i_reg i' = i_reg i /\ i_rest i' = i_rest i /\
    (is_phi i = false -> i' = i) /\ (is_phi i = true -> is_phi i' = true /\ incl (i_ops i') (i_ops i)).
Proof.
  intros R O N H Q L I. apply (slice_required reachable var n f g b l i (depends_on var f) (order_regs f O) (order_blocks f O) (order_ended f O)); try assumption.
  - intros u d Iu Id Us C. destruct (order_values f O d u Id Iu Us) as [T _]. unfold is_terminator in T. rewrite C in T. discriminate.
  - apply depends_in.
  - intros j J D. apply dependent_found; assumption.
Qed.
Print Assumptions C159_required_kept.
(** The same for what is computed from the variable by operands, in any function (with loops, and
    whatever is answered about reachability). *)
Theorem C159_any_function reachable var n f g b l i : NoDup (map i_reg (insts f)) -> NoDup (dkeys (f_blocks f)) -> ended f ->
  (forall u d, In u (insts f) -> In d (insts f) -> uses u d -> is_terminator d = false) -> variable_slice reachable var n f = Some g ->
  required (computed_from var f) f i -> In (b, l) (f_blocks f) -> In i l ->
  exists l' i', In (b, l') (f_blocks g) /\ In i' l' /\ i_reg i' = i_reg i /\ i_rest i' = i_rest i /\
    (is_phi i = false -> i' = i) /\ (is_phi i = true -> is_phi i' = true /\ incl (i_ops i') (i_ops i)).
Proof.
  intros U B En T H Q L I. apply (slice_required reachable var n f g b l i (computed_from var f) U B En); try assumption.
  - intros u d Iu Id Us C. specialize (T u d Iu Id Us). unfold is_terminator in T. rewrite C in T. discriminate.
  - intros j [k K _ _|d k _ K _ _ _]; exact K.
  - intros j J D. apply computed_dependent; assumption.
Qed.
Print Assumptions C159_any_function.

(** A local variable is passed on with the variable [v]; a part of it is stored to on one of two
    ways before, and the address of the other part is given to [fill].  The other
    local variable is not kept. *)
Definition alloca r := mkInst r Alloca "" [int 1].
Definition part r p z := mkInst r (Gep (Some z)) "" [p; int z].
Definition filling := mkFunc "" 2
  [(0, [alloca 0; alloca 1; part 2 (VReg 0) 0; store 3 (VArg 1) (VReg 1); branch 4 (VArg 0) 1 2]);
   (1, [add 5 (VArg 1) (int 1); store 6 (VReg 5) (VReg 2); jmp 7 3]);
   (2, [part 8 (VReg 0) 4; call 9 "fill" [VReg 8]; jmp 10 3]);
   (3, [load 11 (global "v"); call 12 "print" [VReg 0; VReg 11]; store 13 (int 0) (VReg 0); jmp 14 4]);
   (4, [ret 15 []])].
Example C159_hypotheses_met : exact filling (search filling) /\ in_order filling /\ nested filling /\
  required (depends_on "v" filling) filling (store 6 (VReg 5) (VReg 2)) /\ required (depends_on "v" filling) filling (add 5 (VArg 1) (int 1)) /\ required (depends_on "v" filling) filling (call 9 "fill" [VReg 8]) /\
  variable_slice (search filling) "v" 200 filling = Some (mkFunc "" 2
    [(0, [alloca 0; part 2 (VReg 0) 0; branch 4 (VArg 0) 1 2]); (1, [add 5 (VArg 1) (int 1); store 6 (VReg 5) (VReg 2); jmp 7 3]);
     (2, [part 8 (VReg 0) 4; call 9 "fill" [VReg 8]; jmp 10 3]); (3, [load 11 (global "v"); call 12 "print" [VReg 0; VReg 11]; store 13 (int 0) (VReg 0); jmp 14 4]); (4, [ret 15 []])]).
Proof.
  assert (O : in_order filling) by (apply tidy_in_order; vm_compute; reflexivity).
  assert (P : required (depends_on "v" filling) filling (call 12 "print" [VReg 0; VReg 11])).
  { apply required_start. apply depends_value with (load 11 (global "v")); [apply depends_variable; [cbn; auto 20|left; reflexivity]|cbn; auto 20|right; left; reflexivity]. }
  set (u := call 12 "print" [VReg 0; VReg 11]) in *.
  assert (W1 : way filling u (alloca 0) (alloca 1)) by (apply way_next; exists 0, []; eexists; left; reflexivity).
  assert (W2 : way filling u (alloca 0) (part 2 (VReg 0) 0)).
  { apply way_on with (alloca 1); [exact W1|discriminate|]. left. split; [discriminate|]. exists 0, [alloca 0]. eexists. left. reflexivity. }
  assert (W3 : forall a, way filling u a (store 3 (VArg 1) (VReg 1)) -> way filling u a (add 5 (VArg 1) (int 1)) /\ way filling u a (part 8 (VReg 0) 4)).
  { intros a W. assert (W4 : way filling u a (branch 4 (VArg 0) 1 2)).
    { apply way_on with (store 3 (VArg 1) (VReg 1)); [exact W|discriminate|]. left. split; [discriminate|]. exists 0, [alloca 0; alloca 1; part 2 (VReg 0) 0]. eexists. left. reflexivity. }
    split; (apply way_on with (branch 4 (VArg 0) 1 2); [exact W4|discriminate|]; right; split; [reflexivity|]).
    - exists 1. eexists. split; [cbn; auto|right; left; reflexivity].
    - exists 2. eexists. split; [cbn; auto|right; right; left; reflexivity]. }
  assert (S6 : required (depends_on "v" filling) filling (store 6 (VReg 5) (VReg 2))).
  { apply required_write with u (alloca 0); [exact P|reflexivity|left; reflexivity|reflexivity|left; reflexivity|].
    apply write_part with (part 2 (VReg 0) 0); [exact W2|discriminate|split; [right; exists (Some 0%Z); reflexivity|exists [int 0]; reflexivity]|].
    apply write_here; [|left; split; [reflexivity|exists (VReg 5); reflexivity]].
    apply way_on with (add 5 (VArg 1) (int 1)); [|discriminate|left; split; [discriminate|]; exists 1, []; eexists; right; left; reflexivity].
    apply W3. apply way_next. exists 0, [alloca 0; alloca 1]. eexists. left. reflexivity. }
  split; [apply search_exact|]. split; [exact O|]. split; [apply check_nested_spec; [exact O|vm_compute; reflexivity]|]. split; [exact S6|]. split.
  { apply required_operand with (store 6 (VReg 5) (VReg 2)); [exact S6|reflexivity|cbn; auto 20|left; reflexivity]. }
  split; [|vm_compute; reflexivity].
  apply required_write with u (alloca 0); [exact P|reflexivity|left; reflexivity|reflexivity|left; reflexivity|].
  apply write_part with (part 8 (VReg 0) 4); [|discriminate|split; [right; exists (Some 4%Z); reflexivity|exists [int 4]; reflexivity]|].
  - apply W3. apply way_on with (part 2 (VReg 0) 0); [exact W2|discriminate|]. left. split; [discriminate|]. exists 0, [alloca 0; alloca 1]. eexists. left. reflexivity.
  - apply write_here; [|right; split; [reflexivity|left; reflexivity]]. apply way_next. exists 2, []. eexists. right. right. left. reflexivity.
Qed.

(** A loop: what was stored before it and what was stored in it before the read is kept, for any
    answers about reachability. *)
Definition looping := mkFunc "" 1
  [(0, [alloca 0; store 1 (int 3) (VReg 0); jmp 2 1]);
   (1, [store 3 (VArg 0) (VReg 0); load 4 (VReg 0); load 5 (global "v"); call 6 "print" [VReg 4; VReg 5]; branch 7 (VReg 5) 1 2]);
   (2, [jmp 8 3]); (3, [ret 9 []])].
Example C159_loop_met : NoDup (map i_reg (insts looping)) /\ NoDup (dkeys (f_blocks looping)) /\ ended looping /\
  (forall u d, In u (insts looping) -> In d (insts looping) -> uses u d -> is_terminator d = false) /\
  required (computed_from "v" looping) looping (store 1 (int 3) (VReg 0)) /\ required (computed_from "v" looping) looping (store 3 (VArg 0) (VReg 0)) /\
  variable_slice (fun _ _ _ => true) "v" 200 looping = Some looping.
Proof.
  split; [cbn; repeat (constructor; [cbn; intuition discriminate|]); constructor|].
  split; [cbn; repeat (constructor; [cbn; intuition discriminate|]); constructor|].
  split.
  { intros b l1 i l2 H T. cbn in H. destruct l2 as [|j l2]; [reflexivity|]. exfalso.
    assert (X : forall l, l1 ++ i :: j :: l2 = l -> existsb is_terminator (removelast l) = true).
    { intros l <-. apply existsb_exists. exists i. split; [|exact T]. rewrite removelast_app by discriminate. apply in_or_app. right. left. reflexivity. }
    repeat (destruct H as [H|H]; [injection H as _ H; symmetry in H; apply X in H; vm_compute in H; discriminate|]). destruct H. }
  split.
  { intros u d Iu Id Us. assert (X : forallb (fun d => negb (is_terminator d) || forallb (fun u => negb (mem (VReg (i_reg d)) (i_ops u))) (insts looping)) (insts looping) = true) by (vm_compute; reflexivity).
    rewrite forallb_forall in X. specialize (X d Id). destruct (is_terminator d); [|reflexivity]. cbn [negb orb] in X. rewrite forallb_forall in X. specialize (X u Iu).
    apply (proj2 (mem_In _ _)) in Us. rewrite Us in X. discriminate. }
  assert (L : computed_from "v" looping (call 6 "print" [VReg 4; VReg 5])).
  { apply computed_value with (load 5 (global "v")); [apply computed_variable; [cbn; auto 20|discriminate|left; reflexivity]|cbn; auto 20|discriminate|right; left; reflexivity|].
    exists [alloca 0; store 1 (int 3) (VReg 0); jmp 2 1; store 3 (VArg 0) (VReg 0); load 4 (VReg 0)], []. eexists. reflexivity. }
  assert (R4 : required (computed_from "v" looping) looping (load 4 (VReg 0))).
  { apply required_operand with (call 6 "print" [VReg 4; VReg 5]); [apply required_start; exact L|reflexivity|cbn; auto 20|left; reflexivity]. }
  assert (W1 : way looping (load 4 (VReg 0)) (alloca 0) (store 1 (int 3) (VReg 0))) by (apply way_next; exists 0, []; eexists; left; reflexivity).
  assert (W3 : way looping (load 4 (VReg 0)) (alloca 0) (store 3 (VArg 0) (VReg 0))).
  { apply way_on with (jmp 2 1); [|discriminate|right; split; [reflexivity|]; exists 1; eexists; split; [left; reflexivity|right; left; reflexivity]].
    apply way_on with (store 1 (int 3) (VReg 0)); [exact W1|discriminate|]. left. split; [discriminate|]. exists 0, [alloca 0]. eexists. left. reflexivity. }
  split; [|split].
  - apply required_write with (load 4 (VReg 0)) (alloca 0); [exact R4|reflexivity|cbn; auto|reflexivity|left; reflexivity|].
    apply write_here; [exact W1|left; split; [reflexivity|eexists; reflexivity]].
  - apply required_write with (load 4 (VReg 0)) (alloca 0); [exact R4|reflexivity|cbn; auto|reflexivity|left; reflexivity|].
    apply write_here; [exact W3|left; split; [reflexivity|eexists; reflexivity]].
  - vm_compute. reflexivity.
Qed.

(** *** What is stored in other ways is lost: a call that depends on the variable is made with
    another value. *)
Definition reads_other (f : func) : Prop :=
  exists n g args v a b, variable_slice (search f) "v" n f = Some g /\ made args f v = Some a /\ made args g v = Some b /\ length a = length b /\ a <> b.
Ltac other k := eexists 200, _, (fun _ => k), 1%Z; do 2 eexists; split; [vm_compute; reflexivity|]; split; [vm_compute; reflexivity|]; split; [vm_compute; reflexivity|]; split; [vm_compute; reflexivity|discriminate].
(** Through an address computed from the variable which is read through itself, unless it is computed
    right after the variable is made: here the part of a structure. *)
Definition through_part (between : list inst) := mkFunc "" 1
  [(0, alloca 0 :: between ++ [part 2 (VReg 0) 4; store 3 (int 5) (VReg 2); load 4 (VReg 2); load 5 (global "v"); call 6 "print" [VReg 4; VReg 5]; jmp 7 1]); (1, [ret 8 []])].
Theorem C159_part_refuted : in_order (through_part [alloca 1]) /\ nested (through_part [alloca 1]) /\ reads_other (through_part [alloca 1]) /\
  exists g, variable_slice (search (through_part [])) "v" 200 (through_part []) = Some g /\ In (store 3 (int 5) (VReg 2)) (insts g).
Proof.
  assert (O : in_order (through_part [alloca 1])) by (apply tidy_in_order; vm_compute; reflexivity).
  split; [exact O|]. split; [apply check_nested_spec; [exact O|vm_compute; reflexivity]|]. split; [other 0%Z|].
  eexists. split; [vm_compute; reflexivity|]. cbn. auto 10.
Qed.
Print Assumptions C159_part_refuted.
(** Behind a switch. *)
Theorem C159_switch_refuted : exists f, in_order f /\ nested f /\ reads_other f.
Proof.
  exists (mkFunc "" 1 [(0, [alloca 0; mkInst 1 Switch "" [VArg 0; VBlock 1; VBlock 2]]); (1, [store 2 (int 5) (VReg 0); jmp 3 2]);
    (2, [load 4 (VReg 0); load 5 (global "v"); call 6 "print" [VReg 4; VReg 5]; jmp 7 3]); (3, [ret 8 []])]).
  match goal with |- in_order ?f /\ _ => assert (O : in_order f) by (apply tidy_in_order; vm_compute; reflexivity) end.
  split; [exact O|]. split; [apply check_nested_spec; [exact O|vm_compute; reflexivity]|]. other 1%Z.
Qed.
Print Assumptions C159_switch_refuted.
(** In a loop, after the read. *)
Theorem C159_loop_refuted : exists f, NoDup (map i_reg (insts f)) /\ reads_other f.
Proof.
  exists (mkFunc "" 1 [(0, [alloca 0; jmp 1 1]);
    (1, [load 2 (VReg 0); load 3 (global "v"); call 4 "print" [VReg 2; VReg 3]; store 5 (int 7) (VReg 0); store 6 (int 0) (global "v"); branch 7 (VReg 3) 1 2]); (2, [jmp 8 3]); (3, [ret 9 []])]).
  split; [cbn; repeat (constructor; [cbn; intuition discriminate|]); constructor|]. other 0%Z.
Qed.
Print Assumptions C159_loop_refuted.
