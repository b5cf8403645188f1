(** * The end of slicing by a variable: blocks and return values (C156-C158) *)
From Coq Require Import String Ascii ZArith Arith Bool Lia List.
From Verif Require Import PyBase Funcomp_Model Funcomp_Spec Slice_Model Slice_Spec Slice_Reach Slice_Control Slice_Variable Slice_Whole Slice_Result Slice_Phi Slice_Props Trim_Model Trim_Spec Trim_Run Trim_Proofs Trim_Whole Trim_Slice Trim_Void.
Import ListNotations.
Open Scope list_scope.
Open Scope nat_scope.

(** ** Examples *)

(** The call depends on the variable; the branch on the argument goes only where the call is; blocks
    2 and 4 are empty then. *)
Definition skipping := mkFunc "" 2
  [(0, [load 0 (global "v"); equal 1 (VArg 0) (int 3); branch 2 (VReg 1) 1 2]);
   (1, [add 3 (VArg 1) (int 1); jmp 4 3]);
   (2, [add 5 (VArg 1) (int 2); jmp 6 3]);
   (3, [phi 7 [(VReg 3, 1); (VReg 5, 2)]; call 8 "print" [VReg 0]; jmp 9 4]);
   (4, [store 10 (VReg 7) (VArg 1); jmp 11 5]);
   (5, [ret 12 [VReg 7]])].
Ltac nodup := cbn; repeat (constructor; [cbn; intuition discriminate|]); constructor.
Lemma ended_check f : forallb (fun kb => forallb (fun i => negb (is_terminator i)) (removelast (snd kb))) (f_blocks f) = true -> ended f.
Proof.
  intros H b l1 i l2 I T. rewrite forallb_forall in H. specialize (H _ I). cbn [snd] in H. rewrite forallb_forall in H. destruct l2 as [|j l2]; [reflexivity|].
  exfalso. assert (X : In i (removelast (l1 ++ i :: j :: l2))).
  { clear. induction l1 as [|x l1 IH]; [left; reflexivity|]. cbn [app]. destruct (l1 ++ i :: j :: l2) eqn:E; [destruct l1; discriminate|]. right. exact IH. }
  specialize (H _ X). rewrite T in H. discriminate.
Qed.
Lemma next_key f p c : In c (next_blocks f p) -> In p (dkeys (f_blocks f)).
Proof.
  unfold next_blocks, block. destruct (dget (f_blocks f) p) eqn:E; [intros _|intros []]. apply dget_In in E. apply (in_map fst) in E. exact E.
Qed.
Definition check_whole (f : func) : bool :=
  forallb (fun kb => forallb (fun i => negb (is_terminator i)) (removelast (snd kb))) (f_blocks f) &&
  forallb (fun kb => is_terminator (last (snd kb) (add 0 (int 0) (int 0)))) (f_blocks f) &&
  forallb (fun b => negb (mem (entry f) (next_blocks f b))) (dkeys (f_blocks f)) &&
  forallb (fun p => forallb (fun c => forallb (fun i => negb (is_phi i) || mem p (map snd (incoming i))) (block f c)) (next_blocks f p)) (dkeys (f_blocks f)) &&
  forallb (fun i => match successors i with [t] => match i_code i, i_ops i with Br, [VBlock u] => Nat.eqb u t | _, _ => false end | _ => true end) (insts f).
Lemma check_whole_spec f : NoDup (map i_reg (insts f)) -> NoDup (dkeys (f_blocks f)) -> f_blocks f <> [] -> check_whole f = true -> whole f.
Proof.
  intros U N B H. unfold check_whole in H. repeat (apply andb_true_iff in H; destruct H as (H & ?)). constructor; auto.
  - apply ended_check. exact H.
  - intros b l I. rewrite forallb_forall in H3. specialize (H3 _ I). cbn [snd] in H3. destruct l as [|x l]; [discriminate|].
    exists (removelast (x :: l)), (last (x :: l) (add 0 (int 0) (int 0))). split; [|exact H3]. apply app_removelast_last. discriminate.
  - intros b X. rewrite forallb_forall in H2. specialize (H2 _ (next_key _ _ _ X)). apply negb_true_iff, mem_not_In in H2. exact (H2 X).
  - intros p c i X I P. rewrite forallb_forall in H1. specialize (H1 _ (next_key _ _ _ X)). rewrite forallb_forall in H1. specialize (H1 _ X). rewrite forallb_forall in H1. specialize (H1 _ I).
    rewrite P in H1. apply mem_In, in_map_iff in H1. destruct H1 as ([v q] & <- & V). exists v. exact V.
  - intros i t I X. rewrite forallb_forall in H0. specialize (H0 _ I). rewrite X in H0. destruct (i_code i); try discriminate. destruct (i_ops i) as [|v [|w l]]; try discriminate; destruct v; try discriminate.
    apply Nat.eqb_eq in H0. subst. auto.
Qed.
Ltac whole_example := apply check_whole_spec; [nodup|nodup|discriminate|vm_compute; reflexivity].
Lemma skipping_whole : whole skipping.
Proof. whole_example. Qed.

(** The function whose blocks were removed. *)
Definition cleaned (r : sliced) : func := match old r with Some h => h | None => named r end.
Lemma slice_parts reachable var n void used f r u : variable_slice reachable var n f = Some u -> slice_function reachable var n void used f = Some r ->
  exists g s, second_phase reachable n f (first_phase reachable var f) = Some (g, s) /\ u = remove_others g s /\ trim (in_blocks s) u = Some (cleaned r).
Proof.
  unfold variable_slice, slice_function, finish. destruct (second_phase _ _ _ _) as [[g s]|]; [|discriminate]. intros [= <-]. exists g, s. split; [reflexivity|]. split; [reflexivity|].
  destruct (trim _ _) as [h|]; [|discriminate]. injection H as <-. unfold cleaned. destruct (_ || _); reflexivity.
Qed.

(** ** C156: removing blocks does not change the runs *)

(** [inc] are the blocks that have something that is kept. *)
Definition holds_needed (reachable : (nat -> list nat) -> nat -> nat -> bool) (var : string) (n : nat) (f : func) (inc : list nat) : Prop :=
  exists g s, second_phase reachable n f (first_phase reachable var f) = Some (g, s) /\ inc = in_blocks s.
Theorem C156_same_runs reachable var n void used f r u inc : whole f -> variable_slice reachable var n f = Some u -> slice_function reachable var n void used f = Some r ->
  holds_needed reachable var n f inc -> goes_on inc u (entry u) (entry (cleaned r)) ->
  forall S cs args, plain_jumps S cs -> forall m o, ends_with S cs args u m o <-> ends_with S cs args (cleaned r) m o.
Proof.
  intros W V F (g0 & s0 & H0 & ->) G. destruct (slice_parts _ _ _ _ _ _ _ _ V F) as (g & s & H & -> & T). rewrite H in H0. injection H0 as <- <-.
  destruct (slice_emptied reachable var n f g s W H) as (E & _). exact (trim_behaves _ _ _ E T G).
Qed.
Print Assumptions C156_same_runs.
(** If something of the first block is kept, it stays the first. *)
Theorem C156_first_stays reachable var n void used f r u inc : whole f -> variable_slice reachable var n f = Some u -> slice_function reachable var n void used f = Some r ->
  holds_needed reachable var n f inc -> In (entry f) inc -> entry (cleaned r) = entry u.
Proof.
  intros W V F (g0 & s0 & H0 & ->) I. destruct (slice_parts _ _ _ _ _ _ _ _ V F) as (g & s & H & -> & T). rewrite H in H0. injection H0 as <- <-.
  destruct (slice_emptied reachable var n f g s W H) as (E & Ee). rewrite (trim_entry _ _ _ T). pose proof (first_steps _ _ E) as St. unfold drop_first.
  rewrite (tr_entry _ _ _ St), Ee. rewrite (proj2 (mem_In _ _) I). cbn [negb andb]. rewrite (tr_entry _ _ _ St), Ee. reflexivity.
Qed.
Print Assumptions C156_first_stays.

Lemma machine_plain : plain_jumps machine constant.
Proof. constructor; reflexivity. Qed.
Definition skipped_u := mkFunc "" 2
  [(0, [load 0 (global "v"); jmp 2 1]); (1, [jmp 4 3]); (2, [jmp 6 3]); (3, [call 8 "print" [VReg 0]; jmp 9 4]); (4, [jmp 11 5]); (5, [ret 12 [global "undef"]])].
Definition skipped := mkFunc "" 2 [(0, [load 0 (global "v"); jmp 2 3]); (3, [call 8 "print" [VReg 0]; jmp 9 5]); (5, [ret 12 [global "undef"]])].
Example C156_hypotheses_met : whole skipping /\ plain_jumps machine constant /\ variable_slice (search skipping) "v" 100 skipping = Some skipped_u /\
  slice_function (search skipping) "v" 100 false true skipping = Some (mkSliced skipped None) /\
  exists inc, holds_needed (search skipping) "v" 100 skipping inc /\ In (entry skipping) inc /\ goes_on inc skipped_u (entry skipped_u) (entry skipped).
Proof.
  split; [exact skipping_whole|]. split; [exact machine_plain|]. split; [vm_compute; reflexivity|]. split; [vm_compute; reflexivity|].
  eexists. split; [do 2 eexists; split; [vm_compute; reflexivity|reflexivity]|]. split; [vm_compute; auto|constructor].
Qed.
(** The first block is removed here: the second is the first then, it is where the first went to. *)
Definition starting := mkFunc "" 1
  [(0, [add 0 (VArg 0) (int 1); jmp 1 1]); (1, [store 2 (VReg 0) (VArg 0); mkInst 3 Switch "" [VArg 0; VBlock 2; VBlock 3]]);
   (2, [load 4 (global "v"); call 5 "print" [VReg 4]; jmp 6 3]); (3, [ret 7 []])].
Example C156_first_removed : whole starting /\ exists u h inc, variable_slice (search starting) "v" 100 starting = Some u /\
  slice_function (search starting) "v" 100 true false starting = Some (mkSliced h None) /\ holds_needed (search starting) "v" 100 starting inc /\
  entry u = 0 /\ entry h = 1 /\ goes_on inc u 0 1.
Proof.
  split; [whole_example|]. do 3 eexists. split; [vm_compute; reflexivity|]. split; [vm_compute; reflexivity|]. split; [do 2 eexists; split; [vm_compute; reflexivity|reflexivity]|].
  split; [reflexivity|]. split; [reflexivity|]. apply goes_step with 1; [vm_compute; intuition discriminate|vm_compute; intuition discriminate|reflexivity|constructor].
Qed.
(** The first block is removed, and the next one in the text is not where it went to: that is run
    now, whatever was decided before. *)
Definition jumping := mkFunc "" 1
  [(0, [jmp 0 2]); (1, [load 1 (global "v"); call 2 "print" [VReg 1]; jmp 3 3]); (2, [mkInst 4 Switch "" [VArg 0; VBlock 1; VBlock 3]]); (3, [ret 5 []])].
Theorem C156_other_first_refuted : exists f u h args m, whole f /\ variable_slice (search f) "v" 100 f = Some u /\
  slice_function (search f) "v" 100 true false f = Some (mkSliced h None) /\
  ends_with machine constant args f m (Returned [] m) /\ ends_with machine constant args u m (Returned [] m) /\
  exists m', m' <> m /\ ends_with machine constant args h m (Returned [] m').
Proof.
  exists jumping. do 2 eexists. exists (fun _ => 0%Z), ([], []). split; [whole_example|]. split; [vm_compute; reflexivity|]. split; [vm_compute; reflexivity|].
  split; [split; [discriminate|exists 20; vm_compute; reflexivity]|]. split; [split; [discriminate|exists 20; vm_compute; reflexivity]|].
  eexists. split; [|split; [discriminate|exists 20; vm_compute; reflexivity]]. discriminate.
Qed.
Print Assumptions C156_other_first_refuted.

(** ** C157: which blocks and instructions are left *)

(** What is left has the instructions it had, and can be reached. *)
Theorem C157_left reachable var n void used f r u b l : whole f -> variable_slice reachable var n f = Some u -> slice_function reachable var n void used f = Some r ->
  In (b, l) (f_blocks (cleaned r)) ->
  path (next_blocks (cleaned r)) (entry (cleaned r)) b /\ exists l0, In (b, l0) (f_blocks u) /\ Forall2 same_inst l0 l.
Proof.
  intros W V F I. destruct (slice_parts _ _ _ _ _ _ _ _ V F) as (g & s & H & -> & T). destruct (slice_emptied reachable var n f g s W H) as (E & _).
  split; [apply (trim_reachable _ _ _ b T); apply (in_map fst) in I; exact I|]. exact (lt_blocks _ _ (trim_later _ _ _ E T) b l I).
Qed.
Print Assumptions C157_left.
(** PHI nodes have values for the edges that are there, and for no other if it was so before. *)
Theorem C157_edges reachable var n void used f r u : whole f -> variable_slice reachable var n f = Some u -> slice_function reachable var n void used f = Some r ->
  let h := cleaned r in
  (forall p c i, In c (next_blocks h p) -> In i (block h c) -> is_phi i = true -> exists v, In (v, p) (incoming i)) /\
  ((forall p c i v, In i (block u c) -> is_phi i = true -> In (v, p) (incoming i) -> In c (next_blocks u p)) ->
   forall p c i v, In i (block h c) -> is_phi i = true -> In (v, p) (incoming i) -> In c (next_blocks h p)).
Proof.
  intros W V F. cbn zeta. destruct (slice_parts _ _ _ _ _ _ _ _ V F) as (g & s & H & -> & T). destruct (slice_emptied reachable var n f g s W H) as (E & _).
  pose proof (trim_later _ _ _ E T) as L. split; [exact (lt_complete _ _ L (em_phis _ _ E))|exact (lt_no_more _ _ L)].
Qed.
Print Assumptions C157_edges.
(** Nothing that depends on the variable is lost with the blocks, if the slice can get to it. *)
Theorem C157_dependent_stay reachable var n void used f r u inc b l i :
  exact f reachable -> in_order f -> nested f -> whole f -> variable_slice reachable var n f = Some u -> slice_function reachable var n void used f = Some r ->
  holds_needed reachable var n f inc -> goes_on inc u (entry u) (entry (cleaned r)) ->
  depends_on var f i -> In (b, l) (f_blocks f) -> In i l -> path (next_blocks u) (entry u) b ->
  exists l' i', In (b, l') (f_blocks (cleaned r)) /\ In i' l' /\ i_reg i' = i_reg i /\ i_rest i' = i_rest i /\ is_phi i' = is_phi i /\ (is_phi i = false -> i_code i' = i_code i).
Proof.
  intros R O N W V F (g0 & s0 & H0 & ->) G D L I P. destruct (C104_dependent_kept reachable var n f u b l i R O N V D L I) as (l1 & i1 & L1 & I1 & R1 & X1 & Np & Pp).
  destruct (slice_parts _ _ _ _ _ _ _ _ V F) as (g & s & H & -> & T). rewrite H in H0. injection H0 as <- <-.
  destruct (slice_emptied reachable var n f g s W H) as (E & _). pose proof (wh_regs f W) as U.
  assert (Dp : In (i_reg i) (dependent (first_phase reachable var f))) by (apply dependent_found; try assumption; apply in_flat_map; exists (b, l); split; assumption).
  destruct (phase_located reachable var f U) as [I0 _].
  pose proof (second_spec reachable f U (wh_blocks f W) (wh_ended f W) n _ g s I0 H) as Sec.
  assert (Bs : In b (in_blocks s)).
  { apply (second_placed reachable f U (wh_blocks f W) (wh_ended f W) _ n _ g s eq_refl I0 H (first_placed reachable var f U _) (i_reg i) b); [apply (parent_of f U b l); assumption| |right; rewrite (sec_dependent _ _ _ _ Sec); exact Dp].
    rewrite (proj2 (mem_In _ _) Dp). apply andb_false_r. }
  assert (K : In b (dkeys (f_blocks (cleaned r)))) by (apply (trim_kept _ _ _ b E T G Bs); [apply (in_map fst) in L1; exact L1|exact P]).
  apply in_map_iff in K. destruct K as ([b' l'] & Eb & K). cbn [fst] in Eb. subst b'. destruct (lt_blocks _ _ (trim_later _ _ _ E T) b l' K) as (l0 & L0 & S0).
  assert (l0 = l1) by (rewrite <- (block_is _ _ _ (em_blocks _ _ E) L0); apply block_is; [apply (em_blocks _ _ E)|exact L1]). subst l0.
  destruct (Forall2_left _ _ _ _ S0 I1) as (i' & I' & (Q1 & Q2 & Q3 & Q4)). exists l', i'. split; [exact K|]. split; [exact I'|]. split; [congruence|]. split; [congruence|].
  assert (Ph : is_phi i1 = is_phi i) by (destruct (is_phi i) eqn:Z; [apply Pp; reflexivity|rewrite (Np eq_refl); exact Z]).
  split; [congruence|]. intros Z. destruct (Q4 (eq_trans Ph Z)) as (Q5 & _). rewrite Q5. rewrite (Np Z). reflexivity.
Qed.
Print Assumptions C157_dependent_stay.
Example C157_hypotheses_met : exact deciding (search deciding) /\ in_order deciding /\ nested deciding /\ whole deciding /\ depends_on "v" deciding (load 0 (global "v")) /\
  exists u h inc, variable_slice (search deciding) "v" 100 deciding = Some u /\ slice_function (search deciding) "v" 100 true false deciding = Some (mkSliced h None) /\
  holds_needed (search deciding) "v" 100 deciding inc /\ goes_on inc u (entry u) (entry h) /\ path (next_blocks u) (entry u) 0 /\ dkeys (f_blocks h) = [0; 1; 2; 3; 5; 6].
Proof.
  destruct C104_hypotheses_met as (X & O & N & _). split; [exact X|]. split; [exact O|]. split; [exact N|]. split; [whole_example|].
  split; [apply depends_variable; [vm_compute; auto|left; reflexivity]|]. do 3 eexists. split; [vm_compute; reflexivity|]. split; [vm_compute; reflexivity|].
  split; [do 2 eexists; split; [vm_compute; reflexivity|reflexivity]|]. split; [constructor|]. split; [constructor|reflexivity].
Qed.

(** ** C158: the return value *)

(** The function becomes one that returns nothing exactly if it returned something, it is not used,
    and the return is not kept; otherwise there is only the function whose blocks were removed. *)
Theorem C158_when reachable var n void used f r g s : slice_function reachable var n void used f = Some r ->
  second_phase reachable n f (first_phase reachable var f) = Some (g, s) ->
  (old r <> None <-> void = false /\ used = false /\
     exists b t, return_block f = Some b /\ terminator (block (remove_others g s) b) = Some t /\ ~ In (i_reg t) (included s) /\ ~ In (i_reg t) (dependent s)).
Proof.
  intros F H. unfold slice_function in F. rewrite H in F. unfold finish in F. destruct (trim _ _) as [h|]; [|discriminate]. injection F as <-.
  destruct (return_block f) as [b|].
  - destruct (terminator (block (remove_others g s) b)) as [t|] eqn:T.
    + destruct (mem (i_reg t) (included s ++ dependent s)) eqn:K; cbn [orb].
      * split; [intros X; destruct (X eq_refl)|]. intros (_ & _ & b' & t' & E & T' & N1 & N2). injection E as <-. rewrite T in T'. injection T' as <-. apply mem_In, in_app_iff in K. tauto.
      * apply mem_not_In in K. rewrite in_app_iff in K. destruct void, used; cbn [orb old]; split; try (intros X; destruct (X eq_refl)); try (intros (X1 & X2 & _); discriminate).
        { intros _. split; [reflexivity|]. split; [reflexivity|]. exists b, t. repeat split; try tauto. }
    + cbn [orb]. split; [intros X; destruct (X eq_refl)|]. intros (_ & _ & b' & t' & E & T' & _). injection E as <-. rewrite T in T'. discriminate.
  - cbn [orb]. split; [intros X; destruct (X eq_refl)|]. intros (_ & _ & b' & t' & E & _). discriminate.
Qed.
Print Assumptions C158_when.
(** The function that returns nothing runs as the slice does, except for the values returned; it has
    all the blocks of the function. *)
Theorem C158_runs reachable var n void used f r u : variable_slice reachable var n f = Some u -> slice_function reachable var n void used f = Some r -> old r <> None ->
  (forall S cs args k m, result S cs args (named r) k m = without_values (result S cs args u k m)) /\
  dkeys (f_blocks (named r)) = dkeys (f_blocks u) /\
  forall i, In i (insts (named r)) -> i_code i = Ret -> i_ops i = [].
Proof.
  intros V F O. unfold variable_slice in V. unfold slice_function in F. destruct (second_phase _ _ _ _) as [[g s]|]; [|discriminate]. injection V as <-. unfold finish in F.
  destruct (trim _ _) as [h|]; [|discriminate]. injection F as <-. destruct (_ || _); [destruct (O eq_refl)|]. cbn [named]. split; [|split].
  - intros S cs args k m. unfold result. rewrite void_entry. apply void_run. intros x. reflexivity.
  - unfold to_void, dkeys. cbn [f_blocks]. rewrite map_map. reflexivity.
  - intros i I C. unfold insts, to_void in I. cbn [f_blocks] in I. apply in_flat_map in I. destruct I as (kb & K & I). apply in_map_iff in K. destruct K as (kb0 & <- & _). cbn [snd] in I. apply in_map_iff in I. destruct I as (j & <- & _).
    rewrite void_code in C. unfold void_return. rewrite C. reflexivity.
Qed.
Print Assumptions C158_runs.
Example C158_hypotheses_met : exists r u, variable_slice (search skipping) "v" 100 skipping = Some u /\ slice_function (search skipping) "v" 100 false false skipping = Some r /\
  old r = Some skipped /\ dkeys (f_blocks (named r)) = [0; 1; 2; 3; 4; 5].
Proof. do 2 eexists. split; [vm_compute; reflexivity|]. split; [vm_compute; reflexivity|]. split; reflexivity. Qed.
(** So the blocks that are empty are not removed from it. *)
Theorem C158_blocks_left_refuted : exists f r b, whole f /\ slice_function (search f) "v" 100 false false f = Some r /\
  In b (dkeys (f_blocks (named r))) /\ ~ path (next_blocks (named r)) (entry (named r)) b /\ ~ In b (dkeys (f_blocks (cleaned r))).
Proof.
  exists skipping. eexists. exists 2. split; [exact skipping_whole|]. split; [vm_compute; reflexivity|]. split; [vm_compute; auto|]. split; [|vm_compute; intuition discriminate].
  intros P. assert (X : forall x y, path (next_blocks (to_void skipped_u)) x y -> x <> 2 -> y <> 2).
  { intros x y Q. induction Q as [x|x y z Q IH E]; [auto|]. intros N. specialize (IH N). intros ->. apply next_key in E as K. cbn in K. repeat (destruct K as [<- |K]; [vm_compute in E; intuition discriminate|]). destruct K. }
  refine (X _ _ P _ eq_refl). discriminate.
Qed.
Print Assumptions C158_blocks_left_refuted.
(** The slice is there if something is kept in some block. *)
Theorem C158_defined reachable var n void used f inc b : whole f -> holds_needed reachable var n f inc -> In b inc -> In b (dkeys (f_blocks f)) ->
  exists r, slice_function reachable var n void used f = Some r.
Proof.
  intros W (g & s & H & ->) I K. destruct (slice_emptied reachable var n f g s W H) as (E & _).
  pose proof (second_spec reachable f (wh_regs f W) (wh_blocks f W) (wh_ended f W) n _ g s (proj1 (phase_located reachable var f (wh_regs f W))) H) as Sec. pose proof (sec_shrunk _ _ _ _ Sec) as Sh.
  destruct (trim_defined _ _ b E I) as (h & T).
  { rewrite slice_keys. replace (dkeys (f_blocks g)) with (dkeys (f_blocks f)); [exact K|]. unfold dkeys. clear - Sh. unfold shrunk in Sh. induction Sh as [|x y l l' (X & _) _ IH]; [reflexivity|]. cbn [map]. congruence. }
  unfold slice_function. rewrite H. unfold finish. rewrite T. eexists. reflexivity.
Qed.
Print Assumptions C158_defined.
(** A function of one block that does not use the variable: its only block is removed, and then the
    first block of a function without blocks is taken. *)
Theorem C158_nothing_left_refuted : exists f, whole f /\ variable_slice (search f) "v" 100 f <> None /\ forall void used, slice_function (search f) "v" 100 void used f = None.
Proof.
  exists (mkFunc "" 1 [(0, [add 0 (VArg 0) (int 1); ret 1 [VReg 0]])]). split; [whole_example|]. split; [vm_compute; discriminate|]. intros [] []; vm_compute; reflexivity.
Qed.
Print Assumptions C158_nothing_left_refuted.
