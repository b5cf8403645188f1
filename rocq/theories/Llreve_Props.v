(** * Properties of the semantic tool (C143) *)
From Coq Require Import String ZArith Arith Bool Lia List.
From Verif Require Import PyBase Result_Model Driver_Model Compare_Spec Llreve_Model Llreve_Spec Llreve_Proofs.
Import ListNotations.
Open Scope list_scope.

(** ** C143 *)
(** Whatever the order of steps: a result is that of the timer, or the last answer in all of z3's output. *)
Theorem C143_verdict room code writes todo ls n s k : Output todo ls -> steps room code n (start writes todo) s -> parent s = Done k ->
  (fired s = true /\ k = TIMEOUT) \/ (fired s = false /\ Verdict ls code k).
Proof.
  intros O R P. apply output_lines in O. subst ls. pose proof (inv_steps room code todo n _ _ R ltac:(intros Q; destruct (Q eq_refl)) (inv_start room code writes todo)) as I. unfold Inv in I. rewrite P in I.
  destruct I as [I|(F & V & _)]; auto.
Qed.
Print Assumptions C143_verdict.
(** Equal only if z3 answered so. *)
Theorem C143_equal room code writes todo n s : steps room code n (start writes todo) s -> parent s = Done EQUAL ->
  code = 0%Z /\ exists ls a l b, Output todo ls /\ ls = a ++ l :: b /\ Word l "unsat" /\ forall m, In m b -> ~ Word m "sat" /\ ~ Word m "unknown".
Proof.
  intros R P. destruct (C143_verdict _ _ _ _ _ _ _ _ (lines_output todo) R P) as [(_ & Q)|(_ & [(_ & Q)|(Z & [(a & l & b & E & M & N)|(Q & _)])])]; try discriminate.
  split; [exact Z|]. exists (lines todo), a, l, b. split; [apply lines_output|]. split; [exact E|]. destruct M as [(_ & Q)|[(M & _)|(_ & Q)]]; try discriminate. split; [exact M|].
  intros m I. split; intros W; eapply (N m _ I); [left|right; right]; split; try exact W; reflexivity.
Qed.
Print Assumptions C143_equal.
(** It always ends: the number of steps is bounded, and where no step is possible there is a result. *)
Theorem C143_ends room code writes todo n s : steps room code n (start writes todo) s ->
  n <= length writes + length todo + 5 /\ (Stuck room code s -> exists k, parent s = Done k).
Proof.
  intros R. split; [apply measure_steps in R; unfold measure at 2 in R; cbn in R; lia|]. assert (E0 : ended (start writes todo)) by (intros Q; destruct (Q eq_refl)).
  apply (stuck_done room code). { eapply (ended_steps room code todo); [exact R|exact E0|apply inv_start]. }
  intros _. eapply fired_steps; [exact R|]. cbn. discriminate.
Qed.
Print Assumptions C143_ends.
(** z3's output is read after z3 ended: if it does not fit in a pipe, the result is a timeout, whatever the answer is. *)
Theorem C143_long_output_refuted room code writes todo ls n s k : Output todo ls -> ~ Fits ls room -> steps room code n (start writes todo) s -> parent s = Done k -> k = TIMEOUT.
Proof.
  intros O F R P. apply output_lines in O. subst ls. pose proof (inv_steps room code todo n _ _ R ltac:(intros Q; destruct (Q eq_refl)) (inv_start room code writes todo)) as I. unfold Inv in I. rewrite P in I.
  destruct I as [(_ & I)|(_ & _ & S)]; [exact I|]. destruct F. apply size_fits. exact S.
Qed.
Print Assumptions C143_long_output_refuted.
Definition proved : list action := [Read; Write "unsat"%string].
Example C143_example : exists n s, steps 9 0 n (start [4] proved) s /\ parent s = Done EQUAL /\ Output proved ["unsat"%string] /\ Fits ["unsat"%string] 9.
Proof.
  eexists _, _. split; [|split; [|split; [repeat constructor|apply size_fits; vm_compute; lia]]].
  - eapply Steps_more; [apply Llreve_writes; vm_compute; lia|]. eapply Steps_more; [apply Z3_reads|]. eapply Steps_more; [apply Llreve_ends|]. eapply Steps_more; [apply Z3_writes; vm_compute; lia|]. eapply Steps_more; [apply Z3_ends|].
    eapply Steps_more; [apply Parent_reads|]. eapply Steps_more; [apply Parent_ends|]. apply Steps_none.
  - reflexivity.
Qed.
(** The timer may fire after z3 answered and was read: then the answer is lost. *)
Theorem C143_answer_in_time_refuted : exists n s n' s', steps 9 0 n (start [4] proved) s /\ fired s = false /\ parent s = Checking EQUAL /\ steps 9 0 n' s s' /\ parent s' = Done TIMEOUT.
Proof.
  eexists _, _, _, _. split.
  - eapply Steps_more; [apply Llreve_writes; vm_compute; lia|]. eapply Steps_more; [apply Z3_reads|]. eapply Steps_more; [apply Llreve_ends|]. eapply Steps_more; [apply Z3_writes; vm_compute; lia|]. eapply Steps_more; [apply Z3_ends|].
    eapply Steps_more; [apply Parent_reads|]. apply Steps_none.
  - split; [reflexivity|]. split; [reflexivity|]. split; [eapply Steps_more; [apply Timer_fires; discriminate|]; eapply Steps_more; [apply Parent_ends|]; apply Steps_none|reflexivity].
Qed.
Print Assumptions C143_answer_in_time_refuted.
(** llreve may remain for ever: if z3 ends without reading and llreve has more to write than fits, nothing ends it any more. *)
Theorem C143_nothing_left_refuted : exists n s, steps 9 1 n (start [20] []) s /\ parent s = Done ERROR /\ llreve s = Some [20] /\ Stuck 9 1 s.
Proof.
  eexists _, _. split; [eapply Steps_more; [apply Z3_ends|]; eapply Steps_more; [apply Parent_reads|]; eapply Steps_more; [apply Parent_ends|]; apply Steps_none|]. split; [reflexivity|]. split; [reflexivity|].
  intros s' H. inversion H; subst; cbn in *; try lia; match goal with N : forall k, _ <> Done k |- _ => eapply N; reflexivity end.
Qed.
Print Assumptions C143_nothing_left_refuted.
(** The functions that are coupled are those called in both modules, but the compared ones and debug info. *)
Theorem C143_couplings first second f g cs : couplings first second f g = Ok cs -> forall a b, In (a, b) cs <->
  a = b /\ exists fs gs, first f = Some fs /\ second g = Some gs /\ In a fs /\ In a gs /\ a <> f /\ a <> g /\ a <> "llvm.dbg.value"%string /\ a <> "llvm.dbg.declare"%string.
Proof.
  unfold couplings, called_by. assert (M : forall c h, negb (mem c (h :: supported)) = true <-> c <> h /\ c <> "llvm.dbg.value"%string /\ c <> "llvm.dbg.declare"%string).
  { intros c h. rewrite negb_true_iff. destruct (mem c (h :: supported)) eqn:E.
    - apply mem_In in E. split; [discriminate|]. intros (A & B & C). destruct E as [E|[E|[E|[]]]]; congruence.
    - split; [|reflexivity]. intros _. assert (Q : ~ In c (h :: supported)) by (intros Q; apply mem_In in Q; congruence). repeat split; intros W; apply Q; rewrite W; cbn; auto. }
  destruct (first f) as [fs|] eqn:F; [|discriminate]. destruct (second g) as [gs|] eqn:G.
  - intros E a b.
    assert (E' : cs = flat_map (fun a => map (fun b => (a, b)) (filter (String.eqb a) (filter (fun c => negb (mem c (g :: supported))) gs))) (filter (fun c => negb (mem c (f :: supported))) fs)).
    { destruct (filter (fun c => negb (mem c (f :: supported))) fs); injection E as <-; reflexivity. }
    subst cs. rewrite in_flat_map. split.
    + intros (x & X & Y). apply in_map_iff in Y as (y & Q & Y). injection Q as -> ->. apply filter_In in Y as (Y & Q). apply String.eqb_eq in Q. subst b. split; [reflexivity|]. apply filter_In in X as (X & X'). apply filter_In in Y as (Y & Y'). apply M in X'. apply M in Y'. exists fs, gs. tauto.
    + intros (<- & fs' & gs' & Q1 & Q2 & X & Y & N1 & N2 & N3 & N4). injection Q1 as <-. injection Q2 as <-. exists a. split; [apply filter_In; split; [exact X|apply M; auto]|]. apply in_map_iff. exists a. split; [reflexivity|]. apply filter_In. split; [apply filter_In; split; [exact Y|apply M; auto]|apply String.eqb_refl].
  - destruct (filter (fun c => negb (mem c (f :: supported))) fs) eqn:X; [|discriminate]. intros E a b. injection E as <-. split; [intros []|]. intros (_ & ? & ? & _ & Q & _). discriminate.
Qed.
Print Assumptions C143_couplings.
(** A name without a function ends with a TypeError, which nobody handles. *)
Theorem C143_missing first second f g : (first f = None -> couplings first second f g = Err TypeError) /\
  (second g = None -> (exists fs a, first f = Some fs /\ In a fs /\ a <> f /\ a <> "llvm.dbg.value"%string /\ a <> "llvm.dbg.declare"%string) -> couplings first second f g = Err TypeError).
Proof.
  unfold couplings, called_by. split; [intros ->; reflexivity|]. intros -> (fs & a & -> & I & A & B & C).
  destruct (filter (fun c => negb (mem c (f :: supported))) fs) eqn:X; [|reflexivity]. exfalso.
  assert (Q : In a (filter (fun c => negb (mem c (f :: supported))) fs)); [|rewrite X in Q; destruct Q]. apply filter_In. split; [exact I|]. apply negb_true_iff. destruct (mem a (f :: supported)) eqn:E; [|reflexivity]. apply mem_In in E as [E|[E|[E|[]]]]; congruence.
Qed.
Print Assumptions C143_missing.
(** Every coupled pair is given to llreve, behind the modules and functions. *)
Theorem C143_command first second f g cs : incl ["-muz"; "--ir-input"; "--bitvect"; "--infer-marks"; "--disable-auto-coupling"]%string (command first second f g cs) /\ In ("--fun=" ++ f ++ "," ++ g)%string (command first second f g cs) /\
  nth_error (command first second f g cs) 1 = Some first /\ nth_error (command first second f g cs) 2 = Some second /\
  forall a b, In (a, b) cs -> In ("--couple-functions=" ++ a ++ "," ++ b)%string (command first second f g cs).
Proof.
  split; [intros x H; unfold command; apply in_app_iff; left; cbn in *; tauto|]. split; [cbn; auto|]. split; [reflexivity|]. split; [reflexivity|]. intros a b I. unfold command. apply in_app_iff. right. apply in_map_iff. exists (a, b). auto.
Qed.
Print Assumptions C143_command.
(** When the timer fired, neither process is left. *)
Theorem C143_timer_kills room code writes todo n s : steps room code n (start writes todo) s -> fired s = true -> llreve s = None /\ exists c, z3 s = Exited c.
Proof.
  assert (X : forall n a b, steps room code n a b -> (fired a = true -> llreve a = None /\ exists c, z3 a = Exited c) -> fired b = true -> llreve b = None /\ exists c, z3 b = Exited c).
  { intros k a b R. induction R as [a|k a a1 b St R IH]; [auto|]. intros H. apply IH. clear IH R. intros F. destruct St; cbn in *; try (destruct (H F) as (Q1 & q & Q2); subst; solve [congruence|split; [reflexivity|eauto]]).
    split; [reflexivity|]. destruct z; eauto. }
  intros R. apply (X _ _ _ R). discriminate.
Qed.
Print Assumptions C143_timer_kills.
Example C143_timer_met : exists n s, steps 9 0 n (start [4] proved) s /\ fired s = true /\ parent s = Done TIMEOUT.
Proof. eexists _, _. split; [eapply Steps_more; [apply Timer_fires; discriminate|]; eapply Steps_more; [apply Parent_reads|]; eapply Steps_more; [apply Parent_ends|]; apply Steps_none|]. split; reflexivity. Qed.
