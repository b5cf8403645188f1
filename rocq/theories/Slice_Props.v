(** * Slices of functions: C102, C103, C104, C105 *)
From Coq Require Import String Ascii ZArith Arith Bool Lia List.
From Verif Require Import PyBase Funcomp_Model Funcomp_Spec Slice_Model Slice_Spec Slice_Effect Slice_Control Slice_Run Slice_Reach Slice_Variable Slice_Whole Slice_Result Slice_Phi.
Import ListNotations.
Open Scope list_scope.
Open Scope nat_scope.

Definition load r p := mkInst r Load "" [p].
Definition store r v p := mkInst r Store "" [v; p].
Definition jmp r b := mkInst r Br "" [VBlock b].
Definition branch r c x y := mkInst r Br "" [c; VBlock y; VBlock x].
Definition call r n args := mkInst r Call "" (args ++ [VConst (CGlobal n)]).
Definition global n := VConst (CGlobal n).

Definition ret r vs := mkInst r Ret "" vs.
Definition int z := VConst (CInt z).
Definition add r a b := mkInst r (Binop "add") "" [a; b].
Definition equal r a b := mkInst r (Cmp "eq") "" [a; b].
Definition bitcast r a := mkInst r (Cast true) "" [a].
Definition phi r (l : list (value * nat)) := mkInst r (Phi (map snd l)) "" (map fst l).

(** A meaning of the IR: memory by addresses, and the calls that were made with their arguments. *)
Definition cell (m : list (Z * Z)) (a : Z) : Z := match find (fun e => Z.eqb (fst e) a) m with Some (_, v) => v | None => 0%Z end.
Definition constant (c : const) : Z :=
  match c with CInt z => z | CGlobal n => if String.eqb n "v" then 1000%Z else if String.eqb n "undef" then 0%Z else (2000 + Z.of_nat (String.length n))%Z end.
Definition machine : semantics := mkSem Z (list (Z * Z) * list (list Z))%type 0%Z constant constant
  (fun c _ vs m =>
     match c, vs with
     | Load, [a] => Some (cell (fst m) a, m)
     | Store, [v; a] => Some (0%Z, ((a, v) :: fst m, snd m))
     | Call, _ => Some (0%Z, (fst m, snd m ++ [vs]))
     | Alloca, _ => Some (500%Z, m)
     | Cmp _, [a; b] => Some ((if Z.eqb a b then 1 else 0)%Z, m)
     | _, _ => Some (fold_right Z.add 0%Z vs, m)
     end)
  (fun c _ vs => match c, vs with Br, [_] => Some 0 | _, x :: _ => Some (if Z.eqb x 0 then 1 else 0) | _, [] => None end).
(** The calls made until the return, with 1000 the address of the variable. *)
Definition made (args : nat -> Z) (f : func) (v : Z) : option (list (list Z)) :=
  match result machine constant args f 20 ([(1000, v)]%Z, []) with Returned _ m => Some (snd m) | _ => None end.
(** The calls that [f] makes depend on the variable, those that [g] makes do not. *)
Definition missed (f g : func) : Prop :=
  exists args a b, made args f 0%Z = Some a /\ made args f 1%Z = Some b /\ a <> b /\ made args g 0%Z = made args g 1%Z /\ made args g 0%Z <> None.

(** ** C102: what the slice by control flow keeps *)

Theorem C102_side_effects m g : has_side_effect m g = true <-> effect m g.
Proof. apply has_side_effect_spec. Qed.
Print Assumptions C102_side_effects.
Theorem C102_kept m f : NoDup (map i_reg (insts f)) -> casts_result m f -> keeps_only (needed m f) f (control_slice m f).
Proof. intros N C. apply control_sliced; assumption. Qed.
Print Assumptions C102_kept.

(** [pure] has no effect, [writes] has one, and [both] calls both. *)
Definition some_functions : module :=
  [("pure", Some (mkFunc "" 1 [(0, [load 0 (VArg 0); ret 1 [VReg 0]])]));
   ("writes", Some (mkFunc "" 1 [(0, [store 0 (int 1) (VArg 0); ret 1 []])]));
   ("both", Some (mkFunc "" 1 [(0, [call 0 "pure" [VArg 0]; call 1 "both" []; call 2 "writes" [VArg 0]; ret 3 []])]));
   ("kmalloc", None); ("print", None)]%string.
Example C102_effects : effect some_functions "both" /\ ~ effect some_functions "pure".
Proof. rewrite <- !C102_side_effects. split; [vm_compute; reflexivity|vm_compute; discriminate]. Qed.
(** The result of [pure] is only stored: neither is kept. *)
Definition allocating := mkFunc "" 3
  [(0, [call 0 "pure" [VArg 0]; store 1 (VReg 0) (VArg 0); call 2 "kmalloc" [int 8]; bitcast 3 (VReg 2); store 4 (VArg 1) (VReg 3); load 5 (VArg 1); branch 6 (VReg 5) 1 2]);
   (1, [add 7 (VArg 2) (int 1); call 8 "print" [VReg 7]; jmp 9 2]);
   (2, [add 10 (VArg 2) (int 2); ret 11 []])].
Lemma follows_In f i c : follows f i c -> In (i, c) (flat_map (fun kb => combine (snd kb) (tl (snd kb))) (f_blocks f)).
Proof.
  intros (b & l1 & l2 & H). apply in_flat_map. exists (b, l1 ++ i :: c :: l2). split; [exact H|]. cbn [snd]. clear H.
  induction l1 as [|x l1 IH]; [left; reflexivity|]. destruct l1 as [|y l1]; [right; left; reflexivity|]. right. exact IH.
Qed.
Lemma calls_called m i g : calls m i g -> called m i = Some g.
Proof. intros C. apply called_spec; [apply C|exact C]. Qed.
Lemma allocating_casts : casts_result some_functions allocating.
Proof.
  intros i c g F C G K. apply follows_In in F. apply calls_called in C. cbn in F.
  repeat (destruct F as [F|F]; [injection F as <- <-; first [discriminate K|reflexivity]|]). destruct F.
Qed.
Lemma allocating_regs : NoDup (map i_reg (insts allocating)).
Proof. cbn. repeat (constructor; [cbn; intuition discriminate|]). constructor. Qed.
Example C102_hypotheses_met : NoDup (map i_reg (insts allocating)) /\ casts_result some_functions allocating /\
  f_blocks (control_slice some_functions allocating) =
    [(0, [call 2 "kmalloc" [int 8]; bitcast 3 (VReg 2); store 4 (VArg 1) (VReg 3); load 5 (VArg 1); branch 6 (VReg 5) 1 2]);
     (1, [add 7 (VArg 2) (int 1); call 8 "print" [VReg 7]; jmp 9 2]); (2, [ret 11 []])].
Proof. split; [exact allocating_regs|]. split; [exact allocating_casts|]. vm_compute. reflexivity. Qed.

(** A bit cast after an allocation, of something else: it is kept, what it casts is not. *)
Theorem C102_other_cast_refuted : exists f i i', NoDup (map i_reg (insts f)) /\ In i (insts f) /\ In i' (insts (control_slice some_functions f)) /\
  i_reg i' = i_reg i /\ i_ops i = [VReg 0] /\ i_ops i' = [VConst (CGlobal "undef")] /\ ~ keeps_only (needed some_functions f) f (control_slice some_functions f).
Proof.
  exists (mkFunc "" 1 [(0, [add 0 (VArg 0) (int 1); call 1 "kmalloc" [int 8]; bitcast 2 (VReg 0); store 3 (int 0) (VReg 2); ret 4 []])]), (bitcast 2 (VReg 0)), (bitcast 2 (global "undef")).
  split; [cbn; repeat (constructor; [cbn; intuition discriminate|]); constructor|].
  split; [cbn; auto 10|]. split; [vm_compute; auto 10|]. repeat (split; [reflexivity|]).
  intros (_ & _ & keep & _ & E). vm_compute in E.
  assert (X : In (bitcast 2 (global "undef")) (filter keep (insts (mkFunc "" 1 [(0, [add 0 (VArg 0) (int 1); call 1 "kmalloc" [int 8]; bitcast 2 (VReg 0); store 3 (int 0) (VReg 2); ret 4 []])])))).
  { cbn [insts f_blocks flat_map snd app]. injection E as E. match goal with |- In _ ?l => replace l with [call 1 "kmalloc" [int 8]; bitcast 2 (global "undef"); store 3 (int 0) (VReg 2); ret 4 []] by exact E end. cbn. auto. }
  apply filter_In in X as [X _]. cbn in X. intuition discriminate.
Qed.
Print Assumptions C102_other_cast_refuted.
(** Atomic operations write to memory, and are not taken for effects: the call of a function with
    such an operation is left out if its result is only stored. *)
Theorem C102_atomic_refuted : exists m b i f c, dget m "count"%string = Some (Some b) /\ In i (insts b) /\ i_code i = Other /\ i_rest i = "atomicrmw add"%string /\
  ~ effect m "count" /\ In c (insts f) /\ calls m c "count" /\ ~ In c (insts (control_slice m f)).
Proof.
  set (b := mkFunc "" 1 [(0, [mkInst 0 Other "atomicrmw add" [VArg 0; int 1]; ret 1 [VReg 0]])]).
  exists [("count"%string, Some b)], b, (mkInst 0 Other "atomicrmw add" [VArg 0; int 1]), (mkFunc "" 2 [(0, [call 0 "count" [VArg 0]; store 1 (VReg 0) (VArg 1); ret 2 []])]), (call 0 "count" [VArg 0]).
  split; [reflexivity|]. split; [left; reflexivity|]. split; [reflexivity|]. split; [reflexivity|].
  split; [rewrite <- C102_side_effects; vm_compute; discriminate|]. split; [left; reflexivity|].
  split; [split; [reflexivity|split; [exists [VArg 0]; reflexivity|left; reflexivity]]|]. vm_compute. intuition discriminate.
Qed.
Print Assumptions C102_atomic_refuted.

(** ** C103: what it does *)

Theorem C103_same_run S cs args m f same : NoDup (map i_reg (insts f)) -> casts_result m f -> unnoticed S (needed m f) f same ->
  forall n a b, same a b -> same_outcome same (result S cs args f n a) (result S cs args (control_slice m f) n b).
Proof.
  intros N C U. apply slice_runs with (needed m f); [apply C102_kept; assumption|exact U|intros i I T; apply needed_end; assumption|].
  intros i d _ D P Us. apply needed_operand with i; assumption.
Qed.
Print Assumptions C103_same_run.

(** Nothing that is kept here reads what is left out: memory may differ, the calls are the same. *)
Definition printing := mkFunc "" 2
  [(0, [load 0 (VArg 0); add 1 (VReg 0) (int 1); store 2 (VReg 1) (VArg 0); equal 3 (VArg 1) (int 7); branch 4 (VReg 3) 1 2]);
   (1, [call 5 "print" [VArg 1]; store 6 (int 0) (VArg 0); jmp 7 2]); (2, [ret 8 []])].
Definition same_calls (a b : M machine) : Prop := snd a = snd b.
Lemma printing_needed i : In i (insts printing) -> is_terminator i = true \/ i_reg i = 3 \/ i_reg i = 5 -> needed some_functions printing i.
Proof.
  intros I H. assert (N4 : needed some_functions printing (branch 4 (VReg 3) 1 2)) by (apply needed_end; [cbn; auto 10|reflexivity]).
  cbn in I. repeat (destruct I as [<-|I]; [destruct H as [H|[H|H]]; try discriminate H|]); try destruct I; try (apply needed_end; [cbn; auto 10|reflexivity]).
  - apply needed_operand with (branch 4 (VReg 3) 1 2); [exact N4|cbn; auto 10|left; reflexivity].
  - apply needed_call; [cbn; auto 10|reflexivity|]. intros (g & C & N & _). apply N. apply calls_called in C. vm_compute in C. injection C as <-.
    rewrite <- C102_side_effects. vm_compute. reflexivity.
Qed.
Example C103_hypotheses_met : NoDup (map i_reg (insts printing)) /\ casts_result some_functions printing /\ unnoticed machine (needed some_functions printing) printing same_calls /\
  f_blocks (control_slice some_functions printing) = [(0, [equal 3 (VArg 1) (int 7); branch 4 (VReg 3) 1 2]); (1, [call 5 "print" [VArg 1]; jmp 7 2]); (2, [ret 8 []])].
Proof.
  assert (N : NoDup (map i_reg (insts printing))) by (cbn; repeat (constructor; [cbn; intuition discriminate|]); constructor).
  assert (C : casts_result some_functions printing).
  { intros i c g F C G K. apply follows_In in F. cbn in F. repeat (destruct F as [F|F]; [injection F as <- <-; discriminate K|]). destruct F. }
  assert (E : f_blocks (control_slice some_functions printing) = [(0, [equal 3 (VArg 1) (int 7); branch 4 (VReg 3) 1 2]); (1, [call 5 "print" [VArg 1]; jmp 7 2]); (2, [ret 8 []])]) by (vm_compute; reflexivity).
  split; [exact N|]. split; [exact C|]. split; [|exact E]. constructor.
  - intros i vs m m' I P T S. assert (K : In i (insts (control_slice some_functions printing))).
    { destruct (C102_kept some_functions printing N C) as (_ & _ & keep & KP & KB). unfold insts at 1. rewrite KB. unfold insts in I. apply in_flat_map in I as (kb & Kb & I).
      apply in_flat_map. exists (fst kb, filter keep (snd kb)). split; [apply in_map_iff; exists kb; split; [reflexivity|exact Kb]|]. cbn [snd]. apply filter_In. split; [exact I|].
      apply KP; [apply in_flat_map; exists kb; auto|exact P]. }
    unfold insts in K. rewrite E in K. cbn in K. repeat (destruct K as [<-|K]; [try discriminate T|]); try destruct K.
    + cbn. destruct vs as [|a [|b [|c vs]]]; cbn; auto.
    + cbn. split; [reflexivity|]. unfold same_calls in *. cbn [snd]. rewrite S. reflexivity.
  - intros i vs m m' I P S.
    assert (Q : i_code i = Load \/ i_code i = Binop "add" \/ i_code i = Store).
    { destruct (is_terminator i) eqn:T; [exfalso; apply P, printing_needed; auto|].
      cbn in I. repeat (destruct I as [<-|I]; [first [discriminate T|left; reflexivity|right; left; reflexivity|right; right; reflexivity|exfalso; apply P, printing_needed; cbn; auto 10]|]). destruct I. }
    destruct Q as [->|[->| ->]]; cbn.
    + destruct vs as [|a [|b vs]]; eauto.
    + eauto.
    + destruct vs as [|a [|b [|c vs]]]; eauto.
Qed.
(** What decides a branch may be stored, and the store is left out. *)
Theorem C103_stored_condition_refuted : exists f args, NoDup (map i_reg (insts f)) /\ casts_result some_functions f /\
  (exists i, In i (insts f) /\ i_code i = Store /\ ~ In i (insts (control_slice some_functions f))) /\
  made args f 0%Z = Some [[7; 2005]]%Z /\ made args (control_slice some_functions f) 0%Z = Some [].
Proof.
  exists (mkFunc "" 1 [(0, [mkInst 0 Alloca "" [int 1]; store 1 (VArg 0) (VReg 0); load 2 (VReg 0); branch 3 (VReg 2) 1 2]); (1, [call 4 "print" [VArg 0]; jmp 5 2]); (2, [ret 6 []])]), (fun _ => 7%Z).
  split; [cbn; repeat (constructor; [cbn; intuition discriminate|]); constructor|].
  split; [intros i c g F C G K; apply follows_In in F; cbn in F; repeat (destruct F as [F|F]; [injection F as <- <-; discriminate K|]); destruct F|].
  split; [exists (store 1 (VArg 0) (VReg 0)); split; [cbn; auto|]; split; [reflexivity|]; vm_compute; intuition discriminate|].
  split; vm_compute; reflexivity.
Qed.
Print Assumptions C103_stored_condition_refuted.

(** ** C104: what depends on a variable is kept *)

Lemma order_ended f : in_order f -> ended f.
Proof. intros O b l1 i l2. apply (order_ends f O). Qed.
Theorem C104_dependent_kept reachable var n f g b l i : exact f reachable -> in_order f -> nested f -> variable_slice reachable var n f = Some g ->
  depends_on var f i -> In (b, l) (f_blocks f) -> In i l ->
  exists l' i', In (b, l') (f_blocks g) /\ In i' l' /\ i_reg i' = i_reg i /\ i_rest i' = i_rest i /\
    (is_phi i = false -> i' = i) /\ (is_phi i = true -> is_phi i' = true /\ incl (i_ops i') (i_ops i)).
Proof.
  intros R O N H D L I. unfold variable_slice in H. destruct (second_phase _ _ _ _) as [[h s]|] eqn:E; [|discriminate]. injection H as <-.
  assert (U : NoDup (map i_reg (insts f))) by apply (order_regs f O).
  assert (In (i_reg i) (dependent (first_phase reachable var f))) as Dp.
  { apply dependent_found; try assumption. apply in_flat_map. exists (b, l). split; assumption. }
  destruct (phase_located reachable var f U) as [I0 _].
  apply (slice_dependent f (first_phase reachable var f) h s b l i); try assumption.
  apply (second_spec reachable f U (order_blocks f O) (order_ended f O) n); assumption.
Qed.
Print Assumptions C104_dependent_kept.

(** *** Functions of the kind the theorem is about *)
Definition before (r : nat) (v : value) : bool := match v with VReg d => d <? r | _ => true end.
Definition same_list (a b : list nat) : bool := if list_eq_dec Nat.eq_dec a b then true else false.
Lemma same_list_eq a b : same_list a b = true -> a = b.
Proof. unfold same_list. destruct (list_eq_dec Nat.eq_dec a b); [auto|discriminate]. Qed.
(** Instructions and blocks are numbered by their places. *)
Definition tidy (f : func) : bool :=
  same_list (map i_reg (insts f)) (seq 0 (length (insts f))) && same_list (dkeys (f_blocks f)) (seq 0 (length (f_blocks f))) &&
  forallb (fun i => forallb (before (i_reg i)) (i_ops i)) (insts f) &&
  forallb (fun i => forallb (fun v => match inst_of f v with Some d => negb (is_terminator d) && negb (is_store d) | None => true end) (i_ops i)) (insts f) &&
  forallb (fun kb => forallb (fun t => (fst kb <? t) && (t <? length (f_blocks f))) (next_blocks f (fst kb))) (f_blocks f) &&
  forallb (fun i => length (successors i) <=? 2) (filter (fun i => negb (match i_code i with Br => false | _ => true end)) (insts f)) &&
  forallb (fun kb => forallb (fun i => negb (is_terminator i)) (removelast (snd kb))) (f_blocks f) &&
  forallb (fun i => negb (is_debug i)) (insts f).
Lemma numbered_later f d i : map i_reg (insts f) = seq 0 (length (insts f)) -> In d (insts f) -> In i (insts f) -> i_reg d < i_reg i -> later f d i.
Proof.
  intros E D I L.
  assert (A : forall x, In x (insts f) -> nth_error (insts f) (i_reg x) = Some x).
  { intros x X. apply In_nth_error in X as (k & K). assert (M : nth_error (map i_reg (insts f)) k = Some (i_reg x)) by (apply map_nth_error; exact K).
    assert (B : k < length (insts f)) by (apply nth_error_Some; rewrite K; discriminate).
    rewrite E in M. rewrite (nth_error_nth' _ 0) in M by (rewrite seq_length; exact B). rewrite seq_nth in M by exact B. injection M as M. cbn in M. rewrite <- M. exact K. }
  pose proof (A d D) as Nd. pose proof (A i I) as Ni. apply nth_error_split in Nd as (l1 & l2 & S & Q). rewrite S in Ni. rewrite nth_error_app2 in Ni by lia.
  destruct (i_reg i - length l1) as [|k] eqn:K; [lia|]. cbn [nth_error] in Ni. apply nth_error_split in Ni as (k1 & k2 & S2 & _). exists l1, k1, k2. rewrite S, S2. reflexivity.
Qed.
Lemma tidy_in_order f : tidy f = true -> in_order f.
Proof.
  unfold tidy. rewrite !andb_true_iff. intros (((((((R & B) & U) & V) & T) & W) & E) & D).
  apply same_list_eq in R. apply same_list_eq in B. rewrite forallb_forall in U, V, T, W, E, D.
  assert (ND : NoDup (map i_reg (insts f))) by (rewrite R; apply seq_NoDup).
  constructor.
  - exact ND.
  - rewrite B. apply seq_NoDup.
  - intros d i Hd Hi Hu. apply numbered_later; try assumption. specialize (U i Hi). rewrite forallb_forall in U. specialize (U _ Hu). cbn in U. apply Nat.ltb_lt in U. exact U.
  - intros l1 b l l2 t S I. assert (H : In (b, l) (f_blocks f)) by (rewrite S; apply in_or_app; right; left; reflexivity).
    specialize (T _ H). rewrite forallb_forall in T. specialize (T t I). cbn [fst] in T. apply andb_true_iff in T as [T1 T2]. apply Nat.ltb_lt in T1, T2.
    assert (It : In t (dkeys (f_blocks f))) by (rewrite B; apply in_seq; lia).
    rewrite S in B, It. unfold dkeys in *. rewrite map_app in B, It. cbn [map fst] in B, It. rewrite S, app_length in T2. cbn [length] in T2.
    assert (Bb : b = length l1).
    { assert (N : nth_error (map fst l1 ++ b :: map fst l2) (length l1) = Some b) by (rewrite nth_error_app2; rewrite map_length; [rewrite Nat.sub_diag; reflexivity|lia]).
      rewrite B, app_length in N. cbn [length] in N. rewrite (nth_error_nth' _ 0), seq_nth in N by (rewrite ?seq_length; lia). injection N as N. cbn in N. symmetry. exact N. }
    assert (Nt : nth_error (map fst l1 ++ b :: map fst l2) t = Some t) by (rewrite B, app_length; cbn [length]; rewrite (nth_error_nth' _ 0), seq_nth by (rewrite ?seq_length; lia); reflexivity).
    rewrite nth_error_app2 in Nt by (rewrite map_length; lia). rewrite map_length in Nt. destruct (t - length l1) as [|k] eqn:K; [lia|]. cbn [nth_error] in Nt. apply nth_error_In in Nt. exact Nt.
  - intros d i Hd Hi Hu. specialize (V i Hi). rewrite forallb_forall in V. specialize (V _ Hu). cbn [inst_of] in V.
    destruct (find_inst f (i_reg d)) as [x|] eqn:F.
    + unfold find_inst in F. apply find_some in F as [Fx Fe]. apply Nat.eqb_eq in Fe. assert (x = d) as -> by (apply (same_reg (insts f)); assumption).
      apply andb_true_iff in V as [V1 V2]. apply negb_true_iff in V1. split; [exact V1|]. intros C. unfold is_store in V2. rewrite C in V2. discriminate.
    + unfold find_inst in F. pose proof (find_none _ _ F d Hd) as Z. cbn in Z. rewrite Nat.eqb_refl in Z. discriminate.
  - intros i Hi C. apply Nat.leb_le. apply W. apply filter_In. split; [exact Hi|]. rewrite C. reflexivity.
  - intros b l1 i l2 H Ti. specialize (E _ H). cbn [snd] in E. rewrite forallb_forall in E. destruct l2 as [|j l2]; [reflexivity|]. exfalso.
    assert (X : In i (removelast (l1 ++ i :: j :: l2))) by (rewrite removelast_app by discriminate; apply in_or_app; right; left; reflexivity).
    specialize (E i X). rewrite Ti in E. discriminate.
  - intros i Hi Db. specialize (D i Hi). rewrite Db in D. discriminate.
Qed.
Definition decided (f : func) (b : nat) : list nat :=
  match terminator (block f b) with Some t => match i_code t with Br => affected_blocks (search f) f b t | _ => [] end | None => [] end.
Lemma decided_spec f b c : in_order f -> decides f b c <-> In b (dkeys (f_blocks f)) /\ In c (decided f b).
Proof.
  intros O. unfold decided. split.
  - intros (l & t & x & y & H & C & R). split; [apply in_map_iff; exists (b, l ++ [t]); split; [reflexivity|exact H]|]. rewrite (block_of f O b _ H).
    assert (T : terminator (l ++ [t]) = Some t) by (unfold terminator; rewrite rev_app_distr; cbn; unfold is_terminator; rewrite C; reflexivity).
    rewrite T, C. apply (affected_spec (search f) f (search_exact f) O b l t c H C). exists l, t, x, y. split; [exact H|]. split; [exact C|exact R].
  - intros (B & H). destruct (terminator (block f b)) as [t|] eqn:T; [|destruct H]. destruct (i_code t) eqn:C; try (destruct H; fail).
    apply in_map_iff in B as ((b' & l) & E & Hb). cbn in E. subst b'. rewrite (block_of f O b _ Hb) in T. apply terminator_last in T as (l' & -> & _).
    apply (affected_spec (search f) f (search_exact f) O b l' t c Hb C). exact H.
Qed.
Definition check_nested (f : func) : bool :=
  forallb (fun a => forallb (fun b => forallb (fun c => mem c (decided f a)) (decided f b)) (decided f a)) (dkeys (f_blocks f)).
Lemma check_nested_spec f : in_order f -> check_nested f = true -> nested f.
Proof.
  intros O C a b c A B. apply decided_spec in A as [Ha Ab]; [|exact O]. apply decided_spec in B as [Hb Bc]; [|exact O]. apply decided_spec; [exact O|]. split; [exact Ha|].
  unfold check_nested in C. rewrite forallb_forall in C. specialize (C a Ha). rewrite forallb_forall in C. specialize (C b Ab). rewrite forallb_forall in C. specialize (C c Bc). apply mem_In. exact C.
Qed.

(** The branch on the variable decides two blocks and by that a PHI node; the other branch and what
    it is about are not kept. *)
Definition deciding := mkFunc "" 2
  [(0, [load 0 (global "v"); equal 1 (VArg 0) (int 3); add 2 (VArg 1) (int 1); branch 3 (VReg 0) 1 2]);
   (1, [call 4 "print" [VArg 1]; jmp 5 3]);
   (2, [add 6 (VArg 0) (int 1); jmp 7 3]);
   (3, [phi 8 [(int 1, 1); (VReg 6, 2)]; branch 9 (VReg 1) 4 5]);
   (4, [call 10 "print" [VReg 2]; jmp 11 5]);
   (5, [call 12 "print" [VReg 8]; jmp 13 6]);
   (6, [ret 14 []])].
Example C104_hypotheses_met : exact deciding (search deciding) /\ in_order deciding /\ nested deciding /\
  variable_slice (search deciding) "v" 100 deciding = Some (mkFunc "" 2
    [(0, [load 0 (global "v"); branch 3 (VReg 0) 1 2]); (1, [call 4 "print" [VArg 1]; jmp 5 3]); (2, [add 6 (VArg 0) (int 1); jmp 7 3]);
     (3, [phi 8 [(int 1, 1); (VReg 6, 2)]; jmp 9 4]); (4, [jmp 11 5]); (5, [call 12 "print" [VReg 8]; jmp 13 6]); (6, [ret 14 []])]) /\
  depends_on "v" deciding (call 4 "print" [VArg 1]) /\ depends_on "v" deciding (call 12 "print" [VReg 8]).
Proof.
  assert (O : in_order deciding) by (apply tidy_in_order; vm_compute; reflexivity).
  assert (L : depends_on "v" deciding (load 0 (global "v"))) by (apply depends_variable; [vm_compute; auto|left; reflexivity]).
  assert (B : depends_on "v" deciding (branch 3 (VReg 0) 1 2)) by (apply depends_value with (load 0 (global "v")); [exact L|cbn; auto 10|left; reflexivity]).
  assert (D : forall c, c = 1 \/ c = 2 -> forall i, In i (block deciding c) -> depends_on "v" deciding i).
  { intros c Hc i I. apply depends_branch with 0 [load 0 (global "v"); equal 1 (VArg 0) (int 3); add 2 (VArg 1) (int 1)] (branch 3 (VReg 0) 1 2) c; [exact B|left; reflexivity| |exact I].
    apply decided_spec; [exact O|]. split; [left; reflexivity|]. vm_compute. intuition. }
  split; [apply search_exact|]. split; [exact O|]. split; [apply check_nested_spec; [exact O|vm_compute; reflexivity]|]. split; [vm_compute; reflexivity|]. split.
  - apply (D 1); [auto|left; reflexivity].
  - apply depends_value with (phi 8 [(int 1, 1); (VReg 6, 2)]); [|cbn; auto 20|left; reflexivity].
    apply depends_value with (add 6 (VArg 0) (int 1)); [apply (D 2); [auto|left; reflexivity]|cbn; auto 20|right; left; reflexivity].
Qed.

(** A PHI node that says which way the branch on the variable went. *)
Definition choosing := mkFunc "" 2
  [(0, [load 0 (global "v"); branch 1 (VReg 0) 1 2]); (1, [jmp 2 3]); (2, [jmp 3 3]);
   (3, [phi 4 [(int 1, 1); (int 2, 2)]; add 5 (VArg 0) (int 1); call 6 "print" [VReg 4]; jmp 7 4]); (4, [ret 8 []])].
Example C104_choosing_met : exact choosing (search choosing) /\ in_order choosing /\ nested choosing /\ depends_on "v" choosing (call 6 "print" [VReg 4]) /\
  variable_slice (search choosing) "v" 100 choosing = Some (mkFunc "" 2
    [(0, [load 0 (global "v"); branch 1 (VReg 0) 1 2]); (1, [jmp 2 3]); (2, [jmp 3 3]); (3, [phi 4 [(int 1, 1); (int 2, 2)]; call 6 "print" [VReg 4]; jmp 7 4]); (4, [ret 8 []])]).
Proof.
  assert (O : in_order choosing) by (apply tidy_in_order; vm_compute; reflexivity).
  assert (L : depends_on "v" choosing (load 0 (global "v"))) by (apply depends_variable; [vm_compute; auto|left; reflexivity]).
  assert (B : depends_on "v" choosing (branch 1 (VReg 0) 1 2)) by (apply depends_value with (load 0 (global "v")); [exact L|cbn; auto 10|left; reflexivity]).
  assert (D : forall c, c = 1 \/ c = 2 -> forall i, In i (block choosing c) -> depends_on "v" choosing i).
  { intros c Hc i I. apply depends_branch with 0 [load 0 (global "v")] (branch 1 (VReg 0) 1 2) c; [exact B|left; reflexivity| |exact I].
    apply decided_spec; [exact O|]. split; [left; reflexivity|]. vm_compute. intuition. }
  split; [apply search_exact|]. split; [exact O|]. split; [apply check_nested_spec; [exact O|vm_compute; reflexivity]|]. split; [|vm_compute; reflexivity].
  apply depends_value with (phi 4 [(int 1, 1); (int 2, 2)]); [|cbn; auto 20|left; reflexivity].
  apply depends_merge with (jmp 2 3) (jmp 3 3) 1 2 (int 1) (int 2).
  - apply (D 1); [auto|left; reflexivity].
  - apply (D 2); [auto|left; reflexivity].
  - left. reflexivity.
  - left. reflexivity.
  - cbn. auto 20.
  - exists [load 0 (global "v"); branch 1 (VReg 0) 1 2], [jmp 3 3]. eexists. reflexivity.
  - exists [load 0 (global "v"); branch 1 (VReg 0) 1 2; jmp 2 3], []. eexists. reflexivity.
  - cbn. repeat constructor; cbn; intuition discriminate.
  - cbn. auto.
  - cbn. auto.
  - discriminate.
Qed.

(** *** What depends on the variable in other ways is lost *)
Definition loses (reachable : (nat -> list nat) -> nat -> nat -> bool) (f : func) : Prop := exists n g, variable_slice reachable "v" n f = Some g /\ missed f g.
Ltac lose := eexists 100, _; split; [vm_compute; reflexivity|]; exists Z.of_nat; do 2 eexists; split; [vm_compute; reflexivity|]; split; [vm_compute; reflexivity|]; split; [discriminate|]; split; [vm_compute; reflexivity|vm_compute; discriminate].
(** In a loop, what comes before in the text may depend on what comes later. *)
Theorem C104_loop_refuted : exists f, NoDup (map i_reg (insts f)) /\ loses (search f) f.
Proof.
  exists (mkFunc "" 1 [(0, [jmp 0 1]); (1, [phi 1 [(int 0, 0); (VReg 4, 1)]; phi 2 [(int 0, 0); (int 1, 1)]; call 3 "print" [VReg 1]; load 4 (global "v"); branch 5 (VReg 2) 2 1]); (2, [jmp 6 3]); (3, [ret 7 []])]).
  split; [cbn; repeat (constructor; [cbn; intuition discriminate|]); constructor|]. lose.
Qed.
Print Assumptions C104_loop_refuted.
(** What a switch decides. *)
Theorem C104_switch_refuted : exists f, in_order f /\ nested f /\ loses (search f) f.
Proof.
  exists (mkFunc "" 1 [(0, [load 0 (global "v"); mkInst 1 Switch "" [VReg 0; VBlock 1; VBlock 2]]); (1, [call 2 "print" [int 1]; jmp 3 2]); (2, [ret 4 []])]).
  match goal with |- in_order ?f /\ _ => assert (O : in_order f) by (apply tidy_in_order; vm_compute; reflexivity) end.
  split; [exact O|]. split; [apply check_nested_spec; [exact O|vm_compute; reflexivity]|]. lose.
Qed.
Print Assumptions C104_switch_refuted.
(** What was stored in another global variable. *)
Theorem C104_global_refuted : exists f, in_order f /\ nested f /\ loses (search f) f.
Proof.
  exists (mkFunc "" 1 [(0, [load 0 (global "v"); store 1 (VReg 0) (global "w"); load 2 (global "w"); call 3 "print" [VReg 2]; ret 4 []])]).
  match goal with |- in_order ?f /\ _ => assert (O : in_order f) by (apply tidy_in_order; vm_compute; reflexivity) end.
  split; [exact O|]. split; [apply check_nested_spec; [exact O|vm_compute; reflexivity]|]. lose.
Qed.
Print Assumptions C104_global_refuted.
(** What was stored in a local variable, in a block that is decided by the variable. *)
Theorem C104_local_refuted : exists f, in_order f /\ nested f /\ loses (search f) f.
Proof.
  exists (mkFunc "" 1 [(0, [mkInst 0 Alloca "" [int 1]; load 1 (global "v"); branch 2 (VReg 1) 1 2]); (1, [store 3 (int 1) (VReg 0); jmp 4 2]); (2, [load 5 (VReg 0); call 6 "print" [VReg 5]; ret 7 []])]).
  match goal with |- in_order ?f /\ _ => assert (O : in_order f) by (apply tidy_in_order; vm_compute; reflexivity) end.
  split; [exact O|]. split; [apply check_nested_spec; [exact O|vm_compute; reflexivity]|]. lose.
Qed.
Print Assumptions C104_local_refuted.
(** What is decided by a branch that is decided by the variable (a short-circuit condition). *)
Theorem C104_nested_refuted : exists f, in_order f /\ ~ nested f /\ loses (search f) f.
Proof.
  exists (mkFunc "" 1 [(0, [load 0 (global "v"); branch 1 (VReg 0) 1 2]); (1, [branch 2 (VArg 0) 2 3]); (2, [call 3 "print" [int 1]; jmp 4 3]); (3, [ret 5 []])]).
  match goal with |- in_order ?f /\ _ => assert (O : in_order f) by (apply tidy_in_order; vm_compute; reflexivity) end.
  split; [exact O|]. split; [|lose]. intros N. pose proof (N 0 1 2) as K.
  assert (D : decides (mkFunc "" 1 [(0, [load 0 (global "v"); branch 1 (VReg 0) 1 2]); (1, [branch 2 (VArg 0) 2 3]); (2, [call 3 "print" [int 1]; jmp 4 3]); (3, [ret 5 []])]) 0 2).
  { apply K; apply decided_spec; try exact O; (split; [vm_compute; auto|apply mem_In; vm_compute; reflexivity]). }
  apply decided_spec in D as [_ D]; [|exact O]. apply mem_In in D. vm_compute in D. discriminate.
Qed.
Print Assumptions C104_nested_refuted.
(** From where a PHI node was reached. *)
Theorem C104_phi_refuted : exists f, in_order f /\ loses (search f) f.
Proof.
  exists (mkFunc "" 1 [(0, [load 0 (global "v"); branch 1 (VReg 0) 1 3]); (1, [branch 2 (VArg 0) 3 2]); (2, [jmp 3 4]); (3, [jmp 4 4]); (4, [phi 5 [(int 1, 2); (int 2, 3)]; call 6 "print" [VReg 5]; ret 7 []])]).
  split; [apply tidy_in_order; vm_compute; reflexivity|]. lose.
Qed.
Print Assumptions C104_phi_refuted.
(** A test for reachability may give up and answer yes (LLVM's does after 32 blocks): then nothing
    is decided by a branch. *)
Theorem C104_reachability_refuted : exists f reachable, in_order f /\ nested f /\ (forall next b c, path next b c -> reachable next b c = true) /\ loses reachable f.
Proof.
  exists (mkFunc "" 1 [(0, [load 0 (global "v"); branch 1 (VReg 0) 1 2]); (1, [call 2 "print" [int 1]; jmp 3 2]); (2, [ret 4 []])]), (fun _ _ _ => true).
  match goal with |- in_order ?f /\ _ => assert (O : in_order f) by (apply tidy_in_order; vm_compute; reflexivity) end.
  split; [exact O|]. split; [apply check_nested_spec; [exact O|vm_compute; reflexivity]|]. split; [reflexivity|]. lose.
Qed.
Print Assumptions C104_reachability_refuted.

(** ** C105: the slice is a function *)

Theorem C105_instructions reachable var n f g : NoDup (map i_reg (insts f)) -> NoDup (dkeys (f_blocks f)) -> ended f -> variable_slice reachable var n f = Some g ->
  forall b l', In (b, l') (f_blocks g) -> exists l, In (b, l) (f_blocks f) /\ forall i', In i' l' -> exists i, In i l /\ in_slice i i'.
Proof.
  intros U B E H. unfold variable_slice in H. destruct (second_phase _ _ _ _) as [[h s]|] eqn:E2; [|discriminate]. injection H as <-.
  destruct (phase_located reachable var f U) as [I0 _]. apply (slice_insts f B E (first_phase reachable var f)).
  apply (second_spec reachable f U B E n); assumption.
Qed.
Print Assumptions C105_instructions.
(** A PHI node loses the values from blocks that no longer go to its block, and no others. *)
Theorem C105_incoming reachable var n f g c l l' i i' : NoDup (map i_reg (insts f)) -> NoDup (dkeys (f_blocks f)) -> ended f -> variable_slice reachable var n f = Some g ->
  In (c, l) (f_blocks f) -> In i l -> is_phi i = true -> In (c, l') (f_blocks g) -> In i' l' -> i_reg i' = i_reg i ->
  forall v b, In (v, b) (incoming i') <-> In (v, b) (incoming i) /\ (In c (next_blocks f b) -> In c (next_blocks g b)).
Proof.
  intros U B E H L I P L' I' R. unfold variable_slice in H. destruct (second_phase _ _ _ _) as [[h s]|] eqn:E2; [|discriminate]. injection H as <-.
  destruct (phase_located reachable var f U) as [I0 _]. apply (slice_incoming reachable f U B E n (first_phase reachable var f) h s c l l' i i'); assumption.
Qed.
Print Assumptions C105_incoming.
(** So a PHI node that had one value from each block that goes to its block still has. *)
Theorem C105_predecessors reachable var n f g c l l' i i' : NoDup (map i_reg (insts f)) -> NoDup (dkeys (f_blocks f)) -> ended f -> variable_slice reachable var n f = Some g ->
  In (c, l) (f_blocks f) -> In i l -> is_phi i = true -> In (c, l') (f_blocks g) -> In i' l' -> i_reg i' = i_reg i ->
  (forall b, (exists v, In (v, b) (incoming i)) <-> In c (next_blocks f b)) ->
  forall b, (exists v, In (v, b) (incoming i')) <-> In c (next_blocks g b).
Proof.
  intros U B E H L I P L' I' R Pr b. pose proof (C105_incoming reachable var n f g c l l' i i' U B E H L I P L' I' R) as X.
  split.
  - intros (v & V). apply X in V as [V W]. apply W, Pr. exists v. exact V.
  - intros N. unfold variable_slice in H. destruct (second_phase _ _ _ _) as [[h s]|] eqn:E2; [|discriminate]. injection H as <-.
    destruct (phase_located reachable var f U) as [I0 _]. pose proof (second_spec reachable f U B E n _ h s I0 E2) as [Sh _ _ _ _].
    destruct (second_left reachable f U B E n _ h s I0 E2) as [S _].
    assert (Nf : In c (next_blocks f b)) by (apply S; rewrite removed_next in N; [exact N|apply (shrunk_blocks_unique f B h Sh)|apply (shrunk_ended f h Sh E)]).
    apply Pr in Nf as (v & V). exists v. apply X. auto.
Qed.
Print Assumptions C105_predecessors.
(** One of two values to a PHI node is lost with the edge it comes by. *)
Definition two_ways : func :=
  mkFunc "" 1 [(0, [branch 0 (VArg 0) 2 1]); (1, [jmp 1 2]); (2, [phi 2 [(int 1, 0); (int 2, 1)]; call 3 "print" [VReg 2; global "v"]; ret 4 []])].
Definition one_way : func :=
  mkFunc "" 1 [(0, [jmp 0 1]); (1, [jmp 1 2]); (2, [phi 2 [(int 2, 1)]; call 3 "print" [VReg 2; global "v"]; ret 4 []])].
Example C105_incoming_met : in_order two_ways /\ variable_slice (search two_ways) "v" 100 two_ways = Some one_way.
Proof. split; [apply tidy_in_order; vm_compute; reflexivity|]. vm_compute. reflexivity. Qed.
Theorem C105_reachable reachable var n f g e b l i : exact f reachable -> in_order f -> nested f -> variable_slice reachable var n f = Some g ->
  depends_on var f i -> In (b, l) (f_blocks f) -> In i l -> (forall k t, l = k ++ [t] -> i_code t <> Ret) ->
  path (next_blocks f) e b -> path (next_blocks g) e b.
Proof.
  intros R O N H D L I Rt P. unfold variable_slice in H. destruct (second_phase _ _ _ _) as [[h s]|] eqn:E2; [|discriminate]. injection H as <-.
  assert (U : NoDup (map i_reg (insts f))) by apply (order_regs f O).
  destruct (phase_located reachable var f U) as [I0 Lc].
  apply (slice_reach reachable f R U (order_blocks f O) (order_ended f O) n (first_phase reachable var f)); try assumption.
  - apply (Lc b l i L I). apply dependent_found; try assumption. apply in_flat_map. exists (b, l). split; assumption.
  - apply in_map_iff. exists (b, l). split; [reflexivity|exact L].
  - unfold return_block. destruct (find _ _) as [[c k]|] eqn:F; [|discriminate]. intros Q. injection Q as ->. apply find_some in F as [K M]. cbn [snd] in M.
    destruct (terminator k) as [t|] eqn:T; [|discriminate]. apply terminator_last in T as (k' & -> & _).
    assert (X : block f b = l) by (apply block_of; assumption). rewrite (block_of f O b _ K) in X.
    apply (Rt k' t (eq_sym X)). destruct (i_code t); try discriminate. reflexivity.
Qed.
Print Assumptions C105_reachable.

Example C105_hypotheses_met : exact deciding (search deciding) /\ in_order deciding /\ nested deciding /\ ended deciding /\ path (next_blocks deciding) 0 5 /\
  (exists g, variable_slice (search deciding) "v" 100 deciding = Some g) /\ (forall k t, block deciding 5 = k ++ [t] -> i_code t <> Ret).
Proof.
  destruct C104_hypotheses_met as (R & O & N & H & _). split; [exact R|]. split; [exact O|]. split; [exact N|]. split; [apply order_ended, O|].
  split; [apply (search_exact deciding); [|vm_compute; reflexivity]; intros x X; do 7 (destruct x as [|x]; [exfalso; apply X; vm_compute; auto 10|]); reflexivity|].
  split; [eexists; exact H|]. intros k t E. change (block deciding 5) with ([call 12 "print" [VReg 8]] ++ [jmp 13 6]) in E. apply app_inj_tail in E as [_ <-]. discriminate.
Qed.
(** The return, and what it returns, may be unreachable in the slice. *)
Theorem C105_return_refuted : exists f n g i, in_order f /\ nested f /\ variable_slice (search f) "v" n f = Some g /\
  depends_on "v" f i /\ In i (block f 2) /\ path (next_blocks f) 0 2 /\ ~ path (next_blocks g) 0 2 /\
  (exists vs m, result machine constant (fun _ => 0%Z) f 20 ([], []) = Returned vs m) /\ forall args k m vs m', result machine constant args g k m <> Returned vs m'.
Proof.
  set (f := mkFunc "" 1 [(0, [branch 0 (VArg 0) 1 2]); (1, [call 1 "panic" []; mkInst 2 Unreachable "" []]); (2, [load 3 (global "v"); ret 4 [VReg 3]])]).
  assert (O : in_order f) by (apply tidy_in_order; vm_compute; reflexivity).
  set (g := mkFunc "" 1 [(0, [jmp 0 1]); (1, [mkInst 2 Unreachable "" []]); (2, [load 3 (global "v"); ret 4 [VReg 3]])]).
  exists f, 100, g, (load 3 (global "v")). split; [exact O|]. split; [apply check_nested_spec; [exact O|vm_compute; reflexivity]|]. split; [vm_compute; reflexivity|].
  split; [apply depends_variable; [cbn; auto 10|left; reflexivity]|]. split; [left; reflexivity|].
  split; [apply path_step with 0; [constructor|right; left; reflexivity]|]. split.
  - intros P. enough (K : forall a c, path (next_blocks g) a c -> a = 0 -> c = 0 \/ c = 1) by (destruct (K _ _ P eq_refl); discriminate).
    clear P. intros a c P Z. induction P as [b|b c d P IH I]; [left; exact Z|]. destruct (IH Z) as [Q|Q]; rewrite Q in I; vm_compute in I; repeat destruct I as [I|I]; auto; destruct I.
  - split; [do 2 eexists; vm_compute; reflexivity|]. intros args k m vs m'. destruct k as [|[|k]]; vm_compute; discriminate.
Qed.
Print Assumptions C105_return_refuted.
(** The slice of a function that returns may run forever. *)
Theorem C105_endless_refuted : exists f n g, NoDup (map i_reg (insts f)) /\ ended f /\ variable_slice (search f) "v" n f = Some g /\
  forall args m, args 0 = 0%Z -> (exists vs m', result machine constant args f 3 m = Returned vs m') /\ forall k, exists m', result machine constant args g k m = Running m'.
Proof.
  set (f := mkFunc "" 1 [(0, [jmp 0 1]); (1, [load 1 (global "v"); call 2 "print" [VReg 1]; branch 3 (VArg 0) 1 2]); (2, [ret 4 []])]).
  set (g := mkFunc "" 1 [(0, [jmp 0 1]); (1, [load 1 (global "v"); call 2 "print" [VReg 1]; jmp 3 1]); (2, [ret 4 []])]).
  exists f, 100, g. split; [cbn; repeat (constructor; [cbn; intuition discriminate|]); constructor|]. split.
  { intros b l1 i l2 H T. cbn in H. destruct H as [H|[H|[H|[]]]]; injection H as _ H.
    - destruct l1 as [|x [|y l1]]; cbn in H; try discriminate; injection H; congruence.
    - destruct l1 as [|x [|y [|z [|w l1]]]]; cbn in H; try discriminate; injection H; intros; subst; try discriminate T; congruence.
    - destruct l1 as [|x [|y l1]]; cbn in H; try discriminate; injection H; congruence. }
  split; [vm_compute; reflexivity|]. intros args m A. split.
  - cbn. rewrite A. do 2 eexists. reflexivity.
  - assert (L : forall k env m p, exists m', run machine constant args g k env m p 1 = Running m').
    { induction k as [|k IH]; intros env m0 p; [eexists; reflexivity|]. destruct p; cbn; apply IH. }
    intros [|k]; [eexists; reflexivity|]. cbn. apply L.
Qed.
Print Assumptions C105_endless_refuted.
