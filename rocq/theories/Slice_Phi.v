(** * Slices by a variable: what comes to the PHI nodes *)
From Coq Require Import String Ascii ZArith Arith Bool Lia List.
From Verif Require Import PyBase Funcomp_Model Slice_Model Slice_Spec Slice_Control Slice_Variable Slice_Whole Slice_Result.
Import ListNotations.
Open Scope list_scope.
Open Scope nat_scope.

Lemma combine_split {A C} (l : list (A * C)) : combine (map fst l) (map snd l) = l.
Proof. induction l as [|[a c] l IH]; [reflexivity|]. cbn [map combine fst snd]. rewrite IH. reflexivity. Qed.
Lemma incoming_dropped b i : incoming (drop_incoming b i) = filter (fun e => negb (Nat.eqb (snd e) b)) (incoming i).
Proof.
  unfold drop_incoming. destruct (i_code i) eqn:C; try (unfold incoming; rewrite C; reflexivity).
  unfold incoming at 1. cbn [i_code i_ops]. apply combine_split.
Qed.
Lemma incoming_terminator i : is_terminator i = true -> incoming i = [].
Proof. unfold is_terminator, incoming. destruct (i_code i); try discriminate; reflexivity. Qed.

(** The incoming values of the PHI nodes of block [c] of [g], which were those of [f]. *)
Definition incoming_left (f g : func) (c : nat) (i i' : inst) : Prop :=
  i_reg i' = i_reg i /\ forall v b, In (v, b) (incoming i') <-> In (v, b) (incoming i) /\ (In c (next_blocks f b) -> In c (next_blocks g b)).
Definition all_left (f g : func) : Prop :=
  (forall b c, In c (next_blocks g b) -> In c (next_blocks f b)) /\
  Forall2 (fun kb kb' => fst kb = fst kb' /\ Forall2 (incoming_left f g (fst kb)) (snd kb) (snd kb')) (f_blocks f) (f_blocks g).

Lemma all_left_refl f : all_left f f.
Proof.
  split; [auto|]. induction (f_blocks f) as [|kb l IH]; constructor; [|exact IH]. split; [reflexivity|].
  induction (snd kb) as [|i k IHk]; constructor; [|exact IHk]. split; [reflexivity|]. intros v b. tauto.
Qed.

Lemma redirect_next g b t new gone x : terminator (block g b) = Some t -> next_blocks (redirect g b new gone) x = if Nat.eqb x b then [new] else next_blocks g x.
Proof.
  intros T. unfold next_blocks at 1. rewrite redirect_terminator. destruct (Nat.eqb_spec x b) as [->|_]; [rewrite T; reflexivity|].
  unfold next_blocks. destruct (terminator (block g x)); reflexivity.
Qed.

Lemma redirect_left f g b t new : terminator (block g b) = Some t -> In new (successors t) -> all_left f g ->
  all_left f (redirect g b new (filter (fun c => negb (Nat.eqb c new)) (successors t))).
Proof.
  intros T N [S F]. set (gone := filter _ _).
  assert (Nb : next_blocks g b = successors t) by (unfold next_blocks; rewrite T; reflexivity).
  assert (S' : forall x c, In c (next_blocks (redirect g b new gone) x) -> In c (next_blocks f x)).
  { intros x c. rewrite (redirect_next g b t new gone x T). destruct (Nat.eqb_spec x b) as [->|_]; [|apply S]. intros [<-|[]]. apply S. rewrite Nb. exact N. }
  split; [exact S'|]. unfold redirect at 2. cbn [f_blocks]. revert F. generalize (f_blocks f) (f_blocks g). intros l l' F.
  induction F as [|[c k] [c' k'] l l' [X Y] _ IH]; cbn [map]; constructor; [|exact IH]. cbn [fst snd] in *. subst c'. split; [reflexivity|].
  assert (H : forall i i', incoming_left f g c i i' ->
    incoming_left f (redirect g b new gone) c i (let j := if mem c gone then drop_incoming b i' else i' in if Nat.eqb c b then if is_terminator j then jump new j else j else j)).
  { intros i i' [R I]. cbv zeta. set (j := if mem c gone then drop_incoming b i' else i').
    assert (J : i_reg j = i_reg i' /\ forall v x, In (v, x) (incoming j) <-> In (v, x) (incoming i') /\ (In c gone -> x <> b)).
    { unfold j. destruct (mem c gone) eqn:M.
      - apply mem_In in M. split; [apply became_reg, drop_became|]. intros v x. rewrite incoming_dropped, filter_In. cbn [snd]. rewrite negb_true_iff, Nat.eqb_neq. tauto.
      - split; [reflexivity|]. intros v x. assert (~ In c gone) by (intros K; apply mem_In in K; congruence). tauto. }
    destruct J as [Jr Ji].
    assert (L : incoming_left f (redirect g b new gone) c i j).
    { split; [congruence|]. intros v x. rewrite Ji, I, (redirect_next g b t new gone x T). destruct (Nat.eqb_spec x b) as [->|Q].
      - assert (G : In c gone <-> In c (next_blocks g b) /\ c <> new) by (unfold gone; rewrite filter_In, Nb, negb_true_iff, Nat.eqb_neq; tauto).
        assert (W : In c [new] <-> c = new) by (cbn; split; [intros [K|[]]; auto|auto]). rewrite W, G.
        pose proof (S b c) as Sc. assert (c = new -> In c (next_blocks g b)) by (intros ->; rewrite Nb; exact N).
        destruct (Nat.eq_dec c new); tauto.
      - tauto. }
    destruct (Nat.eqb c b); [|exact L]. destruct (is_terminator j) eqn:Tj; [|exact L]. destruct L as [Lr L]. split; [exact Lr|].
    intros v x. rewrite <- L, (incoming_terminator j Tj). cbn. tauto. }
  assert (M : forall h, (forall i i', incoming_left f g c i i' -> incoming_left f (redirect g b new gone) c i (h i')) -> Forall2 (incoming_left f (redirect g b new gone) c) k (map h k')).
  { intros h K. clear - Y K. induction Y; cbn [map]; constructor; [apply K; assumption|assumption]. }
  cbv zeta in *. specialize (M _ H).
  match type of M with Forall2 _ _ ?m => match goal with |- Forall2 _ _ ?m' => enough (m' = m) as -> by exact M end end.
  destruct (mem c gone), (Nat.eqb c b); rewrite ?map_map; try reflexivity. symmetry. apply map_id.
Qed.

Section Phi.
  Variable reachable : (nat -> list nat) -> nat -> nat -> bool.
  Variable f : func.
  Hypothesis U : NoDup (map i_reg (insts f)).
  Hypothesis B : NoDup (dkeys (f_blocks f)).
  Hypothesis E : ended f.

  Lemma ends_left n exit s0 : forall bs g s g' s', state_ok f g s0 s -> each (end_of_block reachable n exit) bs (g, s) = Some (g', s') -> all_left f g -> all_left f g'.
  Proof.
    induction bs as [|b bs IH]; intros g s g' s' O H L; cbn [each] in H; [injection H as <- <-; exact L|].
    destruct (end_of_block reachable n exit (g, s) b) as [[g1 s1]|] eqn:E1; [|discriminate].
    apply (IH g1 s1 g' s'); [apply (end_ok reachable f U B E n exit g s0 s b g1 s1 O E1)|exact H|].
    destruct (end_spec reachable f U n exit g s b g1 s1 (ok_shrunk _ _ _ _ O) E1) as [(-> & _)|(t & new & T & _ & _ & N & _ & -> & _)]; [exact L|].
    apply redirect_left; assumption.
  Qed.
  Lemma second_left n s0 g s : included s0 = [] -> second_phase reachable n f s0 = Some (g, s) -> all_left f g.
  Proof.
    intros I0 H. unfold second_phase in H. destruct (each (operands_of_dependent n f) (dependent s0) s0) as [s1|] eqn:E1; [|discriminate].
    destruct (dependent_operands f U n _ _ _ (fun r R => R) E1) as [G1 S1].
    destruct (each (end_of_block reachable n (return_block f)) (dkeys (f_blocks f)) (f, s1)) as [[g2 s2]|] eqn:E2; [|discriminate].
    destruct (each (phi_operands n g2) (insts g2) s2) as [s3|] eqn:E3; [|discriminate]. injection H as <- <-.
    apply (ends_left n (return_block f) s0 (dkeys (f_blocks f)) f s1 g2 s2); [|exact E2|apply all_left_refl].
    constructor; [apply shrunk_refl|apply (grows_dependent _ _ _ G1)|apply (grows_included _ _ _ G1)|apply (grows_blocks _ _ _ G1)| |].
    - intros i I K. destruct (grows_served _ _ _ G1 i I K) as [[K'|K']|S]; [rewrite I0 in K'; destruct K'| |left; exact S].
      destruct (is_phi i) eqn:Ph; [right; reflexivity|left; apply S1; assumption].
    - intros i i' Ii I' Bi _. left. apply (same_reg (insts f)); [exact U|exact I'|exact Ii|apply became_reg; exact Bi].
  Qed.

  (** Removing instructions leaves the ends of the blocks. *)
  Lemma removed_next g s x : NoDup (dkeys (f_blocks g)) -> ended g -> next_blocks (remove_others g s) x = next_blocks g x.
  Proof.
    intros Bg Eg. unfold next_blocks.
    set (kp := fun i => mem (i_reg i) (included s ++ dependent s) || is_terminator i).
    assert (Bx : block (remove_others g s) x = map (erased g (included s ++ dependent s)) (filter kp (block g x))).
    { unfold block, remove_others. cbn [f_blocks]. rewrite (dget_map_snd (fun l => map (erased g (included s ++ dependent s)) (filter kp l))).
      destruct (dget (f_blocks g) x); reflexivity. }
    rewrite Bx, terminator_map by reflexivity.
    assert (T : terminator (filter kp (block g x)) = terminator (block g x)).
    { unfold block. destruct (dget (f_blocks g) x) as [l|] eqn:D; [|reflexivity]. apply dget_In in D. destruct (terminator l) as [t|] eqn:T.
      - apply terminator_last in T as (k & -> & T). rewrite filter_app. cbn [filter]. unfold kp at 2. rewrite T, orb_true_r. unfold terminator. rewrite rev_app_distr. cbn [rev app]. rewrite T. reflexivity.
      - destruct (terminator (filter kp l)) as [t|] eqn:T'; [|reflexivity]. apply terminator_last in T' as (k & K & T').
        assert (I : In t l) by (apply (filter_In kp); rewrite K; apply last_In). apply in_split in I as (l1 & l2 & ->). rewrite (Eg x l1 t l2 D T') in T.
        unfold terminator in T. rewrite rev_app_distr in T. cbn [rev app] in T. rewrite T' in T. discriminate. }
    rewrite T. destruct (terminator (block g x)) as [t|]; [|reflexivity]. cbn [option_map]. apply erased_blocks.
  Qed.

  Lemma slice_incoming n s0 g s c l l' i i' : included s0 = [] -> second_phase reachable n f s0 = Some (g, s) ->
    In (c, l) (f_blocks f) -> In i l -> is_phi i = true -> In (c, l') (f_blocks (remove_others g s)) -> In i' l' -> i_reg i' = i_reg i ->
    forall v b, In (v, b) (incoming i') <-> In (v, b) (incoming i) /\ (In c (next_blocks f b) -> In c (next_blocks (remove_others g s) b)).
  Proof.
    intros I0 H L Ii P L' I' R v b. pose proof (second_spec reachable f U B E n s0 g s I0 H) as [Sh _ Sv _ _].
    pose proof (second_left n s0 g s I0 H) as [_ F].
    rewrite removed_next by (apply (shrunk_blocks_unique f B g Sh) || apply (shrunk_ended f g Sh E)).
    cbn [remove_others f_blocks] in L'. apply in_map_iff in L' as ([c2 l2] & Eq & L2). cbn [fst snd] in Eq. injection Eq as -> <-.
    apply in_map_iff in I' as (j & <- & J). apply filter_In in J as [J K].
    destruct (Forall2_right _ _ _ _ F L2) as ([c3 l3] & L3 & Ec & F3). cbn [fst snd] in *. subst c3.
    assert (l3 = l) as -> by (pose proof (dget_In_NoDup _ _ _ B L3); pose proof (dget_In_NoDup _ _ _ B L); congruence).
    destruct (Forall2_right _ _ _ _ F3 J) as (i0 & In0 & [R0 X]).
    assert (i0 = i) as -> by (apply (same_reg (insts f)); [exact U|apply in_flat_map; exists (c, l); auto|apply in_flat_map; exists (c, l); auto|cbn [erased i_reg] in R; congruence]).
    assert (Jg : In j (insts g)) by (apply in_flat_map; exists (c, l2); split; assumption).
    rewrite <- X. destruct (mem (i_reg j) (included s ++ dependent s)) eqn:M.
    - rewrite (erased_same g s j); [tauto|]. apply Sv; [exact Jg|]. apply kept_mem. exact M.
    - exfalso. cbn [orb] in K. destruct (Forall2_right _ _ _ _ (shrunk_insts _ _ Sh) Jg) as (i1 & I1 & Bi).
      assert (i1 = i) as -> by (apply (same_reg (insts f)); [exact U|exact I1|apply in_flat_map; exists (c, l); auto|rewrite <- (became_reg _ _ Bi); exact R0]).
      rewrite (became_terminator _ _ Bi) in K. unfold is_phi, is_terminator in *. destruct (i_code i); discriminate.
  Qed.
End Phi.
