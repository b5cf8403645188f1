(** * Slices by a variable *)
From Coq Require Import String Ascii ZArith Arith Bool Lia List.
From Verif Require Import PyBase Funcomp_Model Slice_Model Slice_Spec Slice_Control Slice_Variable Slice_Whole.
Import ListNotations.
Open Scope list_scope.
Open Scope nat_scope.

Section Result.
  Variable reachable : (nat -> list nat) -> nat -> nat -> bool.
  Variable f : func.
  Hypothesis U : NoDup (map i_reg (insts f)).
  Hypothesis B : NoDup (dkeys (f_blocks f)).
  Hypothesis E : ended f.

  Lemma ends_ok n exit s0 : forall bs g s g' s', state_ok f g s0 s -> each (end_of_block reachable n exit) bs (g, s) = Some (g', s') ->
    state_ok f g' s0 s' /\ (forall b, In b bs -> handled g' s' b) /\ (forall c, handled g s c -> handled g' s' c).
  Proof.
    induction bs as [|b bs IH]; intros g s g' s' O H; cbn [each] in H; [injection H as <- <-; split; [exact O|split; [intros b []|auto]]|].
    destruct (end_of_block reachable n exit (g, s) b) as [[g1 s1]|] eqn:E1; [|discriminate].
    destruct (end_ok reachable f U B E n exit g s0 s b g1 s1 O E1) as (O1 & H1 & _ & M1). destruct (IH g1 s1 g' s' O1 H) as (O2 & H2 & M2).
    split; [exact O2|]. split; [intros c [<-|C]; [apply M2; exact H1|apply H2; exact C]|]. intros c C. apply M2, M1, C.
  Qed.

  Lemma incoming_ok n g : NoDup (map i_reg (insts g)) -> forall l s s', each (incoming_of n g) l s = Some s' ->
    grows g s s' /\ forall v d, In v l -> inst_of g v = Some d -> kept s' (i_reg d).
  Proof.
    intros Ug. induction l as [|v l IH]; intros s s' H; cbn [each] in H; [injection H as <-; split; [apply grows_refl|intros v d []]|].
    destruct (incoming_of n g s v) as [s1|] eqn:E1; [|discriminate]. unfold incoming_of in E1. destruct (IH s1 s' H) as [G2 K2].
    destruct (inst_of g v) as [d|] eqn:D.
    - destruct (added_spec g Ug n d s s1 (inst_of_In g v d D) E1) as (G1 & K1 & _). split; [eapply grows_trans; eassumption|].
      intros w e [<-|W] X; [|apply (K2 w e W X)]. assert (e = d) as -> by congruence. apply (grows_kept g s1 s' _ G2 K1).
    - injection E1 as <-. split; [exact G2|]. intros w e [<-|W] X; [congruence|apply (K2 w e W X)].
  Qed.
  Lemma phis_ok n g : NoDup (map i_reg (insts g)) -> forall l s s', each (phi_operands n g) l s = Some s' ->
    grows g s s' /\ forall i, In i l -> is_phi i = true -> kept s (i_reg i) -> served g s' i.
  Proof.
    intros Ug. induction l as [|i l IH]; intros s s' H; cbn [each] in H; [injection H as <-; split; [apply grows_refl|intros i []]|].
    destruct (phi_operands n g s i) as [s1|] eqn:E1; [|discriminate]. unfold phi_operands in E1. destruct (IH s1 s' H) as [G2 K2].
    assert (G1 : grows g s s1 /\ (is_phi i = true -> kept s (i_reg i) -> served g s1 i)).
    { destruct (is_phi i && (mem (i_reg i) (included s) || mem (i_reg i) (dependent s))) eqn:C.
      - destruct (incoming_ok n g Ug _ _ _ E1) as [G K]. split; [exact G|]. intros _ _ v d V D. apply (K v d V D).
      - injection E1 as <-. split; [apply grows_refl|]. intros P K. exfalso. rewrite P in C. cbn [andb] in C. apply orb_false_iff in C as [C1 C2].
        destruct K as [K|K]; apply mem_In in K; congruence. }
    destruct G1 as [G1 S1]. split; [eapply grows_trans; eassumption|]. intros j [<-|J] P K.
    - apply served_more with s1; [intros r; apply (grows_kept g); exact G2|apply S1; assumption].
    - apply K2; [exact J|exact P|apply (grows_kept g s s1 _ G1 K)].
  Qed.

  Record second_ok (s0 : sets) (g : func) (s : sets) : Prop := mkSecond {
    sec_shrunk : shrunk f g;
    sec_dependent : dependent s = dependent s0;
    sec_served : forall i, In i (insts g) -> kept s (i_reg i) -> served g s i;
    sec_handled : forall b, In b (dkeys (f_blocks f)) -> handled g s b;
    sec_same : forall i i', In i (insts f) -> In i' (insts g) -> became i i' -> In (i_reg i) (dependent s0) -> i' = i \/ is_phi i = true }.
  (** Nothing is included after the first phase. *)
  Lemma second_spec n s0 g s : included s0 = [] -> second_phase reachable n f s0 = Some (g, s) -> second_ok s0 g s.
  Proof.
    intros I0 H. unfold second_phase in H. destruct (each (operands_of_dependent n f) (dependent s0) s0) as [s1|] eqn:E1; [|discriminate].
    destruct (dependent_operands f U n _ _ _ (fun r R => R) E1) as [G1 S1].
    destruct (each (end_of_block reachable n (return_block f)) (dkeys (f_blocks f)) (f, s1)) as [[g2 s2]|] eqn:E2; [|discriminate].
    destruct (each (phi_operands n g2) (insts g2) s2) as [s3|] eqn:E3; [|discriminate]. injection H as <- <-.
    assert (O1 : state_ok f f s0 s1).
    { constructor; [apply shrunk_refl|apply (grows_dependent _ _ _ G1)|apply (grows_included _ _ _ G1)|apply (grows_blocks _ _ _ G1)| |].
      - intros i I K. destruct (grows_served _ _ _ G1 i I K) as [[K'|K']|S]; [rewrite I0 in K'; destruct K'| |left; exact S].
        destruct (is_phi i) eqn:P; [right; reflexivity|left; apply S1; assumption].
      - intros i i' Ii I' Bi _. left. apply (same_reg (insts f)); [exact U|exact I'|exact Ii|apply became_reg; exact Bi]. }
    destruct (ends_ok n (return_block f) s0 _ _ _ _ _ O1 E2) as (O2 & H2 & _).
    pose proof (ok_shrunk _ _ _ _ O2) as Sh. destruct (phis_ok n g2 (shrunk_unique f U g2 Sh) _ _ _ E3) as [G3 P3].
    constructor.
    - exact Sh.
    - rewrite (grows_dependent _ _ _ G3). apply (ok_dependent _ _ _ _ O2).
    - intros i I K. destruct (grows_served _ _ _ G3 i I K) as [K'|S]; [|exact S]. destruct (ok_served _ _ _ _ O2 i I K') as [S|P]; [|apply P3; assumption].
      apply served_more with s2; [intros r; apply (grows_kept g2); exact G3|exact S].
    - intros b Bb t T C Ns. apply (grows_kept g2 s2 s3 _ G3). apply (H2 b Bb t T C Ns).
    - apply (ok_branches _ _ _ _ O2).
  Qed.

  Lemma erased_same g s i : served g s i -> erased g (included s ++ dependent s) i = i.
  Proof.
    intros S. unfold erased. destruct i as [r c k ops]. cbn [i_reg i_code i_rest i_ops] in *. f_equal. rewrite <- (map_id ops) at 2. apply map_ext_in. intros v V.
    unfold erased_operand. destruct (inst_of g v) as [d|] eqn:D; [|reflexivity]. replace (mem (i_reg d) _) with true; [reflexivity|].
    symmetry. apply mem_In. apply in_or_app. apply (S v d V D).
  Qed.
  Lemma erased_blocks g k i : successors (erased g k i) = successors i.
  Proof.
    unfold successors, erased. cbn [i_code i_ops].
    assert (X : blocks_of (map (erased_operand g k) (i_ops i)) = blocks_of (i_ops i)).
    { unfold blocks_of. induction (i_ops i) as [|v l IH]; [reflexivity|]. cbn [map flat_map]. rewrite IH. f_equal.
      unfold erased_operand. destruct v; cbn [inst_of]; try reflexivity. destruct (find_inst g n) as [d|]; [|reflexivity]. destruct (mem _ _); reflexivity. }
    rewrite X. reflexivity.
  Qed.
  Lemma kept_mem s r : mem r (included s ++ dependent s) = true <-> kept s r.
  Proof. rewrite mem_In, in_app_iff. reflexivity. Qed.

  (** Every instruction of the slice. *)
  Lemma slice_insts s0 g s : second_ok s0 g s -> forall b l', In (b, l') (f_blocks (remove_others g s)) ->
    exists l, In (b, l) (f_blocks f) /\ forall i', In i' l' -> exists i, In i l /\ in_slice i i'.
  Proof.
    intros [Sh _ Sv Hd _] b l' H. cbn [remove_others f_blocks] in H. apply in_map_iff in H as ([b2 l2] & Eq & H). cbn [fst snd] in Eq. injection Eq as -> <-.
    destruct (Forall2_right _ _ _ _ Sh H) as ([b3 l3] & H3 & Eb & F). cbn [fst snd] in *. subst b3. exists l3. split; [exact H3|].
    intros i' I'. apply in_map_iff in I' as (j & <- & J). apply filter_In in J as [J K]. destruct (Forall2_right _ _ _ _ F J) as (i & I & Bi). exists i. split; [exact I|].
    assert (Jg : In j (insts g)) by (apply in_flat_map; exists (b, l2); split; assumption).
    assert (Same : kept s (i_reg j) -> in_slice i (erased g (included s ++ dependent s) j)).
    { intros Kj. rewrite (erased_same g s j (Sv j Jg Kj)). destruct Bi as [->|[(P & Q & R & S & Ic)|(C & t & T & ->)]]; [left; reflexivity|right; left; repeat split; assumption|].
      right. right. left. split; [exact C|]. split; [reflexivity|]. split; [reflexivity|]. exists t. split; [exact T|reflexivity]. }
    destruct (mem (i_reg j) (included s ++ dependent s)) eqn:M; [apply Same, kept_mem; exact M|].
    cbn [orb] in K.
    assert (Tj : terminator (block g b) = Some j).
    { assert (block g b = l2) as -> by (unfold block; rewrite (dget_In_NoDup _ _ _ (shrunk_blocks_unique f B g Sh) H); reflexivity).
      apply in_split in J as (k1 & k2 & ->). rewrite (shrunk_ended f g Sh E b k1 j k2 H K). unfold terminator. rewrite rev_app_distr. cbn [rev app]. rewrite K. reflexivity. }
    assert (NB : i_code j = Br -> successors j = []).
    { intros C. destruct (successors j) as [|x xs] eqn:Sj; [reflexivity|]. exfalso.
      assert (Kj : kept s (i_reg j)) by (apply (Hd b); [apply in_map_iff; exists (b, l3); split; [reflexivity|exact H3]|exact Tj|exact C|rewrite Sj; discriminate]).
      apply kept_mem in Kj. congruence. }
    destruct Bi as [->|[(_ & Q & _)|(C & t & T & ->)]].
    - right. right. right. split; [exact K|]. split; [exact NB|]. repeat split; try reflexivity. apply erased_blocks.
    - exfalso. unfold is_phi, is_terminator in *. destruct (i_code j); discriminate.
    - specialize (NB eq_refl). discriminate.
  Qed.
  (** What is dependent is there. *)
  Lemma slice_dependent s0 g s b l i : second_ok s0 g s -> In (b, l) (f_blocks f) -> In i l -> In (i_reg i) (dependent s0) ->
    exists l' i', In (b, l') (f_blocks (remove_others g s)) /\ In i' l' /\ i_reg i' = i_reg i /\ i_rest i' = i_rest i /\
      (is_phi i = false -> i' = i) /\ (is_phi i = true -> is_phi i' = true /\ incl (i_ops i') (i_ops i)).
  Proof.
    intros [Sh Dp Sv Hd Sm] H I D. destruct (Forall2_left _ _ _ _ Sh H) as ([b2 l2] & H2 & Eb & F). cbn [fst snd] in *. subst b2.
    destruct (Forall2_left _ _ _ _ F I) as (j & J & Bi). pose proof (became_reg _ _ Bi) as Er.
    assert (Ii : In i (insts f)) by (apply in_flat_map; exists (b, l); split; assumption).
    assert (Jg : In j (insts g)) by (apply in_flat_map; exists (b, l2); split; assumption).
    assert (Kj : kept s (i_reg j)) by (right; rewrite Er, Dp; exact D).
    eexists. exists j. split; [apply in_map_iff; exists (b, l2); split; [cbn [fst snd]; reflexivity|exact H2]|].
    split; [apply in_map_iff; exists j; split; [apply erased_same, Sv; assumption|apply filter_In; split; [exact J|apply orb_true_iff; left; apply kept_mem; exact Kj]]|].
    split; [exact Er|]. destruct Bi as [->|[(P & Q & R & S & Ic)|(C & t & T & ->)]].
    - split; [reflexivity|]. split; [reflexivity|]. intros P. split; [exact P|apply incl_refl].
    - split; [exact S|]. split; [congruence|]. auto.
    - destruct (Sm i (jump t i) Ii Jg) as [Q|Q]; [right; right; split; [exact C|exists t; auto]|exact D| |].
      + rewrite Q. split; [reflexivity|]. split; [reflexivity|]. intros P. split; [exact P|apply incl_refl].
      + unfold is_phi in Q. rewrite C in Q. discriminate.
  Qed.
End Result.

(** ** What stays reachable *)

Lemma dget_map_snd {A C} (h : A -> C) (bs : list (nat * A)) x : dget (map (fun kb => (fst kb, h (snd kb))) bs) x = option_map h (dget bs x).
Proof. induction bs as [|[c l] bs IH]; [reflexivity|]. cbn [map fst snd dget]. destruct (eqb x c); [reflexivity|exact IH]. Qed.

Lemma path_trans next a b c : path next a b -> path next b c -> path next a c.
Proof. intros P Q. induction Q as [b|b c d Q IH D]; [exact P|]. apply path_step with c; [apply IH; exact P|exact D]. Qed.
Lemma path_mono next next' a b : (forall x y, In y (next x) -> In y (next' x)) -> path next a b -> path next' a b.
Proof. intros H P. induction P as [b|b c d P IH D]; [constructor|]. apply path_step with c; [exact IH|apply H; exact D]. Qed.
(** A path that goes through [b] with its old targets, or not. *)
Lemma path_split nx b new e c : path nx e c ->
  path (fun x => if Nat.eqb x b then [new] else nx x) e c \/
  c <> b /\ path (fun x => if Nat.eqb x b then [new] else nx x) e b /\ exists z, In z (nx b) /\ path (fun x => if Nat.eqb x b then [z] else nx x) b c.
Proof.
  intros P. induction P as [e|e c d P IH D]; [left; constructor|].
  destruct (Nat.eq_dec d b) as [->|Q].
  - left. destruct IH as [IH|(_ & IH & _)]; [|exact IH]. destruct (Nat.eq_dec c b) as [->|Qc]; [exact IH|].
    apply path_step with c; [exact IH|]. destruct (Nat.eqb_spec c b); [contradiction|exact D].
  - destruct IH as [IH|(Qc & IH & z & Z & Pz)].
    + destruct (Nat.eq_dec c b) as [->|Qc].
      * right. split; [exact Q|]. split; [exact IH|]. exists d. split; [exact D|]. apply path_step with b; [constructor|]. rewrite Nat.eqb_refl. left. reflexivity.
      * left. apply path_step with c; [exact IH|]. destruct (Nat.eqb_spec c b); [contradiction|exact D].
    + right. split; [exact Q|]. split; [exact IH|]. exists z. split; [exact Z|]. apply path_step with c; [exact Pz|]. destruct (Nat.eqb_spec c b); [contradiction|exact D].
Qed.

Section Reach.
  Variable reachable : (nat -> list nat) -> nat -> nat -> bool.
  Variable f : func.
  Hypothesis R : exact f reachable.
  Hypothesis U : NoDup (map i_reg (insts f)).
  Hypothesis B : NoDup (dkeys (f_blocks f)).
  Hypothesis E : ended f.

  Lemma next_none g x : shrunk f g -> ~ In x (dkeys (f_blocks f)) -> next_blocks g x = [].
  Proof.
    intros S H. rewrite <- (shrunk_keys _ _ S) in H. unfold next_blocks, block. destruct (dget (f_blocks g) x) as [l|] eqn:D; [|reflexivity].
    exfalso. apply H. apply dget_In in D. apply in_map_iff. exists (x, l). split; [reflexivity|exact D].
  Qed.
  Lemma reached_way g b t c : shrunk f g -> In b (dkeys (f_blocks f)) -> reached_through reachable g b t c = true <-> by_way g b t c.
  Proof.
    intros S K. unfold reached_through, by_way. rewrite andb_true_iff, negb_true_iff, Nat.eqb_neq.
    assert (X : reachable (through g b t) b c = true <-> path (through g b t) b c).
    { apply R. intros x X. unfold through. destruct (Nat.eqb_spec x b) as [->|_]; [contradiction|apply (next_none g x S X)]. }
    rewrite X. reflexivity.
  Qed.
  Lemma chosen g s exit b t x y new c z : successors t = [x; y] -> included_successors reachable g s exit b t = [new] -> In z [x; y] ->
    In c (included_through reachable g s exit b z) -> In c (included_through reachable g s exit b new).
  Proof.
    intros Su I Z C. unfold included_successors in I. rewrite Su in I.
    set (rx := included_through reachable g s exit b x) in *. set (ry := included_through reachable g s exit b y) in *.
    assert (Sub : forall a a', subset a a' = true -> In c a -> In c a') by (intros a a' H A; unfold subset in H; rewrite forallb_forall in H; apply mem_In; apply H; exact A).
    assert (Z' : In c rx \/ In c ry) by (destruct Z as [<-|[<-|[]]]; [left|right]; exact C).
    destruct (subset rx ry) eqn:Sxy, (subset ry rx) eqn:Syx; cbn [andb] in I.
    - assert (Both : In c rx /\ In c ry) by (destruct Z' as [Z'|Z']; split; try assumption; [apply (Sub rx)|apply (Sub ry)]; assumption). destruct Both as [Bx By].
      assert (new = x \/ new = y) as [->| ->]; [|exact Bx|exact By].
      assert (O : (if opt_eqb exit (Some x) then y else x) = x \/ (if opt_eqb exit (Some x) then y else x) = y) by (destruct (opt_eqb _ _); auto).
      destruct rx; [injection I as <-; exact O|]. destruct (negb _); [injection I as <-; auto|]. destruct (negb _); injection I as <-; auto.
    - injection I as <-. destruct Z' as [Z'|Z']; [apply (Sub rx); assumption|exact Z'].
    - injection I as <-. destruct Z' as [Z'|Z']; [exact Z'|apply (Sub ry); assumption].
    - discriminate.
  Qed.
  Lemma opt_neq (o : option nat) c : o <> Some c -> opt_eqb o (Some c) = false.
  Proof. intros H. destruct (opt_eqb o (Some c)) eqn:Q; [|reflexivity]. exfalso. apply H. destruct o as [x|]; [|discriminate]. unfold opt_eqb in Q. destruct (eqb_spec x c); [congruence|discriminate]. Qed.

  Lemma end_reach n exit g s0 s b g' s' e c : state_ok f g s0 s -> end_of_block reachable n exit (g, s) b = Some (g', s') ->
    In c (in_blocks s0) -> In c (dkeys (f_blocks f)) -> exit <> Some c -> path (next_blocks g) e c -> path (next_blocks g') e c.
  Proof.
    intros [S D I Bl A Br_] H Ci Ck Ce P. destruct (end_spec reachable f U n exit g s b g' s' S H) as [(-> & _)|(t & new & T & C & Nd & Ns & Two & -> & _)]; [exact P|].
    set (gone := filter _ _).
    assert (Nx : forall x, next_blocks (redirect g b new gone) x = if Nat.eqb x b then [new] else next_blocks g x).
    { intros x. unfold next_blocks at 1. rewrite redirect_terminator. destruct (Nat.eqb_spec x b) as [->|_]; [rewrite T; reflexivity|]. unfold next_blocks. destruct (terminator (block g x)); reflexivity. }
    assert (M : forall a d, path (fun x => if Nat.eqb x b then [new] else next_blocks g x) a d -> path (next_blocks (redirect g b new gone)) a d) by (intros a d; apply path_mono; intros x y Y; rewrite Nx; exact Y).
    assert (Nb : next_blocks g b = successors t) by (unfold next_blocks; rewrite T; reflexivity).
    apply M. destruct (path_split _ b new e c P) as [Q|(Qc & Pb & z & Z & Pz)]; [exact Q|]. eapply path_trans; [exact Pb|]. rewrite Nb in Z.
    assert (Kb : In b (dkeys (f_blocks f))).
    { destruct (in_dec Nat.eq_dec b (dkeys (f_blocks f))) as [K|K]; [exact K|]. rewrite (next_none g b S K) in Nb. rewrite <- Nb in Ns. destruct Ns. }
    assert (Wz : reached_through reachable g b z c = true) by (apply reached_way; [exact S|exact Kb|]; split; assumption).
    destruct (successors t) as [|x [|y l]] eqn:Su; [destruct Z| |].
    - destruct Z as [<-|[]]. destruct Ns as [<-|[]]. exact Pz.
    - destruct l as [|w l].
      + assert (Cz : In c (included_through reachable g s exit b z)).
        { apply filter_In. split; [rewrite (shrunk_keys _ _ S); exact Ck|]. rewrite Wz, (opt_neq exit c Ce). cbn [negb andb]. rewrite andb_true_r. apply mem_In. apply Bl. exact Ci. }
        pose proof (chosen g s exit b t x y new c z Su (Two x y [] eq_refl) Z Cz) as Cn. apply filter_In in Cn as [_ Cn].
        apply andb_true_iff in Cn as [Cn _]. apply andb_true_iff in Cn as [Cn _]. apply (reached_way g b new c S Kb) in Cn as [_ Cn]. exact Cn.
      + specialize (Two x y (w :: l) eq_refl). unfold included_successors in Two. rewrite Su in Two. discriminate.
  Qed.
  Lemma ends_reach n exit s0 e c : In c (in_blocks s0) -> In c (dkeys (f_blocks f)) -> exit <> Some c ->
    forall bs g s g' s', state_ok f g s0 s -> each (end_of_block reachable n exit) bs (g, s) = Some (g', s') -> path (next_blocks g) e c -> path (next_blocks g') e c.
  Proof.
    intros Ci Ck Ce. induction bs as [|b bs IH]; intros g s g' s' O H P; cbn [each] in H; [injection H as <- <-; exact P|].
    destruct (end_of_block reachable n exit (g, s) b) as [[g1 s1]|] eqn:E1; [|discriminate].
    apply (IH g1 s1 g' s'); [apply (end_ok reachable f U B E n exit g s0 s b g1 s1 O E1)|exact H|]. apply (end_reach n exit g s0 s b g1 s1); assumption.
  Qed.
  Lemma erased_next g s x d : ended g -> In d (next_blocks g x) -> In d (next_blocks (remove_others g s) x).
  Proof.
    intros _ H. unfold next_blocks in *. destruct (terminator (block g x)) as [t|] eqn:T; [|destruct H].
    apply terminator_last in T as (k & T & K).
    assert (Bx : block (remove_others g s) x = map (erased g (included s ++ dependent s)) (filter (fun i => mem (i_reg i) (included s ++ dependent s) || is_terminator i) (block g x))).
    { unfold block, remove_others. cbn [f_blocks]. rewrite (dget_map_snd (fun l => map (erased g (included s ++ dependent s)) (filter (fun i => mem (i_reg i) (included s ++ dependent s) || is_terminator i) l))).
      destruct (dget (f_blocks g) x); reflexivity. }
    rewrite Bx, T, filter_app. cbn [filter]. rewrite K, orb_true_r, map_app. cbn [map]. unfold terminator. rewrite rev_app_distr. cbn [rev app].
    change (is_terminator (erased g (included s ++ dependent s) t)) with (is_terminator t). rewrite K. rewrite erased_blocks. exact H.
  Qed.
  Lemma slice_reach n s0 g s e c : included s0 = [] -> second_phase reachable n f s0 = Some (g, s) -> In c (in_blocks s0) -> In c (dkeys (f_blocks f)) -> return_block f <> Some c ->
    path (next_blocks f) e c -> path (next_blocks (remove_others g s)) e c.
  Proof.
    intros I0 H Ci Ck Ce P. pose proof (second_spec reachable f U B E n s0 g s I0 H) as [Sh _ _ _ _].
    apply path_mono with (next_blocks g); [intros x y; apply erased_next, (shrunk_ended f g Sh E)|].
    unfold second_phase in H. destruct (each (operands_of_dependent n f) (dependent s0) s0) as [s1|] eqn:E1; [|discriminate].
    destruct (dependent_operands f U n _ _ _ (fun r R => R) E1) as [G1 S1].
    destruct (each (end_of_block reachable n (return_block f)) (dkeys (f_blocks f)) (f, s1)) as [[g2 s2]|] eqn:E2; [|discriminate].
    destruct (each (phi_operands n g2) (insts g2) s2) as [s3|] eqn:E3; [|discriminate]. injection H as <- <-.
    apply (ends_reach n (return_block f) s0 e c Ci Ck Ce (dkeys (f_blocks f)) f s1 g2 s2); [|exact E2|exact P].
    constructor; [apply shrunk_refl|apply (grows_dependent _ _ _ G1)|apply (grows_included _ _ _ G1)|apply (grows_blocks _ _ _ G1)| |].
    - intros i I K. destruct (grows_served _ _ _ G1 i I K) as [[K'|K']|S]; [rewrite I0 in K'; destruct K'| |left; exact S].
      destruct (is_phi i) eqn:Ph; [right; reflexivity|left; apply S1; assumption].
    - intros i i' Ii I' Bi _. left. apply (same_reg (insts f)); [exact U|exact I'|exact Ii|apply became_reg; exact Bi].
  Qed.
End Reach.



