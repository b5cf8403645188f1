(** * Calls and terminators are compared whatever patterns are on *)
From Coq Require Import String Ascii ZArith Arith Bool Lia List.
From Verif Require Import PyBase Funcomp_Model Funcomp_Spec Funcomp_Log Funcomp_Reloc Funcomp_Inv Funcomp_Walk.
Import ListNotations.
Open Scope list_scope.
Open Scope nat_scope.

Section Visible.
  Variable w : world.
  Variables fl fr : func.

  (** Only registers are left out or replaced, and only the targets of branches are swapped. *)
  Record only_regs (s : state) : Prop := mkOnly {
    o_skipL : forall v, In v (skipL s) -> is_reg v = true; o_skipR : forall v, In v (skipR s) -> is_reg v = true;
    o_ignL : forall v, In v (ignL s) -> is_reg v = true; o_ignR : forall v, In v (ignR s) -> is_reg v = true;
    o_replL : forall v u, dget (replL s) v = Some u -> is_reg v = true; o_replR : forall v u, dget (replR s) v = Some u -> is_reg v = true;
    o_swapped : forall r, In r (swapped s) -> exists j, In j (insts fr) /\ i_reg j = r /\ i_code j = Br }.
  Definition okcv (cv : comparer) : Prop := forall l r s b s', only_regs s -> cv l r s = Some (b, s') -> only_regs s'.

  Lemma only_same s s' : only_regs s -> skipL s' = skipL s -> skipR s' = skipR s -> ignL s' = ignL s -> ignR s' = ignR s -> replL s' = replL s -> replR s' = replR s -> swapped s' = swapped s -> only_regs s'.
  Proof. intros [A B C D E F G] e1 e2 e3 e4 e5 e6 e7. constructor; rewrite ?e1, ?e2, ?e3, ?e4, ?e5, ?e6, ?e7; assumption. Qed.
  Ltac same := eapply only_same; [eassumption|reflexivity..].
  Lemma only_put_repl left v u s : is_reg v = true -> only_regs s -> only_regs (put_repl left v u s).
  Proof.
    intros R O. unfold put_repl. destruct (dmem _ _); [exact O|].
    assert (K : forall d, (forall x y, dget d x = Some y -> is_reg x = true) -> forall x y, dget (dset d v u) x = Some y -> is_reg x = true).
    { intros d D x y. rewrite dget_dset. destruct (eqb_spec x v) as [->|_]; [intros _; exact R|apply D]. }
    destruct O. destruct left; constructor; cbn; try assumption; eapply K; eassumption.
  Qed.
  Lemma only_put_skip left l s : (forall v, In v l -> is_reg v = true) -> only_regs s -> only_regs (put_skip left l s).
  Proof. intros R [A B C D E F G]. destruct left; constructor; assumption. Qed.
  Lemma only_put_ign left l s : (forall v, In v l -> is_reg v = true) -> only_regs s -> only_regs (put_ign left l s).
  Proof. intros R [A B C D E F G]. destruct left; constructor; assumption. Qed.
  Lemma only_skip left s v : only_regs s -> In v (skip left s) -> is_reg v = true.
  Proof. intros O. destruct left; [apply (o_skipL _ O)|apply (o_skipR _ O)]. Qed.
  Lemma only_ign left s v : only_regs s -> In v (ign left s) -> is_reg v = true.
  Proof. intros O. destruct left; [apply (o_ignL _ O)|apply (o_ignR _ O)]. Qed.
  Lemma inst_of_reg f v i : inst_of f v = Some i -> is_reg v = true /\ In i (insts f).
  Proof. destruct v; try discriminate. cbn. unfold find_inst. intros H. apply find_some in H. split; [reflexivity|apply H]. Qed.

  Lemma only_replacement left v s x s' : only_regs s -> replacement w fl fr left v s = (x, s') -> only_regs s'.
  Proof.
    intros O. unfold replacement. destruct (dget _ v); [intros H; injection H as <- <-; exact O|].
    destruct (inst_of _ v) as [i|] eqn:I; [|intros H; injection H as <- <-; exact O]. apply inst_of_reg in I. destruct I as [I _].
    set (c := match i_code i with Cast true => safe_cast w i | _ => false end).
    destruct ((c || zero_gep i) && _); intros H; injection H as <- <-; destruct c; try exact O; apply only_put_repl; assumption.
  Qed.
  Lemma only_cmp_base l r s b s' : only_regs s -> cmp_base w fl fr l r s = (b, s') -> only_regs s'.
  Proof.
    intros O. unfold cmp_base.
    assert (N : cmp_numbered fl fr l r s = (b, s') -> only_regs s').
    { unfold cmp_numbered. destruct (number (snL s) l) as [a sl]. destruct (number (snR s) r) as [c sr].
      destruct (a =? c).
      - destruct (length sl =? _); [|intros H; injection H as <- <-; same].
        destruct (phi_of fl l), (phi_of fr r); intros H; injection H as <- <-; same.
      - destruct (is_block l && is_block r).
        + destruct (if length sl =? length sr then _ else _) as [x y]. intros H; injection H as <- <-. same.
        + intros H; injection H as <- <-; same. }
    destruct l, r; try exact N; intros H; injection H as <- <-; exact O.
  Qed.
  Lemma only_cmp_all cv : okcv cv -> forall ls rs s b s', only_regs s -> cmp_all cv ls rs s = Some (b, s') -> only_regs s'.
  Proof.
    intros Q. induction ls as [|l ls IH]; intros [|r rs] s b s' O; cbn; try (intros H; injection H as <- <-; exact O).
    destruct (cv l r s) as [[[|] s1]|] eqn:X; [|intros H; injection H as <- <-; eapply Q; [exact O|exact X]|discriminate].
    apply IH. eapply Q; [exact O|exact X].
  Qed.
  Lemma only_operation_base cv : okcv cv -> forall i j s b s', only_regs s -> cmp_operation_base w cv i j s = Some (b, s') -> only_regs s'.
  Proof.
    intros Q i j s b s' O. unfold cmp_operation_base.
    destruct (cv (VReg (i_reg i)) (VReg (i_reg j)) s) as [[[|] s1]|] eqn:X; [| |discriminate];
      [|intros H; injection H as <- <-; eapply Q; [exact O|exact X]].
    assert (G : only_regs s1) by (eapply Q; [exact O|exact X]).
    assert (D : forall y, Some (y, s1) = Some (b, s') -> only_regs s') by (intros y H; injection H as <- <-; exact G).
    destruct (i_code i); try apply D. destruct (i_code j); try apply D.
    destruct (cv (op 0 i) (op 0 j) s1) as [[[|] s2]|] eqn:Y; [| |discriminate];
      [|intros H; injection H as <- <-; eapply Q; [exact G|exact Y]].
    assert (G2 : only_regs s2) by (eapply Q; [exact G|exact Y]).
    assert (K : (if same_rest w (i_rest i) (i_rest j) && (length (i_ops i) =? length (i_ops j)) && same_kinds (i_ops i) (i_ops j)
                 then match cmp_all cv (i_ops i) (i_ops j) s2 with Some (b, s3) => Some (b, false, s3) | None => None end
                 else Some (false, false, s2)) = Some (b, s') -> only_regs s').
    { destruct (_ && _); [|intros H; injection H as <- <-; exact G2].
      destruct (cmp_all cv _ _ s2) as [[c s3]|] eqn:Z; [|discriminate]. intros H; injection H as <- <-.
      eapply only_cmp_all; [exact Q|exact G2|exact Z]. }
    destruct offset as [x|]; [destruct offset0 as [y|]|]; try exact K. intros H; injection H as <- <-; exact G2.
  Qed.
  Lemma only_operation cv : okcv cv -> forall i j s b s', (i_code j = Br -> exists j0, In j0 (insts fr) /\ i_reg j0 = i_reg j /\ i_code j0 = Br) -> only_regs s ->
    cmp_operation w fl fr cv i j s = Some (b, s') -> only_regs s'.
  Proof.
    intros Q i j s b s' BR O. unfold cmp_operation. destruct (is_phi i && is_phi j); [intros H; injection H as <- <-; exact O|].
    destruct (cmp_operation_base w cv i j s) as [[[res need] s1]|] eqn:X; [|discriminate].
    assert (G : only_regs s1) by (eapply only_operation_base; [exact Q|exact O|exact X]).
    assert (D : Some (res, need, s1) = Some (b, s') -> only_regs s') by (intros H; injection H as <- <-; exact G).
    destruct (i_code i); try exact D.
    - destruct (i_code j); try exact D.
      destruct (_ && _); [intros H; injection H as <- <-; same|exact D].
    - destruct (i_code j) eqn:CJ; try exact D.
      destruct (i_ops i) as [|c [|? [|? [|? ?]]]]; try exact D. destruct (i_ops j) as [|d [|? [|? [|? ?]]]]; try exact D.
      destruct (mem _ (inverses s1)); [intros H; injection H as <- <-|exact D]. destruct G as [A B C E F G' W]. constructor; cbn; try assumption.
      intros r R. destruct (mem (i_reg j) (swapped s1)); [apply filter_In in R; apply W, R|]. destruct R as [<-|R]; [exact (BR eq_refl)|exact (W r R)].
  Qed.
  Lemma only_operands cv : okcv cv -> forall i j ls rs k s b s', only_regs s -> cmp_operands w cv i j k ls rs s = Some (b, s') -> only_regs s'.
  Proof.
    intros Q i j. induction ls as [|l ls IH]; intros [|r rs] k s b s' O; cbn; try (intros H; injection H as <- <-; exact O).
    destruct (cv l r s) as [[[|] s1]|] eqn:X; [| |discriminate].
    - apply IH. eapply Q; [exact O|exact X].
    - assert (G : only_regs s1) by (eapply Q; [exact O|exact X]). destruct (_ && _); intros H; injection H as <- <-; [same|exact G].
  Qed.
  Lemma now_code s j : i_code (now s j) = i_code j /\ i_reg (now s j) = i_reg j /\ i_rest (now s j) = i_rest j /\ length (i_ops (now s j)) = length (i_ops j).
  Proof. unfold now. destruct (mem _ _); [|auto]. unfold swap_targets. destruct (i_ops j) as [|? [|? [|? [|? ?]]]] eqn:E; cbn; rewrite ?E; auto. Qed.
  Lemma only_insts cv : okcv cv -> forall i j s b s', In j (insts fr) -> only_regs s -> cmp_insts w fl fr cv i j s = Some (b, s') -> only_regs s'.
  Proof.
    intros Q i j s b s' J O. unfold cmp_insts. destruct (now_code s j) as [NC [NR _]].
    assert (BR : i_code (now s j) = Br -> exists j0, In j0 (insts fr) /\ i_reg j0 = i_reg (now s j) /\ i_code j0 = Br) by (rewrite NC, NR; eauto).
    destruct (cmp_operation w fl fr cv i (now s j) s) as [[[[|] [|]] s1]|] eqn:X; try discriminate;
      try (intros H; injection H as <- <-; eapply only_operation; [exact Q|exact BR|exact O|exact X]).
    intros H. eapply only_operands; [exact Q| |exact H]. eapply only_operation; [exact Q|exact BR|exact O|exact X].
  Qed.
  Lemma only_without v l : (forall x, In x l -> is_reg x = true) -> forall x, In x (without v l) -> is_reg x = true.
  Proof. intros H x I. apply filter_In in I. apply H, I. Qed.
  Lemma only_values n : okcv (cmp_values w fl fr n).
  Proof.
    induction n as [|n IH]; intros l r s b s' O; [discriminate|]. cbn [cmp_values].
    destruct (mem l (skipL s)) eqn:ML; cbn [andb].
    - destruct (mem r (skipR s)) eqn:MR.
      + apply mem_In in ML, MR. pose proof (o_skipL _ O l ML) as RL. pose proof (o_skipR _ O r MR) as RR.
        destruct (inst_of fl l) as [i|]; [|discriminate]. destruct (inst_of fr r) as [j|] eqn:IJ; [|discriminate]. apply inst_of_reg in IJ.
        destruct (cmp_insts _ _ _ _ i j _) as [[c s1]|] eqn:X; [|discriminate].
        assert (G : only_regs s1).
        { eapply (only_insts _ IH i j); [apply IJ| |exact X]. destruct O as [A B C D E F G]. constructor; cbn; try assumption; apply only_without; assumption. }
        destruct c; intros H; injection H as <- <-; [exact G|]. destruct G as [A B C D E F G]. constructor; cbn; try assumption; intros x [<-|K]; auto.
      + rewrite !orb_true_r. cbn [orb]. rewrite ?orb_true_r. intros H; injection H as <- <-; exact O.
    - destruct (_ || _ || _ || _); [intros H; injection H as <- <-; exact O|].
      destruct (replacement w fl fr true l s) as [x s1] eqn:X. destruct (replacement w fl fr false r s1) as [y s2] eqn:Y.
      apply only_replacement in X; [|exact O]. apply only_replacement in Y; [|exact X].
      destruct x, y; try (apply IH; same).
      intros H. destruct (cmp_base w fl fr l r s2) as [c s3] eqn:Z. injection H as <- <-. eapply only_cmp_base; [exact Y|exact Z].
  Qed.
  Lemma only_may_skip left b i s x s' : only_regs s -> may_skip w fl fr left b i s = (x, s') -> only_regs s'.
  Proof.
    intros O.
    assert (FG : forall y, forget left i s = (y, s') -> only_regs s').
    { intros y H. injection H as <- <-. apply only_put_ign; [|exact O]. intros v [<-|V]; [reflexivity|eapply only_ign; eassumption]. }
    assert (RP : forall v y, replace_by left i v s = (y, s') -> only_regs s') by (intros v y H; injection H as <- <-; apply only_put_repl; [reflexivity|exact O]).
    assert (NO : forall y, (y, s) = (x, s') -> only_regs s') by (intros y H; injection H as <- <-; exact O).
    assert (AL : (true, put_skip left (VReg (i_reg i) :: skip left s) s) = (x, s') -> only_regs s').
    { intros H. injection H as <- <-. apply only_put_skip; [|exact O]. intros v [<-|V]; [reflexivity|eapply only_skip; eassumption]. }
    assert (G : forall (g1 g2 : bool) (r : bool * state), (r = (x, s') -> only_regs s') -> (if g1 then forget left i s else if g2 then forget left i s else r) = (x, s') -> only_regs s').
    { intros [|] [|] r R; try exact R; apply FG. }
    unfold may_skip. destruct (i_code i); try exact AL; apply G; try (apply NO).
    - destruct (skip_load _ _ left b i s); [apply RP|apply NO].
    -
      destruct (p_groupvars w); [|apply NO]. destruct (alloca_op _ i) as [a|]; [|apply NO]. destruct (mem a (skip left s)) eqn:M; [|destruct (mem a (ign left s)); [apply FG|apply NO]].
    apply mem_In in M. intros H. injection H as <- <-.
    assert (O1 : only_regs (put_skip left (without a (skip left s)) s)) by (apply only_put_skip; [apply only_without; intros v V; eapply only_skip; eassumption|exact O]).
    apply only_put_ign; [|exact O1]. intros v [<-|[<-|V]]; [reflexivity|exact (only_skip left s a O M)|exact (only_ign left _ v O1 V)].
    - destruct (_ || _); [apply RP|apply NO].
    - destruct (zero_gep i); [apply RP|apply NO].
  Qed.
  Lemma only_undo i j s : only_regs s -> only_regs (undo i j s).
  Proof. intros O. same. Qed.
  Lemma only_negation left i s : only_regs s -> only_regs (negation left i s).
  Proof.
    intros O. unfold negation. assert (G : only_regs (put_repl left (VReg (i_reg i)) (op 0 i) s)) by (apply only_put_repl; [reflexivity|exact O]). destruct (mem _ _); same.
  Qed.

  (** ** Constants *)
  Lemma values_const n a b s s' : only_regs s -> cmp_values w fl fr n (VConst a) (VConst b) s = Some (true, s') -> same_const w a b = true.
  Proof.
    intros O. destruct n as [|n]; [discriminate|]. cbn [cmp_values].
    assert (N : forall l v, (forall x, In x l -> is_reg x = true) -> is_reg v = false -> mem v l = false) by (intros l v H R; apply mem_not_In; intros I; apply H in I; congruence).
    rewrite (N (skipL s)), (N (skipR s)), (N (ignL s)), (N (ignR s)); try reflexivity; try apply O. cbn [andb orb].
    assert (RL : replacement w fl fr true (VConst a) s = (None, s)).
    { unfold replacement. cbn [repl inst_of]. destruct (dget (replL s) (VConst a)) eqn:D; [apply (o_replL _ O) in D; discriminate|reflexivity]. }
    assert (RR : replacement w fl fr false (VConst b) s = (None, s)).
    { unfold replacement. cbn [repl inst_of]. destruct (dget (replR s) (VConst b)) eqn:D; [apply (o_replR _ O) in D; discriminate|reflexivity]. }
    rewrite RL, RR. cbn [cmp_base]. intros H. injection H as H _. exact H.
  Qed.
  Lemma operands_const n i j : forall ls rs k s s', only_regs s -> cmp_operands w (cmp_values w fl fr n) i j k ls rs s = Some (true, s') -> ~ In Source_argument (log s') ->
    forall m g h, nth_error ls m = Some (VConst g) -> nth_error rs m = Some (VConst h) -> same_const w g h = true.
  Proof.
    induction ls as [|l ls IH]; intros [|r rs] k s s' O; cbn [cmp_operands]; try (intros _ _ [|m] g h A B; discriminate).
    destruct (cmp_values w fl fr n l r s) as [[[|] s1]|] eqn:X; [| |discriminate].
    - intros H NS [|m] g h A B; cbn in A, B.
      + injection A as ->. injection B as ->. eapply values_const; [exact O|exact X].
      + eapply (IH rs (S k) s1 s'); eauto. eapply only_values; [exact O|exact X].
    - destruct (_ && _); intros H NS; [|discriminate]. injection H as <-. destruct NS. left. reflexivity.
  Qed.

  Hypothesis W : well_formed fr.

  Lemma now_other s j : only_regs s -> In j (insts fr) -> i_code j <> Br -> now s j = j.
  Proof.
    intros O J NB. unfold now. destruct (mem (i_reg j) (swapped s)) eqn:M; [|reflexivity]. apply mem_In in M. destruct (o_swapped _ O _ M) as [j0 [J0 [R C]]].
    destruct NB. rewrite <- C. f_equal. pose proof (In_find fr j (wf_regs _ W) J) as A. pose proof (In_find fr j0 (wf_regs _ W) J0) as B. rewrite R in B. congruence.
  Qed.
  Lemma operation_code n i j s need s' : cmp_operation w fl fr (cmp_values w fl fr n) i j s = Some (true, need, s') ->
    is_phi i && is_phi j = true \/ (exists a b, i_code i = Gep a /\ i_code j = Gep b) \/ (exists a b, i_code i = Cmp a /\ i_code j = Cmp b) \/
    (need = true /\ i_code i = i_code j /\ length (i_ops i) = length (i_ops j) /\ (i_code i <> Br -> same_rest w (i_rest i) (i_rest j) = true)).
  Proof.
    unfold cmp_operation. destruct (is_phi i && is_phi j) eqn:PP; [auto|].
    destruct (cmp_operation_base w _ i j s) as [[[res nd] s1]|] eqn:B; [|discriminate].
    assert (K : (exists a b, i_code i = Gep a /\ i_code j = Gep b) \/ (nd = true /\ (res = true -> i_code i = i_code j /\ length (i_ops i) = length (i_ops j) /\ same_rest w (i_rest i) (i_rest j) = true))).
    { unfold cmp_operation_base in B. destruct (cmp_values w fl fr n _ _ s) as [[[|] s0]|]; [| |discriminate].
      - assert (Q : forall c d, i_code i = c -> i_code j = d -> Some (same_code c d && (length (i_ops i) =? length (i_ops j)) && same_rest w (i_rest i) (i_rest j) && same_kinds (i_ops i) (i_ops j), true, s0) = Some (res, nd, s1) ->
          nd = true /\ (res = true -> i_code i = i_code j /\ length (i_ops i) = length (i_ops j) /\ same_rest w (i_rest i) (i_rest j) = true)).
        { intros c d CI CJ H. injection H as <- <- _. split; [reflexivity|]. intros H. apply andb_true_iff in H. destruct H as [H _]. apply andb_true_iff in H. destruct H as [H SR].
          apply andb_true_iff in H. destruct H as [SC L]. apply Nat.eqb_eq in L. split; [|auto]. rewrite CI, CJ.
          destruct c, d; try discriminate; try reflexivity; cbn in SC; try (apply String.eqb_eq in SC; congruence). apply Bool.eqb_prop in SC. congruence. }
        destruct (i_code i) eqn:CI; try (right; exact (Q _ _ eq_refl eq_refl B)).
        destruct (i_code j) eqn:CJ; try (right; exact (Q _ _ eq_refl eq_refl B)). left. eauto.
      - injection B as <- <- _. right. split; [reflexivity|discriminate]. }
    destruct K as [K|[-> K]]; [auto|].
    assert (D : Some (res, true, s1) = Some (true, need, s') -> need = true /\ i_code i = i_code j /\ length (i_ops i) = length (i_ops j) /\ (i_code i <> Br -> same_rest w (i_rest i) (i_rest j) = true)).
    { intros H. injection H as -> <- _. destruct (K eq_refl) as [A [A2 A3]]. auto. }
    destruct (i_code i) eqn:CI; try (intros H; right; right; right; exact (D H)).
    - destruct (i_code j) eqn:CJ; try (intros H; right; right; right; exact (D H)). intros _. right. right. left. eauto.
    - destruct (i_code j) eqn:CJ; try (intros H; right; right; right; exact (D H)).
      destruct (i_ops i) as [|c [|x [|y [|? ?]]]] eqn:OI; try (intros H; right; right; right; exact (D H)). destruct (i_ops j) as [|d [|z [|t [|? ?]]]] eqn:OJ; try (intros H; right; right; right; exact (D H)).
      destruct (mem _ _); [|intros H; right; right; right; exact (D H)]. intros H. injection H as <- _. right. right. right. split; [reflexivity|]. split; [reflexivity|]. split; [reflexivity|]. intros F. destruct F. reflexivity.
  Qed.

  Lemma visible_cases i : visible w i = true -> is_phi i = false /\ (forall a, i_code i <> Gep a) /\ (forall a, i_code i <> Cmp a).
  Proof. unfold visible, is_phi. destruct (i_code i); intros V; try discriminate; (split; [reflexivity|split; discriminate]). Qed.
  Lemma visible_code i j : i_code i = i_code j -> visible w i = visible w j.
  Proof. unfold visible. intros ->. reflexivity. Qed.

  Lemma insts_correspond n i j s s' : only_regs s -> In j (insts fr) -> cmp_insts w fl fr (cmp_values w fl fr n) i j s = Some (true, s') -> ~ In Source_argument (log s') ->
    visible w i = visible w j /\ (visible w i = true -> corresponds w i j).
  Proof.
    intros O J. unfold cmp_insts. destruct (now_code s j) as [NC [NR [NS NL]]].
    destruct (cmp_operation w fl fr _ i (now s j) s) as [[[b need] s1]|] eqn:X; [|discriminate]. destruct b; [|discriminate]. intros H NA.
    assert (O1 : only_regs s1).
    { eapply only_operation; [apply only_values| |exact O|exact X]. rewrite NC, NR. eauto. }
    apply operation_code in X. unfold is_phi in X. rewrite NC, NL, NS in X.
    destruct X as [P|[[a [b [A B]]]|[[a [b [A B]]]|[-> [C [L R]]]]]].
    - apply andb_true_iff in P. destruct P as [P Q]. unfold visible. destruct (i_code i); try discriminate. destruct (i_code j); try discriminate. split; [reflexivity|discriminate].
    - unfold visible. rewrite A, B. split; [reflexivity|discriminate].
    - unfold visible. rewrite A, B. split; [reflexivity|discriminate].
    - split; [apply visible_code; exact C|]. intros V. split; [exact C|]. split; [exact L|]. intros NB. split; [exact (R NB)|].
      rewrite (now_other s1 j O1 J) in H by congruence. eapply operands_const; [exact O1|exact H|exact NA].
  Qed.

  Hypothesis nots : forall i, is_not w i = true -> exists b, i_code i = Binop b.

  Lemma skip_invisible left b i s s' : may_skip w fl fr left b i s = (true, s') -> visible w i = false.
  Proof.
    unfold may_skip, visible, is_call, is_terminator, reorderable. destruct (i_code i) eqn:C; try reflexivity; cbn [negb]; rewrite ?andb_false_r; cbn [andb]; try discriminate.
    - destruct (p_groupvars w); [reflexivity|]. cbn [andb]. discriminate.
    - destruct (p_groupvars w); [reflexivity|]. cbn [andb]. discriminate.
  Qed.
  Lemma log_in e s s' : grows s s' -> ~ In e (log s') -> ~ In e (log s).
  Proof. intros [l G] N I. apply N. rewrite G. apply in_or_app. right. exact I. Qed.
  Lemma filter_cons_false {A} (p : A -> bool) x l : p x = false -> filter p (x :: l) = filter p l.
  Proof. cbn. intros ->. reflexivity. Qed.

  Lemma blocks_correspond n : forall bl br pl pr s s', (forall j, In j pr -> In j (insts fr)) -> only_regs s -> r_status (reloc s) = NoReloc ->
    cmp_blocks w fl fr n bl br false false pl pr s = Some (true, s') -> ~ In Relocated (log s') -> ~ In Source_argument (log s') ->
    Forall2 (corresponds w) (filter (visible w) pl) (filter (visible w) pr) /\ only_regs s' /\ r_status (reloc s') = NoReloc.
  Proof.
    induction n as [|n IH]; intros bl br pl pr s s' I O ST; [discriminate|]. cbn [cmp_blocks].
    destruct pl as [|i pl], pr as [|j pr]; cbn [orb]; try discriminate.
    { intros H. injection H as <-. intros _ _. split; [constructor|auto]. }
    assert (DB : forall x, is_debug x = true -> visible w x = false) by (intros x; unfold is_debug, visible; destruct (i_code x); discriminate || reflexivity).
    assert (BO : forall x b, i_code x = Binop b -> visible w x = false) by (intros x b C; unfold visible; rewrite C; reflexivity).
    assert (I' : forall y, In y pr -> In y (insts fr)) by (intros y Y; apply I; right; exact Y).
    destruct (is_debug i) eqn:DI.
    { intros H NR NA. rewrite (filter_cons_false _ i) by (apply DB; exact DI). eapply IH; eauto. }
    destruct (is_debug j) eqn:DJ.
    { intros H NR NA. rewrite (filter_cons_false _ j) by (apply DB; exact DJ). eapply IH; eauto. }
    destruct (cmp_insts w fl fr _ i j s) as [[c s1]|] eqn:X; [|discriminate].
    assert (O1 : only_regs s1) by (eapply only_insts; [apply only_values|apply I; left; reflexivity|exact O|exact X]).
    assert (K1 : reloc s1 = reloc s) by (eapply cmp_insts_reloc; [apply cmp_values_reloc|exact X]).
    destruct c.
    - rewrite K1, ST. intros H NR NA. assert (G : grows s1 s') by (eapply cmp_blocks_log; exact H).
      apply IH in H; auto; [|rewrite K1; exact ST]. destruct H as [F R]. split; [|exact R].
      destruct (insts_correspond n i j s s1 O (I j (or_introl eq_refl)) X (log_in _ _ _ G NA)) as [V C]. cbn [filter]. rewrite <- V. destruct (visible w i); [constructor; auto|exact F].
    - destruct (may_skip w fl fr true bl i s1) as [sk1 s2] eqn:Y. destruct (may_skip w fl fr false br j s2) as [sk2 s3] eqn:Z.
      assert (O2 : only_regs s2) by (eapply only_may_skip; [exact O1|exact Y]). assert (O3 : only_regs s3) by (eapply only_may_skip; [exact O2|exact Z]).
      assert (K3 : reloc s3 = reloc s) by (apply may_skip_reloc in Y, Z; congruence).
      assert (NG : forall left x, reloc (negation left x (undo i j s3)) = reloc s) by (intros left x; unfold negation; destruct (mem _ _); cbn; rewrite put_repl_reloc; exact K3).
      assert (O4 : only_regs (undo i j s3)) by (apply only_undo; exact O3).
      assert (ON : forall e x, only_regs x -> only_regs (note e x)) by (intros e x [A B C D E F G]; constructor; assumption).
      destruct (sk1 || sk2) eqn:SK.
      { intros H NR NA. apply IH in H; auto.
        - destruct H as [F R]. split; [|exact R]. destruct sk1; [rewrite (filter_cons_false _ i) by (eapply skip_invisible; exact Y)|]; (destruct sk2; [rewrite (filter_cons_false _ j) by (eapply skip_invisible; exact Z)|]); exact F.
        - destruct sk2; auto.
        - cbn. rewrite K3. exact ST. }
      destruct (reordered w fl fr i j s3) eqn:RO.
      { intros H NR NA. apply IH in H; auto; [|cbn; rewrite K3; exact ST]. destruct H as [F R]. split; [|exact R]. unfold reordered in RO. apply andb_true_iff in RO. destruct RO as [_ RO].
        destruct (i_code i) eqn:CI; try discriminate. destruct (i_code j) eqn:CJ; try discriminate.
        rewrite (filter_cons_false _ i), (filter_cons_false _ j); eauto. }
      destruct (p_inverse w && (is_not w i && only_conditions w fl i)) eqn:N1.
      { intros H NR NA. apply IH in H; auto; [|apply ON, only_negation, O4|cbn; rewrite NG; exact ST]. destruct H as [F R]. split; [|exact R].
        apply andb_true_iff in N1. destruct N1 as [_ N1]. apply andb_true_iff in N1. destruct N1 as [N1 _]. destruct (nots i N1) as [b B]. rewrite (filter_cons_false _ i); eauto. }
      destruct (p_inverse w && (is_not w j && only_conditions w fr j)) eqn:N2.
      { apply andb_true_iff in N2. destruct N2 as [_ N2]. apply andb_true_iff in N2. destruct N2 as [N2 _]. destruct (nots j N2) as [b B].
        destruct (is_not w i) eqn:NI.
        - intros H NR NA. apply IH in H; auto; [|apply ON, only_negation, O4|cbn; rewrite NG; exact ST]. destruct H as [F R]. split; [|exact R].
          destruct (nots i NI) as [b' B']. rewrite (filter_cons_false _ i); eauto.
        - intros H NR NA. apply IH in H; auto; [|apply ON, only_negation, O4|cbn; rewrite NG; exact ST]. destruct H as [F R]. split; [|exact R].
          rewrite (filter_cons_false _ j); eauto. }
      rewrite K3, ST. destruct (p_relocations w); [|discriminate].
      destruct (find_reloc w fl fr n false br (i :: pl) (j :: pr) s3) as [[[[[|] ql] qr] s4]|] eqn:U; [| |discriminate].
      { intros H NR NA. apply find_reloc_log in U. destruct U as [_ U]. destruct (log_in _ _ _ (cmp_blocks_log w fl fr n _ _ _ _ _ _ _ _ _ H) NR). exact (U eq_refl). }
      destruct (find_reloc w fl fr n true bl ql qr s4) as [[[[[|] ql'] qr'] s5]|] eqn:U2; [| |discriminate]; [|discriminate].
      intros H NR NA. apply find_reloc_log in U2. destruct U2 as [_ U2]. destruct (log_in _ _ _ (cmp_blocks_log w fl fr n _ _ _ _ _ _ _ _ _ H) NR). exact (U2 eq_refl).
  Qed.

  (** ** Relocated code is compared at its new place *)
  Lemma relocated_correspond n : forall bl br al ar pl pr s s', (forall j, In j pr -> In j (insts fr)) -> only_regs s -> r_status (reloc s) = Matching ->
    cmp_blocks w fl fr n bl br al ar pl pr s = Some (true, s') -> ~ In Source_argument (log s') ->
    r_status (reloc s') = Matching \/
    if r_first (reloc s) then exists pl1 e pl2 pr1 pr2, pl = pl1 ++ e :: pl2 /\ i_reg e = r_end (reloc s) /\ pr = pr1 ++ pr2 /\ Forall2 (corresponds w) (filter (visible w) (pl1 ++ [e])) (filter (visible w) pr1)
    else exists pl1 pl2 pr1 e pr2, pl = pl1 ++ pl2 /\ pr = pr1 ++ e :: pr2 /\ i_reg e = r_end (reloc s) /\ Forall2 (corresponds w) (filter (visible w) pl1) (filter (visible w) (pr1 ++ [e])).
  Proof.
    set (found := fun (s : state) (pl pr : list inst) => if r_first (reloc s) then exists pl1 e pl2 pr1 pr2, pl = pl1 ++ e :: pl2 /\ i_reg e = r_end (reloc s) /\ pr = pr1 ++ pr2 /\ Forall2 (corresponds w) (filter (visible w) (pl1 ++ [e])) (filter (visible w) pr1)
      else exists pl1 pl2 pr1 e pr2, pl = pl1 ++ pl2 /\ pr = pr1 ++ e :: pr2 /\ i_reg e = r_end (reloc s) /\ Forall2 (corresponds w) (filter (visible w) pl1) (filter (visible w) (pr1 ++ [e]))).
    assert (FL : forall s i pl pr, visible w i = false -> found s pl pr -> found s (i :: pl) pr).
    { intros s i pl pr V. unfold found. destruct (r_first (reloc s)).
      - intros [pl1 [e [pl2 [pr1 [pr2 [-> [E [-> F]]]]]]]]. exists (i :: pl1), e, pl2, pr1, pr2. cbn [app filter]. rewrite V. auto.
      - intros [pl1 [pl2 [pr1 [e [pr2 [-> [-> [E F]]]]]]]]. exists (i :: pl1), pl2, pr1, e, pr2. cbn [app filter]. rewrite V. auto. }
    assert (FR : forall s j pl pr, visible w j = false -> found s pl pr -> found s pl (j :: pr)).
    { intros s j pl pr V. unfold found. destruct (r_first (reloc s)).
      - intros [pl1 [e [pl2 [pr1 [pr2 [-> [E [-> F]]]]]]]]. exists pl1, e, pl2, (j :: pr1), pr2. cbn [app filter]. rewrite V. auto.
      - intros [pl1 [pl2 [pr1 [e [pr2 [-> [-> [E F]]]]]]]]. exists pl1, pl2, (j :: pr1), e, pr2. cbn [app filter]. rewrite V. auto. }
    assert (FB : forall s i j pl pr, visible w i = visible w j -> (visible w i = true -> corresponds w i j) -> found s pl pr -> found s (i :: pl) (j :: pr)).
    { intros s i j pl pr V C. unfold found. destruct (r_first (reloc s)).
      - intros [pl1 [e [pl2 [pr1 [pr2 [-> [E [-> F]]]]]]]]. exists (i :: pl1), e, pl2, (j :: pr1), pr2. cbn [app filter]. rewrite <- V. repeat split; auto. destruct (visible w i); [constructor; auto|exact F].
      - intros [pl1 [pl2 [pr1 [e [pr2 [-> [-> [E F]]]]]]]]. exists (i :: pl1), pl2, (j :: pr1), e, pr2. cbn [app filter]. rewrite <- V. repeat split; auto. destruct (visible w i); [constructor; auto|exact F]. }
    induction n as [|n IH]; intros bl br al ar pl pr s s' I O ST; [discriminate|]. cbn [cmp_blocks]. change (if r_first (reloc s) then _ else _) with (found s pl pr).
    destruct pl as [|i pl], pr as [|j pr].
    { destruct (al || ar); [discriminate|]. intros H. injection H as <-. auto. }
    { destruct al; discriminate. }
    { destruct ar; discriminate. }
    assert (DB : forall x, is_debug x = true -> visible w x = false) by (intros x; unfold is_debug, visible; destruct (i_code x); discriminate || reflexivity).
    assert (BO : forall x b, i_code x = Binop b -> visible w x = false) by (intros x b C; unfold visible; rewrite C; reflexivity).
    assert (I' : forall y, In y pr -> In y (insts fr)) by (intros y Y; apply I; right; exact Y).
    destruct (is_debug i) eqn:DI.
    { intros H NA. apply IH in H; auto. destruct H as [H|H]; [auto|right]. apply FL; auto. }
    destruct (is_debug j) eqn:DJ.
    { intros H NA. apply IH in H; auto. destruct H as [H|H]; [auto|right]. apply FR; auto. }
    destruct (cmp_insts w fl fr _ i j s) as [[c s1]|] eqn:X; [|discriminate].
    assert (O1 : only_regs s1) by (eapply only_insts; [apply only_values|apply I; left; reflexivity|exact O|exact X]).
    assert (K1 : reloc s1 = reloc s) by (eapply cmp_insts_reloc; [apply cmp_values_reloc|exact X]).
    assert (FE : forall a pl pr, reloc a = reloc s -> found a pl pr = found s pl pr) by (intros a p q E; unfold found; rewrite E; reflexivity).
    destruct c.
    - rewrite K1, ST. intros H NA.
      assert (G : grows s1 s').
      { destruct (_ && _); [|destruct (_ && _)]; apply cmp_blocks_log in H; exact H. }
      destruct (insts_correspond n i j s s1 O (I j (or_introl eq_refl)) X (log_in _ _ _ G NA)) as [V C].
      assert (F1 : Forall2 (corresponds w) (filter (visible w) [i]) (filter (visible w) [j])) by (cbn; rewrite <- V; destruct (visible w i); [constructor; [auto|constructor]|constructor]).
      destruct (r_first (reloc s) && (i_reg i =? r_end (reloc s))) eqn:E1.
      { apply andb_true_iff in E1. destruct E1 as [E1 E2]. apply Nat.eqb_eq in E2. right. unfold found. rewrite E1. exists [], i, pl, [j], pr. auto. }
      destruct (negb (r_first (reloc s)) && (i_reg j =? r_end (reloc s))) eqn:E3.
      { apply andb_true_iff in E3. destruct E3 as [E3 E4]. apply Nat.eqb_eq in E4. apply negb_true_iff in E3. right. unfold found. rewrite E3. exists [i], pl, [], j, pr. auto. }
      apply IH in H; auto; [|rewrite K1; exact ST]. destruct H as [H|H]; [auto|right]. apply FB; auto. fold (found s1 pl pr) in H. rewrite (FE s1) in H; auto.
    - destruct (may_skip w fl fr true _ i s1) as [sk1 s2] eqn:Y. destruct (may_skip w fl fr false _ j s2) as [sk2 s3] eqn:Z.
      assert (O2 : only_regs s2) by (eapply only_may_skip; [exact O1|exact Y]). assert (O3 : only_regs s3) by (eapply only_may_skip; [exact O2|exact Z]).
      assert (K3 : reloc s3 = reloc s) by (apply may_skip_reloc in Y, Z; congruence).
      assert (NG : forall left x, reloc (negation left x (undo i j s3)) = reloc s) by (intros left x; unfold negation; destruct (mem _ _); cbn; rewrite put_repl_reloc; exact K3).
      assert (O4 : only_regs (undo i j s3)) by (apply only_undo; exact O3).
      assert (ON : forall e x, only_regs x -> only_regs (note e x)) by (intros e x [A B C D E F G]; constructor; assumption).
      assert (ST' : forall a, reloc a = reloc s -> r_status (reloc a) = Matching) by (intros a E; rewrite E; exact ST).
      destruct (sk1 || sk2) eqn:SK.
      { intros H NA. apply IH in H; [|destruct sk2; auto|apply ON; exact O4|apply ST'; exact K3|exact NA]. destruct H as [H|H]; [auto|right].
        fold (found (note Skipped (undo i j s3)) (if sk1 then pl else i :: pl) (if sk2 then pr else j :: pr)) in H. rewrite FE in H by exact K3.
        destruct sk1, sk2; try discriminate; [apply FL; [eapply skip_invisible; exact Y|apply FR; [eapply skip_invisible; exact Z|exact H]]|apply FL; [eapply skip_invisible; exact Y|exact H]|apply FR; [eapply skip_invisible; exact Z|exact H]]. }
      destruct (reordered w fl fr i j s3) eqn:RO.
      { intros H NA. apply IH in H; [|exact I'|apply ON; exact O3|apply ST'; exact K3|exact NA]. destruct H as [H|H]; [auto|right]. fold (found (note Reordered s3) pl pr) in H. rewrite FE in H by exact K3.
        unfold reordered in RO. apply andb_true_iff in RO. destruct RO as [_ RO].
        destruct (i_code i) eqn:CI; try discriminate. destruct (i_code j) eqn:CJ; try discriminate. apply FL; [eapply BO; exact CI|]. apply FR; [eapply BO; exact CJ|exact H]. }
      destruct (p_inverse w && (is_not w i && only_conditions w fl i)) eqn:N1.
      { intros H NA. apply IH in H; [|auto|apply ON, only_negation, O4|apply ST'; exact (NG true i)|exact NA]. destruct H as [H|H]; [auto|right].
        fold (found (note Inverted (negation true i (undo i j s3))) pl (j :: pr)) in H. rewrite FE in H by exact (NG true i).
        apply andb_true_iff in N1. destruct N1 as [_ N1]. apply andb_true_iff in N1. destruct N1 as [N1 _]. destruct (nots i N1) as [b B]. apply FL; eauto. }
      destruct (p_inverse w && (is_not w j && only_conditions w fr j)) eqn:N2.
      { apply andb_true_iff in N2. destruct N2 as [_ N2]. apply andb_true_iff in N2. destruct N2 as [N2 _]. destruct (nots j N2) as [b B].
        destruct (is_not w i) eqn:NI.
        - intros H NA. apply IH in H; [|auto|apply ON, only_negation, O4|apply ST'; exact (NG true i)|exact NA]. destruct H as [H|H]; [auto|right].
          fold (found (note Inverted (negation true i (undo i j s3))) pl (j :: pr)) in H. rewrite FE in H by exact (NG true i). destruct (nots i NI) as [b' B']. apply FL; eauto.
        - intros H NA. apply IH in H; [|auto|apply ON, only_negation, O4|apply ST'; exact (NG false j)|exact NA]. destruct H as [H|H]; [auto|right].
          fold (found (note Inverted (negation false j (undo i j s3))) (i :: pl) pr) in H. rewrite FE in H by exact (NG false j). apply FR; eauto. }
      rewrite K3, ST. discriminate.
  Qed.

  (** ** The walk over the blocks *)
  Lemma push_spec : forall ls rs stack visited stack2 visited2, length ls = length rs -> push ls rs stack visited = (stack2, visited2) ->
    incl stack stack2 /\ incl visited visited2 /\ (forall c, In c ls -> In c visited2) /\
    (forall c d, In (c, d) stack2 -> In (c, d) stack \/ In c ls /\ In d rs) /\
    (forall c, In c visited2 -> In c visited \/ exists d, In (c, d) stack2).
  Proof.
    induction ls as [|l ls IH]; intros [|r rs] stack visited st2 v2 L; try discriminate; cbn [push].
    - intros H. injection H as <- <-. repeat split; auto using incl_refl. intros c [].
    - injection L as L. destruct (mem l visited) eqn:M; intros H; apply IH in H; auto.
      + destruct H as [A [B [C [D E]]]]. apply mem_In in M. repeat split; auto.
        * intros c [<-|I]; [apply B; exact M|auto].
        * intros c d I. destruct (D c d I) as [K|[K K']]; [left; exact K|right; split; right; assumption].
      + destruct H as [A [B [C [D E]]]]. repeat split.
        * intros x X. apply A. right. exact X.
        * intros x X. apply B. right. exact X.
        * intros c [<-|I]; [apply B; left; reflexivity|auto].
        * intros c d I. destruct (D c d I) as [[K|K]|[K K']]; [injection K as -> ->; right; split; left; reflexivity|left; exact K|right; split; right; assumption].
        * intros c I. destruct (E c I) as [[<-|K]|K]; [right; exists r; apply A; left; reflexivity|left; exact K|right; exact K].
  Qed.
  Lemma terminator_get f b t : terminator (block f b) = Some t -> exists l, dget (f_blocks f) b = Some l /\ terminator l = Some t.
  Proof. unfold block. destruct (dget _ b) as [l|]; [intros H; exists l; auto|discriminate]. Qed.
  Lemma now_successors s t c : In c (successors (now s t)) -> In c (successors t).
  Proof.
    unfold now. destruct (mem _ _); [|auto]. unfold swap_targets. destruct (i_ops t) as [|x [|y [|z [|? ?]]]] eqn:E; auto.
    rewrite !In_successors. cbn [i_code i_ops]. rewrite E. intros [K I]. split; [exact K|]. destruct I as [I|[I|[I|[]]]]; subst; cbn; auto.
  Qed.
  Definition good (b b' : nat) : Prop := reach fr b' /\ Forall2 (corresponds w) (filter (visible w) (block fl b)) (filter (visible w) (block fr b')).
  Lemma walk_correspond n : forall stack visited s s', (forall b b', In (b, b') stack -> reach fr b') -> only_regs s -> r_status (reloc s) = NoReloc ->
    walk w fl fr n stack visited s = Some (true, s') -> ~ In Relocated (log s') -> ~ In Source_argument (log s') ->
    exists pairs, incl stack pairs /\ forall b b', In (b, b') pairs -> good b b' /\ forall c, edge fl b c -> In c visited \/ exists c', In (c, c') pairs.
  Proof.
    induction n as [|n IH]; intros stack visited s s' RS O ST; [discriminate|]. cbn [walk]. destruct stack as [|[bl br] stack].
    { intros _ _ _. exists []. split; [apply incl_refl|intros b b' []]. }
    destruct (cmp_values w fl fr n _ _ s) as [[[|] s1]|] eqn:X; [| |discriminate]; [|discriminate].
    destruct (cmp_blocks w fl fr n bl br _ _ _ _ s1) as [[[|] s2]|] eqn:Y; [| |discriminate]; [|discriminate].
    destruct (terminator (block fl bl)) as [tl|] eqn:TL; [|discriminate]. destruct (terminator (block fr br)) as [tr|] eqn:TR; [|discriminate].
    destruct (length (successors tl) =? length (successors (now s2 tr))) eqn:L; [|discriminate]. apply Nat.eqb_eq in L.
    destruct (push (successors tl) (successors (now s2 tr)) stack visited) as [st2 v2] eqn:P. intros H NR NA.
    apply terminator_get in TL, TR. destruct TL as [l [GL TL]]. destruct TR as [r [GR TR]].
    assert (G2 : grows s2 s') by (eapply walk_log; exact H).
    assert (O1 : only_regs s1) by (eapply only_values; [exact O|exact X]). assert (K1 : reloc s1 = reloc s) by (eapply cmp_values_reloc; exact X).
    destruct (blocks_correspond n bl br (block fl bl) (block fr br) s1 s2) as [F [O2 S2]]; auto.
    { intros j J. unfold block in J. rewrite GR in J. eapply get_insts; eassumption. }
    { rewrite K1. exact ST. }
    { exact (log_in _ _ _ G2 NR). }
    { exact (log_in _ _ _ G2 NA). }
    destruct (push_spec _ _ _ _ _ _ L P) as [A [B [C [D E]]]].
    assert (RB : reach fr br) by (apply (RS bl); left; reflexivity).
    destruct (IH st2 v2 s2 s') as [pairs [IP K]]; auto.
    { intros c d I. destruct (D c d I) as [Q|[_ Q]]; [apply (RS c); right; exact Q|]. eapply reach_step; [exact RB|]. exists r, tr. repeat split; auto. eapply now_successors. exact Q. }
    exists ((bl, br) :: pairs). split; [intros x [<-|Q]; [left; reflexivity|right; apply IP, A, Q]|].
    assert (V : forall c, In c v2 -> In c visited \/ exists c', In (c, c') ((bl, br) :: pairs)).
    { intros c Q. destruct (E c Q) as [Q'|[d Q']]; [left; exact Q'|right; exists d; right; apply IP, Q']. }
    intros b b' [Q|Q].
    - injection Q as <- <-. split; [split; assumption|]. intros c [l' [t [G' [T' S']]]]. rewrite GL in G'. injection G' as <-. rewrite TL in T'. injection T' as <-. apply V, C, S'.
    - destruct (K b b' Q) as [Q1 Q2]. split; [exact Q1|]. intros c EC. destruct (Q2 c EC) as [Z|[c' Z]]; [apply V, Z|right; exists c'; right; exact Z].
  Qed.

  Lemma only_start : only_regs start.
  Proof. constructor; intros v; cbn; try (intros []; fail); intros u; discriminate. Qed.
  Lemma args_only n : forall k from s s' b, only_regs s -> cmp_args w fl fr n k from s = Some (b, s') -> only_regs s' /\ reloc s' = reloc s.
  Proof.
    induction k as [|k IH]; intros from s s' b O; cbn [cmp_args]; [intros H; injection H as <- <-; auto|].
    destruct (cmp_values w fl fr n _ _ s) as [[[|] s1]|] eqn:X; [| |discriminate].
    - intros H. apply IH in H; [|eapply only_values; [exact O|exact X]]. destruct H as [H1 H2]. split; [exact H1|]. rewrite H2. eapply cmp_values_reloc. exact X.
    - intros H; injection H as <- <-. split; [eapply only_values; [exact O|exact X]|eapply cmp_values_reloc; exact X].
  Qed.

  Theorem compared n s : compare w fl fr n = Some (true, s) -> ~ In Relocated (log s) -> ~ In Source_argument (log s) ->
    exists h, h (entry fl) = entry fr /\ forall b, reach fl b -> reach fr (h b) /\ Forall2 (corresponds w) (filter (visible w) (block fl b)) (filter (visible w) (block fr (h b))).
  Proof.
    unfold compare. destruct (_ && _); [|discriminate]. destruct (cmp_args w fl fr n _ 0 start) as [[[|] s0]|] eqn:A; [| |discriminate]; [|discriminate].
    destruct (args_only _ _ _ _ _ _ only_start A) as [O0 K0].
    destruct (walk w fl fr n _ _ s0) as [[[|] s1]|] eqn:WK; [| |discriminate]; [|discriminate]. destruct (r_status (reloc s1)); try discriminate.
    destruct (cmp_phis w fl fr n (phis s1) s1) as [[[|] s2]|] eqn:P; [| |discriminate]; [|discriminate]. intros H NR NA.
    assert (G : grows s1 s).
    { apply cmp_phis_log in P. injection H as <-. destruct (_ =? _); [exact P|apply grows_noted; exact P]. }
    destruct (walk_correspond n [(entry fl, entry fr)] [entry fl] s0 s1) as [pairs [I K]]; auto.
    { intros b b' [Q|[]]. injection Q as <- <-. apply reach_entry. }
    { rewrite K0. reflexivity. }
    { exact (log_in _ _ _ G NR). }
    { exact (log_in _ _ _ G NA). }
    assert (E : forall b, reach fl b -> exists b', In (b, b') pairs).
    { induction 1 as [|b c R [b' IH] EC]; [exists (entry fr); apply I; left; reflexivity|]. destruct (K b b' IH) as [_ Q]. destruct (Q c EC) as [[<-|[]]|Q']; [exists (entry fr); apply I; left; reflexivity|exact Q']. }
    exists (fun b => if b =? entry fl then entry fr else match dget pairs b with Some b' => b' | None => 0 end). rewrite Nat.eqb_refl. split; [reflexivity|].
    intros b R. destruct (Nat.eqb_spec b (entry fl)) as [->|NE]; [apply K, I; left; reflexivity|].
    destruct (E b R) as [b' B]. destruct (dget pairs b) as [d|] eqn:D; [apply dget_In in D; exact (proj1 (K b d D))|].
    exfalso. apply dget_None in D. apply D. unfold dkeys. apply in_map_iff. exists (b, b'). auto.
  Qed.
End Visible.
