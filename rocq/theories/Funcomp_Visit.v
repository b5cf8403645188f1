(** * Comparing two instructions without exceptions but looking through casts *)
From Coq Require Import String Ascii ZArith Arith Bool Lia List.
From Verif Require Import PyBase Funcomp_Model Funcomp_Spec Funcomp_Log Funcomp_Inv.
Import ListNotations.
Open Scope list_scope.
Open Scope nat_scope.

Section Visit.
  Variable w : world.
  Variables fl fr : func.
  Hypothesis WL : well_formed fl.
  Hypothesis WR : well_formed fr.
  Notation fn := (fn fl fr).
  Notation Inv := (Inv w fl fr).
  Notation ext := (ext fl fr).
  Notation E := (E w fl fr).
  Notation P := (P fl fr).
  Notation stable := (stable fl fr).
  Notation clear := (clear w).
  Notation fine := (fine w fl fr).

  Definition none : bool -> list nat := fun _ => [].
  Definition cur (i j : inst) : bool -> list nat := fun left => [if left then i_reg i else i_reg j].
  Definition more (i j : inst) (D : bool -> list nat) : bool -> list nat := fun left => (if left then i_reg i else i_reg j) :: D left.

  Lemma inv_weaken D C C' s : (forall left, incl (C left) (C' left)) -> Inv D C s -> Inv D C' s.
  Proof.
    intros I [a1 a2 a3 a4 a5 a6 a7 a8 a9 a10 a11 a12 a13]. constructor; auto.
    - intros left v u H. destruct (a9 left v u H) as [c [i [H1 [H2 [H3 [H4 [H5 [H6|H6]]]]]]]]; exists c, i; repeat (split; [assumption|]); [left; exact H6|right; apply I; exact H6].
    - intros left r H. destruct (a10 left r H) as [H1|H1]; [left; exact H1|right; apply I; exact H1].
  Qed.

  Lemma put_repl_get left c u s left' v : dget (repl left' (put_repl left (VReg c) u s)) v =
    if Bool.eqb left left' && eqb v (VReg c) && negb (dmem (repl left s) (VReg c)) then Some u else dget (repl left' s) v.
  Proof.
    unfold put_repl. destruct (dmem (repl left s) (VReg c)) eqn:M.
    - rewrite andb_false_r. reflexivity.
    - rewrite andb_true_r. destruct left, left'; cbn [repl set_repl replL replR Bool.eqb andb]; try reflexivity; rewrite dget_dset; destruct (eqb v (VReg c)); reflexivity.
  Qed.
  Lemma put_repl_sn left v u s left' : sn left' (put_repl left v u s) = sn left' s.
  Proof. unfold put_repl. destruct (dmem _ _); [reflexivity|]. destruct left, left'; reflexivity. Qed.
  Lemma put_repl_phis left v u s : phis (put_repl left v u s) = phis s.
  Proof. unfold put_repl. destruct (dmem _ _); [reflexivity|]. destruct left; reflexivity. Qed.
  Lemma put_repl_calm left v u s : calm s -> calm (put_repl left v u s).
  Proof. unfold put_repl. destruct (dmem _ _); [auto|]. intros []. destruct left; constructor; assumption. Qed.

  Lemma put_repl_ext C A left c u s : ext C A s (put_repl left (VReg c) u s).
  Proof.
    constructor.
    - intros left' v k. rewrite put_repl_sn. auto.
    - intros left' v. rewrite put_repl_sn. auto.
    - intros left' v H. apply dmem_get. apply dmem_get in H. destruct H as [x H]. rewrite put_repl_get. destruct (_ && _); eauto.
    - exists []. rewrite app_nil_r, put_repl_phis. split; [reflexivity|intros p q []].
  Qed.
  Lemma put_repl_inv D C left c i s : Inv D C s -> find_inst (fn left) c = Some i -> i_code i = Cast true -> safe_cast w i = true ->
    In c (C left) -> Inv D C (put_repl left (VReg c) (op 0 i) s).
  Proof.
    intros I F K S IC. pose proof (put_repl_ext C (fun _ _ => True) left c (op 0 i) s) as X.
    assert (SL : snL (put_repl left (VReg c) (op 0 i) s) = snL s) by exact (put_repl_sn left _ _ s true).
    assert (SR : snR (put_repl left (VReg c) (op 0 i) s) = snR s) by exact (put_repl_sn left _ _ s false).
    destruct I as [a1 a2 a3 a4 a5 a6 a7 a8 a9 a10 a11 a12 a13]. constructor.
    - rewrite SL, SR. exact a1.
    - intros l. rewrite put_repl_sn, SL. apply a2.
    - intros l. rewrite put_repl_sn. apply a3.
    - rewrite SL, SR. exact a4.
    - intros l. rewrite put_repl_sn. apply a5.
    - intros l. rewrite put_repl_sn. apply a6.
    - intros l. rewrite put_repl_sn. apply a7.
    - apply put_repl_calm, a8.
    - intros l v u H. rewrite put_repl_get in H.
      destruct (Bool.eqb left l && eqb v (VReg c) && negb (dmem (repl left s) (VReg c))) eqn:B; [|exact (a9 l v u H)].
      apply andb_true_iff in B. destruct B as [B _]. apply andb_true_iff in B. destruct B as [B1 B2].
      apply Bool.eqb_prop in B1. subst l. destruct (eqb_spec v (VReg c)) as [->|]; [|discriminate]. injection H as <-.
      exists c, i. auto 10.
    - intros l r. rewrite put_repl_sn. apply a10.
    - intros l c' i' H1 H2 H3 H4. destruct (a11 l c' i' H1 H2 H3 H4) as [H5 [H6 H7]]. split; [eapply P_mono; eauto|].
      split; [intros Q; eapply P_mono; eauto|]. intros Q1 Q2. apply (x_repl _ _ _ _ _ _ X). auto.
    - rewrite SL, SR, put_repl_phis. exact a12.
    - rewrite SL, SR, put_repl_phis. exact a13.
  Qed.

  (** Looking up the definition that is being compared. *)
  Lemma repl_cur D C left i s A : Inv D C s -> find_inst (fn left) (i_reg i) = Some i -> In (i_reg i) (C left) ->
    exists x s1, replacement w fl fr left (VReg (i_reg i)) s = (x, s1) /\ Inv D C s1 /\ ext C A s s1 /\
      (forall l, sn l s1 = sn l s) /\ log s1 = log s /\
      (i_code i = Cast true -> safe_cast w i = true -> dmem (repl left s1) (VReg (i_reg i)) = true) /\
      match x with
      | Some u => u = op 0 i /\ clear i = true /\ stable s1 left (i_reg i) /\
                  (dmem (repl left s) (VReg (i_reg i)) = true \/ is_reg (op 0 i) = false \/ dmem (sn left s) (op 0 i) = true)
      | None => dmem (repl left s) (VReg (i_reg i)) = false
      end.
  Proof.
    intros I F IC. unfold replacement. destruct (dget (repl left s) (VReg (i_reg i))) as [u|] eqn:X.
    - exists (Some u), s. assert (M : dmem (repl left s) (VReg (i_reg i)) = true) by (apply dmem_get; eauto).
      destruct (v_repl _ _ _ _ _ _ I _ _ _ X) as [c [i' [Ec [F' [K [S [-> _]]]]]]]. injection Ec as <-. assert (i' = i) by congruence. subst i'.
      split; [reflexivity|]. split; [exact I|]. split; [apply ext_refl|]. repeat split; auto; [apply clear_cast; assumption|exists i; auto].
    - cbn [inst_of]. rewrite F. assert (M : dmem (repl left s) (VReg (i_reg i)) = false) by (apply dmem_none; exact X).
      destruct (match i_code i with Cast true => safe_cast w i | _ => false end) eqn:K.
      + assert (K1 : i_code i = Cast true /\ safe_cast w i = true) by (destruct (i_code i) as [| | | | |[|]| | | | | | | | |]; try discriminate; auto).
        destruct K1 as [K1 K2].
        assert (M1 : dmem (repl left (put_repl left (VReg (i_reg i)) (op 0 i) s)) (VReg (i_reg i)) = true).
        { apply dmem_get. rewrite put_repl_get, M, Bool.eqb_reflx. destruct (eqb_spec (VReg (i_reg i)) (VReg (i_reg i))) as [_|N]; [|congruence]. cbn. eauto. }
        cbn [orb]. destruct (negb (is_reg (op 0 i)) || dmem (sn left s) (op 0 i)) eqn:Z; cbn [andb].
        * exists (Some (op 0 i)), (put_repl left (VReg (i_reg i)) (op 0 i) s). split; [reflexivity|].
          split; [apply put_repl_inv; assumption|]. split; [apply put_repl_ext|]. split; [intros; apply put_repl_sn|]. split; [apply put_repl_log|].
          split; [auto|]. split; [reflexivity|]. split; [apply clear_cast; assumption|]. split; [exists i; auto|].
          right. apply orb_true_iff in Z. destruct Z as [Z|Z]; [left; apply negb_true_iff; exact Z|right; exact Z].
        * exists None, (put_repl left (VReg (i_reg i)) (op 0 i) s). split; [reflexivity|].
          split; [apply put_repl_inv; assumption|]. split; [apply put_repl_ext|]. split; [intros; apply put_repl_sn|]. split; [apply put_repl_log|]. auto.
      + cbn [orb]. destruct (zero_gep i && _) eqn:Z.
        * exists (Some (op 0 i)), s. split; [reflexivity|]. split; [exact I|]. split; [apply ext_refl|]. split; [reflexivity|]. split; [reflexivity|].
          split; [intros Q1 Q2; rewrite Q1, Q2 in K; discriminate|]. split; [reflexivity|].
          apply andb_true_iff in Z. destruct Z as [Z1 Z2].
          assert (Z3 : is_reg (op 0 i) = false \/ dmem (sn left s) (op 0 i) = true)
            by (apply orb_true_iff in Z2; destruct Z2 as [Z2|Z2]; [left; apply negb_true_iff; exact Z2|right; exact Z2]).
          split; [apply clear_gep; exact Z1|]. split; [exists i; auto|]. auto.
        * exists None, s. split; [reflexivity|]. split; [exact I|]. split; [apply ext_refl|]. split; [reflexivity|]. split; [reflexivity|].
          split; [intros Q1 Q2; rewrite Q1, Q2 in K; discriminate|]. exact M.
  Qed.

  Lemma P_start D C A s left v : Inv D C s -> fine D A -> A left v -> is_block v = false -> is_reg v = false \/ dmem (sn left s) v = true -> P s left v.
  Proof.
    intros I FA AV B [H|H].
    - destruct v; try discriminate; [|exact Logic.I]. cbn. apply dmem_get. eexists. eapply (v_args' _ _ _ _ _ _ I). eapply (a_arg _ _ _ _ _ FA). exact AV.
    - destruct v; cbn; auto.
  Qed.

  (** A value against the definition being compared in the second function. *)
  Lemma half_right n : forall D C A j l s s', Inv D C s -> fine D A -> A true l -> P s true l -> is_block l = false ->
    find_inst fr (i_reg j) = Some j -> In (i_reg j) (C false) -> ~ In (i_reg j) (D false) -> (clear j = true -> A false (op 0 j)) ->
    dget (snR s) (VReg (i_reg j)) = None ->
    cmp_values w fl fr n l (VReg (i_reg j)) s = Some (true, s') -> tame s' ->
    Inv D C s' /\ ext C A s s' /\ clear j = true /\ stable s' false (i_reg j) /\ dget (snR s') (VReg (i_reg j)) = None /\
    (i_code j = Cast true -> safe_cast w j = true -> dmem (replR s') (VReg (i_reg j)) = true).
  Proof.
    induction n as [|n IH]; intros D C A j l s s' I FA AL PL BL F IC ND AO N H T; [discriminate|].
    rewrite (cmp_values_step _ _ _ D C) in H by exact I.
    destruct (repl_allowed w fl fr WL WR D C A s true l I FA AL (or_intror Logic.I)) as [x [X1 X2]]. rewrite X1 in H.
    destruct (repl_cur D C false j s A I F IC) as [y [s2 [Y1 [I2 [E2 [SN [LG [RC Y2]]]]]]]]. rewrite Y1 in H.
    assert (P2 : forall v, P s true v -> P s2 true v) by (intros v; eapply P_mono; eauto).
    destruct y as [u|].
    - destruct Y2 as [-> [CL [ST _]]].
      assert (G : exists l', A true l' /\ is_block l' = false /\ cmp_values w fl fr n l' (op 0 j) (note Replaced s2) = Some (true, s')).
      { destruct x as [v|]; [|exists l; auto]. destruct X2 as [A1 [_ [_ [B _]]]]. exists v. repeat split; auto. congruence. }
      destruct G as [l' [A1 [B1 H']]].
      destruct (cmp_values_ok w fl fr WL WR n D C A l' (op 0 j) _ s' (inv_note _ _ _ _ _ _ _ I2) FA A1 (AO CL) ltac:(rewrite B1; symmetry; eapply (clear_op0 w fl fr WL WR false); eauto) H' T) as [I' [E' _]].
      apply ext_note in E'. split; [exact I'|]. split; [eapply ext_trans; eauto|]. split; [exact CL|]. split; [eapply stable_mono; eauto|].
      split; [|intros Q1 Q2; apply (x_repl _ _ _ _ _ _ E' false); auto].
      destruct (dget (snR s') (VReg (i_reg j))) as [k|] eqn:G; [exfalso|reflexivity].
      destruct (x_new _ _ _ _ _ _ E' false (VReg (i_reg j))) as [O|[O _]]; [apply dmem_get; eauto| |apply ND; eapply (a_done _ _ _ _ _ FA); exact O].
      rewrite SN in O. apply dmem_get in O. destruct O as [k' O]. cbn in O. congruence.
    - destruct x as [v|].
      + destruct X2 as [A1 [_ [P1 [B _]]]].
        destruct (IH D C A j v (note Replaced s2) s' (inv_note _ _ _ _ _ _ _ I2) FA A1 (P2 v P1) ltac:(congruence) F IC ND AO) as [I' [E' Z]]; try assumption.
        { pose proof (SN false) as Q. cbn in Q |- *. rewrite Q. exact N. }
        apply ext_note in E'. split; [exact I'|]. split; [eapply ext_trans; eauto|exact Z].
      + exfalso. injection H as H. destruct (cmp_base_cases w fl fr D C l (VReg (i_reg j)) s2 s' I2 H T) as [[a [b [_ [Q _]]]]|[[k [_ [Q _]]]|[Q [_ [NC _]]]]].
        * discriminate.
        * pose proof (SN false) as Q'. cbn in Q'. congruence.
        * pose proof (SN true) as Q'. cbn in Q'. rewrite Q' in Q. destruct l as [a|c|b|c]; cbn in PL.
          -- apply dmem_get in PL. destruct PL as [k PL]. congruence.
          -- destruct PL as [PL|PL]; [apply dmem_get in PL; destruct PL as [k PL]; congruence|exact (X2 PL)].
          -- discriminate.
          -- exact (NC c eq_refl).
  Qed.
  Lemma half_left n : forall D C A i r s s', Inv D C s -> fine D A -> A false r -> P s false r -> is_block r = false ->
    find_inst fl (i_reg i) = Some i -> In (i_reg i) (C true) -> ~ In (i_reg i) (D true) -> (clear i = true -> A true (op 0 i)) ->
    dget (snL s) (VReg (i_reg i)) = None ->
    cmp_values w fl fr n (VReg (i_reg i)) r s = Some (true, s') -> tame s' ->
    Inv D C s' /\ ext C A s s' /\ clear i = true /\ stable s' true (i_reg i) /\ dget (snL s') (VReg (i_reg i)) = None /\
    (i_code i = Cast true -> safe_cast w i = true -> dmem (replL s') (VReg (i_reg i)) = true).
  Proof.
    induction n as [|n IH]; intros D C A i r s s' I FA AR PR BR F IC ND AO N H T; [discriminate|].
    rewrite (cmp_values_step _ _ _ D C) in H by exact I.
    destruct (repl_cur D C true i s A I F IC) as [x [s2 [X1 [I2 [E2 [SN [LG [RC X2]]]]]]]]. rewrite X1 in H.
    assert (P2 : forall v, P s false v -> P s2 false v) by (intros v; eapply P_mono; eauto).
    destruct (repl_allowed w fl fr WL WR D C A s2 false r I2 FA AR (or_intror Logic.I)) as [y [Y1 Y2]]. rewrite Y1 in H.
    destruct x as [u|].
    - destruct X2 as [-> [CL [ST _]]].
      assert (G : exists r', A false r' /\ is_block r' = false /\ cmp_values w fl fr n (op 0 i) r' (note Replaced s2) = Some (true, s')).
      { destruct y as [v|]; [|exists r; auto]. destruct Y2 as [A1 [_ [_ [B _]]]]. exists v. repeat split; auto. congruence. }
      destruct G as [r' [A1 [B1 H']]].
      destruct (cmp_values_ok w fl fr WL WR n D C A (op 0 i) r' _ s' (inv_note _ _ _ _ _ _ _ I2) FA (AO CL) A1 ltac:(rewrite B1; eapply (clear_op0 w fl fr WL WR true); eauto) H' T) as [I' [E' _]].
      apply ext_note in E'. split; [exact I'|]. split; [eapply ext_trans; eauto|]. split; [exact CL|]. split; [eapply stable_mono; eauto|].
      split; [|intros Q1 Q2; apply (x_repl _ _ _ _ _ _ E' true); auto].
      destruct (dget (snL s') (VReg (i_reg i))) as [k|] eqn:G; [exfalso|reflexivity].
      destruct (x_new _ _ _ _ _ _ E' true (VReg (i_reg i))) as [O|[O _]]; [apply dmem_get; eauto| |apply ND; eapply (a_done _ _ _ _ _ FA); exact O].
      rewrite SN in O. apply dmem_get in O. destruct O as [k' O]. cbn in O. congruence.
    - destruct y as [v|].
      + destruct Y2 as [A1 [_ [P1 [B _]]]].
        destruct (IH D C A i v (note Replaced s2) s' (inv_note _ _ _ _ _ _ _ I2) FA A1 P1 ltac:(congruence) F IC ND AO) as [I' [E' Z]]; try assumption.
        { pose proof (SN true) as Q. cbn in Q |- *. rewrite Q. exact N. }
        apply ext_note in E'. split; [exact I'|]. split; [eapply ext_trans; eauto|exact Z].
      + exfalso. injection H as H. destruct (cmp_base_cases w fl fr D C (VReg (i_reg i)) r s2 s' I2 H T) as [[a [b [Q _]]]|[[k [Q _]]|[_ [Q [_ [NC _]]]]]].
        * discriminate.
        * pose proof (SN true) as Q'. cbn in Q'. congruence.
        * pose proof (P2 r PR) as PR'. destruct r as [a|c|b|c]; cbn in PR'.
          -- apply dmem_get in PR'. destruct PR' as [k PR']. cbn in PR'. congruence.
          -- destruct PR' as [PR'|PR']; [apply dmem_get in PR'; destruct PR' as [k PR']; cbn in PR'; congruence|exact (Y2 PR')].
          -- discriminate.
          -- exact (NC c eq_refl).
  Qed.

  (** Two definitions end up with one number, or are both looked through from now on. *)
  Definition together (s : state) (i j : inst) : Prop :=
    (exists k, dget (snL s) (VReg (i_reg i)) = Some k /\ dget (snR s) (VReg (i_reg j)) = Some k) \/
    (dget (snL s) (VReg (i_reg i)) = None /\ dget (snR s) (VReg (i_reg j)) = None /\
     clear i = true /\ clear j = true /\ stable s true (i_reg i) /\ stable s false (i_reg j)).
  Definition with_cur (i j : inst) (A : allowed) : allowed := fun left v => A left v \/ v = VReg (if left then i_reg i else i_reg j).

  Lemma self_ok n D A i j s s' : Inv D none s -> fine D A ->
    find_inst fl (i_reg i) = Some i -> find_inst fr (i_reg j) = Some j -> ~ In (i_reg i) (D true) -> ~ In (i_reg j) (D false) ->
    (clear i = true -> A true (op 0 i)) -> (clear j = true -> A false (op 0 j)) ->
    cmp_values w fl fr n (VReg (i_reg i)) (VReg (i_reg j)) s = Some (true, s') -> tame s' ->
    Inv D (cur i j) s' /\ ext (cur i j) (with_cur i j A) s s' /\ together s' i j /\
    (i_code i = Cast true -> safe_cast w i = true -> dmem (replL s') (VReg (i_reg i)) = true) /\
    (i_code j = Cast true -> safe_cast w j = true -> dmem (replR s') (VReg (i_reg j)) = true).
  Proof.
    intros I0 FA FI FJ NI NJ AI AJ H T.
    assert (UL : dget (snL s) (VReg (i_reg i)) = None).
    { destruct (dget (snL s) (VReg (i_reg i))) as [k|] eqn:Q; [exfalso|reflexivity].
      destruct (v_dom _ _ _ _ _ _ I0 true (i_reg i)) as [O|[]]; [apply dmem_get; eauto|exact (NI O)]. }
    assert (UR : dget (snR s) (VReg (i_reg j)) = None).
    { destruct (dget (snR s) (VReg (i_reg j))) as [k|] eqn:Q; [exfalso|reflexivity].
      destruct (v_dom _ _ _ _ _ _ I0 false (i_reg j)) as [O|[]]; [apply dmem_get; eauto|exact (NJ O)]. }
    assert (RL : dmem (replL s) (VReg (i_reg i)) = false).
    { destruct (dmem (replL s) (VReg (i_reg i))) eqn:Q; [exfalso|reflexivity]. apply dmem_get in Q. destruct Q as [u Q].
      destruct (v_repl _ _ _ _ _ _ I0 true _ _ Q) as [c [x [Ec [_ [_ [_ [_ [O|[]]]]]]]]]. injection Ec as <-. exact (NI O). }
    assert (RR : dmem (replR s) (VReg (i_reg j)) = false).
    { destruct (dmem (replR s) (VReg (i_reg j))) eqn:Q; [exfalso|reflexivity]. apply dmem_get in Q. destruct Q as [u Q].
      destruct (v_repl _ _ _ _ _ _ I0 false _ _ Q) as [c [x [Ec [_ [_ [_ [_ [O|[]]]]]]]]]. injection Ec as <-. exact (NJ O). }
    assert (I : Inv D (cur i j) s) by (eapply inv_weaken; [|exact I0]; intros left x []).
    assert (AW : forall side v, A side v -> with_cur i j A side v) by (intros side v Q; left; exact Q).
    destruct n as [|n]; [discriminate|]. rewrite (cmp_values_step _ _ _ D (cur i j)) in H by exact I.
    destruct (repl_cur D (cur i j) true i s A I FI (or_introl eq_refl)) as [x [s1 [X1 [I1 [E1 [SN1 [LG1 [RC1 X2]]]]]]]]. rewrite X1 in H.
    destruct (repl_cur D (cur i j) false j s1 A I1 FJ (or_introl eq_refl)) as [y [s2 [Y1 [I2 [E2 [SN2 [LG2 [RC2 Y2]]]]]]]]. rewrite Y1 in H.
    assert (E02 : ext (cur i j) A s s2) by (eapply ext_trans; eauto).
    assert (SL : snL s2 = snL s) by (pose proof (SN2 true) as Q1; pose proof (SN1 true) as Q2; cbn in Q1, Q2; congruence).
    assert (SR : snR s2 = snR s) by (pose proof (SN2 false) as Q1; pose proof (SN1 false) as Q2; cbn in Q1, Q2; congruence).
    assert (CI : i_code i = Cast true -> safe_cast w i = true -> dmem (repl true s2) (VReg (i_reg i)) = true) by (intros Q1 Q2; apply (x_repl _ _ _ _ _ _ E2 true); auto).
    assert (NEW : forall left v s3, ext (cur i j) A s2 s3 -> dget (sn left s2) v = None -> ~ A left v -> dget (sn left s3) v = None).
    { intros left v s3 X N NA. destruct (dget (sn left s3) v) as [k|] eqn:Q; [exfalso|reflexivity].
      destruct (x_new _ _ _ _ _ _ X left v) as [O|[O _]]; [apply dmem_get; eauto| |exact (NA O)]. apply dmem_get in O. destruct O. congruence. }
    assert (NAI : ~ A true (VReg (i_reg i))) by (intros Q; apply NI; eapply (a_done _ _ _ _ _ FA); exact Q).
    assert (NAJ : ~ A false (VReg (i_reg j))) by (intros Q; apply NJ; eapply (a_done _ _ _ _ _ FA); exact Q).
    destruct x as [u|], y as [v|].
    - destruct X2 as [-> [C1 [S1 _]]], Y2 as [-> [C2 [S2 _]]].
      destruct (cmp_values_ok w fl fr WL WR n D (cur i j) A (op 0 i) (op 0 j) _ s' (inv_note _ _ _ _ _ _ _ I2) FA (AI C1) (AJ C2)
        ltac:(rewrite (clear_op0 w fl fr WL WR true _ _ FI C1), (clear_op0 w fl fr WL WR false _ _ FJ C2); reflexivity) H T) as [I' [E' _]].
      apply ext_note in E'. split; [exact I'|]. split; [eapply ext_weaken; [exact AW|]; eapply ext_trans; eauto|]. split; [right|].
      + split; [apply (NEW true); [exact E'|cbn; congruence|exact NAI]|]. split; [apply (NEW false); [exact E'|cbn; congruence|exact NAJ]|].
        split; [exact C1|]. split; [exact C2|]. split; [eapply stable_mono; [exact E'|]; eapply stable_mono; [exact E2|exact S1]|eapply stable_mono; eauto].
      + split; [intros Q1 Q2; apply (x_repl _ _ _ _ _ _ E' true); auto|intros Q1 Q2; apply (x_repl _ _ _ _ _ _ E' false); auto].
    - destruct X2 as [-> [C1 [S1 O]]]. destruct O as [O|O]; [cbn in O; congruence|].
      assert (PU : P s2 true (op 0 i)).
      { eapply P_mono; [exact E02|]. eapply P_start; eauto. eapply (clear_op0 w fl fr WL WR true); eauto. }
      destruct (half_right n D (cur i j) A j (op 0 i) (note Replaced s2) s' (inv_note _ _ _ _ _ _ _ I2) FA (AI C1) PU ltac:(eapply (clear_op0 w fl fr WL WR true); eauto) FJ (or_introl eq_refl) NJ AJ ltac:(cbn; congruence) H T)
        as [I' [E' [C2 [S2 [N2 RC]]]]].
      apply ext_note in E'. split; [exact I'|]. split; [eapply ext_weaken; [exact AW|]; eapply ext_trans; eauto|]. split; [right|].
      + split; [apply (NEW true); [exact E'|cbn; congruence|exact NAI]|]. split; [exact N2|]. split; [exact C1|]. split; [exact C2|].
        split; [eapply stable_mono; [exact E'|]; eapply stable_mono; [exact E2|exact S1]|exact S2].
      + split; [intros Q1 Q2; apply (x_repl _ _ _ _ _ _ E' true); auto|exact RC].
    - destruct Y2 as [-> [C2 [S2 O]]]. destruct O as [O|O].
      { exfalso. destruct (dmem (repl false s1) (VReg (i_reg j))) eqn:Q; [|discriminate]. apply dmem_get in Q. destruct Q as [z Q].
        revert X1. unfold replacement. destruct (dget (repl true s) (VReg (i_reg i))); [discriminate|].
        cbn [inst_of Funcomp_Model.fn]. rewrite FI. apply dmem_none in RR.
        destruct (match i_code i with Cast true => safe_cast w i | _ => false end); destruct (_ && _); intros Z; try discriminate; injection Z as <-; cbn in Q; try (rewrite (put_repl_get true _ _ _ false) in Q; cbn in Q); congruence. }
      assert (PU : P s2 false (op 0 j)).
      { eapply P_mono; [exact E2|]. eapply P_start; eauto. eapply (clear_op0 w fl fr WL WR false); eauto. }
      destruct (half_left n D (cur i j) A i (op 0 j) (note Replaced s2) s' (inv_note _ _ _ _ _ _ _ I2) FA (AJ C2) PU ltac:(eapply (clear_op0 w fl fr WL WR false); eauto) FI (or_introl eq_refl) NI AI ltac:(cbn; congruence) H T)
        as [I' [E' [C1 [S1 [N1 RC]]]]].
      apply ext_note in E'. split; [exact I'|]. split; [eapply ext_weaken; [exact AW|]; eapply ext_trans; eauto|]. split; [right|].
      + split; [exact N1|]. split; [apply (NEW false); [exact E'|cbn; congruence|exact NAJ]|]. split; [exact C1|]. split; [exact C2|].
        split; [exact S1|eapply stable_mono; eauto].
      + split; [exact RC|intros Q1 Q2; apply (x_repl _ _ _ _ _ _ E' false); auto].
    - injection H as H.
      destruct (cmp_base_cases w fl fr D (cur i j) (VReg (i_reg i)) (VReg (i_reg j)) s2 s' I2 H T) as [[a [b [Q _]]]|[[k [Q _]]|[L [R [NL [NR [ps [-> PH]]]]]]]]; [discriminate|congruence|].
      assert (X : ext (cur i j) (with_cur i j A) s2 (added (VReg (i_reg i)) (VReg (i_reg j)) ps s2)).
      { eapply added_ext; eauto; try (right; reflexivity); right; left; reflexivity. }
      split; [eapply added_inv; eauto; right; left; reflexivity|].
      split; [eapply ext_trans; [eapply ext_weaken; [exact AW|exact E02]|exact X]|]. split; [left|].
      + exists (length (snL s2)). split.
        * pose proof (added_get true (VReg (i_reg i)) (VReg (i_reg j)) ps s2 (VReg (i_reg i)) L R) as Q. cbn [sn] in Q. rewrite Q. destruct (eqb_spec (VReg (i_reg i)) (VReg (i_reg i))); congruence.
        * pose proof (added_get false (VReg (i_reg i)) (VReg (i_reg j)) ps s2 (VReg (i_reg j)) L R) as Q. cbn [sn] in Q. rewrite Q. destruct (eqb_spec (VReg (i_reg j)) (VReg (i_reg j))); congruence.
      + split; [exact CI|exact RC2].
  Qed.

  (** What a successful comparison of two instructions other than PHI nodes establishes. *)
  Definition Same (s : state) (ls rs : list value) : Prop := Forall2 (fun l r => E s l r /\ is_block l = is_block r) ls rs.
  Definition Matched (s : state) (i j : inst) : Prop :=
    is_phi i = false /\ is_phi j = false /\ together s i j /\
    ((exists z, i_code i = Gep (Some z) /\ i_code j = Gep (Some z) /\ E s (op 0 i) (op 0 j)) \/
     (plain (i_code i) = plain (i_code j) /\ same_rest w (i_rest i) (i_rest j) = true /\ Same s (i_ops i) (i_ops j))).

  Lemma Same_mono C A s s' ls rs : ext C A s s' -> Same s ls rs -> Same s' ls rs.
  Proof. intros X H. induction H as [|l r ls rs [H1 H2] _ IH]; constructor; [split; [eapply E_mono; eauto|exact H2]|exact IH]. Qed.
  (** Later steps number only PHI nodes and the definitions they compare. *)
  Lemma Matched_mono C A s s' i j : ext C A s s' -> ~ In (i_reg i) (C true) -> ~ In (i_reg j) (C false) ->
    find_inst fl (i_reg i) = Some i -> find_inst fr (i_reg j) = Some j -> is_debug i = false -> is_debug j = false ->
    Matched s i j -> Matched s' i j.
  Proof.
    intros X NI NJ FI FJ DI DJ [H1 [H2 [H3 H4]]]. split; [exact H1|]. split; [exact H2|]. split.
    - destruct H3 as [[k [K1 K2]]|[N1 [N2 [C1 [C2 [S1 S2]]]]]].
      + left. exists k. split; [apply (x_num _ _ _ _ _ _ X true)|apply (x_num _ _ _ _ _ _ X false)]; assumption.
      + right. split; [|split; [|split; [exact C1|split; [exact C2|split; eapply stable_mono; eauto]]]].
        * destruct (dget (snL s') (VReg (i_reg i))) as [k|] eqn:G; [exfalso|reflexivity].
          destruct (x_new _ _ _ _ _ _ X true (VReg (i_reg i))) as [O|[_ [O|O]]]; [apply dmem_get; eauto| | |exact (NI O)].
          -- apply dmem_get in O. destruct O as [k' O]. cbn in O. congruence.
          -- pose proof (O i FI) as Q. rewrite H1, DI in Q. discriminate.
        * destruct (dget (snR s') (VReg (i_reg j))) as [k|] eqn:G; [exfalso|reflexivity].
          destruct (x_new _ _ _ _ _ _ X false (VReg (i_reg j))) as [O|[_ [O|O]]]; [apply dmem_get; eauto| | |exact (NJ O)].
          -- apply dmem_get in O. destruct O as [k' O]. cbn in O. congruence.
          -- pose proof (O j FJ) as Q. rewrite H2, DJ in Q. discriminate.
    - destruct H4 as [[z [Z1 [Z2 Z3]]]|[Z1 [Z2 Z3]]]; [left; exists z; repeat split; auto; eapply E_mono; eauto|right; repeat split; auto; eapply Same_mono; eauto].
  Qed.

  Lemma same_kinds_cons a ls b rs : same_kinds (a :: ls) (b :: rs) = true -> is_block a = is_block b /\ same_kinds ls rs = true.
  Proof. unfold same_kinds. cbn. intros H. apply andb_true_iff in H. destruct H as [H1 H2]. apply Bool.eqb_prop in H1. auto. Qed.

  Lemma cmp_all_ok n D C A : forall ls rs s s', Inv D C s -> fine D A -> (forall v, In v ls -> A true v) -> (forall v, In v rs -> A false v) ->
    length ls = length rs -> same_kinds ls rs = true -> cmp_all (cmp_values w fl fr n) ls rs s = Some (true, s') -> tame s' ->
    Inv D C s' /\ ext C A s s' /\ Same s' ls rs /\ (forall v, In v ls -> P s' true v) /\ (forall v, In v rs -> P s' false v).
  Proof.
    induction ls as [|l ls IH]; intros [|r rs] s s' I FA AL AR LEN K H T; try discriminate.
    - injection H as <-. split; [exact I|]. split; [apply ext_refl|]. split; [constructor|]. split; intros v [].
    - cbn [cmp_all] in H. destruct (cmp_values w fl fr n l r s) as [[[|] s1]|] eqn:X; [| |discriminate].
      2:{ injection H. discriminate. }
      destruct (same_kinds_cons _ _ _ _ K) as [K1 K2].
      assert (T1 : tame s1) by (eapply tame_back; [|exact T]; eapply cmp_all_log; [apply cmp_values_log|exact H]).
      destruct (cmp_values_ok w fl fr WL WR n D C A l r s s1 I FA (AL l (or_introl eq_refl)) (AR r (or_introl eq_refl)) K1 X T1) as [I1 [E1 [Q1 [P1 P2]]]].
      destruct (IH rs s1 s' I1 FA (fun v i => AL v (or_intror i)) (fun v i => AR v (or_intror i)) ltac:(cbn in LEN; lia) K2 H T) as [I2 [E2 [Q2 [P3 P4]]]].
      split; [exact I2|]. split; [eapply ext_trans; eauto|]. split; [constructor; [split; [eapply E_mono; eauto|exact K1]|exact Q2]|].
      split; intros v [<-|V]; auto; eapply P_mono; eauto.
  Qed.
  Lemma cmp_operands_ok n D C A i j : forall ls rs k s s', Inv D C s -> fine D A -> (forall v, In v ls -> A true v) -> (forall v, In v rs -> A false v) ->
    length ls = length rs -> same_kinds ls rs = true -> cmp_operands w (cmp_values w fl fr n) i j k ls rs s = Some (true, s') -> tame s' ->
    Inv D C s' /\ ext C A s s' /\ Same s' ls rs /\ (forall v, In v ls -> P s' true v) /\ (forall v, In v rs -> P s' false v).
  Proof.
    induction ls as [|l ls IH]; intros [|r rs] k s s' I FA AL AR LEN K H T; try discriminate.
    - injection H as <-. split; [exact I|]. split; [apply ext_refl|]. split; [constructor|]. split; intros v [].
    - cbn [cmp_operands] in H. destruct (cmp_values w fl fr n l r s) as [[[|] s1]|] eqn:X; [| |discriminate].
      2:{ destruct (_ && _ && _); [|discriminate]. injection H as <-. apply tame_note in T. destruct T. discriminate. }
      destruct (same_kinds_cons _ _ _ _ K) as [K1 K2].
      assert (T1 : tame s1) by (eapply tame_back; [|exact T]; eapply cmp_operands_log; [apply cmp_values_log|exact H]).
      destruct (cmp_values_ok w fl fr WL WR n D C A l r s s1 I FA (AL l (or_introl eq_refl)) (AR r (or_introl eq_refl)) K1 X T1) as [I1 [E1 [Q1 [P1 P2]]]].
      destruct (IH rs (S k) s1 s' I1 FA (fun v i => AL v (or_intror i)) (fun v i => AR v (or_intror i)) ltac:(cbn in LEN; lia) K2 H T) as [I2 [E2 [Q2 [P3 P4]]]].
      split; [exact I2|]. split; [eapply ext_trans; eauto|]. split; [constructor; [split; [eapply E_mono; eauto|exact K1]|exact Q2]|].
      split; intros v [<-|V]; auto; eapply P_mono; eauto.
  Qed.

  Lemma same_code_plain a b : same_code a b = true -> a = b.
  Proof.
    destruct a, b; cbn; try discriminate; try reflexivity; intros H.
    - apply Bool.eqb_prop in H. congruence.
    - apply String.eqb_eq in H. congruence.
    - apply String.eqb_eq in H. congruence.
  Qed.

  Definition based (left : bool) (i : inst) (A : allowed) : Prop := forall v, In v (i_ops i) -> A left v.

  (** The definition joins the ones that were gone through. *)
  Lemma finish D i j s : Inv D (cur i j) s -> find_inst fl (i_reg i) = Some i -> find_inst fr (i_reg j) = Some j ->
    together s i j -> (clear i = true -> P s true (op 0 i)) -> (clear j = true -> P s false (op 0 j)) ->
    (i_code i = Cast true -> safe_cast w i = true -> dmem (replL s) (VReg (i_reg i)) = true) ->
    (i_code j = Cast true -> safe_cast w j = true -> dmem (replR s) (VReg (i_reg j)) = true) ->
    Inv (more i j D) none s.
  Proof.
    intros [a1 a2 a3 a4 a5 a6 a7 a8 a9 a10 a11 a12 a13] FI FJ TG PI PJ RI RJ. constructor; auto.
    - intros left v u H. destruct (a9 left v u H) as [c [x [H1 [H2 [H3 [H4 [H5 [H6|[H6|[]]]]]]]]]]; exists c, x; repeat (split; [assumption|]); left; [right; exact H6|left; exact H6].
    - intros left r H. left. destruct (a10 left r H) as [H1|[H1|[]]]; [right; exact H1|left; exact H1].
    - intros left c x [<-|H1] H2 H3 H4; [|exact (a11 left c x H1 H2 H3 H4)].
      assert (PT : P s true (VReg (i_reg i)) /\ P s false (VReg (i_reg j))).
      { cbn. destruct TG as [[k [K1 K2]]|[_ [_ [_ [_ [S1 S2]]]]]]; [split; left; apply dmem_get; eauto|auto]. }
      destruct left; cbn in H2.
      + assert (x = i) by congruence. subst x. split; [apply PT|]. split; assumption.
      + assert (x = j) by congruence. subst x. split; [apply PT|]. split; assumption.
  Qed.

  Lemma op0_P s left i : (forall v, In v (i_ops i) -> P s left v) -> P s left (op 0 i).
  Proof. intros H. destruct (op0_cases i) as [O|O]; [apply H; exact O|rewrite O; exact Logic.I]. Qed.

  Lemma visit_ok n D A i j s s' : Inv D none s -> fine D A -> find_inst fl (i_reg i) = Some i -> find_inst fr (i_reg j) = Some j ->
    ~ In (i_reg i) (D true) -> ~ In (i_reg j) (D false) -> (forall v, In v (op 0 i :: i_ops i) -> A true v) -> (forall v, In v (op 0 j :: i_ops j) -> A false v) ->
    is_phi i && is_phi j = false ->
    cmp_insts w fl fr (cmp_values w fl fr n) i j s = Some (true, s') -> tame s' ->
    Inv (more i j D) none s' /\ ext (cur i j) (with_cur i j A) s s' /\ Matched s' i j.
  Proof.
    intros I0 FA FI FJ NI NJ AI AJ NP H T.
    assert (AI0 : A true (op 0 i)) by (apply AI; left; reflexivity). assert (AJ0 : A false (op 0 j)) by (apply AJ; left; reflexivity).
    assert (AI' : forall v, In v (i_ops i) -> A true v) by (intros v V; apply AI; right; exact V).
    assert (AJ' : forall v, In v (i_ops j) -> A false v) by (intros v V; apply AJ; right; exact V).
    assert (AW : forall side v, A side v -> with_cur i j A side v) by (intros side v Q; left; exact Q).
    unfold cmp_insts in H. assert (NOW : now s j = j) by (unfold now; rewrite (c_swap _ (v_calm _ _ _ _ _ _ I0)); reflexivity). rewrite NOW in H.
    destruct (cmp_operation w fl fr (cmp_values w fl fr n) i j s) as [[[[|] need] s1]|] eqn:X; [|discriminate|discriminate].
    assert (G1 : grows s1 s').
    { destruct need; [eapply cmp_operands_log; [apply cmp_values_log|exact H]|injection H as <-; apply grows_refl]. }
    assert (T1 : tame s1) by (eapply tame_back; eauto).
    assert (B : cmp_operation_base w (cmp_values w fl fr n) i j s = Some (true, need, s1)).
    { unfold cmp_operation in X. rewrite NP in X. destruct (cmp_operation_base w (cmp_values w fl fr n) i j s) as [[[r nd] s2]|] eqn:Y; [|discriminate].
      assert (TN : forall st, note Inverted st = s1 -> False) by (intros st <-; apply tame_note in T1; destruct T1; discriminate).
      destruct (i_code i), (i_code j); try (congruence);
      repeat match type of X with
      | (if ?c then _ else _) = _ => destruct c
      | (match ?c with [] => _ | _ :: _ => _ end) = _ => destruct c
      end; try congruence; injection X as _ X; exfalso; eapply TN; exact X. }
    clear X. unfold cmp_operation_base in B.
    destruct (cmp_values w fl fr n (VReg (i_reg i)) (VReg (i_reg j)) s) as [[[|] s0]|] eqn:V; [|discriminate|discriminate].
    assert (FIN : forall s9, grows s0 s9 -> tame s9 -> Inv D (cur i j) s0 /\ ext (cur i j) (with_cur i j A) s s0 /\ together s0 i j /\
      (i_code i = Cast true -> safe_cast w i = true -> dmem (replL s0) (VReg (i_reg i)) = true) /\
      (i_code j = Cast true -> safe_cast w j = true -> dmem (replR s0) (VReg (i_reg j)) = true)).
    { intros s9 G T9. eapply self_ok; eauto. eapply tame_back; eauto. }
    assert (END : forall s9, grows s0 s9 -> tame s9 -> Inv D (cur i j) s9 -> ext (cur i j) A s0 s9 ->
      (clear i = true -> P s9 true (op 0 i)) -> (clear j = true -> P s9 false (op 0 j)) ->
      is_phi i = false -> is_phi j = false ->
      ((exists z, i_code i = Gep (Some z) /\ i_code j = Gep (Some z) /\ E s9 (op 0 i) (op 0 j)) \/
       (plain (i_code i) = plain (i_code j) /\ same_rest w (i_rest i) (i_rest j) = true /\ Same s9 (i_ops i) (i_ops j))) ->
      Inv (more i j D) none s9 /\ ext (cur i j) (with_cur i j A) s s9 /\ Matched s9 i j).
    { intros s9 G T9 I9 E9 P1 P2 NPI NPJ M. destruct (FIN s9 G T9) as [I1 [E1 [TG [RI RJ]]]].
      assert (TG9 : together s9 i j).
      { destruct TG as [[k [K1 K2]]|[N1 [N2 [C1 [C2 [S1 S2]]]]]].
        - left. exists k. split; [apply (x_num _ _ _ _ _ _ E9 true)|apply (x_num _ _ _ _ _ _ E9 false)]; assumption.
        - right. split; [|split; [|split; [exact C1|split; [exact C2|split; eapply stable_mono; eauto]]]].
          + destruct (dget (snL s9) (VReg (i_reg i))) as [k|] eqn:Z; [exfalso|reflexivity].
            destruct (x_new _ _ _ _ _ _ E9 true (VReg (i_reg i))) as [O|[O _]]; [apply dmem_get; eauto| |apply NI; eapply (a_done _ _ _ _ _ FA); exact O].
            apply dmem_get in O. destruct O as [k' O]. cbn in O. congruence.
          + destruct (dget (snR s9) (VReg (i_reg j))) as [k|] eqn:Z; [exfalso|reflexivity].
            destruct (x_new _ _ _ _ _ _ E9 false (VReg (i_reg j))) as [O|[O _]]; [apply dmem_get; eauto| |apply NJ; eapply (a_done _ _ _ _ _ FA); exact O].
            apply dmem_get in O. destruct O as [k' O]. cbn in O. congruence. }
      split; [|split].
      - eapply finish; eauto; intros Q1 Q2; [apply (x_repl _ _ _ _ _ _ E9 true)|apply (x_repl _ _ _ _ _ _ E9 false)]; auto.
      - eapply ext_trans; [exact E1|]. eapply ext_weaken; [exact AW|exact E9].
      - split; [exact NPI|]. split; [exact NPJ|]. split; assumption. }
    assert (OTHER : forall c d, i_code i = c -> i_code j = d -> is_phi i = false -> is_phi j = false ->
      Some (same_code c d && (length (i_ops i) =? length (i_ops j)) && same_rest w (i_rest i) (i_rest j) && same_kinds (i_ops i) (i_ops j), true, s0) = Some (true, need, s1) ->
      Inv (more i j D) none s' /\ ext (cur i j) (with_cur i j A) s s' /\ Matched s' i j).
    { intros c d KC KD NPI NPJ Q. injection Q as Q <- <-.
      apply andb_true_iff in Q. destruct Q as [Q KK]. apply andb_true_iff in Q. destruct Q as [Q RR]. apply andb_true_iff in Q. destruct Q as [SC LL].
      apply Nat.eqb_eq in LL. apply same_code_plain in SC.
      destruct (FIN s' G1 T) as [I1 [E1 [TG [RI RJ]]]].
      assert (NOW1 : now s0 j = j) by (unfold now; rewrite (c_swap _ (v_calm _ _ _ _ _ _ I1)); reflexivity). rewrite NOW1 in H.
      destruct (cmp_operands_ok n D (cur i j) A i j _ _ _ _ _ I1 FA AI' AJ' LL KK H T) as [I2 [E2 [SM [P1 P2]]]].
      apply END; auto; [intros _; apply op0_P; exact P1|intros _; apply op0_P; exact P2|]. right. split; [congruence|]. auto. }
    destruct (i_code i) as [| | | | |bi|x| | | | | | | |] eqn:KI; try (apply (OTHER _ (i_code j) eq_refl eq_refl); [unfold is_phi; rewrite KI; reflexivity| |exact B];
      unfold is_phi; destruct (i_code j); try reflexivity; cbn in B; discriminate).
    all: try (cbn in B; discriminate).
    destruct (i_code j) as [| | | | |bj|y| | | | | | | |] eqn:KJ; try (cbn in B; discriminate).
    destruct (cmp_values w fl fr n (op 0 i) (op 0 j) s0) as [[[|] s2]|] eqn:Y; [|discriminate|discriminate].
    assert (G2 : grows s0 s2) by (eapply cmp_values_log; exact Y).
    assert (OO : is_block (op 0 i) = is_block (op 0 j)).
    { destruct (find_inst_In _ _ _ FI) as [II _], (find_inst_In _ _ _ FJ) as [IJ _].
      assert (B1 : is_block (op 0 i) = false).
      { destruct (op0_cases i) as [O|O]; [|rewrite O; reflexivity]. pose proof (wf_operands _ WL i _ II O) as Z. destruct (op 0 i); try reflexivity. destruct Z; congruence. }
      assert (B2 : is_block (op 0 j) = false).
      { destruct (op0_cases j) as [O|O]; [|rewrite O; reflexivity]. pose proof (wf_operands _ WR j _ IJ O) as Z. destruct (op 0 j); try reflexivity. destruct Z; congruence. }
      congruence. }
    assert (NPI : is_phi i = false) by (unfold is_phi; rewrite KI; reflexivity). assert (NPJ : is_phi j = false) by (unfold is_phi; rewrite KJ; reflexivity).
    assert (STEP : tame s2 -> Inv D (cur i j) s2 /\ ext (cur i j) A s0 s2 /\ E s2 (op 0 i) (op 0 j) /\ P s2 true (op 0 i) /\ P s2 false (op 0 j)).
    { intros T2. destruct (FIN s2 G2 T2) as [I1 _]. exact (cmp_values_ok w fl fr WL WR n D (cur i j) A (op 0 i) (op 0 j) s0 s2 I1 FA AI0 AJ0 OO Y T2). }
    assert (NC : forall a b, x = a -> y = b -> (if same_rest w (i_rest i) (i_rest j) && (length (i_ops i) =? length (i_ops j)) && same_kinds (i_ops i) (i_ops j)
       then match cmp_all (cmp_values w fl fr n) (i_ops i) (i_ops j) s2 with Some (b, s3) => Some (b, false, s3) | None => None end else Some (false, false, s2)) = Some (true, need, s1) ->
       plain (Gep a) = plain (Gep b) ->
       Inv (more i j D) none s' /\ ext (cur i j) (with_cur i j A) s s' /\ Matched s' i j).
    { intros a b -> -> Q PL. destruct (_ && _ && _) eqn:Z; [|discriminate]. apply andb_true_iff in Z. destruct Z as [Z KK]. apply andb_true_iff in Z. destruct Z as [RR LL]. apply Nat.eqb_eq in LL.
      destruct (cmp_all (cmp_values w fl fr n) (i_ops i) (i_ops j) s2) as [[bb s3]|] eqn:Y3; [|discriminate]. injection Q as -> <- <-. injection H as <-.
      assert (G3 : grows s2 s3) by (eapply cmp_all_log; [apply cmp_values_log|exact Y3]).
      assert (T2 : tame s2) by (eapply tame_back; eauto). destruct (STEP T2) as [I2 [E2 [Q2 [P1 P2]]]].
      destruct (cmp_all_ok n D (cur i j) A _ _ _ _ I2 FA AI' AJ' LL KK Y3 T) as [I3 [E3 [SM _]]].
      apply (END s3 (grows_trans _ _ _ G2 G3) T I3 (ext_trans _ _ _ _ _ _ _ E2 E3)); [intros _; eapply P_mono; [exact E3|exact P1]|intros _; eapply P_mono; [exact E3|exact P2]|exact NPI|exact NPJ|].
      right. split; [exact PL|]. auto. }
    destruct x as [a|], y as [b|].
    - injection B as B <- <-. injection H as <-. apply Z.eqb_eq in B. subst b. destruct (STEP T) as [I2 [E2 [Q2 [P1 P2]]]].
      apply END; auto. left. exists a. auto.
    - eapply NC; eauto.
    - eapply NC; eauto.
    - eapply NC; eauto.
  Qed.
End Visit.
