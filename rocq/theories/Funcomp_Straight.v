(** * Comparing functions without branches takes no exceptions *)
From Coq Require Import String Ascii ZArith Arith Bool Lia List.
From Verif Require Import PyBase Funcomp_Model Funcomp_Spec Funcomp_Log Funcomp_Reloc Funcomp_Inv Funcomp_Visit Funcomp_Walk Funcomp_Sim.
Import ListNotations.
Open Scope list_scope.
Open Scope nat_scope.

Section Straight.
  Variable w : world.
  Variables fl fr : func.
  Hypothesis WL : well_formed fl.
  Hypothesis WR : well_formed fr.
  Hypothesis SL : straight fl.
  Hypothesis SR : straight fr.
  Hypothesis OFF : patterns_off w.
  Notation fn := (fn fl fr).

  Lemma straight_inst f i : straight f -> In i (insts f) -> unskippable i.
  Proof. intros [b [l [E A]]] I. unfold insts in I. rewrite E in I. cbn in I. rewrite app_nil_r in I. apply A. exact I. Qed.
  Lemma operand_nb f i v : well_formed f -> straight f -> In i (insts f) -> In v (i_ops i) -> is_block v = false.
  Proof.
    intros W S I V. pose proof (wf_operands _ W i v I V) as Q. pose proof (straight_inst f i S I) as U. destruct v; try reflexivity.
    unfold unskippable in U. destruct Q as [Q|Q]; rewrite Q in U; destruct U.
  Qed.
  Lemma op0_nb f i : well_formed f -> straight f -> In i (insts f) -> is_block (op 0 i) = false.
  Proof. intros W S I. destruct (op0_cases i) as [O|O]; [eapply operand_nb; eauto|rewrite O; reflexivity]. Qed.
  Lemma no_phi f v : straight f -> phi_of f v = None.
  Proof.
    intros S. unfold phi_of, inst_of. destruct v; try reflexivity. destruct (find_inst f n) as [i|] eqn:F; [|reflexivity].
    apply find_inst_In in F. pose proof (straight_inst f i S (proj1 F)) as U. unfold unskippable in U. unfold is_phi. destruct (i_code i); try reflexivity. destruct U.
  Qed.

  Record Calm (s : state) : Prop := mkCalm2 {
    z_skipL : skipL s = []; z_skipR : skipR s = []; z_inv : inverses s = []; z_swap : swapped s = []; z_phis : phis s = [];
    z_reloc : r_status (reloc s) = NoReloc; z_log : tame s; z_repl : forall v u, dget (replL s) v = Some u -> is_block u = false }.

  Lemma replacement_calm left v s x s' : Calm s -> replacement w fl fr left v s = (x, s') -> Calm s' /\ (left = true -> is_block v = false -> forall u, x = Some u -> is_block u = false).
  Proof.
    intros C. unfold replacement. destruct (dget (repl left s) v) as [u|] eqn:G.
    { intros H; injection H as <- <-. split; [exact C|]. intros -> _ u' E. injection E as <-. eapply (z_repl _ C). exact G. }
    destruct (inst_of (fn left) v) as [i|] eqn:F; [|intros H; injection H as <- <-; split; [exact C|intros; discriminate]].
    assert (NB : is_block (op 0 i) = false).
    { unfold inst_of in F. destruct v; try discriminate. apply find_inst_In in F. destruct F as [F _]. destruct left; [exact (op0_nb fl i WL SL F)|exact (op0_nb fr i WR SR F)]. }
    set (c := match i_code i with Cast true => safe_cast w i | _ => false end).
    assert (C' : Calm (if c then put_repl left v (op 0 i) s else s)).
    { destruct c; [|exact C]. unfold put_repl. destruct (dmem (repl left s) v); [exact C|]. destruct C as [c1 c2 c3 c4 c5 c6 c7 c8]. destruct left; constructor; auto. cbn [replL set_repl].
      intros x0 u. rewrite dget_dset. destruct (eqb x0 v); [intros H; injection H as <-; exact NB|apply c8]. }
    destruct (_ && _); intros H; injection H as <- <-; (split; [exact C'|]); intros _ _ u E; [injection E as <-; exact NB|discriminate].
  Qed.
  Lemma cmp_base_calm l r s b s' : Calm s -> is_block l = false -> cmp_base w fl fr l r s = (b, s') -> Calm s'.
  Proof.
    intros C NB. assert (SN : forall a c m, Calm (set_sn s a c m)) by (intros a c m; destruct C; constructor; auto).
    assert (N : cmp_numbered fl fr l r s = (b, s') -> Calm s').
    { unfold cmp_numbered. destruct (number (snL s) l) as [a sl], (number (snR s) r) as [c sr]. rewrite NB. cbn [andb].
      destruct (a =? c); [|intros H; injection H as <- <-; apply SN]. destruct (length sl =? _); [|intros H; injection H as <- <-; apply SN].
      rewrite (no_phi fl l SL), (no_phi fr r SR). intros H; injection H as <- <-; apply SN. }
    unfold cmp_base. destruct l, r; try exact N; intros H; injection H as <- <-; exact C.
  Qed.
  Lemma cmp_values_calm n : forall l r s b s', Calm s -> is_block l = false -> cmp_values w fl fr n l r s = Some (b, s') -> Calm s'.
  Proof.
    induction n as [|n IH]; intros l r s b s' C NB; [discriminate|]. cbn [cmp_values]. rewrite (z_skipL _ C), (z_skipR _ C). cbn [mem existsb andb orb].
    destruct (mem l (ignL s) || mem r (ignR s) || false || false); [intros H; injection H as <- <-; exact C|].
    destruct (replacement w fl fr true l s) as [x s1] eqn:X. destruct (replacement w fl fr false r s1) as [y s2] eqn:Y.
    destruct (replacement_calm _ _ _ _ _ C X) as [C1 NX]. destruct (replacement_calm _ _ _ _ _ C1 Y) as [C2 _].
    assert (C3 : Calm (note Replaced s2)).
    { destruct C2 as [c1 c2 c3 c4 c5 c6 c7 c8]. constructor; auto. intros e [<-|I]; [reflexivity|apply c7; exact I]. }
    destruct x as [u|], y as [v|]; try (intros H; refine (IH _ _ _ _ _ C3 _ H); first [exact NB|apply (NX eq_refl NB u eq_refl)]).
    intros H. destruct (cmp_base w fl fr l r s2) as [z s3] eqn:Z. injection H as <- <-. exact (cmp_base_calm _ _ _ _ _ C2 NB Z).
  Qed.
  Lemma cmp_all_calm n : forall ls rs s b s', Calm s -> (forall v, In v ls -> is_block v = false) -> cmp_all (cmp_values w fl fr n) ls rs s = Some (b, s') -> Calm s'.
  Proof.
    induction ls as [|l ls IH]; intros [|r rs] s b s' C A; cbn; try (intros H; injection H as <- <-; exact C).
    destruct (cmp_values w fl fr n l r s) as [[[|] s1]|] eqn:X; try discriminate; intros H.
    - eapply IH; [refine (cmp_values_calm _ _ _ _ _ _ C _ X); apply A; left; reflexivity| |exact H]. intros v V. apply A. right. exact V.
    - injection H as <- <-. refine (cmp_values_calm _ _ _ _ _ _ C _ X); apply A; left; reflexivity.
  Qed.
  Lemma cmp_operands_calm n i j : forall ls rs k s b s', Calm s -> (forall v, In v ls -> is_block v = false) -> cmp_operands w (cmp_values w fl fr n) i j k ls rs s = Some (b, s') -> Calm s'.
  Proof.
    induction ls as [|l ls IH]; intros [|r rs] k s b s' C A; cbn; try (intros H; injection H as <- <-; exact C).
    destruct (cmp_values w fl fr n l r s) as [[[|] s1]|] eqn:X; try discriminate; intros H.
    - eapply IH; [refine (cmp_values_calm _ _ _ _ _ _ C _ X); apply A; left; reflexivity| |exact H]. intros v V. apply A. right. exact V.
    - destruct OFF as [_ [_ [_ [_ [_ CS]]]]]. rewrite CS, andb_false_r in H. injection H as <- <-. refine (cmp_values_calm _ _ _ _ _ _ C _ X); apply A; left; reflexivity.
  Qed.
  Lemma cmp_insts_calm n i j s b s' : In i (insts fl) -> Calm s -> cmp_insts w fl fr (cmp_values w fl fr n) i j s = Some (b, s') -> Calm s'.
  Proof.
    intros I C. unfold cmp_insts. unfold now at 1. rewrite (z_swap _ C). cbn [mem existsb].
    assert (OPS : forall v, In v (i_ops i) -> is_block v = false) by (intros v V; exact (operand_nb fl i v WL SL I V)).
    destruct (cmp_operation w fl fr (cmp_values w fl fr n) i j s) as [[[x y] s1]|] eqn:X; [|discriminate].
    assert (C1 : Calm s1).
    { revert X. unfold cmp_operation. destruct (is_phi i && is_phi j); [intros H; injection H as <- <- <-; exact C|].
      destruct (cmp_operation_base w (cmp_values w fl fr n) i j s) as [[[x' y'] s2]|] eqn:Y; [|discriminate].
      assert (C2 : Calm s2).
      { revert Y. unfold cmp_operation_base. destruct (cmp_values w fl fr n (VReg (i_reg i)) (VReg (i_reg j)) s) as [[z s3]|] eqn:Z; [|discriminate].
        assert (C3 : Calm s3) by (refine (cmp_values_calm _ _ _ _ _ _ C _ Z); reflexivity). destruct z; [|intros H; injection H as <- <- <-; exact C3].
        assert (D : forall a c, Some (a, c, s3) = Some (x', y', s2) -> Calm s2) by (intros a c H; injection H as <- <- <-; exact C3).
        destruct (i_code i); try apply D. destruct (i_code j); try apply D.
        destruct (cmp_values w fl fr n (op 0 i) (op 0 j) s3) as [[z s4]|] eqn:U; [|discriminate].
        assert (C4 : Calm s4) by (refine (cmp_values_calm _ _ _ _ _ _ C3 _ U); exact (op0_nb fl i WL SL I)). destruct z; [|intros H; injection H as <- <- <-; exact C4].
        assert (K : (if same_rest w (i_rest i) (i_rest j) && (length (i_ops i) =? length (i_ops j)) && same_kinds (i_ops i) (i_ops j)
                 then match cmp_all (cmp_values w fl fr n) (i_ops i) (i_ops j) s4 with Some (b, s3) => Some (b, false, s3) | None => None end
                 else Some (false, false, s4)) = Some (x', y', s2) -> Calm s2).
        { destruct (_ && _); [|intros H; injection H as <- <- <-; exact C4]. destruct (cmp_all _ _ _ s4) as [[z s5]|] eqn:V; [|discriminate]. intros H; injection H as <- <- <-. eapply cmp_all_calm; [exact C4|exact OPS|exact V]. }
        destruct offset as [p|]; [destruct offset0 as [q|]|]; try exact K. intros H; injection H as <- <- <-; exact C4. }
      assert (D : Some (x', y', s2) = Some (x, y, s1) -> Calm s1) by (intros H; injection H as <- <- <-; exact C2).
      pose proof (straight_inst fl i SL I) as U. unfold unskippable in U. destruct OFF as [_ [PI _]].
      destruct (i_code i); try exact D; [|destruct U]. destruct (i_code j); try exact D. rewrite PI, andb_false_r. cbn [andb]. exact D. }
    destruct x, y; try (intros H; injection H as <- <-; exact C1). unfold now. rewrite (z_swap _ C1). cbn [mem existsb]. intros H. eapply cmp_operands_calm; [exact C1|exact OPS|exact H].
  Qed.
  Lemma may_skip_no left b i s : In i (insts (fn left)) -> may_skip w fl fr left b i s = (false, s).
  Proof.
    intros I. assert (U : unskippable i) by (destruct left; [exact (straight_inst fl i SL I)|exact (straight_inst fr i SR I)]). unfold may_skip. destruct OFF as [_ [_ [PR [PG [PC _]]]]]. rewrite PR, PG, PC. cbn [andb orb].
    unfold unskippable in U. destruct (i_code i) eqn:K; try reflexivity; try contradiction. destruct (zero_gep i) eqn:Z; [|reflexivity]. apply zero_gep_iff in Z. contradiction.
  Qed.
  Lemma cmp_blocks_calm n : forall bl br pl pr s s', incl pl (insts fl) -> incl pr (insts fr) -> Calm s -> cmp_blocks w fl fr n bl br false false pl pr s = Some (true, s') -> Calm s'.
  Proof.
    induction n as [|n IH]; intros bl br pl pr s s' IL IR C; [discriminate|]. cbn [cmp_blocks].
    destruct pl as [|i pl], pr as [|j pr]; try discriminate; [intros H; injection H as <-; exact C|].
    assert (IL' : incl pl (insts fl)) by (intros x X; apply IL; right; exact X). assert (IR' : incl pr (insts fr)) by (intros x X; apply IR; right; exact X).
    assert (II : In i (insts fl)) by (apply IL; left; reflexivity). assert (IJ : In j (insts fr)) by (apply IR; left; reflexivity).
    destruct (is_debug i); [apply IH; assumption|]. destruct (is_debug j); [apply IH; assumption|].
    destruct (cmp_insts w fl fr (cmp_values w fl fr n) i j s) as [[z s1]|] eqn:X; [|discriminate]. pose proof (cmp_insts_calm _ _ _ _ _ _ II C X) as C1. destruct z.
    - rewrite (z_reloc _ C1). apply IH; assumption.
    - rewrite (may_skip_no true _ i s1 II), (may_skip_no false _ j s1 IJ). cbn [orb]. unfold reordered. destruct OFF as [RL [PI [PR _]]]. rewrite PR, PI, RL. cbn [andb]. rewrite (z_reloc _ C1). discriminate.
  Qed.
  Lemma cmp_args_calm n : forall k from s s', Calm s -> cmp_args w fl fr n k from s = Some (true, s') -> Calm s'.
  Proof.
    induction k as [|k IH]; intros from s s' C; cbn; [intros H; injection H as <-; exact C|].
    destruct (cmp_values w fl fr n (VArg from) (VArg from) s) as [[[|] s1]|] eqn:X; try discriminate. apply IH. refine (cmp_values_calm _ _ _ _ _ _ C _ X); reflexivity.
  Qed.
  Lemma straight_block f : straight f -> exists l, block f (entry f) = l /\ incl l (insts f) /\ forall t, terminator l = Some t -> successors t = [].
  Proof.
    intros [b [l [E A]]]. assert (EN : entry f = b) by (unfold entry; rewrite E; reflexivity). exists l.
    assert (B : block f (entry f) = l) by (unfold block; rewrite E, EN; cbn; destruct (Nat.eqb_spec b b); congruence). split; [exact B|].
    split; [unfold insts; rewrite E; cbn; rewrite app_nil_r; apply incl_refl|]. intros t T.
    assert (I : In t l). { unfold terminator in T. destruct (rev l) as [|x r] eqn:R; [discriminate|]. destruct (is_terminator x); [|discriminate]. injection T as ->. apply in_rev. rewrite R. left. reflexivity. }
    pose proof (A t I) as U. unfold unskippable in U. unfold successors. destruct (i_code t); try reflexivity; destruct U.
  Qed.

  Lemma straight_tame n s : compare w fl fr n = Some (true, s) -> tame s.
  Proof.
    unfold compare. destruct (_ && _) eqn:SG; [|discriminate].
    assert (HA : f_args fl = f_args fr) by (apply andb_true_iff in SG; apply Nat.eqb_eq, SG).
    destruct (cmp_args w fl fr n (f_args fl) 0 start) as [[[|] s0]|] eqn:A; try discriminate.
    assert (C0 : Calm s0) by (eapply cmp_args_calm; [|exact A]; constructor; try reflexivity; [intros e []|discriminate]).
    destruct (walk w fl fr n [(entry fl, entry fr)] [entry fl] s0) as [[[|] s1]|] eqn:B; try discriminate.
    assert (C1 : Calm s1).
    { destruct n as [|n]; [discriminate|]. cbn [walk] in B. destruct (cmp_values w fl fr n (VBlock (entry fl)) (VBlock (entry fr)) s0) as [[[|] s2]|] eqn:X; try discriminate.
      assert (C2 : Calm s2).
      { pose proof (args_ok w fl fr HA (S n) (f_args fl) 0 start s0 (start_started fl fr HA) A) as ST. cbn [Nat.add] in ST.
        destruct ST as [g1 [g2 g2'] g3 [g4 g4'] g5]. destruct n as [|n]; [discriminate|]. cbn [cmp_values] in X. destruct g3 as [c1 c2 c3 c4 c5 c6 c7]. rewrite c1, c2, c3, c4 in X. cbn [mem existsb andb orb] in X.
        assert (R : forall left b, replacement w fl fr left (VBlock b) s0 = (None, s0)) by (intros [|] b; unfold replacement; cbn; [rewrite g4|rewrite g4']; reflexivity).
        rewrite !R in X. cbn [cmp_base] in X. unfold cmp_numbered, number in X.
        assert (N : forall left b, dget (sn left s0) (VBlock b) = None) by (intros left b; destruct (dget (sn left s0) (VBlock b)) as [x|] eqn:Q; [apply g1 in Q; destruct Q; discriminate|reflexivity]).
        pose proof (N true (entry fl)) as NL. pose proof (N false (entry fr)) as NR. cbn [sn] in NL, NR. rewrite NL, NR, g2, g2', Nat.eqb_refl in X.
        rewrite (dset_new (snL s0)), (dset_new (snR s0)) in X by assumption. rewrite app_length, g2 in X. cbn in X. rewrite Nat.add_1_r, Nat.eqb_refl in X. injection X as <-.
        destruct C0. constructor; auto. }
      destruct (straight_block fl SL) as [l [EL [IL TL]]]. destruct (straight_block fr SR) as [l' [EL' [IL' TL']]]. rewrite EL, EL' in B.
      destruct (cmp_blocks w fl fr n (entry fl) (entry fr) false false l l' s2) as [[[|] s3]|] eqn:Y; try discriminate.
      assert (C3 : Calm s3) by (eapply cmp_blocks_calm; [exact IL|exact IL'|exact C2|exact Y]).
      destruct (terminator l) as [t|]; [|discriminate]. destruct (terminator l') as [t'|]; [|discriminate]. rewrite (TL t eq_refl) in B. cbn [length push] in B.
      destruct (0 =? _); [|discriminate]. destruct n; [discriminate|]. cbn [walk] in B. injection B as <-. exact C3. }
    rewrite (z_reloc _ C1), (z_phis _ C1). cbn [cmp_phis length Nat.eqb]. intros H. injection H as <-. rewrite (z_phis _ C1). cbn. apply (z_log _ C1).
  Qed.
End Straight.
