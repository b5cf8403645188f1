(** * A copy of a function is found equal *)
From Coq Require Import String Ascii ZArith Arith Bool Lia List.
From Verif Require Import PyBase Funcomp_Model Funcomp_Spec Funcomp_Log Funcomp_Reloc Funcomp_Inv Funcomp_Visit Funcomp_Walk Funcomp_Fuel.
Import ListNotations.
Open Scope list_scope.
Open Scope nat_scope.

(** From some number of steps on. *)
Definition ev (P : nat -> Prop) : Prop := exists N, forall n, N <= n -> P n.
Lemma ev_and (P Q : nat -> Prop) : ev P -> ev Q -> ev (fun n => P n /\ Q n).
Proof. intros [a A] [b B]. exists (a + b). intros n L. split; [apply A|apply B]; lia. Qed.
Lemma ev_imp (P Q : nat -> Prop) : (forall n, P n -> Q n) -> ev P -> ev Q.
Proof. intros I [a A]. exists a. auto. Qed.
Lemma ev_all (P : nat -> Prop) : (forall n, P n) -> ev P.
Proof. intros H. exists 0. auto. Qed.
Lemma ev_S (P : nat -> Prop) : ev (fun n => P (S n)) -> ev P.
Proof. intros [a A]. exists (S a). intros [|n] L; [lia|]. apply A. lia. Qed.

Section Copy.
  Variable w : world.
  Variables fl fr : func.
  Variables reg blk : nat -> nat.
  Hypothesis WL : well_formed fl.
  Hypothesis WR : well_formed fr.
  Hypothesis CP : copy reg blk fl fr.
  Hypothesis same_rest_refl : forall r, same_rest w r r = true.
  Hypothesis same_const_refl : forall c, same_const w c c = true.
  Hypothesis safe_cast_copy : forall i, In i (insts fl) -> safe_cast w (rename_inst reg blk i) = safe_cast w i.
  Hypothesis all_reached : forall b c, reach fl c -> edge fl b c -> reach fl b.
  Notation ri := (rename_inst reg blk).
  Notation rv := (rename_value reg blk).

  Lemma reg_inj x y : reg x = reg y -> x = y. Proof. apply CP. Qed.
  Lemma blk_inj x y : blk x = blk y -> x = y. Proof. apply CP. Qed.
  Lemma rv_inj u v : rv u = rv v -> u = v.
  Proof. destruct u, v; cbn; intros H; try discriminate; injection H as H; f_equal; auto using reg_inj, blk_inj. Qed.
  Lemma eqb_rv u v : eqb (rv u) (rv v) = eqb u v.
  Proof. destruct (eqb_spec u v) as [->|N]; [destruct (eqb_spec (rv v) (rv v)); congruence|]. destruct (eqb_spec (rv u) (rv v)) as [Q|_]; [apply rv_inj in Q; contradiction|reflexivity]. Qed.

  Definition mir {X} (g : X -> X) (d : dict value X) : dict value X := map (fun kv => (rv (fst kv), g (snd kv))) d.
  Lemma dget_mir {X} (g : X -> X) d v : dget (mir g d) (rv v) = option_map g (dget d v).
  Proof. induction d as [|[k x] d IH]; [reflexivity|]. cbn [mir map dget fst snd]. rewrite eqb_rv. destruct (eqb v k); [reflexivity|exact IH]. Qed.
  Lemma dset_mir {X} (g : X -> X) d v x : dset (mir g d) (rv v) (g x) = mir g (dset d v x).
  Proof. induction d as [|[k y] d IH]; [reflexivity|]. cbn [mir map dset fst snd]. rewrite eqb_rv. destruct (eqb v k); [reflexivity|]. cbn [map fst snd]. f_equal. exact IH. Qed.
  Lemma dmem_mir {X} (g : X -> X) d v : dmem (mir g d) (rv v) = dmem d v.
  Proof. unfold dmem. rewrite dget_mir. destruct (dget d v); reflexivity. Qed.
  Notation mirn := (mir (fun k : nat => k)).
  Lemma dget_mirn d v : dget (mirn d) (rv v) = dget d v.
  Proof. rewrite dget_mir. destruct (dget d v); reflexivity. Qed.
  Lemma number_mir d v : number (mirn d) (rv v) = (fst (number d v), mirn (snd (number d v))).
  Proof.
    unfold number. rewrite dget_mirn. destruct (dget d v); cbn [fst snd]; [reflexivity|]. assert (L : length (mirn d) = length d) by apply map_length. rewrite L.
    rewrite (dset_mir (fun k => k) d v (length d)). reflexivity.
  Qed.

  (** The code that can be reached, and its copies. *)
  Definition real_inst (i : inst) : Prop := exists b l, reach fl b /\ dget (f_blocks fl) b = Some l /\ In i l /\ is_debug i = false.
  Definition kept (r : nat) (i : inst) : Prop := find_inst fl r = Some i /\ find_inst fr (reg r) = Some (ri i) /\ real_inst i.
  Inductive sc : value -> Prop :=
  | sc_reg r i : kept r i -> (clear w i = true -> sc (op 0 i)) -> sc (VReg r)
  | sc_other v : is_reg v = false -> sc v.

  Lemma real_kept i : real_inst i -> kept (i_reg i) i.
  Proof.
    intros R. pose proof R as [b [l [RB [G [I D]]]]]. split; [eapply (get_find fl WL); eauto|]. split; [|exact R].
    destruct CP as [_ [_ [_ [_ [_ C]]]]]. destruct (C b l G) as [l' [G' E]].
    assert (I' : In (ri i) (real l')) by (rewrite E; apply in_map; apply filter_In; rewrite D; auto).
    apply filter_In in I'. destruct I' as [I' _]. exact (get_find fr WR _ l' (ri i) G' I').
  Qed.
  Lemma op0_ri i : op 0 (ri i) = rv (op 0 i).
  Proof. unfold op. cbn. destruct (i_ops i); reflexivity. Qed.
  Lemma is_phi_ri i : is_phi (ri i) = is_phi i.
  Proof. unfold is_phi. cbn. destruct (i_code i); reflexivity. Qed.
  Lemma is_debug_ri i : is_debug (ri i) = is_debug i.
  Proof. unfold is_debug. cbn. destruct (i_code i); reflexivity. Qed.
  Lemma zero_gep_ri i : zero_gep (ri i) = zero_gep i.
  Proof.
    unfold zero_gep. cbn. destruct (i_code i); try reflexivity. cbn. destruct (i_ops i) as [|v vs]; [reflexivity|]. cbn.
    induction vs as [|u vs IH]; [reflexivity|]. cbn. rewrite IH. f_equal. destruct u; reflexivity.
  Qed.

  (** Everything that can be used is defined in such code. *)
  Definition plainreg (r : nat) : Prop := forall d, find_inst fl r = Some d -> is_debug d = false.
  Lemma scope_prefix av b l : reach fl b -> dget (f_blocks fl) b = Some l -> (forall r, In r (av b) -> plainreg r -> sc (VReg r)) ->
    (forall l1 i l2, l = l1 ++ i :: l2 -> is_phi i = false -> incl (regs (i_ops i)) (av b ++ defs l1)) ->
    forall n l1 l2, length l1 <= n -> l = l1 ++ l2 -> forall r, In r (av b ++ defs l1) -> plainreg r -> sc (VReg r).
  Proof.
    intros RB G A O. induction n as [|n IH]; intros l1 l2 LE E r I N.
    - destruct l1; [|cbn in LE; lia]. rewrite app_nil_r in I. auto.
    - destruct l1 as [|x l1'] using rev_ind; [rewrite app_nil_r in I; auto|]. clear IHl1'. rewrite app_length in LE. cbn in LE.
      unfold defs in I. rewrite map_app, app_assoc in I. apply in_app_or in I. rewrite <- app_assoc in E.
      destruct I as [I|[<-|[]]]; [eapply (IH l1' ([x] ++ l2)); eauto; lia|]. cbn in E.
      assert (IX : In x l) by (rewrite E; apply in_or_app; right; left; reflexivity).
      pose proof (get_find fl WL b l x G IX) as F. assert (R : real_inst x) by (exists b, l; auto).
      apply (sc_reg _ x); [apply real_kept; exact R|]. intros C. destruct (clear_kind w x C) as [P _].
      destruct (op 0 x) as [a|c|c|k] eqn:OP; try (apply sc_other; reflexivity).
      assert (IO : In (VReg c) (i_ops x)) by (destruct (op0_cases x) as [Q|Q]; rewrite OP in Q; [exact Q|discriminate]).
      eapply (IH l1' (x :: l2)); [lia|exact E| |].
      + apply (O l1' x l2 E P). apply In_regs. exact IO.
      + intros d F'. apply (wf_operands _ WL x (VReg c) (get_insts fl b l x G IX) IO d F').
  Qed.
  Lemma scope_block av : ssa fl av -> forall b, reach fl b -> forall r, In r (av b) -> plainreg r -> sc (VReg r).
  Proof.
    intros [A0 A] b RB. induction RB as [|b c RB IH E]; intros r I N; [rewrite A0 in I; destruct I|].
    destruct (reach_get fl WL b RB) as [l G]. destruct (A b l RB G) as [A1 [_ [_ [A4 _]]]].
    eapply (scope_prefix av b l RB G IH A4 (length l) l []); [lia|symmetry; apply app_nil_r| |exact N]. apply (A1 c E). exact I.
  Qed.
  (** The operands of such code. *)
  Lemma scope_operand i v : real_inst i -> is_phi i = false -> In v (i_ops i) -> sc v.
  Proof.
    intros [b [l [RB [G [I D]]]]] P V. destruct (wf_ssa _ WL) as [av SA].
    destruct v as [a|r|c|k]; try (apply sc_other; reflexivity).
    destruct (in_split _ _ I) as [l1 [l2 E]]. pose proof SA as [_ A]. destruct (A b l RB G) as [_ [_ [_ [A4 _]]]].
    eapply (scope_prefix av b l RB G (scope_block av SA b RB) A4 (length l1) l1 (i :: l2)); [lia|exact E| |].
    - apply (A4 l1 i l2 E P). apply In_regs. exact V.
    - intros d F. apply (wf_operands _ WL i (VReg r) (get_insts fl b l i G I) V d F).
  Qed.
  Lemma scope_self i : real_inst i -> sc (VReg (i_reg i)).
  Proof.
    intros R. apply (sc_reg _ i); [apply real_kept; exact R|]. intros C. destruct (clear_kind w i C) as [P _].
    destruct (op0_cases i) as [Q|Q]; [eapply scope_operand; eauto|rewrite Q; apply sc_other; reflexivity].
  Qed.
  Lemma scope_phi p v b : real_inst p -> is_phi p = true -> In (v, b) (incoming p) -> sc v /\ reach fl b.
  Proof.
    intros [c [l [RC [G [I D]]]]] P V. assert (exists from, i_code p = Phi from) as [from K] by (unfold is_phi in P; destruct (i_code p); try discriminate; eauto).
    destruct (wf_phis _ WL c l p from G I K) as [L [N [FR _]]].
    assert (V' := V). unfold incoming in V'. rewrite K in V'. pose proof (in_combine_l _ _ _ _ V') as IV. apply in_combine_r in V'. apply FR in V'.
    assert (RB : reach fl b) by (eapply all_reached; eauto). split; [|exact RB].
    destruct v as [a|r|x|k]; try (apply sc_other; reflexivity). destruct (wf_ssa _ WL) as [av SA]. destruct (reach_get fl WL b RB) as [lb GB]. pose proof SA as [_ A].
    destruct (A b lb RB GB) as [_ [_ [_ [A4 A5]]]].
    eapply (scope_prefix av b lb RB GB (scope_block av SA b RB) A4 (length lb) lb []); [lia|symmetry; apply app_nil_r| |].
    - apply (A5 c l p (VReg r) V' G I P V). left. reflexivity.
    - intros d F. apply (wf_operands _ WL p (VReg r) (get_insts fl c l p G I) IV d F).
  Qed.

  (** ** The state while a copy is compared *)
  Record Mir (s : state) : Prop := mkMir {
    m_sn : snR s = mirn (snL s);
    m_seq : map snd (snL s) = seq 0 (length (snL s));
    m_repl : replR s = mir rv (replL s);
    m_replL : forall v u, dget (replL s) v = Some u -> exists r i, v = VReg r /\ kept r i /\ clear w i = true /\ u = op 0 i;
    m_calm : calm s;
    m_phis : forall p q, In (p, q) (phis s) -> q = ri p /\ is_phi p = true /\ real_inst p }.
  Definition later (s s' : state) : Prop := forall v, dmem (snL s) v = true -> dmem (snL s') v = true.
  Lemma later_trans s1 s2 s3 : later s1 s2 -> later s2 s3 -> later s1 s3.
  Proof. unfold later. auto. Qed.
  Lemma mir_note e s : Mir s -> Mir (note e s).
  Proof. intros [a b c d [e1 e2 e3 e4 e5 e6 e7] f]. constructor; auto. constructor; assumption. Qed.

  Lemma replacement_copy v s : sc v -> Mir s -> exists x s1 s2, replacement w fl fr true v s = (x, s1) /\ replacement w fl fr false (rv v) s1 = (option_map rv x, s2) /\
    Mir s2 /\ snL s2 = snL s /\ forall u, x = Some u -> exists r i, v = VReg r /\ kept r i /\ clear w i = true /\ u = op 0 i.
  Proof.
    intros SC M. unfold replacement at 1. cbn [repl]. destruct (dget (replL s) v) as [u|] eqn:G.
    { exists (Some u), s, s. split; [reflexivity|]. split; [|split; [exact M|split; [reflexivity|]]].
      - unfold replacement. cbn [repl]. rewrite (m_repl _ M), dget_mir, G. reflexivity.
      - intros u' E. injection E as <-. apply (m_replL _ M). exact G. }
    assert (GR : dget (replR s) (rv v) = None) by (rewrite (m_repl _ M), dget_mir, G; reflexivity).
    inversion SC as [r i [F [F' R]] CL|v' NR]; subst.
    2:{ assert (Q : inst_of fl v = None) by (destruct v; try discriminate; reflexivity). assert (Q' : inst_of fr (rv v) = None) by (destruct v; try discriminate; reflexivity).
        cbn [fn]. rewrite Q. exists None, s, s. split; [reflexivity|]. split; [|split; [exact M|split; [reflexivity|discriminate]]].
        unfold replacement. cbn [repl fn]. rewrite GR, Q'. reflexivity. }
    cbn [fn inst_of]. rewrite F. set (cast := match i_code i with Cast true => safe_cast w i | _ => false end).
    set (s1 := if cast then put_repl true (VReg r) (op 0 i) s else s).
    assert (CAST : match i_code (ri i) with Cast true => safe_cast w (ri i) | _ => false end = cast).
    { unfold cast. cbn [i_code rename_inst]. destruct (i_code i) as [| | | | |[|]| | | | | | | | |]; try reflexivity. cbn. apply safe_cast_copy. destruct R as [b [l [_ [GB [I _]]]]]. eapply get_insts; eauto. }
    assert (REG : is_reg (op 0 (ri i)) = is_reg (op 0 i)) by (rewrite op0_ri; destruct (op 0 i); reflexivity).
    assert (S1 : snL s1 = snL s /\ snR s1 = snR s /\ replR s1 = replR s) by (unfold s1, put_repl; cbn [repl]; unfold dmem; rewrite G; destruct cast; auto).
    destruct S1 as [S1 [S2 S3]].
    set (c := (cast || zero_gep i) && (negb (is_reg (op 0 i)) || dmem (snL s) (op 0 i))).
    exists (if c then Some (op 0 i) else None), s1, (if cast then put_repl false (VReg (reg r)) (op 0 (ri i)) s1 else s1).
    split; [cbn [sn]; fold c; destruct c; reflexivity|]. split.
    { unfold replacement. cbn [repl fn inst_of rename_value sn]. rewrite S3. cbn [rename_value] in GR. rewrite GR, F'. rewrite CAST, zero_gep_ri, REG, S2, (m_sn _ M), op0_ri, dmem_mir. fold c.
      destruct c; reflexivity. }
    assert (CLR : cast = true -> clear w i = true) by (unfold cast, clear; destruct (i_code i) as [| | | | |[|]| | | | | | | | |]; auto; discriminate).
    split; [|split].
    - unfold s1. destruct cast eqn:EC; [|exact M]. unfold put_repl. cbn [repl]. unfold dmem. rewrite G. cbn [replL replR set_repl snL]. cbn [rename_value] in GR. rewrite GR.
      destruct M as [a b d e [e1 e2 e3 e4 e5 e6 e7] f]. constructor; auto; cbn [replL replR set_repl].
      + rewrite d, op0_ri. exact (dset_mir rv (replL s) (VReg r) (op 0 i)).
      + intros v u. destruct (eqb_spec v (VReg r)) as [->|N].
        * rewrite dget_dset_same. intros H. injection H as <-. exists r, i. repeat split; auto.
        * rewrite dget_dset_other by exact N. apply e.
      + constructor; assumption.
    - destruct cast; [|exact S1]. unfold put_repl. destruct (dmem (repl false s1) (VReg (reg r))); [exact S1|]. cbn. exact S1.
    - unfold c. intros u. destruct (cast || zero_gep i) eqn:Z; cbn [andb]; [|discriminate]. destruct (negb (is_reg (op 0 i)) || dmem (snL s) (op 0 i)); [|discriminate].
      intros H. injection H as <-. exists r, i. split; [reflexivity|]. split; [split; auto|]. split; [|reflexivity].
      destruct cast eqn:EC; [apply CLR; reflexivity|]. apply clear_gep. exact Z.
  Qed.

  Lemma phi_of_copy v : sc v -> phi_of fr (rv v) = option_map ri (phi_of fl v) /\ forall p, phi_of fl v = Some p -> real_inst p /\ is_phi p = true.
  Proof.
    intros SC. unfold phi_of. inversion SC as [r i [F [F' R]] CL|v' NR]; subst.
    - cbn [inst_of rename_value]. rewrite F, F', is_phi_ri. destruct (is_phi i) eqn:P; split; try reflexivity; try discriminate. intros p Q. injection Q as <-. auto.
    - destruct v; try discriminate; cbn; split; try reflexivity; discriminate.
  Qed.
  Lemma dset_snd (d : dict value nat) v : dget d v = None -> map snd d = seq 0 (length d) -> map snd (dset d v (length d)) = seq 0 (length (dset d v (length d))).
  Proof. intros G E. rewrite dset_new by exact G. rewrite map_app, app_length, E. cbn. rewrite Nat.add_1_r, seq_S. reflexivity. Qed.

  Lemma cmp_base_copy v s : sc v -> Mir s -> exists s', cmp_base w fl fr v (rv v) s = (true, s') /\ Mir s' /\ later s s' /\ (forall c, v = VBlock c -> dmem (snL s') v = true).
  Proof.
    intros SC M. destruct (phi_of_copy v SC) as [PO PR].
    assert (MAIN : exists s', cmp_numbered fl fr v (rv v) s = (true, s') /\ Mir s' /\ later s s' /\ dmem (snL s') v = true).
    { unfold cmp_numbered. rewrite (m_sn _ M), number_mir. destruct (number (snL s) v) as [k sl] eqn:NB. cbn [fst snd]. rewrite Nat.eqb_refl. unfold number in NB.
      destruct (dget (snL s) v) as [k'|] eqn:G.
      - injection NB as <- <-. assert (Q : Nat.eqb (length (snL s)) (S (length (snL s))) = false) by (apply Nat.eqb_neq; lia). rewrite Q.
        eexists. split; [reflexivity|]. split; [|split; [|cbn; unfold dmem; rewrite G; reflexivity]].
        + destruct M as [a b d e [e1 e2 e3 e4 e5 e6 e7] f]. constructor; auto. constructor; assumption.
        + intros x H. exact H.
      - injection NB as <- <-. rewrite (dset_new _ _ _ G), app_length. cbn [length]. rewrite Nat.add_1_r, Nat.eqb_refl.
        assert (M1 : Mir (set_sn s (snL s ++ [(v, length (snL s))]) (mirn (snL s ++ [(v, length (snL s))])) (dset (by_sn s) (length (snL s)) (v, rv v)))).
        { destruct M as [a b d e [e1 e2 e3 e4 e5 e6 e7] f]. constructor; auto; [|constructor; assumption]. cbn [snL set_sn]. rewrite <- (dset_new _ _ _ G). apply dset_snd; assumption. }
        assert (LT : later s (set_sn s (snL s ++ [(v, length (snL s))]) (mirn (snL s ++ [(v, length (snL s))])) (dset (by_sn s) (length (snL s)) (v, rv v)))).
        { intros x H. cbn. rewrite <- (dset_new _ _ _ G). apply dmem_get in H. destruct H as [y H]. apply dmem_get.
          destruct (eqb_spec x v) as [->|N]; [exists (length (snL s)); apply dget_dset_same|exists y; rewrite dget_dset_other by exact N; exact H]. }
        assert (HV : dmem (snL s ++ [(v, length (snL s))]) v = true) by (rewrite <- (dset_new _ _ _ G); apply dmem_get; exists (length (snL s)); apply dget_dset_same).
        rewrite PO. destruct (phi_of fl v) as [p|] eqn:PV; cbn [option_map].
        + eexists. split; [reflexivity|]. split; [|split; [exact LT|exact HV]]. destruct (PR p eq_refl) as [P1 P2].
          destruct M1 as [a b d e [e1 e2 e3 e4 e5 e6 e7] f]. constructor; auto; [constructor; assumption|]. cbn. intros x y I. apply in_app_or in I. destruct I as [I|[I|[]]]; [apply f; exact I|].
          injection I as <- <-. auto.
        + eexists. split; [reflexivity|]. split; [exact M1|split; [exact LT|exact HV]]. }
    destruct MAIN as [s' [M1 [M2 [M3 M4]]]]. destruct v as [a|r|b|k]; cbn [cmp_base rename_value] in *; try (exists s'; split; [exact M1|split; [exact M2|split; [exact M3|intros _ _; exact M4]]]).
    exists s. rewrite same_const_refl. split; [reflexivity|]. split; [exact M|]. split; [intros x H; exact H|discriminate].
  Qed.

  Lemma cmp_values_copy v : sc v -> forall s, Mir s -> exists s', Mir s' /\ later s s' /\ (forall c, v = VBlock c -> dmem (snL s') v = true) /\
    ev (fun n => cmp_values w fl fr n v (rv v) s = Some (true, s')).
  Proof.
    intros SC. induction SC as [r i K CL IH|v NR]; intros s M.
    - assert (SC : sc (VReg r)) by (eapply sc_reg; eauto).
      destruct (replacement_copy (VReg r) s SC M) as [x [s1 [s2 [R1 [R2 [M2 [S2 X]]]]]]].
      assert (CM : forall n, cmp_values w fl fr (S n) (VReg r) (rv (VReg r)) s = match x with None => Some (cmp_base w fl fr (VReg r) (rv (VReg r)) s2) | Some u => cmp_values w fl fr n u (rv u) (note Replaced s2) end).
      { intros n. cbn [cmp_values]. destruct (m_calm _ M) as [c1 c2 c3 c4 c5 c6 c7]. rewrite c1, c2, c3, c4. cbn [mem existsb andb orb]. rewrite R1, R2. destruct x; reflexivity. }
      destruct x as [u|].
      + destruct (X u eq_refl) as [r' [i' [E [K' [C' ->]]]]]. injection E as <-. assert (i' = i) by (destruct K as [K _], K' as [K' _]; congruence). subst i'.
        destruct (IH C' (note Replaced s2) (mir_note _ _ M2)) as [s' [H1 [H2 [H3 H4]]]]. exists s'. split; [exact H1|]. split; [intros y H; apply H2; cbn; rewrite S2; exact H|]. split; [discriminate|].
        apply ev_S. eapply ev_imp; [|exact H4]. intros n H. rewrite CM. exact H.
      + destruct (cmp_base_copy (VReg r) s2 SC M2) as [s' [H1 [H2 [H3 H4]]]]. exists s'. split; [exact H2|]. split; [intros y H; apply H3; rewrite S2; exact H|]. split; [exact H4|].
        apply ev_S, ev_all. intros n. rewrite CM, H1. reflexivity.
    - assert (SC : sc v) by (apply sc_other; exact NR).
      destruct (replacement_copy v s SC M) as [x [s1 [s2 [R1 [R2 [M2 [S2 X]]]]]]].
      destruct x as [u|]; [destruct (X u eq_refl) as [r' [i' [-> _]]]; discriminate|].
      destruct (cmp_base_copy v s2 SC M2) as [s' [H1 [H2 [H3 H4]]]]. exists s'. split; [exact H2|]. split; [intros y H; apply H3; rewrite S2; exact H|]. split; [exact H4|].
      apply ev_S, ev_all. intros n. cbn [cmp_values]. destruct (m_calm _ M) as [c1 c2 c3 c4 c5 c6 c7]. rewrite c1, c2, c3, c4. cbn [mem existsb andb orb]. rewrite R1, R2. cbn [option_map]. rewrite H1. reflexivity.
  Qed.

  (** ** Instructions *)
  Lemma cmp_all_copy vs : (forall v, In v vs -> sc v) -> forall s, Mir s -> exists s', Mir s' /\ later s s' /\ ev (fun n => cmp_all (cmp_values w fl fr n) vs (map rv vs) s = Some (true, s')).
  Proof.
    induction vs as [|v vs IH]; intros A s M; [exists s; split; [exact M|split; [intros x H; exact H|apply ev_all; reflexivity]]|].
    destruct (cmp_values_copy v (A v (or_introl eq_refl)) s M) as [s1 [M1 [L1 [_ E1]]]]. destruct (IH (fun x H => A x (or_intror H)) s1 M1) as [s2 [M2 [L2 E2]]].
    exists s2. split; [exact M2|]. split; [eapply later_trans; eauto|]. eapply ev_imp; [|apply (ev_and _ _ E1 E2)]. intros n [H1 H2]. cbn. rewrite H1. exact H2.
  Qed.
  Lemma cmp_operands_copy i j vs : (forall v, In v vs -> sc v) -> forall k s, Mir s -> exists s', Mir s' /\ later s s' /\ ev (fun n => cmp_operands w (cmp_values w fl fr n) i j k vs (map rv vs) s = Some (true, s')).
  Proof.
    induction vs as [|v vs IH]; intros A k s M; [exists s; split; [exact M|split; [intros x H; exact H|apply ev_all; reflexivity]]|].
    destruct (cmp_values_copy v (A v (or_introl eq_refl)) s M) as [s1 [M1 [L1 [_ E1]]]]. destruct (IH (fun x H => A x (or_intror H)) (S k) s1 M1) as [s2 [M2 [L2 E2]]].
    exists s2. split; [exact M2|]. split; [eapply later_trans; eauto|]. eapply ev_imp; [|apply (ev_and _ _ E1 E2)]. intros n [H1 H2]. cbn. rewrite H1. exact H2.
  Qed.
  Lemma same_kinds_copy vs : same_kinds vs (map rv vs) = true.
  Proof. unfold same_kinds. induction vs as [|v vs IH]; [reflexivity|]. cbn. rewrite IH. destruct v; reflexivity. Qed.
  Lemma same_code_copy c : (match c with Phi _ | Gep _ => False | _ => True end) -> same_code c (rename_code blk c) = true.
  Proof. destruct c as [| | | | |[|]| | | | | | | | |]; cbn; intros H; try contradiction; auto using String.eqb_refl. Qed.
  Lemma now_copy s j : Mir s -> now s j = j.
  Proof. intros M. unfold now. destruct (m_calm _ M) as [c1 c2 c3 c4 c5 c6 c7]. rewrite c6. reflexivity. Qed.

  Lemma cmp_insts_copy i : real_inst i -> forall s, Mir s -> exists s', Mir s' /\ later s s' /\ ev (fun n => cmp_insts w fl fr (cmp_values w fl fr n) i (ri i) s = Some (true, s')).
  Proof.
    intros R s M. unfold cmp_insts. rewrite (now_copy s _ M).
    destruct (is_phi i) eqn:P.
    { exists s. split; [exact M|]. split; [intros x H; exact H|]. apply ev_all. intros n. unfold cmp_operation. rewrite is_phi_ri, P. reflexivity. }
    destruct (cmp_values_copy _ (scope_self i R) s M) as [s1 [M1 [L1 [_ E1]]]].
    assert (OPS : forall v, In v (i_ops i) -> sc v) by (intros v V; eapply scope_operand; eauto).
    assert (BASE : (exists x, i_code i = Gep x) \/ (match i_code i with Phi _ | Gep _ => False | _ => True end)) by (unfold is_phi in P; destruct (i_code i); try discriminate; eauto).
    destruct BASE as [[x G]|NG].
    - (* GEP *)
      assert (O0 : sc (op 0 i)) by (destruct (op0_cases i) as [Q|Q]; [apply OPS; exact Q|rewrite Q; apply sc_other; reflexivity]).
      destruct (cmp_values_copy _ O0 s1 M1) as [s2 [M2 [L2 [_ E2]]]].
      assert (RES : exists s3, Mir s3 /\ later s2 s3 /\ ev (fun n => cmp_operation_base w (cmp_values w fl fr n) i (ri i) s = Some (true, false, s3))).
      { destruct x as [z|].
        - exists s2. split; [exact M2|]. split; [intros y H; exact H|]. eapply ev_imp; [|apply (ev_and _ _ E1 E2)]. intros n [H1 H2]. unfold cmp_operation_base. cbn [rename_inst i_reg i_code].
          cbn [rename_value] in H1. rewrite H1, G. cbn [rename_code]. fold (ri i). rewrite op0_ri, H2, Z.eqb_refl. reflexivity.
        - destruct (cmp_all_copy (i_ops i) OPS s2 M2) as [s3 [M3 [L3 E3]]]. exists s3. split; [exact M3|]. split; [exact L3|].
          eapply ev_imp; [|apply (ev_and _ _ E1 (ev_and _ _ E2 E3))]. intros n [H1 [H2 H3]]. unfold cmp_operation_base. cbn [rename_inst i_reg i_code i_rest i_ops].
          cbn [rename_value] in H1. rewrite H1, G. cbn [rename_code]. fold (ri i). rewrite op0_ri, H2, same_rest_refl, map_length, Nat.eqb_refl, same_kinds_copy. cbn [andb]. rewrite H3. reflexivity. }
      destruct RES as [s3 [M3 [L3 E3]]]. exists s3. split; [exact M3|]. split; [eapply later_trans; [exact L1|eapply later_trans; eauto]|].
      eapply ev_imp; [|exact E3]. intros n H. unfold cmp_operation. rewrite P. cbn [andb]. rewrite H, G. reflexivity.
    - destruct (cmp_operands_copy i (ri i) (i_ops i) OPS 0 s1 M1) as [s2 [M2 [L2 E2]]].
      exists s2. split; [exact M2|]. split; [eapply later_trans; eauto|]. eapply ev_imp; [|apply (ev_and _ _ E1 E2)]. intros n [H1 H2].
      assert (B : cmp_operation_base w (cmp_values w fl fr n) i (ri i) s = Some (true, true, s1)).
      { unfold cmp_operation_base. cbn [rename_inst i_reg i_code i_rest i_ops]. cbn [rename_value] in H1. rewrite H1.
        pose proof (same_code_copy _ NG) as Q. rewrite same_rest_refl, map_length, Nat.eqb_refl, same_kinds_copy.
        destruct (i_code i); try contradiction; cbn [rename_code] in Q |- *; rewrite Q; reflexivity. }
      assert (C : cmp_operation w fl fr (cmp_values w fl fr n) i (ri i) s = Some (true, true, s1)).
      { unfold cmp_operation. rewrite P. cbn [andb]. rewrite B. cbn [rename_inst i_code i_ops i_reg i_rest]. destruct (m_calm _ M1) as [c1 c2 c3 c4 c5 c6 c7].
        destruct (i_code i); try contradiction; cbn [rename_code negb andb]; try reflexivity.
        rewrite c5. destruct (i_ops i) as [|a [|b [|c [|d vs]]]]; reflexivity. }
      rewrite C, (now_copy s1 _ M1). exact H2.
  Qed.

  (** ** Blocks *)
  Lemma real_cons i l : real (i :: l) = if is_debug i then real l else i :: real l.
  Proof. unfold real. cbn. destruct (is_debug i); reflexivity. Qed.
  Definition endsreal (l : list inst) : Prop := forall l0 x, l = l0 ++ [x] -> is_debug x = false.
  Lemma endsreal_tl i l : endsreal (i :: l) -> endsreal l.
  Proof. intros E l0 x ->. apply (E (i :: l0) x). reflexivity. Qed.
  Lemma endsreal_nil l : endsreal l -> real l = [] -> l = [].
  Proof.
    intros E R. destruct l as [|x l0] using rev_ind; [reflexivity|]. exfalso. pose proof (E l0 x eq_refl) as D.
    assert (I : In x (real (l0 ++ [x]))) by (apply filter_In; split; [apply in_or_app; right; left; reflexivity|rewrite D; reflexivity]). rewrite R in I. destruct I.
  Qed.
  Lemma cmp_blocks_copy b c m : forall pl pr s, length pl + length pr <= m -> endsreal pl -> endsreal pr -> real pr = map ri (real pl) -> (forall i, In i pl -> is_debug i = false -> real_inst i) -> Mir s ->
    exists s', Mir s' /\ later s s' /\ ev (fun n => cmp_blocks w fl fr n b c false false pl pr s = Some (true, s')).
  Proof.
    assert (NIL : forall pr s, endsreal pr -> real pr = [] -> Mir s -> exists s', Mir s' /\ later s s' /\ ev (fun n => cmp_blocks w fl fr n b c false false [] pr s = Some (true, s'))).
    { intros pr s EN E M. rewrite (endsreal_nil pr EN E). exists s. split; [exact M|]. split; [intros x H; exact H|]. apply ev_S, ev_all. reflexivity. }
    induction m as [|m IH]; intros pl pr s LE EL ER E A M.
    { destruct pl; cbn in LE; [|lia]. apply NIL; assumption. }
    destruct pl as [|i pl]; [apply NIL; assumption|]. cbn in LE.
    rewrite real_cons in E. destruct (is_debug i) eqn:DI.
    { destruct pr as [|j pr].
      { exfalso. pose proof (endsreal_nil (i :: pl) EL) as Q. rewrite real_cons, DI in Q. cbn in E. symmetry in E. apply map_eq_nil in E. specialize (Q E). discriminate. }
      destruct (IH pl (j :: pr) s ltac:(cbn in *; lia) (endsreal_tl _ _ EL) ER E (fun x H => A x (or_intror H)) M) as [s' [M' [L' E']]]. exists s'. split; [exact M'|]. split; [exact L'|].
      apply ev_S. eapply ev_imp; [|exact E']. intros n H. cbn [cmp_blocks]. rewrite DI. exact H. }
    destruct pr as [|j pr]; [discriminate|]. rewrite real_cons in E. destruct (is_debug j) eqn:DJ.
    { destruct (IH (i :: pl) pr s ltac:(cbn in *; lia) EL (endsreal_tl _ _ ER) ltac:(rewrite real_cons, DI; exact E) A M) as [s' [M' [L' E']]]. exists s'. split; [exact M'|]. split; [exact L'|].
      apply ev_S. eapply ev_imp; [|exact E']. intros n H. cbn [cmp_blocks]. rewrite DI, DJ. exact H. }
    cbn [map] in E. injection E as -> E.
    destruct (cmp_insts_copy i (A i (or_introl eq_refl) DI) s M) as [s1 [M1 [L1 E1]]].
    destruct (IH pl pr s1 ltac:(cbn in *; lia) (endsreal_tl _ _ EL) (endsreal_tl _ _ ER) E (fun x H => A x (or_intror H)) M1) as [s' [M' [L' E']]].
    exists s'. split; [exact M'|]. split; [eapply later_trans; eauto|]. apply ev_S. eapply ev_imp; [|apply (ev_and _ _ E1 E')]. intros n [H1 H2].
    cbn [cmp_blocks]. rewrite DI, DJ, H1. destruct (m_calm _ M1) as [c1 c2 c3 c4 c5 c6 c7]. rewrite c7. exact H2.
  Qed.

  (** ** The walk *)
  Lemma copy_block b l : reach fl b -> dget (f_blocks fl) b = Some l -> exists l', dget (f_blocks fr) (blk b) = Some l' /\ real l' = map ri (real l).
  Proof. intros _ G. destruct CP as [_ [_ [_ [_ [_ C]]]]]. apply C. exact G. Qed.
  Lemma ends_real f b l : well_formed f -> dget (f_blocks f) b = Some l -> endsreal l.
  Proof.
    intros W G l0 x E. destruct (wf_ends _ W b l G) as [l1 [t [E' [T _]]]]. rewrite E in E'. apply app_inj_tail in E'. destruct E' as [_ ->].
    unfold is_terminator in T. unfold is_debug. destruct (i_code t); try discriminate; reflexivity.
  Qed.
  Lemma real_snoc l t : is_debug t = false -> real (l ++ [t]) = real l ++ [t].
  Proof. intros D. unfold real. rewrite filter_app. cbn. rewrite D. reflexivity. Qed.
  Lemma terminator_copy b l l' : dget (f_blocks fl) b = Some l -> dget (f_blocks fr) (blk b) = Some l' -> real l' = map ri (real l) ->
    exists t, terminator l = Some t /\ terminator l' = Some (ri t).
  Proof.
    intros G G' E. destruct (wf_ends _ WL b l G) as [l0 [t [-> [T _]]]]. destruct (wf_ends _ WR _ l' G') as [l0' [t' [-> [T' _]]]].
    rewrite (real_snoc l0 t) in E by (apply (ends_real fl b _ WL G l0 t eq_refl)). rewrite (real_snoc l0' t') in E by (apply (ends_real fr _ _ WR G' l0' t' eq_refl)).
    rewrite map_app in E. apply app_inj_tail in E. destruct E as [_ ->].
    exists t. unfold terminator. rewrite !rev_app_distr. cbn [rev app]. rewrite T, T'. auto.
  Qed.
  Lemma blocks_of_copy vs : blocks_of (map rv vs) = map blk (blocks_of vs).
  Proof. unfold blocks_of. induction vs as [|v vs IH]; [reflexivity|]. cbn. rewrite IH, map_app. destruct v; reflexivity. Qed.
  Lemma successors_copy t : successors (ri t) = map blk (successors t).
  Proof. unfold successors. cbn. destruct (i_code t); cbn; try reflexivity; rewrite blocks_of_copy; [symmetry; apply map_rev|reflexivity]. Qed.
  Lemma push_copy ls : forall stack visited stack2 visited2, push ls (map blk ls) stack visited = (stack2, visited2) ->
    (forall x y, In (x, y) stack2 <-> In (x, y) stack \/ (y = blk x /\ In x ls /\ ~ In x visited)) /\
    (forall x, In x visited2 <-> In x visited \/ In x ls) /\ (NoDup visited -> NoDup visited2) /\ length stack2 + length visited = length stack + length visited2.
  Proof.
    induction ls as [|l ls IH]; intros stack visited stack2 visited2; cbn [push map].
    - intros H. injection H as <- <-. split; [intros x y; cbn; tauto|]. split; [intros x; cbn; tauto|]. split; [auto|reflexivity].
    - destruct (mem l visited) eqn:ML; intros H.
      + apply mem_In in ML. destruct (IH _ _ _ _ H) as [P1 [P2 [P3 P4]]]. split; [|split; [|split; [exact P3|exact P4]]].
        * intros x y. rewrite P1. cbn. split; [intros [Q|[Q1 [Q2 Q3]]]; tauto|]. intros [Q|[Q1 [[Q2|Q2] Q3]]]; [tauto|subst; contradiction|tauto].
        * intros x. rewrite P2. cbn. split; [tauto|]. intros [Q|[Q|Q]]; [tauto|subst; tauto|tauto].
      + apply mem_not_In in ML. destruct (IH _ _ _ _ H) as [P1 [P2 [P3 P4]]]. split; [|split; [|split]].
        * intros x y. rewrite P1. cbn. split.
          -- intros [[Q|Q]|[Q1 [Q2 Q3]]]; [injection Q as <- <-; auto|tauto|]. right. split; [exact Q1|]. split; [tauto|]. tauto.
          -- intros [Q|[-> [[<-|Q2] Q3]]]; [tauto|left; left; reflexivity|]. destruct (Nat.eq_dec l x) as [<-|N]; [left; left; reflexivity|]. right. split; [reflexivity|]. split; [exact Q2|]. intros [Q|Q]; tauto.
        * intros x. rewrite P2. cbn. tauto.
        * intros N. apply P3. constructor; assumption.
        * cbn in P4. lia.
  Qed.

  Record Going (stack : list (nat * nat)) (visited : list nat) (s : state) : Prop := mkGoing {
    g_mir : Mir s;
    g_nodup : NoDup visited;
    g_visited : forall b, In b visited -> reach fl b /\ ((exists c, In (b, c) stack) \/ (dmem (snL s) (VBlock b) = true /\ forall c, edge fl b c -> In c visited));
    g_stack : forall b c, In (b, c) stack -> c = blk b /\ In b visited;
    g_entry : In (entry fl) visited }.
  Lemma reach_key b : reach fl b -> In b (dkeys (f_blocks fl)).
  Proof. intros R. destruct (reach_get fl WL b R) as [l G]. apply dget_In in G. unfold dkeys. apply in_map_iff. exists (b, l). auto. Qed.

  Lemma walk_copy m : forall stack visited s, Going stack visited s -> 2 * (length (dkeys (f_blocks fl)) - length visited) + length stack <= m ->
    exists s' visited', Going [] visited' s' /\ ev (fun n => walk w fl fr n stack visited s = Some (true, s')).
  Proof.
    assert (BASE : forall visited s, Going [] visited s -> exists s' visited', Going [] visited' s' /\ ev (fun n => walk w fl fr n [] visited s = Some (true, s'))).
    { intros visited s G. exists s, visited. split; [exact G|]. apply ev_S, ev_all. reflexivity. }
    induction m as [|m IH]; intros stack visited s G LE.
    { destruct stack; [|cbn in LE; lia]. apply BASE. exact G. }
    destruct stack as [|[b b'] stack]; [apply BASE; exact G|].
    destruct (g_stack _ _ _ G b b' (or_introl eq_refl)) as [-> VB]. destruct (g_visited _ _ _ G b VB) as [RB _].
    destruct (reach_get fl WL b RB) as [l GL]. destruct (copy_block b l RB GL) as [l' [GL' EL]].
    destruct (terminator_copy b l l' GL GL' EL) as [t [T T']].
    destruct (cmp_values_copy (VBlock b) (sc_other (VBlock b) eq_refl) s (g_mir _ _ _ G)) as [s1 [M1 [L1 [N1 E1]]]]. specialize (N1 b eq_refl).
    destruct (cmp_blocks_copy b (blk b) (length l + length l') l l' s1 (le_n _) (ends_real fl b l WL GL) (ends_real fr _ l' WR GL') EL) as [s2 [M2 [L2 E2]]]; [|exact M1|].
    { intros i I D. exists b, l. auto. }
    destruct (push (successors t) (map blk (successors t)) stack visited) as [stack2 visited2] eqn:PU.
    destruct (push_copy _ _ _ _ _ PU) as [P1 [P2 [P3 P4]]].
    assert (ED : forall c, edge fl b c <-> In c (successors t)).
    { intros c. split; [intros [l1 [t1 [Q1 [Q2 Q3]]]]; congruence|intros Q; exists l, t; auto]. }
    assert (G2 : Going stack2 visited2 s2).
    { constructor; [exact M2|apply P3; apply (g_nodup _ _ _ G)| | |apply P2; left; apply (g_entry _ _ _ G)].
      - intros x X. apply P2 in X. destruct X as [X|X].
        + destruct (g_visited _ _ _ G x X) as [RX [[c [C|C]]|[C1 C2]]]; (split; [exact RX|]).
          * injection C as <- <-. right. split; [apply L2; exact N1|]. intros c C. apply P2. right. apply ED. exact C.
          * left. exists c. apply P1. left. exact C.
          * right. split; [apply L2, L1; exact C1|]. intros c C. apply P2. left. apply C2. exact C.
        + split; [eapply reach_step; [exact RB|apply ED; exact X]|]. destruct (in_dec Nat.eq_dec x visited) as [V|V].
          * destruct (g_visited _ _ _ G x V) as [RX [[c [C|C]]|[C1 C2]]].
            -- injection C as <- <-. right. split; [apply L2; exact N1|]. intros c C. apply P2. right. apply ED. exact C.
            -- left. exists c. apply P1. left. exact C.
            -- right. split; [apply L2, L1; exact C1|]. intros c C. apply P2. left. apply C2. exact C.
          * left. exists (blk x). apply P1. right. auto.
      - intros x y XY. apply P1 in XY. destruct XY as [XY|[-> [X _]]].
        + destruct (g_stack _ _ _ G x y (or_intror XY)) as [Q1 Q2]. split; [exact Q1|apply P2; left; exact Q2].
        + split; [reflexivity|apply P2; right; exact X]. }
    assert (LV : length visited2 <= length (dkeys (f_blocks fl))).
    { apply NoDup_incl_length; [apply (g_nodup _ _ _ G2)|]. intros x X. apply reach_key. apply (g_visited _ _ _ G2 x X). }
    assert (VV : length visited <= length visited2) by (apply NoDup_incl_length; [apply (g_nodup _ _ _ G)|intros x X; apply P2; left; exact X]).
    assert (MEAS : 2 * (length (dkeys (f_blocks fl)) - length visited2) + length stack2 <= m) by (cbn [length] in LE; lia).
    destruct (IH stack2 visited2 s2 G2 MEAS) as [s' [v' [G' E']]].
    exists s', v'. split; [exact G'|]. apply ev_S. eapply ev_imp; [|apply (ev_and _ _ E1 (ev_and _ _ E2 E'))]. intros n [H1 [H2 H3]].
    cbn [walk]. cbn [rename_value] in H1. rewrite H1. rewrite (block_get _ _ _ GL), (block_get _ _ _ GL'), H2, T, T', (now_copy s2 _ M2), successors_copy, map_length, Nat.eqb_refl, PU. exact H3.
  Qed.

  Lemma all_numbered visited s : Going [] visited s -> forall b, reach fl b -> dmem (snL s) (VBlock b) = true.
  Proof.
    intros G. assert (V : forall b, reach fl b -> In b visited).
    { intros b R. induction R as [|b c R IH E]; [apply (g_entry _ _ _ G)|]. destruct (g_visited _ _ _ G b IH) as [_ [[x []]|[_ Q]]]. apply Q. exact E. }
    intros b R. destruct (g_visited _ _ _ G b (V b R)) as [_ [[x []]|[Q _]]]. exact Q.
  Qed.

  (** ** PHI nodes *)
  Lemma seq_inj (d : dict value nat) : map snd d = seq 0 (length d) -> forall v v' k, dget d v = Some k -> dget d v' = Some k -> v = v'.
  Proof.
    intros E v v' k H H'. apply dget_In in H. apply dget_In in H'. apply In_nth_error in H. apply In_nth_error in H'. destruct H as [a A], H' as [a' A'].
    assert (N : forall x u, nth_error d x = Some (u, k) -> x = k).
    { intros x u Q. pose proof (map_nth_error snd x d Q) as Q'. rewrite E in Q'. cbn in Q'. assert (x < length d) by (apply nth_error_Some; congruence).
      rewrite nth_error_nth' with (d := 0) in Q' by (rewrite seq_length; assumption). rewrite seq_nth in Q' by assumption. injection Q' as Q'. lia. }
    assert (a = a') by (rewrite (N _ _ A), (N _ _ A'); reflexivity). subst a'. congruence.
  Qed.

  Definition rin (e : value * nat) : value * nat := (rv (fst e), blk (snd e)).
  Lemma incoming_copy p : incoming (ri p) = map rin (incoming p).
  Proof.
    unfold incoming. cbn. destruct (i_code p); cbn; try reflexivity. generalize from as bs. induction (i_ops p) as [|v vs IH]; intros [|c bs]; cbn; try reflexivity. f_equal. apply IH.
  Qed.
  Definition numbered (s : state) : Prop := forall b, reach fl b -> dmem (snL s) (VBlock b) = true.
  Lemma cmp_incoming_copy v b l : sc v -> reach fl b -> forall s, Mir s -> numbered s -> (forall u c, In (u, c) l -> reach fl c) -> In (v, b) l -> NoDup (map snd l) ->
    exists s', Mir s' /\ later s s' /\ ev (fun n => cmp_incoming w fl fr n v b (map rin l) s = Some (true, s')).
  Proof.
    intros SC RB. induction l as [|[u c] l IH]; intros s M NU AL IN ND; [destruct IN|].
    pose proof (NU b RB) as DB. apply dmem_get in DB. destruct DB as [x X]. pose proof (NU c (AL u c (or_introl eq_refl))) as DC. apply dmem_get in DC. destruct DC as [y Y].
    assert (YR : dget (snR s) (VBlock (blk c)) = Some y) by (rewrite (m_sn _ M); exact (eq_trans (dget_mirn (snL s) (VBlock c)) Y)).
    assert (ST : set_sn s (snL s) (snR s) (by_sn s) = s) by (destruct s; reflexivity).
    assert (STEP : forall n, cmp_incoming w fl fr n v b (map rin ((u, c) :: l)) s =
       if Nat.eqb x y then match cmp_values w fl fr n v (rv u) s with Some (false, s2) => cmp_incoming w fl fr n v b (map rin l) (note Phi_value_differs s2) | z => z end
       else cmp_incoming w fl fr n v b (map rin l) s).
    { intros n. cbn [map rin fst snd cmp_incoming]. unfold block_number. rewrite X, YR. rewrite ST. unfold dmem. rewrite X, YR. cbn [andb]. reflexivity. }
    destruct IN as [E|IN].
    - injection E as -> ->. assert (x = y) by congruence. subst y. rewrite Nat.eqb_refl in STEP.
      destruct (cmp_values_copy v SC s M) as [s' [M' [L' [_ E']]]]. exists s'. split; [exact M'|]. split; [exact L'|]. eapply ev_imp; [|exact E']. intros n H. rewrite STEP, H. reflexivity.
    - cbn in ND. inversion ND as [|? ? N1 N2]; subst.
      assert (NE : Nat.eqb x y = false).
      { apply Nat.eqb_neq. intros ->. pose proof (seq_inj _ (m_seq _ M) _ _ _ X Y) as Q. injection Q as ->. apply N1. apply in_map_iff. exists (v, c). auto. }
      rewrite NE in STEP. destruct (IH s M NU (fun u' c' H => AL u' c' (or_intror H)) IN N2) as [s' [M' [L' E']]]. exists s'. split; [exact M'|]. split; [exact L'|].
      eapply ev_imp; [|exact E']. intros n H. rewrite STEP. exact H.
  Qed.
  Lemma cmp_incomings_copy l : (forall v b, In (v, b) l -> sc v /\ reach fl b) -> NoDup (map snd l) -> forall ls, incl ls l -> forall s, Mir s -> numbered s ->
    exists s', Mir s' /\ later s s' /\ ev (fun n => cmp_incomings w fl fr n ls (map rin l) s = Some (true, s')).
  Proof.
    intros A ND. induction ls as [|[v b] ls IH]; intros I s M NU; [exists s; split; [exact M|split; [intros x H; exact H|apply ev_all; reflexivity]]|].
    assert (IV : In (v, b) l) by (apply I; left; reflexivity). destruct (A v b IV) as [SV RB].
    destruct (cmp_incoming_copy v b l SV RB s M NU (fun u c H => proj2 (A u c H)) IV ND) as [s1 [M1 [L1 E1]]].
    destruct (IH (fun e H => I e (or_intror H)) s1 M1 (fun c R => L1 _ (NU c R))) as [s2 [M2 [L2 E2]]].
    exists s2. split; [exact M2|]. split; [eapply later_trans; eauto|]. eapply ev_imp; [|apply (ev_and _ _ E1 E2)]. intros n [H1 H2]. cbn. rewrite H1. exact H2.
  Qed.
  Lemma incoming_nodup p : real_inst p -> NoDup (map snd (incoming p)).
  Proof.
    intros [b [l [RB [G [I D]]]]]. destruct (is_phi p) eqn:P; [|unfold incoming; unfold is_phi in P; destruct (i_code p); try discriminate; constructor].
    assert (exists from, i_code p = Phi from) as [from K] by (unfold is_phi in P; destruct (i_code p); try discriminate; eauto).
    destruct (wf_phis _ WL b l p from G I K) as [L [N _]]. unfold incoming. rewrite K.
    assert (Q : map snd (combine (i_ops p) from) = from). { clear - L. revert from L. generalize (i_ops p). induction l as [|v vs IH]; intros [|c bs] L; cbn in *; try discriminate; [reflexivity|]. f_equal. apply IH. lia. }
    rewrite Q. exact N.
  Qed.
  Lemma cmp_phis_copy l : (forall p q, In (p, q) l -> q = ri p /\ is_phi p = true /\ real_inst p) -> forall s, Mir s -> numbered s ->
    exists s', Mir s' /\ later s s' /\ ev (fun n => cmp_phis w fl fr n l s = Some (true, s')).
  Proof.
    induction l as [|[p q] l IH]; intros A s M NU; [exists s; split; [exact M|split; [intros x H; exact H|apply ev_all; reflexivity]]|].
    destruct (A p q (or_introl eq_refl)) as [-> [P R]].
    destruct (cmp_incomings_copy (incoming p) (fun v b H => scope_phi p v b R P H) (incoming_nodup p R) (incoming p) (incl_refl _) s M NU) as [s1 [M1 [L1 E1]]].
    destruct (IH (fun x y H => A x y (or_intror H)) s1 M1 (fun c C => L1 _ (NU c C))) as [s2 [M2 [L2 E2]]].
    exists s2. split; [exact M2|]. split; [eapply later_trans; eauto|]. eapply ev_imp; [|apply (ev_and _ _ E1 E2)]. intros n [H1 H2]. cbn [cmp_phis]. unfold cmp_phi. rewrite incoming_copy, map_length, Nat.eqb_refl, H1. exact H2.
  Qed.
  Lemma cmp_args_copy k : forall from s, Mir s -> exists s', Mir s' /\ later s s' /\ ev (fun n => cmp_args w fl fr n k from s = Some (true, s')).
  Proof.
    induction k as [|k IH]; intros from s M; [exists s; split; [exact M|split; [intros x H; exact H|apply ev_all; reflexivity]]|].
    destruct (cmp_values_copy (VArg from) (sc_other (VArg from) eq_refl) s M) as [s1 [M1 [L1 [_ E1]]]]. destruct (IH (S from) s1 M1) as [s2 [M2 [L2 E2]]].
    exists s2. split; [exact M2|]. split; [eapply later_trans; eauto|]. eapply ev_imp; [|apply (ev_and _ _ E1 E2)]. intros n [H1 H2]. cbn. cbn [rename_value] in H1. rewrite H1. exact H2.
  Qed.

  Theorem compare_copy : exists N s, forall n, N <= n -> compare w fl fr n = Some (true, s).
  Proof.
    assert (M0 : Mir start) by (constructor; cbn; try reflexivity; try discriminate; [constructor; reflexivity|intros p q []]).
    destruct (cmp_args_copy (f_args fl) 0 start M0) as [s0 [M [_ E0]]].
    assert (G0 : Going [(entry fl, entry fr)] [entry fl] s0).
    { constructor; [exact M|constructor; [intros []|constructor]| | |left; reflexivity].
      - intros b [<-|[]]. split; [constructor|]. left. exists (entry fr). left. reflexivity.
      - intros b c [H|[]]. injection H as <- <-. split; [apply CP|left; reflexivity]. }
    destruct (walk_copy _ _ _ _ G0 (le_n _)) as [s1 [v1 [G1 E1]]].
    destruct (cmp_phis_copy (phis s1) (m_phis _ (g_mir _ _ _ G1)) s1 (g_mir _ _ _ G1) (all_numbered _ _ G1)) as [s2 [M2 [_ E2]]].
    destruct (ev_and _ _ E0 (ev_and _ _ E1 E2)) as [N H]. exists N, (if Nat.eqb (length (phis s1)) (length (phis s2)) then s2 else note Phi_not_compared s2).
    intros n LE. destruct (H n LE) as [H0 [H1 H2]]. unfold compare. destruct CP as [_ [_ [SG [AR _]]]]. rewrite SG, AR, same_rest_refl, Nat.eqb_refl. cbn [andb]. rewrite H0, H1.
    destruct (m_calm _ (g_mir _ _ _ G1)) as [c1 c2 c3 c4 c5 c6 c7]. rewrite c7, H2. reflexivity.
  Qed.
End Copy.
