(** * What is left out by a comparison *)
From Coq Require Import String Ascii ZArith Arith Bool Lia List.
From Verif Require Import PyBase Funcomp_Model Funcomp_Spec Funcomp_Inv Funcomp_Loads.
Import ListNotations.
Open Scope list_scope.
Open Scope nat_scope.

Section Skip.
  Variable w : world.
  Variables fl fr : func.

  Lemma extra_sound left s i : extra_memory fl fr left s i = true -> (i_code i = Load \/ i_code i = Store) /\ extra left (if left then fl else fr) s (address i).
  Proof.
    unfold extra_memory. assert (P : pointer i = address i) by reflexivity.
    assert (K : (match alloca_op (fn fl fr left) i with Some a => mem a (ign left s) || mem a (skip left s) | None => false end) = true -> extra left (if left then fl else fr) s (address i)).
    { destruct (alloca_op (fn fl fr left) i) as [a|] eqn:A; [|discriminate]. unfold alloca_op in A. rewrite P in A. apply alloca_of_based in A. destruct A as [r [-> B]]. intros H. exists r. split; [exact B|].
      apply orb_true_iff in H. destruct H as [H|H]; apply mem_In in H; [right|left]; exact H. }
    destruct (i_code i) eqn:C; try discriminate; intros H; (split; [auto|exact (K H)]).
  Qed.

  Theorem skipped left b i s s' : dget (repl left s) (VReg (i_reg i)) = None -> may_skip w fl fr left b i s = (true, s') -> left_out w fl fr left b i s s'.
  Proof.
    intros D. unfold may_skip. set (f := fn fl fr left).
    assert (RP : forall u, replace_by left i u s = (true, s') -> dget (if left then replL s' else replR s') (VReg (i_reg i)) = Some u).
    { intros u H. injection H as <-. unfold put_repl, dmem. rewrite D. destruct left; cbn; apply dget_dset_same. }
    assert (FG : forget left i s = (true, s') -> In (VReg (i_reg i)) (if left then ignL s' else ignR s')).
    { intros H. injection H as <-. destruct left; left; reflexivity. }
    set (g1 := p_groupvars w && _ && _ && _ && _). set (g2 := p_reordered w && _ && _).
    assert (X : forall r : bool * state, (r = (true, s') -> left_out w fl fr left b i s s') -> (if g1 then forget left i s else if g2 then forget left i s else r) = (true, s') -> left_out w fl fr left b i s s').
    { intros r R. destruct g1 eqn:G1; [|destruct g2 eqn:G2; [|exact R]]; intros H.
      - unfold g1 in G1. apply andb_true_iff in G1. destruct G1 as [G1 E]. apply andb_true_iff in G1. destruct G1 as [G1 NE]. apply andb_true_iff in G1. destruct G1 as [G1 NT]. apply andb_true_iff in G1. destruct G1 as [G1 NC].
        rewrite forallb_forall in E. apply out_extra; auto.
        + unfold is_call in NC. intros C. rewrite C in NC. discriminate.
        + apply negb_true_iff. exact NT.
        + destruct (users f (VReg (i_reg i))) as [|u us] eqn:U; [discriminate|]. exists u. assert (I : In u (users f (VReg (i_reg i)))) by (rewrite U; left; reflexivity). apply filter_In in I. destruct I as [I M]. apply mem_In in M. auto.
        + intros u I O. apply extra_sound, E. apply filter_In. split; [exact I|apply mem_In; exact O].
      - unfold g2 in G2. apply andb_true_iff in G2. destruct G2 as [G2 U]. apply andb_true_iff in G2. destruct G2 as [G2 RE]. unfold reorderable in RE. destruct (i_code i) as [| | | | | | |o| | | | | | |] eqn:C; try discriminate.
        rewrite forallb_forall in U. apply (out_operation w fl fr left b i s s' o); auto.
        + apply mem_In in RE. cbn in *. tauto.
        + intros u I O. specialize (U u). unfold same_binop in U. rewrite C in U.
          assert (Q : In u (users f (VReg (i_reg i)))) by (apply filter_In; split; [exact I|apply mem_In; exact O]). specialize (U Q). destruct (i_code u); try discriminate. apply String.eqb_eq in U. congruence. }
    destruct (i_code i) eqn:C; try (apply X; discriminate).
    - intros H. injection H as <-. apply out_alloca; [exact C|]. destruct left; left; reflexivity.
    - apply X. destruct (skip_load fl fr left b i s) as [u|] eqn:L; [|discriminate]. intros H. apply (out_load w fl fr left b i s s' u); auto.
    - apply X. destruct (p_groupvars w) eqn:PG; [|discriminate]. destruct (alloca_op f i) as [a|] eqn:A; [|discriminate]. pose proof A as A'. unfold alloca_op in A. apply alloca_of_based in A. destruct A as [r [-> B]].
      assert (PA : pointer i = address i) by reflexivity. rewrite PA in B.
      destruct (mem (VReg r) (skip left s)) eqn:M.
      + apply mem_In in M. intros H. injection H as <-. apply (out_store w fl fr left b i s _ r); auto.
        * exists r. split; [exact B|left; exact M].
        * destruct left; right; left; reflexivity.
        * left. assert (N : ~ In (VReg r) (without (VReg r) (skip left s))) by (intros F; apply filter_In in F; destruct F as [_ F]; destruct (eqb_spec (VReg r) (VReg r)); [discriminate|contradiction]). destruct left; exact N.
        * destruct left; left; reflexivity.
      + destruct (mem (VReg r) (ign left s)) eqn:M2; [|discriminate]. apply mem_In in M2. intros H. apply (out_store w fl fr left b i s _ r); auto.
        * exists r. split; [exact B|right; exact M2].
        * injection H as <-. destruct left; right; exact M2.
    - apply X. destruct (p_casts w || safe_cast w i) eqn:P; [|discriminate]. intros H. apply (out_cast w fl fr left b i s s' bit); auto. apply orb_true_iff. exact P.
    - apply X. destruct (zero_gep i) eqn:Z; [|discriminate]. intros H. apply out_gep; [apply zero_gep_iff; exact Z|auto].
  Qed.

  (** What is ignored is equal to nothing. *)
  Theorem ignored n l r s s' : In l (ignL s) /\ ~ In l (skipL s) \/ In r (ignR s) /\ ~ In r (skipR s) -> cmp_values w fl fr n l r s <> Some (true, s').
  Proof.
    intros H. destruct n as [|n]; [discriminate|]. cbn [cmp_values].
    assert (E : mem l (skipL s) && mem r (skipR s) = false /\ mem l (ignL s) || mem r (ignR s) = true).
    { destruct H as [[A B]|[A B]]; apply mem_In in A; apply mem_not_In in B; rewrite A, B, ?andb_false_r, ?orb_true_r; auto. }
    destruct E as [-> ->]. cbn [orb]. discriminate.
  Qed.
End Skip.
