(** * Every value has at most one number *)
From Coq Require Import String Ascii ZArith Arith Bool Lia List.
From Verif Require Import PyBase Funcomp_Model.
Import ListNotations.
Open Scope list_scope.
Open Scope nat_scope.

Definition single (s : state) : Prop := NoDup (dkeys (snL s)) /\ NoDup (dkeys (snR s)) /\ NoDup (dkeys (by_sn s)).
Definition maps (s : state) := (snL s, snR s, by_sn s).
Definition stays (s s' : state) : Prop := single s -> single s'.
Lemma stays_refl s : stays s s. Proof. exact (fun H => H). Qed.
Lemma stays_eq s s' : maps s' = maps s -> stays s s'. Proof. unfold maps, stays, single. intros E. injection E as -> -> ->. exact (fun H => H). Qed.
Lemma stays_trans s s1 s2 : stays s s1 -> stays s1 s2 -> stays s s2.
Proof. unfold stays. auto. Qed.
Lemma stays_note s e s' : stays (note e s) s' -> stays s s'.
Proof. intros A. exact A. Qed.
Lemma stays_noted e s s' : stays s s' -> stays s (note e s').
Proof. intros A. exact A. Qed.
Lemma number_single sn v k sn' : number sn v = (k, sn') -> NoDup (dkeys sn) -> NoDup (dkeys sn').
Proof. unfold number. destruct (dget sn v); intros H; injection H as <- <-; [auto|]. apply dset_NoDup. Qed.

Section Numbers.
  Variable w : world.
  Variables fl fr : func.

  Definition unique {A} (f : state -> option (A * state)) : Prop := forall s a s', f s = Some (a, s') -> stays s s'.
  Definition unique_cv (cv : comparer) : Prop := forall l r, unique (cv l r).

  Lemma put_repl_single left v u s : maps (put_repl left v u s) = maps s.
  Proof. unfold put_repl. destruct (dmem _ _); [reflexivity|]. destruct left; reflexivity. Qed.
  Lemma put_skip_single left l s : maps (put_skip left l s) = maps s. Proof. destruct left; reflexivity. Qed.
  Lemma put_ign_single left l s : maps (put_ign left l s) = maps s. Proof. destruct left; reflexivity. Qed.
  Lemma replacement_single left v s x s' : replacement w fl fr left v s = (x, s') -> maps s' = maps s.
  Proof.
    unfold replacement. destruct (dget _ v); [intros H; injection H as <- <-; reflexivity|].
    destruct (inst_of _ v) as [i|]; [|intros H; injection H as <- <-; reflexivity].
    set (c := match i_code i with Cast true => safe_cast w i | _ => false end).
    destruct ((c || zero_gep i) && _); intros H; injection H as <- <-; destruct c; try reflexivity; apply put_repl_single.
  Qed.
  Lemma cmp_base_single l r s b s' : cmp_base w fl fr l r s = (b, s') -> stays s s'.
  Proof.
    unfold cmp_base.
    assert (N : cmp_numbered fl fr l r s = (b, s') -> stays s s').
    { unfold cmp_numbered. destruct (number (snL s) l) as [a sl] eqn:X. destruct (number (snR s) r) as [c sr] eqn:Y. intros H (A & B & C).
      pose proof (number_single _ _ _ _ X A) as A'. pose proof (number_single _ _ _ _ Y B) as B'.
      destruct (a =? c).
      - destruct (length sl =? _); [|injection H as <- <-; repeat split; assumption].
        destruct (phi_of fl l), (phi_of fr r); injection H as <- <-; repeat split; try assumption; apply dset_NoDup; exact C.
      - destruct (is_block l && is_block r).
        + destruct (length sl =? length sr); injection H as <- <-; repeat split; try assumption;
            [destruct (a =? _)|destruct (c =? _)]; try assumption; apply ddel_NoDup; assumption.
        + injection H as <- <-; repeat split; assumption. }
    destruct l, r; try exact N; intros H; injection H as <- <-; apply stays_refl.
  Qed.
  Lemma cmp_all_single cv : unique_cv cv -> forall ls rs, unique (cmp_all cv ls rs).
  Proof.
    intros Q. induction ls as [|l ls IH]; intros [|r rs] s a s'; cbn; try (intros H; injection H as <- <-; apply stays_refl).
    destruct (cv l r s) as [[[|] s1]|] eqn:X; [|intros H; injection H as <- <-; eapply Q; exact X|discriminate].
    intros H. eapply stays_trans; [eapply Q; exact X|eapply IH; exact H].
  Qed.
  Lemma cmp_operation_base_single cv : unique_cv cv -> forall i j, unique (cmp_operation_base w cv i j).
  Proof.
    intros Q i j s a s'. unfold cmp_operation_base.
    destruct (cv (VReg (i_reg i)) (VReg (i_reg j)) s) as [[[|] s1]|] eqn:X; [| |discriminate];
      [|intros H; injection H as <- <-; eapply Q; exact X].
    assert (G : stays s s1) by (eapply Q; exact X).
    assert (D : forall y, Some (y, s1) = Some (a, s') -> stays s s') by (intros y H; injection H as <- <-; exact G).
    destruct (i_code i); try apply D. destruct (i_code j); try apply D.
    destruct (cv (op 0 i) (op 0 j) s1) as [[[|] s2]|] eqn:Y; [| |discriminate];
      [|intros H; injection H as <- <-; eapply stays_trans; [exact G|eapply Q; exact Y]].
    assert (G2 : stays s s2) by (eapply stays_trans; [exact G|eapply Q; exact Y]).
    assert (K : (if same_rest w (i_rest i) (i_rest j) && (length (i_ops i) =? length (i_ops j)) && same_kinds (i_ops i) (i_ops j)
                 then match cmp_all cv (i_ops i) (i_ops j) s2 with Some (b, s3) => Some (b, false, s3) | None => None end
                 else Some (false, false, s2)) = Some (a, s') -> stays s s').
    { destruct (_ && _); [|intros H; injection H as <- <-; exact G2].
      destruct (cmp_all cv _ _ s2) as [[b s3]|] eqn:Z; [|discriminate]. intros H; injection H as <- <-.
      eapply stays_trans; [exact G2|eapply cmp_all_single; [exact Q|exact Z]]. }
    destruct offset as [x|]; [destruct offset0 as [y|]|]; try exact K. intros H; injection H as <- <-; exact G2.
  Qed.
  Lemma cmp_operation_single cv : unique_cv cv -> forall i j, unique (cmp_operation w fl fr cv i j).
  Proof.
    intros Q i j s a s'. unfold cmp_operation. destruct (is_phi i && is_phi j); [intros H; injection H as <- <-; apply stays_refl|].
    destruct (cmp_operation_base w cv i j s) as [[[b need] s1]|] eqn:X; [|discriminate].
    assert (G : stays s s1) by (eapply cmp_operation_base_single; [exact Q|exact X]).
    assert (D : Some (b, need, s1) = Some (a, s') -> stays s s') by (intros H; injection H as <- <-; exact G).
    destruct (i_code i); try exact D.
    - destruct (i_code j); try exact D.
      destruct (_ && _); [intros H; injection H as <- <-|exact D]. apply stays_noted. eapply stays_trans; [exact G|apply stays_eq; reflexivity].
    - destruct (i_code j); try exact D.
      destruct (i_ops i) as [|c [|? [|? [|? ?]]]]; try exact D. destruct (i_ops j) as [|d [|? [|? [|? ?]]]]; try exact D.
      destruct (mem _ _); [intros H; injection H as <- <-|exact D]. apply stays_noted. eapply stays_trans; [exact G|apply stays_eq; reflexivity].
  Qed.
  Lemma cmp_operands_single cv : unique_cv cv -> forall i j ls rs k, unique (cmp_operands w cv i j k ls rs).
  Proof.
    intros Q i j. induction ls as [|l ls IH]; intros [|r rs] k s a s'; cbn; try (intros H; injection H as <- <-; apply stays_refl).
    destruct (cv l r s) as [[[|] s1]|] eqn:X; [| |discriminate].
    - intros H. eapply stays_trans; [eapply Q; exact X|eapply IH; exact H].
    - destruct (_ && _); intros H; injection H as <- <-; [apply stays_noted|]; eapply Q; exact X.
  Qed.
  Lemma cmp_insts_single cv : unique_cv cv -> forall i j, unique (cmp_insts w fl fr cv i j).
  Proof.
    intros Q i j s a s'. unfold cmp_insts.
    destruct (cmp_operation w fl fr cv i (now s j) s) as [[[[|] [|]] s1]|] eqn:X; try discriminate;
      try (intros H; injection H as <- <-; eapply cmp_operation_single; [exact Q|exact X]).
    intros H. eapply stays_trans; [eapply cmp_operation_single; [exact Q|exact X]|eapply cmp_operands_single; [exact Q|exact H]].
  Qed.
  Lemma cmp_values_single n : unique_cv (cmp_values w fl fr n).
  Proof.
    induction n as [|n IH]; intros l r s a s'; [discriminate|]. cbn [cmp_values].
    destruct (mem l (skipL s) && mem r (skipR s)).
    - destruct (inst_of fl l) as [i|]; [|discriminate]. destruct (inst_of fr r) as [j|]; [|discriminate].
      destruct (cmp_insts _ _ _ _ i j _) as [[[|] s1]|] eqn:X; try discriminate; intros H; injection H as <- <-;
        apply cmp_insts_single in X; try exact IH; apply stays_note in X; [exact X|].
      intros Z. destruct (X Z) as (A & B & C). repeat split; apply ddel_NoDup; assumption.
    - destruct (_ || _ || _ || _); [intros H; injection H as <- <-; apply stays_refl|].
      destruct (replacement w fl fr true l s) as [x s1] eqn:X. destruct (replacement w fl fr false r s1) as [y s2] eqn:Y.
      apply replacement_single in X, Y.
      assert (G : stays s s2) by (apply stays_eq; congruence).
      destruct x, y; try (intros H; apply IH in H; apply stays_note in H; eapply stays_trans; [exact G|exact H]).
      intros H. destruct (cmp_base w fl fr l r s2) as [b s3] eqn:Z. injection H as <- <-.
      eapply stays_trans; [exact G|eapply cmp_base_single; exact Z].
  Qed.

  (** A failed comparison of two values that were left out: they have no numbers then. *)
  Lemma failed_pair n l r s s' : single s -> In l (skipL s) -> In r (skipR s) -> cmp_values w fl fr n l r s = Some (false, s') ->
    In l (skipL s') /\ In r (skipR s') /\ dget (snL s') l = None /\ dget (snR s') r = None /\ dget (by_sn s') (length (snL s')) = None.
  Proof.
    destruct n as [|n]; [discriminate|]. intros Z L R. cbn [cmp_values]. rewrite (proj2 (mem_In l _) L), (proj2 (mem_In r _) R). cbn [andb].
    destruct (inst_of fl l) as [i|]; [|discriminate]. destruct (inst_of fr r) as [j|]; [|discriminate].
    destruct (cmp_insts _ _ _ _ i j _) as [[[|] s1]|] eqn:X; try discriminate. intros H; injection H as <-.
    apply cmp_insts_single in X; [|apply cmp_values_single]. destruct (X Z) as (A & B & C).
    split; [left; reflexivity|]. split; [left; reflexivity|]. cbn. rewrite !dget_ddel_same by assumption. auto.
  Qed.
End Numbers.
