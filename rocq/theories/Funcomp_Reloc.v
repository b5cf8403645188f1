(** * What is kept about a relocation is not touched by comparing instructions *)
From Coq Require Import String Ascii ZArith Arith Bool Lia List.
From Verif Require Import PyBase Funcomp_Model.
Import ListNotations.
Open Scope list_scope.
Open Scope nat_scope.

Definition keeps (s s' : state) : Prop := reloc s' = reloc s.
Lemma keeps_refl s : keeps s s. Proof. reflexivity. Qed.
Lemma keeps_eq s s' : reloc s' = reloc s -> keeps s s'. Proof. intros E. exact E. Qed.
Lemma keeps_trans s s1 s2 : keeps s s1 -> keeps s1 s2 -> keeps s s2.
Proof. unfold keeps. congruence. Qed.
Lemma keeps_note s e s' : keeps (note e s) s' -> keeps s s'.
Proof. intros A. exact A. Qed.
Lemma keeps_noted e s s' : keeps s s' -> keeps s (note e s').
Proof. intros A. exact A. Qed.

Section Reloc.
  Variable w : world.
  Variables fl fr : func.

  Definition still {A} (f : state -> option (A * state)) : Prop := forall s a s', f s = Some (a, s') -> keeps s s'.
  Definition still_cv (cv : comparer) : Prop := forall l r, still (cv l r).

  Lemma put_repl_reloc left v u s : reloc (put_repl left v u s) = reloc s.
  Proof. unfold put_repl. destruct (dmem _ _); [reflexivity|]. destruct left; reflexivity. Qed.
  Lemma put_skip_reloc left l s : reloc (put_skip left l s) = reloc s. Proof. destruct left; reflexivity. Qed.
  Lemma put_ign_reloc left l s : reloc (put_ign left l s) = reloc s. Proof. destruct left; reflexivity. Qed.
  Lemma undo_reloc i j s : reloc (undo i j s) = reloc s. Proof. reflexivity. Qed.
  Lemma replacement_reloc left v s x s' : replacement w fl fr left v s = (x, s') -> reloc s' = reloc s.
  Proof.
    unfold replacement. destruct (dget _ v); [intros H; injection H as <- <-; reflexivity|].
    destruct (inst_of _ v) as [i|]; [|intros H; injection H as <- <-; reflexivity].
    set (c := match i_code i with Cast true => safe_cast w i | _ => false end).
    destruct ((c || zero_gep i) && _); intros H; injection H as <- <-; destruct c; try reflexivity; apply put_repl_reloc.
  Qed.
  Lemma cmp_base_reloc l r s b s' : cmp_base w fl fr l r s = (b, s') -> keeps s s'.
  Proof.
    unfold cmp_base.
    assert (N : cmp_numbered fl fr l r s = (b, s') -> keeps s s').
    { unfold cmp_numbered. destruct (number (snL s) l) as [a sl]. destruct (number (snR s) r) as [c sr].
      destruct (a =? c).
      - destruct (length sl =? _); [|intros H; injection H as <- <-; apply keeps_eq; reflexivity].
        destruct (phi_of fl l), (phi_of fr r); intros H; injection H as <- <-; apply keeps_eq; reflexivity.
      - destruct (is_block l && is_block r).
        + destruct (if length sl =? length sr then _ else _) as [x y]. intros H; injection H as <- <-.
          apply keeps_noted, keeps_eq. reflexivity.
        + intros H; injection H as <- <-; apply keeps_eq; reflexivity. }
    destruct l, r; try exact N; intros H; injection H as <- <-; apply keeps_refl.
  Qed.
  Lemma cmp_all_reloc cv : still_cv cv -> forall ls rs, still (cmp_all cv ls rs).
  Proof.
    intros Q. induction ls as [|l ls IH]; intros [|r rs] s a s'; cbn; try (intros H; injection H as <- <-; apply keeps_refl).
    destruct (cv l r s) as [[[|] s1]|] eqn:X; [|intros H; injection H as <- <-; eapply Q; exact X|discriminate].
    intros H. eapply keeps_trans; [eapply Q; exact X|eapply IH; exact H].
  Qed.
  Lemma cmp_operation_base_reloc cv : still_cv cv -> forall i j, still (cmp_operation_base w cv i j).
  Proof.
    intros Q i j s a s'. unfold cmp_operation_base.
    destruct (cv (VReg (i_reg i)) (VReg (i_reg j)) s) as [[[|] s1]|] eqn:X; [| |discriminate];
      [|intros H; injection H as <- <-; eapply Q; exact X].
    assert (G : keeps s s1) by (eapply Q; exact X).
    assert (D : forall y, Some (y, s1) = Some (a, s') -> keeps s s') by (intros y H; injection H as <- <-; exact G).
    destruct (i_code i); try apply D. destruct (i_code j); try apply D.
    destruct (cv (op 0 i) (op 0 j) s1) as [[[|] s2]|] eqn:Y; [| |discriminate];
      [|intros H; injection H as <- <-; eapply keeps_trans; [exact G|eapply Q; exact Y]].
    assert (G2 : keeps s s2) by (eapply keeps_trans; [exact G|eapply Q; exact Y]).
    assert (K : (if same_rest w (i_rest i) (i_rest j) && (length (i_ops i) =? length (i_ops j)) && same_kinds (i_ops i) (i_ops j)
                 then match cmp_all cv (i_ops i) (i_ops j) s2 with Some (b, s3) => Some (b, false, s3) | None => None end
                 else Some (false, false, s2)) = Some (a, s') -> keeps s s').
    { destruct (_ && _); [|intros H; injection H as <- <-; exact G2].
      destruct (cmp_all cv _ _ s2) as [[b s3]|] eqn:Z; [|discriminate]. intros H; injection H as <- <-.
      eapply keeps_trans; [exact G2|eapply cmp_all_reloc; [exact Q|exact Z]]. }
    destruct offset as [x|]; [destruct offset0 as [y|]|]; try exact K. intros H; injection H as <- <-; exact G2.
  Qed.
  Lemma cmp_operation_reloc cv : still_cv cv -> forall i j, still (cmp_operation w fl fr cv i j).
  Proof.
    intros Q i j s a s'. unfold cmp_operation. destruct (is_phi i && is_phi j); [intros H; injection H as <- <-; apply keeps_refl|].
    destruct (cmp_operation_base w cv i j s) as [[[b need] s1]|] eqn:X; [|discriminate].
    assert (G : keeps s s1) by (eapply cmp_operation_base_reloc; [exact Q|exact X]).
    assert (D : Some (b, need, s1) = Some (a, s') -> keeps s s') by (intros H; injection H as <- <-; exact G).
    destruct (i_code i); try exact D.
    - destruct (i_code j); try exact D.
      destruct (_ && _); [intros H; injection H as <- <-|exact D]. apply keeps_noted. eapply keeps_trans; [exact G|apply keeps_eq; reflexivity].
    - destruct (i_code j); try exact D.
      destruct (i_ops i) as [|c [|? [|? [|? ?]]]]; try exact D. destruct (i_ops j) as [|d [|? [|? [|? ?]]]]; try exact D.
      destruct (mem _ _); [intros H; injection H as <- <-|exact D]. apply keeps_noted. eapply keeps_trans; [exact G|apply keeps_eq; reflexivity].
  Qed.
  Lemma cmp_operands_reloc cv : still_cv cv -> forall i j ls rs k, still (cmp_operands w cv i j k ls rs).
  Proof.
    intros Q i j. induction ls as [|l ls IH]; intros [|r rs] k s a s'; cbn; try (intros H; injection H as <- <-; apply keeps_refl).
    destruct (cv l r s) as [[[|] s1]|] eqn:X; [| |discriminate].
    - intros H. eapply keeps_trans; [eapply Q; exact X|eapply IH; exact H].
    - destruct (_ && _); intros H; injection H as <- <-; [apply keeps_noted|]; eapply Q; exact X.
  Qed.
  Lemma cmp_insts_reloc cv : still_cv cv -> forall i j, still (cmp_insts w fl fr cv i j).
  Proof.
    intros Q i j s a s'. unfold cmp_insts.
    destruct (cmp_operation w fl fr cv i (now s j) s) as [[[[|] [|]] s1]|] eqn:X; try discriminate;
      try (intros H; injection H as <- <-; eapply cmp_operation_reloc; [exact Q|exact X]).
    intros H. eapply keeps_trans; [eapply cmp_operation_reloc; [exact Q|exact X]|eapply cmp_operands_reloc; [exact Q|exact H]].
  Qed.
  Lemma cmp_values_reloc n : still_cv (cmp_values w fl fr n).
  Proof.
    induction n as [|n IH]; intros l r s a s'; [discriminate|]. cbn [cmp_values].
    destruct (mem l (skipL s) && mem r (skipR s)).
    - destruct (inst_of fl l) as [i|]; [|discriminate]. destruct (inst_of fr r) as [j|]; [|discriminate].
      destruct (cmp_insts _ _ _ _ i j _) as [[[|] s1]|] eqn:X; try discriminate; intros H; injection H as <- <-;
        apply cmp_insts_reloc in X; try exact IH; apply keeps_note in X; exact X.
    - destruct (_ || _ || _ || _); [intros H; injection H as <- <-; apply keeps_refl|].
      destruct (replacement w fl fr true l s) as [x s1] eqn:X. destruct (replacement w fl fr false r s1) as [y s2] eqn:Y.
      apply replacement_reloc in X, Y.
      assert (G : keeps s s2) by (apply keeps_eq; congruence).
      destruct x, y; try (intros H; apply IH in H; apply keeps_note in H; eapply keeps_trans; [exact G|exact H]).
      intros H. destruct (cmp_base w fl fr l r s2) as [b s3] eqn:Z. injection H as <- <-.
      eapply keeps_trans; [exact G|eapply cmp_base_reloc; exact Z].
  Qed.

  Lemma may_skip_reloc left b i s x s' : may_skip w fl fr left b i s = (x, s') -> reloc s' = reloc s.
  Proof.
    unfold may_skip, forget, replace_by. intros H.
    repeat match type of H with
    | context [match ?t with _ => _ end] => destruct t
    end; injection H as <- <-; rewrite ?put_ign_reloc, ?put_skip_reloc, ?put_repl_reloc; reflexivity.
  Qed.
End Reloc.
