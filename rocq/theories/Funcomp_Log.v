(** * The exceptions taken by a comparison only accumulate *)
From Coq Require Import String Ascii ZArith Arith Bool Lia List.
From Verif Require Import PyBase Funcomp_Model.
Import ListNotations.
Open Scope list_scope.
Open Scope nat_scope.

Definition grows (s s' : state) : Prop := exists l, log s' = l ++ log s.
Lemma grows_refl s : grows s s. Proof. exists []. reflexivity. Qed.
Lemma grows_eq s s' : log s' = log s -> grows s s'. Proof. intros E. exists []. exact E. Qed.
Lemma grows_trans s s1 s2 : grows s s1 -> grows s1 s2 -> grows s s2.
Proof. intros [l A] [l' B]. exists (l' ++ l). rewrite B, A. apply app_assoc. Qed.
Lemma grows_note s e s' : grows (note e s) s' -> grows s s'.
Proof. intros [l A]. exists (l ++ [e]). rewrite A. cbn. rewrite <- app_assoc. reflexivity. Qed.
Lemma grows_noted e s s' : grows s s' -> grows s (note e s').
Proof. intros [l A]. exists (e :: l). cbn. rewrite A. reflexivity. Qed.

Section Log.
  Variable w : world.
  Variables fl fr : func.

  Definition quiet {A} (f : state -> option (A * state)) : Prop := forall s a s', f s = Some (a, s') -> grows s s'.
  Definition quiet_cv (cv : comparer) : Prop := forall l r, quiet (cv l r).

  Lemma put_repl_log left v u s : log (put_repl left v u s) = log s.
  Proof. unfold put_repl. destruct (dmem _ _); [reflexivity|]. destruct left; reflexivity. Qed.
  Lemma put_skip_log left l s : log (put_skip left l s) = log s. Proof. destruct left; reflexivity. Qed.
  Lemma put_ign_log left l s : log (put_ign left l s) = log s. Proof. destruct left; reflexivity. Qed.
  Lemma undo_log i j s : log (undo i j s) = log s. Proof. reflexivity. Qed.
  Lemma replacement_log left v s x s' : replacement w fl fr left v s = (x, s') -> log s' = log s.
  Proof.
    unfold replacement. destruct (dget _ v); [intros H; injection H as <- <-; reflexivity|].
    destruct (inst_of _ v) as [i|]; [|intros H; injection H as <- <-; reflexivity].
    set (c := match i_code i with Cast true => safe_cast w i | _ => false end).
    destruct ((c || zero_gep i) && _); intros H; injection H as <- <-; destruct c; try reflexivity; apply put_repl_log.
  Qed.
  Lemma cmp_base_log l r s b s' : cmp_base w fl fr l r s = (b, s') -> grows s s'.
  Proof.
    unfold cmp_base.
    assert (N : cmp_numbered fl fr l r s = (b, s') -> grows s s').
    { unfold cmp_numbered. destruct (number (snL s) l) as [a sl]. destruct (number (snR s) r) as [c sr].
      destruct (a =? c).
      - destruct (length sl =? _); [|intros H; injection H as <- <-; apply grows_eq; reflexivity].
        destruct (phi_of fl l), (phi_of fr r); intros H; injection H as <- <-; apply grows_eq; reflexivity.
      - destruct (is_block l && is_block r).
        + destruct (if length sl =? length sr then _ else _) as [x y]. intros H; injection H as <- <-.
          apply grows_noted, grows_eq. reflexivity.
        + intros H; injection H as <- <-; apply grows_eq; reflexivity. }
    destruct l, r; try exact N; intros H; injection H as <- <-; apply grows_refl.
  Qed.
  Lemma cmp_all_log cv : quiet_cv cv -> forall ls rs, quiet (cmp_all cv ls rs).
  Proof.
    intros Q. induction ls as [|l ls IH]; intros [|r rs] s a s'; cbn; try (intros H; injection H as <- <-; apply grows_refl).
    destruct (cv l r s) as [[[|] s1]|] eqn:X; [|intros H; injection H as <- <-; eapply Q; exact X|discriminate].
    intros H. eapply grows_trans; [eapply Q; exact X|eapply IH; exact H].
  Qed.
  Lemma cmp_operation_base_log cv : quiet_cv cv -> forall i j, quiet (cmp_operation_base w cv i j).
  Proof.
    intros Q i j s a s'. unfold cmp_operation_base.
    destruct (cv (VReg (i_reg i)) (VReg (i_reg j)) s) as [[[|] s1]|] eqn:X; [| |discriminate];
      [|intros H; injection H as <- <-; eapply Q; exact X].
    assert (G : grows s s1) by (eapply Q; exact X).
    assert (D : forall y, Some (y, s1) = Some (a, s') -> grows s s') by (intros y H; injection H as <- <-; exact G).
    destruct (i_code i); try apply D. destruct (i_code j); try apply D.
    destruct (cv (op 0 i) (op 0 j) s1) as [[[|] s2]|] eqn:Y; [| |discriminate];
      [|intros H; injection H as <- <-; eapply grows_trans; [exact G|eapply Q; exact Y]].
    assert (G2 : grows s s2) by (eapply grows_trans; [exact G|eapply Q; exact Y]).
    assert (K : (if same_rest w (i_rest i) (i_rest j) && (length (i_ops i) =? length (i_ops j)) && same_kinds (i_ops i) (i_ops j)
                 then match cmp_all cv (i_ops i) (i_ops j) s2 with Some (b, s3) => Some (b, false, s3) | None => None end
                 else Some (false, false, s2)) = Some (a, s') -> grows s s').
    { destruct (_ && _); [|intros H; injection H as <- <-; exact G2].
      destruct (cmp_all cv _ _ s2) as [[b s3]|] eqn:Z; [|discriminate]. intros H; injection H as <- <-.
      eapply grows_trans; [exact G2|eapply cmp_all_log; [exact Q|exact Z]]. }
    destruct offset as [x|]; [destruct offset0 as [y|]|]; try exact K. intros H; injection H as <- <-; exact G2.
  Qed.
  Lemma cmp_operation_log cv : quiet_cv cv -> forall i j, quiet (cmp_operation w fl fr cv i j).
  Proof.
    intros Q i j s a s'. unfold cmp_operation. destruct (is_phi i && is_phi j); [intros H; injection H as <- <-; apply grows_refl|].
    destruct (cmp_operation_base w cv i j s) as [[[b need] s1]|] eqn:X; [|discriminate].
    assert (G : grows s s1) by (eapply cmp_operation_base_log; [exact Q|exact X]).
    assert (D : Some (b, need, s1) = Some (a, s') -> grows s s') by (intros H; injection H as <- <-; exact G).
    destruct (i_code i); try exact D.
    - destruct (i_code j); try exact D.
      destruct (_ && _); [intros H; injection H as <- <-|exact D]. apply grows_noted. eapply grows_trans; [exact G|apply grows_eq; reflexivity].
    - destruct (i_code j); try exact D.
      destruct (i_ops i) as [|c [|? [|? [|? ?]]]]; try exact D. destruct (i_ops j) as [|d [|? [|? [|? ?]]]]; try exact D.
      destruct (mem _ _); [intros H; injection H as <- <-|exact D]. apply grows_noted. eapply grows_trans; [exact G|apply grows_eq; reflexivity].
  Qed.
  Lemma cmp_operands_log cv : quiet_cv cv -> forall i j ls rs k, quiet (cmp_operands w cv i j k ls rs).
  Proof.
    intros Q i j. induction ls as [|l ls IH]; intros [|r rs] k s a s'; cbn; try (intros H; injection H as <- <-; apply grows_refl).
    destruct (cv l r s) as [[[|] s1]|] eqn:X; [| |discriminate].
    - intros H. eapply grows_trans; [eapply Q; exact X|eapply IH; exact H].
    - destruct (_ && _); intros H; injection H as <- <-; [apply grows_noted|]; eapply Q; exact X.
  Qed.
  Lemma cmp_insts_log cv : quiet_cv cv -> forall i j, quiet (cmp_insts w fl fr cv i j).
  Proof.
    intros Q i j s a s'. unfold cmp_insts.
    destruct (cmp_operation w fl fr cv i (now s j) s) as [[[[|] [|]] s1]|] eqn:X; try discriminate;
      try (intros H; injection H as <- <-; eapply cmp_operation_log; [exact Q|exact X]).
    intros H. eapply grows_trans; [eapply cmp_operation_log; [exact Q|exact X]|eapply cmp_operands_log; [exact Q|exact H]].
  Qed.
  Lemma cmp_values_log n : quiet_cv (cmp_values w fl fr n).
  Proof.
    induction n as [|n IH]; intros l r s a s'; [discriminate|]. cbn [cmp_values].
    destruct (mem l (skipL s) && mem r (skipR s)).
    - destruct (inst_of fl l) as [i|]; [|discriminate]. destruct (inst_of fr r) as [j|]; [|discriminate].
      destruct (cmp_insts _ _ _ _ i j _) as [[[|] s1]|] eqn:X; try discriminate; intros H; injection H as <- <-;
        apply cmp_insts_log in X; try exact IH; apply grows_note in X; destruct X as [x X]; exists x; cbn; cbn in X; exact X.
    - destruct (_ || _ || _ || _); [intros H; injection H as <- <-; apply grows_refl|].
      destruct (replacement w fl fr true l s) as [x s1] eqn:X. destruct (replacement w fl fr false r s1) as [y s2] eqn:Y.
      apply replacement_log in X, Y.
      assert (G : grows s s2) by (apply grows_eq; congruence).
      destruct x, y; try (intros H; apply IH in H; apply grows_note in H; eapply grows_trans; [exact G|exact H]).
      intros H. destruct (cmp_base w fl fr l r s2) as [b s3] eqn:Z. injection H as <- <-.
      eapply grows_trans; [exact G|eapply cmp_base_log; exact Z].
  Qed.

  Lemma may_skip_log left b i s x s' : may_skip w fl fr left b i s = (x, s') -> log s' = log s.
  Proof.
    unfold may_skip, forget, replace_by. intros H.
    repeat match type of H with
    | context [match ?t with _ => _ end] => destruct t
    end; injection H as <- <-; rewrite ?put_ign_log, ?put_skip_log, ?put_repl_log; reflexivity.
  Qed.
  Lemma negation_log left i s : log (negation left i s) = log s.
  Proof. unfold negation. destruct (mem _ _); cbn; apply put_repl_log. Qed.
  Lemma find_match_log n first b other begin : forall l passed, quiet (fun s => match find_match w fl fr n first b other begin passed l s with Some (x, q, s') => Some ((x, q), s') | None => None end).
  Proof.
    induction l as [|i l IH]; intros passed s a s'; cbn [find_match]; [intros H; injection H as <- <-; apply grows_refl|].
    destruct (if first then _ else _) as [[[|] s1]|] eqn:X; [| |discriminate].
    all: assert (G : grows s s1) by (destruct first; eapply cmp_insts_log; try exact X; apply cmp_values_log).
    - destruct (depends_on_reloc i _) as [[|]|]; [| |discriminate]; intros H; injection H as <- <-; [|apply grows_noted];
        (eapply grows_trans; [exact G|apply grows_eq; reflexivity]).
    - intros H. eapply grows_trans; [exact G|]. eapply grows_trans; [|eapply (IH (passed ++ [i])); exact H]. apply grows_eq. reflexivity.
  Qed.
  Lemma find_reloc_log n first b pl pr s x ql qr s' : find_reloc w fl fr n first b pl pr s = Some (x, ql, qr, s') ->
    grows s s' /\ (x = true -> In Relocated (log s')).
  Proof.
    unfold find_reloc. destruct pl as [|i pl]; [discriminate|]. destruct pr as [|j pr]; [discriminate|]. intros H. split.
    - eapply grows_trans; [apply grows_eq; exact (undo_log i j s)|]. destruct first.
      + destruct (find_match w fl fr n true b j (i :: pl) [i] pl (undo i j s)) as [[[y l] s2]|] eqn:X; [|discriminate].
        injection H as <- <- <- <-. pose proof (find_match_log n true b j (i :: pl) pl [i] (undo i j s) (y, l) s2) as Q. cbn in Q. rewrite X in Q. exact (Q eq_refl).
      + destruct (find_match w fl fr n false b i (j :: pr) [j] pr (undo i j s)) as [[[y l] s2]|] eqn:X; [|discriminate].
        injection H as <- <- <- <-. pose proof (find_match_log n false b i (j :: pr) pr [j] (undo i j s) (y, l) s2) as Q. cbn in Q. rewrite X in Q. exact (Q eq_refl).
    - assert (R : forall n first b other begin l passed s l' s2, find_match w fl fr n first b other begin passed l s = Some (true, l', s2) -> In Relocated (log s2)).
      { clear. intros n first b other begin. induction l as [|i l IH]; intros passed s l' s2; cbn [find_match]; [discriminate|].
        destruct (if first then _ else _) as [[[|] s1]|]; [| |discriminate].
        - destruct (depends_on_reloc i _) as [[|]|]; try discriminate. intros H; injection H as <- <-. left. reflexivity.
        - apply IH. }
      intros ->. destruct first.
      + destruct (find_match w fl fr n true b j (i :: pl) [i] pl (undo i j s)) as [[[y l] s2]|] eqn:X; [|discriminate].
        injection H as -> <- <- <-. eapply R. exact X.
      + destruct (find_match w fl fr n false b i (j :: pr) [j] pr (undo i j s)) as [[[y l] s2]|] eqn:X; [|discriminate].
        injection H as -> <- <- <-. eapply R. exact X.
  Qed.

  Lemma cmp_blocks_log n : forall bl br al ar pl pr, quiet (cmp_blocks w fl fr n bl br al ar pl pr).
  Proof.
    induction n as [|n IH]; intros bl br al ar pl pr s a s'; [discriminate|]. cbn [cmp_blocks].
    assert (T : forall al' ar' pl' pr' s0, grows s s0 -> cmp_blocks w fl fr n bl br al' ar' pl' pr' s0 = Some (a, s') -> grows s s').
    { intros al' ar' pl' pr' s0 G H. eapply grows_trans; [exact G|eapply IH; exact H]. }
    destruct pl as [|i pl], pr as [|j pr].
    - destruct (al || ar); [discriminate|]. intros H; injection H as <- <-; apply grows_refl.
    - destruct al; [discriminate|]. intros H; injection H as <- <-; apply grows_refl.
    - destruct ar; [discriminate|]. intros H; injection H as <- <-; apply grows_refl.
    - destruct (is_debug i); [apply T; apply grows_refl|]. destruct (is_debug j); [apply T; apply grows_refl|].
      destruct (cmp_insts _ _ _ _ i j s) as [[[|] s1]|] eqn:X; [| |discriminate].
      all: assert (G : grows s s1) by (eapply cmp_insts_log; try exact X; apply cmp_values_log).
      + destruct (r_status (reloc s1)); [apply T; exact G| |].
        * destruct (depends_on_reloc _ s1) as [[|]|]; [intros H; injection H as <- <-; exact G|apply T; exact G|discriminate].
        * destruct (_ && _); [apply T; eapply grows_trans; [exact G|apply grows_eq; reflexivity]|].
          destruct (_ && _); [apply T; eapply grows_trans; [exact G|apply grows_eq; reflexivity]|apply T; exact G].
      + destruct (may_skip _ _ _ true _ i s1) as [sk1 s2] eqn:Y. destruct (may_skip _ _ _ false _ j s2) as [sk2 s3] eqn:Z.
        apply may_skip_log in Y, Z.
        assert (G3 : grows s s3) by (eapply grows_trans; [exact G|apply grows_eq; congruence]).
        assert (N : forall e y, log y = log s3 -> grows s (note e y)) by (intros e y E; apply grows_noted; eapply grows_trans; [exact G3|apply grows_eq; exact E]).
        destruct (sk1 || sk2); [apply T, N; reflexivity|].
        destruct (reordered _ _ _ i j s3); [apply T, N; reflexivity|].
        destruct (_ && (_ && _)); [apply T, N; rewrite negation_log; reflexivity|].
        destruct (_ && (_ && _)); [destruct (is_not w i); apply T, N; rewrite negation_log; reflexivity|].
        destruct (r_status (reloc s3)).
        * destruct (p_relocations w); [|intros H; injection H as <- <-; exact G3].
          destruct (find_reloc _ _ _ n false br _ _ s3) as [[[[[|] ql] qr] s4]|] eqn:U; [| |discriminate].
          all: apply find_reloc_log in U; destruct U as [U _]; assert (G4 : grows s s4) by (eapply grows_trans; [exact G3|exact U]).
          -- apply T; exact G4.
          -- destruct (find_reloc _ _ _ n true bl ql qr s4) as [[[[[|] ql'] qr'] s5]|] eqn:U2; [| |discriminate].
             all: apply find_reloc_log in U2; destruct U2 as [U2 _]; assert (G5 : grows s s5) by (eapply grows_trans; [exact G4|exact U2]).
             ++ apply T; exact G5.
             ++ intros H; injection H as <- <-; exact G5.
        * destruct (r_first _); apply T; (eapply grows_trans; [exact G3|apply grows_eq; reflexivity]).
        * intros H; injection H as <- <-; exact G3.
  Qed.
  Lemma walk_log n : forall stack visited, quiet (walk w fl fr n stack visited).
  Proof.
    induction n as [|n IH]; intros stack visited s a s'; [discriminate|]. cbn [walk].
    destruct stack as [|[bl br] stack]; [intros H; injection H as <- <-; apply grows_refl|].
    destruct (cmp_values _ _ _ n _ _ s) as [[[|] s1]|] eqn:X; [| |discriminate]; apply cmp_values_log in X; [|intros H; injection H as <- <-; exact X].
    destruct (cmp_blocks _ _ _ n _ _ _ _ _ _ s1) as [[[|] s2]|] eqn:Y; [| |discriminate]; apply cmp_blocks_log in Y;
      [|intros H; injection H as <- <-; eapply grows_trans; [exact X|exact Y]].
    destruct (terminator (block fl bl)) as [tl|]; [|discriminate]. destruct (terminator (block fr br)) as [tr|]; [|discriminate].
    destruct (_ =? _); [|discriminate]. destruct (push _ _ stack visited) as [st2 v2]. intros H. apply IH in H.
    eapply grows_trans; [exact X|]. eapply grows_trans; [exact Y|exact H].
  Qed.
  Lemma cmp_incoming_log n v b : forall l, quiet (cmp_incoming w fl fr n v b l).
  Proof.
    induction l as [|[u c] l IH]; intros s a s'; cbn [cmp_incoming]; [intros H; injection H as <- <-; apply grows_refl|].
    destruct (block_number (snL s) b) as [x sl]. destruct (block_number (snR s) c) as [y sr].
    set (s1 := if dmem (snL s) (VBlock b) && dmem (snR s) (VBlock c) then set_sn s sl sr (by_sn s) else note Phi_block_unknown (set_sn s sl sr (by_sn s))).
    assert (G : grows s s1) by (unfold s1; destruct (_ && _); [|apply grows_noted]; apply grows_eq; reflexivity).
    destruct (x =? y).
    - destruct (cmp_values _ _ _ n v u s1) as [[[|] s2]|] eqn:X; [| |discriminate]; apply cmp_values_log in X.
      + intros H; injection H as <- <-. eapply grows_trans; [exact G|exact X].
      + intros H. apply IH in H. apply grows_note in H. eapply grows_trans; [exact G|]. eapply grows_trans; [exact X|exact H].
    - intros H. apply IH in H. eapply grows_trans; [exact G|exact H].
  Qed.
  Lemma cmp_incomings_log n rs : forall ls, quiet (cmp_incomings w fl fr n ls rs).
  Proof.
    induction ls as [|[v b] ls IH]; intros s a s'; cbn [cmp_incomings]; [intros H; injection H as <- <-; apply grows_refl|].
    destruct (cmp_incoming _ _ _ n v b rs s) as [[[|] s1]|] eqn:X; [| |discriminate]; apply cmp_incoming_log in X.
    - intros H. apply IH in H. eapply grows_trans; [exact X|exact H].
    - intros H; injection H as <- <-; exact X.
  Qed.
  Lemma cmp_phi_log n p q : quiet (cmp_phi w fl fr n p q).
  Proof. intros s a s'. unfold cmp_phi. destruct (_ =? _); [apply cmp_incomings_log|intros H; injection H as <- <-; apply grows_refl]. Qed.
  Lemma cmp_phis_log n : forall l, quiet (cmp_phis w fl fr n l).
  Proof.
    induction l as [|[p q] l IH]; intros s a s'; cbn [cmp_phis]; [intros H; injection H as <- <-; apply grows_refl|].
    destruct (cmp_phi _ _ _ n p q s) as [[[|] s1]|] eqn:X; [| |discriminate]; apply cmp_phi_log in X.
    - intros H. apply IH in H. eapply grows_trans; [exact X|exact H].
    - intros H; injection H as <- <-; exact X.
  Qed.
End Log.
