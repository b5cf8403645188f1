(** * Reordered binary operations compute the same *)
From Coq Require Import String Ascii ZArith Arith Bool Lia List Permutation.
From Verif Require Import PyBase Funcomp_Model Funcomp_Spec Funcomp_Log Funcomp_Inv Funcomp_Walk Funcomp_Sim.
Import ListNotations.
Open Scope list_scope.
Open Scope nat_scope.

(** ** Combining lists of values *)
Section Ac.
  Variable A : Type.
  Variable f : A -> A -> A.
  Hypothesis COM : forall x y, f x y = f y x.
  Hypothesis ASS : forall x y z, f x (f y z) = f (f x y) z.

  Definition all (x : A) (l : list A) : A := fold_left f l x.
  Lemma all_out l : forall x y, all (f x y) l = f x (all y l).
  Proof. induction l as [|z l IH]; intros x y; cbn; [reflexivity|]. rewrite <- ASS. apply IH. Qed.
  (** [v] is what is made of the values [l], in any order. *)
  Inductive made : list A -> A -> Prop := made_from x l : made (x :: l) (all x l).
  Lemma made_one x : made [x] x.
  Proof. apply (made_from x []). Qed.
  Lemma made_app l v l' v' : made l v -> made l' v' -> made (l ++ l') (f v v').
  Proof.
    intros [x k] [y k']. cbn. replace (f (all x k) (all y k')) with (all x (k ++ y :: k')); [constructor|].
    unfold all at 1. rewrite fold_left_app. cbn. fold (all x k). fold (all (f (all x k) y) k'). apply all_out.
  Qed.
  Lemma all_perm x l l' : Permutation l l' -> all x l = all x l'.
  Proof.
    intros P. revert x. induction P as [|a k k' P IH|a b k|k1 k2 k3 P1 IH1 P2 IH2]; intros z; cbn.
    - reflexivity.
    - apply IH.
    - rewrite <- !ASS, (COM a b). reflexivity.
    - rewrite IH1. apply IH2.
  Qed.
  Lemma made_perm l l' v v' : Permutation l l' -> made l v -> made l' v' -> v = v'.
  Proof.
    intros P M0 M. inversion M0 as [x k E1 E2]. inversion M as [y k' E3 E4]. subst. clear M M0.
    destruct (in_inv (Permutation_in x P (or_introl eq_refl))) as [->|I].
    - apply Permutation_cons_inv in P. apply all_perm. exact P.
    - apply in_split in I. destruct I as [a [b ->]].
      assert (Q : Permutation k (y :: a ++ b)).
      { apply (Permutation_cons_inv (a := x)). eapply Permutation_trans; [exact P|]. rewrite perm_swap. constructor. symmetry. apply Permutation_middle. }
      rewrite (all_perm _ _ _ Q), <- (all_perm y (x :: a ++ b)) by apply Permutation_middle. cbn. rewrite (COM x y). reflexivity.
  Qed.
End Ac.

Lemma remove_one_perm {K} `{EqB K} (x : K) l l' : remove_one x l = Some l' -> Permutation l (x :: l').
Proof.
  revert l'. induction l as [|y l IH]; intros l'; cbn; [discriminate|]. destruct (eqb_spec x y) as [->|N]; [intros Q; injection Q as <-; reflexivity|].
  destruct (remove_one x l) as [r|]; [|discriminate]. intros Q. injection Q as <-. rewrite (IH r eq_refl). constructor.
Qed.
Lemma same_multiset_perm {K} `{EqB K} (a b : list K) : same_multiset a b = true -> Permutation a b.
Proof.
  revert b. induction a as [|x a IH]; intros b; cbn; [destruct b; [constructor|discriminate]|].
  destruct (remove_one x b) as [b'|] eqn:R; [|discriminate]. intros Q. rewrite (remove_one_perm _ _ _ R). constructor. apply IH. exact Q.
Qed.

Section Reordered.
  Variable w : world.
  Variables fl fr : func.
  Variable S : semantics.
  Variable bin : string -> V S -> V S -> V S.
  Variable args : nat -> V S.
  Variables envL envR : nat -> V S.
  Definition cs (left : bool) : const -> V S := if left then constL S else constR S.
  Definition env (left : bool) : nat -> V S := if left then envL else envR.
  Definition val (left : bool) (v : value) : V S := eval S (cs left) args (env left) v.
  Hypothesis AC : ac bin.
  Hypothesis INT : forall z, constL S (CInt z) = constR S (CInt z).
  Hypothesis HL : computed S bin (constL S) args envL fl.
  Hypothesis HR : computed S bin (constR S) args envR fr.
  Variable s : state.
  Hypothesis REPL : forall left v u, dget (repl left s) v = Some u -> val left u = val left v.
  Hypothesis SAME : forall u v k, dget (snL s) u = Some k -> dget (snR s) v = Some k -> k <> length (snL s) - 1 -> k <> length (snR s) - 1 -> val true u = val false v.

  (** The value with a number, on a side. *)
  Definition numbered (left : bool) (k : nat) (x : V S) : Prop := k <> length (sn left s) - 1 /\ exists u, dget (sn left s) u = Some k /\ val left u = x.

  Lemma collect_made n left b : In b ["xor"; "add"; "and"; "or"; "mul"]%string -> forall v ks zs, collect fl fr n left b v s = Some (ks, zs) ->
    exists xs, Forall2 (numbered left) ks xs /\ made _ (bin b) (xs ++ map (fun z => constL S (CInt z)) zs) (val left v).
  Proof.
    intros B. destruct (AC b B) as [COM ASS]. induction n as [|n IH]; intros v ks zs; [discriminate|]. cbn [collect].
    set (u := match dget (repl left s) v with Some u => u | None => v end).
    assert (EU : val left v = val left u) by (unfold u; destruct (dget (repl left s) v) as [x|] eqn:R; [symmetry; eapply REPL; exact R|reflexivity]). rewrite EU. clearbody u. clear EU.
    assert (G : (match match inst_of (fn fl fr left) u with
          | Some i => match i_code i with
            | Binop b' => if String.eqb b b' then
                match collect fl fr n left b (op 0 i) s with
                | Some (x, p) => match collect fl fr n left b (op 1 i) s with Some (y, q) => Some (x ++ y, p ++ q) | None => None end
                | None => None
                end else None
            | _ => None end
          | None => None end with
        | Some r => Some r
        | None => match dget (sn left s) u with Some k => if k =? length (sn left s) - 1 then None else Some ([k], []) | None => None end
        end) = Some (ks, zs) -> exists xs, Forall2 (numbered left) ks xs /\ made _ (bin b) (xs ++ map (fun z => constL S (CInt z)) zs) (val left u)).
    { assert (L : match dget (sn left s) u with Some k => if k =? length (sn left s) - 1 then None else Some ([k], []) | None => None end = Some (ks, zs) ->
          exists xs, Forall2 (numbered left) ks xs /\ made _ (bin b) (xs ++ map (fun z => constL S (CInt z)) zs) (val left u)).
      { destruct (dget (sn left s) u) as [k|] eqn:K; [|discriminate]. destruct (Nat.eqb_spec k (length (sn left s) - 1)) as [_|NK]; [discriminate|]. intros H. injection H as <- <-.
        exists [val left u]. split; [constructor; [split; [exact NK|exists u; auto]|constructor]|]. apply made_one. }
      destruct (inst_of (fn fl fr left) u) as [i|] eqn:I; [|exact L]. destruct (i_code i) eqn:C; try exact L. destruct (String.eqb_spec b name) as [<-|N]; [|exact L].
      destruct (collect fl fr n left b (op 0 i) s) as [[x p]|] eqn:X; [|exact L]. destruct (collect fl fr n left b (op 1 i) s) as [[y q]|] eqn:Y; [|exact L].
      intros H. injection H as <- <-. destruct (IH _ _ _ X) as [xs [FX MX]]. destruct (IH _ _ _ Y) as [ys [FY MY]]. exists (xs ++ ys). split; [apply Forall2_app; assumption|].
      unfold inst_of in I. destruct u as [a|r|c|c]; try discriminate. apply find_inst_In in I. destruct I as [II <-].
      assert (V0 : val left (VReg (i_reg i)) = bin b (val left (op 0 i)) (val left (op 1 i))).
      { destruct left; [destruct (HL i b II C) as [o [o' [OP E]]]|destruct (HR i b II C) as [o [o' [OP E]]]]; unfold op; rewrite OP; exact E. }
      rewrite V0. pose proof (made_app _ (bin b) ASS _ _ _ _ MX MY) as Q. inversion Q as [x0 l0 E1 E2].
      assert (P : Permutation ((xs ++ ys) ++ map (fun z => constL S (CInt z)) (p ++ q)) (x0 :: l0)).
      { rewrite E1, map_app, <- !app_assoc. apply Permutation_app_head. rewrite !app_assoc. apply Permutation_app_tail. apply Permutation_app_comm. }
      destruct ((xs ++ ys) ++ map (fun z => constL S (CInt z)) (p ++ q)) as [|z1 z2] eqn:Z; [apply Permutation_nil in P; discriminate|].
      rewrite (made_perm _ (bin b) COM ASS _ _ _ _ (Permutation_sym P) (made_from _ _ x0 l0) (made_from _ _ z1 z2)). constructor. }
    destruct u as [a|r|c|[z|g]]; try exact G. intros H. injection H as <- <-. exists []. split; [constructor|].
    replace (val left (VConst (CInt z))) with (constL S (CInt z)) by (destruct left; cbn; auto). apply made_one.
  Qed.
  Lemma numbered_same ks : forall xs ys, Forall2 (numbered true) ks xs -> Forall2 (numbered false) ks ys -> xs = ys.
  Proof.
    induction ks as [|k ks IH]; intros xs ys X Y; inversion X as [|? x ? xs' [NU [u [U1 U2]]] X']; inversion Y as [|? y ? ys' [NV [v [V1 V2]]] Y']; subst; [reflexivity|].
    rewrite (IH _ _ X' Y'), (SAME _ _ _ U1 V1 NU NV). reflexivity.
  Qed.
  Lemma Forall2_perm {A B} (R : A -> B -> Prop) a a' : Permutation a a' -> forall b, Forall2 R a b -> exists b', Permutation b b' /\ Forall2 R a' b'.
  Proof.
    induction 1 as [|x a a' P IH|x y a|a1 a2 a3 P1 IH1 P2 IH2]; intros b F.
    - exists b. split; [reflexivity|exact F].
    - inversion F as [|? z ? b0 R0 F0]; subst. destruct (IH _ F0) as [b' [Q1 Q2]]. exists (z :: b'). split; constructor; assumption.
    - inversion F as [|? z ? b0 R0 F0]; subst. inversion F0 as [|? z' ? b1 R1 F1]; subst. exists (z' :: z :: b1). split; [apply perm_swap|repeat constructor; assumption].
    - destruct (IH1 _ F) as [b1 [Q1 F1]]. destruct (IH2 _ F1) as [b2 [Q2 F2]]. exists b2. split; [eapply Permutation_trans; eauto|exact F2].
  Qed.
  Theorem reordered_same i j : reordered w fl fr i j s = true -> envL (i_reg i) = envR (i_reg j).
  Proof.
    unfold reordered. intros H. apply andb_true_iff in H. destruct H as [H0 H]. apply andb_true_iff in H0. destruct H0 as [H0 _]. apply andb_true_iff in H0. destruct H0 as [_ RE].
    unfold reorderable in RE. destruct (i_code i) as [| | | | | | |a| | | | | | |]; try discriminate. destruct (i_code j) as [| | | | | | |b| | | | | | |]; try discriminate.
    apply andb_true_iff in H. destruct H as [E H]. apply String.eqb_eq in E. subst b. apply mem_In in RE.
    destruct (collect fl fr _ true a (VReg (i_reg i)) s) as [[x p]|] eqn:X; [|discriminate]. destruct (collect fl fr _ false a (VReg (i_reg j)) s) as [[y q]|] eqn:Y; [|discriminate].
    apply andb_true_iff in H. destruct H as [P1 P2]. apply same_multiset_perm in P1. apply same_multiset_perm in P2.
    destruct (collect_made _ true a RE _ _ _ X) as [xs [FX MX]]. destruct (collect_made _ false a RE _ _ _ Y) as [ys [FY MY]]. destruct (AC a RE) as [COM ASS].
    destruct (Forall2_perm _ _ _ P1 _ FX) as [xs' [Q F]]. rewrite (numbered_same _ _ _ F FY) in Q.
    change (val true (VReg (i_reg i)) = val false (VReg (i_reg j))). refine (made_perm _ _ COM ASS _ _ _ _ _ MX MY). apply Permutation_app; [exact Q|apply Permutation_map; exact P2].
  Qed.
End Reordered.
