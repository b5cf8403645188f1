(** * Inverse conditions *)
From Coq Require Import String Ascii ZArith Arith Bool Lia List.
From Verif Require Import PyBase Funcomp_Model Funcomp_Spec.
Import ListNotations.
Open Scope list_scope.
Open Scope nat_scope.

Lemma users_iff f v u : In u (users f v) <-> In u (insts f) /\ In v (i_ops u).
Proof. unfold users. rewrite filter_In, mem_In. reflexivity. Qed.

Section Users.
  Variables (w : world) (f : func).
  Lemma inverse_users_all n : forall i, inverse_users w n f i = true -> forall u, feeds w f i u -> is_not w u = true \/ i_code u = Br.
  Proof.
    assert (G : forall i u, feeds w f i u -> exists n0, forall m, inverse_users w m f i = true -> n0 < m /\ (is_not w u = true \/ i_code u = Br) /\
      (is_not w u = true -> inverse_users w (m - n0 - 1) f u = true)).
    { induction 1 as [u I O|u v FU [n0 IH] N I O].
      - exists 0. intros [|m] H; [discriminate|]. cbn [inverse_users] in H. rewrite forallb_forall in H. specialize (H u (proj2 (users_iff f _ u) (conj I O))). split; [lia|].
        destruct (is_not w u) eqn:E; [split; [auto|]; intros _; replace (S m - 0 - 1) with m by lia; exact H|].
        split; [right; destruct (i_code u); try discriminate; reflexivity|discriminate].
      - exists (S n0). intros m H. destruct (IH m H) as [L [_ K]]. specialize (K N). destruct (m - n0 - 1) as [|m'] eqn:E; [discriminate|]. cbn [inverse_users] in K. rewrite forallb_forall in K.
        specialize (K v (proj2 (users_iff f _ v) (conj I O))). split; [lia|]. destruct (is_not w v) eqn:E'; [split; [auto|]; intros _; replace (m - S n0 - 1) with m' by lia; exact K|].
        split; [right; destruct (i_code v); try discriminate; reflexivity|discriminate]. }
    intros i H u FU. destruct (G i u FU) as [n0 K]. destruct (K n H) as [_ [Q _]]. exact Q.
  Qed.
End Users.

(** Comparing two values that were not both left out changes nothing that is known of conditions. *)
Definition same_conditions (s s' : state) : Prop := inverses s' = inverses s /\ swapped s' = swapped s.
Lemma put_repl_conditions left v u s : same_conditions s (put_repl left v u s).
Proof. unfold put_repl. destruct (dmem _ _), left; split; reflexivity. Qed.
Lemma replacement_conditions w fl fr left v s : same_conditions s (snd (replacement w fl fr left v s)).
Proof.
  unfold replacement. destruct (dget _ _); [split; reflexivity|]. destruct (inst_of _ _) as [i|]; [|split; reflexivity]. cbv zeta.
  set (c := match i_code i with Cast true => safe_cast w i | _ => false end). destruct c; destruct (_ && _); cbn [snd]; try (split; reflexivity); apply put_repl_conditions.
Qed.
Lemma cmp_numbered_conditions fl fr l r s : same_conditions s (snd (cmp_numbered fl fr l r s)).
Proof.
  unfold cmp_numbered. destruct (number (snL s) l) as [a sl], (number (snR s) r) as [b sr]. destruct (a =? b); [destruct (length sl =? _); [|split; reflexivity]|].
  - destruct (phi_of fl l), (phi_of fr r); split; reflexivity.
  - destruct (is_block l && is_block r); [|split; reflexivity]. destruct (if length sl =? length sr then _ else _); split; reflexivity.
Qed.
Lemma cmp_values_conditions w fl fr n i j s b s' : i_code i = Br -> i_code j = Br ->
  inst_of fl (VReg (i_reg i)) = Some i -> inst_of fr (VReg (i_reg j)) = Some j -> ~ In (VReg (i_reg i)) (skipL s) ->
  dget (replL s) (VReg (i_reg i)) = None -> dget (replR s) (VReg (i_reg j)) = None ->
  cmp_values w fl fr n (VReg (i_reg i)) (VReg (i_reg j)) s = Some (b, s') -> inverses s' = inverses s /\ swapped s' = swapped s.
Proof.
  intros CI CJ II IJ K RI RJ. destruct n as [|n]; [discriminate|]. cbn [cmp_values]. apply mem_not_In in K. rewrite K. cbn [andb].
  destruct (_ || _ || _ || _); [intros H; injection H as <- <-; split; reflexivity|].
  assert (A : replacement w fl fr true (VReg (i_reg i)) s = (None, s)).
  { unfold replacement. cbn [repl fn]. rewrite RI, II, CI. unfold zero_gep. rewrite CI. reflexivity. }
  assert (B : replacement w fl fr false (VReg (i_reg j)) s = (None, s)).
  { unfold replacement. cbn [repl fn]. rewrite RJ, IJ, CJ. unfold zero_gep. rewrite CJ. reflexivity. }
  rewrite A, B. cbn [cmp_base]. intros H. injection H as H. pose proof (cmp_numbered_conditions fl fr (VReg (i_reg i)) (VReg (i_reg j)) s) as Q. rewrite H in Q. exact Q.
Qed.

Section Inverse.
  Variable w : world.
  Variables fl fr : func.
  Variable S : semantics.
  Variables (truth : V S -> Prop) (not_ : V S -> V S).
  Hypothesis C : conditions w S truth not_.

  Theorem comparisons cv i j s a b need s' : i_code i = Cmp a -> i_code j = Cmp b -> cmp_operation w fl fr cv i j s = Some (true, need, s') ->
    need = true /\ ((forall vs m, exec S (Cmp a) (i_rest i) vs m = exec S (Cmp b) (i_rest j) vs m) \/
      (In (Some (VReg (i_reg i)), Some (VReg (i_reg j))) (inverses s') /\
       (forall vs m v m', exec S (Cmp b) (i_rest j) vs m = Some (v, m') -> exec S (Cmp a) (i_rest i) vs m = Some (not_ v, m')) /\
       (forall u, feeds w fl i u -> is_not w u = true \/ i_code u = Br) /\ (forall u, feeds w fr j u -> is_not w u = true \/ i_code u = Br))).
  Proof.
    intros CI CJ. unfold cmp_operation, is_phi. rewrite CI, CJ. cbn [andb]. destruct (cmp_operation_base w cv i j s) as [[[res nd] s1]|] eqn:B; [|discriminate].
    unfold cmp_operation_base in B. rewrite CI, CJ in B. destruct (cv _ _ s) as [[b1 s0]|]; [|discriminate].
    assert (ND : nd = true /\ (res = true -> forall vs m, exec S (Cmp a) (i_rest i) vs m = exec S (Cmp b) (i_rest j) vs m)).
    { destruct b1; injection B as <- <- <-; (split; [reflexivity|]); [|discriminate]. cbn [same_code]. intros Q vs m. apply andb_true_iff in Q. destruct Q as [Q _]. apply andb_true_iff in Q. destruct Q as [Q R].
      apply andb_true_iff in Q. destruct Q as [Q _]. apply String.eqb_eq in Q. subst b. apply (compares_rest _ _ _ _ C). exact R. }
    destruct ND as [-> E]. destruct res; cbn [negb andb].
    - intros H. injection H as <- <-. split; [reflexivity|]. left. exact (E eq_refl).
    - match goal with |- (if ?q then _ else _) = _ -> _ => destruct q eqn:Q end; [|discriminate]. intros H. injection H as <- <-. split; [reflexivity|]. right.
      apply andb_true_iff in Q. destruct Q as [Q UR]. apply andb_true_iff in Q. destruct Q as [Q UL]. apply andb_true_iff in Q. destruct Q as [Q P]. apply andb_true_iff in Q. destruct Q as [_ R].
      split; [left; reflexivity|]. apply String.eqb_eq in P. subst a.
      split; [intros vs m v m' X; rewrite (compares_rest _ _ _ _ C _ _ _ vs m R), (compares_inverse _ _ _ _ C), X; reflexivity|].
      split; intros u FU; [eapply (inverse_users_all w fl)|eapply (inverse_users_all w fr)]; eassumption.
  Qed.

  (** The block that the second branch goes to, and its place among the targets as they are compared. *)
  Theorem branches n i j s c d x y z t need s' : i_code i = Br -> i_code j = Br -> i_ops i = [c; VBlock x; VBlock y] -> i_ops j = [d; VBlock z; VBlock t] ->
    inst_of fl (VReg (i_reg i)) = Some i -> inst_of fr (VReg (i_reg j)) = Some j -> ~ In (VReg (i_reg i)) (skipL s) ->
    dget (replL s) (VReg (i_reg i)) = None -> dget (replR s) (VReg (i_reg j)) = None -> ~ In (i_reg j) (swapped s) ->
    cmp_operation w fl fr (cmp_values w fl fr n) i j s = Some (true, need, s') ->
    (In (Some c, Some d) (inverses s) -> forall v xl yl xr yr k k', truth v -> choose S Br (i_rest i) [not_ v; xl; yl] = Some k -> choose S Br (i_rest j) [v; xr; yr] = Some k' ->
       nth_error (successors j) k' = nth_error (successors (now s' j)) k) /\
    (~ In (Some c, Some d) (inverses s) -> now s' j = j).
  Proof.
    intros CI CJ OI OJ II IJ KI RI RJ NS. unfold cmp_operation, is_phi. rewrite CI. cbn [andb].
    destruct (cmp_operation_base w (cmp_values w fl fr n) i j s) as [[[res nd] s1]|] eqn:B; [|discriminate].
    assert (G : inverses s1 = inverses s /\ swapped s1 = swapped s).
    { unfold cmp_operation_base in B. destruct (cmp_values w fl fr n _ _ s) as [[b s0]|] eqn:CV; [|discriminate]. rewrite CI, CJ in B.
      assert (E : s1 = s0) by (destruct b; injection B as _ _ <-; reflexivity). subst s0. exact (cmp_values_conditions w fl fr n i j s b s1 CI CJ II IJ KI RI RJ CV). }
    destruct G as [I1 W1]. rewrite CJ.
    rewrite OI, OJ. destruct (mem (Some c, Some d) (inverses s1)) eqn:M.
    - apply mem_In in M. rewrite I1 in M. intros H. injection H as <- <-. split; [intros _|intros F; destruct (F M)].
      intros v xl yl xr yr k k' T K K'. rewrite (chooses_other _ _ _ _ C _ (i_rest i) _ _ _ xl yl _ T K') in K. injection K as <-. pose proof (chooses _ _ _ _ C _ _ _ _ _ K') as R.
      apply mem_not_In in NS. rewrite W1, NS. unfold now. cbn [swapped note set_inv].
      assert (F : mem (i_reg j) (i_reg j :: swapped s) = true) by (apply mem_In; left; reflexivity). rewrite F. unfold successors, swap_targets. rewrite OJ. cbn [i_code i_ops]. rewrite CJ. cbn [blocks_of flat_map rev app].
      destruct d; destruct R as [->| ->]; reflexivity.
    - intros H. injection H as -> <- <-. apply mem_not_In in M. rewrite I1 in M. split; [intros F; destruct (M F)|intros _]. unfold now. rewrite W1. apply mem_not_In in NS. rewrite NS. reflexivity.
  Qed.

  (** A negation that is left out: the negated value stands for it, and what is known of the pairs
      is again right for it. *)
  Theorem negations (left : bool) i s m (val : bool -> value -> V S) : let v := op 0 i in let n := VReg (i_reg i) in let pair x := if left then (Some x, Some m) else (Some m, Some x) in
    truth (val (negb left) m) -> mapped left v s = Some m -> dget (repl left s) n = None -> n <> v -> ~ In (pair n) (inverses s) -> val left n = not_ (val left v) ->
    (In (pair v) (inverses s) -> val left v = not_ (val (negb left) m)) -> (~ In (pair v) (inverses s) -> val left v = val (negb left) m) ->
    dget (repl left (negation left i s)) n = Some v /\
    (In (pair n) (inverses (negation left i s)) -> val left n = not_ (val (negb left) m)) /\
    (~ In (pair n) (inverses (negation left i s)) -> val left n = val (negb left) m) /\
    (forall p, p <> pair v -> p <> pair n -> (In p (inverses (negation left i s)) <-> In p (inverses s))).
  Proof.
    intros v n pair T M R NV NI E K1 K2. unfold negation. fold v n. rewrite M. set (s1 := put_repl left n v s).
    assert (RR : dget (repl left s1) n = Some v /\ inverses s1 = inverses s).
    { unfold s1, put_repl, dmem. rewrite R. destruct left; cbn [repl replL replR set_repl inverses]; (split; [apply dget_dset_same|reflexivity]). }
    destruct RR as [RR IS]. rewrite IS.
    assert (PV : (if left then (Some v, Some m) else (Some m, Some v)) = pair v) by (destruct left; reflexivity).
    assert (PN : (if left then (Some n, Some m) else (Some m, Some n)) = pair n) by (destruct left; reflexivity). rewrite PV, PN.
    assert (RS : forall a b, repl left (set_inv s1 a b) = repl left s1) by (intros a b; destruct left; reflexivity).
    destruct (mem (pair v) (inverses s)) eqn:Q; rewrite RS; (split; [exact RR|]); cbn [inverses set_inv].
    - apply mem_In in Q. specialize (K1 Q). split; [intros F; apply filter_In in F; destruct (NI (proj1 F))|]. split; [intros _; rewrite E, K1; apply (not_not _ _ _ _ C); exact T|].
      intros p NP _. rewrite filter_In. split; [intros [X _]; exact X|]. intros X. split; [exact X|]. apply negb_true_iff. destruct (eqb_spec (pair v) p) as [F|_]; [destruct NP; symmetry; exact F|reflexivity].
    - apply mem_not_In in Q. specialize (K2 Q). split; [intros _; rewrite E, K2; reflexivity|]. split; [intros F; destruct F; left; reflexivity|].
      intros p _ NP. split; [intros [X|X]; [destruct NP; symmetry; exact X|exact X]|intros X; right; exact X].
  Qed.
End Inverse.
