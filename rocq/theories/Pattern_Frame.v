(** * What the matching of one side of a pattern keeps: the inputs once bound, and that every
    matched instruction is an instance of its counterpart. *)
From Coq Require Import String Ascii ZArith Arith Bool Lia List.
From Verif Require Import PyBase Funcomp_Model Source_Model Pattern_Model Pattern_Spec.
Import ListNotations.
Open Scope list_scope.
Open Scope nat_scope.

Definition keeps (s s' : mstate) : Prop := forall v x, dget (pim s) v = Some x -> dget (pim s') v = Some x.
Lemma keeps_refl s : keeps s s. Proof. intros v x H; exact H. Qed.
Lemma keeps_trans a b c : keeps a b -> keeps b c -> keeps a c. Proof. intros H K v x E; auto. Qed.

Lemma const_match_iff left a b : const_match left a b = true <-> consts_correspond left a b.
Proof.
  split.
  - destruct a, b; cbn; intros H; try discriminate; [apply Z.eqb_eq in H; subst; constructor|constructor; exact H].
  - intros [z|x y H]; cbn; [apply Z.eqb_refl|exact H].
Qed.

Section Frame.
  Variable same_rest : string -> string -> bool.
  Variable struct_gep : inst -> bool.
  Variable left : bool.
  Variables mf pf : func.
  Variable pmeta : dict nat meta.
  Variable inputs : list value.

  Notation map_loop := (map_loop mf pf inputs).
  Notation map_inputs := (map_inputs mf pf inputs).
  Notation cmp_values := (cmp_values left mf pf inputs).
  Notation cmp_list := (cmp_list left mf pf inputs).
  Notation cmp_operation := (cmp_operation same_rest struct_gep left mf pf pmeta inputs).
  Notation cmp_inst := (cmp_inst same_rest struct_gep left mf pf pmeta inputs).
  Notation cmp_block := (cmp_block same_rest struct_gep left mf pf pmeta inputs).
  Notation stands s := (stands_for left inputs (dget (pim s))).

  (** During the comparison of a pair of instructions, that began with the inputs [P0]. *)
  Definition att (P0 : dict value value) (s : mstate) : Prop :=
    (forall v x, dget P0 v = Some x -> dget (pim s) v = Some x) /\ (forall v, In v (newPR s) -> dget P0 v = None).

  Lemma push_ops_work ms : forall ps p visited work v w, push_ops ms ps p visited work = (v, w) ->
    forall a b, In (a, b) w -> In (a, b) work \/ dget p b = None.
  Proof.
    induction ms as [|m ms IH]; intros [|q ps] p visited work v w E a b H; cbn in E; try (injection E as <- <-; auto).
    destruct (dmem p q) eqn:D; [eapply IH; eauto|]. destruct (mem m visited); [eapply IH; eauto|].
    destruct (IH _ _ _ _ _ _ E _ _ H) as [[K|K]|K]; auto.
    injection K as <- <-. right. unfold dmem in D. destruct (dget p q); [discriminate|reflexivity].
  Qed.
  Lemma map_loop_frame P0 n : forall work visited s ok s',
    map_loop n work visited s = (ok, s') -> att P0 s -> (forall a b, In (a, b) work -> dget P0 b = None) ->
    att P0 s' /\ imm s' = imm s /\
    (forall v x, dget (pim s) v = Some x -> (forall a, ~ In (a, v) work) -> dget (pim s') v = Some x).
  Proof.
    induction n as [|n IH]; intros [|[m p] work] visited s ok s' E A W; cbn in E; try (injection E as <- <-; auto).
    destruct (mem p inputs) eqn:I; cbn in E.
    2:{ destruct (IH _ _ _ _ _ E A) as (B & C & D); [intros a b H; apply (W a); right; exact H|].
        split; [exact B|]. split; [exact C|]. intros v x Hv Hn. apply D; [exact Hv|]. intros a H. apply (Hn a). right. exact H. }
    set (s1 := set_inputs s (set_add m (newML s)) (set_add p (newPR s)) (dset (pim s) p m) (dset (mim s) m p)) in *.
    assert (A1 : att P0 s1).
    { split; cbn.
      - intros v x H. rewrite dget_dset. destruct (eqb_spec v p) as [->|N]; [|apply A; exact H].
        rewrite (W m p (or_introl eq_refl)) in H. discriminate.
      - intros v H. apply set_add_In in H. destruct H as [->|H]; [apply (W m); left; reflexivity|apply A; exact H]. }
    assert (K1 : forall v x, dget (pim s) v = Some x -> v <> p -> dget (pim s1) v = Some x).
    { intros v x H N. cbn. rewrite dget_dset_other by exact N. exact H. }
    assert (REST : forall vis wk, map_loop n wk vis s1 = (ok, s') ->
      (forall a b, In (a, b) wk -> In (a, b) work \/ dget (pim s1) b = None) ->
      att P0 s' /\ imm s' = imm s /\ (forall v x, dget (pim s) v = Some x -> (forall a, ~ In (a, v) ((m, p) :: work)) -> dget (pim s') v = Some x)).
    { intros vis wk E1 Hw. destruct (IH _ _ _ _ _ E1 A1) as (B & C & D).
      - intros a b H. destruct (Hw a b H) as [H1|H1]; [apply (W a); right; exact H1|].
        destruct (dget P0 b) eqn:Q; [|reflexivity]. apply A1 in Q. congruence.
      - split; [exact B|]. split; [exact C|]. intros v x Hv Hn. apply D.
        + apply K1; [exact Hv|]. intros ->. apply (Hn m). left. reflexivity.
        + intros a H. destruct (Hw a v H) as [H1|H1]; [apply (Hn a); right; exact H1|].
          rewrite (K1 v x Hv) in H1; [discriminate|]. intros ->. apply (Hn m). left. reflexivity. }
    destruct (ops_of mf m) as [mo|]; [|apply (REST _ _ E); auto].
    destruct (ops_of pf p) as [po|]; [|apply (REST _ _ E); auto].
    destruct (length mo =? length po)%nat; cbn in E.
    - destruct (push_ops mo po (dset (pim s) p m) visited work) as [v w] eqn:Q. apply (REST _ _ E).
      intros a b H. exact (push_ops_work _ _ _ _ _ _ _ Q a b H).
    - injection E as <- <-. split; [exact A1|]. split; [reflexivity|]. intros v x Hv Hn. apply K1; [exact Hv|].
      intros ->. apply (Hn m). left. reflexivity.
  Qed.
  Lemma map_inputs_frame P0 m p s ok s' : map_inputs m p s = (ok, s') -> att P0 s ->
    att P0 s' /\ imm s' = imm s /\ keeps s s' /\ (ok = true -> In p inputs -> dget (pim s') p = Some m).
  Proof.
    unfold Pattern_Model.map_inputs. intros E A. destruct (dget (pim s) p) as [m'|] eqn:D.
    - injection E as <- <-. split; [exact A|]. split; [reflexivity|]. split; [apply keeps_refl|].
      intros H _. destruct (value_eqb_spec m' m); [congruence|discriminate].
    - assert (W : forall a b, In (a, b) [(m, p)] -> dget P0 b = None).
      { intros a b [H|[]]. injection H as <- <-. destruct (dget P0 p) eqn:Q; [|reflexivity]. apply A in Q. congruence. }
      destruct (map_loop_frame P0 _ _ _ _ _ _ E A W) as (B & C & K).
      split; [exact B|]. split; [exact C|]. split.
      { intros v x H. apply K; [exact H|]. intros a [Q|[]]. injection Q as <- <-. congruence. }
      intros -> I. unfold map_fuel in E. remember (S (length (flat_map i_ops (insts mf)))) as fuel. cbn in E. apply mem_In in I. rewrite I in E. cbn in E.
      set (s1 := set_inputs s (set_add m (newML s)) (set_add p (newPR s)) (dset (pim s) p m) (dset (mim s) m p)) in *.
      assert (P1 : dget (pim s1) p = Some m) by apply dget_dset_same.
      assert (A1 : att P0 s1).
      { split; cbn.
        - intros v x H. rewrite dget_dset. destruct (eqb_spec v p) as [->|N]; [|apply A; exact H].
          rewrite (W m p (or_introl eq_refl)) in H. discriminate.
        - intros v H. apply set_add_In in H. destruct H as [->|H]; [apply (W m); left; reflexivity|apply A; exact H]. }
      assert (REST : forall k vis wk, map_loop k wk vis s1 = (true, s') ->
        (forall a b, In (a, b) wk -> dget (pim s1) b = None) -> dget (pim s') p = Some m).
      { intros k vis wk E1 Hw. destruct (map_loop_frame P0 _ _ _ _ _ _ E1 A1) as (_ & _ & K2).
        - intros a b H. destruct (dget P0 b) eqn:Q; [|reflexivity]. apply A1 in Q. rewrite (Hw a b H) in Q. discriminate.
        - apply K2; [exact P1|]. intros a H. rewrite (Hw a p H) in P1. discriminate. }
      destruct (ops_of mf m) as [mo|]; [|apply (REST _ _ _ E); intros a b []].
      destruct (ops_of pf p) as [po|]; [|apply (REST _ _ _ E); intros a b []].
      destruct (length mo =? length po)%nat; cbn in E; [|discriminate].
      destruct (push_ops mo po (dset (pim s) p m) [m] []) as [v w] eqn:Q. apply (REST _ _ _ E).
      intros a b H. destruct (push_ops_work _ _ _ _ _ _ _ Q a b H) as [[]|H1]. exact H1.
  Qed.

  Lemma base_cmp_frame a b s ok s' : base_cmp left a b s = (ok, s') ->
    pim s' = pim s /\ newPR s' = newPR s /\ imm s' = imm s /\
    (ok = true -> (exists x y, a = VConst x /\ b = VConst y /\ consts_correspond left x y) \/ (is_const a = false /\ is_const b = false)).
  Proof.
    unfold base_cmp. intros E.
    assert (N : (let '(i, l) := number (nL s) a in let '(j, r) := number (nR s) b in ((i =? j)%nat, set_numbers s l r)) = (ok, s') ->
                pim s' = pim s /\ newPR s' = newPR s /\ imm s' = imm s).
    { destruct (number (nL s) a), (number (nR s) b). intros H. injection H as <- <-. auto. }
    destruct a, b; try (destruct (N E) as (A & B & C); repeat split; auto; fail);
      try (injection E as <- <-; repeat split; auto; discriminate).
    injection E as <- <-. repeat split; auto. intros H. left. exists c, c0. repeat split; auto. apply const_match_iff. exact H.
  Qed.
  Lemma stands_keeps s s' a b : keeps s s' -> stands s a b -> stands s' a b.
  Proof. intros K [x y H|x y A B C]; constructor; auto. Qed.
  Lemma cmp_values_frame P0 a b s ok s' : cmp_values a b s = (ok, s') -> att P0 s ->
    att P0 s' /\ imm s' = imm s /\ keeps s s' /\ (ok = true -> stands s' a b).
  Proof.
    unfold Pattern_Model.cmp_values. intros E A. destruct (base_cmp left a b s) as [ok1 s1] eqn:B.
    destruct (base_cmp_frame _ _ _ _ _ B) as (P & Q & I & C).
    assert (A1 : att P0 s1). { unfold att. rewrite P, Q. exact A. }
    destruct ok1; cbn in E.
    - destruct (touch (nL s1) a) as [i l]. destruct (touch (nR s1) b) as [j r].
      destruct (map_inputs_frame P0 _ _ _ _ _ E A1) as (D & F & K & G). split; [exact D|]. cbn in F. rewrite F, I.
      split; [reflexivity|]. split; [intros v x H; apply K; cbn; rewrite P; exact H|].
      intros H. destruct (C eq_refl) as [(x & y & -> & -> & R)|[X Y]]; constructor; auto.
    - injection E as <- <-. split; [exact A1|]. split; [exact I|]. split; [intros v x H; rewrite P; exact H|discriminate].
  Qed.
  Lemma cmp_list_frame P0 ms : forall ps s ok s', cmp_list ms ps s = (ok, s') -> att P0 s ->
    att P0 s' /\ imm s' = imm s /\ keeps s s' /\ (ok = true -> length ms = length ps -> Forall2 (stands s') ms ps).
  Proof.
    induction ms as [|m ms IH]; intros [|p ps] s ok s' E A; cbn in E;
      try (injection E as <- <-; split; [exact A|]; split; [reflexivity|]; split; [apply keeps_refl|]; cbn; intros; [constructor || discriminate]).
    destruct (cmp_values m p s) as [ok1 s1] eqn:C. destruct (cmp_values_frame P0 _ _ _ _ _ C A) as (A1 & I1 & K1 & S1).
    destruct ok1.
    - destruct (IH _ _ _ _ E A1) as (A2 & I2 & K2 & S2). split; [exact A2|]. split; [congruence|].
      split; [eapply keeps_trans; eauto|]. cbn. intros H L. constructor; [|apply S2; [exact H|lia]].
      eapply stands_keeps; [exact K2|]. apply S1. reflexivity.
    - injection E as <- <-. split; [exact A1|]. split; [exact I1|]. split; [exact K1|discriminate].
  Qed.
  Lemma stands_list_keeps s s' a b : keeps s s' -> Forall2 (stands s) a b -> Forall2 (stands s') a b.
  Proof. intros K. induction 1; constructor; auto. eapply stands_keeps; eauto. Qed.
  Lemma instance_keeps s s' m p : keeps s s' -> instance_of same_rest (stands s) m p -> instance_of same_rest (stands s') m p.
  Proof.
    intros K [A B C D E|x y A B C D|x y A B C D|z A B C].
    - apply Instance_plain; auto. eapply stands_list_keeps; eauto.
    - eapply Instance_phi; eauto. eapply stands_list_keeps; eauto.
    - eapply Instance_gep; eauto. eapply stands_list_keeps; eauto.
    - eapply Instance_offset; eauto. eapply stands_keeps; eauto.
  Qed.

  Lemma same_code_eq a b : same_code a b = true -> a = b /\ (forall x, b <> Gep x) /\ (forall x, b <> Phi x).
  Proof.
    destruct a, b; cbn; intros H; try discriminate; try (repeat split; intros; congruence).
    - apply Bool.eqb_prop in H. subst. repeat split; intros; congruence.
    - apply String.eqb_eq in H. subst. repeat split; intros; congruence.
    - apply String.eqb_eq in H. subst. repeat split; intros; congruence.
  Qed.
  Lemma cmp_geps_frame P0 m p x y s ok s' : i_code m = Gep x -> i_code p = Gep y -> stands s (op 0 m) (op 0 p) ->
    cmp_geps same_rest struct_gep left mf pf pmeta inputs m p x y s = (ok, s') -> att P0 s ->
    att P0 s' /\ imm s' = imm s /\ keeps s s' /\ (ok = true -> instance_of same_rest (stands s') m p).
  Proof.
    unfold cmp_geps. intros Cm Cp S0 E A.
    assert (OPS : forall ok s', (if same_rest (i_rest m) (i_rest p) && (length (i_ops m) =? length (i_ops p))%nat then cmp_list (i_ops m) (i_ops p) s else (false, s)) = (ok, s') ->
      att P0 s' /\ imm s' = imm s /\ keeps s s' /\ (ok = true -> instance_of same_rest (stands s') m p)).
    { clear E ok s'. intros ok s' E. destruct (same_rest (i_rest m) (i_rest p)) eqn:R; cbn in E; [|injection E as <- <-; repeat split; auto; try apply A; apply keeps_refl || discriminate].
      destruct (Nat.eqb_spec (length (i_ops m)) (length (i_ops p))) as [L|L]; [|injection E as <- <-; repeat split; auto; try apply A; apply keeps_refl || discriminate].
      destruct (cmp_list_frame P0 _ _ _ _ _ E A) as (A1 & I1 & K1 & S1). repeat split; auto; try apply A1.
      intros H. eapply Instance_gep; eauto. }
    destruct (struct_gep m && struct_gep p && negb (flag pmeta m_noname p)); [exact (OPS _ _ E)|].
    destruct x as [a|]; [|exact (OPS _ _ E)]. destruct y as [b|]; [|exact (OPS _ _ E)].
    injection E as <- <-. split; [exact A|]. split; [reflexivity|]. split; [apply keeps_refl|].
    intros H. apply Z.eqb_eq in H. subst b. eapply Instance_offset; eauto.
  Qed.
  Lemma cmp_operation_frame P0 m p s ok s' : cmp_operation m p s = (ok, s') -> att P0 s ->
    att P0 s' /\ imm s' = imm s /\ keeps s s' /\
    (ok = true -> instance_of same_rest (stands s') m p /\ stands s' (VReg (i_reg m)) (VReg (i_reg p))).
  Proof.
    unfold Pattern_Model.cmp_operation. intros E A. destruct (cmp_values (VReg (i_reg m)) (VReg (i_reg p)) s) as [ok1 s1] eqn:C.
    destruct (cmp_values_frame P0 _ _ _ _ _ C A) as (A1 & I1 & K1 & S1).
    destruct ok1; cbn in E.
    2:{ injection E as <- <-. repeat split; auto; try apply A1; discriminate. }
    specialize (S1 eq_refl).
    assert (PLAIN : forall ok s', (if same_code (i_code m) (i_code p) && cmp_rest same_rest m p then cmp_list (i_ops m) (i_ops p) s1 else (false, s1)) = (ok, s') ->
      att P0 s' /\ imm s' = imm s /\ keeps s s' /\ (ok = true -> instance_of same_rest (stands s') m p /\ stands s' (VReg (i_reg m)) (VReg (i_reg p)))).
    { clear E ok s'. intros ok s' E. destruct (same_code (i_code m) (i_code p)) eqn:SC; cbn in E.
      2:{ injection E as <- <-. repeat split; auto; try apply A1; discriminate. }
      destruct (cmp_rest same_rest m p) eqn:R.
      2:{ injection E as <- <-. repeat split; auto; try apply A1; discriminate. }
      unfold cmp_rest in R. apply andb_prop in R. destruct R as [R _]. apply andb_prop in R. destruct R as [L R]. apply Nat.eqb_eq in L.
      destruct (cmp_list_frame P0 _ _ _ _ _ E A1) as (A2 & I2 & K2 & S2). split; [exact A2|]. split; [congruence|].
      split; [eapply keeps_trans; eauto|]. intros H. destruct (same_code_eq _ _ SC) as (X & Y & Z).
      split; [apply Instance_plain; auto|]. eapply stands_keeps; eauto. }
    destruct (i_code m) as [x| | | | | |x| | | | | | | |] eqn:Cm; try exact (PLAIN _ _ E).
    - destruct (i_code p) as [y| | | | | |y| | | | | | | |] eqn:Cp; try exact (PLAIN _ _ E).
      destruct (cmp_rest same_rest m p) eqn:R; cbn in E.
      2:{ injection E as <- <-. repeat split; auto; try apply A1; discriminate. }
      unfold cmp_rest in R. apply andb_prop in R. destruct R as [R _]. apply andb_prop in R. destruct R as [L R]. apply Nat.eqb_eq in L.
      destruct (cmp_list (map VBlock x) (map VBlock y) s1) as [ok2 s2] eqn:E2.
      destruct (cmp_list_frame P0 _ _ _ _ _ E2 A1) as (A2 & I2 & K2 & _).
      destruct ok2; cbn in E.
      2:{ injection E as <- <-. split; [exact A2|]. split; [congruence|]. split; [eapply keeps_trans; eauto|discriminate]. }
      destruct (cmp_list_frame P0 _ _ _ _ _ E A2) as (A3 & I3 & K3 & S3). split; [exact A3|]. split; [congruence|].
      assert (K : keeps s1 s') by (eapply keeps_trans; eauto).
      split; [eapply keeps_trans; eauto|]. intros H. split; [eapply Instance_phi; eauto|]. eapply stands_keeps; eauto.
    - destruct (i_code p) as [y| | | | | |y| | | | | | | |] eqn:Cp; try exact (PLAIN _ _ E).
      destruct (cmp_values (op 0 m) (op 0 p) s1) as [ok2 s2] eqn:E2.
      destruct (cmp_values_frame P0 _ _ _ _ _ E2 A1) as (A2 & I2 & K2 & S2).
      destruct ok2; cbn in E.
      2:{ injection E as <- <-. split; [exact A2|]. split; [congruence|]. split; [eapply keeps_trans; eauto|discriminate]. }
      destruct (cmp_geps_frame P0 _ _ _ _ _ _ _ Cm Cp (S2 eq_refl) E A2) as (A3 & I3 & K3 & S3).
      split; [exact A3|]. split; [congruence|]. assert (K : keeps s1 s') by (eapply keeps_trans; eauto).
      split; [eapply keeps_trans; eauto|]. intros H. split; [auto|]. eapply stands_keeps; eauto.
  Qed.

  (** What is known of a pair of matched instructions. *)
  Definition good (s : mstate) (p m : nat) : Prop :=
    exists mi pi, In mi (insts mf) /\ In pi (insts pf) /\ i_reg mi = m /\ i_reg pi = p /\
      instance_of same_rest (stands s) mi pi /\ stands s (VReg m) (VReg p).
  Definition Inv (s : mstate) : Prop := forall p m, dget (imm s) p = Some m -> good s p m.
  Lemma good_keeps s s' p m : keeps s s' -> good s p m -> good s' p m.
  Proof.
    intros K (mi & pi & A & B & C & D & E & F). exists mi, pi. repeat split; auto; [eapply instance_keeps; eauto|eapply stands_keeps; eauto].
  Qed.
  Lemma Inv_same s s' : keeps s s' -> imm s' = imm s -> Inv s -> Inv s'.
  Proof. intros K E I p m H. rewrite E in H. eapply good_keeps; eauto. Qed.
  Lemma erase_all_other {V} l : forall (d : dict value V) v, ~ In v l -> dget (erase_all l d) v = dget d v.
  Proof.
    induction l as [|a l IH]; intros d v H; cbn; [reflexivity|]. unfold erase_all in IH. rewrite IH by (intros K; apply H; right; exact K).
    apply dget_ddel_other. intros ->. apply H. left. reflexivity.
  Qed.
  Lemma cmp_inst_frame m p s ok s' : cmp_inst m p s = (ok, s') ->
    keeps s s' /\ keeps s (erase_new s') /\
    imm s' = (if ok then dset (imm s) (i_reg p) (i_reg m) else imm s) /\
    (ok = true -> instance_of same_rest (stands s') m p /\ stands s' (VReg (i_reg m)) (VReg (i_reg p))).
  Proof.
    unfold Pattern_Model.cmp_inst. intros E. set (s0 := set_inputs (set_new s [] []) [] [] (pim s) (mim s)) in *.
    assert (A0 : att (pim s) s0). { split; cbn; [auto|intros v []]. }
    destruct (cmp_operation m p s0) as [ok1 s1] eqn:C. destruct (cmp_operation_frame _ _ _ _ _ _ C A0) as (A1 & I1 & K1 & S1).
    cbn in I1.
    assert (KE : keeps s (erase_new s1)).
    { intros v x H. cbn. rewrite erase_all_other; [apply K1; exact H|]. intros J. apply A1 in J. congruence. }
    destruct ok1; injection E as <- <-.
    - split; [exact K1|]. split; [exact KE|]. split; [cbn; rewrite I1; reflexivity|]. exact S1.
    - split; [exact K1|]. split; [exact KE|]. split; [exact I1|exact S1].
  Qed.
  Lemma cmp_inst_Inv m p s ok s' : cmp_inst m p s = (ok, s') -> In m (insts mf) -> In p (insts pf) -> Inv s ->
    keeps s s' /\ Inv s' /\ keeps s (erase_new s') /\ (ok = false -> Inv (erase_new s')).
  Proof.
    intros E Hm Hp I. destruct (cmp_inst_frame _ _ _ _ _ E) as (K & KE & M & S). split; [exact K|].
    split; [|split; [exact KE|]].
    - destruct ok; [|eapply Inv_same; eauto]. intros q n H. rewrite M, dget_dset in H. destruct (eqb_spec q (i_reg p)) as [->|N].
      + injection H as <-. destruct (S eq_refl) as [S1 S2]. exists m, p. auto 10.
      + eapply good_keeps; [exact K|]. apply I. exact H.
    - intros ->. eapply Inv_same; [exact KE| |exact I]. cbn. exact M.
  Qed.

  (** A step of the whole matching: inputs are kept and so is the invariant, and what is matched
      remains matched. *)
  Definition grows (s s' : mstate) : Prop := forall q, dmem (imm s) q = true -> dmem (imm s') q = true.
  Definition step (s s' : mstate) : Prop := keeps s s' /\ (Inv s -> Inv s') /\ grows s s'.
  Lemma grows_same s s' : imm s' = imm s -> grows s s'.
  Proof. intros E q H. rewrite E. exact H. Qed.
  Lemma step_refl s : step s s. Proof. split; [apply keeps_refl|]. split; [auto|]. apply grows_same. reflexivity. Qed.
  Lemma step_trans a b c : step a b -> step b c -> step a c.
  Proof. intros (A & B & C) (D & E & F). split; [eapply keeps_trans; eauto|]. split; [auto|]. intros q H. auto. Qed.
  Lemma step_inst m p s ok s' : cmp_inst m p s = (ok, s') -> In m (insts mf) -> In p (insts pf) -> step s s'.
  Proof.
    intros E Hm Hp. split; [eapply cmp_inst_frame; eauto|]. split; [intros I; eapply cmp_inst_Inv; eauto|].
    destruct (cmp_inst_frame _ _ _ _ _ E) as (_ & _ & M & _). intros q H. rewrite M. destruct ok; [|exact H].
    unfold dmem in *. rewrite dget_dset. destruct (eqb_spec q (i_reg p)); [reflexivity|exact H].
  Qed.
  Lemma matched_inst m p s s' : cmp_inst m p s = (true, s') -> dget (imm s') (i_reg p) = Some (i_reg m).
  Proof. intros E. destruct (cmp_inst_frame _ _ _ _ _ E) as (_ & _ & M & _). rewrite M. apply dget_dset_same. Qed.
  Lemma step_same s s' : keeps s s' -> imm s' = imm s -> step s s'.
  Proof. intros K E. split; [exact K|]. split; [apply Inv_same; auto|apply grows_same; exact E]. Qed.
  Lemma step_erase m p s s' : cmp_inst m p s = (false, s') -> step s (erase_new s').
  Proof. intros E. destruct (cmp_inst_frame _ _ _ _ _ E) as (K & KE & M & _). apply step_same; [exact KE|exact M]. Qed.
  Lemma step_value a b s ok s' : cmp_values a b s = (ok, s') -> step s s'.
  Proof.
    intros E. assert (A : att [] s). { split; [intros v x H; discriminate|intros v _; reflexivity]. }
    destruct (cmp_values_frame _ _ _ _ _ _ E A) as (_ & I & K & _). apply step_same; auto.
  Qed.
  Lemma step_depth s d : step s (set_depth s d).
  Proof. apply step_same; [intros v x H; exact H|reflexivity]. Qed.
  Lemma step_numbers s l r : step s (set_numbers s l r).
  Proof. apply step_same; [intros v x H; exact H|reflexivity]. Qed.

  Definition within (f : func) (l : list inst) : Prop := forall i, In i l -> In i (insts f).
  Lemma cmp_block_step ml : forall first pl s ok s' ml' pl', cmp_block first ml pl s = (ok, s', ml', pl') -> within mf ml -> within pf pl ->
    step s s' /\ within mf ml' /\ within pf pl'.
  Proof.
    induction ml as [|m ml IH]; intros first pl s ok s' ml' pl' E Wm Wp; cbn [Pattern_Model.cmp_block] in E.
    { destruct pl; injection E as <- <- <- <-; split; [apply step_refl|auto|apply step_refl|auto]. }
    destruct pl as [|p pl]; [injection E as <- <- <- <-; split; [apply step_refl|auto]|].
    destruct (flag pmeta m_end p); [injection E as <- <- <- <-; split; [apply step_refl|auto]|].
    destruct (is_terminator m && negb (is_terminator p) && (length (successors m) =? 1)%nat); [injection E as <- <- <- <-; split; [apply step_refl|auto]|].
    assert (Hp : In p (insts pf)) by (apply Wp; left; reflexivity).
    destruct (negb (is_terminator m) && is_terminator p).
    { destruct (length (successors p) =? 1)%nat; [injection E as <- <- <- <-; split; [apply step_refl|auto]|].
      destruct (rev (m :: ml)) as [|t rl] eqn:R; [injection E as <- <- <- <-; split; [apply step_refl|auto]|].
      assert (Ht : In t (insts mf)). { apply Wm. apply in_rev. rewrite R. left. reflexivity. }
      destruct (cmp_inst t p s) as [ok1 s1] eqn:C. destruct ok1; injection E as <- <- <- <-.
      - split; [eapply step_trans; [eapply step_inst; eauto|apply step_depth]|]. split; [intros i [<-|[]]; exact Ht|exact Wp].
      - split; [eapply step_erase; eauto|]. split; [intros i [<-|[]]; exact Ht|exact Wp]. }
    destruct (cmp_inst m p s) as [ok1 s1] eqn:C.
    assert (Hm : In m (insts mf)) by (apply Wm; left; reflexivity).
    assert (Wm' : within mf ml) by (intros i Hi; apply Wm; right; exact Hi).
    assert (Wp' : within pf pl) by (intros i Hi; apply Wp; right; exact Hi).
    destruct ok1.
    - assert (S1 : step s (update_depth pmeta p s1)). { eapply step_trans; [eapply step_inst; eauto|apply step_depth]. }
      destruct ml as [|m2 ml2], pl as [|p2 pl2]; try (injection E as <- <- <- <-; auto).
      destruct (IH _ _ _ _ _ _ _ E Wm' Wp') as (S2 & X). split; [eapply step_trans; eauto|exact X].
    - assert (S1 : step s (erase_new s1)) by (eapply step_erase; eauto).
      destruct ((0 <? depth (erase_new s1))%Z || first); [injection E as <- <- <- <-; auto|].
      destruct ml as [|m2 ml2]; [injection E as <- <- <- <-; auto|].
      destruct (IH _ _ _ _ _ _ _ E Wm' Wp) as (S2 & X). split; [eapply step_trans; eauto|exact X].
  Qed.
  (** The instructions of the pattern before the first that ends it or its block. *)
  Fixpoint core (l : list inst) : list inst :=
    match l with
    | [] => []
    | i :: l' => if flag pmeta m_end i || is_terminator i then [] else i :: core l'
    end.
  Lemma cmp_block_cover ml : forall first pl s ok s' ml' pl', cmp_block first ml pl s = (ok, s', ml', pl') -> within mf ml -> within pf pl ->
    forall i, In i (core pl) -> dmem (imm s') (i_reg i) = true \/ (ok = false /\ In i (core pl')).
  Proof.
    induction ml as [|m ml IH]; intros first pl s ok s' ml' pl' E Wm Wp i Hi; cbn [Pattern_Model.cmp_block] in E.
    { destruct pl; injection E as <- <- <- <-; [destruct Hi|right; split; [reflexivity|exact Hi]]. }
    destruct pl as [|p pl]; [destruct Hi|].
    destruct (flag pmeta m_end p) eqn:F; [cbn in Hi; rewrite F in Hi; destruct Hi|].
    destruct (is_terminator m && negb (is_terminator p) && (length (successors m) =? 1)%nat); [injection E as <- <- <- <-; right; split; [reflexivity|exact Hi]|].
    destruct (is_terminator p) eqn:T; [cbn in Hi; rewrite F, T in Hi; destruct Hi|].
    rewrite andb_false_r in E.
    destruct (cmp_inst m p s) as [ok1 s1] eqn:C.
    assert (Hm : In m (insts mf)) by (apply Wm; left; reflexivity).
    assert (Wm' : within mf ml) by (intros x Hx; apply Wm; right; exact Hx).
    assert (Wp' : within pf pl) by (intros x Hx; apply Wp; right; exact Hx).
    destruct ok1.
    - assert (M1 : dmem (imm (update_depth pmeta p s1)) (i_reg p) = true). { unfold dmem. cbn. rewrite (matched_inst _ _ _ _ C). reflexivity. }
      cbn [core] in Hi. rewrite F, T in Hi. cbn in Hi.
      destruct ml as [|m2 ml2], pl as [|p2 pl2].
      + injection E as <- <- <- <-. left. destruct Hi as [<-|[]]. exact M1.
      + injection E as <- <- <- <-. right. split; [reflexivity|]. cbn [core]. rewrite F, T. exact Hi.
      + injection E as <- <- <- <-. right. split; [reflexivity|]. cbn [core]. rewrite F, T. exact Hi.
      + destruct Hi as [<-|Hi].
        * left. eapply (cmp_block_step _ _ _ _ _ _ _ _ E Wm' Wp'). exact M1.
        * eapply IH; eauto.
    - destruct ((0 <? depth (erase_new s1))%Z || first); [injection E as <- <- <- <-; auto|].
      destruct ml as [|m2 ml2]; [injection E as <- <- <- <-; auto|]. eapply IH; eauto.
  Qed.
  Lemma block_within f b : within f (block f b).
  Proof.
    intros i. unfold block, insts. destruct (dget (f_blocks f) b) as [l|] eqn:E; [|intros []].
    intros H. apply in_flat_map. exists (b, l). split; [apply dget_In; exact E|exact H].
  Qed.
  Notation cmp_group := (cmp_group same_rest struct_gep left mf pf pmeta inputs).
  Lemma cmp_group_step n : forall mb pb ml pl mvis pvis s mb' pb' mvis' pvis' s',
    cmp_group n mb pb ml pl mvis pvis s = Some (mb', pb', mvis', pvis', s') -> within mf ml -> within pf pl -> step s s'.
  Proof.
    induction n as [|n IH]; intros mb pb ml pl mvis pvis s mb' pb' mvis' pvis' s' E Wm Wp; cbn in E; [discriminate|].
    destruct (cmp_block true ml pl s) as [[[ok s1] ml1] pl1] eqn:B. destruct (cmp_block_step _ _ _ _ _ _ _ _ B Wm Wp) as (S1 & W1 & W2).
    destruct ok.
    - destruct (single_successor pf pb) as [ps|]; [|injection E as <- <- <- <- <-; exact S1].
      destruct (mem ps pvis); [injection E as <- <- <- <- <-; exact S1|].
      destruct (ends_at_terminator pf pmeta pb); [injection E as <- <- <- <- <-; exact S1|].
      eapply step_trans; [exact S1|]. eapply IH; eauto. apply block_within.
    - destruct (single_successor mf mb) as [ms|]; [|discriminate]. destruct (mem ms mvis); [discriminate|].
      eapply step_trans; [exact S1|]. eapply IH; eauto. apply block_within.
  Qed.
  Lemma cmp_group_cover n : forall mb pb ml pl mvis pvis s mb' pb' mvis' pvis' s',
    cmp_group n mb pb ml pl mvis pvis s = Some (mb', pb', mvis', pvis', s') -> within mf ml -> within pf pl ->
    forall i, In i (core pl) -> dmem (imm s') (i_reg i) = true.
  Proof.
    induction n as [|n IH]; intros mb pb ml pl mvis pvis s mb' pb' mvis' pvis' s' E Wm Wp i Hi; cbn in E; [discriminate|].
    destruct (cmp_block true ml pl s) as [[[ok s1] ml1] pl1] eqn:B. destruct (cmp_block_step _ _ _ _ _ _ _ _ B Wm Wp) as (S1 & W1 & W2).
    assert (C := cmp_block_cover _ _ _ _ _ _ _ _ B Wm Wp i Hi).
    destruct ok.
    - assert (M : dmem (imm s1) (i_reg i) = true) by (destruct C as [C|[C _]]; [exact C|discriminate]).
      destruct (single_successor pf pb) as [ps|]; [|injection E as <- <- <- <- <-; exact M].
      destruct (mem ps pvis); [injection E as <- <- <- <- <-; exact M|].
      destruct (ends_at_terminator pf pmeta pb); [injection E as <- <- <- <- <-; exact M|].
      eapply (cmp_group_step _ _ _ _ _ _ _ _ _ _ _ _ _ E); [exact W1|apply block_within|exact M].
    - destruct (single_successor mf mb) as [ms|]; [|discriminate]. destruct (mem ms mvis); [discriminate|].
      destruct C as [C|[_ C]].
      + eapply (cmp_group_step _ _ _ _ _ _ _ _ _ _ _ _ _ E); [apply block_within|exact W2|exact C].
      + eapply (IH _ _ _ _ _ _ _ _ _ _ _ _ E); [apply block_within|exact W2|exact C].
  Qed.
  Notation match_loop := (match_loop same_rest struct_gep left mf pf pmeta inputs).
  Lemma match_loop_step n : forall at_start work mvis pvis s s',
    match_loop n at_start work mvis pvis s = (true, s') ->
    match at_start with Some (ml, pl) => within mf ml /\ within pf pl | None => True end -> step s s'.
  Proof.
    induction n as [|n IH]; intros at_start [|[mb pb] work] mvis pvis s s' E W; cbn [Pattern_Model.match_loop negb] in E; try (injection E as <-; apply step_refl); try discriminate.
    destruct (cmp_values (VBlock mb) (VBlock pb) s) as [ok s1] eqn:C. destruct ok; cbn [Pattern_Model.match_loop negb] in E; [|discriminate].
    assert (S1 : step s (set_depth s1 0%Z)). { eapply step_trans; [eapply step_value; eauto|apply step_depth]. }
    assert (G : exists ml pl, match at_start with Some p => p | None => (block mf mb, block pf pb) end = (ml, pl) /\ within mf ml /\ within pf pl).
    { destruct at_start as [[ml pl]|]; [exists ml, pl; tauto|]. exists (block mf mb), (block pf pb). split; [reflexivity|]. split; apply block_within. }
    destruct G as (ml & pl & G & Wm & Wp). rewrite G in E.
    destruct (cmp_group (group_fuel mf pf) mb pb ml pl mvis pvis (set_depth s1 0%Z)) as [[[[[mb1 pb1] mvis1] pvis1] s2]|] eqn:Q; [|discriminate].
    assert (S2 : step s s2). { eapply step_trans; [exact S1|]. eapply cmp_group_step; eauto. }
    destruct (run_on mf (group_fuel mf pf) mb1 mvis1) as [mb2 mvis2].
    destruct (ends_at_terminator pf pmeta pb1 || (length (successors_of pf pb1) =? 0)%nat).
    - eapply step_trans; [exact S2|]. eapply IH; [exact E|exact I].
    - destruct (queue (successors_of mf mb2) (successors_of pf pb1) mvis2 pvis1 work) as [[mvis3 pvis3] work3].
      eapply step_trans; [exact S2|]. eapply IH; [exact E|exact I].
  Qed.
  Lemma match_loop_cover n ml pl mb pb work mvis pvis s s' :
    match_loop (S n) (Some (ml, pl)) ((mb, pb) :: work) mvis pvis s = (true, s') -> within mf ml -> within pf pl ->
    forall i, In i (core pl) -> dmem (imm s') (i_reg i) = true.
  Proof.
    intros E Wm Wp i Hi. cbn [Pattern_Model.match_loop] in E.
    destruct (cmp_values (VBlock mb) (VBlock pb) s) as [ok s1] eqn:C. destruct ok; cbn [negb] in E; [|discriminate].
    destruct (cmp_group (group_fuel mf pf) mb pb ml pl mvis pvis (set_depth s1 0%Z)) as [[[[[mb1 pb1] mvis1] pvis1] s2]|] eqn:Q; [|discriminate].
    assert (M := cmp_group_cover _ _ _ _ _ _ _ _ _ _ _ _ _ Q Wm Wp i Hi).
    destruct (run_on mf (group_fuel mf pf) mb1 mvis1) as [mb2 mvis2].
    destruct (ends_at_terminator pf pmeta pb1 || (length (successors_of pf pb1) =? 0)%nat).
    - eapply (match_loop_step _ _ _ _ _ _ _ E I). exact M.
    - destruct (queue (successors_of mf mb2) (successors_of pf pb1) mvis2 pvis1 work) as [[mvis3 pvis3] work3].
      eapply (match_loop_step _ _ _ _ _ _ _ E I). exact M.
  Qed.
  Lemma from_inst_suffix r l : forall l', from_inst r l = Some l' -> exists pre, l = pre ++ l'.
  Proof.
    induction l as [|i l IH]; intros l' H; cbn in H; [discriminate|]. destruct (i_reg i =? r)%nat; [injection H as <-; exists []; reflexivity|].
    destruct (IH _ H) as [pre ->]. exists (i :: pre). reflexivity.
  Qed.
  Lemma locate_block r bs : forall b l, locate r bs = Some (b, l) -> exists pre, In (b, pre ++ l) bs.
  Proof.
    induction bs as [|[c k] bs IH]; intros b l H; cbn in H; [discriminate|]. destruct (from_inst r k) as [l'|] eqn:F.
    - injection H as <- <-. destruct (from_inst_suffix _ _ _ F) as [pre ->]. exists pre. left. reflexivity.
    - destruct (IH _ _ H) as [pre P]. exists pre. right. exact P.
  Qed.
  Lemma locate_within f r b l : locate r (f_blocks f) = Some (b, l) -> within f l.
  Proof.
    intros H i Hi. destruct (locate_block _ _ _ _ H) as [pre P]. apply in_flat_map. exists (b, pre ++ l).
    split; [exact P|]. cbn. apply in_app_iff. right. exact Hi.
  Qed.

  Notation check_insts := (check_insts same_rest struct_gep left mf pf pmeta inputs).
  Lemma check_args_step l : forall s ok s', check_args left mf pf inputs l s = (ok, s') -> step s s'.
  Proof.
    induction l as [|a l IH]; intros s ok s' E; cbn in E; [injection E as <- <-; apply step_refl|].
    destruct (dget (pim s) a) as [v|]; [|eapply IH; eauto]. destruct (cmp_values v a s) as [ok1 s1] eqn:C.
    assert (S1 := step_value _ _ _ _ _ C). destruct ok1; [|injection E as <- <-; exact S1]. eapply step_trans; [exact S1|]. eapply IH; eauto.
  Qed.
  Lemma find_inst_In f r i : find_inst f r = Some i -> In i (insts f) /\ i_reg i = r.
  Proof. intros H. apply find_some in H. destruct H as [H K]. apply Nat.eqb_eq in K. auto. Qed.
  Lemma inst_of_In f v i : inst_of f v = Some i -> In i (insts f) /\ v = VReg (i_reg i).
  Proof. destruct v; cbn; intros H; try discriminate. apply find_inst_In in H. destruct H as [H <-]. auto. Qed.
  Lemma check_insts_step l : forall s ok s' found, check_insts l s = (ok, s', found) -> within pf l -> step s s'.
  Proof.
    induction l as [|p l IH]; intros s ok s' found E W; cbn in E; [injection E as <- <- <-; apply step_refl|].
    assert (W' : within pf l) by (intros i Hi; apply W; right; exact Hi).
    destruct (flag pmeta m_start p); [injection E as <- <- <-; apply step_refl|].
    destruct (flag pmeta m_noinput p); [eapply IH; eauto|].
    destruct (dget (pim s) (VReg (i_reg p))) as [v|]; [|eapply IH; eauto].
    assert (S : forall ok1 s1, match inst_of mf v with Some m => cmp_inst m p s | None => cmp_values v (VReg (i_reg p)) s end = (ok1, s1) -> step s s1).
    { intros ok1 s1 C. destruct (inst_of mf v) as [m|] eqn:I; [|eapply step_value; eauto].
      apply inst_of_In in I. eapply step_inst; [exact C|apply I|apply W; left; reflexivity]. }
    destruct (match inst_of mf v with Some m => cmp_inst m p s | None => cmp_values v (VReg (i_reg p)) s end) as [ok1 s1].
    assert (S1 := S _ _ eq_refl). destruct ok1; [|injection E as <- <- <-; exact S1]. eapply step_trans; [exact S1|]. eapply IH; eauto.
  Qed.
  Lemma check_blocks_step n : forall work visited s ok s', check_blocks same_rest struct_gep left mf pf pmeta inputs n work visited s = (ok, s') -> step s s'.
  Proof.
    induction n as [|n IH]; intros [|b work] visited s ok s' E; cbn in E; try (injection E as <- <-; apply step_refl).
    destruct (check_insts (block pf b) s) as [[ok1 s1] found] eqn:C. assert (S1 := check_insts_step _ _ _ _ _ C (block_within pf b)).
    destruct ok1; cbn in E; [|injection E as <- <-; exact S1].
    destruct found; [eapply step_trans; [exact S1|]; eapply IH; eauto|].
    destruct (queue_blocks (successors_of pf b) visited work) as [v w]. eapply step_trans; [exact S1|]. eapply IH; eauto.
  Qed.
  Variable startp : nat.
  Notation compare_side := (compare_side same_rest struct_gep left mf pf pmeta inputs startp).
  Lemma check_inputs_step s ok s' : check_inputs same_rest struct_gep left mf pf pmeta inputs s = (ok, s') -> step s s'.
  Proof.
    unfold check_inputs. intros E. destruct (check_args left mf pf inputs (arguments pf) s) as [ok2 s2] eqn:A.
    assert (S2 := check_args_step _ _ _ _ A). destruct ok2; cbn [negb] in E; [|injection E as <- <-; exact S2].
    destruct (f_blocks pf) as [|[b k] bs]; [injection E as <- <-; exact S2|].
    eapply step_trans; [exact S2|]. eapply check_blocks_step. exact E.
  Qed.
  Lemma match_pattern_step start s s' :
    match_pattern same_rest struct_gep left mf pf pmeta inputs startp start s = (true, s') -> step s s'.
  Proof.
    unfold match_pattern. intros E. destruct (locate start (f_blocks mf)) as [[mb ml]|] eqn:Lm; [|discriminate].
    destruct (locate startp (f_blocks pf)) as [[pb pl]|] eqn:Lp; [|discriminate].
    eapply match_loop_step; [exact E|]. split; eapply locate_within; eauto.
  Qed.
  Lemma compare_side_Inv start s s' : compare_side start s = (true, s') -> Inv s'.
  Proof.
    unfold Pattern_Model.compare_side. intros E.
    match type of E with context [match_pattern _ _ _ _ _ _ _ _ _ ?x] => set (s0 := x) in * end.
    destruct (match_pattern same_rest struct_gep left mf pf pmeta inputs startp start s0) as [ok s1] eqn:M.
    destruct ok; cbn [negb] in E; [|discriminate].
    assert (I0 : Inv s0) by (intros p m H; discriminate).
    apply check_inputs_step in E. apply match_pattern_step in M. apply E, step_numbers, M, I0.
  Qed.
  Lemma compare_side_cover start s s' pb pl : compare_side start s = (true, s') -> locate startp (f_blocks pf) = Some (pb, pl) ->
    forall i, In i (core pl) -> dmem (imm s') (i_reg i) = true.
  Proof.
    unfold Pattern_Model.compare_side. intros E Lp i Hi.
    match type of E with context [match_pattern _ _ _ _ _ _ _ _ _ ?x] => set (s0 := x) in * end.
    destruct (match_pattern same_rest struct_gep left mf pf pmeta inputs startp start s0) as [ok s1] eqn:M.
    destruct ok; cbn [negb] in E; [|discriminate].
    apply check_inputs_step in E. apply E. apply (step_numbers s1 [] []). unfold match_pattern in M. rewrite Lp in M.
    destruct (locate start (f_blocks mf)) as [[mb ml]|] eqn:Lm; [|discriminate].
    eapply match_loop_cover; [exact M| | |exact Hi]; eapply locate_within; eauto.
  Qed.

  (** *** Inputs found by the users of a value *)
  Variables musers pusers : value -> list value.
  Notation cmp_users := (cmp_users same_rest struct_gep left mf pf pmeta inputs).
  Lemma cmp_users_step n : forall ms ps all visited work s r v w s', cmp_users n ms ps all visited work s = Some (r, v, w, s') -> step s s'.
  Proof.
    induction n as [|n IH]; intros ms ps all visited work s r v w s' E; cbn in E; [discriminate|].
    destruct ms as [|m ms]; [injection E as <- <- <- <-; apply step_refl|].
    destruct ps as [|p ps]; [injection E as <- <- <- <-; apply step_refl|].
    destruct (match inst_of pf p with Some i => flag pmeta m_noinput i | None => false end); [eapply IH; eauto|].
    destruct (inst_of mf m) as [mi|] eqn:Im; [|eapply IH; eauto].
    destruct (inst_of pf p) as [pi|] eqn:Ip; [|discriminate].
    destruct (dget (mim s) m) as [p'|].
    { destruct (value_eqb p' p); [|eapply IH; eauto]. destruct (mem m visited); eapply IH; eauto. }
    destruct (dget (pim s) p) as [m'|].
    { destruct (mem m' all); [eapply IH; eauto|]. injection E as <- <- <- <-. apply step_refl. }
    apply inst_of_In in Im, Ip. destruct (cmp_inst mi pi s) as [ok s1] eqn:C. destruct ok.
    - assert (S1 := step_inst _ _ _ _ _ C (proj1 Im) (proj1 Ip)). destruct (mem m visited); (eapply step_trans; [exact S1|eapply IH; eauto]).
    - eapply step_trans; [eapply step_erase; eauto|]. eapply IH; eauto.
  Qed.
  Lemma input_loop_step n mv pv : forall work visited s ok s',
    input_loop same_rest struct_gep left mf pf pmeta inputs musers pusers n mv pv work visited s = (ok, s') ->
    dget (pim s) pv = None \/ dget (pim s) pv = Some mv -> step s s' /\ (work <> [] -> ok = true -> dget (pim s') pv = Some mv).
  Proof.
    induction n as [|n IH]; intros [|[m p] work] visited s ok s' E H; cbn [input_loop] in E.
    - injection E as <- <-. split; [apply step_refl|]. intros N. congruence.
    - injection E as <- <-. split; [apply step_refl|]. discriminate.
    - injection E as <- <-. split; [apply step_refl|]. intros N. congruence.
    - set (s1 := set_inputs s (newML s) (newPR s) (dset (pim s) pv mv) (dset (mim s) mv pv)) in *.
      assert (K1 : step s s1).
      { apply step_same; [|reflexivity]. intros v x Q. cbn. rewrite dget_dset. destruct (eqb_spec v pv) as [->|N]; [|exact Q]. destruct H; congruence. }
      assert (P1 : dget (pim s1) pv = Some mv) by apply dget_dset_same.
      match type of E with match ?c with _ => _ end = _ => destruct c as [[[[rest v2] w2] s2]|] eqn:C end.
      2:{ injection E as <- <-. split; [exact K1|discriminate]. }
      assert (S2 := cmp_users_step _ _ _ _ _ _ _ _ _ _ _ C).
      match type of E with (if ?c then _ else _) = _ => destruct c end.
      2:{ injection E as <- <-. split; [eapply step_trans; eauto|discriminate]. }
      assert (P2 : dget (pim s2) pv = Some mv) by (apply S2; exact P1).
      destruct (IH _ _ _ _ _ E (or_intror P2)) as [S3 R3]. assert (S : step s s') by (eapply step_trans; [exact K1|]; eapply step_trans; eauto).
      split; [exact S|]. intros _ _. apply S3. exact P2.
  Qed.
  Lemma cmp_input_values_step m p s ok s' :
    cmp_input_values same_rest struct_gep left mf pf pmeta inputs musers pusers m p s = (ok, s') ->
    step s s' /\ (ok = true -> exists mv, m = Some mv /\ dget (pim s') p = Some mv).
  Proof.
    unfold cmp_input_values. intros E. destruct m as [mv|]; [|injection E as <- <-; split; [apply step_refl|discriminate]].
    destruct (dget (pim s) p) as [v|] eqn:D.
    - injection E as <- <-. split; [apply step_refl|]. intros H. destruct (value_eqb_spec v mv); [|discriminate]. exists mv. split; congruence.
    - apply input_loop_step in E; [|left; exact D]. destruct E as [A B]. split.
      + eapply step_trans; [apply (step_numbers s [] [])|exact A].
      + intros H. exists mv. split; [reflexivity|]. apply B; [discriminate|exact H].
  Qed.
End Frame.
