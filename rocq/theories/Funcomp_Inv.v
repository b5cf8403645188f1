(** * The invariant of a comparison that takes no exception but looking through casts *)
From Coq Require Import String Ascii ZArith Arith Bool Lia List.
From Verif Require Import PyBase Funcomp_Model Funcomp_Spec Funcomp_Log.
Import ListNotations.
Open Scope list_scope.
Open Scope nat_scope.

Lemma dset_new {K V} `{EqB K} (d : dict K V) k v : dget d k = None -> dset d k v = d ++ [(k, v)].
Proof.
  induction d as [|[k' v'] d IH]; cbn; [reflexivity|]. destruct (eqb_spec k k') as [->|N]; [discriminate|].
  intros E. rewrite IH by exact E. reflexivity.
Qed.
Lemma dmem_get {K V} `{EqB K} (d : dict K V) k : dmem d k = true <-> exists v, dget d k = Some v.
Proof. unfold dmem. destruct (dget d k); split; try discriminate; eauto. intros [v E]. discriminate. Qed.
Lemma dmem_none {K V} `{EqB K} (d : dict K V) k : dmem d k = false <-> dget d k = None.
Proof. unfold dmem. destruct (dget d k); split; congruence. Qed.

Lemma zero_gep_iff i : zero_gep i = true <-> by_zeros i.
Proof.
  unfold zero_gep, by_zeros. split.
  - destruct (i_code i) eqn:K; try discriminate. rewrite forallb_forall. intros H. split; [eauto|]. intros v V. specialize (H v V). destruct (eqb_spec v (VConst (CInt 0))); [assumption|discriminate].
  - intros [[o K] H]. rewrite K. apply forallb_forall. intros v V. rewrite (H v V). reflexivity.
Qed.

Section Inv.
  Variable w : world.
  Variables fl fr : func.
  Hypothesis WL : well_formed fl.
  Hypothesis WR : well_formed fr.
  Notation fn := (fn fl fr).

  Lemma wf left : well_formed (fn left). Proof. destruct left; assumption. Qed.

  Definition tame (s : state) : Prop := forall e, In e (log s) -> e = Replaced.
  Lemma tame_back s s' : grows s s' -> tame s' -> tame s.
  Proof. intros [l E] T e I. apply T. rewrite E. apply in_or_app. right. exact I. Qed.
  Lemma tame_note e s : tame (note e s) -> e = Replaced /\ tame s.
  Proof. intros T. split; [apply T; left; reflexivity|intros x I; apply T; right; exact I]. Qed.

  (** Instructions that can be looked through. *)
  Definition clear (i : inst) : bool := match i_code i with Cast true => safe_cast w i | Gep _ => zero_gep i | _ => false end.
  Lemma clear_cases i : clear i = true -> (i_code i = Cast true /\ safe_cast w i = true) \/ zero_gep i = true.
  Proof. unfold clear, zero_gep. destruct (i_code i) as [| | | | |[|]| | | | | | | | |]; intros H; try discriminate; auto. Qed.
  Lemma clear_cast i : i_code i = Cast true -> safe_cast w i = true -> clear i = true.
  Proof. unfold clear. intros -> ->. reflexivity. Qed.
  Lemma clear_gep i : zero_gep i = true -> clear i = true.
  Proof. unfold clear, zero_gep. destruct (i_code i); try discriminate. trivial. Qed.
  Lemma clear_kind i : clear i = true -> is_phi i = false /\ is_debug i = false /\ is_terminator i = false.
  Proof. unfold clear, is_phi, is_debug, is_terminator. destruct (i_code i); try discriminate; auto. Qed.

  Definition stable (s : state) (left : bool) (c : nat) : Prop :=
    exists i, find_inst (fn left) c = Some i /\
      (dmem (repl left s) (VReg c) = true \/
       zero_gep i = true /\ (is_reg (op 0 i) = false \/ dmem (sn left s) (op 0 i) = true)).
  Definition P (s : state) (left : bool) (v : value) : Prop :=
    match v with
    | VConst _ => True
    | VReg c => dmem (sn left s) v = true \/ stable s left c
    | _ => dmem (sn left s) v = true
    end.
  Inductive E (s : state) : value -> value -> Prop :=
  | E_num l r k : dget (snL s) l = Some k -> dget (snR s) r = Some k -> E s l r
  | E_const a b : same_const w a b = true -> E s (VConst a) (VConst b)
  | E_left c i r : find_inst fl c = Some i -> clear i = true -> E s (op 0 i) r -> E s (VReg c) r
  | E_right c i l : find_inst fr c = Some i -> clear i = true -> E s l (op 0 i) -> E s l (VReg c).

  Record calm (s : state) : Prop := mkCalm {
    c_skipL : skipL s = []; c_skipR : skipR s = []; c_ignL : ignL s = []; c_ignR : ignR s = [];
    c_inv : inverses s = []; c_swap : swapped s = []; c_reloc : r_status (reloc s) = NoReloc }.

  (** [D]: the definitions that were gone through; [C]: the ones being compared. *)
  Record Inv (D C : bool -> list nat) (s : state) : Prop := mkInv {
    v_len : length (snL s) = length (snR s);
    v_lt : forall left v k, dget (sn left s) v = Some k -> k < length (snL s);
    v_inj : forall left v v' k, dget (sn left s) v = Some k -> dget (sn left s) v' = Some k -> v = v';
    v_kind : forall l r k, dget (snL s) l = Some k -> dget (snR s) r = Some k -> is_block l = is_block r;
    v_const : forall left c, dget (sn left s) (VConst c) = None;
    v_args : forall left n k, dget (sn left s) (VArg n) = Some k -> k = n /\ n < f_args fl;
    v_args' : forall left n, n < f_args fl -> dget (sn left s) (VArg n) = Some n;
    v_calm : calm s;
    v_repl : forall left v u, dget (repl left s) v = Some u -> exists c i, v = VReg c /\ find_inst (fn left) c = Some i /\
       i_code i = Cast true /\ safe_cast w i = true /\ u = op 0 i /\ (In c (D left) \/ In c (C left));
    v_dom : forall left r, dmem (sn left s) (VReg r) = true -> In r (D left) \/ In r (C left);
    v_done : forall left c i, In c (D left) -> find_inst (fn left) c = Some i -> is_phi i = false -> is_debug i = false ->
       P s left (VReg c) /\ (clear i = true -> P s left (op 0 i)) /\
       (i_code i = Cast true -> safe_cast w i = true -> dmem (repl left s) (VReg c) = true);
    v_phis : forall p q, In (p, q) (phis s) -> find_inst fl (i_reg p) = Some p /\ is_phi p = true /\ find_inst fr (i_reg q) = Some q /\ is_phi q = true /\
       exists k, dget (snL s) (VReg (i_reg p)) = Some k /\ dget (snR s) (VReg (i_reg q)) = Some k;
    v_phis' : forall l r k, dget (snL s) l = Some k -> dget (snR s) r = Some k -> phi_of fl l <> None \/ phi_of fr r <> None ->
       exists p q, In (p, q) (phis s) /\ l = VReg (i_reg p) /\ r = VReg (i_reg q) }.

  (** [A]: the values that may be compared. *)
  Definition allowed := bool -> value -> Prop.
  Record fine (D : bool -> list nat) (A : allowed) : Prop := mkFine {
    a_done : forall left r, A left (VReg r) -> In r (D left);
    a_arg : forall left n, A left (VArg n) -> n < f_args fl;
    a_clear : forall left c i, A left (VReg c) -> find_inst (fn left) c = Some i -> clear i = true -> A left (op 0 i) }.
  Definition quiet_reg (left : bool) (r : nat) : Prop :=
    forall i, find_inst (fn left) r = Some i -> is_phi i || is_debug i = true.
  Record ext (C : bool -> list nat) (A : allowed) (s s' : state) : Prop := mkExt {
    x_num : forall left v k, dget (sn left s) v = Some k -> dget (sn left s') v = Some k;
    x_new : forall left v, dmem (sn left s') v = true -> dmem (sn left s) v = true \/
              (A left v /\ match v with VReg r => quiet_reg left r \/ In r (C left) | VBlock _ => True | _ => False end);
    x_repl : forall left v, dmem (repl left s) v = true -> dmem (repl left s') v = true;
    x_phis : exists new, phis s' = phis s ++ new /\ forall p q, In (p, q) new -> A true (VReg (i_reg p)) /\ A false (VReg (i_reg q)) }.

  Lemma ext_refl C A s : ext C A s s.
  Proof. constructor; auto. exists []. rewrite app_nil_r. split; [reflexivity|intros p q []]. Qed.
  Lemma ext_trans C A s s1 s2 : ext C A s s1 -> ext C A s1 s2 -> ext C A s s2.
  Proof.
    intros [a1 b1 c1 [n1 [d1 e1]]] [a2 b2 c2 [n2 [d2 e2]]]. constructor; auto.
    - intros left v H. destruct (b2 left v H) as [H1|H1]; [apply b1; exact H1|auto].
    - exists (n1 ++ n2). rewrite d2, d1, app_assoc. split; [reflexivity|]. intros p q I. apply in_app_or in I. destruct I; auto.
  Qed.
  Lemma ext_weaken C (A A' : allowed) s s' : (forall left v, A left v -> A' left v) -> ext C A s s' -> ext C A' s s'.
  Proof.
    intros I [a b c [n [d e]]]. constructor; auto.
    - intros left v H. destruct (b left v H) as [H1|[H1 H2]]; auto.
    - exists n. split; [exact d|]. intros p q H. destruct (e p q H). auto.
  Qed.
  Lemma ext_dmem C A s s' left v : ext C A s s' -> dmem (sn left s) v = true -> dmem (sn left s') v = true.
  Proof. intros X H. apply dmem_get in H. destruct H as [k H]. apply dmem_get. exists k. apply (x_num _ _ _ _ X), H. Qed.
  Lemma stable_mono C A s s' left c : ext C A s s' -> stable s left c -> stable s' left c.
  Proof.
    intros X [i [F [H|[Z [H|H]]]]]; exists i; (split; [exact F|]).
    - left. apply (x_repl _ _ _ _ X), H.
    - right. split; [exact Z|left; exact H].
    - right. split; [exact Z|right; eapply ext_dmem; eauto].
  Qed.
  Lemma P_mono C A s s' left v : ext C A s s' -> P s left v -> P s' left v.
  Proof.
    intros X. destruct v; cbn; try (intros H; eapply ext_dmem; eauto); [|trivial].
    intros [H|H]; [left; eapply ext_dmem; eauto|right; eapply stable_mono; eauto].
  Qed.
  Lemma E_mono C A s s' l r : ext C A s s' -> E s l r -> E s' l r.
  Proof.
    intros X. induction 1.
    - econstructor; [apply (x_num _ _ _ _ X true); cbn; eauto|apply (x_num _ _ _ _ X false); cbn; eauto].
    - constructor; assumption.
    - eapply E_left; eauto.
    - eapply E_right; eauto.
  Qed.

  Lemma inv_note D C e s : Inv D C s -> Inv D C (note e s).
  Proof. intros [a1 a2 a3 a4 a5 a6 a7 a8 a9 a10 a11 a12 a13]. constructor; auto. destruct a8. constructor; assumption. Qed.
  Lemma ext_note C A e s s' : ext C A (note e s) s' -> ext C A s s'.
  Proof. intros [a b c d]. constructor; assumption. Qed.

  Lemma find_inst_In f r i : find_inst f r = Some i -> In i (insts f) /\ i_reg i = r.
  Proof. intros H. apply find_some in H. destruct H as [I R]. apply Nat.eqb_eq in R. auto. Qed.
  Lemma In_find f i : NoDup (map i_reg (insts f)) -> In i (insts f) -> find_inst f (i_reg i) = Some i.
  Proof.
    unfold find_inst. induction (insts f) as [|j l IH]; cbn; [tauto|]. intros N. inversion N; subst. intros [->|I].
    - rewrite Nat.eqb_refl. reflexivity.
    - destruct (Nat.eqb_spec (i_reg j) (i_reg i)) as [E1|_]; [|auto]. exfalso. apply H1. rewrite E1. apply in_map, I.
  Qed.
  Lemma op0_cases i : In (op 0 i) (i_ops i) \/ op 0 i = VConst (CInt 0).
  Proof. unfold op. destruct (i_ops i); cbn; auto. Qed.
  Lemma clear_op0 left c i : find_inst (fn left) c = Some i -> clear i = true -> is_block (op 0 i) = false.
  Proof.
    intros F K. destruct (find_inst_In _ _ _ F) as [I _]. destruct (op0_cases i) as [O|O]; [|rewrite O; reflexivity].
    pose proof (wf_operands _ (wf left) i (op 0 i) I O) as X. destruct (op 0 i); try reflexivity.
    destruct (clear_kind i K) as [_ [_ T]]. unfold is_terminator in T. destruct X as [X|X]; rewrite X in T; discriminate.
  Qed.

  Lemma repl_nonreg D C s left v : Inv D C s -> is_reg v = false -> replacement w fl fr left v s = (None, s).
  Proof.
    intros I R. unfold replacement. destruct (dget (repl left s) v) as [u|] eqn:X.
    - destruct (v_repl _ _ _ I _ _ _ X) as [c [i [-> _]]]. discriminate.
    - destruct v; try discriminate; reflexivity.
  Qed.
  Lemma repl_done D C s left c : Inv D C s -> In c (D left) ->
    exists x, replacement w fl fr left (VReg c) s = (x, s) /\
    match x with
    | Some u => exists i, find_inst (fn left) c = Some i /\ clear i = true /\ u = op 0 i /\ P s left u /\ stable s left c
    | None => ~ stable s left c
    end.
  Proof.
    intros I H. unfold replacement. destruct (dget (repl left s) (VReg c)) as [u|] eqn:X.
    - exists (Some u). split; [reflexivity|]. destruct (v_repl _ _ _ I _ _ _ X) as [c' [i [Ec [F [K [Sc [-> _]]]]]]]. injection Ec as <-.
      assert (Q : clear i = true) by (apply clear_cast; assumption). exists i. repeat split; auto.
      + destruct (clear_kind i Q) as [A [B _]]. apply (v_done _ _ _ I left c i H F A B). exact Q.
      + exists i. split; [exact F|]. left. apply dmem_get. eauto.
    - cbn [inst_of]. destruct (find_inst (fn left) c) as [i|] eqn:F.
      + assert (K : match i_code i with Cast true => safe_cast w i | _ => false end = false).
        { destruct (i_code i) as [| | | | |[|]| | | | | | | | |] eqn:CC; try reflexivity. destruct (safe_cast w i) eqn:SC; [|reflexivity].
          assert (Q : clear i = true) by (apply clear_cast; assumption). destruct (clear_kind i Q) as [A [B _]].
          destruct (v_done _ _ _ I left c i H F A B) as [_ [_ R]]. specialize (R CC SC). apply dmem_get in R. destruct R as [u R]. congruence. }
        rewrite K. cbn [orb]. destruct (zero_gep i && _) eqn:Z.
        * exists (Some (op 0 i)). split; [reflexivity|]. apply andb_true_iff in Z. destruct Z as [Z1 Z2].
          assert (Q : clear i = true) by (apply clear_gep; assumption). exists i. repeat split; auto.
          -- destruct (clear_kind i Q) as [A [B _]]. apply (v_done _ _ _ I left c i H F A B). exact Q.
          -- exists i. split; [exact F|]. right. split; [exact Z1|]. apply orb_true_iff in Z2. destruct Z2 as [Z2|Z2]; [left; apply negb_true_iff; exact Z2|right; exact Z2].
        * exists None. split; [reflexivity|]. intros [i' [F' S]]. assert (i' = i) by congruence. subst i'. destruct S as [S|[Z1 S]].
          -- apply dmem_get in S. destruct S as [u S]. congruence.
          -- rewrite Z1 in Z. cbn in Z. apply orb_false_iff in Z. destruct Z as [Z2 Z3]. destruct S as [S|S]; [rewrite S in Z2; discriminate|congruence].
      + exists None. split; [reflexivity|]. intros [i [F' _]]. congruence.
  Qed.

  (** ** Comparing values *)
  Lemma set_same s : set_sn s (snL s) (snR s) (by_sn s) = s. Proof. destruct s. reflexivity. Qed.

  Definition unstable (s : state) (left : bool) (v : value) : Prop := match v with VReg c => ~ stable s left c | _ => True end.

  Lemma number_old sn v k : dget sn v = Some k -> number sn v = (k, sn).
  Proof. unfold number. intros ->. reflexivity. Qed.
  Lemma number_new sn v : dget sn v = None -> number sn v = (length sn, sn ++ [(v, length sn)]).
  Proof. unfold number. intros X. rewrite X, dset_new by exact X. reflexivity. Qed.
  Lemma get_app_new (d : dict value nat) v k u : dget d v = None ->
    dget (d ++ [(v, k)]) u = if eqb u v then Some k else dget d u.
  Proof.
    intros N. rewrite <- (dset_new d v k N). destruct (eqb_spec u v) as [->|X]; [apply dget_dset_same|apply dget_dset_other; exact X].
  Qed.

  (** What a pair of new values adds; [ps] the PHI nodes to be compared. *)
  Definition added (l r : value) (ps : list (inst * inst)) (s : state) : state :=
    set_phis (set_sn s (snL s ++ [(l, length (snL s))]) (snR s ++ [(r, length (snL s))]) (dset (by_sn s) (length (snL s)) (l, r))) (phis s ++ ps).

  Lemma cmp_base_cases D C l r s s' : Inv D C s -> cmp_base w fl fr l r s = (true, s') -> tame s' ->
    (exists a b, l = VConst a /\ r = VConst b /\ same_const w a b = true /\ s' = s) \/
    (exists k, dget (snL s) l = Some k /\ dget (snR s) r = Some k /\ s' = s) \/
    (dget (snL s) l = None /\ dget (snR s) r = None /\ (forall c, l <> VConst c) /\ (forall c, r <> VConst c) /\
       exists ps, s' = added l r ps s /\
         match phi_of fl l, phi_of fr r with Some p, Some q => ps = [(p, q)] | None, None => ps = [] | _, _ => False end).
  Proof.
    intros I H T.
    assert (N : cmp_numbered fl fr l r s = (true, s') ->
      (exists k, dget (snL s) l = Some k /\ dget (snR s) r = Some k /\ s' = s) \/
      (dget (snL s) l = None /\ dget (snR s) r = None /\
       exists ps, s' = added l r ps s /\
         match phi_of fl l, phi_of fr r with Some p, Some q => ps = [(p, q)] | None, None => ps = [] | _, _ => False end)).
    { clear H. unfold cmp_numbered. pose proof (v_len _ _ _ I) as LEN.
      assert (FIN : forall x y z, (if is_block l && is_block r then
         let '(sl', sr') := x in (true, note Blocks_taken_for_equal (set_sn s sl' sr' (by_sn s))) else (false, set_sn s y z (by_sn s))) = (true, s') -> False).
      { intros [x1 x2] y z H. destruct (is_block l && is_block r); [|discriminate]. injection H as <-. apply tame_note in T. destruct T as [T _]. discriminate. }
      destruct (dget (snL s) l) as [a|] eqn:L.
      - rewrite (number_old _ _ _ L). pose proof (v_lt _ _ _ I true _ _ L) as LT.
        destruct (dget (snR s) r) as [b|] eqn:R.
        + rewrite (number_old _ _ _ R). destruct (Nat.eqb_spec a b) as [<-|NE]; [|intros H; exfalso; eapply FIN; exact H].
          replace (length (snL s) =? S (length (snL s))) with false by (symmetry; apply Nat.eqb_neq; lia).
          rewrite set_same. intros H; injection H as <-. left. eauto.
        + rewrite (number_new _ _ R). destruct (Nat.eqb_spec a (length (snR s))) as [EQ|NE]; [exfalso; lia|intros H; exfalso; eapply FIN; exact H].
      - rewrite (number_new _ _ L). destruct (dget (snR s) r) as [b|] eqn:R.
        + rewrite (number_old _ _ _ R). pose proof (v_lt _ _ _ I false _ _ R) as LT.
          destruct (Nat.eqb_spec (length (snL s)) b) as [EQ|NE]; [exfalso; lia|intros H; exfalso; eapply FIN; exact H].
        + rewrite (number_new _ _ R), LEN, Nat.eqb_refl, app_length. cbn [length]. rewrite LEN, Nat.add_1_r, Nat.eqb_refl.
          intros H. right. split; [reflexivity|]. split; [reflexivity|]. unfold added. rewrite LEN.
          destruct (phi_of fl l) as [p|], (phi_of fr r) as [q|]; try discriminate; injection H as <-.
          * exists [(p, q)]. split; reflexivity.
          * exists []. split; [|reflexivity]. unfold set_phis, set_sn. cbn. rewrite app_nil_r. reflexivity. }
    unfold cmp_base in H.
    assert (N' : (forall c, l <> VConst c) -> (forall c, r <> VConst c) -> cmp_numbered fl fr l r s = (true, s') ->
        (exists k, dget (snL s) l = Some k /\ dget (snR s) r = Some k /\ s' = s) \/
        (dget (snL s) l = None /\ dget (snR s) r = None /\ (forall c, l <> VConst c) /\ (forall c, r <> VConst c) /\
         exists ps, s' = added l r ps s /\
           match phi_of fl l, phi_of fr r with Some p, Some q => ps = [(p, q)] | None, None => ps = [] | _, _ => False end)).
    { intros A B X. destruct (N X) as [Y|[Y1 [Y2 Y3]]]; [left; exact Y|right; auto]. }
    destruct l, r; try discriminate; try (right; apply N'; [congruence|congruence|exact H]).
    left. injection H as H1 H2. subst. eauto 10.
  Qed.

  Lemma phi_of_spec f v p : phi_of f v = Some p -> v = VReg (i_reg p) /\ find_inst f (i_reg p) = Some p /\ is_phi p = true.
  Proof.
    unfold phi_of. destruct v as [a|n|b|c]; try discriminate. cbn. destruct (find_inst f n) as [i|] eqn:F; [|discriminate].
    destruct (is_phi i) eqn:Q; [|discriminate]. intros H; injection H as <-. destruct (find_inst_In _ _ _ F) as [_ <-]. auto.
  Qed.

  Lemma added_get left l r ps s u : dget (snL s) l = None -> dget (snR s) r = None ->
    dget (sn left (added l r ps s)) u = if eqb u (if left then l else r) then Some (length (snL s)) else dget (sn left s) u.
  Proof. intros L R. destruct left; cbn; apply get_app_new; assumption. Qed.

  Lemma added_ext C (A : allowed) D s l r ps : Inv D C s -> dget (snL s) l = None -> dget (snR s) r = None ->
    A true l -> A false r ->
    match l with VReg c => quiet_reg true c \/ In c (C true) | VBlock _ => True | _ => False end ->
    match r with VReg c => quiet_reg false c \/ In c (C false) | VBlock _ => True | _ => False end ->
    match phi_of fl l, phi_of fr r with Some p, Some q => ps = [(p, q)] | None, None => ps = [] | _, _ => False end ->
    ext C A s (added l r ps s).
  Proof.
    intros I L R AL AR QL QR PH. constructor.
    - intros left v k H. rewrite added_get by assumption. destruct (eqb_spec v (if left then l else r)) as [->|N]; [|exact H].
      destruct left; cbn in H; congruence.
    - intros left v H. unfold dmem in H. rewrite added_get in H by assumption.
      destruct (eqb_spec v (if left then l else r)) as [EV|N]; [|left; unfold dmem; exact H].
      right. rewrite EV. destruct left; split; assumption.
    - intros left v H. destruct left; exact H.
    - exists ps. split; [reflexivity|]. intros p q J.
      destruct (phi_of fl l) as [p'|] eqn:PL, (phi_of fr r) as [q'|] eqn:PR; try contradiction; subst ps; [|destruct J].
      destruct J as [J|[]]. injection J as -> ->. apply phi_of_spec in PL, PR. destruct PL as [-> _], PR as [-> _]. split; assumption.
  Qed.

  Lemma added_inv C D s l r ps (A : allowed) : Inv D C s -> ext C A s (added l r ps s) ->
    dget (snL s) l = None -> dget (snR s) r = None -> (forall c, l <> VConst c) -> (forall c, r <> VConst c) ->
    is_block l = is_block r ->
    match l with VReg c => In c (D true) \/ In c (C true) | VArg _ => False | _ => True end ->
    match r with VReg c => In c (D false) \/ In c (C false) | VArg _ => False | _ => True end ->
    match phi_of fl l, phi_of fr r with Some p, Some q => ps = [(p, q)] | None, None => ps = [] | _, _ => False end ->
    Inv D C (added l r ps s).
  Proof.
    intros I X L R NL NR KB DL DR PH.
    pose proof (v_len _ _ _ I) as LEN.
    assert (SZ : length (snL (added l r ps s)) = S (length (snL s))) by (cbn; rewrite app_length; cbn; lia).
    assert (G : forall left u k, dget (sn left (added l r ps s)) u = Some k -> (u = (if left then l else r) /\ k = length (snL s)) \/ dget (sn left s) u = Some k).
    { intros left u k H. rewrite added_get in H by assumption. destruct (eqb_spec u (if left then l else r)) as [->|N]; [left; split; congruence|right; exact H]. }
    constructor.
    - cbn. rewrite !app_length. cbn. lia.
    - intros left v k H. rewrite SZ. destruct (G _ _ _ H) as [[_ ->]|H']; [lia|]. apply (v_lt _ _ _ I) in H'. lia.
    - intros left v v' k H H'. destruct (G _ _ _ H) as [[-> ->]|H1], (G _ _ _ H') as [[-> E2]|H2]; auto.
      + apply (v_lt _ _ _ I) in H2. lia.
      + subst k. apply (v_lt _ _ _ I) in H1. lia.
      + eapply (v_inj _ _ _ I); eauto.
    - intros x y k H H'. destruct (G true _ _ H) as [[-> ->]|H1], (G false _ _ H') as [[-> E2]|H2]; auto.
      + apply (v_lt _ _ _ I) in H2. lia.
      + subst k. apply (v_lt _ _ _ I) in H1. lia.
      + eapply (v_kind _ _ _ I); eauto.
    - intros left c. rewrite added_get by assumption. destruct (eqb_spec (VConst c) (if left then l else r)) as [E1|N]; [|apply (v_const _ _ _ I)].
      exfalso. destruct left; [apply (NL c)|apply (NR c)]; congruence.
    - intros left n k H. destruct (G _ _ _ H) as [[E1 _]|H']; [|apply (v_args _ _ _ I left); exact H'].
      exfalso. destruct left; [destruct l|destruct r]; try discriminate; assumption.
    - intros left n H. apply (x_num _ _ _ _ X), (v_args' _ _ _ I), H.
    - pose proof (v_calm _ _ _ I) as Q. destruct Q. constructor; assumption.
    - intros left v u H. apply (v_repl _ _ _ I left v u). destruct left; exact H.
    - intros left c H. apply dmem_get in H. destruct H as [k H]. destruct (G _ _ _ H) as [[E1 _]|H'].
      + destruct left; [destruct l|destruct r]; try discriminate; injection E1 as ->; assumption.
      + apply (v_dom _ _ _ I). apply dmem_get. eauto.
    - intros left c i H F B1 B2. destruct (v_done _ _ _ I left c i H F B1 B2) as [H1 [H2 H3]]. repeat split.
      + eapply P_mono; eauto.
      + intros Q. eapply P_mono; eauto.
      + intros Q1 Q2. apply (x_repl _ _ _ _ X). auto.
    - intros p q J. cbn in J. apply in_app_or in J. destruct J as [J|J].
      + destruct (v_phis _ _ _ I p q J) as [H1 [H2 [H3 [H4 [k [H5 H6]]]]]]. repeat (split; [assumption|]).
        exists k. split; [apply (x_num _ _ _ _ X true); exact H5|apply (x_num _ _ _ _ X false); exact H6].
      + destruct (phi_of fl l) as [p'|] eqn:PL, (phi_of fr r) as [q'|] eqn:PR; try contradiction; subst ps; [|destruct J].
        destruct J as [J|[]]. injection J as -> ->. apply phi_of_spec in PL, PR. destruct PL as [P1 [P2 P3]], PR as [P4 [P5 P6]].
        repeat (split; [assumption|]). exists (length (snL s)). split.
        * change (snL (added l r [(p, q)] s)) with (sn true (added l r [(p, q)] s)). rewrite added_get by assumption. rewrite P1. destruct (eqb_spec (VReg (i_reg p)) (VReg (i_reg p))); congruence.
        * change (snR (added l r [(p, q)] s)) with (sn false (added l r [(p, q)] s)). rewrite added_get by assumption. rewrite P4. destruct (eqb_spec (VReg (i_reg q)) (VReg (i_reg q))); congruence.
    - intros x y k H H' O. destruct (G true _ _ H) as [[-> ->]|H1], (G false _ _ H') as [[-> E2]|H2].
      + destruct (phi_of fl l) as [p'|] eqn:PL, (phi_of fr r) as [q'|] eqn:PR; try contradiction; [|destruct O; congruence].
        subst ps. exists p', q'. apply phi_of_spec in PL, PR. destruct PL as [P1 _], PR as [P4 _].
        split; [cbn; apply in_or_app; right; left; reflexivity|auto].
      + apply (v_lt _ _ _ I) in H2. lia.
      + subst k. apply (v_lt _ _ _ I) in H1. lia.
      + destruct (v_phis' _ _ _ I x y k H1 H2 O) as [p [q [J [-> ->]]]]. exists p, q. split; [cbn; apply in_or_app; left; exact J|auto].
  Qed.

  Lemma cmp_values_step D C n l r s : Inv D C s -> cmp_values w fl fr (S n) l r s =
    let '(x, s1) := replacement w fl fr true l s in
    let '(y, s2) := replacement w fl fr false r s1 in
    match x, y with
    | None, None => Some (cmp_base w fl fr l r s2)
    | _, _ => cmp_values w fl fr n (match x with Some u => u | None => l end) (match y with Some u => u | None => r end) (note Replaced s2)
    end.
  Proof.
    intros I. destruct (v_calm _ _ _ I) as [K1 K2 K3 K4 _ _ _]. cbn [cmp_values]. rewrite K1, K2, K3, K4. reflexivity.
  Qed.

  Lemma repl_allowed D C (A : allowed) s left v : Inv D C s -> fine D A -> A left v -> P s left v \/ True ->
    exists x, replacement w fl fr left v s = (x, s) /\
    match x with
    | Some u => A left u /\ P s left v /\ P s left u /\ is_block v = is_block u /\
        exists c i, v = VReg c /\ find_inst (fn left) c = Some i /\ clear i = true /\ u = op 0 i
    | None => unstable s left v
    end.
  Proof.
    intros I FA AV _. destruct (is_reg v) eqn:R.
    - destruct v as [|c| |]; try discriminate. pose proof (a_done _ _ FA _ _ AV) as IN.
      destruct (repl_done D C s left c I IN) as [x [H1 H2]]. exists x. split; [exact H1|]. destruct x as [u|]; [|exact H2].
      destruct H2 as [i [F [K [-> [PU ST]]]]].
      split; [eapply (a_clear _ _ FA); eauto|]. split; [right; exact ST|]. split; [exact PU|].
      split; [symmetry; eapply clear_op0; eauto|]. eauto 10.
    - exists None. split; [eapply repl_nonreg; eauto|]. destruct v; try discriminate; exact Logic.I.
  Qed.

  (** The values that may be compared: equal ones stay related. *)
  Lemma cmp_values_ok n : forall D C A l r s s', Inv D C s -> fine D A -> A true l -> A false r -> is_block l = is_block r ->
    cmp_values w fl fr n l r s = Some (true, s') -> tame s' ->
    Inv D C s' /\ ext C A s s' /\ E s' l r /\ P s' true l /\ P s' false r.
  Proof.
    induction n as [|n IH]; intros D C A l r s s' I FA AL AR KB H T; [discriminate|].
    rewrite (cmp_values_step D C) in H by exact I.
    destruct (repl_allowed D C A s true l I FA AL (or_intror Logic.I)) as [x [X1 X2]].
    destruct (repl_allowed D C A s false r I FA AR (or_intror Logic.I)) as [y [Y1 Y2]].
    rewrite X1, Y1 in H.
    destruct x as [x|], y as [y|].
    - destruct X2 as [A1 [P1 [_ [K1 [c [i [-> [F1 [CL1 ->]]]]]]]]]. destruct Y2 as [A2 [P2 [_ [K2 [d [j [-> [F2 [CL2 ->]]]]]]]]].
      destruct (IH D C A _ _ _ _ (inv_note _ _ _ _ I) FA A1 A2 ltac:(congruence) H T) as [I' [X' [E' _]]].
      apply ext_note in X'. split; [exact I'|]. split; [exact X'|]. split; [eapply E_left; eauto; eapply E_right; eauto|].
      split; eapply P_mono; eauto.
    - destruct X2 as [A1 [P1 [_ [K1 [c [i [-> [F1 [CL1 ->]]]]]]]]].
      destruct (IH D C A _ _ _ _ (inv_note _ _ _ _ I) FA A1 AR ltac:(congruence) H T) as [I' [X' [E' [_ P2]]]].
      apply ext_note in X'. split; [exact I'|]. split; [exact X'|]. split; [eapply E_left; eauto|].
      split; [eapply P_mono; eauto|exact P2].
    - destruct Y2 as [A2 [P2 [_ [K2 [d [j [-> [F2 [CL2 ->]]]]]]]]].
      destruct (IH D C A _ _ _ _ (inv_note _ _ _ _ I) FA AL A2 ltac:(congruence) H T) as [I' [X' [E' [P1 _]]]].
      apply ext_note in X'. split; [exact I'|]. split; [exact X'|]. split; [eapply E_right; eauto|].
      split; [exact P1|eapply P_mono; eauto].
    - injection H as H. destruct (cmp_base_cases D C l r s s' I H T) as [[a [b [-> [-> [SC ->]]]]]|[[k [L [R ->]]]|[L [R [NL [NR [ps [-> PH]]]]]]]].
      + split; [exact I|]. split; [apply ext_refl|]. split; [constructor; exact SC|]. split; exact Logic.I.
      + split; [exact I|]. split; [apply ext_refl|]. split; [econstructor; eauto|].
        split; [destruct l; cbn; trivial; try left; apply dmem_get; eauto|destruct r; cbn; trivial; try left; apply dmem_get; eauto].
      + assert (QQ : forall left v, A left v -> unstable s left v -> dget (sn left s) v = None -> (forall c, v <> VConst c) ->
                 match v with VReg c => quiet_reg left c \/ In c (C left) | VBlock _ => True | _ => False end).
        { intros left v AV UV N NC. destruct v as [a|c|b|c]; trivial.
          - pose proof (a_arg _ _ FA _ _ AV) as Q. pose proof (v_args' _ _ _ I left _ Q). congruence.
          - left. intros i F. destruct (is_phi i) eqn:B1; [reflexivity|]. destruct (is_debug i) eqn:B2; [reflexivity|]. exfalso.
            destruct (v_done _ _ _ I left c i (a_done _ _ FA _ _ AV) F B1 B2) as [M _]. cbn in M. destruct M as [M|M]; [|exact (UV M)].
            apply dmem_get in M. destruct M as [k M]. congruence.
          - apply (NC c). reflexivity. }
        pose proof (QQ true l AL X2 L NL) as QL. pose proof (QQ false r AR Y2 R NR) as QR.
        assert (X : ext C A s (added l r ps s)) by (eapply added_ext; eauto).
        assert (DD : forall left v, A left v -> match v with VReg c => quiet_reg left c \/ In c (C left) | VBlock _ => True | _ => False end ->
                   match v with VReg c => In c (D left) \/ In c (C left) | VArg _ => False | _ => True end).
        { intros left v AV. destruct v; trivial. intros _. left. eapply (a_done _ _ FA). exact AV. }
        split; [exact (added_inv C D s l r ps A I X L R NL NR KB (DD true l AL QL) (DD false r AR QR) PH)|]. split; [exact X|].
        assert (GL : dget (snL (added l r ps s)) l = Some (length (snL s))).
        { change (snL (added l r ps s)) with (sn true (added l r ps s)). rewrite added_get by assumption. destruct (eqb_spec l l); congruence. }
        assert (GR : dget (snR (added l r ps s)) r = Some (length (snL s))).
        { change (snR (added l r ps s)) with (sn false (added l r ps s)). rewrite added_get by assumption. destruct (eqb_spec r r); congruence. }
        split; [econstructor; eauto|].
        split; [destruct l; cbn; trivial; try left; apply dmem_get; eexists; exact GL|destruct r; cbn; trivial; try left; apply dmem_get; eexists; exact GR].
  Qed.
End Inv.
