(** * Functions found equal do the same *)
From Coq Require Import String Ascii ZArith Arith Bool Lia List.
From Verif Require Import PyBase Funcomp_Model Funcomp_Spec Funcomp_Log Funcomp_Inv Funcomp_Visit Funcomp_Walk.
Import ListNotations.
Open Scope list_scope.
Open Scope nat_scope.

(** ** Ways through a function, from the last block to the first *)
Inductive path (f : func) : list nat -> Prop :=
| path_one : path f [entry f]
| path_more b xs c : path f (b :: xs) -> edge f b c -> path f (c :: b :: xs).

Lemma path_reach f xs : path f xs -> forall b, In b xs -> reach f b.
Proof.
  intros P. induction P as [|b xs c P IH E]; intros x H.
  - destruct H as [<-|[]]. constructor.
  - destruct H as [<-|H]; [|auto]. eapply reach_step; [|exact E]. apply IH. left. reflexivity.
Qed.
Lemma reach_path f b : reach f b -> exists xs, path f (b :: xs).
Proof. intros R. induction R as [|b c R [xs IH] E]; [exists []; constructor|exists (b :: xs); constructor; assumption]. Qed.
Lemma path_tail f x y l : path f (x :: y :: l) -> path f (y :: l) /\ edge f y x.
Proof. intros P. inversion P; subst. auto. Qed.
Lemma path_suffix f a : forall Z pre, path f (a ++ Z :: pre) -> path f (Z :: pre).
Proof.
  induction a as [|x a IH]; intros Z pre P; [exact P|]. apply IH. destruct a; cbn in *; apply path_tail in P; apply P.
Qed.
Lemma path_swap f suf : forall Z rest pre, path f (suf ++ Z :: rest) -> path f (Z :: pre) -> path f (suf ++ Z :: pre).
Proof.
  induction suf as [|x suf IH]; intros Z rest pre P Q; [exact Q|]. destruct suf as [|y suf]; cbn in *; apply path_tail in P; destruct P as [P E].
  - constructor; assumption.
  - constructor; [|exact E]. eapply IH; eauto.
Qed.
Lemma first_in (A : nat -> bool) xs : (exists x, In x xs /\ A x = true) -> exists a Z pre, xs = a ++ Z :: pre /\ A Z = true /\ forall x, In x pre -> A x = false.
Proof.
  induction xs as [|x xs IH]; intros [y [Y T]]; [destruct Y|]. destruct (existsb A xs) eqn:X.
  - apply existsb_exists in X. destruct (IH X) as [a [Z [pre [-> [H1 H2]]]]]. exists (x :: a), Z, pre. auto.
  - exists [], x, xs. assert (N : forall z, In z xs -> A z = false).
    { intros z Hz. destruct (A z) eqn:Q; [|reflexivity]. assert (existsb A xs = true) by (apply existsb_exists; eauto). congruence. }
    destruct Y as [<-|Y]; [auto|]. rewrite (N y Y) in T. discriminate.
Qed.
Lemma last_in (A : nat -> bool) xs : (exists x, In x xs /\ A x = true) -> exists suf Z rest, xs = suf ++ Z :: rest /\ A Z = true /\ forall x, In x suf -> A x = false.
Proof.
  induction xs as [|x xs IH]; intros [y [Y T]]; [destruct Y|]. destruct (A x) eqn:X.
  - exists [], x, xs. split; [reflexivity|]. split; [exact X|intros z []].
  - destruct Y as [<-|Y]; [congruence|]. destruct (IH (ex_intro _ y (conj Y T))) as [suf [Z [rest [-> [H1 H2]]]]].
    exists (x :: suf), Z, rest. split; [reflexivity|]. split; [exact H1|]. intros z [<-|Hz]; auto.
Qed.

Section Parents.
  Variable w : world.
  Variables fl fr : func.
  Hypothesis WL : well_formed fl.
  Hypothesis WR : well_formed fr.
  Notation fn := (fn fl fr).
  Variable av : bool -> nat -> list nat.
  Hypothesis SA : forall left, ssa (fn left) (av left).
  Variable Done : list (nat * nat).
  Variable s : state.
  Hypothesis CE : Cert w fl fr av Done s.

  Lemma done_fun b c c' : In (b, c) Done -> In (b, c') Done -> c = c'.
  Proof. intros H1 H2. eapply num_inj_r; [apply (q_inv _ _ _ _ _ _ CE)|apply (q_num _ _ _ _ _ _ CE); exact H1|apply (q_num _ _ _ _ _ _ CE); exact H2]. Qed.
  Lemma done_inj b c b' : In (b, c) Done -> In (b', c) Done -> b = b'.
  Proof. intros H1 H2. eapply num_inj_l; [apply (q_inv _ _ _ _ _ _ CE)|apply (q_num _ _ _ _ _ _ CE); exact H1|apply (q_num _ _ _ _ _ _ CE); exact H2]. Qed.
  Lemma Forall2_nth {A B} (R : A -> B -> Prop) l l' k x : Forall2 R l l' -> nth_error l k = Some x -> exists y, nth_error l' k = Some y /\ R x y.
  Proof. intros F. revert k. induction F as [|a b l l' H F IH]; intros [|k] E; try discriminate; cbn in *; [injection E as <-; eauto|auto]. Qed.
  Lemma edge_of b b' c c' : In (b, b') Done -> forall t t', terminator (block fl b) = Some t -> terminator (block fr b') = Some t' -> In c (successors t) -> In c' (successors t') -> edge fl b c /\ edge fr b' c'.
  Proof.
    intros B t t' T T' I I'. destruct (q_reach _ _ _ _ _ _ CE b b' B) as [R R'].
    destruct (reach_get fl WL _ R) as [l G], (reach_get fr WR _ R') as [l' G']. rewrite (block_get _ _ _ G) in T. rewrite (block_get _ _ _ G') in T'.
    split; [exists l, t|exists l', t']; auto.
  Qed.
  Lemma edge_right b b' c : In (b, b') Done -> edge fl b c -> exists c', In (c, c') Done /\ edge fr b' c'.
  Proof.
    intros B ED. destruct (q_succ _ _ _ _ _ _ CE b b' B) as [t [t' [T [T' F]]]].
    pose proof (edge_succ _ _ _ _ ED T) as I. apply In_nth_error in I. destruct I as [k I]. destruct (Forall2_nth _ _ _ _ _ F I) as [c' [I' D]].
    exists c'. split; [exact D|]. eapply edge_of; eauto; eapply nth_error_In; eauto.
  Qed.
  Lemma Forall2_flip {A B} (R : A -> B -> Prop) l l' : Forall2 R l l' -> Forall2 (fun y x => R x y) l' l.
  Proof. intros F. induction F; constructor; assumption. Qed.
  Lemma edge_left b b' c' : In (b, b') Done -> edge fr b' c' -> exists c, In (c, c') Done /\ edge fl b c.
  Proof.
    intros B ED. destruct (q_succ _ _ _ _ _ _ CE b b' B) as [t [t' [T [T' F]]]].
    pose proof (edge_succ _ _ _ _ ED T') as I. apply In_nth_error in I. destruct I as [k I]. destruct (Forall2_nth _ _ _ _ _ (Forall2_flip _ _ _ F) I) as [c [I' D]].
    exists c. split; [exact D|]. eapply edge_of; eauto; eapply nth_error_In; eauto.
  Qed.
  Lemma reach_done b : reach fl b -> exists b', In (b, b') Done.
  Proof.
    intros R. induction R as [|b c R [b' IH] ED]; [eexists; apply (q_entry _ _ _ _ _ _ CE)|].
    destruct (edge_right b b' c IH ED) as [c' [H _]]. eauto.
  Qed.
  Lemma path_image xs : path fl xs -> exists ys, path fr ys /\ Forall2 (fun b b' => In (b, b') Done) xs ys.
  Proof.
    intros P. induction P as [|b xs c P [ys [Q F]] ED].
    - exists [entry fr]. split; [constructor|]. constructor; [apply (q_entry _ _ _ _ _ _ CE)|constructor].
    - inversion F as [|? b' ? ys' D F']; subst. destruct (edge_right b b' c D ED) as [c' [D' ED']].
      exists (c' :: b' :: ys'). split; [constructor; assumption|]. constructor; assumption.
  Qed.

  Lemma defined_on left xs J r : path (fn left) (J :: xs) -> In r (av left J ++ defs (block (fn left) J)) -> exists b, In b (J :: xs) /\ In r (defs (block (fn left) b)).
  Proof.
    revert J. induction xs as [|b xs IH]; intros J P I; apply in_app_or in I; (destruct I as [I|I]; [|exists J; split; [left; reflexivity|exact I]]).
    - inversion P; subst. destruct (SA left) as [Q _]. rewrite Q in I. destruct I.
    - inversion P as [|? ? ? P' ED]; subst. assert (R : reach (fn left) b) by (eapply path_reach; [exact P'|left; reflexivity]).
      assert (Wf : well_formed (fn left)) by (destruct left; assumption).
      destruct (reach_get _ Wf _ R) as [l G]. destruct (SA left) as [_ S]. destruct (S b l R G) as [S1 _]. apply (S1 J ED) in I.
      rewrite <- (block_get _ _ _ G) in I. destruct (IH b P' I) as [d [D1 D2]]. exists d. split; [right; exact D1|exact D2].
  Qed.

  Lemma In_incoming p from b : i_code p = Phi from -> length (i_ops p) = length from -> In b from -> exists v, In (v, b) (incoming p).
  Proof.
    intros K L I. unfold incoming. rewrite K. clear K. revert L. generalize (i_ops p). induction from as [|c from IH]; intros [|v vs] L; try destruct I as [<-|I]; cbn in *; try discriminate; try (destruct I; fail).
    - exists v. left. reflexivity.
    - destruct (IH I vs ltac:(lia)) as [u U]. exists u. right. exact U.
  Qed.
  Lemma incoming_from p from v b : i_code p = Phi from -> In (v, b) (incoming p) -> In b from.
  Proof. unfold incoming. intros -> I. eapply in_combine_r. exact I. Qed.
  Lemma incoming_length p from : i_code p = Phi from -> length (i_ops p) = length from -> length (incoming p) = length from.
  Proof. unfold incoming. intros -> L. rewrite combine_length. lia. Qed.

  (** PHI nodes with one number are at the beginnings of corresponding blocks. *)
  Lemma phi_parents p q B1 l1 B2' l2 : In (p, q) (phis s) -> dget (f_blocks fl) B1 = Some l1 -> In p l1 -> dget (f_blocks fr) B2' = Some l2 -> In q l2 ->
    In (B1, B2') Done.
  Proof.
    intros PQ G1 I1 G2 I2. destruct (v_phis _ _ _ _ _ _ (q_inv _ _ _ _ _ _ CE) p q PQ) as [_ [PP [_ [PQ' _]]]].
    assert (exists from, i_code p = Phi from) as [from KP] by (unfold is_phi in PP; destruct (i_code p); try discriminate; eauto).
    assert (exists from, i_code q = Phi from) as [from' KQ] by (unfold is_phi in PQ'; destruct (i_code q); try discriminate; eauto).
    destruct (wf_phis _ WL B1 l1 p from G1 I1 KP) as [L1 [N1 [F1 NE1]]]. destruct (wf_phis _ WR B2' l2 q from' G2 I2 KQ) as [L2 [N2 [F2 NE2]]].
    destruct (q_phis _ _ _ _ _ _ CE p q PQ) as [[J [J' [JD [AP AQ]]]] [LEN MATCH]]. cbn in AP, AQ. unfold upto in AP, AQ. cbn in AP, AQ.
    rewrite (incoming_length p from KP L1), (incoming_length q from' KQ L2) in LEN.
    assert (ON1 : forall xs, path fl (J :: xs) -> In B1 (J :: xs)).
    { intros xs P. destruct (defined_on true xs J _ P AP) as [b [D1 D2]]. cbn in D2. assert (R : reach fl b) by (eapply path_reach; eauto).
      destruct (reach_get fl WL _ R) as [l G]. rewrite (block_get _ _ _ G) in D2.
      assert (b = B1) by (eapply (defs_block fl WL); [exact G|exact G1|exact D2|unfold defs; apply in_map; exact I1]). subst b. exact D1. }
    assert (ON2 : forall xs, path fl (J :: xs) -> exists B2, In B2 (J :: xs) /\ In (B2, B2') Done).
    { intros xs P. destruct (path_image _ P) as [ys [Q F]]. inversion F as [|? J2 ? ys' DJ F']; subst. assert (J2 = J') by (eapply done_fun; eauto). subst J2.
      destruct (defined_on false ys' J' _ Q AQ) as [b [D1 D2]]. cbn in D2. assert (R : reach fr b) by (eapply path_reach; eauto).
      destruct (reach_get fr WR _ R) as [l G]. rewrite (block_get _ _ _ G) in D2.
      assert (b = B2') by (eapply (defs_block fr WR); [exact G|exact G2|exact D2|unfold defs; apply in_map; exact I2]). subst b.
      clear - F D1. induction F as [|x y l l' H F IH]; [destruct D1|]. destruct D1 as [<-|D1]; [exists x; split; [left; reflexivity|exact H]|].
      destruct (IH D1) as [z [Z1 Z2]]. exists z. split; [right; exact Z1|exact Z2]. }
    destruct (q_reach _ _ _ _ _ _ CE J J' JD) as [RJ _]. destruct (reach_path _ _ RJ) as [xs P].
    destruct (ON2 xs P) as [B2 [OB2 DB2]]. pose proof (ON1 xs P) as OB1.
    destruct (Nat.eq_dec B1 B2) as [->|NE]; [exact DB2|exfalso].
    assert (P1 : forall y, reach fl y -> edge fl y B1 -> edge fl y B2).
    { intros y R ED. apply F1 in ED. destruct (In_incoming p from y KP L1 ED) as [v V]. destruct (MATCH v y V) as [u [c [U [DC _]]]].
      pose proof (incoming_from q from' u c KQ U) as IC. apply F2 in IC. destruct (edge_left y c B2' DC IC) as [z [Z1 Z2]].
      assert (z = B2) by (eapply done_inj; eauto). subst z. exact Z2. }
    assert (P2 : forall y, reach fl y -> edge fl y B2 -> edge fl y B1).
    { intros y R ED. destruct (reach_done y R) as [y' DY]. destruct (edge_right y y' B2 DY ED) as [z [Z1 Z2]]. assert (z = B2') by (eapply done_fun; eauto). subst z.
      assert (exists cs, Forall2 (fun b c => In (b, c) Done) from cs /\ incl cs from') as [cs [FC IC]].
      { assert (Q : forall b, In b from -> exists c, In (b, c) Done /\ In c from').
        { intros b Hb. destruct (In_incoming p from b KP L1 Hb) as [v V]. destruct (MATCH v b V) as [u [c [U [DC _]]]]. exists c. split; [exact DC|]. eapply incoming_from; eauto. }
        clear - Q. induction from as [|b from IH]; [exists []; split; [constructor|intros x []]|].
        destruct (IH (fun x Hx => Q x (or_intror Hx))) as [cs [H1 H2]]. destruct (Q b (or_introl eq_refl)) as [c [H3 H4]].
        exists (c :: cs). split; [constructor; assumption|]. intros x [<-|Hx]; auto. }
      assert (NC : NoDup cs).
      { clear - FC N1 CE. induction FC as [|b c from cs H F IH]; [constructor|]. inversion N1; subst. constructor; [|auto].
        intros Q. apply H2. clear - F Q H CE. induction F as [|b' c' from cs H' F IH]; [destruct Q|]. destruct Q as [->|Q]; [left; eapply done_inj; eauto|right; auto]. }
      assert (LC : length cs = length from) by (clear - FC; induction FC; cbn; congruence).
      assert (LC' : length from' <= length cs) by lia.
      assert (IN : In y' cs) by (apply (NoDup_length_incl NC LC' IC); apply F2; exact Z2).
      apply F1. clear - FC IN DY CE. induction FC as [|b c from cs H F IH]; [destruct IN|]. destruct IN as [->|IN]; [left; eapply done_inj; eauto|right; auto]. }
    set (A := fun x => Nat.eqb x B1 || Nat.eqb x B2).
    assert (AT : forall x, A x = true -> x = B1 \/ x = B2) by (unfold A; intros x Q; apply orb_true_iff in Q; destruct Q as [Q|Q]; apply Nat.eqb_eq in Q; auto).
    assert (AF : forall x, A x = false -> x <> B1 /\ x <> B2) by (unfold A; intros x Q; apply orb_false_iff in Q; destruct Q as [Q1 Q2]; apply Nat.eqb_neq in Q1; apply Nat.eqb_neq in Q2; auto).
    assert (EX : exists x, In x (J :: xs) /\ A x = true) by (exists B1; split; [exact OB1|unfold A; rewrite Nat.eqb_refl; reflexivity]).
    destruct (first_in A _ EX) as [a [Z [pre [E1 [AZ NP]]]]]. destruct (last_in A _ EX) as [suf [Z' [rest [E2 [AZ' NS]]]]].
    pose proof P as PZ. rewrite E1 in PZ. apply path_suffix in PZ.
    assert (NENT : Z <> entry fl).
    { destruct (AT Z AZ) as [->| ->]; [exact NE1|]. intros ->. apply NE2. eapply done_fun; [exact DB2|apply (q_entry _ _ _ _ _ _ CE)]. }
    inversion PZ as [HZ|x pre' c PX ED]; subst; [congruence|].
    assert (RX : reach fl x) by (eapply path_reach; [exact PX|left; reflexivity]).
    assert (ED' : edge fl x Z').
    { destruct (AT Z AZ) as [->| ->], (AT Z' AZ') as [->| ->]; auto. }
    pose proof P as PS. rewrite E2 in PS.
    pose proof (path_swap fl suf Z' rest (x :: pre') PS (path_more _ _ _ _ PX ED')) as PN.
    assert (exists N, suf ++ Z' :: x :: pre' = J :: N) as [N EN] by (destruct suf as [|y suf]; cbn in *; injection E2 as <- _; eauto).
    rewrite EN in PN. pose proof (ON1 N PN) as O1. destruct (ON2 N PN) as [B3 [O2 D3]]. assert (B3 = B2) by (eapply done_inj; eauto). subst B3.
    rewrite <- EN in O1, O2.
    assert (ONLY : forall y, A y = true -> In y (suf ++ Z' :: x :: pre') -> y = Z').
    { intros y AY Q. apply in_app_or in Q. destruct Q as [Q|[Q|Q]]; [rewrite (NS y Q) in AY; discriminate|auto|rewrite (NP y Q) in AY; discriminate]. }
    apply NE. transitivity Z'; [apply ONLY; [unfold A; rewrite Nat.eqb_refl; reflexivity|exact O1]|symmetry; apply ONLY; [unfold A; rewrite Nat.eqb_refl; apply orb_true_r|exact O2]].
  Qed.
End Parents.

(** ** Running both *)
Section Sim.
  Variable w : world.
  Variables fl fr : func.
  Hypothesis WL : well_formed fl.
  Hypothesis WR : well_formed fr.
  Hypothesis HA : f_args fl = f_args fr.
  Notation fn := (fn fl fr).
  Variable av : bool -> nat -> list nat.
  Hypothesis SA : forall left, ssa (fn left) (av left).
  Variable Done : list (nat * nat).
  Variable s : state.
  Hypothesis CE : Cert w fl fr av Done s.
  Variable S : semantics.
  Hypothesis LAW : lawful w S fl fr.
  Variable args : nat -> V S.
  Notation clear := (clear w).
  Notation upto := (upto av).
  Notation eL := (eval S (constL S) args).
  Notation eR := (eval S (constR S) args).

  Definition cst (left : bool) : const -> V S := if left then constL S else constR S.
  Notation ev left := (eval S (cst left) args).
  Lemma WFs left : well_formed (fn left). Proof. destruct left; assumption. Qed.
  Lemma args_same left : f_args (fn left) = f_args fl. Proof. destruct left; [reflexivity|symmetry; exact HA]. Qed.

  (** Values that instructions can name. *)
  Definition valued (left : bool) (c : nat) : Prop := forall d, find_inst (fn left) c = Some d -> is_debug d = false /\ is_terminator d = false.
  Definition okv (X : bool -> list nat) (left : bool) (v : value) : Prop := match v with VReg c => In c (X left) /\ valued left c | _ => True end.
  Record Rel (X : bool -> list nat) (env env' : nat -> V S) : Prop := mkRel {
    r_num : forall l r k, okv X true l -> okv X false r -> dget (snL s) l = Some k -> dget (snR s) r = Some k -> eL env l = eR env' r;
    r_clear : forall left c i, In c (X left) -> find_inst (fn left) c = Some i -> clear i = true ->
      (if left then env else env') c = ev left (if left then env else env') (op 0 i) }.

  Lemma okv_mono X X' left v : (forall left, incl (X left) (X' left)) -> okv X left v -> okv X' left v.
  Proof. intros I. destruct v; cbn; auto. intros [H1 H2]. split; [apply I; exact H1|exact H2]. Qed.
  Lemma rel_mono X X' env env' : (forall left, incl (X' left) (X left)) -> Rel X env env' -> Rel X' env env'.
  Proof.
    intros I [a b]. constructor.
    - intros l r k H1 H2. apply a; eapply okv_mono; eauto.
    - intros left c i H. apply b. apply I. exact H.
  Qed.

  (** [X] holds the operands of what can be looked through. *)
  Definition closed (X : bool -> list nat) : Prop := forall left c i, In c (X left) -> find_inst (fn left) c = Some i -> is_phi i = false -> incl (regs (i_ops i)) (X left).
  Lemma okv_op0 X left c i : closed X -> In c (X left) -> find_inst (fn left) c = Some i -> clear i = true -> okv X left (op 0 i).
  Proof.
    intros C I F K. destruct (op0_cases i) as [O|O]; [|rewrite O; exact Logic.I]. destruct (clear_kind w i K) as [NP _].
    pose proof (wf_operands _ (WFs left) i (op 0 i) (proj1 (find_inst_In _ _ _ F)) O) as WO. destruct (op 0 i) as [a|r|b|k]; cbn; auto.
    split; [|exact WO]. apply (C left c i I F NP). apply In_regs. exact O.
  Qed.
  Lemma eval_E X env env' : closed X -> Rel X env env' -> forall l r, E w fl fr s l r -> okv X true l -> okv X false r -> eL env l = eR env' r.
  Proof.
    intros C R l r H. induction H as [l r k H1 H2|a b H|c i r F K H IH|c i l F K H IH]; intros OL OR.
    - eapply (r_num _ _ _ R); eauto.
    - cbn. apply (law_const _ _ _ _ LAW). exact H.
    - destruct OL as [OL _]. cbn. rewrite (r_clear _ _ _ R true c i OL F K). apply IH; [eapply okv_op0; eauto|exact OR].
    - destruct OR as [OR _]. cbn. rewrite (r_clear _ _ _ R false c i OR F K). apply IH; [exact OL|eapply okv_op0; eauto].
  Qed.

  Definition phidefs (l : list inst) : list nat := map i_reg (filter is_phi l).
  Definition cover (bl br : nat) (l1 r1 : list inst) : bool -> list nat := fun left => upto bl br l1 r1 left ++ phidefs (block (fn left) (at_ bl br left)).

  Lemma In_phidefs l r : In r (phidefs l) <-> exists p, In p l /\ is_phi p = true /\ i_reg p = r.
  Proof. unfold phidefs. rewrite in_map_iff. split; [intros [p [<- P]]; apply filter_In in P; exists p; tauto|intros [p [P1 [P2 <-]]]; exists p; split; [reflexivity|apply filter_In; auto]]. Qed.

  Lemma closed_upto bl br l1 l2 r1 r2 : reach fl bl -> reach fr br -> dget (f_blocks fl) bl = Some (l1 ++ l2) -> dget (f_blocks fr) br = Some (r1 ++ r2) -> closed (upto bl br l1 r1).
  Proof.
    intros RL RR GL GR left c i H F NP. destruct left; [eapply (closed_prefix fl WL _ (SA true)); eauto|eapply (closed_prefix fr WR _ (SA false)); eauto].
  Qed.
  Lemma cover_upto bl br l1 r1 left : incl (upto bl br l1 r1 left) (cover bl br l1 r1 left).
  Proof. intros x H. apply in_or_app. left. exact H. Qed.
  (** Non-PHI definitions in the cover are made before. *)
  Lemma cover_plain bl br l1 l2 r1 r2 left c i : dget (f_blocks fl) bl = Some (l1 ++ l2) -> dget (f_blocks fr) br = Some (r1 ++ r2) ->
    In c (cover bl br l1 r1 left) -> find_inst (fn left) c = Some i -> is_phi i = false -> In c (upto bl br l1 r1 left).
  Proof.
    intros GL GR H F NP. apply in_app_or in H. destruct H as [H|H]; [exact H|]. apply In_phidefs in H. destruct H as [p [H1 [H2 <-]]].
    assert (Q : find_inst (fn left) (i_reg p) = Some p).
    { destruct left; cbn in *; [rewrite (block_get _ _ _ GL) in H1; eapply (get_find fl WL); eauto|rewrite (block_get _ _ _ GR) in H1; eapply (get_find fr WR); eauto]. }
    congruence.
  Qed.

  Lemma fresh_upto left bl br l1 r1 i l : reach (fn left) (at_ bl br left) -> dget (f_blocks (fn left)) (at_ bl br left) = Some ((if left then l1 else r1) ++ i :: l) ->
    ~ In (i_reg i) (upto bl br l1 r1 left).
  Proof.
    intros R G H. unfold Funcomp_Walk.upto in H. apply in_app_or in H. destruct H as [H|H].
    - destruct (SA left) as [_ Q]. destruct (Q _ _ R G) as [_ [S2 _]]. eapply S2; [|exact H]. unfold defs. rewrite map_app. apply in_or_app. right. left. reflexivity.
    - pose proof (defs_nodup _ (WFs left) _ _ G) as N. unfold defs in N. rewrite map_app in N. cbn in N. apply NoDup_remove_2 in N. apply N. apply in_or_app. left. exact H.
  Qed.
  Lemma operand_okv left bl br l1 r1 i l : reach (fn left) (at_ bl br left) -> dget (f_blocks (fn left)) (at_ bl br left) = Some ((if left then l1 else r1) ++ i :: l) -> is_phi i = false ->
    forall v, In v (op 0 i :: i_ops i) -> okv (upto bl br l1 r1) left v.
  Proof.
    intros R G NP v V. pose proof (operand_ok fl fr WL WR HA av SA left bl br l1 r1 i l R G NP v V) as A.
    assert (O : In v (i_ops i) \/ v = VConst (CInt 0)) by (destruct V as [<-|V]; [apply op0_cases|auto]).
    destruct O as [O| ->]; [|exact Logic.I].
    pose proof (wf_operands _ (WFs left) i v (get_insts _ _ _ _ G ltac:(apply in_or_app; right; left; reflexivity)) O) as WO.
    destruct v as [a|r|b|k]; cbn; auto.
  Qed.

  Lemma eval_upd left env r v u : u <> VReg r -> ev left (upd S env r v) u = ev left env u.
  Proof. destruct u; cbn; auto. intros N. unfold upd. destruct (Nat.eqb_spec n r); congruence. Qed.

  Lemma okv_snoc bl br l1 r1 i j left v : okv (cover bl br (l1 ++ [i]) (r1 ++ [j])) left v -> v <> VReg (if left then i_reg i else i_reg j) -> okv (cover bl br l1 r1) left v.
  Proof.
    destruct v as [a|c|b|k]; cbn; auto. intros [H V] N. split; [|exact V]. unfold cover, Funcomp_Walk.upto, defs in *. rewrite !in_app_iff in *.
    destruct H as [[H|H]|H]; auto. assert (Q : (if left then map i_reg (l1 ++ [i]) else map i_reg (r1 ++ [j])) = map i_reg (if left then l1 else r1) ++ [if left then i_reg i else i_reg j]) by (destruct left; apply map_app).
    assert (H' : In c (map i_reg (if left then l1 else r1) ++ [if left then i_reg i else i_reg j])) by (rewrite <- Q; destruct left; exact H).
    apply in_app_or in H'. destruct H' as [H'|[H'|[]]]; [auto|]. destruct left; congruence.
  Qed.

  (** One pair of instructions. *)
  Lemma step_sim bl br l1 r1 i j l2 r2 env env' m : reach fl bl -> reach fr br ->
    dget (f_blocks fl) bl = Some (l1 ++ i :: l2) -> dget (f_blocks fr) br = Some (r1 ++ j :: r2) ->
    Matched w fl fr s i j -> Rel (cover bl br l1 r1) env env' ->
    exec S (plain (i_code i)) (i_rest i) (map (eL env) (i_ops i)) m = exec S (plain (i_code j)) (i_rest j) (map (eR env') (i_ops j)) m /\
    forall v m', exec S (plain (i_code i)) (i_rest i) (map (eL env) (i_ops i)) m = Some (v, m') ->
      Rel (cover bl br (l1 ++ [i]) (r1 ++ [j])) (upd S env (i_reg i) v) (upd S env' (i_reg j) v).
  Proof.
    intros RL RR GL GR [NPI [NPJ [TG MA]]] R.
    assert (CU : closed (upto bl br l1 r1)) by (eapply closed_upto; eauto).
    assert (R0 : Rel (upto bl br l1 r1) env env') by (eapply rel_mono; [|exact R]; intros left; apply cover_upto).
    pose proof (operand_okv true bl br l1 r1 i l2 RL GL NPI) as OL. pose proof (operand_okv false bl br l1 r1 j r2 RR GR NPJ) as OR.
    assert (II : In i (insts fl)) by (eapply get_insts; [exact GL|apply in_or_app; right; left; reflexivity]).
    assert (IJ : In j (insts fr)) by (eapply get_insts; [exact GR|apply in_or_app; right; left; reflexivity]).
    assert (FI : find_inst fl (i_reg i) = Some i) by (eapply (get_find fl WL); [exact GL|apply in_or_app; right; left; reflexivity]).
    assert (FJ : find_inst fr (i_reg j) = Some j) by (eapply (get_find fr WR); [exact GR|apply in_or_app; right; left; reflexivity]).
    assert (EQ : exec S (plain (i_code i)) (i_rest i) (map (eL env) (i_ops i)) m = exec S (plain (i_code j)) (i_rest j) (map (eR env') (i_ops j)) m).
    { destruct MA as [[z [Z1 [Z2 Z3]]]|[Z1 [Z2 Z3]]].
      - destruct (law_offset _ _ _ _ LAW) as [add AD]. rewrite Z1, Z2. cbn [plain].
        rewrite (AD (constL S) fl (or_introl (conj eq_refl eq_refl)) args env m i z II Z1), (AD (constR S) fr (or_intror (conj eq_refl eq_refl)) args env' m j z IJ Z2).
        rewrite (eval_E _ _ _ CU R0 _ _ Z3 (OL _ (or_introl eq_refl)) (OR _ (or_introl eq_refl))). reflexivity.
      - rewrite Z1, (law_exec _ _ _ _ LAW _ _ _ _ _ Z2). f_equal.
        assert (OL' : forall v, In v (i_ops i) -> okv (upto bl br l1 r1) true v) by (intros v V; apply OL; right; exact V).
        assert (OR' : forall v, In v (i_ops j) -> okv (upto bl br l1 r1) false v) by (intros v V; apply OR; right; exact V).
        clear - Z3 OL' OR' CU R0 LAW WL WR. induction Z3 as [|l r ls rs [H _] F IH]; [reflexivity|]. cbn. f_equal.
        + eapply eval_E; eauto; [apply OL'|apply OR']; left; reflexivity.
        + apply IH; intros v V; [apply OL'|apply OR']; right; exact V. }
    split; [exact EQ|]. intros v m' EX. pose proof EX as EX'. rewrite EQ in EX'.
    constructor.
    - intros l r k OKL OKR NL NR.
      destruct (eqb_spec l (VReg (i_reg i))) as [EL|NEL].
      + destruct TG as [[k' [K1 K2]]|[K1 _]]; [|congruence]. rewrite EL in NL. assert (k' = k) by congruence. subst k'.
        pose proof (v_inj _ _ _ _ _ _ (q_inv _ _ _ _ _ _ CE) false _ _ k NR K2) as ER. rewrite EL, ER. cbn. unfold upd. rewrite !Nat.eqb_refl. reflexivity.
      + destruct (eqb_spec r (VReg (i_reg j))) as [ER|NER].
        * exfalso. destruct TG as [[k' [K1 K2]]|[_ [K2 _]]]; [|congruence]. rewrite ER in NR. assert (k' = k) by congruence. subst k'.
          apply NEL. exact (v_inj _ _ _ _ _ _ (q_inv _ _ _ _ _ _ CE) true _ _ k NL K1).
        * pose proof (eval_upd true env (i_reg i) v l NEL) as Q1. pose proof (eval_upd false env' (i_reg j) v r NER) as Q2. cbn in Q1, Q2. rewrite Q1, Q2.
          apply (r_num _ _ _ R l r k); auto; eapply okv_snoc; eauto.
    - intros left c d HC F K. destruct (clear_kind w d K) as [NPD _].
      set (x := if left then i_reg i else i_reg j). set (y := if left then i else j).
      assert (Y : i_reg y = x) by (destruct left; reflexivity).
      assert (G : dget (f_blocks (fn left)) (at_ bl br left) = Some ((if left then l1 else r1) ++ y :: (if left then l2 else r2))) by (destruct left; assumption).
      assert (RY : reach (fn left) (at_ bl br left)) by (destruct left; assumption).
      assert (FR : ~ In x (upto bl br l1 r1 left)) by (rewrite <- Y; eapply fresh_upto; eauto).
      assert (ENV : (if left then upd S env (i_reg i) v else upd S env' (i_reg j) v) = upd S (if left then env else env') x v) by (destruct left; reflexivity).
      rewrite ENV. destruct (Nat.eq_dec c x) as [->|NE].
      + assert (d = y) by (clear - F FI FJ; subst x y; destruct left; cbn in *; congruence). subst d.
        assert (NO : op 0 y <> VReg x).
        { intros Q. assert (O : okv (upto bl br l1 r1) left (op 0 y)) by (eapply (operand_okv left); eauto; left; reflexivity). rewrite Q in O. destruct O as [O _]. exact (FR O). }
        rewrite eval_upd by exact NO. unfold upd. rewrite Nat.eqb_refl.
        assert (KC : i_code y = Cast true /\ safe_cast w y = true \/ zero_gep y = true).
        { unfold Funcomp_Inv.clear in K. destruct (i_code y) as [| | | | |[|]| | | | | | | | |] eqn:Z; try discriminate; auto. }
        destruct left; subst x y; cbn in *.
        * pose proof (law_cast _ _ _ _ LAW (constL S) fl (or_introl (conj eq_refl eq_refl)) args env m i II ltac:(rewrite <- zero_gep_iff; exact KC)) as Q. congruence.
        * pose proof (law_cast _ _ _ _ LAW (constR S) fr (or_intror (conj eq_refl eq_refl)) args env' m j IJ ltac:(rewrite <- zero_gep_iff; exact KC)) as Q. congruence.
      + assert (CU' : In c (upto bl br l1 r1 left)).
        { assert (Q : In c (cover bl br l1 r1 left)).
          { unfold cover, Funcomp_Walk.upto, defs in *. rewrite !in_app_iff in *. destruct HC as [[HC|HC]|HC]; auto.
            destruct left; rewrite map_app in HC; apply in_app_or in HC; (destruct HC as [HC|[HC|[]]]; [auto|exfalso; apply NE; symmetry; exact HC]). }
          eapply cover_plain; eauto. }
        assert (NO : op 0 d <> VReg x).
        { intros Q. pose proof (okv_op0 _ left c d CU CU' F K) as O. rewrite Q in O. destruct O as [O _]. exact (FR O). }
        rewrite eval_upd by exact NO. unfold upd. destruct (Nat.eqb_spec c x) as [Q|_]; [contradiction|].
        apply (r_clear _ _ _ R left c d); auto. apply cover_upto. exact CU'.
  Qed.

  (** Definitions without a value, and PHI nodes, which have their values already. *)
  Lemma rel_pass bl br l1 r1 l1' r1' env env' :
    (forall left c, In c (cover bl br l1' r1' left) -> In c (cover bl br l1 r1 left) \/ exists d, find_inst (fn left) c = Some d /\ (is_debug d = true \/ is_terminator d = true)) ->
    Rel (cover bl br l1 r1) env env' -> Rel (cover bl br l1' r1') env env'.
  Proof.
    intros I [a b]. constructor.
    - assert (OK : forall left v, okv (cover bl br l1' r1') left v -> okv (cover bl br l1 r1) left v).
      { intros left [x|c|y|k]; cbn; auto. intros [H1 H2]. split; [|exact H2]. destruct (I left c H1) as [Q|[d [F [Q|Q]]]]; [exact Q| |]; destruct (H2 d F); congruence. }
      intros l r k H1 H2. apply a; apply OK; assumption.
    - intros left c i H F K. destruct (I left c H) as [Q|[d [F' Q]]]; [apply (b left c i); assumption|].
      assert (d = i) by congruence. subst d. destruct (clear_kind w i K) as [_ [D T]]. destruct Q; congruence.
  Qed.
  Lemma cover_snoc bl br (l1 r1 : list inst) (left0 : bool) (i : inst) : forall left c, In c (cover bl br (if left0 then l1 ++ [i] else l1) (if left0 then r1 else r1 ++ [i]) left) ->
    In c (cover bl br l1 r1 left) \/ (left = left0 /\ c = i_reg i).
  Proof.
    intros left c H. unfold cover, Funcomp_Walk.upto, defs in *. rewrite !in_app_iff in *. destruct H as [[H|H]|H]; auto.
    destruct left0, left; try (rewrite map_app in H; apply in_app_or in H; destruct H as [H|[<-|[]]]; auto); auto.
  Qed.

  Lemma body_sim n : forall bl br l1 r1 pl pr env env' m, length pl + length pr <= n -> reach fl bl -> reach fr br ->
    dget (f_blocks fl) bl = Some (l1 ++ pl) -> dget (f_blocks fr) br = Some (r1 ++ pr) ->
    Forall2 (Pair w fl fr s) (real pl) (real pr) -> Rel (cover bl br l1 r1) env env' ->
    match body S (constL S) args pl env m, body S (constR S) args pr env' m with
    | None, None => True
    | Some (e, m1, t), Some (e', m1', t') => m1 = m1' /\ In t pl /\ In t' pr /\ is_terminator t = true /\ is_terminator t' = true /\
        Matched w fl fr s t t' /\ Rel (upto bl br (block fl bl) (block fr br)) e e' /\
        (forall v, In v (i_ops t) -> okv (upto bl br (block fl bl) (block fr br)) true v) /\ (forall v, In v (i_ops t') -> okv (upto bl br (block fl bl) (block fr br)) false v)
    | _, _ => False
    end.
  Proof.
    induction n as [|n IH]; intros bl br l1 r1 pl pr env env' m LE RL RR GL GR F R.
    { destruct pl, pr; cbn in LE; try lia. exact Logic.I. }
    destruct pl as [|i pl].
    { destruct pr as [|j pr]; [exact Logic.I|]. cbn [real filter] in F. destruct (is_debug j) eqn:DJ; cbn [negb] in F; [|inversion F].
      assert (GR' : dget (f_blocks fr) br = Some ((r1 ++ [j]) ++ pr)) by (rewrite <- app_assoc; exact GR).
      cbn [body]. rewrite DJ. cbn [orb]. specialize (IH bl br l1 (r1 ++ [j]) [] pr env env' m ltac:(cbn in *; lia) RL RR GL GR' F). cbn [body] in IH.
      destruct (body S (constR S) args pr env' m) as [[[e m1] t]|]; [|exact Logic.I]. apply IH.
      eapply rel_pass; [|exact R]. intros left c C. apply (cover_snoc bl br l1 r1 false j) in C. destruct C as [C|[-> ->]]; [left; exact C|].
      right. exists j. split; [eapply (get_find fr WR); [exact GR|apply in_or_app; right; left; reflexivity]|left; exact DJ]. }
    assert (GL' : dget (f_blocks fl) bl = Some ((l1 ++ [i]) ++ pl)) by (rewrite <- app_assoc; exact GL).
    assert (FI : find_inst fl (i_reg i) = Some i) by (eapply (get_find fl WL); [exact GL|apply in_or_app; right; left; reflexivity]).
    destruct (is_debug i) eqn:DI.
    { cbn [real filter] in F. rewrite DI in F. cbn [negb] in F. cbn [body]. rewrite DI. cbn [orb].
      specialize (IH bl br (l1 ++ [i]) r1 pl pr env env' m ltac:(cbn in *; lia) RL RR GL' GR F).
      destruct (body S (constL S) args pl env m) as [[[e m1] t]|]; destruct (body S (constR S) args pr env' m) as [[[e' m1'] t']|].
      all: assert (R' : Rel (cover bl br (l1 ++ [i]) r1) env env') by
        (eapply rel_pass; [|exact R]; intros side c C; apply (cover_snoc bl br l1 r1 true i) in C; destruct C as [C|[-> ->]]; [left; exact C|right; exists i; auto]).
      - destruct (IH R') as [Q1 [Q2 Q3]]. split; [exact Q1|]. split; [right; exact Q2|exact Q3].
      - exact (IH R').
      - exact (IH R').
      - exact Logic.I. }
    destruct pr as [|j pr]; [cbn [real filter] in F; rewrite DI in F; inversion F|].
    assert (GR' : dget (f_blocks fr) br = Some ((r1 ++ [j]) ++ pr)) by (rewrite <- app_assoc; exact GR).
    assert (FJ : find_inst fr (i_reg j) = Some j) by (eapply (get_find fr WR); [exact GR|apply in_or_app; right; left; reflexivity]).
    destruct (is_debug j) eqn:DJ.
    { assert (F' : Forall2 (Pair w fl fr s) (real (i :: pl)) (real pr)) by (cbn [real filter] in *; rewrite DJ in F; cbn [negb] in F; exact F).
      assert (B : body S (constR S) args (j :: pr) env' m = body S (constR S) args pr env' m) by (cbn [body]; rewrite DJ; reflexivity). rewrite B.
      specialize (IH bl br l1 (r1 ++ [j]) (i :: pl) pr env env' m ltac:(cbn in *; lia) RL RR GL GR' F').
      destruct (body S (constL S) args (i :: pl) env m) as [[[e m1] t]|]; destruct (body S (constR S) args pr env' m) as [[[e' m1'] t']|].
      all: assert (R' : Rel (cover bl br l1 (r1 ++ [j])) env env') by
        (eapply rel_pass; [|exact R]; intros side c C; apply (cover_snoc bl br l1 r1 false j) in C; destruct C as [C|[-> ->]]; [left; exact C|right; exists j; auto]).
      - destruct (IH R') as [Q1 [Q2 [Q3 Q4]]]. split; [exact Q1|]. split; [exact Q2|]. split; [right; exact Q3|exact Q4].
      - exact (IH R').
      - exact (IH R').
      - exact Logic.I. }
    cbn [real filter] in F. rewrite DI, DJ in F. cbn [negb] in F. inversion F as [|? ? ? ? PIJ F']; subst. fold (real pl) in F'. fold (real pr) in F'.
    cbn [body]. rewrite DI, DJ. cbn [orb].
    assert (LE' : length pl + length pr <= n) by (cbn in LE; lia).
    destruct PIJ as [[PI PJ]|MA].
    { rewrite PI, PJ. specialize (IH bl br (l1 ++ [i]) (r1 ++ [j]) pl pr env env' m LE' RL RR GL' GR' F').
      assert (R' : Rel (cover bl br (l1 ++ [i]) (r1 ++ [j])) env env').
      { eapply rel_mono; [|exact R]. intros left c C. unfold cover in *. apply in_app_or in C. apply in_or_app. destruct C as [C|C]; [|auto].
        assert (Q : In c (upto bl br l1 r1 left) \/ c = (if left then i_reg i else i_reg j)).
        { unfold Funcomp_Walk.upto, defs in *. rewrite in_app_iff in *. destruct C as [C|C]; [auto|]. destruct left; rewrite map_app in C; apply in_app_or in C; (destruct C as [C|[<-|[]]]; auto). }
        destruct Q as [Q| ->]; [left; exact Q|right]. apply In_phidefs. destruct left; cbn.
        - exists i. rewrite (block_get _ _ _ GL). split; [apply in_or_app; right; left; reflexivity|auto].
        - exists j. rewrite (block_get _ _ _ GR). split; [apply in_or_app; right; left; reflexivity|auto]. }
      destruct (body S (constL S) args pl env m) as [[[e m1] t]|]; destruct (body S (constR S) args pr env' m) as [[[e' m1'] t']|]; try exact (IH R').
      destruct (IH R') as [Q1 [Q2 [Q3 Q4]]]. split; [exact Q1|]. split; [right; exact Q2|]. split; [right; exact Q3|exact Q4]. }
    pose proof MA as MA0. destruct MA0 as [NPI [NPJ MA']]. rewrite NPI, NPJ.
    assert (TT : is_terminator i = is_terminator j).
    { destruct MA' as [_ [[z [Z1 [Z2 _]]]|[Z1 _]]]; unfold is_terminator; [rewrite Z1, Z2; reflexivity|]. destruct (i_code i), (i_code j); cbn in Z1; try discriminate; reflexivity. }
    rewrite <- TT. destruct (is_terminator i) eqn:TI.
    - split; [reflexivity|]. split; [left; reflexivity|]. split; [left; reflexivity|]. split; [exact TI|]. split; [congruence|]. split; [exact MA|].
      assert (pl = []).
      { destruct (wf_ends _ WL _ _ GL) as [l0 [t [E1 [T N]]]]. destruct pl as [|x pl]; [reflexivity|exfalso].
        assert (In i l0); [|rewrite (N i H) in TI; discriminate].
        destruct (exists_last (l := x :: pl) ltac:(discriminate)) as [a [z E2]]. rewrite E2 in E1.
        replace (l1 ++ i :: a ++ [z]) with ((l1 ++ i :: a) ++ [z]) in E1 by (rewrite <- app_assoc; reflexivity).
        apply app_inj_tail in E1. destruct E1 as [<- _]. apply in_or_app. right. left. reflexivity. }
      assert (pr = []).
      { destruct (wf_ends _ WR _ _ GR) as [l0 [t [E1 [T N]]]]. destruct pr as [|x pr]; [reflexivity|exfalso].
        assert (In j l0); [|rewrite (N j H0) in TT; discriminate].
        destruct (exists_last (l := x :: pr) ltac:(discriminate)) as [a [z E2]]. rewrite E2 in E1.
        replace (r1 ++ j :: a ++ [z]) with ((r1 ++ j :: a) ++ [z]) in E1 by (rewrite <- app_assoc; reflexivity).
        apply app_inj_tail in E1. destruct E1 as [<- _]. apply in_or_app. right. left. reflexivity. }
      subst pl pr. rewrite (block_get _ _ _ GL), (block_get _ _ _ GR).
      assert (R' : Rel (cover bl br (l1 ++ [i]) (r1 ++ [j])) env env').
      { eapply rel_pass; [|exact R]. intros left c C. apply (cover_snoc bl br l1 (r1 ++ [j]) true i) in C. destruct C as [C|[-> ->]]; [|right; exists i; auto].
        apply (cover_snoc bl br l1 r1 false j) in C. destruct C as [C|[-> ->]]; [left; exact C|right; exists j; split; [exact FJ|right; congruence]]. }
      split; [eapply rel_mono; [|exact R']; intros left; apply cover_upto|].
      split; intros v V; (eapply okv_mono; [intros left; apply upto_snoc|]).
      + eapply (operand_okv true); eauto. right. exact V.
      + eapply (operand_okv false); eauto. right. exact V.
    - destruct (step_sim bl br l1 r1 i j pl pr env env' m RL RR GL GR MA R) as [EQ NEXT]. rewrite <- EQ.
      destruct (exec S (plain (i_code i)) (i_rest i) (map (eL env) (i_ops i)) m) as [[v m']|]; [|exact Logic.I].
      specialize (IH bl br (l1 ++ [i]) (r1 ++ [j]) pl pr _ _ m' LE' RL RR GL' GR' F' (NEXT v m' eq_refl)).
      destruct (body S (constL S) args pl _ m') as [[[e m1] t]|]; destruct (body S (constR S) args pr _ m') as [[[e' m1'] t']|]; auto.
      destruct IH as [Q1 [Q2 [Q3 Q4]]]. split; [exact Q1|]. split; [right; exact Q2|]. split; [right; exact Q3|exact Q4].
  Qed.

  (** ** Going to the next block *)
  Lemma find_phi f b l p : well_formed f -> dget (f_blocks f) b = Some l -> In p l -> is_phi p = true ->
    find (fun x => is_phi x && Nat.eqb (i_reg x) (i_reg p)) l = Some p.
  Proof.
    intros W G I P. destruct (find (fun x => is_phi x && Nat.eqb (i_reg x) (i_reg p)) l) as [q|] eqn:F.
    - apply find_some in F. destruct F as [F1 F2]. apply andb_true_iff in F2. destruct F2 as [_ F2]. apply Nat.eqb_eq in F2.
      pose proof (get_find f W b l p G I) as Q1. pose proof (get_find f W b l q G F1) as Q2. congruence.
    - pose proof (find_none _ _ F p I) as Q. cbn in Q. rewrite P, Nat.eqb_refl in Q. discriminate.
  Qed.
  Lemma find_edge (l : list (value * nat)) v b : NoDup (map snd l) -> In (v, b) l -> find (fun e => Nat.eqb (snd e) b) l = Some (v, b).
  Proof.
    induction l as [|[u c] l IH]; cbn; [intros _ []|]. intros N. inversion N; subst. intros [H|H].
    - injection H as -> ->. rewrite Nat.eqb_refl. reflexivity.
    - destruct (Nat.eqb_spec c b) as [->|_]; [|auto]. exfalso. apply H1. apply in_map_iff. exists (v, b). auto.
  Qed.
  Lemma incoming_snd p from : i_code p = Phi from -> length (i_ops p) = length from -> map snd (incoming p) = from.
  Proof. unfold incoming. intros -> L. revert L. generalize (i_ops p). induction from as [|c from IH]; intros [|v vs] L; cbn in *; try discriminate; [reflexivity|]. f_equal. apply IH. lia. Qed.

  (** The value of a PHI node. *)
  Lemma enter_phi cs env prev f b l p v : well_formed f -> dget (f_blocks f) b = Some l -> In p l -> is_phi p = true -> In (v, prev) (incoming p) ->
    enter S cs args env prev l (i_reg p) = eval S cs args env v.
  Proof.
    intros W G I P H. unfold enter. rewrite (find_phi f b l p W G I P).
    assert (exists from, i_code p = Phi from) as [from K] by (unfold is_phi in P; destruct (i_code p); try discriminate; eauto).
    destruct (wf_phis _ W b l p from G I K) as [L [N _]]. rewrite (find_edge _ v prev); [reflexivity|rewrite (incoming_snd p from K L); exact N|exact H].
  Qed.
  Lemma enter_other cs env prev l r : ~ In r (phidefs l) -> enter S cs args env prev l r = env r.
  Proof.
    intros N. unfold enter. destruct (find (fun x => is_phi x && Nat.eqb (i_reg x) r) l) as [p|] eqn:F; [|reflexivity].
    exfalso. apply N. apply find_some in F. destruct F as [F1 F2]. apply andb_true_iff in F2. destruct F2 as [F2 F3]. apply Nat.eqb_eq in F3. apply In_phidefs. eauto.
  Qed.
  Lemma eval_enter left env prev l v : match v with VReg r => ~ In r (phidefs l) | _ => True end -> ev left (enter S (cst left) args env prev l) v = ev left env v.
  Proof. destruct v; cbn; auto. apply enter_other. Qed.

  Lemma enter_sim bl br c c' env env' : In (bl, br) Done -> In (c, c') Done -> edge fl bl c -> edge fr br c' ->
    Rel (upto bl br (block fl bl) (block fr br)) env env' ->
    Rel (cover c c' [] []) (enter S (constL S) args env bl (block fl c)) (enter S (constR S) args env' br (block fr c')).
  Proof.
    intros B CC ED ED' R. destruct (q_reach _ _ _ _ _ _ CE bl br B) as [RL RR]. destruct (q_reach _ _ _ _ _ _ CE c c' CC) as [RC RC'].
    destruct (reach_get fl WL _ RL) as [ll GL], (reach_get fr WR _ RR) as [lr GR]. destruct (reach_get fl WL _ RC) as [lc GC], (reach_get fr WR _ RC') as [lc' GC'].
    pose proof (block_get _ _ _ GL) as BL. pose proof (block_get _ _ _ GR) as BR. pose proof (block_get _ _ _ GC) as BC. pose proof (block_get _ _ _ GC') as BC'.
    assert (CU : closed (upto bl br (block fl bl) (block fr br))) by (eapply (closed_upto bl br _ [] _ []); try rewrite app_nil_r; rewrite ?BL, ?BR; auto).
    assert (AVI : forall left r, In r (av left (at_ c c' left)) -> In r (upto bl br (block fl bl) (block fr br) left)).
    { intros left r H. destruct (SA left) as [_ Q]. destruct left; cbn in *.
      - destruct (Q bl ll RL GL) as [Q1 _]. unfold Funcomp_Walk.upto. cbn. rewrite BL. apply (Q1 c ED). exact H.
      - destruct (Q br lr RR GR) as [Q1 _]. unfold Funcomp_Walk.upto. cbn. rewrite BR. apply (Q1 c' ED'). exact H. }
    assert (NAV : forall left r, In r (av left (at_ c c' left)) -> ~ In r (phidefs (block (fn left) (at_ c c' left)))).
    { intros left r H P. apply In_phidefs in P. destruct P as [p [P1 [_ <-]]]. destruct (SA left) as [_ Q]. destruct left; cbn in *.
      - destruct (Q c lc RC GC) as [_ [Q2 _]]. eapply Q2; [|exact H]. unfold defs. apply in_map. rewrite <- BC. exact P1.
      - destruct (Q c' lc' RC' GC') as [_ [Q2 _]]. eapply Q2; [|exact H]. unfold defs. apply in_map. rewrite <- BC'. exact P1. }
    assert (CV : forall left r, In r (cover c c' [] [] left) -> In r (av left (at_ c c' left)) \/ In r (phidefs (block (fn left) (at_ c c' left)))).
    { intros left r H. unfold cover, Funcomp_Walk.upto in H. rewrite !in_app_iff in H. destruct H as [[H|H]|H]; auto. destruct left; destruct H. }
    (* a PHI node at the beginning and its partner *)
    assert (PHI : forall p q, In (p, q) (phis s) -> (In p (block fl c) \/ In q (block fr c')) -> In p (block fl c) /\ In q (block fr c') /\
       enter S (constL S) args env bl (block fl c) (i_reg p) = enter S (constR S) args env' br (block fr c') (i_reg q)).
    { intros p q PQ WH. destruct (v_phis _ _ _ _ _ _ (q_inv _ _ _ _ _ _ CE) p q PQ) as [FP [PP [FQ [PQ' _]]]].
      destruct (insts_get fl WL p (proj1 (find_inst_In _ _ _ FP))) as [b1 [l1 [G1 I1]]]. destruct (insts_get fr WR q (proj1 (find_inst_In _ _ _ FQ))) as [b2 [l2 [G2 I2]]].
      pose proof (phi_parents w fl fr WL WR av SA Done s CE p q b1 l1 b2 l2 PQ G1 I1 G2 I2) as DP.
      assert (b1 = c /\ b2 = c') as [-> ->].
      { destruct WH as [WH|WH].
        - assert (b1 = c) by (eapply (defs_block fl WL); [exact G1|exact GC|unfold defs; apply in_map; exact I1|unfold defs; apply in_map; rewrite <- BC; exact WH]). subst b1.
          split; [reflexivity|]. eapply done_fun; eauto.
        - assert (b2 = c') by (eapply (defs_block fr WR); [exact G2|exact GC'|unfold defs; apply in_map; exact I2|unfold defs; apply in_map; rewrite <- BC'; exact WH]). subst b2.
          split; [|reflexivity]. eapply done_inj; eauto. }
      assert (l1 = lc) by congruence. assert (l2 = lc') by congruence. subst l1 l2. rewrite BC, BC'. split; [exact I1|]. split; [exact I2|].
      assert (exists from, i_code p = Phi from) as [from KP] by (unfold is_phi in PP; destruct (i_code p); try discriminate; eauto).
      assert (exists from, i_code q = Phi from) as [from' KQ] by (unfold is_phi in PQ'; destruct (i_code q); try discriminate; eauto).
      destruct (wf_phis _ WL c lc p from GC I1 KP) as [LP [NP [FR _]]]. 
      destruct (In_incoming p from bl KP LP (proj2 (FR bl) ED)) as [v V].
      destruct (q_phis _ _ _ _ _ _ CE p q PQ) as [_ [_ MATCH]]. destruct (MATCH v bl V) as [u [d [U [DD EV]]]]. assert (d = br) by (eapply done_fun; eauto). subst d.
      rewrite (enter_phi _ env bl fl c lc p v WL GC I1 PP V), (enter_phi _ env' br fr c' lc' q u WR GC' I2 PQ' U).
      eapply eval_E; eauto.
      - destruct (incoming_edge fl fr WL WR true p v bl FP V) as [B1 [m1 [H1 [H2 [H3 [H4 [H5 H6]]]]]]]. pose proof (wf_operands _ WL p v (proj1 (find_inst_In _ _ _ FP)) H5) as WO.
        destruct v as [a|r|x|k]; cbn; auto. split; [|exact WO]. destruct (SA true) as [_ Q]. destruct (Q bl ll RL GL) as [_ [_ [_ [_ Q5]]]].
        unfold Funcomp_Walk.upto. cbn. rewrite BL. apply (Q5 c lc p (VReg r) ED GC I1 PP V). left. reflexivity.
      - destruct (incoming_edge fl fr WL WR false q u br FQ U) as [B1 [m1 [H1 [H2 [H3 [H4 [H5 H6]]]]]]]. pose proof (wf_operands _ WR q u (proj1 (find_inst_In _ _ _ FQ)) H5) as WO.
        destruct u as [a|r|x|k]; cbn; auto. split; [|exact WO]. destruct (SA false) as [_ Q]. destruct (Q br lr RR GR) as [_ [_ [_ [_ Q5]]]].
        unfold Funcomp_Walk.upto. cbn. rewrite BR. apply (Q5 c' lc' q (VReg r) ED' GC' I2 PQ' U). left. reflexivity. }
    constructor.
    - intros l r k OL OR NL NR.
      assert (DEC : (exists p q, In (p, q) (phis s) /\ l = VReg (i_reg p) /\ r = VReg (i_reg q) /\ (In p (block fl c) \/ In q (block fr c'))) \/
        (match l with VReg x => ~ In x (phidefs (block fl c)) | _ => True end /\ match r with VReg x => ~ In x (phidefs (block fr c')) | _ => True end)).
      { assert (GETL : forall p, In p (block fl c) -> find_inst fl (i_reg p) = Some p) by (intros p Hp; rewrite BC in Hp; eapply (get_find fl WL); eauto).
        assert (GETR : forall p, In p (block fr c') -> find_inst fr (i_reg p) = Some p) by (intros p Hp; rewrite BC' in Hp; eapply (get_find fr WR); eauto).
        destruct (match l with VReg x => existsb (Nat.eqb x) (phidefs (block fl c)) | _ => false end) eqn:XL.
        - left. destruct l as [|x| |]; try discriminate. apply existsb_exists in XL. destruct XL as [y [Y1 Y2]]. apply Nat.eqb_eq in Y2. subst y.
          apply In_phidefs in Y1. destruct Y1 as [p [P1 [P2 <-]]].
          destruct (v_phis' _ _ _ _ _ _ (q_inv _ _ _ _ _ _ CE) (VReg (i_reg p)) r k NL NR) as [p0 [q0 [Q1 [Q2 Q3]]]].
          { left. unfold phi_of. cbn. rewrite (GETL p P1), P2. discriminate. }
          injection Q2 as Q2. destruct (v_phis _ _ _ _ _ _ (q_inv _ _ _ _ _ _ CE) p0 q0 Q1) as [FP _]. pose proof (GETL p P1) as FP'. assert (p0 = p) by congruence. subst p0.
          exists p, q0. auto.
        - destruct (match r with VReg x => existsb (Nat.eqb x) (phidefs (block fr c')) | _ => false end) eqn:XR.
          + left. destruct r as [|x| |]; try discriminate. apply existsb_exists in XR. destruct XR as [y [Y1 Y2]]. apply Nat.eqb_eq in Y2. subst y.
            apply In_phidefs in Y1. destruct Y1 as [q [P1 [P2 <-]]].
            destruct (v_phis' _ _ _ _ _ _ (q_inv _ _ _ _ _ _ CE) l (VReg (i_reg q)) k NL NR) as [p0 [q0 [Q1 [Q2 Q3]]]].
            { right. unfold phi_of. cbn. rewrite (GETR q P1), P2. discriminate. }
            injection Q3 as Q3. destruct (v_phis _ _ _ _ _ _ (q_inv _ _ _ _ _ _ CE) p0 q0 Q1) as [_ [_ [FQ _]]]. pose proof (GETR q P1) as FQ'. assert (q0 = q) by congruence. subst q0.
            exists p0, q. auto.
          + right. split.
            * destruct l as [|x| |]; auto. intros Q. assert (existsb (Nat.eqb x) (phidefs (block fl c)) = true) by (apply existsb_exists; exists x; split; [exact Q|apply Nat.eqb_refl]). congruence.
            * destruct r as [|x| |]; auto. intros Q. assert (existsb (Nat.eqb x) (phidefs (block fr c')) = true) by (apply existsb_exists; exists x; split; [exact Q|apply Nat.eqb_refl]). congruence. }
      destruct DEC as [[p [q [PQ [-> [-> WH]]]]]|[NPL NPR]]; [apply (PHI p q PQ WH)|].
      pose proof (eval_enter true env bl (block fl c) l NPL) as Q1. pose proof (eval_enter false env' br (block fr c') r NPR) as Q2. cbn in Q1, Q2. rewrite Q1, Q2.
      apply (r_num _ _ _ R l r k); auto.
      + destruct l as [a|x|b|y]; cbn; auto. destruct OL as [OL VL]. split; [|exact VL]. destruct (CV true x OL) as [Q|Q]; [apply (AVI true); exact Q|cbn in Q; contradiction].
      + destruct r as [a|x|b|y]; cbn; auto. destruct OR as [OR VR]. split; [|exact VR]. destruct (CV false x OR) as [Q|Q]; [apply (AVI false); exact Q|cbn in Q; contradiction].
    - intros left x d H F K. destruct (clear_kind w d K) as [NPD _].
      assert (XA : In x (av left (at_ c c' left))).
      { destruct (CV left x H) as [Q|Q]; [exact Q|]. apply In_phidefs in Q. destruct Q as [p [P1 [P2 <-]]].
        assert (find_inst (fn left) (i_reg p) = Some p) by (destruct left; cbn in *; [rewrite BC in P1; eapply (get_find fl WL); eauto|rewrite BC' in P1; eapply (get_find fr WR); eauto]). congruence. }
      assert (ENV : (if left then enter S (constL S) args env bl (block fl c) else enter S (constR S) args env' br (block fr c')) =
         enter S (cst left) args (if left then env else env') (at_ bl br left) (block (fn left) (at_ c c' left))) by (destruct left; reflexivity).
      rewrite ENV, enter_other by (apply NAV; exact XA). rewrite eval_enter.
      + apply (r_clear _ _ _ R left x d (AVI left x XA) F K).
      + destruct (op0_cases d) as [O|O]; [|rewrite O; exact Logic.I]. destruct (op 0 d) as [a|y|b|k] eqn:OP; auto. apply NAV.
        destruct (SA left) as [_ Q]. destruct left; cbn in *.
        * destruct (Q c lc RC GC) as [_ [_ [Q3 _]]]. apply (Q3 x d XA F NPD). apply In_regs. exact O.
        * destruct (Q c' lc' RC' GC') as [_ [_ [Q3 _]]]. apply (Q3 x d XA F NPD). apply In_regs. exact O.
  Qed.

  Lemma nth_both {A B} (R : A -> B -> Prop) l l' k : Forall2 R l l' -> match nth_error l k, nth_error l' k with Some x, Some y => R x y | None, None => True | _, _ => False end.
  Proof. intros F. revert k. induction F as [|a b l l' H F IH]; intros [|k]; cbn; auto. apply IH. Qed.

  Lemma run_sim n : forall bl br env env' env1 env1' m prev prev', In (bl, br) Done ->
    match prev with Some p => enter S (constL S) args env p (block fl bl) | None => env end = env1 ->
    match prev' with Some p => enter S (constR S) args env' p (block fr br) | None => env' end = env1' ->
    Rel (cover bl br [] []) env1 env1' ->
    run S (constL S) args fl n env m prev bl = run S (constR S) args fr n env' m prev' br.
  Proof.
    induction n as [|n IH]; intros bl br env env' env1 env1' m prev prev' B E1 E2 R; [reflexivity|]. cbn [run]. rewrite E1, E2. clear E1 E2.
    destruct (q_reach _ _ _ _ _ _ CE bl br B) as [RL RR]. destruct (reach_get fl WL _ RL) as [ll GL], (reach_get fr WR _ RR) as [lr GR].
    pose proof (block_get _ _ _ GL) as BL. pose proof (block_get _ _ _ GR) as BR.
    pose proof (body_sim (length ll + length lr) bl br [] [] ll lr env1 env1' m (le_n _) RL RR GL GR ltac:(rewrite <- BL, <- BR; apply (q_pairs _ _ _ _ _ _ CE); exact B) R) as BS.
    rewrite BL, BR in *.
    destruct (body S (constL S) args ll env1 m) as [[[e m1] t]|]; destruct (body S (constR S) args lr env1' m) as [[[e' m1'] t']|]; try contradiction; [|reflexivity].
    destruct BS as [<- [IT [IT' [TT [TT' [MA [RE [OL OR]]]]]]]].
    assert (CU : closed (upto bl br ll lr)) by (eapply (closed_upto bl br _ [] _ []); try rewrite app_nil_r; eauto).
    destruct MA as [_ [_ [_ [[z [Z _]]|[Z1 [Z2 Z3]]]]]]; [unfold is_terminator in TT; rewrite Z in TT; discriminate|].
    assert (KK : i_code t = i_code t') by (unfold is_terminator in TT, TT'; destruct (i_code t), (i_code t'); cbn in Z1; try discriminate; auto).
    assert (VV : map (eL e) (i_ops t) = map (eR e') (i_ops t')).
    { clear - Z3 OL OR CU RE LAW WL WR. induction Z3 as [|l r ls rs [H _] F IH]; [reflexivity|]. cbn. f_equal.
      - eapply eval_E; eauto; [apply OL|apply OR]; left; reflexivity.
      - apply IH; intros v V; [apply OL|apply OR]; right; exact V. }
    assert (NEXT : match choose S (i_code t) (i_rest t) (map (eL e) (i_ops t)) with
       | None => Stuck | Some k => match nth_error (successors t) k with None => Stuck | Some b' => run S (constL S) args fl n e m1 (Some bl) b' end end =
       match choose S (i_code t') (i_rest t') (map (eR e') (i_ops t')) with
       | None => Stuck | Some k => match nth_error (successors t') k with None => Stuck | Some b' => run S (constR S) args fr n e' m1 (Some br) b' end end).
    { rewrite <- VV, <- KK, (law_choose _ _ _ _ LAW _ _ _ _ Z2). destruct (choose S (i_code t) (i_rest t') (map (eL e) (i_ops t))) as [k|]; [|reflexivity].
      destruct (q_succ _ _ _ _ _ _ CE bl br B) as [u [u' [U1 [U2 F]]]]. rewrite BL in U1. rewrite BR in U2.
      destruct (end_of fl WL _ _ GL) as [l0 [x [_ [X1 [_ X2]]]]]. destruct (end_of fr WR _ _ GR) as [l0' [x' [_ [X1' [_ X2']]]]].
      assert (u = t) by (rewrite (X2 t IT TT); congruence). assert (u' = t') by (rewrite (X2' t' IT' TT'); congruence). subst u u'.
      pose proof (nth_both _ _ _ k F) as NB.
      destruct (nth_error (successors t) k) as [c|] eqn:N1; destruct (nth_error (successors t') k) as [c'|] eqn:N2; try contradiction; [|reflexivity].
      assert (ED : edge fl bl c) by (exists ll, t; split; [exact GL|split; [exact U1|eapply nth_error_In; exact N1]]).
      assert (ED' : edge fr br c') by (exists lr, t'; split; [exact GR|split; [exact U2|eapply nth_error_In; exact N2]]).
      eapply IH; [exact NB|reflexivity|reflexivity|]. eapply enter_sim; eauto. rewrite BL, BR. exact RE. }
    rewrite VV in *. rewrite KK in *. destruct (i_code t'); try exact NEXT. reflexivity.
  Qed.

  Theorem result_sim n m : result S (constL S) args fl n m = result S (constR S) args fr n m.
  Proof.
    unfold result. eapply run_sim; [apply (q_entry _ _ _ _ _ _ CE)|reflexivity|reflexivity|].
    assert (NONE : forall left c, ~ In c (cover (entry fl) (entry fr) [] [] left)).
    { intros left c H. unfold cover, Funcomp_Walk.upto in H. rewrite !in_app_iff in H. destruct H as [[H|H]|H].
      - destruct (SA left) as [Q _]. destruct left; cbn in *; rewrite Q in H; destruct H.
      - destruct left; destruct H.
      - apply In_phidefs in H. destruct H as [p [P1 [P2 <-]]].
        assert (exists from, i_code p = Phi from) as [from K] by (unfold is_phi in P2; destruct (i_code p); try discriminate; eauto).
        destruct left; cbn in *.
        + destruct (reach_get fl WL _ (reach_entry fl)) as [l G]. rewrite (block_get _ _ _ G) in P1. destruct (wf_phis _ WL _ l p from G P1 K) as [_ [_ [_ Q]]]. congruence.
        + destruct (reach_get fr WR _ (reach_entry fr)) as [l G]. rewrite (block_get _ _ _ G) in P1. destruct (wf_phis _ WR _ l p from G P1 K) as [_ [_ [_ Q]]]. congruence. }
    pose proof (q_inv _ _ _ _ _ _ CE) as I.
    constructor; [|intros left c i H; destruct (NONE left c H)].
    intros l r k OL OR NL NR. destruct l as [a|c|b|c]; [|destruct OL as [OL _]; destruct (NONE true c OL)| |].
    - destruct (v_args _ _ _ _ _ _ I true a k NL) as [-> LT]. pose proof (v_args' _ _ _ _ _ _ I false a LT) as N. pose proof (v_inj _ _ _ _ _ _ I false _ _ a NR N) as ->. reflexivity.
    - pose proof (v_kind _ _ _ _ _ _ I _ _ _ NL NR) as Q. destruct r; try discriminate. reflexivity.
    - pose proof (v_const _ _ _ _ _ _ I true c) as Q. cbn in Q. congruence.
  Qed.
End Sim.

Theorem compare_sound w fl fr n s S : well_formed fl -> well_formed fr -> lawful w S fl fr ->
  compare w fl fr n = Some (true, s) -> (forall e, In e (log s) -> e = Replaced) ->
  forall args steps m, result S (constL S) args fl steps m = result S (constR S) args fr steps m.
Proof.
  intros WL WR LAW H T args steps m. destruct (wf_ssa _ WL) as [al SL], (wf_ssa _ WR) as [ar SR].
  set (av := fun left : bool => if left then al else ar).
  assert (SA : forall left, ssa (fn fl fr left) (av left)) by (intros [|]; assumption).
  assert (HA : f_args fl = f_args fr).
  { unfold compare in H. destruct (_ && _) eqn:Q; [|discriminate]. apply andb_true_iff in Q. apply Nat.eqb_eq. apply Q. }
  destruct (compare_cert w fl fr WL WR HA av SA n s H T) as [Done CE]. eapply result_sim; eauto.
Qed.
