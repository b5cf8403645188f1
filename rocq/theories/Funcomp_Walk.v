(** * The walk through the blocks, without exceptions but looking through casts *)
From Coq Require Import String Ascii ZArith Arith Bool Lia List.
From Verif Require Import PyBase Funcomp_Model Funcomp_Spec Funcomp_Log Funcomp_Reloc Funcomp_Inv Funcomp_Visit.
Import ListNotations.
Open Scope list_scope.
Open Scope nat_scope.

(** ** Facts about well-formed functions *)

Definition ssa (f : func) (avail : nat -> list nat) : Prop :=
  avail (entry f) = [] /\
  forall b l, reach f b -> dget (f_blocks f) b = Some l ->
  (forall c, edge f b c -> incl (avail c) (avail b ++ defs l)) /\
  (forall r, In r (defs l) -> ~ In r (avail b)) /\
  (forall c i, In c (avail b) -> find_inst f c = Some i -> is_phi i = false -> incl (regs (i_ops i)) (avail b)) /\
  (forall l1 i l2, l = l1 ++ i :: l2 -> is_phi i = false -> incl (regs (i_ops i)) (avail b ++ defs l1)) /\
  (forall c m i v, edge f b c -> dget (f_blocks f) c = Some m -> In i m -> is_phi i = true -> In (v, b) (incoming i) ->
     incl (regs [v]) (avail b ++ defs l)).

Lemma In_regs vs c : In c (regs vs) <-> In (VReg c) vs.
Proof.
  unfold regs. rewrite in_flat_map. split.
  - intros [v [V H]]. destruct v; try (destruct H; fail). destruct H as [<-|[]]. exact V.
  - intros H. exists (VReg c). split; [exact H|left; reflexivity].
Qed.
Lemma In_blocks_of vs b : In b (blocks_of vs) <-> In (VBlock b) vs.
Proof.
  unfold blocks_of. rewrite in_flat_map. split.
  - intros [v [V H]]. destruct v; try (destruct H; fail). destruct H as [<-|[]]. exact V.
  - intros H. exists (VBlock b). split; [exact H|left; reflexivity].
Qed.
Lemma In_successors i b : In b (successors i) <-> (i_code i = Br \/ i_code i = Switch) /\ In (VBlock b) (i_ops i).
Proof.
  unfold successors. destruct (i_code i); try (split; [intros []|intros [[H|H] _]; discriminate]).
  - rewrite <- in_rev, In_blocks_of. tauto.
  - rewrite In_blocks_of. tauto.
Qed.

Lemma NoDup_app_remove_l {A} (l l' : list A) : NoDup (l ++ l') -> NoDup l'.
Proof. induction l as [|x l IH]; cbn; [auto|]. intros N. inversion N; subst. auto. Qed.
Lemma NoDup_app_remove_r {A} (l l' : list A) : NoDup (l ++ l') -> NoDup l.
Proof. induction l as [|x l IH]; cbn; [constructor|]. intros N. inversion N; subst. constructor; [|auto]. intros Q. apply H1. apply in_or_app. left. exact Q. Qed.

Section Facts.
  Variable f : func.
  Hypothesis W : well_formed f.

  Lemma block_get b l : dget (f_blocks f) b = Some l -> block f b = l.
  Proof. unfold block. intros ->. reflexivity. Qed.
  Lemma get_insts b l i : dget (f_blocks f) b = Some l -> In i l -> In i (insts f).
  Proof. intros G I. apply dget_In in G. unfold insts. apply in_flat_map. exists (b, l). auto. Qed.
  Lemma get_find b l i : dget (f_blocks f) b = Some l -> In i l -> find_inst f (i_reg i) = Some i.
  Proof. intros G I. apply In_find; [apply wf_regs, W|eapply get_insts; eauto]. Qed.
  Lemma insts_get i : In i (insts f) -> exists b l, dget (f_blocks f) b = Some l /\ In i l.
  Proof.
    unfold insts. rewrite in_flat_map. intros [[b l] [B I]]. exists b, l. split; [|exact I].
    apply dget_In_NoDup; [apply wf_blocks, W|exact B].
  Qed.
  Lemma keys_get b : In b (dkeys (f_blocks f)) -> exists l, dget (f_blocks f) b = Some l.
  Proof. apply dkeys_dget. Qed.
  Lemma reach_get b : reach f b -> exists l, dget (f_blocks f) b = Some l.
  Proof. intros R. apply keys_get. destruct R; [apply wf_entry, W|eapply (wf_targets _ W); eauto]. Qed.

  Lemma flat_nodup (bs : list (nat * list inst)) : NoDup (map i_reg (flat_map snd bs)) ->
    (forall b l, In (b, l) bs -> NoDup (defs l)) /\
    forall b1 l1 b2 l2 r, In (b1, l1) bs -> In (b2, l2) bs -> In r (defs l1) -> In r (defs l2) -> (b1, l1) = (b2, l2).
  Proof.
    induction bs as [|[b l] bs IH]; cbn; [intros _; split; [intros ? ? []|intros ? ? ? ? ? []]|].
    rewrite map_app. intros N. apply NoDup_app_remove_l in N as N2. apply IH in N2. destruct N2 as [N2 N3].
    assert (DJ : forall r, In r (defs l) -> In r (map i_reg (flat_map snd bs)) -> False).
    { clear - N. unfold defs. induction (map i_reg l) as [|x xs IH]; cbn in *; [intros ? []|]. inversion N; subst.
      intros r [<-|H] Q; [apply H1, in_or_app; right; exact Q|eapply IH; eauto]. }
    assert (IN : forall b' l' r, In (b', l') bs -> In r (defs l') -> In r (map i_reg (flat_map snd bs))).
    { intros b' l' r B R. unfold defs in R. apply in_map_iff in R. destruct R as [i [<- R]]. apply in_map. apply in_flat_map. exists (b', l'). auto. }
    split.
    - intros b' l' [H|H]; [injection H as <- <-|eauto]. apply NoDup_app_remove_r in N. exact N.
    - intros b1 l1 b2 l2 r [H1|H1] [H2|H2] R1 R2.
      + congruence.
      + injection H1 as <- <-. exfalso. eapply DJ; eauto.
      + injection H2 as <- <-. exfalso. eapply DJ; eauto.
      + eapply N3; eauto.
  Qed.
  Lemma defs_nodup b l : dget (f_blocks f) b = Some l -> NoDup (defs l).
  Proof. intros G. eapply (flat_nodup _ (wf_regs _ W)). apply dget_In. exact G. Qed.
  Lemma defs_block b1 l1 b2 l2 r : dget (f_blocks f) b1 = Some l1 -> dget (f_blocks f) b2 = Some l2 -> In r (defs l1) -> In r (defs l2) -> b1 = b2.
  Proof. intros G1 G2 R1 R2. apply dget_In in G1, G2. pose proof (proj2 (flat_nodup _ (wf_regs _ W)) _ _ _ _ _ G1 G2 R1 R2) as Q. congruence. Qed.

  Lemma end_of b l : dget (f_blocks f) b = Some l -> exists l0 t, l = l0 ++ [t] /\ terminator l = Some t /\ is_terminator t = true /\ forall i, In i l -> is_terminator i = true -> i = t.
  Proof.
    intros G. destruct (wf_ends _ W b l G) as [l0 [t [-> [T N]]]]. exists l0, t. split; [reflexivity|].
    split; [unfold terminator; rewrite rev_app_distr; cbn; rewrite T; reflexivity|]. split; [exact T|].
    intros i I Q. apply in_app_or in I. destruct I as [I|[->|[]]]; [rewrite (N i I) in Q; discriminate|reflexivity].
  Qed.
  Lemma operand_edge b l i c : dget (f_blocks f) b = Some l -> In i l -> In (VBlock c) (i_ops i) -> edge f b c.
  Proof.
    intros G I O. pose proof (wf_operands _ W i _ (get_insts _ _ _ G I) O) as K. cbn in K.
    destruct (end_of b l G) as [l0 [t [EL [T [_ U]]]]]. exists l, t. split; [exact G|]. split; [exact T|].
    assert (i = t) by (apply U; [exact I|unfold is_terminator; destruct K as [K|K]; rewrite K; reflexivity]). subst t.
    apply In_successors. auto.
  Qed.

  Variable av : nat -> list nat.
  Hypothesis SA : ssa f av.

  Lemma closed_prefix b l1 l2 c i : reach f b -> dget (f_blocks f) b = Some (l1 ++ l2) -> In c (av b ++ defs l1) -> find_inst f c = Some i -> is_phi i = false ->
    incl (regs (i_ops i)) (av b ++ defs l1).
  Proof.
    intros R G C F P. destruct SA as [_ S]. destruct (S b _ R G) as [_ [_ [S3 [S4 _]]]]. apply in_app_or in C. destruct C as [C|C].
    - intros x X. apply in_or_app. left. eapply S3; eauto.
    - unfold defs in C. apply in_map_iff in C. destruct C as [i' [<- C]].
      assert (i' = i). { pose proof (get_find b _ i' G (in_or_app _ _ _ (or_introl C))) as Q. congruence. } subst i'.
      apply in_split in C. destruct C as [a [z ->]]. intros x X.
      assert (Q : In x (av b ++ defs a)) by (eapply (S4 a i (z ++ l2)); eauto; rewrite <- app_assoc; reflexivity).
      unfold defs. rewrite map_app. apply in_app_or in Q. apply in_or_app. destruct Q as [Q|Q]; [left; exact Q|right; apply in_or_app; left; exact Q].
  Qed.
  Lemma operands_prefix b l1 i l2 : reach f b -> dget (f_blocks f) b = Some (l1 ++ i :: l2) -> is_phi i = false -> incl (regs (i_ops i)) (av b ++ defs l1).
  Proof. intros R G P. destruct SA as [_ S]. destruct (S b _ R G) as [_ [_ [_ [S4 _]]]]. eapply S4; eauto. Qed.
End Facts.

Section Walk.
  Variable w : world.
  Variables fl fr : func.
  Hypothesis WL : well_formed fl.
  Hypothesis WR : well_formed fr.
  Hypothesis HA : f_args fl = f_args fr.
  Notation fn := (fn fl fr).
  Variable av : bool -> nat -> list nat.
  Hypothesis SA : forall left, ssa (fn left) (av left).
  Notation Inv := (Inv w fl fr).
  Notation ext := (ext fl fr).
  Notation E := (E w fl fr).
  Notation P := (P fl fr).
  Notation clear := (clear w).
  Notation fine := (fine w fl fr).
  Notation Matched := (Matched w fl fr).

  Lemma WF left : well_formed (fn left). Proof. destruct left; assumption. Qed.

  (** ** Weakening *)
  Lemma inv_iff D D' C s : (forall left c, In c (D left) <-> In c (D' left)) -> Inv D C s -> Inv D' C s.
  Proof.
    intros Q [a1 a2 a3 a4 a5 a6 a7 a8 a9 a10 a11 a12 a13]. constructor; auto.
    - intros left v u H. destruct (a9 left v u H) as [c [i [H1 [H2 [H3 [H4 [H5 [H6|H6]]]]]]]]; exists c, i; repeat (split; [assumption|]); [left; apply Q; exact H6|right; exact H6].
    - intros left r H. destruct (a10 left r H) as [H1|H1]; [left; apply Q; exact H1|right; exact H1].
    - intros left c i H. apply a11. apply Q. exact H.
  Qed.
  (** PHI nodes and debug information are not compared when they are met. *)
  Lemma inv_pass D s left0 r : Inv D none s -> (forall i, find_inst (fn left0) r = Some i -> is_phi i || is_debug i = true) ->
    Inv (fun left => if Bool.eqb left left0 then r :: D left else D left) none s.
  Proof.
    intros [a1 a2 a3 a4 a5 a6 a7 a8 a9 a10 a11 a12 a13] Q. constructor; auto.
    - intros left v u H. destruct (a9 left v u H) as [c [i [H1 [H2 [H3 [H4 [H5 [H6|[]]]]]]]]]; exists c, i; repeat (split; [assumption|]); left; destruct (Bool.eqb left left0); [right|]; exact H6.
    - intros left c H. destruct (a10 left c H) as [H1|[]]; left; destruct (Bool.eqb left left0); [right|]; exact H1.
    - intros left c i H F NP ND. destruct (Bool.eqb left left0) eqn:B; [|apply (a11 left c i); assumption].
      apply Bool.eqb_prop in B. subst left0. destruct H as [<-|H]; [|apply (a11 left c i); assumption].
      specialize (Q i F). rewrite NP, ND in Q. discriminate.
  Qed.
  Lemma ext_more C C' (A A' : allowed) s s' : (forall left, incl (C left) (C' left)) -> (forall left v, A left v -> A' left v) -> ext C A s s' -> ext C' A' s s'.
  Proof.
    intros IC IA [a b c [n [d e]]]. constructor; auto.
    - intros left v H. destruct (b left v H) as [H1|[H1 H2]]; [left; exact H1|right]. split; [auto|]. destruct v; auto. destruct H2 as [H2|H2]; [left; exact H2|right; apply IC; exact H2].
    - exists n. split; [exact d|]. intros p q H. destruct (e p q H). auto.
  Qed.

  (** What may be named in a block. *)
  Definition allow (X : bool -> list nat) (Y : bool -> nat -> Prop) : allowed := fun left v =>
    match v with VReg c => In c (X left) | VArg n => n < f_args fl | VBlock b => Y left b | VConst _ => True end.
  Definition at_ (bl br : nat) (left : bool) : nat := if left then bl else br.
  Definition upto (bl br : nat) (l1 r1 : list inst) : bool -> list nat := fun left => av left (at_ bl br left) ++ defs (if left then l1 else r1).
  Definition targets (bl br : nat) : bool -> nat -> Prop := fun left c => edge (fn left) (at_ bl br left) c.
  Definition whole (bl br : nat) : allowed := allow (upto bl br (block fl bl) (block fr br)) (targets bl br).

  Lemma args_of left : f_args (fn left) = f_args fl. Proof. destruct left; [reflexivity|symmetry; exact HA]. Qed.

  Lemma fine_upto D bl br l1 l2 r1 r2 : reach fl bl -> reach fr br -> dget (f_blocks fl) bl = Some (l1 ++ l2) -> dget (f_blocks fr) br = Some (r1 ++ r2) ->
    (forall left, incl (upto bl br l1 r1 left) (D left)) -> forall Y, fine D (allow (upto bl br l1 r1) Y).
  Proof.
    intros RL RR GL GR I Y. constructor.
    - intros left r H. apply I. exact H.
    - intros left n H. exact H.
    - intros left c i H F K. cbn in H. destruct (op0_cases i) as [O|O]; [|rewrite O; exact Logic.I].
      destruct (clear_kind w i K) as [NP _].
      assert (CL : incl (regs (i_ops i)) (upto bl br l1 r1 left)).
      { destruct left; [eapply (closed_prefix fl WL _ (SA true)); eauto|eapply (closed_prefix fr WR _ (SA false)); eauto]. }
      pose proof (clear_op0 w fl fr WL WR left c i F K) as NB. pose proof (wf_operands _ (WF left) i (op 0 i) (proj1 (find_inst_In _ _ _ F)) O) as WO.
      destruct (op 0 i) as [a|r|b|k]; cbn; [rewrite args_of in WO; exact WO| |discriminate|exact Logic.I].
      apply CL. apply In_regs. exact O.
  Qed.

  Lemma operand_ok left bl br l1 r1 i l : reach (fn left) (at_ bl br left) -> dget (f_blocks (fn left)) (at_ bl br left) = Some ((if left then l1 else r1) ++ i :: l) -> is_phi i = false ->
    forall v, In v (op 0 i :: i_ops i) -> allow (upto bl br l1 r1) (targets bl br) left v.
  Proof.
    intros R G NP v [V|V]; [destruct (op0_cases i) as [O|O]; [rewrite V in O; clear V; rename O into V|rewrite <- V, O; exact Logic.I]|].
    all: assert (I : In i (insts (fn left))) by (eapply get_insts; [exact G|apply in_or_app; right; left; reflexivity]);
         pose proof (wf_operands _ (WF left) i v I V) as WO; destruct v as [a|r|b|k]; cbn; [rewrite args_of in WO; exact WO| | |exact Logic.I];
         [|eapply operand_edge; [apply WF|exact G|apply in_or_app; right; left; reflexivity|exact V]];
         assert (Q : incl (regs (i_ops i)) (upto bl br l1 r1 left)) by (destruct left; [eapply (operands_prefix fl _ (SA true)); eauto|eapply (operands_prefix fr _ (SA false)); eauto]);
         apply Q, In_regs, V.
  Qed.

  (** ** Two blocks *)
  Definition Pair (s : state) (i j : inst) : Prop := (is_phi i = true /\ is_phi j = true) \/ Matched s i j.
  Definition both (pl pr : list inst) : bool -> list nat := fun left => defs (if left then pl else pr).
  Definition plus (D : bool -> list nat) (pl pr : list inst) : bool -> list nat := fun left => D left ++ both pl pr left.

  Lemma Pair_mono C A s s' i j : ext C A s s' -> ~ In (i_reg i) (C true) -> ~ In (i_reg j) (C false) ->
    find_inst fl (i_reg i) = Some i -> find_inst fr (i_reg j) = Some j -> is_debug i = false -> is_debug j = false ->
    Pair s i j -> Pair s' i j.
  Proof. intros X NI NJ FI FJ DI DJ [H|H]; [left; exact H|right; eapply Matched_mono; eauto]. Qed.

  Lemma upto_snoc bl br l1 r1 i j left : incl (upto bl br l1 r1 left) (upto bl br (l1 ++ [i]) (r1 ++ [j]) left).
  Proof. unfold upto, defs. intros x H. apply in_app_or in H. apply in_or_app. destruct H as [H|H]; [left; exact H|right]. destruct left; rewrite map_app; apply in_or_app; left; exact H. Qed.
  Lemma allow_mono X X' Y left v : (forall left, incl (X left) (X' left)) -> allow X Y left v -> allow X' Y left v.
  Proof. intros I. destruct v; cbn; auto. apply I. Qed.
  Lemma upto_whole bl br l1 l2 r1 r2 : dget (f_blocks fl) bl = Some (l1 ++ l2) -> dget (f_blocks fr) br = Some (r1 ++ r2) ->
    forall left v, allow (upto bl br l1 r1) (targets bl br) left v -> whole bl br left v.
  Proof.
    intros GL GR left v. unfold whole. rewrite (block_get _ _ _ GL), (block_get _ _ _ GR). apply allow_mono. clear left v. intros left x H.
    unfold upto, defs in *. apply in_app_or in H. apply in_or_app. destruct H as [H|H]; [left; exact H|right]. destruct left; rewrite map_app; apply in_or_app; left; exact H.
  Qed.

  Lemma blocks_ok n : forall bl br l1 r1 pl pr D s s', reach fl bl -> reach fr br ->
    dget (f_blocks fl) bl = Some (l1 ++ pl) -> dget (f_blocks fr) br = Some (r1 ++ pr) ->
    (forall left, incl (upto bl br l1 r1 left) (D left)) ->
    (forall left c, In c (both pl pr left) -> ~ In c (D left)) ->
    Inv D none s -> cmp_blocks w fl fr n bl br false false pl pr s = Some (true, s') -> tame s' ->
    Inv (plus D pl pr) none s' /\ ext (both pl pr) (whole bl br) s s' /\ Forall2 (Pair s') (real pl) (real pr).
  Proof.
    induction n as [|n IH]; intros bl br l1 r1 pl pr D s s' RL RR GL GR SUB NEW I H T; [discriminate|].
    cbn [cmp_blocks] in H. destruct pl as [|i pl], pr as [|j pr]; cbn [orb] in H; try discriminate.
    { injection H as <-. split; [|split; [apply ext_refl|constructor]]. eapply inv_iff; [|exact I]. intros left c. unfold plus, both. destruct left; rewrite app_nil_r; tauto. }
    assert (NDL : NoDup (defs (i :: pl))) by (pose proof (defs_nodup fl WL _ _ GL) as Q; unfold defs in *; rewrite map_app in Q; apply NoDup_app_remove_l in Q; exact Q).
    assert (NDR : NoDup (defs (j :: pr))) by (pose proof (defs_nodup fr WR _ _ GR) as Q; unfold defs in *; rewrite map_app in Q; apply NoDup_app_remove_l in Q; exact Q).
    assert (FI : find_inst fl (i_reg i) = Some i) by (eapply (get_find fl WL); [exact GL|apply in_or_app; right; left; reflexivity]).
    assert (FJ : find_inst fr (i_reg j) = Some j) by (eapply (get_find fr WR); [exact GR|apply in_or_app; right; left; reflexivity]).
    assert (GL' : dget (f_blocks fl) bl = Some ((l1 ++ [i]) ++ pl)) by (rewrite <- app_assoc; exact GL).
    assert (GR' : dget (f_blocks fr) br = Some ((r1 ++ [j]) ++ pr)) by (rewrite <- app_assoc; exact GR).
    destruct (is_debug i) eqn:DI.
    { destruct (IH bl br (l1 ++ [i]) r1 pl (j :: pr) (fun left => if Bool.eqb left true then i_reg i :: D left else D left) s s') as [I' [E' M']]; auto.
      - intros [|] x X; cbn.
        + unfold upto, defs in X. rewrite map_app in X. apply in_app_or in X. destruct X as [X|X]; [right; apply SUB; apply in_or_app; left; exact X|].
          apply in_app_or in X. destruct X as [X|[<-|[]]]; [right; apply SUB; apply in_or_app; right; exact X|left; reflexivity].
        + apply SUB. exact X.
      - intros [|] c C; cbn.
        + intros [<-|Q]; [inversion NDL; subst; cbn in C; tauto|]. eapply (NEW true); [|exact Q]. right. exact C.
        + apply NEW. exact C.
      - apply inv_pass; [exact I|]. intros x F. assert (x = i) by (cbn in F; congruence). subst x. rewrite DI. apply orb_true_r.
      - split; [|split].
        + eapply inv_iff; [|exact I']. intros [|] c; unfold plus, both; cbn; rewrite !in_app_iff; cbn; tauto.
        + eapply ext_more; [| |exact E']; [|auto]. intros [|] c C; cbn in *; [right|]; exact C.
        + cbn [real filter]. rewrite DI. exact M'. }
    destruct (is_debug j) eqn:DJ.
    { destruct (IH bl br l1 (r1 ++ [j]) (i :: pl) pr (fun left => if Bool.eqb left false then i_reg j :: D left else D left) s s') as [I' [E' M']]; auto.
      - intros [|] x X; cbn.
        + apply SUB. exact X.
        + unfold upto, defs in X. rewrite map_app in X. apply in_app_or in X. destruct X as [X|X]; [right; apply SUB; apply in_or_app; left; exact X|].
          apply in_app_or in X. destruct X as [X|[<-|[]]]; [right; apply SUB; apply in_or_app; right; exact X|left; reflexivity].
      - intros [|] c C; cbn.
        + apply NEW. exact C.
        + intros [<-|Q]; [inversion NDR; subst; cbn in C; tauto|]. eapply (NEW false); [|exact Q]. right. exact C.
      - apply inv_pass; [exact I|]. intros x F. assert (x = j) by (cbn in F; congruence). subst x. rewrite DJ. apply orb_true_r.
      - split; [|split].
        + eapply inv_iff; [|exact I']. intros [|] c; unfold plus, both; cbn; rewrite !in_app_iff; cbn; tauto.
        + eapply ext_more; [| |exact E']; [|auto]. intros [|] c C; cbn in *; [|right]; exact C.
        + cbn [real filter] in *. rewrite DI in *. rewrite DJ. exact M'. }
    destruct (cmp_insts w fl fr (cmp_values w fl fr n) i j s) as [[[|] s1]|] eqn:X; [| |discriminate].
    2:{ exfalso. assert (K1 : keeps s s1) by (eapply cmp_insts_reloc; [apply cmp_values_reloc|exact X]).
      destruct (may_skip w fl fr true bl i s1) as [sk1 s2] eqn:Y. destruct (may_skip w fl fr false br j s2) as [sk2 s3] eqn:Z.
      apply may_skip_reloc in Y, Z.
      assert (NR : r_status (reloc s3) = NoReloc) by (rewrite Z, Y, K1; apply (c_reloc _ (v_calm _ _ _ _ _ _ I))).
      assert (BAD : forall al ar pl' pr' e s0, e <> Replaced -> cmp_blocks w fl fr n bl br al ar pl' pr' s0 = Some (true, s') -> In e (log s0) -> False).
      { intros al ar pl' pr' e s0 NE Q IE. apply cmp_blocks_log in Q. destruct Q as [x Q]. apply NE, T. rewrite Q. apply in_or_app. right. exact IE. }
      destruct (sk1 || sk2); [eapply (BAD _ _ _ _ Skipped); [discriminate|exact H|left; reflexivity]|].
      destruct (reordered _ _ _ i j s3); [eapply (BAD _ _ _ _ Reordered); [discriminate|exact H|left; reflexivity]|].
      destruct (_ && (_ && _)); [eapply (BAD _ _ _ _ Inverted); [discriminate|exact H|left; reflexivity]|].
      destruct (_ && (_ && _)); [destruct (is_not w i); eapply (BAD _ _ _ _ Inverted); try exact H; try discriminate; left; reflexivity|].
      rewrite NR in H. destruct (p_relocations w); [|discriminate].
      destruct (find_reloc w fl fr n false br _ _ s3) as [[[[[|] ql] qr] s4]|] eqn:U; [| |discriminate]; apply find_reloc_log in U; destruct U as [_ U].
      - eapply (BAD _ _ _ _ Relocated); [discriminate|exact H|apply U; reflexivity].
      - destruct (find_reloc w fl fr n true bl ql qr s4) as [[[[[|] ql'] qr'] s5]|] eqn:U2; [| |discriminate]; apply find_reloc_log in U2; destruct U2 as [_ U2]; [|discriminate].
        eapply (BAD _ _ _ _ Relocated); [discriminate|exact H|apply U2; reflexivity]. }
    assert (ST : Inv (more i j D) none s1 /\ ext (cur i j) (whole bl br) s s1 /\ (tame s1 -> Pair s1 i j)).
    { assert (T1 : tame s1) by (destruct (r_status (reloc s1));
        [eapply tame_back; [|exact T]; eapply cmp_blocks_log; exact H
        |destruct (depends_on_reloc _ s1) as [[|]|]; [discriminate|eapply tame_back; [|exact T]; eapply cmp_blocks_log; exact H|discriminate]
        |]; repeat match type of H with (if ?c then _ else _) = _ => destruct c end; apply cmp_blocks_log in H; destruct H as [x Q]; intros e IE; apply T; rewrite Q; apply in_or_app; right; exact IE).
      destruct (is_phi i && is_phi j) eqn:PH.
      - unfold cmp_insts in X. assert (NOW : now s j = j) by (unfold now; rewrite (c_swap _ (v_calm _ _ _ _ _ _ I)); reflexivity). rewrite NOW in X.
        unfold cmp_operation in X. rewrite PH in X. injection X as <-. apply andb_true_iff in PH. destruct PH as [PI PJ].
        split; [|split; [apply ext_refl|intros _; left; auto]].
        assert (Q1 : Inv (fun left => if Bool.eqb left true then i_reg i :: D left else D left) none s)
          by (apply inv_pass; [exact I|]; intros x F; assert (x = i) by (cbn in F; congruence); subst x; rewrite PI; reflexivity).
        eapply inv_pass with (left0 := false) (r := i_reg j) in Q1; [|intros x F; assert (x = j) by (cbn in F; congruence); subst x; rewrite PJ; reflexivity].
        eapply inv_iff; [|exact Q1]. intros [|] c; cbn; tauto.
      - assert (NPI : is_phi i = false /\ is_phi j = false).
        { (* one PHI node against another instruction is not equal *)
          destruct (is_phi i) eqn:PI, (is_phi j) eqn:PJ; auto; try discriminate; exfalso.
          all: unfold cmp_insts in X; assert (NOW : now s j = j) by (unfold now; rewrite (c_swap _ (v_calm _ _ _ _ _ _ I)); reflexivity); rewrite NOW in X;
               unfold cmp_operation in X; rewrite PI, PJ in X; cbn [andb] in X; unfold cmp_operation_base in X; unfold is_phi in PI, PJ;
               destruct (cmp_values w fl fr n (VReg (i_reg i)) (VReg (i_reg j)) s) as [[[|] s0]|]; [| |discriminate]; destruct (i_code i), (i_code j); try discriminate. }
        destruct NPI as [NPI NPJ].
        destruct (visit_ok w fl fr WL WR n D (allow (upto bl br l1 r1) (targets bl br)) i j s s1 I) as [I' [E' M']]; auto.
        + eapply fine_upto; eauto.
        + apply (NEW true). left. reflexivity.
        + apply (NEW false). left. reflexivity.
        + eapply (operand_ok true); eauto.
        + eapply (operand_ok false); eauto.
        + split; [exact I'|]. split; [|intros _; right; exact M'].
          eapply ext_weaken; [|exact E']. intros left v [V|V]; [eapply upto_whole; [exact GL|exact GR|exact V]|]. subst v. unfold whole, upto; cbn.
          rewrite (block_get _ _ _ GL), (block_get _ _ _ GR). apply in_or_app. right. unfold defs. destruct left; rewrite map_app; apply in_or_app; right; left; reflexivity. }
    destruct ST as [I1 [E1 M1]].
    rewrite (c_reloc _ (v_calm _ _ _ _ _ _ I1)) in H.
    assert (T1 : tame s1) by (eapply tame_back; [|exact T]; eapply cmp_blocks_log; exact H).
    destruct (IH bl br (l1 ++ [i]) (r1 ++ [j]) pl pr (more i j D) s1 s') as [I' [E' M']]; auto.
    - intros left x Q. unfold more. unfold upto, defs in Q. apply in_app_or in Q. destruct Q as [Q|Q]; [right; apply SUB; apply in_or_app; left; exact Q|].
      destruct left; rewrite map_app in Q; apply in_app_or in Q; (destruct Q as [Q|[<-|[]]]; [right; apply SUB; apply in_or_app; right; exact Q|left; reflexivity]).
    - intros left c C [Q|Q].
      + subst c. destruct left; [inversion NDL|inversion NDR]; subst; cbn in C; tauto.
      + eapply NEW; [|exact Q]. destruct left; right; exact C.
    - split; [|split].
      + eapply inv_iff; [|exact I']. intros [|] c; unfold plus, both, more; cbn; rewrite !in_app_iff; cbn; tauto.
      + eapply ext_trans; [eapply ext_more; [| |exact E1]; [|auto]|eapply ext_more; [| |exact E']; [|auto]].
        * intros [|] c [<-|[]]; left; reflexivity.
        * intros [|] c C; right; exact C.
      + cbn [real filter]. rewrite DI, DJ. constructor; [|exact M'].
        eapply Pair_mono; [exact E'| | |exact FI|exact FJ|exact DI|exact DJ|apply M1; exact T1].
        * inversion NDL; assumption.
        * inversion NDR; assumption.
  Qed.

  (** ** The walk *)
  Definition num (s : state) (b b' : nat) : Prop := exists k, dget (snL s) (VBlock b) = Some k /\ dget (snR s) (VBlock b') = Some k.
  Definition dd (Done : list (nat * nat)) : bool -> list nat := fun left => flat_map (fun p => defs (block (fn left) (at_ (fst p) (snd p) left))) Done.
  Record Walked (Done stack : list (nat * nat)) (s : state) : Prop := mkWalked {
    k_inv : Inv (dd Done) none s;
    k_reach : forall b b', In (b, b') (Done ++ stack) -> reach fl b /\ reach fr b' /\ incl (av true b) (dd Done true) /\ incl (av false b') (dd Done false);
    k_nodup : NoDup (map fst (Done ++ stack));
    k_num : forall b b', In (b, b') Done -> num s b b';
    k_pairs : forall b b', In (b, b') Done -> Forall2 (Pair s) (real (block fl b)) (real (block fr b'));
    k_succ : forall b b', In (b, b') Done -> exists t t', terminator (block fl b) = Some t /\ terminator (block fr b') = Some t' /\
       Forall2 (num s) (successors t) (successors t') /\ forall c, In c (successors t) -> In c (map fst (Done ++ stack));
    k_blocks : forall left c, dmem (sn left s) (VBlock c) = true -> exists b b', In (b, b') Done /\ (c = at_ b b' left \/ edge (fn left) (at_ b b' left) c);
    k_phis : forall p q, In (p, q) (phis s) -> exists b b', In (b, b') Done /\ whole b b' true (VReg (i_reg p)) /\ whole b b' false (VReg (i_reg q)) }.

  Lemma num_inj_l D C s b c b' : Inv D C s -> num s b b' -> num s c b' -> b = c.
  Proof. intros I [k [H1 H2]] [k' [H3 H4]]. assert (k' = k) by congruence. subst k'. pose proof (v_inj _ _ _ _ _ _ I true (VBlock b) (VBlock c) k H1 H3). congruence. Qed.
  Lemma num_inj_r D C s b b' c' : Inv D C s -> num s b b' -> num s b c' -> b' = c'.
  Proof. intros I [k [H1 H2]] [k' [H3 H4]]. assert (k' = k) by congruence. subst k'. pose proof (v_inj _ _ _ _ _ _ I false (VBlock b') (VBlock c') k H2 H4). congruence. Qed.
  Lemma num_mono C A s s' b b' : ext C A s s' -> num s b b' -> num s' b b'.
  Proof. intros X [k [H1 H2]]. exists k. split; [apply (x_num _ _ _ _ _ _ X true)|apply (x_num _ _ _ _ _ _ X false)]; assumption. Qed.
  Lemma Forall2_strengthen {A B} (R R' : A -> B -> Prop) l l' : (forall x y, In x l -> In y l' -> R x y -> R' x y) -> Forall2 R l l' -> Forall2 R' l l'.
  Proof. intros H F. induction F as [|x y l l' Q F IH]; constructor; [apply H; try (left; reflexivity); exact Q|apply IH; intros a b Ia Ib; apply H; right; assumption]. Qed.

  Lemma push_spec ls : forall rs stack visited st2 vis2, length ls = length rs -> push ls rs stack visited = (st2, vis2) ->
    exists new, st2 = new ++ stack /\ (forall c, In c vis2 <-> In c (map fst new) \/ In c visited) /\
      (forall c d, In (c, d) new -> In (c, d) (combine ls rs) /\ ~ In c visited) /\ NoDup (map fst new) /\ (forall c, In c ls -> In c vis2).
  Proof.
    induction ls as [|l ls IH]; intros [|r rs] stack visited st2 vis2 L H; cbn in H; try discriminate.
    - injection H as <- <-. exists []. cbn. repeat split; try tauto. constructor.
    - destruct (mem l visited) eqn:M.
      + destruct (IH rs stack visited st2 vis2 ltac:(cbn in L; lia) H) as [new [H1 [H2 [H3 [H4 H5]]]]]. exists new. repeat split; auto; try (apply H2).
        * right. apply H3. assumption.
        * apply H3 in H0. apply H0.
        * intros c [<-|C]; [|auto]. apply H2. right. apply mem_In. exact M.
      + destruct (IH rs ((l, r) :: stack) (l :: visited) st2 vis2 ltac:(cbn in L; lia) H) as [new [H1 [H2 [H3 [H4 H5]]]]].
        exists (new ++ [(l, r)]). rewrite <- app_assoc. split; [exact H1|]. split.
        { intros c. rewrite H2, map_app, in_app_iff. cbn. tauto. }
        split; [|split].
        * intros c d C. apply in_app_or in C. destruct C as [C|[C|[]]].
          -- destruct (H3 c d C) as [Q1 Q2]. split; [right; exact Q1|]. intros Q. apply Q2. right. exact Q.
          -- injection C as <- <-. split; [left; reflexivity|]. apply mem_not_In. exact M.
        * rewrite map_app. cbn. apply NoDup_rev in H4. rewrite <- (rev_involutive (map fst new ++ [l])). apply NoDup_rev. rewrite rev_app_distr. cbn. constructor; [|exact H4].
          rewrite <- in_rev. intros Q. apply in_map_iff in Q. destruct Q as [[c d] [Q1 Q2]]. cbn in Q1. subst c. apply H3 in Q2. destruct Q2 as [_ Q2]. apply Q2. left. reflexivity.
        * intros c [<-|C]; [|auto]. apply H2. right. left. reflexivity.
  Qed.

  Lemma real_snoc l t : is_terminator t = true -> real (l ++ [t]) = real l ++ [t].
  Proof. intros T. unfold real. rewrite filter_app. cbn. unfold is_debug. unfold is_terminator in T. destruct (i_code t); try discriminate; reflexivity. Qed.
  Lemma Forall2_snoc {A B} (R : A -> B -> Prop) l x l' y : Forall2 R (l ++ [x]) (l' ++ [y]) -> R x y.
  Proof.
    intros F. apply Forall2_app_inv_l in F. destruct F as [a [b [F1 [F2 E1]]]]. inversion F2 as [|? z ? q Q Z]; subst. inversion Z; subst.
    apply app_inj_tail in E1. destruct E1 as [_ ->]. exact Q.
  Qed.
  Lemma Same_blocks s ls rs : Same w fl fr s ls rs -> Forall2 (num s) (blocks_of ls) (blocks_of rs).
  Proof.
    intros H. induction H as [|l r ls rs [H1 H2] _ IH]; [constructor|]. unfold blocks_of in *. cbn.
    destruct l, r; try discriminate; cbn; try exact IH. constructor; [|exact IH]. inversion H1; subst. exists k. auto.
  Qed.
  Lemma Forall2_rev {A B} (R : A -> B -> Prop) l l' : Forall2 R l l' -> Forall2 R (rev l) (rev l').
  Proof. intros F. induction F; cbn; [constructor|]. apply Forall2_app; [assumption|]. constructor; [assumption|constructor]. Qed.

  (** The ends of two matched blocks lead to matched blocks. *)
  Lemma ends_match s bl br : reach fl bl -> reach fr br -> Forall2 (Pair s) (real (block fl bl)) (real (block fr br)) ->
    exists t t', terminator (block fl bl) = Some t /\ terminator (block fr br) = Some t' /\ Matched s t t' /\ is_terminator t = true /\ is_terminator t' = true /\ Forall2 (num s) (successors t) (successors t').
  Proof.
    intros RL RR F. destruct (reach_get fl WL _ RL) as [l GL], (reach_get fr WR _ RR) as [l' GR]. rewrite (block_get _ _ _ GL), (block_get _ _ _ GR) in *.
    destruct (end_of fl WL _ _ GL) as [l0 [t [E1 [T1 [T2 _]]]]], (end_of fr WR _ _ GR) as [l0' [t' [E1' [T1' [T2' _]]]]].
    exists t, t'. split; [exact T1|]. split; [exact T1'|]. rewrite E1, E1', !real_snoc in F by assumption. apply Forall2_snoc in F.
    destruct F as [[F _]|F]; [unfold is_phi in F; unfold is_terminator in T2; destruct (i_code t); discriminate|]. split; [exact F|]. split; [exact T2|]. split; [exact T2'|].
    destruct F as [_ [_ [_ [[z [F _]]|[F1 [_ F3]]]]]]; [unfold is_terminator in T2; rewrite F in T2; discriminate|].
    apply Same_blocks in F3. unfold successors, is_terminator, plain in *.
    destruct (i_code t) eqn:K1, (i_code t') eqn:K2; try discriminate; try constructor; [apply Forall2_rev|]; exact F3.
  Qed.

  Lemma dd_In Done left c : In c (dd Done left) <-> exists b b', In (b, b') Done /\ In c (defs (block (fn left) (at_ b b' left))).
  Proof.
    unfold dd. rewrite in_flat_map. split; [intros [[b b'] H]; exists b, b'; exact H|intros [b [b' H]]; exists (b, b'); exact H].
  Qed.

  Lemma walk_ok n : forall Done stack visited s s', Walked Done stack s -> (forall c, In c visited <-> In c (map fst (Done ++ stack))) ->
    walk w fl fr n stack visited s = Some (true, s') -> tame s' -> exists Done', incl (Done ++ stack) Done' /\ Walked Done' [] s'.
  Proof.
    induction n as [|n IH]; intros Done stack visited s s' K V H T; [discriminate|]. cbn [walk] in H.
    destruct stack as [|[bl br] stack]; [injection H as <-; exists Done; rewrite app_nil_r; split; [apply incl_refl|exact K]|].
    destruct (cmp_values w fl fr n (VBlock bl) (VBlock br) s) as [[[|] s1]|] eqn:X; [| discriminate | discriminate].
    destruct (cmp_blocks w fl fr n bl br false false (block fl bl) (block fr br) s1) as [[[|] s2]|] eqn:Y; [|discriminate|discriminate].
    assert (G2 : grows s2 s').
    { destruct (terminator (block fl bl)) as [tl|]; [|discriminate]. destruct (terminator (block fr br)) as [tr|]; [|discriminate].
      destruct (_ =? _); [|discriminate]. destruct (push _ _ stack visited) as [st2 v2]. eapply walk_log. exact H. }
    assert (T2 : tame s2) by (eapply tame_back; eauto).
    assert (T1 : tame s1) by (eapply tame_back; [eapply cmp_blocks_log; exact Y|exact T2]).
    destruct K as [KI KR KN KM KP KS KB KQ].
    set (A1 := (fun left v => v = VBlock (at_ bl br left)) : allowed).
    destruct (cmp_values_ok w fl fr WL WR n (dd Done) none A1 (VBlock bl) (VBlock br) s s1 KI) as [I1 [E1 [Q1 _]]]; try reflexivity; auto.
    { constructor; unfold A1; intros; discriminate. }
    assert (N1 : num s1 bl br) by (inversion Q1; subst; exists k; auto).
    destruct (KR bl br) as [RL [RR [SUBL SUBR]]]; [apply in_or_app; right; left; reflexivity|].
    assert (NBL : ~ In bl (map fst Done)).
    { intros Q. rewrite map_app in KN. cbn in KN. apply NoDup_remove_2 in KN. apply KN. apply in_or_app. left. exact Q. }
    assert (NBR : forall b, ~ In (b, br) Done).
    { intros b Q. apply NBL. assert (b = bl) by (eapply (num_inj_l _ _ s1); [exact I1|eapply num_mono; [exact E1|apply KM; exact Q]|exact N1]). subst b. apply in_map_iff. exists (bl, br). auto. }
    destruct (reach_get fl WL _ RL) as [ll GL], (reach_get fr WR _ RR) as [lr GR].
    pose proof (block_get _ _ _ GL) as BL. pose proof (block_get _ _ _ GR) as BR.
    assert (OUT : forall left b b' c, In (b, b') Done -> In c (defs (block (fn left) (at_ b b' left))) -> In c (both (block fl bl) (block fr br) left) -> False).
    { intros left b b' c B C1 C2. assert (R : reach fl b /\ reach fr b') by (destruct (KR b b') as [R1 [R2 _]]; [apply in_or_app; left; exact B|auto]). destruct R as [R1 R2]. destruct left; cbn in *.
      - destruct (reach_get fl WL _ R1) as [m G]. rewrite (block_get _ _ _ G) in C1. rewrite BL in C2. pose proof (defs_block fl WL _ _ _ _ _ G GL C1 C2). subst b. apply NBL. apply in_map_iff. exists (bl, b'). auto.
      - destruct (reach_get fr WR _ R2) as [m G]. rewrite (block_get _ _ _ G) in C1. rewrite BR in C2. pose proof (defs_block fr WR _ _ _ _ _ G GR C1 C2). subst b'. eapply NBR. exact B. }
    destruct (blocks_ok n bl br [] [] (block fl bl) (block fr br) (dd Done) s1 s2 RL RR) as [I2 [E2 M2]]; auto.
    { rewrite BL. exact GL. } { rewrite BR. exact GR. }
    { intros left x Q. unfold upto in Q. destruct left; cbn in Q; rewrite app_nil_r in Q; auto. }
    { intros left c C Q. apply dd_In in Q. destruct Q as [b [b' [Q1' Q2']]]. eapply OUT; eauto. }
    assert (I2' : Inv (dd ((bl, br) :: Done)) none s2).
    { eapply inv_iff; [|exact I2]. intros left c. unfold plus, both, dd. cbn. rewrite !in_app_iff. destruct left; cbn; tauto. }
    destruct (ends_match s2 bl br RL RR M2) as [t [t' [TL [TR [MT [TT [TT' SS]]]]]]]. rewrite TL, TR in H.
    assert (NOW : now s2 t' = t') by (unfold now; rewrite (c_swap _ (v_calm _ _ _ _ _ _ I2)); reflexivity). rewrite NOW in H.
    destruct (Nat.eqb_spec (length (successors t)) (length (successors t'))) as [LEN|]; [|discriminate].
    destruct (push (successors t) (successors t') stack visited) as [st2 vis2] eqn:PU.
    destruct (push_spec _ _ _ _ _ _ LEN PU) as [new [-> [PV [PN [PD PA]]]]].
    assert (VS : forall c, In c vis2 <-> In c (map fst (((bl, br) :: Done) ++ new ++ stack))).
    { intros c. rewrite PV, V. cbn. rewrite !map_app, !in_app_iff. cbn. tauto. }
    assert (MONO : incl (dd Done true) (dd ((bl, br) :: Done) true) /\ incl (dd Done false) (dd ((bl, br) :: Done) false)) by (split; intros c C; unfold dd in *; cbn; apply in_or_app; right; exact C).
    assert (EB : edge fl bl = fun c => edge fl bl c) by reflexivity.
    destruct (IH ((bl, br) :: Done) (new ++ stack) vis2 s2 s') as [Done' [IN' K']]; auto.
    - constructor; auto.
      + intros b b' B. apply in_app_or in B.
        assert (OLD : In (b, b') (Done ++ (bl, br) :: stack) -> reach fl b /\ reach fr b' /\ incl (av true b) (dd ((bl, br) :: Done) true) /\ incl (av false b') (dd ((bl, br) :: Done) false)).
        { intros Q. destruct (KR b b' Q) as [R1 [R2 [R3 R4]]]. repeat split; auto; eapply incl_tran; [exact R3|apply MONO|exact R4|apply MONO]. }
        destruct B as [[B|B]|B]; [apply OLD, in_or_app; right; left; exact B|apply OLD, in_or_app; left; exact B|].
        apply in_app_or in B. destruct B as [B|B]; [|apply OLD, in_or_app; right; right; exact B].
        destruct (PN b b' B) as [Q _].
        assert (ED : edge fl bl b) by (exists ll, t; rewrite <- BL at 2; split; [exact GL|split; [exact TL|eapply in_combine_l; exact Q]]).
        assert (ED' : edge fr br b') by (exists lr, t'; rewrite <- BR at 2; split; [exact GR|split; [exact TR|eapply in_combine_r; exact Q]]).
        split; [eapply reach_step; eauto|]. split; [eapply reach_step; eauto|].
        destruct (SA true) as [_ S1], (SA false) as [_ S2]. destruct (S1 bl ll RL GL) as [S1' _]. destruct (S2 br lr RR GR) as [S2' _].
        split; intros c C; unfold dd; cbn.
        * apply (S1' b ED) in C. apply in_app_or in C. destruct C as [C|C]; [apply in_or_app; right; apply SUBL; exact C|apply in_or_app; left; rewrite BL; exact C].
        * apply (S2' b' ED') in C. apply in_app_or in C. destruct C as [C|C]; [apply in_or_app; right; apply SUBR; exact C|apply in_or_app; left; rewrite BR; exact C].
      + assert (PERM : NoDup (map fst new ++ map fst (Done ++ (bl, br) :: stack))).
        { assert (DJ : forall c, In c (map fst new) -> ~ In c (map fst (Done ++ (bl, br) :: stack))).
          { intros c C Q. apply in_map_iff in C. destruct C as [[c' d] [<- C]]. destruct (PN _ _ C) as [_ NV]. apply NV. apply V. exact Q. }
          clear - PD DJ KN. induction (map fst new) as [|x xs IHx]; cbn; [exact KN|]. inversion PD; subst. constructor.
          - intros Q. apply in_app_or in Q. destruct Q as [Q|Q]; [auto|]. eapply DJ; [left; reflexivity|exact Q].
          - apply IHx; [assumption|]. intros c C. apply DJ. right. exact C. }
        clear - PERM. rewrite !map_app in *. cbn in *.
        apply NoDup_incl_NoDup with (l := map fst new ++ map fst Done ++ bl :: map fst stack); [exact PERM| |].
        * cbn. rewrite !app_length. cbn. lia.
        * intros c C. rewrite ?in_app_iff in *. cbn. rewrite ?in_app_iff. cbn in C. tauto.
      + intros b b' [B|B]; [injection B as <- <-; eapply num_mono; eauto|]. eapply num_mono; [exact E2|]. eapply num_mono; [exact E1|]. apply KM. exact B.
      + intros b b' [B|B]; [injection B as <- <-; exact M2|].
        assert (R : reach fl b /\ reach fr b') by (destruct (KR b b') as [R1 [R2 _]]; [apply in_or_app; left; exact B|auto]). destruct R as [R1 R2].
        destruct (reach_get fl WL _ R1) as [m G], (reach_get fr WR _ R2) as [m' G'].
        eapply Forall2_strengthen; [|apply KP; exact B]. intros i j Hi Hj PIJ. unfold real in Hi, Hj. apply filter_In in Hi. apply filter_In in Hj. destruct Hi as [Hi Di], Hj as [Hj Dj].
        apply negb_true_iff in Di. apply negb_true_iff in Dj.
        assert (FI : find_inst fl (i_reg i) = Some i) by (rewrite (block_get _ _ _ G) in Hi; eapply (get_find fl WL); eauto).
        assert (FJ : find_inst fr (i_reg j) = Some j) by (rewrite (block_get _ _ _ G') in Hj; eapply (get_find fr WR); eauto).
        eapply Pair_mono; [exact E2| | |exact FI|exact FJ|exact Di|exact Dj|].
        * intros Q. eapply (OUT true b b'); [exact B| |exact Q]. cbn. unfold defs. apply in_map. exact Hi.
        * intros Q. eapply (OUT false b b'); [exact B| |exact Q]. cbn. unfold defs. apply in_map. exact Hj.
        * eapply Pair_mono; [exact E1| | |exact FI|exact FJ|exact Di|exact Dj|exact PIJ]; intros [].
      + intros b b' [B|B].
        * injection B as <- <-. exists t, t'. split; [exact TL|]. split; [exact TR|]. split; [exact SS|]. intros c C. apply VS. apply PA. exact C.
        * destruct (KS b b' B) as [u [u' [U1 [U2 [U3 U4]]]]]. exists u, u'. split; [exact U1|]. split; [exact U2|]. split.
          -- eapply Forall2_strengthen; [|exact U3]. intros x y _ _ Q. eapply num_mono; [exact E2|]. eapply num_mono; [exact E1|exact Q].
          -- intros c C. apply VS, PV. right. apply V. apply U4. exact C.
      + intros left c C. destruct (x_new _ _ _ _ _ _ E2 left (VBlock c) C) as [O|[O _]]; [|exists bl, br; split; [left; reflexivity|right; exact O]].
        destruct (x_new _ _ _ _ _ _ E1 left (VBlock c) O) as [O1|[O1 _]].
        * destruct (KB left c O1) as [b [b' [B Q]]]. exists b, b'. split; [right; exact B|exact Q].
        * unfold A1 in O1. injection O1 as ->. exists bl, br. split; [left; reflexivity|left; reflexivity].
      + intros p q PQ. destruct (x_phis _ _ _ _ _ _ E2) as [n2 [P2 P2']]. rewrite P2 in PQ. apply in_app_or in PQ. destruct PQ as [PQ|PQ].
        * destruct (x_phis _ _ _ _ _ _ E1) as [n1 [P1 P1']]. rewrite P1 in PQ. apply in_app_or in PQ. destruct PQ as [PQ|PQ]; [|destruct (P1' p q PQ) as [Z _]; discriminate].
          destruct (KQ p q PQ) as [b [b' [B Q]]]. exists b, b'. split; [right; exact B|exact Q].
        * exists bl, br. split; [left; reflexivity|]. apply P2'. exact PQ.
    - exists Done'. split; [|exact K']. intros x Hx. apply IN'. cbn. apply in_app_or in Hx. destruct Hx as [Hx|[<-|Hx]]; [right; apply in_or_app; left; exact Hx|left; reflexivity|right; apply in_or_app; right; apply in_or_app; right; exact Hx].
  Qed.

  (** ** The arguments *)
  Record Started (m : nat) (s : state) : Prop := mkStarted {
    g_num : forall left v k, dget (sn left s) v = Some k <-> v = VArg k /\ k < m;
    g_len : length (snL s) = m /\ length (snR s) = m;
    g_calm : calm s;
    g_repl : replL s = [] /\ replR s = [];
    g_phis : phis s = [] }.
  Lemma args_ok n : forall k m s s', Started m s -> cmp_args w fl fr n k m s = Some (true, s') -> Started (m + k) s'.
  Proof.
    induction k as [|k IH]; intros m s s' G H; cbn in H; [injection H as <-; rewrite Nat.add_0_r; exact G|].
    destruct (cmp_values w fl fr n (VArg m) (VArg m) s) as [[[|] s1]|] eqn:X; [|discriminate|discriminate].
    replace (m + S k) with (S m + k) by lia. apply (IH (S m) s1); [|exact H]. clear IH H.
    destruct n as [|n]; [discriminate|]. destruct G as [g1 [g2 g2'] g3 [g4 g4'] g5].
    assert (N : forall left, dget (sn left s) (VArg m) = None) by (intros left; destruct (dget (sn left s) (VArg m)) as [x|] eqn:Q; [apply g1 in Q; destruct Q as [Q1 Q2]; injection Q1; lia|reflexivity]).
    destruct g3 as [c1 c2 c3 c4 c5 c6 c7]. cbn [cmp_values] in X. rewrite c1, c2, c3, c4 in X. cbn [mem existsb andb orb] in X.
    assert (R : forall left, replacement w fl fr left (VArg m) s = (None, s)) by (intros [|]; unfold replacement; cbn; [rewrite g4|rewrite g4']; reflexivity).
    rewrite !R in X. cbn in X. unfold cmp_numbered, number in X.
    pose proof (N true) as NL. pose proof (N false) as NR. cbn in NL, NR. rewrite NL, NR, g2, g2', Nat.eqb_refl in X.
    rewrite (dset_new (snL s)), (dset_new (snR s)) in X by assumption.
    rewrite app_length, g2 in X. cbn in X. rewrite Nat.add_1_r, Nat.eqb_refl in X. injection X as <-.
    constructor; cbn.
    - intros left v k'. assert (Q : sn left (set_sn s (snL s ++ [(VArg m, m)]) (snR s ++ [(VArg m, m)]) (dset (by_sn s) m (VArg m, VArg m))) = dset (sn left s) (VArg m) m)
        by (destruct left; cbn; rewrite dset_new; auto).
      rewrite Q, dget_dset. destruct (eqb_spec v (VArg m)) as [Ev|Nv].
      + split; [intros Z; injection Z as <-; split; [exact Ev|lia]|intros [Z _]; congruence].
      + rewrite g1. split; [intros [Z1 Z2]; split; [exact Z1|lia]|]. intros [Z1 Z2]. split; [exact Z1|]. assert (k' <> m) by congruence. lia.
    - rewrite !app_length, g2, g2'. cbn. lia.
    - constructor; assumption.
    - auto.
    - exact g5.
  Qed.
  Lemma started_inv s : Started (f_args fl) s -> Inv (dd []) none s.
  Proof.
    intros [g1 [g2 g2'] g3 [g4 g4'] g5]. constructor.
    - congruence.
    - intros left v k H. apply g1 in H. destruct H. lia.
    - intros left v v' k H1 H2. apply g1 in H1. apply g1 in H2. destruct H1, H2. congruence.
    - intros l r k H1 H2. pose proof (proj1 (g1 true l k) H1) as [-> _]. pose proof (proj1 (g1 false r k) H2) as [-> _]. reflexivity.
    - intros left c. destruct (dget (sn left s) (VConst c)) as [k|] eqn:Q; [apply g1 in Q; destruct Q; discriminate|reflexivity].
    - intros left n k H. apply g1 in H. destruct H as [H1 H2]. injection H1 as ->. auto.
    - intros left n H. apply g1. auto.
    - exact g3.
    - intros left v u H. destruct left; cbn in H; [rewrite g4 in H|rewrite g4' in H]; discriminate.
    - intros left r H. apply dmem_get in H. destruct H as [k H]. apply g1 in H. destruct H; discriminate.
    - intros left c i H. destruct H.
    - intros p q H. rewrite g5 in H. destruct H.
    - intros l r k H1 H2. pose proof (proj1 (g1 true l k) H1) as [-> _]. pose proof (proj1 (g1 false r k) H2) as [-> _]. cbn. intros [Z|Z]; congruence.
  Qed.
  Lemma start_started : Started 0 start.
  Proof. constructor; cbn; auto; [|constructor; reflexivity]. intros [|] v k; cbn; split; [discriminate|lia|discriminate|lia]. Qed.
  Lemma start_walked s : Started (f_args fl) s -> Walked [] [(entry fl, entry fr)] s.
  Proof.
    intros G. constructor; try (intros b b' []; fail).
    - apply started_inv, G.
    - intros b b' [H|[]]. injection H as <- <-. split; [constructor|]. split; [constructor|].
      destruct (SA true) as [Q1 _], (SA false) as [Q2 _]. cbn in Q1, Q2. rewrite Q1, Q2. split; intros x [].
    - cbn. constructor; [intros []|constructor].
    - intros left c H. apply dmem_get in H. destruct H as [k H]. apply (g_num _ _ G) in H. destruct H; discriminate.
    - intros p q H. rewrite (g_phis _ _ G) in H. destruct H.
  Qed.

  (** ** The PHI nodes *)
  Record Cert (Done : list (nat * nat)) (s : state) : Prop := mkCert {
    q_inv : Inv (dd Done) none s;
    q_reach : forall b b', In (b, b') Done -> reach fl b /\ reach fr b';
    q_entry : In (entry fl, entry fr) Done;
    q_num : forall b b', In (b, b') Done -> num s b b';
    q_pairs : forall b b', In (b, b') Done -> Forall2 (Pair s) (real (block fl b)) (real (block fr b'));
    q_succ : forall b b', In (b, b') Done -> exists t t', terminator (block fl b) = Some t /\ terminator (block fr b') = Some t' /\
       Forall2 (fun c d => In (c, d) Done) (successors t) (successors t');
    q_phis : forall p q, In (p, q) (phis s) ->
       (exists b b', In (b, b') Done /\ whole b b' true (VReg (i_reg p)) /\ whole b b' false (VReg (i_reg q))) /\
       length (incoming p) = length (incoming q) /\
       forall v b, In (v, b) (incoming p) -> exists u c, In (u, c) (incoming q) /\ In (b, c) Done /\ E s v u }.

  Lemma done_succ Done s b b' t t' : Walked Done [] s -> In (b, b') Done -> terminator (block fl b) = Some t -> terminator (block fr b') = Some t' ->
    Forall2 (fun c d => In (c, d) Done) (successors t) (successors t').
  Proof.
    intros K B T T'. destruct (k_succ _ _ _ K b b' B) as [u [u' [U1 [U2 [U3 U4]]]]]. assert (u = t) by congruence. assert (u' = t') by congruence. subst u u'.
    eapply Forall2_strengthen; [|exact U3]. intros c d C D N. pose proof (U4 c C) as Q. rewrite app_nil_r in Q. apply in_map_iff in Q. destruct Q as [[c' d'] [<- Q]]. cbn in *.
    assert (d' = d) by (eapply num_inj_r; [apply (k_inv _ _ _ K)|apply (k_num _ _ _ K); exact Q|exact N]). subst d'. exact Q.
  Qed.
  Lemma edge_succ f b c t : edge f b c -> terminator (block f b) = Some t -> In c (successors t).
  Proof. intros [l [u [G [T I]]]] T'. rewrite (block_get _ _ _ G) in T'. congruence. Qed.
  Lemma done_edge Done s b b' c : Walked Done [] s -> In (b, b') Done -> edge fl b c -> exists c', In (c, c') Done.
  Proof.
    intros K B ED. destruct (k_succ _ _ _ K b b' B) as [u [u' [U1 [U2 [_ _]]]]]. pose proof (done_succ _ _ _ _ _ _ K B U1 U2) as F.
    pose proof (edge_succ _ _ _ _ ED U1) as I. clear - F I. induction F as [|x y l l' Q F IH]; [destruct I|]. destruct I as [<-|I]; [eauto|auto].
  Qed.
  Lemma done_edge_r Done s b b' c' : Walked Done [] s -> In (b, b') Done -> edge fr b' c' -> exists c, In (c, c') Done.
  Proof.
    intros K B ED. destruct (k_succ _ _ _ K b b' B) as [u [u' [U1 [U2 [_ _]]]]]. pose proof (done_succ _ _ _ _ _ _ K B U1 U2) as F.
    pose proof (edge_succ _ _ _ _ ED U2) as I. clear - F I. induction F as [|x y l l' Q F IH]; [destruct I|]. destruct I as [<-|I]; [eauto|auto].
  Qed.

  (** Values that come in are no blocks. *)
  Definition no_block : allowed := fun left v => is_block v = false.

  Lemma incoming_edge left p v b : find_inst (fn left) (i_reg p) = Some p -> In (v, b) (incoming p) ->
    exists B l, dget (f_blocks (fn left)) B = Some l /\ In p l /\ edge (fn left) b B /\ is_phi p = true /\ In v (i_ops p) /\ is_block v = false.
  Proof.
    intros F I. destruct (find_inst_In _ _ _ F) as [IP _]. destruct (insts_get _ (WF left) _ IP) as [B [l [G IL]]]. exists B, l.
    unfold incoming in I. destruct (i_code p) as [from| | | | | | | | | | | | | |] eqn:K; try (destruct I; fail).
    destruct (wf_phis _ (WF left) B l p from G IL K) as [_ [_ [Q _]]]. pose proof (in_combine_l _ _ _ _ I) as IV.
    repeat split; auto; [apply Q; eapply in_combine_r; exact I|unfold is_phi; rewrite K; reflexivity|].
    pose proof (wf_operands _ (WF left) p v IP IV) as WO. destruct v; try reflexivity. destruct WO; congruence.
  Qed.

  Section Phis.
    Variable Done : list (nat * nat).
    Variable s0 : state.
    Hypothesis K : Walked Done [] s0.

    Lemma phi_value_ok n b c p q v u s s' : Inv (dd Done) none s -> In (b, c) Done ->
      find_inst fl (i_reg p) = Some p -> find_inst fr (i_reg q) = Some q -> In (v, b) (incoming p) -> In (u, c) (incoming q) ->
      cmp_values w fl fr n v u s = Some (true, s') -> tame s' -> Inv (dd Done) none s' /\ ext none no_block s s' /\ E s' v u.
    Proof.
      intros I B FP FQ IV IU H T.
      destruct (incoming_edge true p v b FP IV) as [B1 [l1 [G1 [J1 [ED1 [PH1 [O1 NB1]]]]]]]. destruct (incoming_edge false q u c FQ IU) as [B2 [l2 [G2 [J2 [ED2 [PH2 [O2 NB2]]]]]]].
      destruct (k_reach _ _ _ K b c) as [RL [RR [SL SR]]]; [apply in_or_app; left; exact B|].
      destruct (reach_get fl WL _ RL) as [ll GL], (reach_get fr WR _ RR) as [lr GR]. cbn in G1, G2, ED1, ED2.
      assert (FA : fine (dd Done) (allow (upto b c ll lr) (fun _ _ => False))).
      { eapply (fine_upto _ b c ll [] lr []); try rewrite app_nil_r; auto. intros left x X. unfold upto in X. apply in_app_or in X. destruct X as [X|X]; [destruct left; auto|].
        apply dd_In. exists b, c. split; [exact B|]. destruct left; cbn; [rewrite (block_get _ _ _ GL)|rewrite (block_get _ _ _ GR)]; exact X. }
      assert (AV : allow (upto b c ll lr) (fun _ _ => False) true v).
      { destruct v as [a|r|x|k]; cbn; [|  |discriminate|exact Logic.I].
        - exact (wf_operands _ WL p (VArg a) (proj1 (find_inst_In _ _ _ FP)) O1).
        - destruct (SA true) as [_ S]. destruct (S b ll RL GL) as [_ [_ [_ [_ S5]]]]. apply (S5 B1 l1 p (VReg r) ED1 G1 J1 PH1 IV). left. reflexivity. }
      assert (AU : allow (upto b c ll lr) (fun _ _ => False) false u).
      { destruct u as [a|r|x|k]; cbn; [|  |discriminate|exact Logic.I].
        - rewrite HA. exact (wf_operands _ WR q (VArg a) (proj1 (find_inst_In _ _ _ FQ)) O2).
        - destruct (SA false) as [_ S]. destruct (S c lr RR GR) as [_ [_ [_ [_ S5]]]]. apply (S5 B2 l2 q (VReg r) ED2 G2 J2 PH2 IU). left. reflexivity. }
      destruct (cmp_values_ok w fl fr WL WR n (dd Done) none _ v u s s' I FA AV AU ltac:(congruence) H T) as [I' [E' [Q _]]].
      split; [exact I'|]. split; [|exact Q]. eapply ext_weaken; [|exact E']. intros left [a|r|x|k]; cbn; intros Z; try reflexivity. destruct Z.
    Qed.

    Lemma numbered_done s : ext none no_block s0 s -> forall b c k, dget (snL s) (VBlock b) = Some k -> dget (snR s) (VBlock c) = Some k -> In (b, c) Done.
    Proof.
      intros X b c k Nb Nc.
      assert (OLD : forall left d y, dget (sn left s) (VBlock d) = Some y -> dmem (sn left s0) (VBlock d) = true).
      { intros left d y Y. destruct (x_new _ _ _ _ _ _ X left (VBlock d)) as [O|[O _]]; [apply dmem_get; eauto|exact O|discriminate]. }
      pose proof (OLD true b k Nb) as Ob. pose proof (OLD false c k Nc) as Oc.
      assert (exists c', In (b, c') Done) as [c' Bc].
      { destruct (k_blocks _ _ _ K true b Ob) as [d [d' [Q1 [Q2|Q2]]]]; [cbn in Q2; subst d; eauto|]. eapply done_edge; eauto. }
      pose proof (num_mono _ _ _ _ _ _ X (k_num _ _ _ K b c' Bc)) as [k' [Z1 Z2]]. assert (k' = k) by congruence. subst k'.
      apply dmem_get in Oc. destruct Oc as [y Oc]. pose proof (x_num _ _ _ _ _ _ X false _ _ Oc) as Oc'. assert (y = k) by (cbn in Oc'; congruence). subst y.
      destruct (k_num _ _ _ K b c' Bc) as [k2 [Y1 Y2]]. pose proof (x_num _ _ _ _ _ _ X true _ _ Y1) as Y1'. assert (k2 = k) by (cbn in Y1'; congruence). subst k2.
      pose proof (v_inj _ _ _ _ _ _ (k_inv _ _ _ K) false _ _ k Oc Y2) as Q. injection Q as ->. exact Bc.
    Qed.

    Lemma incoming_ok n p q v b : find_inst fl (i_reg p) = Some p -> find_inst fr (i_reg q) = Some q -> In (v, b) (incoming p) ->
      forall l s s', incl l (incoming q) -> Inv (dd Done) none s -> ext none no_block s0 s ->
      cmp_incoming w fl fr n v b l s = Some (true, s') -> tame s' ->
      Inv (dd Done) none s' /\ ext none no_block s s' /\ exists u c, In (u, c) (incoming q) /\ In (b, c) Done /\ E s' v u.
    Proof.
      intros FP FQ IV. induction l as [|[u c] l IH]; intros s s' SUB I X H T; cbn [cmp_incoming] in H; [discriminate|].
      destruct (block_number (snL s) b) as [x sl] eqn:BX. destruct (block_number (snR s) c) as [y sr] eqn:BY.
      destruct (dmem (snL s) (VBlock b) && dmem (snR s) (VBlock c)) eqn:M.
      2:{ exfalso. destruct (x =? y).
          - destruct (cmp_values w fl fr n v u _) as [[[|] s2]|] eqn:Y; [| |discriminate].
            + injection H as <-. apply cmp_values_log in Y. pose proof (tame_back _ _ Y T) as Z. apply tame_note in Z. destruct Z. discriminate.
            + apply cmp_incoming_log in H. pose proof (tame_back _ _ H T) as Z. apply tame_note in Z. destruct Z. discriminate.
          - apply cmp_incoming_log in H. pose proof (tame_back _ _ H T) as Z. apply tame_note in Z. destruct Z. discriminate. }
      apply andb_true_iff in M. destruct M as [M1 M2]. apply dmem_get in M1. destruct M1 as [k1 M1]. apply dmem_get in M2. destruct M2 as [k2 M2].
      unfold block_number in BX, BY. rewrite M1 in BX. rewrite M2 in BY. injection BX as <- <-. injection BY as <- <-.
      assert (SS : set_sn s (snL s) (snR s) (by_sn s) = s) by (destruct s; reflexivity). rewrite SS in H.
      destruct (Nat.eqb_spec k1 k2) as [->|NE].
      - destruct (cmp_values w fl fr n v u s) as [[[|] s2]|] eqn:Y; [| |discriminate].
        + injection H as <-. pose proof (numbered_done s X b c k2 M1 M2) as B.
          destruct (phi_value_ok n b c p q v u s s2 I B FP FQ IV (SUB _ (or_introl eq_refl)) Y T) as [I' [E' Q]].
          split; [exact I'|]. split; [exact E'|]. exists u, c. split; [apply SUB; left; reflexivity|]. auto.
        + exfalso. apply cmp_incoming_log in H. pose proof (tame_back _ _ H T) as Z. apply tame_note in Z. destruct Z. discriminate.
      - eapply IH; eauto. intros z Hz. apply SUB. right. exact Hz.
    Qed.

    Lemma incomings_ok n p q : find_inst fl (i_reg p) = Some p -> find_inst fr (i_reg q) = Some q ->
      forall l s s', incl l (incoming p) -> Inv (dd Done) none s -> ext none no_block s0 s ->
      cmp_incomings w fl fr n l (incoming q) s = Some (true, s') -> tame s' ->
      Inv (dd Done) none s' /\ ext none no_block s s' /\ forall v b, In (v, b) l -> exists u c, In (u, c) (incoming q) /\ In (b, c) Done /\ E s' v u.
    Proof.
      intros FP FQ. induction l as [|[v b] l IH]; intros s s' SUB I X H T; cbn [cmp_incomings] in H.
      { injection H as <-. split; [exact I|]. split; [apply ext_refl|intros v b []]. }
      destruct (cmp_incoming w fl fr n v b (incoming q) s) as [[[|] s1]|] eqn:Y; [|discriminate|discriminate].
      assert (T1 : tame s1) by (eapply tame_back; [eapply cmp_incomings_log; exact H|exact T]).
      destruct (incoming_ok n p q v b FP FQ (SUB _ (or_introl eq_refl)) (incoming q) s s1 (incl_refl _) I X Y T1) as [I1 [E1 [u [c [Q1 [Q2 Q3]]]]]].
      destruct (IH s1 s' (fun z Hz => SUB z (or_intror Hz)) I1 (ext_trans _ _ _ _ _ _ _ X E1) H T) as [I2 [E2 Q]].
      split; [exact I2|]. split; [eapply ext_trans; eauto|]. intros v' b' [Z|Z]; [injection Z as <- <-; exists u, c; repeat split; auto; eapply E_mono; eauto|auto].
    Qed.

    Lemma phis_ok n : forall l s s', incl l (phis s0) -> Inv (dd Done) none s -> ext none no_block s0 s ->
      cmp_phis w fl fr n l s = Some (true, s') -> tame s' ->
      Inv (dd Done) none s' /\ ext none no_block s s' /\
      forall p q, In (p, q) l -> length (incoming p) = length (incoming q) /\ forall v b, In (v, b) (incoming p) -> exists u c, In (u, c) (incoming q) /\ In (b, c) Done /\ E s' v u.
    Proof.
      induction l as [|[p q] l IH]; intros s s' SUB I X H T; cbn [cmp_phis] in H.
      { injection H as <-. split; [exact I|]. split; [apply ext_refl|intros v b []]. }
      destruct (cmp_phi w fl fr n p q s) as [[[|] s1]|] eqn:Y; [|discriminate|discriminate].
      assert (T1 : tame s1) by (eapply tame_back; [eapply cmp_phis_log; exact H|exact T]).
      unfold cmp_phi in Y. destruct (Nat.eqb_spec (length (incoming p)) (length (incoming q))) as [LEN|]; [|discriminate].
      destruct (v_phis _ _ _ _ _ _ (k_inv _ _ _ K) p q (SUB _ (or_introl eq_refl))) as [FP [_ [FQ _]]].
      destruct (incomings_ok n p q FP FQ (incoming p) s s1 (incl_refl _) I X Y T1) as [I1 [E1 Q1]].
      destruct (IH s1 s' (fun z Hz => SUB z (or_intror Hz)) I1 (ext_trans _ _ _ _ _ _ _ X E1) H T) as [I2 [E2 Q2]].
      split; [exact I2|]. split; [eapply ext_trans; eauto|]. intros p' q' [Z|Z]; [|auto]. injection Z as <- <-. split; [exact LEN|].
      intros v b V. destruct (Q1 v b V) as [u [c [Z1 [Z2 Z3]]]]. exists u, c. repeat split; auto. eapply E_mono; eauto.
    Qed.
  End Phis.

  Theorem compare_cert n s : compare w fl fr n = Some (true, s) -> tame s -> exists Done, Cert Done s.
  Proof.
    unfold compare. destruct (_ && _); [|discriminate].
    destruct (cmp_args w fl fr n (f_args fl) 0 start) as [[[|] s1]|] eqn:X; [|discriminate|discriminate].
    destruct (walk w fl fr n [(entry fl, entry fr)] [entry fl] s1) as [[[|] s2]|] eqn:Y; [|discriminate|discriminate].
    destruct (r_status (reloc s2)); [|discriminate|discriminate].
    destruct (cmp_phis w fl fr n (phis s2) s2) as [[[|] s3]|] eqn:Z; [|discriminate|discriminate].
    intros H T. injection H as H. destruct (Nat.eqb_spec (length (phis s2)) (length (phis s3))) as [LEN|]; [|subst s; apply tame_note in T; destruct T; discriminate]. subst s3.
    assert (T2 : tame s2) by (eapply tame_back; [eapply cmp_phis_log; exact Z|exact T]).
    apply args_ok in X; [|apply start_started]. cbn in X.
    destruct (walk_ok n [] [(entry fl, entry fr)] [entry fl] s1 s2 (start_walked s1 X) ltac:(intros c; cbn; tauto) Y T2) as [Done [SUB K]]. exists Done.
    destruct (phis_ok Done s2 K n (phis s2) s2 s (incl_refl _) (k_inv _ _ _ K) (ext_refl _ _ _ _ _) Z T) as [I [E' Q]].
    assert (SAME : phis s = phis s2).
    { destruct (x_phis _ _ _ _ _ _ E') as [new [P1 _]]. rewrite P1, app_length in LEN. destruct new; [rewrite app_nil_r in P1; exact P1|cbn in LEN; lia]. }
    constructor.
    - exact I.
    - intros b b' B. destruct (k_reach _ _ _ K b b') as [R1 [R2 _]]; [apply in_or_app; left; exact B|auto].
    - apply SUB. left. reflexivity.
    - intros b b' B. eapply num_mono; [exact E'|]. apply (k_num _ _ _ K). exact B.
    - intros b b' B.
      assert (R : reach fl b /\ reach fr b') by (destruct (k_reach _ _ _ K b b') as [R1 [R2 _]]; [apply in_or_app; left; exact B|auto]). destruct R as [R1 R2].
      destruct (reach_get fl WL _ R1) as [m G], (reach_get fr WR _ R2) as [m' G'].
      eapply Forall2_strengthen; [|apply (k_pairs _ _ _ K); exact B]. intros i j Hi Hj PIJ. unfold real in Hi, Hj. apply filter_In in Hi. apply filter_In in Hj. destruct Hi as [Hi Di], Hj as [Hj Dj].
      apply negb_true_iff in Di. apply negb_true_iff in Dj. rewrite (block_get _ _ _ G) in Hi. rewrite (block_get _ _ _ G') in Hj.
      eapply Pair_mono; [exact E'| | |eapply (get_find fl WL); eauto|eapply (get_find fr WR); eauto|exact Di|exact Dj|exact PIJ]; intros [].
    - intros b b' B. destruct (k_succ _ _ _ K b b' B) as [t [t' [T1 [T1' _]]]]. exists t, t'. split; [exact T1|]. split; [exact T1'|]. eapply done_succ; eauto.
    - intros p q PQ. rewrite SAME in PQ. split; [apply (k_phis _ _ _ K); exact PQ|]. apply Q. exact PQ.
  Qed.
End Walk.
