(** * Loads that are left out have the value of their replacement *)
From Coq Require Import String Ascii ZArith Arith Bool Lia List.
From Verif Require Import PyBase Funcomp_Model Funcomp_Spec Funcomp_Inv Funcomp_Walk.
Import ListNotations.
Open Scope list_scope.
Open Scope nat_scope.

Section Loads.
  Variables fl fr : func.
  Variable left : bool.
  Notation f := (fn fl fr left).
  Hypothesis W : well_formed f.
  Variable av : nat -> list nat.
  Hypothesis SA : ssa f av.
  Hypothesis ACC : accesses f.
  Variable s : state.

  Lemma exists_last_or_nil (A : Type) (l : list A) : l = [] \/ exists l' z, l = l' ++ [z].
  Proof. destruct l as [|x l]; [left; reflexivity|right]. destruct (@exists_last A (x :: l)) as [l' [z E]]; [discriminate|eauto]. Qed.

  (** ** Aliases *)
  Lemma alloca_of_based n : forall v a, alloca_of n f v = Some a -> exists r, a = VReg r /\ based f v r.
  Proof.
    induction n as [|n IH]; intros v a; [discriminate|]. cbn [alloca_of]. unfold inst_of. destruct v as [|r| |]; try discriminate. destruct (find_inst f r) as [i|] eqn:F; [|discriminate].
    apply find_inst_In in F. destruct F as [I <-]. destruct (i_code i) eqn:C; try discriminate.
    - intros H. injection H as <-. exists (i_reg i). split; [reflexivity|]. constructor; assumption.
    - intros H. destruct (IH _ _ H) as [r [-> B]]. exists r. split; [reflexivity|]. econstructor; eauto.
  Qed.
  Lemma diverge_at a : forall b, indices_diverge a b = true -> exists k x y, nth_error a k = Some (VConst (CInt x)) /\ nth_error b k = Some (VConst (CInt y)) /\ x <> y.
  Proof.
    induction a as [|u a IH]; intros [|v b]; cbn; try discriminate. intros H. apply orb_true_iff in H. destruct H as [H|H].
    - destruct u as [| | |[x|]]; try discriminate. destruct v as [| | |[y|]]; try discriminate. exists 0, x, y. split; [reflexivity|]. split; [reflexivity|]. intros ->. rewrite Z.eqb_refl in H. discriminate.
    - destruct (IH _ H) as [k [x [y [A [B C]]]]]. exists (S k), x, y. auto.
  Qed.
  Lemma flat_base i o a : flat f -> In i (insts f) -> i_code i = Gep o -> based f (VReg (i_reg i)) a -> op 0 i = VReg a /\ based f (VReg a) a.
  Proof.
    intros FL I C B. inversion B as [j J CJ E1 E2|j o' a' J CJ BJ E1 E2]; subst.
    - assert (i = j) by (apply (In_find f) in I; [|apply wf_regs, W]; apply (In_find f) in J; [|apply wf_regs, W]; congruence). congruence.
    - assert (i = j) by (apply (In_find f) in I; [|apply wf_regs, W]; apply (In_find f) in J; [|apply wf_regs, W]; congruence). subst j.
      inversion BJ as [k K CK E3 E4|k o2 a2 K CK BK E3 E4]; subst.
      + split; [reflexivity|]. constructor; assumption.
      + exfalso. exact (FL i k _ _ I K C CK (eq_sym E3)).
  Qed.
  Lemma may_alias_separate p q : flat f -> may_alias f p q = false -> separate f p q.
  Proof.
    intros FL. unfold may_alias. destruct (alloca_of _ f p) as [a|] eqn:A; [|discriminate]. destruct (alloca_of _ f q) as [b|] eqn:B; [|discriminate].
    apply alloca_of_based in A. destruct A as [a' [-> A]]. apply alloca_of_based in B. destruct B as [b' [-> B]]. destruct (eqb_spec (VReg a') (VReg b')) as [E|N].
    - injection E as <-. unfold inst_of. destruct p as [|rp| |]; try discriminate. destruct (find_inst f rp) as [i|] eqn:FI; [|discriminate]. destruct q as [|rq| |]; try (destruct (i_code i); discriminate).
      destruct (find_inst f rq) as [j|] eqn:FJ; [|discriminate]. destruct (i_code i) eqn:CI; try discriminate. destruct (i_code j) eqn:CJ; try discriminate. intros H. apply negb_false_iff in H.
      apply find_inst_In in FI. destruct FI as [II <-]. apply find_inst_In in FJ. destruct FJ as [IJ <-]. destruct (diverge_at _ _ H) as [k [x [y [K1 [K2 K3]]]]].
      destruct (flat_base i _ _ FL II CI A) as [O1 BA]. destruct (flat_base j _ _ FL IJ CJ B) as [O2 _].
      right. exists i, j, a', offset, offset0, k, x, y. auto 20.
    - intros _. left. exists a', b'. split; [exact A|]. split; [exact B|]. congruence.
  Qed.

  (** ** The search *)
  Variables (b : nat) (lb1 lb2 : list inst) (i : inst).
  Hypothesis GB : dget (f_blocks f) b = Some (lb1 ++ i :: lb2).
  Hypothesis LI : i_code i = Load.
  Hypothesis NC : forall c, edge f b c -> ~ leads f c b.
  Notation p := (pointer i).

  (** What is looked through in a block. *)
  Definition part (x : nat) : list inst := if Nat.eqb x b then lb1 else block f x.
  Definition scan (x : nat) : scanned := scan_back fl fr left s p (rev (part x)).
  Lemma before_split l1 l2 (x : inst) : NoDup (defs (l1 ++ x :: l2)) -> before (i_reg x) (l1 ++ x :: l2) = l1.
  Proof.
    induction l1 as [|y l1 IH]; cbn; [rewrite Nat.eqb_refl; reflexivity|]. intros N. inversion N as [|? ? N1 N2]; subst. destruct (Nat.eqb_spec (i_reg y) (i_reg x)) as [E|_].
    - exfalso. apply N1. rewrite E. unfold defs. rewrite map_app. apply in_or_app. right. left. reflexivity.
    - f_equal. apply IH. exact N2.
  Qed.

  Lemma pred_edge c x : In c (predecessors f x) -> edge f c x.
  Proof.
    unfold predecessors. rewrite in_flat_map. intros [[k l] [K I]]. cbn in I. destruct (terminator l) as [t|] eqn:TM; [|destruct I]. destruct (mem x (successors t)) eqn:MX; [|destruct I]. destruct I as [<-|[]].
    exists l, t. split; [apply dget_In_NoDup; [apply wf_blocks, W|exact K]|]. split; [exact TM|apply mem_In; exact MX].
  Qed.
  Lemma leads_before c d e : edge f c d -> leads f d e -> leads f c e.
  Proof. intros E L. induction L as [d|d e e' L IH E']; [eapply leads_step; [constructor|exact E]|eapply leads_step; [apply IH; exact E|exact E']]. Qed.

  Record Searched (T : list nat) (found : option (nat * value)) (queue visited : list nat) : Prop := mkSearched {
    h_visited : forall x, In x visited -> In x T \/ (exists v, found = Some (x, v)) \/ In x queue;
    h_queue : forall x, In x queue -> In x visited;
    h_T : forall x, In x T -> scan x = Nothing /\ leads f x b /\ predecessors f x <> [] /\ forall c, In c (predecessors f x) -> In c visited;
    h_found : forall x v, found = Some (x, v) -> scan x = Found v /\ leads f x b;
    h_leads : forall x, In x visited -> leads f x b }.
  Lemma in_dedup (l : list nat) c : In c l -> In c (dedup l).
  Proof. intros H. apply dedup_In. exact H. Qed.

  Lemma search_back_ok n : forall T found queue visited q' u,
    q' = map (fun x => (x, rev (part x))) queue -> In b visited ->
    Searched T found queue visited -> search_back fl fr n left s p q' visited (option_map snd found) = Some u ->
    exists T' bg visited', Searched T' (Some (bg, u)) [] visited' /\ incl visited visited'.
  Proof.
    induction n as [|n IH]; intros T found queue visited q' u Q IB H; [discriminate|]. subst q'. cbn [search_back].
    destruct queue as [|x queue]; cbn [map].
    - destruct found as [[bg v]|]; cbn; [|discriminate]. intros E. injection E as <-. exists T, bg, visited. split; [exact H|apply incl_refl].
    - change (scan_back fl fr left s p (rev (part x))) with (scan x). destruct (scan x) as [v| |] eqn:SC; [|discriminate|].
      + destruct found as [[bg v']|]; cbn [option_map]; [discriminate|]. intros E.
        destruct (IH T (Some (x, v)) queue visited _ u eq_refl IB) as [T' [bg [vis [A B]]]]; [|exact E|eauto].
        destruct H as [h1 h2 h3 h4 h5]. constructor.
        * intros y Y. destruct (h1 y Y) as [Z|[[v' Z]|[<-|Z]]]; eauto. discriminate.
        * intros y Y. apply h2. right. exact Y.
        * exact h3.
        * intros y v' E'. injection E' as <- <-. split; [exact SC|]. apply h5, h2. left. reflexivity.
        * exact h5.
      + destruct (predecessors f x) as [|c0 cs] eqn:P; [discriminate|]. set (ps := c0 :: cs) in *. set (new := filter (fun y => negb (mem y visited)) (dedup ps)). intros E.
        assert (NB : ~ In b new). { unfold new. rewrite filter_In. intros [_ Z]. apply mem_In in IB. rewrite IB in Z. discriminate. }
        destruct (IH (x :: T) found (queue ++ new) (visited ++ new) (map (fun x => (x, rev (part x))) queue ++ map (fun y => (y, rev (block f y))) new) u) as [T' [bg [vis [A B]]]].
        * rewrite map_app. f_equal. apply map_ext_in. intros y Y. unfold part. destruct (Nat.eqb_spec y b) as [->|_]; [contradiction|reflexivity].
        * apply in_or_app. left. exact IB.
        * destruct H as [h1 h2 h3 h4 h5]. constructor.
          -- intros y Y. apply in_app_or in Y. destruct Y as [Y|Y]; [|right; right; apply in_or_app; right; exact Y].
             destruct (h1 y Y) as [Z|[Z|[<-|Z]]]; [left; right; exact Z|right; left; exact Z|left; left; reflexivity|right; right; apply in_or_app; left; exact Z].
          -- intros y Y. apply in_app_or in Y. apply in_or_app. destruct Y as [Y|Y]; [left; apply h2; right; exact Y|right; exact Y].
          -- intros y [<-|Y].
             ++ split; [exact SC|]. split; [apply h5, h2; left; reflexivity|]. rewrite P. split; [discriminate|]. intros c C. apply in_or_app. destruct (mem c visited) eqn:MC; [left; apply mem_In; exact MC|right].
                unfold new. apply filter_In. split; [apply in_dedup; exact C|rewrite MC; reflexivity].
             ++ destruct (h3 y Y) as [Z1 [Z0 [Z2 Z3]]]. split; [exact Z1|]. split; [exact Z0|]. split; [exact Z2|]. intros c C. apply in_or_app. left. auto.
          -- exact h4.
          -- intros y Y. apply in_app_or in Y. destruct Y as [Y|Y]; [apply h5; exact Y|]. unfold new in Y. apply filter_In in Y. destruct Y as [Y _]. assert (Y' : In y (predecessors f x)) by (rewrite P; exact (proj1 (dedup_In _ _) Y)). clear Y. rename Y' into Y.
             apply pred_edge in Y. eapply leads_before; [exact Y|]. apply h5, h2. left. reflexivity.
        * exact E.
        * exists T', bg, vis. split; [exact A|]. intros y Y. apply B. apply in_or_app. left. exact Y.
  Qed.
  Lemma skip_load_ok u : skip_load fl fr left b i s = Some u ->
    exists T bg, (b = bg \/ In b T) /\ scan bg = Found u /\
      forall x, In x T -> scan x = Nothing /\ leads f x b /\ predecessors f x <> [] /\ forall c, In c (predecessors f x) -> In c T \/ c = bg.
  Proof.
    unfold skip_load. intros H.
    assert (BL : before (i_reg i) (block f b) = lb1) by (rewrite (block_get f b _ GB); apply before_split, (defs_nodup f W b), GB). rewrite BL in H.
    destruct (search_back_ok (Datatypes.S (length (f_blocks f))) [] None [b] [b] [(b, rev lb1)] u) as [T [bg [vis [A B]]]]; [cbn; unfold part; rewrite Nat.eqb_refl; reflexivity|left; reflexivity| |exact H|].
    - constructor; [intros x X; right; right; exact X|intros x X; exact X|intros x []|discriminate|intros x [<-|[]]; constructor].
    - destruct A as [h1 h2 h3 h4 h5].
      assert (V : forall x, In x vis -> In x T \/ x = bg) by (intros x X; destruct (h1 x X) as [Z|[[v Z]|[]]]; [left; exact Z|right; congruence]).
      exists T, bg. split; [destruct (V b (B b (or_introl eq_refl))) as [Z|Z]; auto|]. split; [apply (h4 bg u); reflexivity|]. intros x X. destruct (h3 x X) as [Z1 [Z0 [Z2 Z3]]]. split; [exact Z1|]. split; [exact Z0|]. split; [exact Z2|].
      intros c C. apply V, Z3, C.
  Qed.

  (** What scanning says. *)
  Definition passed (x : inst) : Prop := may_store f x p = false.
  Lemma scan_nothing l : scan_back fl fr left s p l = Nothing -> forall x, In x l -> passed x.
  Proof.
    induction l as [|y l IH]; cbn [scan_back]; [intros _ x []|]. intros H x [<-|X].
    - destruct (match i_code y with Load => _ | Store => _ | _ => None end); [discriminate|]. unfold passed. destruct (may_store f y p); [discriminate|reflexivity].
    - apply IH; [|exact X]. destruct (match i_code y with Load => _ | Store => _ | _ => None end); [discriminate|]. destruct (may_store f y p); [discriminate|exact H].
  Qed.
  Definition gives (g : inst) (u : value) : Prop := pointer g = p /\ (i_code g = Load /\ u = VReg (i_reg g) \/ i_code g = Store /\ u = op 0 g).
  Lemma scan_found l u : scan_back fl fr left s p l = Found u -> exists l1 g l2, l = l1 ++ g :: l2 /\ gives g u /\ forall x, In x l1 -> passed x.
  Proof.
    induction l as [|y l IH]; cbn [scan_back]; [discriminate|].
    destruct (match i_code y with Load => _ | Store => _ | _ => None end) as [v|] eqn:C.
    - intros H. injection H as <-. exists [], y, l. split; [reflexivity|]. split; [|intros x []]. unfold gives. destruct (i_code y) eqn:K; try discriminate.
      + destruct (eqb_spec (pointer y) p) as [E|N]; [|discriminate]. injection C as <-. auto.
      + destruct (mem _ _); [|discriminate]. cbn [andb] in C. destruct (eqb_spec (pointer y) p) as [E|N]; [|discriminate]. injection C as <-. auto.
    - destruct (may_store f y p) eqn:MS; [discriminate|]. intros H. destruct (IH H) as [l1 [g [l2 [-> [G P]]]]]. exists (y :: l1), g, l2. split; [reflexivity|]. split; [exact G|]. intros x [<-|X]; [exact MS|auto].
  Qed.

  Lemma edge_pred c d : edge f c d -> In c (predecessors f d).
  Proof.
    intros [l [t [G [T I]]]]. unfold predecessors. apply in_flat_map. exists (c, l). split; [apply dget_In; exact G|]. cbn. rewrite T. apply mem_In in I. rewrite I. left. reflexivity.
  Qed.

  (** ** Runs *)
  Variable S : semantics.
  Variable consts : const -> V S.
  Variable args : nat -> V S.
  Variable read : V S -> M S -> V S.
  Hypothesis MEM : reads_memory S consts args f read.
  Hypothesis FL : flat f.
  Variable u : value.
  Variables (T : list nat) (bg : nat) (g : inst) (lg1 lg2 : list inst).
  Hypothesis BT : b = bg \/ In b T.
  Hypothesis TT : forall x, In x T -> scan x = Nothing /\ leads f x b /\ predecessors f x <> [] /\ forall c, In c (predecessors f x) -> In c T \/ c = bg.
  Hypothesis PG : part bg = lg1 ++ g :: lg2.
  Hypothesis GG : gives g u.
  Hypothesis AG : forall x, In x lg2 -> passed x.
  Notation ev := (eval S consts args).
  Notation at_ := (At S consts args f).

  Definition tail : list inst := if Nat.eqb bg b then i :: lb2 else [].
  Hypothesis GBG : dget (f_blocks f) bg = Some (lg1 ++ g :: lg2 ++ tail).
  Hypothesis SBG : scan bg = Found u.

  Lemma bg_T : ~ In bg T.
  Proof. intros H. destruct (TT _ H) as [Q _]. rewrite SBG in Q. discriminate. Qed.
  Lemma entry_T : ~ In (entry f) T.
  Proof.
    intros H. destruct (TT _ H) as [_ [_ [NE _]]]. destruct (predecessors f (entry f)) as [|c cs] eqn:P; [contradiction|].
    apply (wf_targets _ W c (entry f)); [|reflexivity]. apply pred_edge. rewrite P. left. reflexivity.
  Qed.

  Lemma jump_last c pre x l : dget (f_blocks f) c = Some (pre ++ x :: l) -> is_terminator x = true -> l = [].
  Proof.
    intros G TX. destruct (wf_ends _ W c _ G) as [l1 [t' [E1 [_ NT]]]]. destruct (exists_last_or_nil _ l) as [->|[l' [z ->]]]; [reflexivity|exfalso].
    rewrite app_comm_cons, app_assoc in E1. apply app_inj_tail in E1. destruct E1 as [E1 _]. subst l1. rewrite (NT x) in TX; [discriminate|apply in_or_app; right; left; reflexivity].
  Qed.
  (** Where a point is in its block. *)
  Lemma at_block d c l env m : at_ d c l env m -> reach f c /\ exists pre, dget (f_blocks f) c = Some (pre ++ l) /\ incl (av c ++ defs pre) d.
  Proof.
    induction 1 as [m|d c x l env m _ [R [pre [G I]]] _|d c x l env m v m' _ [R [pre [G I]]] _ _ _|d c x l env m k c' _ [R [pre [G I]]] TX _ K].
    - split; [constructor|]. destruct (keys_get f _ (wf_entry _ W)) as [l G]. exists []. rewrite (block_get f _ _ G). split; [exact G|]. rewrite (proj1 SA). intros r [].
    - split; [exact R|]. exists (pre ++ [x]). rewrite <- app_assoc. split; [exact G|]. unfold defs. rewrite map_app, app_assoc. intros r Q. apply in_app_or in Q. destruct Q as [Q|[<-|[]]]; [right; apply I, Q|left; reflexivity].
    - split; [exact R|]. exists (pre ++ [x]). rewrite <- app_assoc. split; [exact G|]. unfold defs. rewrite map_app, app_assoc. intros r Q. apply in_app_or in Q. destruct Q as [Q|[<-|[]]]; [right; apply I, Q|left; reflexivity].
    - destruct (end_of f W c _ G) as [l0 [t [EL [T1 [T2 U]]]]]. assert (x = t) by (apply U; [apply in_or_app; right; left; reflexivity|exact TX]). subst t.
      assert (E : edge f c c') by (exists (pre ++ x :: l), x; split; [exact G|]; split; [exact T1|]; eapply nth_error_In; eauto).
      split; [eapply reach_step; eauto|]. destruct (keys_get f _ (proj1 (wf_targets _ W _ _ E))) as [l' G']. exists []. rewrite (block_get f _ _ G'). split; [exact G'|].
      unfold defs. cbn [map]. rewrite app_nil_r. destruct SA as [_ SB]. destruct (SB c _ R G) as [SE _].
      assert (LN : l = []) by exact (jump_last c pre x l G TX).
      subst l. intros r Q. apply (SE _ E) in Q. unfold defs in Q. rewrite map_app, app_assoc in Q. apply in_app_or in Q. destruct Q as [Q|[<-|[]]]; [right; apply I, Q|left; reflexivity].
  Qed.

  (** ** Registers that are not defined again *)
  Inductive avoiding (x : nat) : nat -> Prop :=
  | avoiding_entry : entry f <> x -> avoiding x (entry f)
  | avoiding_step y z : avoiding x y -> edge f y z -> z <> x -> avoiding x z.
  Lemma avoiding_reach x y : avoiding x y -> reach f y.
  Proof. induction 1; [constructor|eapply reach_step; eauto]. Qed.
  Lemma avoiding_not x y : avoiding x y -> y <> x.
  Proof. destruct 1; assumption. Qed.
  Lemma avoiding_av x lx r y : dget (f_blocks f) x = Some lx -> In r (defs lx) -> avoiding x y -> ~ In r (av y).
  Proof.
    intros G D A. induction A as [N|y z A IH E N]; [rewrite (proj1 SA); intros []|]. intros Q. pose proof (avoiding_reach _ _ A) as R. destruct (reach_get f W y R) as [ly GY]. destruct SA as [_ SB]. destruct (SB y ly R GY) as [SE _].
    apply (SE _ E) in Q. apply in_app_or in Q. destruct Q as [Q|Q]; [exact (IH Q)|]. apply (avoiding_not _ _ A). eapply (defs_block f W); eauto.
  Qed.
  Lemma reach_avoiding x y : reach f y -> avoiding x y \/ x = entry f \/ exists z, avoiding x z /\ edge f z x.
  Proof.
    induction 1 as [|y z R IH E].
    - destruct (Nat.eq_dec (entry f) x) as [<-|N]; [auto|left; constructor; exact N].
    - destruct IH as [IH|IH]; [|auto]. destruct (Nat.eq_dec z x) as [->|N]; [eauto|]. left. eapply avoiding_step; eauto.
  Qed.
  Lemma avoiding_bg x z : avoiding x z -> In z T -> avoiding x bg.
  Proof.
    induction 1 as [N|y z A IH E N]; intros Z; [destruct (entry_T Z)|]. destruct (TT _ Z) as [_ [_ [_ P]]]. destruct (P y (edge_pred y z E)) as [Y|Y]; [apply IH, Y|subst y; exact A].
  Qed.
  Lemma T_fresh x lx r : In x T -> reach f x -> dget (f_blocks f) x = Some lx -> In r (av bg ++ defs (lg1 ++ [g])) -> ~ In r (defs lx).
  Proof.
    intros X R G Q D. apply in_app_or in Q. destruct Q as [Q|Q].
    - destruct (reach_avoiding x x R) as [A|[->|[z [A E]]]]; [exact (avoiding_not _ _ A eq_refl)|exact (entry_T X)|].
      destruct (TT _ X) as [_ [_ [_ P]]]. assert (B : avoiding x bg) by (destruct (P z (edge_pred z x E)) as [Z| ->]; [eapply avoiding_bg; eauto|exact A]).
      exact (avoiding_av x lx r bg G D B Q).
    - assert (x = bg); [|subst x; exact (bg_T X)]. eapply (defs_block f W x _ bg _ r G GBG D). unfold defs in *. rewrite map_app in *. apply in_app_or in Q. apply in_or_app. destruct Q as [Q|[Q|[]]]; [left; exact Q|right; left; exact Q].
  Qed.
  Lemma bg_fresh r y : reach f bg -> In r (av bg ++ defs (lg1 ++ [g])) -> In y lg2 -> i_reg y <> r.
  Proof.
    intros R Q Y E. subst r. destruct SA as [_ SB]. destruct (SB bg _ R GBG) as [_ [SD _]].
    assert (D : In (i_reg y) (defs (lg2 ++ tail))) by (unfold defs; rewrite map_app; apply in_or_app; left; apply in_map; exact Y).
    apply in_app_or in Q. destruct Q as [Q|Q].
    - apply (SD (i_reg y)); [|exact Q]. unfold defs in *. rewrite map_app. apply in_or_app. right. right. exact D.
    - pose proof (defs_nodup f W bg _ GBG) as N. unfold defs in *. replace (lg1 ++ g :: lg2 ++ tail) with ((lg1 ++ [g]) ++ lg2 ++ tail) in N by (rewrite <- app_assoc; reflexivity). rewrite map_app in N.
      clear - N Q D. revert N Q. generalize (map i_reg (lg1 ++ [g])). intros k. induction k as [|a k IH]; [intros _ []|]. intros N. inversion N as [|? ? N1 N2]; subst. intros [->|Q]; [apply N1; apply in_or_app; right; exact D|exact (IH N2 Q)].
  Qed.

  (** ** The places where the pointer leads to the value *)
  Inductive Region : nat -> list inst -> Prop :=
  | Region_T c l : In c T -> c <> b -> Region c l
  | Region_b l : In b T -> Region b (l ++ i :: lb2)
  | Region_g pre l : lg2 = pre ++ l -> Region bg (l ++ tail).

  Definition known (v : value) : Prop := forall r, v = VReg r -> In r (av bg ++ defs (lg1 ++ [g])).
  Lemma g_code : is_debug g || is_phi g = false /\ is_terminator g = false.
  Proof. destruct GG as [_ [[C _]|[C _]]]; unfold is_debug, is_phi, is_terminator; rewrite C; auto. Qed.
  Lemma g_operand r v : reach f bg -> In v (i_ops g) -> v = VReg r -> In r (av bg ++ defs lg1).
  Proof.
    intros R I ->. assert (P : is_phi g = false) by (destruct g_code as [Q _]; apply orb_false_iff in Q; apply Q).
    apply (operands_prefix f av SA bg lg1 g (lg2 ++ tail) R GBG P). apply In_regs. exact I.
  Qed.
  Lemma g_insts : In g (insts f).
  Proof. eapply (get_insts f); [exact GBG|apply in_or_app; right; left; reflexivity]. Qed.
  Lemma g_form : (i_code g = Load /\ i_ops g = [p] /\ u = VReg (i_reg g)) \/ (i_code g = Store /\ i_ops g = [u; p]).
  Proof.
    pose proof (ACC g g_insts) as A. destruct GG as [PP [[C U]|[C U]]]; rewrite C in A; unfold pointer in PP at 1; rewrite C in PP.
    - left. destruct A as [q A]. unfold op in PP. rewrite A in *. cbn in PP. subst q. auto.
    - right. destruct A as [v [q A]]. unfold op in PP, U. rewrite A in *. cbn in PP, U. subst. auto.
  Qed.
  Lemma weaken r : In r (av bg ++ defs lg1) -> In r (av bg ++ defs (lg1 ++ [g])).
  Proof. intros H. unfold defs in *. rewrite map_app. apply in_app_or in H. apply in_or_app. destruct H as [H|H]; [auto|right; apply in_or_app; auto]. Qed.
  Lemma known_p : reach f bg -> known p.
  Proof. intros R r E. apply weaken. destruct g_form as [[_ [O _]]|[_ O]]; eapply (g_operand r p R); auto; rewrite O; cbn; auto. Qed.
  Lemma known_u : reach f bg -> known u.
  Proof.
    intros R r E. destruct g_form as [[_ [O U]]|[_ O]].
    - rewrite U in E. injection E as <-. unfold defs. rewrite map_app. apply in_or_app. right. apply in_or_app. right. left. reflexivity.
    - apply weaken. eapply (g_operand r u R); auto. rewrite O. cbn. auto.
  Qed.

  Lemma eval_upd env r v x : x <> VReg r -> ev (upd S env r v) x = ev env x.
  Proof. intros N. destruct x as [n|q|n|k]; cbn; try reflexivity. unfold upd. destruct (Nat.eqb_spec q r) as [->|_]; [contradiction|reflexivity]. Qed.

  (** A passed instruction changes nothing at the pointer. *)
  Lemma passed_read d c x l env m v m' : at_ d c (x :: l) env m -> In x (insts f) -> passed x -> (forall r, p = VReg r -> In r d) ->
    exec S (plain (i_code x)) (i_rest x) (map (ev env) (i_ops x)) m = Some (v, m') -> read (ev env p) m' = read (ev env p) m.
  Proof.
    intros A IX PX PD E. unfold passed, may_store in PX. destruct (i_code x) eqn:C; try discriminate;
      try (eapply (mem_other _ _ _ _ _ MEM x); [exact IX|rewrite C; discriminate|rewrite C; discriminate|rewrite C; exact E]).
    cbn [plain] in E.
    pose proof (ACC x IX) as F. rewrite C in F. destruct F as [w [q F]]. unfold pointer in PX at 1. rewrite C in PX. unfold op in PX. rewrite F in PX. cbn [nth] in PX.
    rewrite F in E. eapply (mem_separate _ _ _ _ _ MEM); [exact A|exact C|exact F|exact E|apply may_alias_separate; assumption|]. intros r [-> |E2]; [|apply PD; exact E2].
    destruct (at_block _ _ _ _ _ A) as [R [pre [G D]]]. apply D. apply (operands_prefix f av SA c pre x l R G); [unfold is_phi; rewrite C; reflexivity|]. apply In_regs. rewrite F. right. left. reflexivity.
  Qed.

  Lemma T_passed c l x : In c T -> c <> b -> dget (f_blocks f) c = Some l -> In x l -> passed x.
  Proof.
    intros I N G X. destruct (TT _ I) as [Q _]. unfold scan, part in Q. apply Nat.eqb_neq in N. rewrite N, (block_get f _ _ G) in Q.
    eapply scan_nothing; [exact Q|]. apply in_rev. rewrite rev_involutive. exact X.
  Qed.
  Lemma b_passed x : In b T -> In x lb1 -> passed x.
  Proof.
    intros I X. destruct (TT _ I) as [Q _]. unfold scan, part in Q. rewrite Nat.eqb_refl in Q.
    eapply scan_nothing; [exact Q|]. apply in_rev. rewrite rev_involutive. exact X.
  Qed.

  (** One step back in the block. *)
  Lemma region_back c x l pre : dget (f_blocks f) c = Some (pre ++ x :: l) -> Region c l ->
    (c = bg /\ x = g /\ pre = lg1) \/ (Region c (x :: l) /\ passed x /\ (reach f c -> forall v, known v -> reach f bg -> v <> VReg (i_reg x))).
  Proof.
    intros G Q. inversion Q as [c' l' I N|l' I|pre' l' EQ]; subst.
    - right. split; [constructor; assumption|]. split; [eapply T_passed; eauto; apply in_or_app; right; left; reflexivity|].
      intros R v K RB E. eapply (T_fresh c _ (i_reg x) I R G (K _ E)). unfold defs. rewrite map_app. apply in_or_app. right. left. reflexivity.
    - right. rewrite app_comm_cons. split; [constructor; assumption|].
      assert (E : pre ++ x :: l' = lb1). { rewrite G in GB. injection GB as E. rewrite app_comm_cons, app_assoc in E. apply app_inv_tail in E. exact E. }
      split; [apply b_passed; [exact I|rewrite <- E; apply in_or_app; right; left; reflexivity]|].
      intros R v K RB E'. eapply (T_fresh b _ (i_reg x) I R G (K _ E')). unfold defs. rewrite map_app. apply in_or_app. right. left. reflexivity.
    - assert (E : pre ++ x :: l' = lg1 ++ g :: pre' ++ l'). { rewrite GBG in G. injection G as E. rewrite EQ in E. rewrite app_comm_cons, app_assoc in E. symmetry in E. rewrite app_comm_cons, app_assoc in E. apply app_inv_tail in E. exact E. }
      assert (E2 : pre ++ [x] = lg1 ++ g :: pre'). { apply (app_inv_tail l'). rewrite <- !app_assoc. exact E. }
      destruct (exists_last_or_nil _ pre') as [->|[pre'' [z ->]]].
      + left. apply app_inj_tail in E2. destruct E2 as [-> ->]. auto.
      + right. rewrite app_comm_cons, app_assoc in E2. apply app_inj_tail in E2. destruct E2 as [_ <-]. rewrite app_comm_cons. split; [apply (Region_g pre''); rewrite EQ, <- app_assoc; reflexivity|].
        assert (IX : In x lg2) by (rewrite EQ; apply in_or_app; left; apply in_or_app; right; left; reflexivity). split; [apply AG; exact IX|].
        intros _ v K RB E'. exact (bg_fresh (i_reg x) x RB (K _ E') IX eq_refl).
  Qed.

  Lemma enter_other env c lc v : (forall r, v = VReg r -> ~ In r (defs lc)) -> ev (enter S consts args env c lc) v = ev env v.
  Proof.
    intros H. destruct v as [n|r|n|k]; try reflexivity. cbn. unfold enter. destruct (find _ lc) as [x|] eqn:F; [|reflexivity]. exfalso. apply find_some in F. destruct F as [I E].
    apply andb_true_iff in E. destruct E as [_ E]. apply Nat.eqb_eq in E. apply (H r eq_refl). rewrite <- E. apply in_map. exact I.
  Qed.

  Hypothesis RBG : reach f bg.
  Theorem region_value d c l env m : at_ d c l env m -> Region c l ->
    read (ev env p) m = ev env u /\ (forall r, p = VReg r -> In r d).
  Proof.
    induction 1 as [m|d c x l env m A IH DP|d c x l env m v m' A IH ND NT EX|d c x l env m k c' A IH TX CH K]; intros Q.
    - exfalso. destruct (keys_get f _ (wf_entry _ W)) as [l G]. rewrite (block_get f _ _ G) in Q. inversion Q as [c' l' I N E1 E2|l' I E1 E2|pre' l' EQ E1 E2]; subst.
      + exact (entry_T I).
      + exact (entry_T I).
      + rewrite <- ?E1, GBG in G. injection G as G. apply (f_equal (@length inst)) in G. rewrite EQ in G. rewrite !app_length in G. cbn [length] in G. rewrite !app_length in G. lia.
    - destruct (at_block _ _ _ _ _ A) as [R [pre [G D]]]. destruct (region_back c x l pre G Q) as [[-> [-> _]]|[Q' _]].
      + destruct g_code as [C _]. rewrite C in DP. discriminate.
      + destruct (IH Q') as [V P]. split; [exact V|]. intros r E. right. apply P, E.
    - destruct (at_block _ _ _ _ _ A) as [R [pre [G D]]]. destruct (region_back c x l pre G Q) as [[-> [-> ->]]|[Q' [PX FR]]].
      + assert (PP : forall r, p = VReg r -> In r (av bg ++ defs lg1)) by (intros r E; destruct g_form as [[_ [O _]]|[_ O]]; eapply (g_operand r p R); auto; rewrite O; cbn; auto).
        split; [|intros r E; right; apply D, PP, E].
        assert (NG : forall w r, In r (av bg ++ defs lg1) -> w = VReg r -> w <> VReg (i_reg g)).
        { intros w r I -> E. injection E as ->. destruct SA as [_ SB]. destruct (SB bg _ R G) as [_ [SD _]]. apply in_app_or in I. destruct I as [I|I].
          - apply (SD (i_reg g)); [|exact I]. unfold defs. rewrite map_app. apply in_or_app. right. left. reflexivity.
          - pose proof (defs_nodup f W bg _ G) as N. unfold defs in *. rewrite map_app in N. cbn [map] in N. apply NoDup_remove_2 in N. apply N, in_or_app. left. exact I. }
        assert (EP : ev (upd S env (i_reg g) v) p = ev env p). { apply eval_upd. intros E. exact (NG _ _ (PP _ E) E E). }
        rewrite EP. destruct g_form as [[C [O U]]|[C O]]; rewrite C, O in EX; cbn [plain map] in EX.
        * rewrite (mem_load _ _ _ _ _ MEM) in EX; [|exact g_insts|exact C]. injection EX as <- <-. rewrite U. cbn. unfold upd. rewrite Nat.eqb_refl. reflexivity.
        * apply (mem_store _ _ _ _ _ MEM g) in EX; [|exact g_insts|exact C]. rewrite EX. symmetry. apply eval_upd. intros E. refine (NG _ _ _ E E).
          apply (g_operand _ u R); [rewrite O; left; reflexivity|exact E].
      + destruct (IH Q') as [V P]. split; [|intros r E; right; apply P, E].
        rewrite !eval_upd by (apply FR; auto using known_p, known_u).
        rewrite <- V. eapply passed_read; eauto. eapply (get_insts f); [exact G|]. apply in_or_app. right. left. reflexivity.
    - destruct (at_block _ _ _ _ _ A) as [R [pre [G D]]].
      destruct (end_of f W c _ G) as [l0 [t [EL [T1 [T2 U]]]]]. assert (x = t) by (apply U; [apply in_or_app; right; left; reflexivity|exact TX]). subst t.
      assert (E : edge f c c') by (exists (pre ++ x :: l), x; split; [exact G|]; split; [exact T1|]; eapply nth_error_In; eauto).
      destruct (keys_get f _ (proj1 (wf_targets _ W _ _ E))) as [lc G']. rewrite (block_get f _ _ G') in *.
      assert (IT : In c' T).
      { inversion Q as [c2 l' I N E1 E2|l' I E1 E2|pre' l' EQ E1 E2]; subst; [exact I|exact I|exfalso].
        rewrite GBG in G'. injection G' as G'. apply (f_equal (@length inst)) in G'. rewrite EQ in G'. rewrite !app_length in G'. cbn [length] in G'. rewrite !app_length in G'. lia. }
      destruct (TT _ IT) as [_ [LD [_ PR]]].
      assert (NB : c <> b) by (intros ->; exact (NC _ E LD)).
      assert (LX : x :: l = [x]) by (f_equal; exact (jump_last c pre x l G TX)).
      assert (Q' : Region c (x :: l)).
      { destruct (PR c (edge_pred c c' E)) as [Z| ->]; [constructor; assumption|].
        apply Nat.eqb_neq in NB. assert (TN : tail = []) by (unfold tail; rewrite NB; reflexivity). pose proof GBG as G2. rewrite TN, app_nil_r, G in G2. injection G2 as G2. rewrite G2 in EL.
        destruct (exists_last_or_nil _ lg2) as [EN|[l2 [z EN]]]; rewrite EN in EL.
        - exfalso. assert (EL' : lg1 ++ [g] = l0 ++ [x]) by (rewrite <- EL; reflexivity). apply app_inj_tail in EL'. destruct EL' as [_ EL']. destruct g_code as [_ C]. rewrite EL' in C. rewrite C in T2. discriminate.
        - assert (EL' : (lg1 ++ g :: l2) ++ [z] = l0 ++ [x]) by (rewrite <- EL, <- app_assoc; reflexivity). apply app_inj_tail in EL'. destruct EL' as [_ EL'].
          rewrite LX. replace [x] with ([x] ++ tail) by (rewrite TN; reflexivity). apply (Region_g l2). rewrite EN, EL'. reflexivity. }
      destruct (IH Q') as [V P]. split; [|intros r E'; right; apply P, E'].
      assert (KV : forall v, known v -> ev (enter S consts args env c lc) v = ev env v).
      { intros v KN. apply enter_other. intros r E'. apply (T_fresh c' lc r IT); [eapply reach_step; eauto|exact G'|apply KN; exact E']. }
      rewrite (KV _ (known_p RBG)), (KV _ (known_u RBG)). exact V.
  Qed.
End Loads.

(** A load that is left out has the value of what replaces it, wherever its block is not on a cycle. *)
Theorem skipped_load fl fr left b l1 i l2 s u S consts args read :
  let f := fn fl fr left in
  well_formed f -> accesses f -> flat f -> reads_memory S consts args f read ->
  dget (f_blocks f) b = Some (l1 ++ i :: l2) -> i_code i = Load -> (forall c, edge f b c -> ~ leads f c b) ->
  skip_load fl fr left b i s = Some u ->
  forall done l env m, At S consts args f done b (i :: l) env m ->
  exec S Load (i_rest i) (map (eval S consts args env) (i_ops i)) m = Some (eval S consts args env u, m).
Proof.
  intros f W ACC FL MEM GB LI NC SK d l env m A. destruct (wf_ssa _ W) as [av SA].
  destruct (skip_load_ok fl fr left W s b l1 l2 i GB u SK) as [T [bg [BT [SB TT]]]].
  pose proof (at_block fl fr left W av SA S consts args d b _ env m A) as [R [pre [G D]]].
  assert (EL : l = l2).
  { pose proof (defs_nodup f W b _ GB) as N. unfold f in *. rewrite G in GB. injection GB as E. clear - N E. revert l1 E N. induction pre as [|x pre IH]; intros [|y l1] E N; cbn in E.
    - congruence.
    - exfalso. injection E as -> ->. inversion N as [|? ? N1 _]. apply N1. unfold defs. rewrite map_app. apply in_or_app. right. left. reflexivity.
    - exfalso. injection E as -> <-. inversion N as [|? ? N1 _]. apply N1. unfold defs. rewrite map_app. apply in_or_app. right. left. reflexivity.
    - injection E as <- E. inversion N; subst. eapply IH; eauto. }
  subst l. assert (RB : reach f bg).
  { destruct BT as [<-|BT]; [exact R|]. assert (Q : forall z, reach f z -> In z T -> reach f bg).
    { induction 1 as [|y z RY IH E]; intros Z; [exfalso; eapply (entry_T fl fr left W s b l1 i T bg TT); exact Z|].
      destruct (TT _ Z) as [_ [_ [_ P]]]. destruct (P y (edge_pred fl fr left y z E)) as [Y| ->]; [apply IH, Y|exact RY]. }
    exact (Q b R BT). }
  destruct (scan_found fl fr left s i _ _ SB) as [a [g [c [ER [GG AG]]]]].
  assert (EP : part fl fr left b l1 bg = rev c ++ g :: rev a) by (rewrite <- (rev_involutive (part _ _ _ _ _ _)), ER, rev_app_distr; cbn; rewrite <- app_assoc; reflexivity).
  assert (GBG : dget (f_blocks f) bg = Some (rev c ++ g :: rev a ++ tail b l2 i bg)).
  { unfold tail, part in *. destruct (Nat.eqb_spec bg b) as [->|N].
    - rewrite EP, <- app_assoc in GB. exact GB.
    - rewrite app_nil_r, <- EP. destruct (reach_get f W bg RB) as [lg G2]. pose proof (block_get f _ _ G2) as BE. unfold f in BE, G2 |- *. rewrite BE. exact G2. }
  assert (AG' : forall x, In x (rev a) -> passed fl fr left i x) by (intros x X; apply AG; apply in_rev; exact X).
  assert (Q : Region b l2 i T bg (rev a) b (i :: l2)).
  { destruct BT as [E|BT]; [|apply (Region_b b l2 i T bg (rev a) []); exact BT].
    pose proof (Region_g b l2 i T bg (rev a) (rev a) [] (eq_sym (app_nil_r _))) as Q. unfold tail in Q. rewrite E, Nat.eqb_refl in *. exact Q. }
  destruct (region_value fl fr left W av SA ACC s b l1 l2 i GB NC S consts args read MEM FL u T bg g (rev c) (rev a) BT TT GG AG' GBG SB RB d b (i :: l2) env m A Q) as [V _].
  assert (IO : exists p, i_ops i = [p]). { assert (Z : In i (insts f)) by (eapply (get_insts f); [exact GB|apply in_or_app; right; left; reflexivity]). apply ACC in Z. rewrite LI in Z. exact Z. }
  destruct IO as [p IO]. rewrite IO. cbn [map]. rewrite (mem_load _ _ _ _ _ MEM); [|eapply (get_insts f); [exact GB|apply in_or_app; right; left; reflexivity]|exact LI]. rewrite <- V. unfold pointer. rewrite LI. unfold op. rewrite IO. reflexivity.
Qed.

(** ** Points and results *)
Section Results.
  Variable S : semantics.
  Variable consts : const -> V S.
  Variable args : nat -> V S.
  Variable f : func.
  Notation at_ := (At S consts args f).
  Lemma body_at b l : forall d env m env' m' t, at_ d b l env m -> body S consts args l env m = Some (env', m', t) ->
    exists d' l', at_ d' b (t :: l') env' m' /\ is_terminator t = true.
  Proof.
    induction l as [|i l IH]; intros d env m env' m' t A; cbn [body]; [discriminate|]. destruct (is_debug i || is_phi i) eqn:D.
    - apply (IH (i_reg i :: d)). apply At_pass; assumption.
    - destruct (is_terminator i) eqn:TI; [intros H; injection H as <- <- <-; eauto|].
      destruct (exec S _ _ _ m) as [[v m2]|] eqn:E; [|discriminate]. intros H. eapply IH; [|exact H]. eapply At_exec; eauto.
  Qed.
  (** A run that returns gets to a return through such points. *)
  Lemma result_at n m vs m' : result S consts args f n m = Returned vs m' ->
    exists d b t l env, at_ d b (t :: l) env m' /\ i_code t = Ret /\ vs = map (eval S consts args env) (i_ops t).
  Proof.
    unfold result. assert (H : forall n prev b d env m, at_ d b (block f b) (match prev with Some p => enter S consts args env p (block f b) | None => env end) m ->
      run S consts args f n env m prev b = Returned vs m' -> exists d b t l env, at_ d b (t :: l) env m' /\ i_code t = Ret /\ vs = map (eval S consts args env) (i_ops t)).
    { clear n m. induction n as [|n IH]; intros prev b d env m A; cbn [run]; [discriminate|]. destruct (body _ _ _ _ _ _) as [[[env2 m2] t]|] eqn:B; [|discriminate].
      destruct (body_at _ _ _ _ _ _ _ _ A B) as [d2 [l2 [A2 TT]]]. intros H.
      assert (K : i_code t = Ret /\ Returned vs m' = Returned (map (eval S consts args env2) (i_ops t)) m2 \/ exists k b', choose S (i_code t) (i_rest t) (map (eval S consts args env2) (i_ops t)) = Some k /\ nth_error (successors t) k = Some b' /\ run S consts args f n env2 m2 (Some b) b' = Returned vs m').
      { destruct (i_code t); try (left; split; [reflexivity|symmetry; exact H]);
          right; (destruct (choose _ _ _ _) as [k|]; [|discriminate]; destruct (nth_error _ k) as [b'|] eqn:N; [|discriminate]; exists k, b'; auto). }
      destruct K as [[C K]|[k [b' [K1 [K2 K3]]]]]; [injection K as -> ->; eauto 10|]. eapply (IH (Some b)); [|exact K3]. eapply At_jump; eauto. }
    intros R. eapply (H n None); [|exact R]. apply At_start.
  Qed.
End Results.
