(** * The first phase of slicing by a variable *)
From Coq Require Import String Ascii ZArith Arith Bool Lia List.
From Verif Require Import PyBase Funcomp_Model Slice_Model Slice_Spec Slice_Control.
Import ListNotations.
Open Scope list_scope.
Open Scope nat_scope.

Lemma insts_split (bs : list (nat * list inst)) i : In i (flat_map snd bs) -> exists x b a c y, bs = x ++ (b, a ++ i :: c) :: y.
Proof.
  induction bs as [|[b l] bs IH]; [intros []|]. cbn [flat_map snd]. intros H. apply in_app_or in H as [H|H].
  - apply in_split in H as (a & c & ->). exists [], b, a, c, bs. reflexivity.
  - destruct (IH H) as (x & b' & a & c & y & ->). exists ((b, l) :: x), b', a, c, y. reflexivity.
Qed.
Lemma unique_split {A} (g : A -> nat) (p q p' q' : list A) i : NoDup (map g (p ++ i :: q)) -> p ++ i :: q = p' ++ i :: q' -> p = p'.
Proof.
  revert p'. induction p as [|x p IH]; intros [|y p'] N E; cbn [app] in *.
  - reflexivity.
  - injection E as <- E2. exfalso. cbn [map] in N. apply NoDup_cons_iff in N as [N _]. apply N. apply in_map. rewrite E2. apply in_or_app. right. left. reflexivity.
  - injection E as -> E2. exfalso. cbn [map] in N. apply NoDup_cons_iff in N as [N _]. apply N. apply in_map. apply in_or_app. right. left. reflexivity.
  - injection E as <- E2. f_equal. apply IH; [|exact E2]. cbn [map] in N. apply NoDup_cons_iff in N as [_ N]. exact N.
Qed.
Lemma same_block (bs : list (nat * list inst)) b l b' l' i : NoDup (map i_reg (flat_map snd bs)) -> In (b, l) bs -> In (b', l') bs -> In i l -> In i l' -> (b, l) = (b', l').
Proof.
  induction bs as [|[c k] bs IH]; [intros _ []|]. cbn [flat_map snd]. rewrite map_app. intros N H H' I I'.
  assert (D : forall c' k', In (c', k') bs -> In i k -> In i k' -> False).
  { intros c' k' K J J'. apply in_split in J as (u & v & ->). rewrite map_app in N. cbn [map] in N. rewrite <- app_assoc in N. cbn [app] in N.
    apply NoDup_remove_2 in N. apply N. apply in_or_app. right. apply in_or_app. right. apply in_map. apply in_flat_map. exists (c', k'). split; [exact K|exact J']. }
  destruct H as [E|H], H' as [E'|H'].
  - congruence.
  - injection E as -> ->. exfalso. apply (D b' l'); assumption.
  - injection E' as -> ->. exfalso. apply (D b l); assumption.
  - apply IH; try assumption. clear - N. induction (map i_reg k) as [|x m IHm]; [exact N|]. cbn [app] in N. apply NoDup_cons_iff in N as [_ N]. apply IHm. exact N.
Qed.

Lemma last_In {A} (l : list A) t : In t (l ++ [t]).
Proof. apply in_or_app. right. left. reflexivity. Qed.

Section Blocks.
  Variable reachable : (nat -> list nat) -> nat -> nat -> bool.
  Variable var : string.
  Variable f : func.
  Hypothesis U : NoDup (map i_reg (insts f)).

  Definition located (s : sets) : Prop := included s = [] /\ forall b l i, In (b, l) (f_blocks f) -> In i l -> In (i_reg i) (dependent s) -> In b (in_blocks s).
  Lemma parent_of b l i : In (b, l) (f_blocks f) -> In i l -> parent f (i_reg i) = Some b.
  Proof.
    intros H I. unfold parent. destruct (find _ (f_blocks f)) as [[c k]|] eqn:F.
    - apply find_some in F as [K M]. cbn [snd] in M. apply mem_In, in_map_iff in M as (j & Er & J). cbn [fst]. f_equal.
      assert (j = i) as -> by (apply (same_reg (insts f)); [exact U|apply in_flat_map; exists (c, k); auto|apply in_flat_map; exists (b, l); auto|exact Er]).
      pose proof (same_block (f_blocks f) c k b l i U K H J I) as X. congruence.
    - exfalso. pose proof (find_none _ _ F (b, l) H) as X. cbn [snd] in X. assert (Y : mem (i_reg i) (map i_reg l) = true) by (apply mem_In, in_map; exact I). congruence.
  Qed.
  Lemma add_dependent_located r s : located s -> located (add_dependent f r s).
  Proof.
    intros [I0 H]. unfold add_dependent. destruct (mem r (dependent s)); [split; assumption|]. split; [exact I0|]. cbn [dependent in_blocks].
    intros b l i Hb I [Er|D]; unfold add_block.
    - rewrite Er, (parent_of b l i Hb I). left. reflexivity.
    - destruct (parent f r); [right|]; apply (H b l i); assumption.
  Qed.
  Lemma first_located b i s : located s -> located (first_inst reachable var f b s i).
  Proof.
    intros L. unfold first_inst. destruct (_ && _); [|exact L]. pose proof (add_dependent_located (i_reg i) s L) as L1.
    destruct (i_code i); try exact L1; [destruct (op 1 i); try exact L1; apply add_dependent_located; exact L1|].
    destruct L1 as [I1 H1]. split; [exact I1|]. cbn [add_all dependent in_blocks]. intros c l j Hc J D. apply in_or_app. apply in_app_or in D as [D|D]; [left|right; apply (H1 c l j); assumption].
    apply in_flat_map in D as (c2 & C2 & D). apply in_map_iff in D as (j2 & Er & J2).
    unfold block in J2. destruct (dget (f_blocks f) c2) as [l2|] eqn:G; [|destruct J2]. apply dget_In in G.
    assert (j2 = j) as -> by (apply (same_reg (insts f)); [exact U|apply in_flat_map; exists (c2, l2); auto|apply in_flat_map; exists (c, l); auto|exact Er]).
    pose proof (same_block (f_blocks f) c2 l2 c l j U G Hc J2 J) as X. congruence.
  Qed.
  Lemma phase_located : located (first_phase reachable var f).
  Proof.
    unfold first_phase. enough (X : forall bs s, located s -> located (fold_left (first_block reachable var f) bs s)) by (apply X; split; [reflexivity|intros b l i _ _ []]).
    induction bs as [|[b l] bs IH]; intros s L; [exact L|]. cbn [fold_left]. apply IH.
    unfold first_block. destruct (mem _ _); [exact L|]. cbn [fst snd]. clear IH. revert s L. induction l as [|i l IHl]; intros s L; [exact L|]. cbn [fold_left]. apply IHl, first_located, L.
  Qed.
End Blocks.

Section First.
  Variable reachable : (nat -> list nat) -> nat -> nat -> bool.
  Variable var : string.
  Variable f : func.
  Hypothesis R : exact f reachable.
  Hypothesis O : in_order f.
  Hypothesis N : nested f.

  Notation first := (first_inst reachable var f).
  Notation run := (fun bs => fold_left (first_block reachable var f) bs no_sets).
  Definition below (s s' : sets) : Prop := incl (dependent s) (dependent s') /\ incl (affected s) (affected s').
  Lemma below_refl s : below s s.
  Proof. split; apply incl_refl. Qed.
  Lemma below_trans a b c : below a b -> below b c -> below a c.
  Proof. intros [A B] [C D]. split; eapply incl_tran; eassumption. Qed.

  Lemma add_dependent_In r s : In r (dependent (add_dependent f r s)).
  Proof. unfold add_dependent. destruct (mem r (dependent s)) eqn:M; [apply mem_In; exact M|left; reflexivity]. Qed.
  Lemma add_dependent_inv r s x : In x (dependent (add_dependent f r s)) -> x = r \/ In x (dependent s).
  Proof. unfold add_dependent. destruct (mem r (dependent s)); [auto|]. intros [<-|H]; auto. Qed.
  Lemma add_dependent_affected r s : affected (add_dependent f r s) = affected s.
  Proof. unfold add_dependent. destruct (mem r (dependent s)); reflexivity. Qed.
  Lemma add_dependent_below r s : below s (add_dependent f r s).
  Proof. unfold below. rewrite add_dependent_affected. split; [|apply incl_refl]. unfold add_dependent. destruct (mem r _); [apply incl_refl|apply incl_tl, incl_refl]. Qed.
  Lemma add_all_below bs s : below s (add_all f bs s).
  Proof. split; cbn [add_all dependent affected]; apply incl_appr, incl_refl. Qed.
  Lemma first_below b i s : below s (first b s i).
  Proof.
    unfold first_inst. destruct (_ && _); [|apply below_refl].
    assert (A : below s (add_dependent f (i_reg i) s)) by apply add_dependent_below.
    destruct (i_code i); try exact A.
    - destruct (op 1 i); try exact A. eapply below_trans; [exact A|apply add_dependent_below].
    - eapply below_trans; [exact A|apply add_all_below].
  Qed.
  Lemma fold_below b l : forall s, below s (fold_left (first b) l s).
  Proof. induction l as [|i l IH]; intros s; [apply below_refl|]. cbn [fold_left]. eapply below_trans; [apply first_below|apply IH]. Qed.
  Lemma block_below kb s : below s (first_block reachable var f s kb).
  Proof. unfold first_block. destruct (mem _ _); [apply below_refl|apply fold_below]. Qed.
  Lemma run_below bs : forall s, below s (fold_left (first_block reachable var f) bs s).
  Proof. induction bs as [|kb bs IH]; intros s; [apply below_refl|]. cbn [fold_left]. eapply below_trans; [apply block_below|apply IH]. Qed.

  Lemma block_of b l : In (b, l) (f_blocks f) -> block f b = l.
  Proof. intros H. unfold block. rewrite (dget_In_NoDup _ _ _ (order_blocks f O) H). reflexivity. Qed.
  Lemma of_block b i : In i (block f b) -> In (b, block f b) (f_blocks f).
  Proof. unfold block. destruct (dget (f_blocks f) b) as [l|] eqn:E; [intros _; apply dget_In; exact E|intros []]. Qed.
  Lemma in_insts b l i : In (b, l) (f_blocks f) -> In i l -> In i (insts f).
  Proof. intros H I. apply in_flat_map. exists (b, l). split; assumption. Qed.
  Lemma one_block b l b' l' i j : In (b, l) (f_blocks f) -> In i l -> In (b', l') (f_blocks f) -> In j l' -> i_reg i = i_reg j -> i = j /\ b = b' /\ l = l'.
  Proof.
    intros H I H' J E. assert (i = j) as <- by (apply (same_reg (insts f)); [apply (order_regs f O)|exact (in_insts _ _ _ H I)|exact (in_insts _ _ _ H' J)|exact E]).
    split; [reflexivity|]. assert (X : (b, l) = (b', l')) by (apply (same_block (f_blocks f) b l b' l' i); try assumption; apply (order_regs f O)). split; congruence.
  Qed.

  Lemma targets_none x : ~ In x (dkeys (f_blocks f)) -> targets f x = [].
  Proof.
    intros H. unfold targets, block. destruct (dget (f_blocks f) x) as [l|] eqn:E; [|reflexivity].
    exfalso. apply H. apply dget_In in E. apply in_map_iff. exists (x, l). split; [reflexivity|exact E].
  Qed.
  Lemma reached_spec b t c : In b (dkeys (f_blocks f)) -> reached_through reachable f b t c = true <-> by_way f b t c.
  Proof.
    intros B. unfold reached_through, by_way. rewrite andb_true_iff, negb_true_iff, Nat.eqb_neq.
    assert (E : reachable (through f b t) b c = true <-> path (through f b t) b c).
    { apply R. intros x X. unfold through. destruct (Nat.eqb_spec x b) as [->|_]; [contradiction|apply targets_none; exact X]. }
    rewrite E. reflexivity.
  Qed.
  Lemma affected_spec b l t c : In (b, l ++ [t]) (f_blocks f) -> i_code t = Br -> In c (affected_blocks reachable f b t) <-> decides f b c.
  Proof.
    intros H Ct. pose proof (order_branches f O t (in_insts _ _ _ H (last_In l t)) Ct) as L.
    assert (B : In b (dkeys (f_blocks f))) by (apply in_map_iff; exists (b, l ++ [t]); split; [reflexivity|exact H]).
    unfold affected_blocks. split.
    - destruct (successors t) as [|x [|y [|z ts]]] eqn:S; [intros []|intros []| |cbn [length] in L; lia].
      intros K. apply filter_In in K as [K E]. cbn [existsb forallb] in E. rewrite orb_false_r, andb_true_r in E.
      exists l, t, x, y. do 3 (split; [assumption|]). split; [exact K|].
      rewrite <- !(reached_spec b) by exact B.
      destruct (reached_through reachable f b x c), (reached_through reachable f b y c); try discriminate; [left|right]; split; try reflexivity; discriminate.
    - intros (l' & t' & x & y & H' & C' & S & K & D).
      assert (X : block f b = l ++ [t]) by (apply block_of; exact H). rewrite (block_of _ _ H') in X. apply app_inj_tail in X as [-> ->]. rewrite S.
      apply filter_In. split; [exact K|]. cbn [existsb forallb]. rewrite orb_false_r, andb_true_r. rewrite <- !(reached_spec b) in D by exact B.
      destruct (reached_through reachable f b x c), (reached_through reachable f b y c); try reflexivity; exfalso; destruct D as [[D1 D2]|[D1 D2]]; try discriminate; apply D2; reflexivity.
  Qed.

  (** What holds of the sets all along. *)
  Record good (s : sets) : Prop := mkGood {
    good_block : forall b i, In b (affected s) -> In i (block f b) -> In (i_reg i) (dependent s);
    good_whole : forall b, In b (affected s) -> exists a, decides f a b /\ forall c, decides f a c -> In c (affected s);
    good_branch : forall b l t, In (b, l) (f_blocks f) -> In t l -> In (i_reg t) (dependent s) -> i_code t = Br ->
      In b (affected s) \/ forall c, decides f b c -> In c (affected s);
    good_store : forall b l t r, In (b, l) (f_blocks f) -> In t l -> In (i_reg t) (dependent s) -> i_code t = Store -> op 1 t = VReg r ->
      In b (affected s) \/ In r (dependent s) }.

  Lemma op_In i n r : op n i = VReg r -> In (VReg r) (i_ops i).
  Proof.
    unfold op. intros E. destruct (nth_in_or_default n (i_ops i) (VConst (CInt 0))) as [H|H]; [rewrite <- E; exact H|]. rewrite H in E. discriminate.
  Qed.
  Lemma first_good b l i s : In (b, l) (f_blocks f) -> In i l -> good s -> good (first b s i).
  Proof.
    intros H I [G1 G2 G3 G4]. unfold first_inst. destruct (_ && _); [|constructor; assumption].
    set (s1 := add_dependent f (i_reg i) s).
    assert (A1 : affected s1 = affected s) by apply add_dependent_affected.
    assert (D1 : forall x, In x (dependent s1) -> x = i_reg i \/ In x (dependent s)) by (intros x; apply add_dependent_inv).
    assert (D2 : forall x, In x (dependent s) -> In x (dependent s1)) by (apply add_dependent_below).
    assert (D3 : In (i_reg i) (dependent s1)) by apply add_dependent_In.
    destruct (i_code i) eqn:Ci.
    all: try (constructor; rewrite ?A1;
      [ intros b' j B J; apply D2; apply (G1 b'); assumption
      | exact G2
      | intros b' l' t H' T D C; destruct (D1 _ D) as [E|D']; [destruct (one_block _ _ _ _ _ _ H' T H I E) as [-> _]; congruence|apply (G3 b' l' t); assumption]
      | intros b' l' t r H' T D C P; destruct (D1 _ D) as [E|D']; [destruct (one_block _ _ _ _ _ _ H' T H I E) as [-> _]; congruence|];
        destruct (G4 b' l' t r H' T D' C P) as [K|K]; [left; exact K|right; apply D2; exact K] ]; fail).
    - (* Store *)
      assert (base : (forall r, op 1 i <> VReg r) -> good s1).
      { intros NR. constructor; rewrite ?A1.
        - intros b' j B J. apply D2. apply (G1 b'); assumption.
        - exact G2.
        - intros b' l' t H' T D C. destruct (D1 _ D) as [E|D']; [destruct (one_block _ _ _ _ _ _ H' T H I E) as [-> _]; congruence|apply (G3 b' l' t); assumption].
        - intros b' l' t r H' T D C P. destruct (D1 _ D) as [E|D']; [destruct (one_block _ _ _ _ _ _ H' T H I E) as [-> _]; exfalso; apply (NR r P)|].
          destruct (G4 b' l' t r H' T D' C P) as [K|K]; [left; exact K|right; apply D2; exact K]. }
      destruct (op 1 i) as [ | r | | ] eqn:P; try (apply base; intros r0; discriminate). clear base.
      set (s2 := add_dependent f r s1).
      assert (A2 : affected s2 = affected s) by (unfold s2; rewrite add_dependent_affected; exact A1).
      assert (E1 : forall x, In x (dependent s2) -> x = r \/ x = i_reg i \/ In x (dependent s)) by (intros x X; apply add_dependent_inv in X as [->|X]; [left; reflexivity|right; apply D1; exact X]).
      assert (E2 : forall x, In x (dependent s1) -> In x (dependent s2)) by (apply add_dependent_below).
      assert (V : forall b' l' t, In (b', l') (f_blocks f) -> In t l' -> i_reg t = r -> is_terminator t = false /\ i_code t <> Store).
      { intros b' l' t H' T <-. apply (order_values f O t i); [exact (in_insts _ _ _ H' T)|exact (in_insts _ _ _ H I)|]. apply op_In with 1. exact P. }
      constructor; rewrite ?A2.
      + intros b' j B J. apply E2, D2. apply (G1 b'); assumption.
      + exact G2.
      + intros b' l' t H' T D C. destruct (E1 _ D) as [E|[E|D']].
        * destruct (V _ _ _ H' T E) as [X _]. unfold is_terminator in X. rewrite C in X. discriminate.
        * destruct (one_block _ _ _ _ _ _ H' T H I E) as [-> _]. congruence.
        * apply (G3 b' l' t); assumption.
      + intros b' l' t r' H' T D C P'. destruct (E1 _ D) as [E|[E|D']].
        * destruct (V _ _ _ H' T E) as [_ X]. contradiction.
        * destruct (one_block _ _ _ _ _ _ H' T H I E) as [-> _]. right. assert (r' = r) as -> by congruence. apply add_dependent_In.
        * destruct (G4 b' l' t r' H' T D' C P') as [K|K]; [left; exact K|right; apply E2, D2; exact K].
    - (* Br *)
      assert (L : exists l0, l = l0 ++ [i]).
      { apply in_split in I as (l1 & l2 & ->). rewrite (order_ends f O b l1 i l2 H) by (unfold is_terminator; rewrite Ci; reflexivity). exists l1. reflexivity. }
      destruct L as (l0 & ->).
      pose proof (affected_spec b l0 i) as AS. specialize (fun c => AS c H Ci) as AS'. clear AS.
      set (bs := affected_blocks reachable f b i) in *.
      constructor; cbn [add_all dependent affected]; rewrite ?A1.
      + intros b' j B J. apply in_or_app. apply in_app_or in B as [B|B]; [left|right; apply D2; apply (G1 b'); assumption].
        apply in_flat_map. exists b'. split; [exact B|apply in_map; exact J].
      + intros b' B. apply in_app_or in B as [B|B].
        * exists b. split; [apply AS'; exact B|]. intros c C. apply in_or_app. left. apply AS'. exact C.
        * destruct (G2 b' B) as (a & Da & Wa). exists a. split; [exact Da|]. intros c C. apply in_or_app. right. apply Wa. exact C.
      + intros b' l' t H' T D C. apply in_app_or in D as [D|D].
        * apply in_flat_map in D as (c & Cc & D). apply in_map_iff in D as (j & E & J). left. apply in_or_app. left.
          destruct (one_block _ _ _ _ _ _ H' T (of_block c j J) J (eq_sym E)) as (_ & -> & _). exact Cc.
        * destruct (D1 _ D) as [E|D'].
          -- destruct (one_block _ _ _ _ _ _ H' T H I E) as (_ & -> & _). right. intros c Dc. apply in_or_app. left. apply AS'. exact Dc.
          -- destruct (G3 b' l' t H' T D' C) as [K|K]; [left; apply in_or_app; right; exact K|right; intros c Dc; apply in_or_app; right; apply K; exact Dc].
      + intros b' l' t r H' T D C P. apply in_app_or in D as [D|D].
        * apply in_flat_map in D as (c & Cc & D). apply in_map_iff in D as (j & E & J). left. apply in_or_app. left.
          destruct (one_block _ _ _ _ _ _ H' T (of_block c j J) J (eq_sym E)) as (_ & -> & _). exact Cc.
        * destruct (D1 _ D) as [E|D']; [destruct (one_block _ _ _ _ _ _ H' T H I E) as [-> _]; congruence|].
          destruct (G4 b' l' t r H' T D' C P) as [K|K]; [left; apply in_or_app; right; exact K|right; apply in_or_app; right; apply D2; exact K].
  Qed.
  Lemma fold_good b l : In (b, l) (f_blocks f) -> forall k s, incl k l -> good s -> good (fold_left (first b) k s).
  Proof.
    intros H. induction k as [|i k IH]; intros s K G; [exact G|]. cbn [fold_left]. apply IH; [intros x X; apply K; right; exact X|].
    apply first_good with l; [exact H|apply K; left; reflexivity|exact G].
  Qed.
  Lemma run_good bs : incl bs (f_blocks f) -> forall s, good s -> good (fold_left (first_block reachable var f) bs s).
  Proof.
    induction bs as [|[b l] bs IH]; intros K s G; [exact G|]. cbn [fold_left]. apply IH; [intros x X; apply K; right; exact X|].
    unfold first_block. cbn [fst snd]. destruct (mem b _); [exact G|]. apply fold_good with l; [apply K; left; reflexivity|apply incl_refl|exact G].
  Qed.
  Lemma start_good : good no_sets.
  Proof. constructor; cbn; intros; contradiction. Qed.

  (** The sets after the blocks [bs] and the instructions [l] of block [b]. *)
  Definition at_ (bs : list (nat * list inst)) (b : nat) (l : list inst) : sets :=
    let s := run bs in if mem b (affected s) then s else fold_left (first b) l s.
  Lemma at_good bs b l k bs2 : f_blocks f = bs ++ (b, l) :: bs2 -> incl k l -> good (at_ bs b k).
  Proof.
    intros E K. unfold at_. assert (G : good (run bs)) by (apply run_good; [rewrite E; apply incl_appl, incl_refl|apply start_good]).
    destruct (mem _ _); [exact G|]. apply fold_good with l; [rewrite E; apply in_or_app; right; left; reflexivity|exact K|exact G].
  Qed.
  Lemma at_start bs b l : below (run bs) (at_ bs b l).
  Proof. unfold at_. destruct (mem _ _); [apply below_refl|apply fold_below]. Qed.
  Lemma at_more bs b l l' : below (at_ bs b l) (at_ bs b (l ++ l')).
  Proof. unfold at_. destruct (mem _ _); [apply below_refl|]. rewrite fold_left_app. apply fold_below. Qed.
  Lemma at_block bs b l l' x y : below (at_ bs b l) (at_ (bs ++ (b, l ++ l') :: x) y []).
  Proof.
    eapply below_trans; [|apply at_start]. rewrite fold_left_app. cbn [fold_left].
    eapply below_trans; [|apply run_below]. eapply below_trans; [apply (at_more bs b l l')|]. unfold at_, first_block. cbn [fst snd]. destruct (mem _ _); apply below_refl.
  Qed.

  Lemma by_operand bs b l1 i l2 bs2 v : f_blocks f = bs ++ (b, l1 ++ i :: l2) :: bs2 -> In v (i_ops i) -> depends_operand var (at_ bs b l1) v = true ->
    In (i_reg i) (dependent (at_ bs b (l1 ++ [i]))).
  Proof.
    intros E V D. assert (I : In (b, l1 ++ i :: l2) (f_blocks f)) by (rewrite E; apply in_or_app; right; left; reflexivity).
    assert (Db : is_debug i = false).
    { destruct (is_debug i) eqn:X; [|reflexivity]. rewrite (order_debug f O i) in V; [destruct V| |exact X]. eapply in_insts; [exact I|apply in_or_app; right; left; reflexivity]. }
    pose proof (at_good bs b _ l1 bs2 E (incl_appl _ (incl_refl _))) as G.
    unfold at_ in *. destruct (mem b (affected _)) eqn:M.
    - apply mem_In in M. apply (good_block _ G b); [exact M|]. rewrite (block_of _ _ I). apply in_or_app. right. left. reflexivity.
    - rewrite fold_left_app. cbn [fold_left]. set (s := fold_left _ l1 _) in *. unfold first_inst. rewrite Db. cbn [negb andb].
      replace (existsb (depends_operand var s) (i_ops i)) with true by (symmetry; apply existsb_exists; exists v; split; assumption). cbn [orb].
      assert (A : In (i_reg i) (dependent (add_dependent f (i_reg i) s))) by apply add_dependent_In.
      destruct (i_code i); try exact A.
      + destruct (op 1 i); try exact A. apply add_dependent_below. exact A.
      + apply add_all_below. exact A.
  Qed.

  Lemma at_located bs b l : located f (at_ bs b l).
  Proof.
    assert (F : forall k b s, located f s -> located f (fold_left (first b) k s)).
    { induction k as [|i k IH]; intros c s L; [exact L|]. cbn [fold_left]. apply IH, first_located; [apply (order_regs f O)|exact L]. }
    assert (G : forall bs s, located f s -> located f (fold_left (first_block reachable var f) bs s)).
    { induction bs0 as [|[c k] bs0 IH]; intros s L; [exact L|]. cbn [fold_left]. apply IH. unfold first_block. cbn [fst snd]. destruct (mem _ _); [exact L|apply F, L]. }
    assert (L : located f (run bs)) by (apply G; split; [reflexivity|intros c k i _ _ []]).
    unfold at_. destruct (mem _ _); [exact L|apply F, L].
  Qed.
  Lemma value_from_iff p v c : NoDup (map snd (incoming p)) -> In (v, c) (incoming p) -> value_from p c = Some v.
  Proof.
    intros D I. unfold value_from. destruct (find _ (incoming p)) as [[w c']|] eqn:E.
    - apply find_some in E as [J E]. cbn [snd] in E. apply Nat.eqb_eq in E. subst c'. f_equal.
      revert D I J. generalize (incoming p). induction l as [|[x y] l IH]; intros D I J; [destruct I|]. cbn [map snd] in D. apply NoDup_cons_iff in D as [D1 D2].
      destruct I as [I|I], J as [J|J]; [congruence| | |apply IH; assumption]; exfalso; apply D1; [injection I as -> ->; apply (in_map snd _ _ J)|injection J as -> ->; apply (in_map snd _ _ I)].
    - pose proof (find_none _ _ E _ I) as X. cbn [snd] in X. rewrite Nat.eqb_refl in X. discriminate.
  Qed.
  Lemma differ_iff (l : list (option value)) x y : In x l -> In y l -> x <> y -> values_differ l = true.
  Proof.
    intros I J D. destruct (values_differ l) eqn:E; [reflexivity|]. exfalso. apply D. unfold values_differ in E. destruct l as [|v l]; [destruct I|]. apply negb_false_iff in E. rewrite forallb_forall in E.
    assert (A : forall z, In z (v :: l) -> z = v) by (intros z [<-|Z]; [reflexivity|apply E in Z; destruct (PyBase.eqb_spec v z); [congruence|discriminate]]). rewrite (A x I), (A y J). reflexivity.
  Qed.
  Lemma by_values bs b l1 p l2 bs2 d1 d2 b1 b2 v1 v2 : f_blocks f = bs ++ (b, l1 ++ p :: l2) :: bs2 -> In (i_reg d1) (dependent (at_ bs b l1)) -> In (i_reg d2) (dependent (at_ bs b l1)) ->
    In d1 (block f b1) -> In d2 (block f b2) -> NoDup (map snd (incoming p)) -> In (v1, b1) (incoming p) -> In (v2, b2) (incoming p) -> v1 <> v2 ->
    In (i_reg p) (dependent (at_ bs b (l1 ++ [p]))).
  Proof.
    intros E D1 D2 I1 I2 ND V1 V2 D. assert (I : In (b, l1 ++ p :: l2) (f_blocks f)) by (rewrite E; apply in_or_app; right; left; reflexivity).
    assert (P : is_phi p = true) by (unfold is_phi; unfold incoming in V1; destruct (i_code p); try destruct V1; reflexivity).
    assert (Db : is_debug p = false) by (unfold is_debug; unfold is_phi in P; destruct (i_code p); try discriminate; reflexivity).
    pose proof (at_good bs b _ l1 bs2 E (incl_appl _ (incl_refl _))) as G.
    destruct (at_located bs b l1) as [_ L]. pose proof (L _ _ _ (of_block _ _ I1) I1 D1) as B1. pose proof (L _ _ _ (of_block _ _ I2) I2 D2) as B2. clear L.
    unfold at_ in *. destruct (mem b (affected _)) eqn:M.
    - apply mem_In in M. apply (good_block _ G b); [exact M|]. rewrite (block_of _ _ I). apply in_or_app. right. left. reflexivity.
    - rewrite fold_left_app. cbn [fold_left]. set (s := fold_left _ l1 _) in *. unfold first_inst. rewrite Db, P. cbn [negb andb].
      assert (Q : phi_dependent reachable f s p = true).
      { unfold phi_dependent. cbv zeta. apply orb_true_iff. left. apply differ_iff with (Some v1) (Some v2); [| |congruence].
        - rewrite <- (value_from_iff p v1 b1 ND V1). apply in_map. apply filter_In. split; [apply (in_map snd _ _ V1)|apply mem_In; exact B1].
        - rewrite <- (value_from_iff p v2 b2 ND V2). apply in_map. apply filter_In. split; [apply (in_map snd _ _ V2)|apply mem_In; exact B2]. }
      rewrite Q, orb_true_r. assert (A : In (i_reg p) (dependent (add_dependent f (i_reg p) s))) by apply add_dependent_In.
      unfold is_phi in P. destruct (i_code p); try discriminate P; exact A.
  Qed.

  Lemma later_at bs b l1 i l2 bs2 d : f_blocks f = bs ++ (b, l1 ++ i :: l2) :: bs2 -> later f d i ->
    exists x b' a c y, f_blocks f = x ++ (b', a ++ d :: c) :: y /\ below (at_ x b' (a ++ [d])) (at_ bs b l1).
  Proof.
    intros E (k1 & k2 & k3 & L).
    assert (F : insts f = (flat_map snd bs ++ l1) ++ i :: (l2 ++ flat_map snd bs2)).
    { unfold insts. rewrite E, flat_map_app. cbn [flat_map snd]. rewrite <- !app_assoc. reflexivity. }
    assert (In d (flat_map snd bs ++ l1)) as D.
    { assert (P : flat_map snd bs ++ l1 = k1 ++ d :: k2).
      { apply (unique_split i_reg _ (l2 ++ flat_map snd bs2) _ k3 i); [rewrite <- F; apply (order_regs f O)|]. rewrite <- F, L, <- app_assoc. reflexivity. }
      rewrite P. apply in_or_app. right. left. reflexivity. }
    apply in_app_or in D as [D|D].
    - apply insts_split in D as (x & b' & a & c & y & ->). exists x, b', a, c, (y ++ (b, l1 ++ i :: l2) :: bs2).
      split; [rewrite E, <- app_assoc; reflexivity|]. eapply below_trans; [apply (at_block x b' (a ++ [d]) c y b)|].
      replace ((a ++ [d]) ++ c) with (a ++ d :: c) by (rewrite <- app_assoc; reflexivity). apply (at_more _ b [] l1).
    - apply in_split in D as (a & c & ->). exists bs, b, a, (c ++ i :: l2), bs2. split; [rewrite E, <- app_assoc; reflexivity|].
      replace (a ++ d :: c) with ((a ++ [d]) ++ c) by (rewrite <- app_assoc; reflexivity). apply at_more.
  Qed.

  (** Blocks that are reached come later. *)
  Definition after (b c : nat) : Prop := exists l1 l l2, f_blocks f = l1 ++ (b, l) :: l2 /\ In c (dkeys l2).
  Lemma blocks_unique l1 b l l2 l1' l' l2' : f_blocks f = l1 ++ (b, l) :: l2 -> f_blocks f = l1' ++ (b, l') :: l2' -> l1 = l1' /\ l = l' /\ l2 = l2'.
  Proof.
    intros E E'. assert (X : l = l') by (rewrite <- (block_of b l), <- (block_of b l'); [reflexivity|rewrite E'|rewrite E]; apply in_or_app; right; left; reflexivity). subst l'.
    assert (P : l1 = l1').
    { apply (unique_split fst l1 l2 l1' l2' (b, l)); [|rewrite <- E; exact E']. rewrite <- E. apply (order_blocks f O). }
    split; [exact P|]. split; [reflexivity|]. subst l1'. rewrite E in E'. apply app_inv_head in E'. congruence.
  Qed.
  Lemma after_step b c d : b = c \/ after b c -> In d (next_blocks f c) -> In c (dkeys (f_blocks f)) -> after b d.
  Proof.
    intros H D K. apply in_map_iff in K as ([c' l] & Ec & K). cbn [fst] in Ec. subst c'. apply in_split in K as (k1 & k2 & K).
    pose proof (order_edges f O _ _ _ _ d K D) as T. destruct H as [->|(l1 & lb & l2 & E & C)]; [exists k1, l, k2; split; assumption|].
    exists l1, lb, l2. split; [exact E|]. apply in_map_iff in C as ([c' lc] & Ec & C). cbn [fst] in Ec. subst c'. apply in_split in C as (m1 & m2 & ->).
    destruct (blocks_unique k1 c l k2 (l1 ++ (b, lb) :: m1) lc m2) as (_ & _ & ->); [exact K|rewrite E, <- app_assoc; reflexivity|].
    unfold dkeys in *. rewrite map_app. cbn [map fst]. apply in_or_app. right. right. exact T.
  Qed.
  Lemma next_in b d : In d (next_blocks f b) -> In b (dkeys (f_blocks f)).
  Proof. intros H. destruct (in_dec Nat.eq_dec b (dkeys (f_blocks f))) as [K|K]; [exact K|]. change (next_blocks f b) with (targets f b) in H. rewrite (targets_none b K) in H. destruct H. Qed.
  Lemma path_after nx b c : path nx b c -> (forall x d, In d (nx x) -> In d (next_blocks f x)) -> b = c \/ after b c.
  Proof.
    intros P H. induction P as [b|b c d P IH D]; [left; reflexivity|]. right. apply after_step with c; [exact IH|apply H; exact D|eapply next_in; apply H; exact D].
  Qed.
  Lemma way_after b x c : In x (next_blocks f b) -> by_way f b x c -> after b c.
  Proof.
    intros X [Q P]. destruct (path_after _ b c P) as [->|A]; [|congruence|exact A].
    intros y d D. cbn beta in D. destruct (Nat.eqb_spec y b) as [->|_]; [destruct D as [<-|[]]; exact X|exact D].
  Qed.
  Lemma decides_after b c : decides f b c -> after b c.
  Proof.
    intros (l & t & x & y & H & C & S & _ & D).
    assert (E : next_blocks f b = [x; y]).
    { unfold next_blocks. rewrite (block_of _ _ H). unfold terminator. rewrite rev_app_distr. cbn [rev app]. unfold is_terminator. rewrite C. exact S. }
    destruct D as [[D _]|[D _]]; eapply way_after; try exact D; rewrite E; [left|right; left]; reflexivity.
  Qed.

  Lemma found i : depends_on var f i -> forall bs b l1 l2 bs2, f_blocks f = bs ++ (b, l1 ++ i :: l2) :: bs2 -> In (i_reg i) (dependent (at_ bs b (l1 ++ [i]))).
  Proof.
    induction 1 as [i I V|d i Dd IH I U|a l t c i Dt IH H De I|a l s p i Ds IH Cs H S ND P Pi La I U|p d1 d2 b1 b2 v1 v2 D1 IH1 D2 IH2 J1 J2 Ip L1 L2 ND V1 V2 D]; intros bs b l1 l2 bs2 E.
    - apply by_operand with l2 bs2 (VConst (CGlobal var)); [exact E|exact V|]. cbn [depends_operand]. apply String.eqb_refl.
    - assert (In d (insts f)) as Di.
      { clear - Dd. induction Dd as [| | b l t c i _ _ H _ I| |]; try assumption. apply in_flat_map. exists (c, block f c). split; [|exact I].
        unfold block in *. destruct (dget (f_blocks f) c) as [x|] eqn:X; [apply dget_In; exact X|destruct I]. }
      destruct (later_at bs b l1 i l2 bs2 d E (order_uses f O d i Di I U)) as (x & b' & k & c & y & E' & B).
      apply by_operand with l2 bs2 (VReg (i_reg d)); [exact E|exact U|]. cbn [depends_operand]. apply mem_In. apply B. apply (IH x b' k c y). exact E'.
    - destruct (decides_after a c De) as (k1 & la & k2 & Ea & Ck).
      assert (la = l ++ [t]) as -> by (rewrite <- (block_of a la), <- (block_of a (l ++ [t])); [reflexivity|exact H|rewrite Ea; apply in_or_app; right; left; reflexivity]).
      pose proof (IH k1 a l [] k2 Ea) as Dt'.
      pose proof (at_good k1 a (l ++ [t]) (l ++ [t]) k2 Ea (incl_refl _)) as G.
      assert (Ct : i_code t = Br).
      { destruct De as (l' & t' & x & y & H' & C' & _). pose proof (block_of _ _ H) as X. rewrite (block_of _ _ H') in X. apply app_inj_tail in X as [_ ->]. exact C'. }
      assert (Ac : In c (affected (at_ k1 a (l ++ [t])))).
      { destruct (good_branch _ G a (l ++ [t]) t H (last_In l t) Dt' Ct) as [K|K]; [|apply K; exact De].
        destruct (good_whole _ G a K) as (a0 & D0 & W0). apply W0. apply N with a; assumption. }
      assert (Eb : b = c).
      { destruct (one_block b (l1 ++ i :: l2) c (block f c) i i) as (_ & X & _); try reflexivity; try assumption; [rewrite E; apply in_or_app; right; left; reflexivity|apply in_or_app; right; left; reflexivity|apply of_block with i; exact I]. }
      subst c. apply in_map_iff in Ck as ([b' lb] & Eb & Ck). cbn [fst] in Eb. subst b'. apply in_split in Ck as (m1 & m2 & ->).
      destruct (blocks_unique bs b (l1 ++ i :: l2) bs2 (k1 ++ (a, l ++ [t]) :: m1) lb m2) as (-> & _ & _); [exact E|rewrite Ea, <- app_assoc; reflexivity|].
      assert (B : below (at_ k1 a (l ++ [t])) (at_ (k1 ++ (a, l ++ [t]) :: m1) b (l1 ++ [i]))).
      { pose proof (at_block k1 a (l ++ [t]) [] m1 b) as X. rewrite app_nil_r in X. eapply below_trans; [exact X|apply (at_more _ b [] (l1 ++ [i]))]. }
      apply (good_block _ (at_good _ b (l1 ++ i :: l2) (l1 ++ [i]) bs2 E ltac:(intros z Z; apply in_app_or in Z as [Z|[<-|[]]]; apply in_or_app; [left; exact Z|right; left; reflexivity])) b); [apply B; exact Ac|].
      rewrite (block_of b (l1 ++ i :: l2)); [apply in_or_app; right; left; reflexivity|rewrite E; apply in_or_app; right; left; reflexivity].
    - destruct (later_at bs b l1 i l2 bs2 s E La) as (x & b' & k & c & y & E' & B).
      pose proof (IH x b' k c y E') as D'.
      assert (G : good (at_ x b' (k ++ [s]))) by (apply (at_good x b' (k ++ s :: c) (k ++ [s]) y E'); intros z Z; apply in_app_or in Z as [Z|[<-|[]]]; apply in_or_app; [left; exact Z|right; left; reflexivity]).
      apply by_operand with l2 bs2 (VReg (i_reg p)); [exact E|exact U|]. cbn [depends_operand]. apply mem_In. apply B.
      destruct (good_store _ G a l s (i_reg p) H S D' Cs P) as [K|K]; [|exact K].
      destruct (good_whole _ G a K) as (a0 & D0 & _). destruct (ND a0 D0).
    - destruct (later_at bs b l1 p l2 bs2 d1 E L1) as (x & b' & k & c & y & E' & B). destruct (later_at bs b l1 p l2 bs2 d2 E L2) as (x2 & b2' & k2 & c2 & y2 & E2' & B').
      apply by_values with l2 bs2 d1 d2 b1 b2 v1 v2; try assumption; [apply B; apply (IH1 x b' k c y E')|apply B'; apply (IH2 x2 b2' k2 c2 y2 E2')].
  Qed.
  Lemma dependent_found i : depends_on var f i -> In i (insts f) -> In (i_reg i) (dependent (first_phase reachable var f)).
  Proof.
    intros D I. apply insts_split in I as (x & b & a & c & y & E). pose proof (found i D x b a c y E) as F.
    unfold first_phase. rewrite E. pose proof (at_block x b (a ++ [i]) c y 0) as B. unfold at_ in B at 2.
    replace ((a ++ [i]) ++ c) with (a ++ i :: c) in B by (rewrite <- app_assoc; reflexivity). cbn [fold_left] in B. destruct (mem _ _) in B; apply B; exact F.
  Qed.
End First.
