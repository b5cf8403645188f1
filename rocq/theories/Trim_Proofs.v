(** * What is left after the removal of blocks (proofs for Trim_Props) *)
From Coq Require Import String Ascii ZArith Arith Bool Lia List.
From Verif Require Import PyBase Funcomp_Model Funcomp_Spec Slice_Model Slice_Spec Slice_Whole Slice_Phi Trim_Model Trim_Spec Trim_Run.
Import ListNotations.
Open Scope list_scope.
Open Scope nat_scope.

(** ** Functions with fewer blocks *)

Definition shape (P : nat -> bool) (h : nat -> inst -> inst) (f : func) : func :=
  mkFunc (f_sig f) (f_args f) (map (fun kb => (fst kb, map (h (fst kb)) (snd kb))) (filter (fun kb => P (fst kb)) (f_blocks f))).
Lemma delete_shape D f : delete D f = shape (fun k => negb (D k)) (left_inst D f) f. Proof. reflexivity. Qed.
Lemma merge_shape b s f : merge b s f = shape (fun k => negb (Nat.eqb k b)) (moved b s (into f b)) f. Proof. reflexivity. Qed.

Section Shape.
  Variable P : nat -> bool.
  Variable h : nat -> inst -> inst.
  Variable f : func.
  Hypothesis HR : forall c i, i_reg (h c i) = i_reg i.
  Hypothesis HT : forall c i, is_terminator (h c i) = is_terminator i.
  Notation g := (shape P h f).

  Lemma shape_In b l' : In (b, l') (f_blocks g) <-> exists l, In (b, l) (f_blocks f) /\ P b = true /\ l' = map (h b) l.
  Proof using Type.
    unfold shape. cbn [f_blocks]. rewrite in_map_iff. split.
    - intros ([k l] & E & I). cbn [fst snd] in E. inversion E; subst. apply filter_In in I. cbn [fst] in I. exists l. tauto.
    - intros (l & I & Pb & ->). exists (b, l). split; [reflexivity|]. apply filter_In. auto.
  Qed.
  Lemma shape_keys : dkeys (f_blocks g) = filter P (dkeys (f_blocks f)).
  Proof using Type.
    unfold shape, dkeys. cbn [f_blocks]. rewrite map_map. cbn [fst]. induction (f_blocks f) as [|[k l] bs IH]; cbn [filter map fst]; [reflexivity|].
    destruct (P k); cbn [map fst]; rewrite IH; reflexivity.
  Qed.
  Lemma shape_block x : block g x = if P x then map (h x) (block f x) else [].
  Proof using Type.
    unfold block, shape. cbn [f_blocks]. rewrite (dget_map_key (fun k l => map (h k) l)), (dget_filter_key P). destruct (P x); [|reflexivity]. destruct (dget (f_blocks f) x); reflexivity.
  Qed.
  Lemma shape_regs : NoDup (map i_reg (insts f)) -> NoDup (map i_reg (insts g)).
  Proof using HR.
    unfold insts, shape. cbn [f_blocks]. induction (f_blocks f) as [|[k l] bs IH]; cbn [filter map flat_map fst snd]; [auto|]. rewrite map_app. intros N.
    assert (N' : NoDup (map i_reg (flat_map snd bs))) by (clear - N; induction (map i_reg l) as [|y x IHx]; [exact N|]; apply IHx; inversion N; auto).
    destruct (P k); cbn [map flat_map fst snd]; [|auto]. rewrite map_app, map_map.
    assert (E : map (fun i => i_reg (h k i)) l = map i_reg l) by (apply map_ext; intros; apply HR). rewrite E.
    assert (Sub : forall r, In r (map i_reg (flat_map snd (map (fun kb => (fst kb, map (h (fst kb)) (snd kb))) (filter (fun kb => P (fst kb)) bs)))) -> In r (map i_reg (flat_map snd bs))).
    { intros r R. apply in_map_iff in R. destruct R as (i' & <- & I). apply in_flat_map in I. destruct I as ([c l'] & I & J). apply in_map_iff in I. destruct I as ([c0 l0] & X & I). cbn [fst snd] in *. inversion X; subst. cbn [snd] in J.
      apply in_map_iff in J. destruct J as (i & <- & J). rewrite HR. apply in_map. apply filter_In in I. apply in_flat_map. exists (c, l0). split; [apply I|exact J]. }
    specialize (IH N'). clear E. induction (map i_reg l) as [|y x IHx]; cbn [app] in *; [exact IH|]. inversion N; subst. constructor; [|apply IHx; auto].
    intros H. apply in_app_iff in H. destruct H as [H|H]; [apply H1; apply in_app_iff; left; exact H|]. apply H1. apply in_app_iff. right. apply Sub. exact H.
  Qed.
  Lemma shape_ended : ended f -> ended g.
  Proof using HT.
    intros E b l1 i l2 I T. apply shape_In in I. destruct I as (l & I & _ & X). symmetry in X. apply map_eq_app in X. destruct X as (k1 & k2 & -> & <- & X). apply map_eq_cons in X.
    destruct X as (j & k3 & -> & <- & <-). rewrite HT in T. rewrite (E b k1 j k3 I T). reflexivity.
  Qed.
  Lemma shape_terminator x : terminator (block g x) = if P x then option_map (h x) (terminator (block f x)) else None.
  Proof using HT. rewrite shape_block. destruct (P x); [|reflexivity]. unfold terminator. rewrite <- map_rev. destruct (rev (block f x)) as [|i l]; cbn [map]; [reflexivity|]. rewrite HT. destruct (is_terminator i); reflexivity. Qed.
  Lemma shape_some : f_blocks f <> [] -> P (entry f) = true -> f_blocks g <> [] /\ entry g = entry f.
  Proof using Type.
    unfold shape, entry. cbn [f_blocks]. destruct (f_blocks f) as [|[k l] bs]; [congruence|]. intros _ E. cbn [filter fst]. rewrite E. cbn [map fst]. split; [discriminate|reflexivity].
  Qed.
  Lemma shape_insts i' : In i' (insts g) -> exists c i, In i (insts f) /\ i' = h c i /\ In i (block f c) /\ P c = true \/ exists c i, In i (insts f) /\ i' = h c i.
  Proof using Type.
    intros I. unfold insts in I. apply in_flat_map in I. destruct I as ([b l'] & I & J). apply shape_In in I. destruct I as (l & I & Pb & ->). cbn [snd] in J. apply in_map_iff in J. destruct J as (i & <- & J).
    exists b, i. right. exists b, i. split; [unfold insts; apply in_flat_map; exists (b, l); auto|reflexivity].
  Qed.
End Shape.

Lemma left_terminator D f c i : is_terminator (left_inst D f c i) = is_terminator i.
Proof.
  destruct (is_phi i) eqn:P; [|rewrite (left_other _ _ _ _ P); reflexivity]. destruct (left_is_phi D f c i) as (Q & _). rewrite P in Q. unfold is_phi in *. unfold is_terminator.
  destruct (i_code i); try discriminate. destruct (i_code (left_inst D f c i)); try discriminate. reflexivity.
Qed.
Lemma moved_terminator b s ps c i : is_terminator (moved b s ps c i) = is_terminator i.
Proof.
  destruct (is_phi i) eqn:P; [|rewrite (moved_other _ _ _ _ _ P); reflexivity]. destruct (moved_is_phi b s ps c i) as (Q & _). rewrite P in Q. unfold is_phi in *. unfold is_terminator.
  destruct (i_code i); try discriminate. destruct (i_code (moved b s ps c i)); try discriminate. reflexivity.
Qed.
Lemma delete_next D f x : next_blocks (delete D f) x = if D x then [] else next_blocks f x.
Proof.
  unfold next_blocks. rewrite delete_shape, shape_terminator by (intros; apply left_terminator). destruct (D x); cbn [negb]; [reflexivity|]. destruct (terminator (block f x)); cbn [option_map]; [apply left_successors|reflexivity].
Qed.
Lemma merge_next b s f x : next_blocks (merge b s f) x = if Nat.eqb x b then [] else map (redirect_to b s) (next_blocks f x).
Proof.
  unfold next_blocks. rewrite merge_shape, shape_terminator by (intros; apply moved_terminator). destruct (Nat.eqb x b); cbn [negb]; [reflexivity|]. destruct (terminator (block f x)); cbn [option_map map]; [apply moved_successors|reflexivity].
Qed.

(** ** Instructions stay the same *)

Definition op_ok (v v' : value) : Prop := v' = v \/ (exists b c, v = VBlock b /\ v' = VBlock c) \/ (exists r, v = VReg r) /\ v' = VConst (CGlobal "undef").
Lemma op_trans u v w : op_ok u v -> op_ok v w -> op_ok u w.
Proof.
  intros [-> |[(b & c & -> & ->)|((r & ->) & ->)]] H; [exact H| |].
  - destruct H as [-> |[(b' & c' & E & ->)|((r & E) & _)]]; [right; left; eauto|right; left; eauto|discriminate].
  - destruct H as [-> |[(b' & c' & E & ->)|((r' & E) & _)]]; [right; right; eauto|discriminate|discriminate].
Qed.
Lemma same_refl i : same_inst i i.
Proof. repeat split; auto. induction (i_ops i); constructor; [left; reflexivity|assumption]. Qed.
Lemma Forall2_trans {A} (R : A -> A -> Prop) : (forall x y z, R x y -> R y z -> R x z) -> forall l1 l2 l3, Forall2 R l1 l2 -> Forall2 R l2 l3 -> Forall2 R l1 l3.
Proof. intros T l1 l2 l3 H. revert l3. induction H; intros l3 H'; inversion H'; subst; constructor; eauto. Qed.
Lemma same_trans i j k : same_inst i j -> same_inst j k -> same_inst i k.
Proof.
  intros (A1 & A2 & A3 & A4) (B1 & B2 & B3 & B4). split; [congruence|]. split; [congruence|]. split; [congruence|]. intros N. destruct (A4 N) as (A5 & A6). rewrite A3 in B4. destruct (B4 N) as (B5 & B6).
  split; [congruence|]. exact (Forall2_trans op_ok op_trans _ _ _ A6 B6).
Qed.
Lemma Forall2_map {A} (R : A -> A -> Prop) h l : (forall x, In x l -> R x (h x)) -> Forall2 R l (map h l).
Proof. induction l as [|x l IH]; intros H; cbn [map]; constructor; [apply H; left; reflexivity|apply IH; intros y Y; apply H; right; exact Y]. Qed.
Lemma left_same D f c i : same_inst i (left_inst D f c i).
Proof.
  destruct (left_is_phi D f c i) as (P & Q & R). repeat (split; [assumption|]). intros N. rewrite (left_other _ _ _ _ N). split; [reflexivity|]. cbn [i_ops]. apply Forall2_map. intros v _.
  destruct v as [n|r|b|k]; cbn [left_value]; try (left; reflexivity). destruct (defined_in D f r); [right; right; eauto|left; reflexivity].
Qed.
Lemma moved_same b s ps c i : same_inst i (moved b s ps c i).
Proof.
  destruct (moved_is_phi b s ps c i) as (P & Q & R). repeat (split; [assumption|]). intros N. rewrite (moved_other _ _ _ _ _ N). split; [reflexivity|]. cbn [i_ops]. apply Forall2_map. intros v _.
  destruct v as [n|r|x|k]; cbn [redirected_value]; try (left; reflexivity). destruct (Nat.eqb x b); [right; left; eauto|left; reflexivity].
Qed.

(** ** What holds from the function to a later one *)

Definition complete (f : func) : Prop := forall p c i, In c (next_blocks f p) -> In i (block f c) -> is_phi i = true -> exists v, In (v, p) (incoming i).
Definition no_more (f : func) : Prop := forall p c i v, In i (block f c) -> is_phi i = true -> In (v, p) (incoming i) -> In c (next_blocks f p).
Record later_than (f g : func) : Prop := mkLater {
  lt_blocks : forall b l', In (b, l') (f_blocks g) -> exists l, In (b, l) (f_blocks f) /\ Forall2 same_inst l l';
  lt_complete : complete f -> complete g;
  lt_no_more : no_more f -> no_more g }.
Lemma later_refl f : later_than f f.
Proof. constructor; auto. intros b l H. exists l. split; [exact H|]. clear. induction l; constructor; [apply same_refl|assumption]. Qed.
Lemma later_trans f g h : later_than f g -> later_than g h -> later_than f h.
Proof.
  intros [A1 A2 A3] [B1 B2 B3]. constructor; auto. intros b l H. destruct (B1 b l H) as (l1 & H1 & E1). destruct (A1 b l1 H1) as (l2 & H2 & E2). exists l2. split; [exact H2|]. exact (Forall2_trans _ same_trans _ _ _ E2 E1).
Qed.
Lemma later_keys f g b : later_than f g -> In b (dkeys (f_blocks g)) -> In b (dkeys (f_blocks f)).
Proof. intros L H. unfold dkeys in *. apply in_map_iff in H. destruct H as ([k l] & <- & H). destruct (lt_blocks _ _ L _ _ H) as (l0 & I & _). apply in_map_iff. exists (k, l0). auto. Qed.

Definition closed (D : nat -> bool) (f : func) : Prop := forall x y, D x = false -> In y (next_blocks f x) -> D y = false.
Lemma delete_later D f : closed D f -> later_than f (delete D f).
Proof.
  intros C. constructor.
  - intros b l' H. rewrite delete_shape in H. apply shape_In in H. destruct H as (l & I & _ & ->). exists l. split; [exact I|]. apply Forall2_map. intros i _. apply left_same.
  - intros F p c i E I P. rewrite delete_next in E. destruct (D p) eqn:Dp; [destruct E|]. rewrite block_delete in I. destruct (D c) eqn:Dc; [destruct I|]. apply in_map_iff in I. destruct I as (j & <- & I).
    destruct (left_is_phi D f c j) as (Q & _). rewrite Q in P. destruct (F p c j E I P) as (v & V). rewrite (left_phi _ _ _ _ P). exists (left_value D f v). apply in_map_iff. exists (v, p). split; [reflexivity|]. apply filter_In. split; [exact V|]. cbn [snd]. rewrite Dp. reflexivity.
  - intros F p c i v I P V. rewrite block_delete in I. destruct (D c) eqn:Dc; [destruct I|]. apply in_map_iff in I. destruct I as (j & <- & I). destruct (left_is_phi D f c j) as (Q & _). rewrite Q in P.
    rewrite (left_phi _ _ _ _ P) in V. apply in_map_iff in V. destruct V as ([v0 p0] & E & V). cbn [fst snd] in E. inversion E; subst. apply filter_In in V. destruct V as (V & G). cbn [snd] in G.
    pose proof (F p c j v0 I P V) as N. rewrite delete_next. destruct (D p); [|exact N]. rewrite targets_next, (proj2 (mem_In c _) N) in G. discriminate.
Qed.

Lemma emptied_delete inc D f : emptied inc f -> closed D f -> D (entry f) = false -> emptied inc (delete D f) /\ entry (delete D f) = entry f.
Proof.
  intros [E1 E2 E3 E4 E5 E6 E7 E8] C De. destruct (shape_some (fun k => negb (D k)) (left_inst D f) f E3) as (S1 & S2); [rewrite De; reflexivity|]. rewrite <- delete_shape in S1, S2. split; [|exact S2]. constructor.
  - rewrite delete_shape. apply shape_regs; [|exact E1]. intros c i. apply (left_is_phi D f c i).
  - rewrite delete_shape, shape_keys. apply NoDup_filter. exact E2.
  - exact S1.
  - rewrite delete_shape. apply shape_ended; [|exact E4]. intros c i. apply left_terminator.
  - intros b. rewrite S2, delete_next. destruct (D b); [auto|apply E5].
  - exact (lt_complete _ _ (delete_later D f C) E6).
  - intros b l' H N. rewrite delete_shape in H. apply shape_In in H. destruct H as (l & I & _ & ->). destruct (E7 b l I N) as (t & -> & T). exists (left_inst D f b t). split; [reflexivity|]. rewrite left_terminator. exact T.
  - intros i' t I Su. unfold insts in I. apply in_flat_map in I. destruct I as ([b l'] & I & J). rewrite delete_shape in I. apply shape_In in I. destruct I as (l & I & _ & ->). cbn [snd] in J. apply in_map_iff in J. destruct J as (i & <- & J).
    rewrite left_successors in Su. destruct (E8 i t) as (K1 & K2); [unfold insts; apply in_flat_map; exists (b, l); auto|exact Su|].
    assert (P : is_phi i = false) by (unfold is_phi; rewrite K1; reflexivity). rewrite (left_other _ _ _ _ P). cbn [i_code i_ops]. rewrite K1, K2. split; reflexivity.
Qed.

(** ** One block goes *)

Section Merge.
  Variable inc : list nat.
  Variable f : func.
  Variables b s : nat.
  Hypothesis EM : emptied inc f.
  Hypothesis NI : ~ In b inc.
  Hypothesis NE : b <> entry f.
  Hypothesis TG : next_blocks f b = [s].
  Hypothesis BS : s <> b.
  Notation g := (merge b s f).

  Lemma merge_block : exists t, block f b = [t] /\ i_code t = Br /\ i_ops t = [VBlock s].
  Proof using EM NI TG.
    assert (T := TG). unfold next_blocks in T. destruct (terminator (block f b)) as [t|] eqn:E; [|discriminate]. destruct (terminator_last _ _ E) as (k & K & Tt).
    assert (I : In t (block f b)) by (rewrite K; apply in_app_iff; right; left; reflexivity). destruct (em_empty _ _ EM b (block f b) (in_block f b t I) NI) as (t' & B & _).
    rewrite B in E, I. destruct I as [-> |[]]. exists t. split; [exact B|]. apply (em_jumps _ _ EM t s); [|exact T]. apply (in_flat_map snd). exists (b, block f b). split; [apply (in_block f b t); rewrite B; left; reflexivity|rewrite B; left; reflexivity].
  Qed.
  Lemma merge_later : later_than f g.
  Proof using EM TG BS.
    constructor.
    - intros c l' H. rewrite merge_shape in H. apply shape_In in H. destruct H as (l & I & _ & ->). exists l. split; [exact I|]. apply Forall2_map. intros i _. apply moved_same.
    - intros F p c i E I P. rewrite merge_next in E. destruct (Nat.eqb_spec p b) as [-> | Np]; [destruct E|]. rewrite block_merge in I. destruct (Nat.eqb_spec c b) as [-> | Nc]; [destruct I|]. apply in_map_iff in I. destruct I as (j & <- & I).
      destruct (moved_is_phi b s (into f b) c j) as (Q & _). rewrite Q in P. rewrite (moved_phi _ _ _ _ _ P). apply in_map_iff in E. destruct E as (y & R & E). unfold redirect_to in R. destruct (Nat.eqb_spec y b) as [Ey|Ny]; [rewrite Ey in *; clear Ey|].
      + subst c. rewrite Nat.eqb_refl. destruct (F b s j) as (v & V); auto; [rewrite TG; left; reflexivity|]. unfold value_from. destruct (find (fun e => Nat.eqb (snd e) b) (incoming j)) as [[v' k]|] eqn:Fd.
        * exists v'. apply in_app_iff. right. apply in_map. apply into_iff; [apply (em_blocks _ _ EM)|exact E].
        * eapply find_none in Fd; [|exact V]. cbn [snd] in Fd. rewrite Nat.eqb_refl in Fd. discriminate.
      + subst y. destruct (F p c j E I P) as (v & V). exists v. destruct (Nat.eqb c s); [|exact V]. apply in_app_iff. left. apply filter_In. split; [exact V|]. cbn [snd]. destruct (Nat.eqb_spec p b); [contradiction|reflexivity].
    - intros F p c i v I P V. rewrite block_merge in I. destruct (Nat.eqb_spec c b) as [-> | Nc]; [destruct I|]. apply in_map_iff in I. destruct I as (j & <- & I). destruct (moved_is_phi b s (into f b) c j) as (Q & _). rewrite Q in P.
      rewrite (moved_phi _ _ _ _ _ P) in V. rewrite merge_next.
      assert (Dir : In (v, p) (incoming j) -> p <> b -> In c (if Nat.eqb p b then [] else map (redirect_to b s) (next_blocks f p))).
      { intros V' Np. destruct (Nat.eqb_spec p b); [contradiction|]. apply in_map_iff. exists c. split; [unfold redirect_to; destruct (Nat.eqb_spec c b); [contradiction|reflexivity]|]. apply (F p c j v); auto. }
      destruct (Nat.eqb_spec c s) as [-> | Ns].
      + apply in_app_iff in V. destruct V as [V|V].
        * apply filter_In in V. cbn [snd] in V. destruct V as (V & N). apply Dir; [exact V|]. destruct (Nat.eqb_spec p b); [discriminate|assumption].
        * destruct (value_from j b) as [v'|]; [|destruct V]. apply in_map_iff in V. destruct V as (q & E & V). inversion E; subst. apply into_iff in V; [|apply (em_blocks _ _ EM)].
          destruct (Nat.eqb_spec p b) as [-> | Np]; [rewrite TG in V; destruct V as [V|[]]; subst; contradiction|]. apply in_map_iff. exists b. split; [unfold redirect_to; rewrite Nat.eqb_refl; reflexivity|exact V].
      + apply Dir; [exact V|]. intros ->. pose proof (F b c j v I P V) as X. rewrite TG in X. destruct X as [X|[]]. congruence.
  Qed.
  Lemma merge_emptied : emptied inc g /\ entry g = entry f.
  Proof using All.
    pose proof merge_later as L. destruct EM as [E1 E2 E3 E4 E5 E6 E7 E8].
    destruct (shape_some (fun k => negb (Nat.eqb k b)) (moved b s (into f b)) f E3) as (S1 & S2); [destruct (Nat.eqb_spec (entry f) b); [congruence|reflexivity]|]. rewrite <- merge_shape in S1, S2. split; [|exact S2]. constructor.
    - rewrite merge_shape. apply shape_regs; [|exact E1]. intros c i. apply (moved_is_phi b s (into f b) c i).
    - rewrite merge_shape, shape_keys. apply NoDup_filter. exact E2.
    - exact S1.
    - rewrite merge_shape. apply shape_ended; [|exact E4]. intros c i. apply moved_terminator.
    - intros x. rewrite S2, merge_next. destruct (Nat.eqb x b); [auto|]. intros H. apply in_map_iff in H. destruct H as (y & R & H). unfold redirect_to in R. destruct (Nat.eqb_spec y b) as [Ey|Ny]; [rewrite Ey in *; clear Ey|].
      + subst s. apply (E5 b). rewrite TG. left. reflexivity.
      + subst y. exact (E5 x H).
    - exact (lt_complete _ _ L E6).
    - intros x l' H N. rewrite merge_shape in H. apply shape_In in H. destruct H as (l & I & _ & ->). destruct (E7 x l I N) as (t & -> & T). exists (moved b s (into f b) x t). split; [reflexivity|]. rewrite moved_terminator. exact T.
    - intros i' t I Su. unfold insts in I. apply in_flat_map in I. destruct I as ([x l'] & I & J). rewrite merge_shape in I. apply shape_In in I. destruct I as (l & I & _ & ->). cbn [snd] in J. apply in_map_iff in J. destruct J as (i & <- & J).
      rewrite moved_successors in Su. destruct (successors i) as [|t0 [|? ?]] eqn:Si; try discriminate. inversion Su; subst t. destruct (E8 i t0) as (K1 & K2); [unfold insts; apply in_flat_map; exists (x, l); auto|exact Si|].
      assert (P : is_phi i = false) by (unfold is_phi; rewrite K1; reflexivity). rewrite (moved_other _ _ _ _ _ P). cbn [i_code i_ops]. rewrite K1, K2. split; [reflexivity|]. cbn [map redirected_value]. unfold redirect_to. destruct (Nat.eqb t0 b); reflexivity.
  Qed.
  Lemma merge_goes x y : goes_on inc f x y -> y <> b -> (x <> b -> goes_on inc g x y) /\ (x = b -> ~ In s inc /\ goes_on inc g s y).
  Proof using TG BS.
    intros H Ny. induction H as [x|x t y N1 N2 E H IH].
    - split; [intros _; constructor|contradiction].
    - destruct (IH Ny) as (IH1 & IH2). split.
      + intros Nx. destruct (Nat.eqb_spec t b) as [-> | Nt].
        * destruct (IH2 eq_refl) as (Ns & G). apply (goes_step inc g x s y); auto. rewrite merge_next. destruct (Nat.eqb_spec x b); [contradiction|]. rewrite E. cbn [map]. unfold redirect_to. rewrite Nat.eqb_refl. reflexivity.
        * apply (goes_step inc g x t y); auto. rewrite merge_next. destruct (Nat.eqb_spec x b); [contradiction|]. rewrite E. cbn [map]. unfold redirect_to. destruct (Nat.eqb_spec t b); [contradiction|reflexivity].
      + intros ->. rewrite TG in E. inversion E; subst t. split; [exact N2|]. apply IH1. exact BS.
  Qed.
  Lemma merge_path c : path (next_blocks f) (entry f) c -> path (next_blocks g) (entry f) (redirect_to b s c).
  Proof using TG BS NE.
    intros H. remember (entry f) as e eqn:Ee. induction H as [x|x c d H IH D]; subst x.
    - unfold redirect_to. destruct (Nat.eqb_spec (entry f) b); [congruence|constructor].
    - specialize (IH eq_refl NE). unfold redirect_to in IH at 1. destruct (Nat.eqb_spec c b) as [-> | Nc].
      + rewrite TG in D. destruct D as [<- |[]]. unfold redirect_to. destruct (Nat.eqb_spec s b); [contradiction|exact IH].
      + apply (path_step _ _ c); [exact IH|]. rewrite merge_next. destruct (Nat.eqb_spec c b); [contradiction|]. apply in_map. exact D.
  Qed.
End Merge.

(** ** The steps until the first block *)

Definition behaves (f g : func) : Prop := forall S cs args, plain_jumps S cs -> forall m o, ends_with S cs args f m o <-> ends_with S cs args g m o.
Record trimmed (inc : list nat) (f g : func) : Prop := mkTrimmed {
  tr_emptied : emptied inc f -> emptied inc g;
  tr_entry : entry g = entry f;
  tr_later : later_than f g;
  tr_behaves : behaves f g;
  tr_kept : forall b, In b inc -> In b (dkeys (f_blocks f)) -> In b (dkeys (f_blocks g));
  tr_goes : forall x y, In x (dkeys (f_blocks g)) -> In y (dkeys (f_blocks g)) -> goes_on inc f x y -> goes_on inc g x y;
  tr_path : forall c, In c (dkeys (f_blocks g)) -> path (next_blocks f) (entry f) c -> path (next_blocks g) (entry f) c }.
Lemma trimmed_refl inc f : trimmed inc f f.
Proof. constructor; auto. apply later_refl. intros S cs args _ m o. tauto. Qed.
Lemma trimmed_trans inc f g h : trimmed inc f g -> trimmed inc g h -> trimmed inc f h.
Proof.
  intros [A1 A2 A3 A4 A5 A6 A7] [B1 B2 B3 B4 B5 B6 B7]. constructor; auto.
  - congruence.
  - exact (later_trans _ _ _ A3 B3).
  - intros S cs args P m o. rewrite (A4 S cs args P). apply B4. exact P.
  - intros x y X Y G. apply B6; auto. apply A6; auto; apply (later_keys _ _ _ B3); assumption.
  - intros c C H. rewrite <- A2. apply B7; [exact C|]. rewrite A2. apply A7; [apply (later_keys _ _ _ B3 C)|exact H].
Qed.

Lemma rel_refl S : rel S (fun _ => false) (fun _ => undef S) (fun _ => undef S). Proof. split; [reflexivity|discriminate]. Qed.
Lemma delete_behaves inc D f : emptied inc f -> closed D f -> D (entry f) = false -> behaves f (delete D f).
Proof.
  intros E C De S cs args P m o. destruct (emptied_delete inc D f E C De) as (_ & En). unfold ends_with, result. rewrite En.
  assert (X : forall n, run S cs args f n (fun _ => undef S) m None (entry f) = run S cs args (delete D f) n (fun _ => undef S) m None (entry f)).
  { intros n. apply run_delete; auto; [apply (em_regs _ _ E)|apply (em_ended _ _ E)|apply (undef_const _ _ P)|split; auto|discriminate]. }
  split; intros (O & n & H); split; auto; exists n; [rewrite <- X|rewrite X]; exact H.
Qed.
Lemma no_predecessor_iff f b : NoDup (dkeys (f_blocks f)) -> no_predecessor f b = true <-> forall p, ~ In b (next_blocks f p).
Proof.
  intros N. unfold no_predecessor. split.
  - intros H p I. apply (into_iff f b p N) in I. destruct (into f b); [destruct I|discriminate].
  - intros H. destruct (into f b) as [|p l] eqn:E; [reflexivity|]. destruct (H p). apply (into_iff f b p N). rewrite E. left. reflexivity.
Qed.
Lemma clear_trimmed inc f b : emptied inc f -> b <> entry f -> trimmed inc f (clear_one inc f b).
Proof.
  intros E N. unfold clear_one. destruct (mem b inc) eqn:M; cbn [negb andb]; [apply trimmed_refl|]. destruct (no_predecessor f b) eqn:NP; [|apply trimmed_refl].
  apply mem_not_In in M. rewrite (no_predecessor_iff f b (em_blocks _ _ E)) in NP.
  assert (C : closed (Nat.eqb b) f) by (intros x y _ Y; destruct (Nat.eqb_spec b y) as [-> | _]; [destruct (NP _ Y)|reflexivity]).
  assert (De : Nat.eqb b (entry f) = false) by (apply Nat.eqb_neq; exact N). destruct (emptied_delete inc _ f E C De) as (E' & En).
  assert (K : forall x, In x (dkeys (f_blocks (delete (Nat.eqb b) f))) <-> In x (dkeys (f_blocks f)) /\ x <> b).
  { intros x. rewrite delete_shape, shape_keys, filter_In, negb_true_iff, Nat.eqb_neq. split; intros (A & B); split; auto. }
  constructor; auto.
  - apply delete_later. exact C.
  - apply (delete_behaves inc); auto.
  - intros x I Kx. apply K. split; [exact Kx|]. intros ->. contradiction.
  - intros x y Kx _ G. apply K in Kx. destruct Kx as (_ & Nx). induction G as [x|x t y N1 N2 T G IH]; [constructor|]. apply (goes_step inc _ x t y); auto.
    + rewrite delete_next. destruct (Nat.eqb_spec b x); [congruence|exact T].
    + apply IH. intros ->. apply (NP x). rewrite T. left. reflexivity.
  - intros c _ H. remember (entry f) as e eqn:Ee. induction H as [x|x c d H IH D]; [constructor|]. apply (path_step _ _ c); [auto|]. rewrite delete_next. destruct (Nat.eqb_spec b c) as [<- | _]; [|exact D].
    exfalso. inversion H; subst; [congruence|]. eapply NP. eassumption.
Qed.
Lemma merge_trimmed inc f b : emptied inc f -> b <> entry f -> trimmed inc f (merge_one inc f b).
Proof.
  intros E N. unfold merge_one. destruct (mem b inc) eqn:M; [apply trimmed_refl|]. apply mem_not_In in M. rewrite targets_next. destruct (next_blocks f b) as [|s [|? ?]] eqn:T; try apply trimmed_refl.
  destruct (can_remove f b s) eqn:CR; cbn [andb]; [|apply trimmed_refl]. destruct (Nat.eqb_spec s b) as [-> | BS]; cbn [negb]; [apply trimmed_refl|].
  destruct (merge_emptied inc f b s E M N T BS) as (E' & En). destruct (merge_block inc f b s E M T) as (t & B & Tt).
  assert (K : forall x, In x (dkeys (f_blocks (merge b s f))) <-> In x (dkeys (f_blocks f)) /\ x <> b).
  { intros x. rewrite merge_shape, shape_keys, filter_In, negb_true_iff, Nat.eqb_neq. reflexivity. }
  constructor; auto.
  - apply (merge_later inc); auto.
  - intros S cs args P m o. unfold ends_with, result. rewrite En. assert (Tg : together f b s None None (entry f)) by (split; auto).
    split; intros (O & n & H); split; auto.
    + eapply (run_merge_to S cs args f b s t (em_blocks _ _ E) (em_ended _ _ E) B Tt BS CR (em_phis _ _ E) (jump_first _ _ P)); eauto. apply rel_refl.
    + eapply (run_merge_from S cs args f b s t (em_blocks _ _ E) (em_ended _ _ E) B Tt BS CR (em_phis _ _ E) (jump_first _ _ P)); eauto. apply rel_refl.
  - intros x I Kx. apply K. split; [exact Kx|]. intros ->. contradiction.
  - intros x y Kx Ky G. apply K in Kx, Ky. destruct (merge_goes inc f b s T BS x y G (proj2 Ky)) as (A & _). apply A. apply Kx.
  - intros c Kc H. apply K in Kc. pose proof (merge_path f b s N T BS c H) as X. unfold redirect_to in X. destruct (Nat.eqb_spec c b); [destruct Kc; contradiction|exact X].
Qed.
Lemma fold_trimmed inc (st : func -> nat -> func) e : (forall f b, emptied inc f -> b <> entry f -> trimmed inc f (st f b)) ->
  forall l f, emptied inc f -> entry f = e -> ~ In e l -> trimmed inc f (fold_left st l f).
Proof.
  intros H l. induction l as [|b l IH]; intros f E En N; cbn [fold_left]; [apply trimmed_refl|].
  assert (T : trimmed inc f (st f b)) by (apply H; [exact E|intros ->; apply N; left; congruence]).
  apply (trimmed_trans inc f (st f b)); [exact T|]. apply IH; [apply (tr_emptied _ _ _ T E)|rewrite (tr_entry _ _ _ T); exact En|intros X; apply N; right; exact X].
Qed.
Lemma entry_not_tail f : NoDup (dkeys (f_blocks f)) -> f_blocks f <> [] -> ~ In (entry f) (tl (dkeys (f_blocks f))).
Proof. unfold entry, dkeys. destruct (f_blocks f) as [|[k l] bs]; [congruence|]. cbn [map fst tl]. intros N _. inversion N; auto. Qed.
Lemma first_steps inc f : emptied inc f -> trimmed inc f (merge_empty inc (clear_dead inc f)).
Proof.
  intros E. assert (A : trimmed inc f (clear_dead inc f)).
  { unfold clear_dead. apply (fold_trimmed inc (clear_one inc) (entry f)); auto; [intros; apply clear_trimmed; auto|]. apply entry_not_tail; [apply (em_blocks _ _ E)|apply (em_some _ _ E)]. }
  apply (trimmed_trans inc f (clear_dead inc f)); [exact A|]. pose proof (tr_emptied _ _ _ A E) as E'. unfold merge_empty.
  apply (fold_trimmed inc (merge_one inc) (entry (clear_dead inc f))); auto; [intros; apply merge_trimmed; auto|]. apply entry_not_tail; [apply (em_blocks _ _ E')|apply (em_some _ _ E')].
Qed.
