(** * Proofs about graph traversal *)
From Coq Require Import String Ascii ZArith Arith Bool Lia List Permutation.
From Verif Require Import PyBase Result_Model Graph_Model Graph_Spec.
Import ListNotations.
Open Scope list_scope.

Lemma has_ext_endswith f x : endswith f x = true <-> has_ext f x.
Proof. apply endswith_spec. Qed.

(** ** The breadth-first loop terminates *)
Section BfsTerm.
  Context {A : Type} (body : list vid -> vid -> A -> res (list vid * A)) (U : list vid).
  Hypothesis body_push : forall vis c acc pushed acc',
    body vis c acc = Ok (pushed, acc') -> forall x, In x pushed -> In x U /\ ~ In x vis.

  Definition unvisited (vis : list vid) : nat := length (filter (fun x => negb (mem x vis)) U).
  Fixpoint seen_prefix (vis q : list vid) : nat :=
    match q with
    | [] => 0
    | x :: q' => if mem x vis then S (seen_prefix vis q') else 0
    end.

  Lemma seen_prefix_app vis q p :
    (forall x, In x p -> ~ In x vis) -> seen_prefix vis (q ++ p) = seen_prefix vis q.
  Proof.
    intros N. induction q as [|x q IH]; simpl.
    - destruct p as [|y p]; simpl; [reflexivity|].
      destruct (mem y vis) eqn:E; [|reflexivity].
      apply mem_In in E. destruct (N y (or_introl eq_refl) E).
    - rewrite IH. reflexivity.
  Qed.

  Lemma filter_length_le {B} (P Q : B -> bool) l :
    (forall x, P x = true -> Q x = true) -> length (filter P l) <= length (filter Q l).
  Proof.
    intros I. induction l as [|x l IH]; simpl; [lia|].
    specialize (I x). destruct (P x), (Q x); simpl; try lia; specialize (I eq_refl); discriminate.
  Qed.
  Lemma filter_length_lt {B} (P Q : B -> bool) l x :
    (forall x, P x = true -> Q x = true) -> In x l -> P x = false -> Q x = true ->
    length (filter P l) < length (filter Q l).
  Proof.
    intros I IN HP HQ. induction l as [|y l IH]; simpl in *; [tauto|].
    destruct IN as [->|IN].
    - rewrite HP, HQ. simpl. pose proof (filter_length_le P Q l I). lia.
    - specialize (IH IN). pose proof (I y). destruct (P y), (Q y); simpl; try lia; specialize (H eq_refl); discriminate.
  Qed.

  Lemma unvisited_decreases vis c :
    In c U -> ~ In c vis -> unvisited (set_add c vis) < unvisited vis.
  Proof.
    intros IU NV. unfold unvisited.
    apply (filter_length_lt _ _ U c); auto.
    - intros x H. apply negb_true_iff, mem_not_In in H. apply negb_true_iff, mem_not_In.
      intros C. apply H. apply set_add_In. auto.
    - apply negb_false_iff, mem_In, set_add_In. auto.
    - apply negb_true_iff, mem_not_In. exact NV.
  Qed.

  Lemma bfs_term_aux : forall u p queue vis acc,
    unvisited vis <= u -> seen_prefix vis queue <= p -> incl queue U ->
    exists n r, bfs body n queue vis acc = Some r.
  Proof.
    induction u as [u IHu] using lt_wf_ind.
    induction p as [p IHp] using lt_wf_ind.
    intros queue vis acc Hu Hp HU.
    destruct queue as [|c q].
    - exists 1, (Ok acc). reflexivity.
    - destruct (body (set_add c vis) c acc) as [[pushed acc']|e] eqn:B.
      2:{ exists 1, (Err e). simpl. rewrite B. reflexivity. }
      assert (HU' : incl (q ++ pushed) U).
      { intros x Hx. apply in_app_iff in Hx. destruct Hx as [Hx|Hx].
        - apply HU. right. exact Hx.
        - eapply body_push; eauto. }
      assert (Hnew : forall x, In x pushed -> ~ In x (set_add c vis)).
      { intros x Hx. eapply body_push; eauto. }
      destruct (mem c vis) eqn:M.
      + assert (E : set_add c vis = vis) by (unfold set_add; rewrite M; reflexivity).
        assert (P : seen_prefix vis (c :: q) = S (seen_prefix vis q)) by (simpl; rewrite M; reflexivity).
        destruct (IHp (seen_prefix vis (q ++ pushed))) with (queue := q ++ pushed) (vis := set_add c vis) (acc := acc')
          as (n & r & R); auto.
        * rewrite seen_prefix_app; [|rewrite <- E; exact Hnew]. lia.
        * rewrite E. exact Hu.
        * rewrite E. lia.
        * exists (S n), r. simpl. rewrite B. exact R.
      + apply mem_not_In in M.
        pose proof (unvisited_decreases vis c (HU c (or_introl eq_refl)) M) as D.
        destruct (IHu (unvisited (set_add c vis))) with
          (p := seen_prefix (set_add c vis) (q ++ pushed))
          (queue := q ++ pushed) (vis := set_add c vis) (acc := acc')
          as (n & r & R); auto; try lia.
        exists (S n), r. simpl. rewrite B. exact R.
  Qed.

  Lemma bfs_mono : forall n m queue vis acc r,
    n <= m -> bfs body n queue vis acc = Some r -> bfs body m queue vis acc = Some r.
  Proof.
    induction n as [|n IH]; intros m queue vis acc r L H; [discriminate|].
    destruct m as [|m]; [lia|]. simpl in *.
    destruct queue as [|c q]; [exact H|].
    destruct (body (set_add c vis) c acc) as [[pushed acc']|e]; [|exact H].
    apply IH; [lia|exact H].
  Qed.

  Lemma bfs_terminates queue vis acc :
    incl queue U -> terminates (fun n => bfs body n queue vis acc).
  Proof.
    intros HU. destruct (bfs_term_aux _ _ queue vis acc (Nat.le_refl _) (Nat.le_refl _) HU)
      as (n & r & R).
    exists r, n. intros m L. eapply bfs_mono; eauto.
  Qed.
End BfsTerm.

(** Invariant rule for the loop. *)
Lemma bfs_invariant {A} (body : list vid -> vid -> A -> res (list vid * A))
      (I : list vid -> list vid -> A -> Prop) :
  (forall c q vis acc pushed acc',
     I (c :: q) vis acc -> body (set_add c vis) c acc = Ok (pushed, acc') ->
     I (q ++ pushed) (set_add c vis) acc') ->
  forall n queue vis acc acc',
    I queue vis acc -> bfs body n queue vis acc = Some (Ok acc') ->
    exists vis', I [] vis' acc'.
Proof.
  intros step. induction n as [|n IH]; intros queue vis acc acc' H R; [discriminate|].
  simpl in R. destruct queue as [|c q].
  - injection R as <-. eauto.
  - destruct (body (set_add c vis) c acc) as [[pushed acc1]|e] eqn:B; [|discriminate].
    eapply IH; [|exact R]. eapply step; eauto.
Qed.

Lemma bfs_invariant_err {A} (body : list vid -> vid -> A -> res (list vid * A))
      (I : list vid -> list vid -> A -> Prop) (E : exn -> Prop) :
  (forall c q vis acc pushed acc',
     I (c :: q) vis acc -> body (set_add c vis) c acc = Ok (pushed, acc') ->
     I (q ++ pushed) (set_add c vis) acc') ->
  (forall c q vis acc e, I (c :: q) vis acc -> body (set_add c vis) c acc = Err e -> E e) ->
  forall n queue vis acc e,
    I queue vis acc -> bfs body n queue vis acc = Some (Err e) -> E e.
Proof.
  intros step serr. induction n as [|n IH]; intros queue vis acc e H R; [discriminate|].
  simpl in R. destruct queue as [|c q]; [discriminate|].
  destruct (body (set_add c vis) c acc) as [[pushed acc1]|e1] eqn:B.
  - eapply IH; [|exact R]. eapply step; eauto.
  - injection R as <-. eapply serr; eauto.
Qed.

(** ** The traversal [reachable_from] *)
Section Reach.
  Variables (h : heap) (g : graph) (s : side) (start : vid).

  Definition rbody := fun visited current acc =>
    scan_edges h g s start visited current (sel s (v_succ (h current))) acc.

  Lemma dep_eqb_weak k : dep_eqb k WEAK = true <-> k = WEAK.
  Proof. destruct k; simpl; split; congruence. Qed.

  (** One edge-scan step in relational form. *)
  Lemma scan_spec vis c : forall es acc pushed acc',
    scan_edges h g s start vis c es acc = Ok (pushed, acc') ->
    (forall t, In t pushed <->
               exists e, In e es /\ dget (g_verts g) (e_target e) = Some t /\ ~ In t vis /\
                         enterable h s start t) /\
    (* result *)
    (exists added, ra_result acc' = ra_result acc ++ added /\
       forall t, In t added <-> exists e, In e es /\ dget (g_verts g) (e_target e) = Some t /\
                                  ~ In t vis /\ enterable h s start t /\ e_kind e = STRONG) /\
    (* backtracking map *)
    (exists added, ra_back acc' = ra_back acc ++ added /\
       (forall t pe, In (t, pe) added ->
          exists e, pe = (c, e) /\ In e es /\ dget (g_verts g) (e_target e) = Some t /\
                    ~ In t vis /\ enterable h s start t /\ dget (ra_back acc) t = None) /\
       (forall t, In t pushed -> In t (dkeys (ra_back acc')))) .
  Proof.
    induction es as [|e es IH]; intros acc pushed acc' H; cbn [scan_edges] in H.
    - injection H as <- <-. repeat split.
      + intros [].
      + intros (e & [] & _).
      + exists []. rewrite app_nil_r. split; [reflexivity|]. intros t. split; [intros []|intros (e & [] & _)].
      + exists []. rewrite app_nil_r. repeat split; intros; [contradiction|contradiction].
    - assert (skip : scan_edges h g s start vis c es acc = Ok (pushed, acc') ->
                (forall t, dget (g_verts g) (e_target e) = Some t -> ~ In t vis ->
                           enterable h s start t -> False) ->
          (forall t, In t pushed <->
               exists e', In e' (e :: es) /\ dget (g_verts g) (e_target e') = Some t /\ ~ In t vis /\
                         enterable h s start t) /\
          (exists added, ra_result acc' = ra_result acc ++ added /\
             forall t, In t added <-> exists e', In e' (e :: es) /\ dget (g_verts g) (e_target e') = Some t /\
                                  ~ In t vis /\ enterable h s start t /\ e_kind e' = STRONG) /\
          (exists added, ra_back acc' = ra_back acc ++ added /\
             (forall t pe, In (t, pe) added ->
                exists e', pe = (c, e') /\ In e' (e :: es) /\ dget (g_verts g) (e_target e') = Some t /\
                    ~ In t vis /\ enterable h s start t /\ dget (ra_back acc) t = None) /\
             (forall t, In t pushed -> In t (dkeys (ra_back acc'))))).
      { intros R No. destruct (IH _ _ _ R) as (P & (ar & Er & Ar) & (ab & Eb & Ab & Pb)).
        split; [|split].
        - intros t. rewrite P. split.
          + intros (e' & I & D & V & En). exists e'. simpl. auto.
          + intros (e' & [<-|I] & D & V & En); [destruct (No _ D V En)|]. exists e'. auto.
        - exists ar. split; [exact Er|]. intros t. rewrite Ar. split.
          + intros (e' & I & D & V & En & K). exists e'. simpl. auto 6.
          + intros (e' & [<-|I] & D & V & En & K); [destruct (No _ D V En)|]. exists e'. auto 6.
        - exists ab. split; [exact Eb|]. split; [|exact Pb].
          intros t pe I. destruct (Ab t pe I) as (e' & E1 & I1 & R1). exists e'. simpl. tauto. }
      destruct (dget (g_verts g) (e_target e)) as [t|] eqn:D.
      2:{ apply skip; [exact H|]. intros ? [=]. }
      destruct (mem t vis) eqn:M.
      { apply mem_In in M. apply skip; [exact H|]. intros t' [= <-] NV. contradiction. }
      apply mem_not_In in M.
      destruct (sel s (v_files (h t))) as [f|] eqn:F; [|discriminate].
      destruct (endswith f ".c" && negb (opt_eqb (sel s (v_files (h start))) (Some f))) eqn:B.
      { apply skip; [exact H|]. intros t' [= <-] _ (f' & F' & C). rewrite F in F'. injection F' as <-.
        apply andb_true_iff in B. destruct B as [B1 B2]. apply has_ext_endswith in B1.
        apply negb_true_iff in B2. rewrite (C B1) in B2. simpl in B2.
        rewrite String.eqb_refl in B2. discriminate. }
      assert (EN : enterable h s start t).
      { exists f. split; [exact F|]. intros X. apply has_ext_endswith in X. rewrite X in B. simpl in B.
        apply negb_false_iff in B. destruct (opt_eqb_spec (sel s (v_files (h start))) (Some f)); congruence. }
      cbv zeta in H.
      set (acc1 := mkRacc (if dep_eqb (e_kind e) WEAK then ra_result acc else ra_result acc ++ [t])
                          (if dmem (ra_back acc) t then ra_back acc else ra_back acc ++ [(t, (c, e))])) in *.
      destruct (scan_edges h g s start vis c es acc1) as [[pushed1 acc2]|x] eqn:R; [|discriminate].
      injection H as <- <-.
      destruct (IH _ _ _ R) as (P & (ar & Er & Ar) & (ab & Eb & Ab & Pb)).
      assert (KB : In t (dkeys (ra_back acc1))).
      { unfold acc1; cbn [ra_back]. destruct (dmem (ra_back acc) t) eqn:DM.
        - apply dmem_spec. exact DM.
        - unfold dkeys. rewrite map_app. apply in_app_iff. simpl. auto. }
      split; [|split].
      + intros t'. simpl. rewrite P. split.
        * intros [<-|(e' & I & D' & V & En)]; [exists e; auto 6|exists e'; auto 6].
        * intros (e' & [<-|I] & D' & V & En); [left; congruence|right; exists e'; auto].
      + destruct (e_kind e) eqn:K; unfold acc1 in Er; cbn [ra_result dep_eqb] in Er.
        * exists ar. split; [exact Er|]. intros t'. rewrite Ar. split.
          -- intros (e' & I & R'). exists e'. simpl. tauto.
          -- intros (e' & [<-|I] & D' & V & En & K'); [congruence|exists e'; auto 6].
        * exists (t :: ar). rewrite <- app_assoc in Er. simpl in Er. split; [exact Er|].
          intros t'. simpl. rewrite Ar. split.
          -- intros [<-|(e' & I & R')]; [exists e; auto 8|exists e'; tauto].
          -- intros (e' & [<-|I] & D' & V & En & K'); [left; congruence|right; exists e'; auto 6].
      + unfold acc1 in Eb, Ab; cbn [ra_back] in Eb, Ab.
        destruct (dmem (ra_back acc) t) eqn:DM.
        * exists ab. split; [exact Eb|]. split.
          -- intros t' pe I. destruct (Ab t' pe I) as (e' & E1 & I1 & R1). exists e'. simpl. tauto.
          -- intros t' [<-|I]; [|auto]. rewrite Eb. unfold dkeys. rewrite map_app. apply in_app_iff.
             left. apply dmem_spec. exact DM.
        * exists ((t, (c, e)) :: ab). rewrite <- app_assoc in Eb. simpl in Eb. split; [exact Eb|]. split.
          -- intros t' pe [E|I].
             ++ injection E as <- <-. exists e. simpl. repeat split; auto.
                unfold dmem in DM. destruct (dget (ra_back acc) t); congruence.
             ++ destruct (Ab t' pe I) as (e' & E1 & I1 & D1 & V1 & En1 & N1). exists e'.
                repeat split; auto; [simpl; auto|].
                apply dget_None. apply dget_None in N1. intros C. apply N1.
                unfold dkeys. rewrite map_app. apply in_app_iff. auto.
          -- intros t' [<-|I]; [|auto]. rewrite Eb. unfold dkeys. rewrite map_app. apply in_app_iff.
             right. simpl. auto.
  Qed.

  Lemma rbody_push vis c acc pushed acc' :
    rbody vis c acc = Ok (pushed, acc') ->
    forall x, In x pushed -> In x (start :: dvals (g_verts g)) /\ ~ In x vis.
  Proof.
    intros H x I. destruct (scan_spec _ _ _ _ _ _ H) as (P & _).
    apply P in I. destruct I as (e & _ & D & V & _). split; [right; eapply dget_dvals; eauto|exact V].
  Qed.

  Lemma reach_terminates : terminates (fun n => bfs rbody n [start] [] (mkRacc [start] [])).
  Proof.
    apply (bfs_terminates rbody (start :: dvals (g_verts g)) rbody_push).
    intros x [<-|[]]. left. reflexivity.
  Qed.

  (** Chains can be extended at the end. *)
  Lemma chain_snoc u path v e t :
    chain h g s start u path v -> calls h g s v e t -> enterable h s start t ->
    chain h g s start u (path ++ [(v, e)]) t.
  Proof.
    induction 1 as [u|u e1 w path t1 C E H IH]; intros CA EN; simpl.
    - econstructor; eauto. constructor.
    - econstructor; eauto.
  Qed.
  Lemma chain_snoc_inv u path v e t :
    chain h g s start u (path ++ [(v, e)]) t ->
    chain h g s start u path v /\ calls h g s v e t /\ enterable h s start t.
  Proof.
    revert u. induction path as [|[v1 e1] path IH]; simpl; intros u H.
    - inversion H as [|? ? w ? ? CA EN CH]; subst. inversion CH; subst. split; [constructor|auto].
    - inversion H as [|? ? w ? ? CA EN CH]; subst. destruct (IH _ CH) as (A & B & C).
      split; [econstructor; eauto|auto].
  Qed.
  Lemma chain_app u p1 v p2 t :
    chain h g s start u p1 v -> chain h g s start v p2 t -> chain h g s start u (p1 ++ p2) t.
  Proof. induction 1; simpl; intros; [auto|econstructor; eauto]. Qed.

  (** Well-ordered backtracking maps: each recorded parent is the start or is recorded
      earlier in the map. *)
  Definition back_ok (back : dict vid (vid * edge)) : Prop :=
    NoDup (dkeys back) /\ ~ In start (dkeys back) /\
    forall t p e l1 l2, back = l1 ++ (t, (p, e)) :: l2 ->
      (p = start \/ In p (dkeys l1)) /\ calls h g s p e t /\ enterable h s start t.

  Record inv (queue vis : list vid) (acc : racc) : Prop := {
    inv_start : In start vis \/ queue = [start] /\ vis = [];
    inv_back : back_ok (ra_back acc);
    (* recorded = discovered *)
    inv_disc : forall v, In v queue \/ In v vis -> v = start \/ In v (dkeys (ra_back acc));
    inv_keys : forall v, In v (dkeys (ra_back acc)) -> In v queue \/ In v vis;
    inv_closed : forall u e t, In u vis -> calls h g s u e t -> enterable h s start t ->
                   In t queue \/ In t vis;
    inv_strong : forall t p e, dget (ra_back acc) t = Some (p, e) -> e_kind e = STRONG ->
                   In t (ra_result acc);
    inv_result : forall v, In v (ra_result acc) ->
                   v = start \/ exists u e, In u vis /\ calls h g s u e v /\
                                            enterable h s start v /\ e_kind e = STRONG;
    inv_first : exists l, ra_result acc = start :: l;
  }.

  Lemma dget_app {V} (l1 l2 : dict vid V) k :
    dget (l1 ++ l2) k = match dget l1 k with Some v => Some v | None => dget l2 k end.
  Proof.
    induction l1 as [|[k' v'] l1 IH]; simpl; [reflexivity|].
    destruct (Nat.eqb k k'); [reflexivity|exact IH].
  Qed.

  Lemma app_cons_split {B} (l1 l2 a b : list B) x :
    l1 ++ l2 = a ++ x :: b ->
    (exists b', l1 = a ++ x :: b' /\ b = b' ++ l2) \/ (exists a', l2 = a' ++ x :: b /\ a = l1 ++ a').
  Proof.
    revert a. induction l1 as [|y l1 IH]; intros a E; simpl in E.
    - right. exists a. auto.
    - destruct a as [|z a]; simpl in E.
      + injection E as -> E. left. exists l1. auto.
      + injection E as -> E. destruct (IH _ E) as [(b' & -> & ->)|(a' & -> & ->)].
        * left. exists b'. auto.
        * right. exists a'. auto.
  Qed.

  (** The entries added by one scan have distinct keys: shown separately. *)
  Lemma scan_back_NoDup vis c : forall es acc pushed acc',
    scan_edges h g s start vis c es acc = Ok (pushed, acc') ->
    NoDup (dkeys (ra_back acc)) -> NoDup (dkeys (ra_back acc')).
  Proof.
    induction es as [|e es IH]; intros acc pushed acc' H N; cbn [scan_edges] in H.
    - injection H as <- <-. exact N.
    - destruct (dget (g_verts g) (e_target e)) as [t|]; [|eauto].
      destruct (mem t vis); [eauto|].
      destruct (sel s (v_files (h t))) as [f|]; [|discriminate].
      destruct (endswith f ".c" && negb (opt_eqb (sel s (v_files (h start))) (Some f))); [eauto|].
      cbv zeta in H.
      destruct (scan_edges _ _ _ _ _ _ es _) as [[pushed1 acc2]|x] eqn:R; [|discriminate].
      injection H as <- <-. eapply IH; [exact R|]. cbn [ra_back].
      destruct (dmem (ra_back acc) t) eqn:DM; [exact N|].
      assert (NI : ~ In t (dkeys (ra_back acc))) by (rewrite <- dmem_spec, DM; discriminate).
      unfold dkeys in *. rewrite map_app. simpl.
      apply (NoDup_Add (a := t) (l := map fst (ra_back acc))); [|auto].
      rewrite <- (app_nil_r (map fst (ra_back acc))) at 1. apply Add_app.
  Qed.

  Lemma scan_strong vis c : forall es acc pushed acc',
    scan_edges h g s start vis c es acc = Ok (pushed, acc') ->
    (forall t p e, dget (ra_back acc) t = Some (p, e) -> e_kind e = STRONG -> In t (ra_result acc)) ->
    (forall t p e, dget (ra_back acc') t = Some (p, e) -> e_kind e = STRONG -> In t (ra_result acc')).
  Proof.
    intros es acc pushed acc' H N t p e G K.
    destruct (scan_spec _ _ _ _ _ _ H) as (_ & (ar & Er & Ar) & (ab & Eb & Ab & _)).
    rewrite Eb in G. rewrite dget_app in G. rewrite Er, in_app_iff.
    destruct (dget (ra_back acc) t) as [pe|] eqn:D.
    - left. injection G as ->. eapply N; eauto.
    - right. apply dget_In in G. destruct (Ab _ _ G) as (e' & E1 & I1 & D1 & V1 & En1 & _).
      injection E1 as -> <-. apply Ar. exists e. auto.
  Qed.

  Lemma inv_step c q vis acc pushed acc' :
    inv (c :: q) vis acc -> rbody (set_add c vis) c acc = Ok (pushed, acc') ->
    inv (q ++ pushed) (set_add c vis) acc'.
  Proof.
    intros I B. unfold rbody in B.
    pose proof (scan_spec _ _ _ _ _ _ B) as (P & (ar & Er & Ar) & (ab & Eb & Ab & Pb)).
    destruct I as [Is Ib Id Ik Ic Ist Ir If].
    assert (Sv : In start (set_add c vis)).
    { apply set_add_In. destruct Is as [|[E _]]; [auto|]. injection E as <- _. auto. }
    assert (Cd : c = start \/ In c (dkeys (ra_back acc))) by (apply Id; simpl; auto).
    constructor.
    - left. exact Sv.
    - destruct Ib as (N & NS & O). split; [|split].
      + eapply scan_back_NoDup; eauto.
      + rewrite Eb. unfold dkeys. rewrite map_app, in_app_iff. intros [C|C]; [apply NS; exact C|].
        apply in_map_iff in C. destruct C as ([t pe] & E & I). simpl in E. subst t.
        destruct (Ab _ _ I) as (e & _ & _ & _ & V & _). apply V. exact Sv.
      + intros t p e l1 l2 E. rewrite Eb in E.
        destruct (app_cons_split _ _ _ _ _ E) as [(b' & E1 & _)|(a' & E1 & ->)].
        * eapply O; eauto.
        * assert (I : In (t, (p, e)) ab) by (rewrite E1; apply in_app_iff; simpl; auto).
          destruct (Ab _ _ I) as (e' & E2 & I2 & D2 & V2 & En2 & _). injection E2 as -> ->.
          split; [|split; [split; assumption|exact En2]].
          destruct Cd as [|C]; [auto|right]. unfold dkeys. rewrite map_app, in_app_iff. auto.
    - intros v [I|I].
      + apply in_app_iff in I. destruct I as [I|I].
        * destruct (Id v) as [|K]; [simpl; auto|auto|right].
          rewrite Eb. unfold dkeys. rewrite map_app, in_app_iff. auto.
        * right. apply Pb. exact I.
      + apply set_add_In in I. destruct (Id v) as [|K]; [simpl; destruct I as [->|]; auto|auto|right].
        rewrite Eb. unfold dkeys. rewrite map_app, in_app_iff. auto.
    - intros v K. rewrite Eb in K. unfold dkeys in K. rewrite map_app, in_app_iff in K.
      rewrite in_app_iff, set_add_In. destruct K as [K|K].
      + destruct (Ik v K) as [[->|I]|I]; auto.
      + apply in_map_iff in K. destruct K as ([t pe] & E & I). simpl in E. subst t.
        destruct (Ab _ _ I) as (e & _ & I1 & D1 & V & En & _). left. right. apply P. exists e. auto.
    - intros u e t I C En. apply set_add_In in I. rewrite in_app_iff.
      assert (D : In t (set_add c vis) \/ ~ In t (set_add c vis)).
      { destruct (mem t (set_add c vis)) eqn:M; [left; apply mem_In|right; apply mem_not_In]; exact M. }
      destruct D as [D|D]; [auto|].
      destruct I as [->|I].
      + left. right. apply P. destruct C as [C1 C2]. exists e. auto.
      + destruct (Ic u e t I C En) as [[->|I']|I'].
        * exfalso. apply D. apply set_add_In. auto.
        * auto.
        * exfalso. apply D. apply set_add_In. auto.
    - eapply scan_strong; eauto.
    - intros v I. rewrite Er, in_app_iff in I. destruct I as [I|I].
      + destruct (Ir v I) as [|(u & e & Iu & R)]; [auto|right]. exists u, e. split; [|exact R].
        apply set_add_In. auto.
      + apply Ar in I. destruct I as (e & I1 & D1 & V & En & K). right. exists c, e.
        split; [apply set_add_In; auto|]. split; [split; assumption|auto].
    - destruct If as (l & ->) in Er. rewrite Er. exists (l ++ ar). reflexivity.
  Qed.

  Lemma inv_init : inv [start] [] (mkRacc [start] []).
  Proof.
    constructor; simpl.
    - right. auto.
    - split; [constructor|split; [tauto|]]. intros t p e l1 l2 E. destruct l1; discriminate.
    - intros v [[->|[]]|[]]. auto.
    - tauto.
    - tauto.
    - discriminate.
    - intros v [->|[]]. auto.
    - exists []. reflexivity.
  Qed.

  Lemma reach_final n acc :
    bfs rbody n [start] [] (mkRacc [start] []) = Some (Ok acc) -> exists vis, inv [] vis acc.
  Proof. apply bfs_invariant with (I := inv); [exact inv_step|exact inv_init]. Qed.

  (** Everything recorded in a well-ordered map is reached by a chain read off the map. *)
  Lemma dget_split {V} (d : dict vid V) k v : dget d k = Some v -> exists a b, d = a ++ (k, v) :: b.
  Proof. intros E. apply dget_In in E. apply in_split in E. exact E. Qed.

  Lemma dget_prefix {V} (l1 l2 : dict vid V) k : In k (dkeys l1) -> dget (l1 ++ l2) k = dget l1 k.
  Proof.
    intros I. rewrite dget_app. destruct (dkeys_dget _ _ I) as (v & ->). reflexivity.
  Qed.

  (** Walking back terminates and yields a chain.  Induction on the length of the map prefix
      that contains the parent. *)
  Lemma back_from_chain : forall n back, back_ok back ->
    forall l1 l2, back = l1 ++ l2 -> length l1 <= n ->
    forall p acc t, (p = start \/ In p (dkeys l1)) ->
      chain h g s start p acc t ->
      exists es, (forall m, n <= m -> back_from m back start acc p = Some (Ok es)) /\
                 chain h g s start start es t /\ exists pre, es = pre ++ acc.
  Proof.
    induction n as [|n IH]; intros back OK l1 l2 E L p acc t P C.
    - destruct l1; [|simpl in L; lia]. destruct P as [->|[]].
      exists acc. split; [|split; [exact C|exists []; reflexivity]].
      intros m _. destruct m; simpl; rewrite Nat.eqb_refl; reflexivity.
    - destruct (Nat.eq_dec p start) as [->|NE].
      + exists acc. split; [|split; [exact C|exists []; reflexivity]].
        intros m _. destruct m; simpl; rewrite Nat.eqb_refl; reflexivity.
      + destruct P as [|P]; [contradiction|].
        destruct (dkeys_dget _ _ P) as ([p2 e2] & D).
        destruct (dget_split _ _ _ D) as (a & b & El).
        assert (Eb : back = a ++ (p, (p2, e2)) :: b ++ l2) by (rewrite E, El, <- app_assoc; reflexivity).
        destruct OK as (N & NS & O). destruct (O _ _ _ _ _ Eb) as (Pp & CA & EN).
        destruct (IH back (conj N (conj NS O)) a _ Eb) with (p := p2) (acc := (p2, e2) :: acc) (t := t)
          as (es & Hes & Ces & pre & Epre).
        * rewrite El, app_length in L. simpl in L. lia.
        * exact Pp.
        * econstructor; eauto.
        * exists es. split; [|split; [exact Ces|exists (pre ++ [(p2, e2)]); rewrite <- app_assoc; exact Epre]].
          intros m Lm. destruct m as [|m]; [lia|]. cbn [back_from].
          destruct (Nat.eqb_spec p start) as [|_]; [contradiction|].
          assert (dget back p = Some (p2, e2)) as ->.
          { rewrite E, dget_prefix; auto. }
          apply Hes. lia.
  Qed.

  Lemma get_callstack_chain back v :
    back_ok back -> v = start \/ In v (dkeys back) ->
    exists es, (forall m, length back <= m -> get_callstack m back start v = Some (Ok es)) /\
               chain h g s start start es v /\ (v <> start -> es <> []).
  Proof.
    intros OK I. unfold get_callstack. destruct (Nat.eqb_spec start v) as [<-|NE].
    - exists []. split; [reflexivity|split; [constructor|congruence]].
    - destruct I as [->|I]; [congruence|].
      destruct (dkeys_dget _ _ I) as ([p e] & D). rewrite D.
      destruct (dget_split _ _ _ D) as (a & b & E).
      pose proof OK as (N & NS & O). destruct (O _ _ _ _ _ E) as (P & CA & EN).
      destruct (back_from_chain (length back) back OK a _ E) with (p := p) (acc := [(p, e)]) (t := v)
        as (es & Hes & Ces & pre & Epre).
      + rewrite E, app_length. simpl. lia.
      + exact P.
      + econstructor; eauto. constructor.
      + exists es. split; [exact Hes|split; [exact Ces|]]. intros _. rewrite Epre. destruct pre; discriminate.
  Qed.

  Lemma inv_sound vis acc v :
    inv [] vis acc -> In v (ra_result acc) ->
    v = start \/ exists path u e, chain h g s start start (path ++ [(u, e)]) v /\ e_kind e = STRONG.
  Proof.
    intros I R. destruct (inv_result _ _ _ I v R) as [|(u & e & Iu & C & En & K)]; [auto|right].
    destruct (get_callstack_chain (ra_back acc) u (inv_back _ _ _ I)) as (es & _ & Ch & _).
    { apply (inv_disc _ _ _ I). auto. }
    exists es, u, e. split; [eapply chain_snoc; eauto|exact K].
  Qed.

  Lemma chain_end_enterable u path v :
    chain h g s start u path v -> u <> v -> enterable h s start v.
  Proof.
    induction 1 as [u|u e w path t C E H IH]; intros NE; [congruence|].
    destruct (Nat.eq_dec w t) as [<-|]; auto.
  Qed.

  Lemma inv_visits vis acc u path v :
    inv [] vis acc -> In u vis -> chain h g s start u path v -> In v vis.
  Proof.
    intros I Iu C. induction C as [u|u e w path t C E H IH]; [exact Iu|].
    apply IH. destruct (inv_closed _ _ _ I u e w Iu C E) as [[]|]; auto.
  Qed.

  Lemma inv_start_visited vis acc : inv [] vis acc -> In start vis.
  Proof. intros I. destruct (inv_start _ _ _ I) as [|[E _]]; [auto|discriminate]. Qed.

  Lemma inv_discovered vis acc v :
    inv [] vis acc -> ((v = start \/ In v (dkeys (ra_back acc))) <-> reachable h g s start v).
  Proof.
    intros I. split.
    - intros D. destruct (get_callstack_chain _ v (inv_back _ _ _ I) D) as (es & _ & C & _).
      exists es. exact C.
    - intros (path & C). apply (inv_disc _ _ _ I). right.
      eapply inv_visits; eauto. eapply inv_start_visited; eauto.
  Qed.

  Lemma inv_complete vis acc v :
    inv [] vis acc -> reachable h g s start v ->
    (forall u e, reachable h g s start u -> calls h g s u e v -> e_kind e = STRONG) ->
    In v (ra_result acc).
  Proof.
    intros I R NW. destruct (inv_first _ _ _ I) as (l & El).
    apply (inv_discovered vis acc v I) in R. destruct R as [->|K]; [rewrite El; simpl; auto|].
    destruct (dkeys_dget _ _ K) as ([p e] & D).
    apply (inv_strong _ _ _ I v p e D).
    destruct (dget_split _ _ _ D) as (a & b & E).
    pose proof (inv_back _ _ _ I) as (N & NS & O).
    destruct (O _ _ _ _ _ E) as (P & CA & EN).
    apply (NW p e); [|exact CA].
    apply (inv_discovered vis acc p I). destruct P as [|P]; [auto|right].
    rewrite E. unfold dkeys. rewrite map_app, in_app_iff. auto.
  Qed.

  (** Exceptions: only a function without a file. *)
  Lemma scan_err vis c : forall es acc e,
    scan_edges h g s start vis c es acc = Err e ->
    e = AttributeError /\ exists n t, dget (g_verts g) n = Some t /\ sel s (v_files (h t)) = None.
  Proof.
    induction es as [|ed es IH]; intros acc e H; cbn [scan_edges] in H; [discriminate|].
    destruct (dget (g_verts g) (e_target ed)) as [t|] eqn:D; [|eauto].
    destruct (mem t vis); [eauto|].
    destruct (sel s (v_files (h t))) as [f|] eqn:F; [|injection H as <-; eauto 6].
    destruct (endswith f ".c" && negb (opt_eqb (sel s (v_files (h start))) (Some f))); [eauto|].
    cbv zeta in H.
    destruct (scan_edges _ _ _ _ _ _ es _) as [[pushed1 acc2]|x] eqn:R; [discriminate|].
    injection H as <-. eauto.
  Qed.

  Lemma reach_err n e :
    bfs rbody n [start] [] (mkRacc [start] []) = Some (Err e) ->
    e = AttributeError /\ exists n t, dget (g_verts g) n = Some t /\ sel s (v_files (h t)) = None.
  Proof.
    intros H.
    refine (bfs_invariant_err rbody (fun _ _ _ => True)
              (fun e => e = AttributeError /\ exists n t, dget (g_verts g) n = Some t /\ sel s (v_files (h t)) = None)
              _ _ n _ _ _ e I H); [auto|].
    intros. eapply scan_err; eauto.
  Qed.
End Reach.

(** ** Statements about [reachable_from] itself *)
Lemma getitem_ok g n v : getitem g n = Ok v <-> dget (g_verts g) n = Some v.
Proof. unfold getitem. destruct (dget (g_verts g) n); split; congruence. Qed.

Lemma reachable_from_unfold fuel h g s n start :
  dget (g_verts g) n = Some start ->
  reachable_from fuel h g s n = bfs (rbody h g s start) fuel [start] [] (mkRacc [start] []).
Proof. intros D. unfold reachable_from, getitem. rewrite D. reflexivity. Qed.

Lemma reachable_from_ok fuel h g s n acc :
  reachable_from fuel h g s n = Some (Ok acc) ->
  exists start, dget (g_verts g) n = Some start /\ exists vis, inv h g s start [] vis acc.
Proof.
  intros H. destruct (dget (g_verts g) n) as [start|] eqn:D.
  - exists start. split; [reflexivity|].
    rewrite (reachable_from_unfold _ _ _ _ _ _ D) in H. eapply reach_final; eauto.
  - unfold reachable_from, getitem in H. rewrite D in H. discriminate.
Qed.

Lemma reachable_from_terminates h g s n : terminates (fun fuel => reachable_from fuel h g s n).
Proof.
  destruct (dget (g_verts g) n) as [start|] eqn:D.
  - destruct (reach_terminates h g s start) as (r & k & H). exists r, k. intros m L.
    rewrite (reachable_from_unfold _ _ _ _ _ _ D). apply H. exact L.
  - exists (Err KeyError), 0. intros m _. unfold reachable_from, getitem. rewrite D. reflexivity.
Qed.

Lemma reachable_from_mono h g s n f1 f2 r :
  f1 <= f2 -> reachable_from f1 h g s n = Some r -> reachable_from f2 h g s n = Some r.
Proof.
  intros L H. unfold reachable_from in *. destruct (getitem g n); [|exact H].
  eapply bfs_mono; eauto.
Qed.

Lemma terminates_with_det {A} (f : nat -> option A) r1 r2 :
  terminates_with f r1 -> terminates_with f r2 -> r1 = r2.
Proof.
  intros (n & H1) (m & H2). specialize (H1 (n + m)). specialize (H2 (n + m)).
  rewrite H1 in H2 by lia. specialize (H2 ltac:(lia)). congruence.
Qed.

Lemma reachable_from_err h g s n fuel e :
  reachable_from fuel h g s n = Some (Err e) ->
  (e = KeyError /\ dget (g_verts g) n = None) \/
  (e = AttributeError /\ ~ all_files h g s).
Proof.
  intros H. destruct (dget (g_verts g) n) as [start|] eqn:D.
  - right. rewrite (reachable_from_unfold _ _ _ _ _ _ D) in H.
    apply reach_err in H. destruct H as (-> & n' & t & D' & F). split; [reflexivity|].
    intros A. exact (A n' t D' F).
  - left. unfold reachable_from, getitem in H. rewrite D in H. split; congruence.
Qed.
