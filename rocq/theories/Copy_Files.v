(** * Proofs about the copied files *)
From Coq Require Import String Ascii ZArith Arith Bool Lia List.
From Verif Require Import PyBase Path_Model Cache_Spec Cache_Proofs Output_Proofs Text_Spec Copy_Model Copy_Spec Copy_Text.
Import ListNotations.
Open Scope list_scope.

Section Files.
  Variable cwd : string.
  Variable order : list string -> list string.
  Hypothesis order_same : forall l x, In x (order l) <-> In x l.
  Variables dir target : string.
  Variables D T : list string.
  Hypothesis HD : normal_path dir D.
  Hypothesis HT : normal_path target T.
  Notation place := (abs_comps cwd).

  Lemma normal_abs p l : normal_path p l -> isabs p = true.
  Proof. intros (-> & _). reflexivity. Qed.
  Lemma common_len_app : forall a b, common_len a (a ++ b) = length a.
  Proof. induction a as [|x a IH]; intros b; [reflexivity|]. cbn. rewrite String.eqb_refl, IH. reflexivity. Qed.
  Lemma dest p r : p <> ""%string -> place p = D ++ r ->
    exists rel, relpath cwd p dir = Ok rel /\ place (path_join target rel) = T ++ r.
  Proof.
    intros N E. unfold relpath. rewrite (proj2 (String.eqb_neq p "") N). cbv zeta.
    rewrite (abs_comps_normal cwd dir D HD), E, common_len_app, Nat.sub_diag. cbn [repeat app].
    rewrite skipn_app, skipn_all, Nat.sub_diag. cbn [skipn app].
    assert (O : Forall ordinary r).
    { pose proof (abs_comps_ordinary cwd p) as O. rewrite E in O. apply Forall_app in O as [_ O]. exact O. }
    pose proof (abs_comps_normal cwd target T HT) as PT.
    destruct r as [|c r].
    - exists "."%string. split; [reflexivity|]. rewrite abs_comps_join; [|exact (normal_abs _ _ HT)|reflexivity].
      rewrite PT. cbn. rewrite rev_involutive, app_nil_r. reflexivity.
    - exists (join "/" (c :: r)). split; [reflexivity|].
      rewrite abs_comps_join; [|exact (normal_abs _ _ HT)|apply ordinary_isabs; left; inversion O; assumption].
      rewrite PT, split_join_comps; [|discriminate|eapply Forall_impl; [|exact O]; intros x (_ & _ & _ & S); exact S].
      rewrite norm_push by exact O. rewrite rev_involutive. reflexivity.
  Qed.
  Lemma under p : startswith p dir = true -> p <> ""%string.
  Proof. intros S ->. destruct HD as (-> & _). discriminate S. Qed.

  Lemma join_nonempty rel : path_join target rel <> ""%string.
  Proof.
    destruct HT as (-> & _). unfold path_join. destruct (isabs rel) eqn:E; [intros ->; discriminate E|].
    destruct (_ || _); discriminate.
  Qed.

  (** ** Sources *)
  Definition good (src : string) : Prop :=
    startswith src dir = true -> (exists r, place src = D ++ r) /\ (forall r, place src <> T ++ r).
  Lemma copy_source_cases f src f1 : good src -> copy_source cwd dir target f src = Ok f1 ->
    (startswith src dir = false /\ f1 = f) \/
    (startswith src dir = true /\ exists r, place src = D ++ r /\
       ((exists c, dget f (T ++ r) = Some c /\ f1 = f) \/
        (exists c, dget f (T ++ r) = None /\ dget f (D ++ r) = Some c /\ f1 = dset f (T ++ r) c))).
  Proof.
    intros G E. unfold copy_source in E. destruct (startswith src dir) eqn:S.
    - right. split; [reflexivity|]. destruct (G S) as [(r & P) _]. exists r. split; [exact P|].
      destruct (dest src r (under src S) P) as (rel & R & Q). rewrite R in E. cbn [bind] in E.
      unfold Copy_Model.place in E. rewrite Q, P in E. unfold dmem in E.
      destruct (dget f (T ++ r)) as [c|] eqn:F.
      + left. exists c. apply Ok_inj in E. auto.
      + right. destruct (dget f (D ++ r)) as [c|] eqn:F'; [|discriminate E]. exists c. apply Ok_inj in E. auto.
    - left. apply Ok_inj in E. auto.
  Qed.
  Lemma copy_source_total f src : good src -> (startswith src dir = true -> dget f (place src) <> None) ->
    exists f1, copy_source cwd dir target f src = Ok f1.
  Proof.
    intros G X. unfold copy_source. destruct (startswith src dir) eqn:S; [|eauto].
    destruct (G S) as [(r & P) _]. destruct (dest src r (under src S) P) as (rel & R & Q). rewrite R. cbn [bind].
    destruct (dmem _ _); [eauto|]. specialize (X eq_refl). unfold Copy_Model.place in *. destruct (dget f (place src)); [eauto|congruence].
  Qed.

  Definition hits (srcs : list string) (p : list string) : Prop :=
    exists src r, In src srcs /\ startswith src dir = true /\ place src = D ++ r /\ p = T ++ r.
  Record after_sources (srcs : list string) (f f1 : files) : Prop := {
    as_copied : forall src r, In src srcs -> startswith src dir = true -> place src = D ++ r ->
      dget f1 (T ++ r) = match dget f (T ++ r) with Some c => Some c | None => dget f (D ++ r) end /\ dget f1 (T ++ r) <> None;
    as_others : forall p, ~ hits srcs p -> dget f1 p = dget f p;
    as_kept : forall p c, dget f p = Some c -> dget f1 p = Some c }.

  Lemma copy_sources_spec srcs : forall f f1, (forall s, In s srcs -> good s) ->
    fold_res (copy_source cwd dir target) f srcs = Ok f1 -> after_sources srcs f f1.
  Proof.
    induction srcs as [|s srcs IH]; intros f f1 G E; cbn [fold_res] in E.
    - apply Ok_inj in E. subst f1. split; [intros ? ? []|auto|auto].
    - destruct (copy_source cwd dir target f s) as [f0|] eqn:C; [|discriminate E].
      apply copy_source_cases in C; [|apply G; left; reflexivity].
      specialize (IH f0 f1 (fun x I => G x (or_intror I)) E). destruct IH as [IA IB IC].
      assert (K : forall p c, dget f p = Some c -> dget f0 p = Some c).
      { intros p c F. destruct C as [(_ & ->)|(_ & r & P & [(c' & F' & ->)|(c' & F' & F'' & ->)])]; auto.
        rewrite dget_dset_other; [exact F|congruence]. }
      assert (O : forall p, ~ hits [s] p -> dget f0 p = dget f p).
      { intros p NH. destruct C as [(_ & ->)|(S & r & P & [(c' & F' & ->)|(c' & F' & F'' & ->)])]; auto.
        apply dget_dset_other. intros ->. apply NH. exists s, r. cbn. auto. }
      assert (DT : forall src r, In src (s :: srcs) -> startswith src dir = true -> place src = D ++ r -> dget f0 (D ++ r) = dget f (D ++ r)).
      { intros src r I S P. apply O. intros (s' & r' & _ & _ & _ & E'). destruct (G src I S) as [_ N]. apply (N r'). congruence. }
      split.
      + intros src r I S P.
        destruct I as [->|I].
        * destruct C as [(S' & _)|(_ & r' & P' & [(c' & F' & X)|(c' & F' & F'' & X)])]; [congruence| |].
          -- rewrite P in P'. apply app_inv_head in P'. subst r'. rewrite X in IC. rewrite F', (IC _ _ F'). split; [reflexivity|discriminate].
          -- rewrite P in P'. apply app_inv_head in P'. subst r'. rewrite F'.
             assert (F0 : dget f0 (T ++ r) = Some c') by (subst f0; apply dget_dset_same).
             rewrite (IC _ _ F0), F''. split; [reflexivity|discriminate].
        * destruct (IA src r I S P) as [A1 A2]. split; [|exact A2]. rewrite A1.
          rewrite (DT src r (or_intror I) S P).
          destruct (dget f (T ++ r)) as [c|] eqn:F; [rewrite (K _ _ F); reflexivity|].
          destruct (dget f0 (T ++ r)) as [c|] eqn:F0; [|reflexivity].
          destruct C as [(_ & ->)|(S' & r' & P' & [(c' & F' & ->)|(c' & F' & F'' & ->)])]; [congruence|congruence|].
          rewrite dget_dset in F0. destruct (eqb_spec (T ++ r) (T ++ r')) as [E'|NE]; [|congruence].
          apply app_inv_head in E'. subst r'. congruence.
      + intros p NH. rewrite IB, O; [reflexivity| |].
        * intros (s' & r & [<-|[]] & X). apply NH. exists s, r. split; [left; reflexivity|exact X].
        * intros (s' & r & I & X). apply NH. exists s', r. split; [right; exact I|exact X].
      + intros p c F. apply IC, K, F.
  Qed.
  Lemma copy_sources_total srcs : forall f, (forall s, In s srcs -> good s /\ (startswith s dir = true -> dget f (place s) <> None)) ->
    exists f1, fold_res (copy_source cwd dir target) f srcs = Ok f1.
  Proof.
    induction srcs as [|s srcs IH]; intros f G; cbn [fold_res]; [eauto|].
    destruct (G s (or_introl eq_refl)) as [G1 G2]. destruct (copy_source_total f s G1 G2) as [f0 C]. rewrite C. apply IH.
    intros s' I. destruct (G s' (or_intror I)) as [G3 G4]. split; [exact G3|]. intros S. specialize (G4 S).
    pose proof (copy_sources_spec [s] f f0) as X. cbn [fold_res] in X. rewrite C in X.
    specialize (X (fun x J => match J with or_introl e => eq_ind s good G1 x e | or_intror j => match j with end end) eq_refl).
    destruct X as [_ _ K]. destruct (dget f (place s')) as [c|] eqn:F; [|congruence]. rewrite (K _ _ F). discriminate.
  Qed.

  (** ** Modules *)
  Lemma copy_module_spec f out m r text g out' : startswith m dir = true -> place m = D ++ r -> (forall q, place m <> T ++ q) ->
    dget f (place m) = Some text -> (forall s, In s (included_sources text) -> good s) ->
    copy_module cwd order dir target (f, out) m = Ok (g, out') ->
    exists f1 m', after_sources (order (included_sources text)) f f1 /\ (place m' = T ++ r /\ m' <> ""%string) /\ out' = out ++ [m'] /\
      g = dset f1 (T ++ r) (moved_text dir target text).
  Proof.
    intros S P N F G E. unfold copy_module in E. destruct (dest m r (under m S) P) as (rel & R & Q).
    rewrite R in E. cbn [bind] in E. unfold Copy_Model.place in E. rewrite F in E.
    destruct (fold_res (copy_source cwd dir target) f (order (included_sources text))) as [f1|] eqn:C; [|discriminate E]. cbn [bind] in E.
    apply copy_sources_spec in C; [|intros s I; apply G; exact (proj1 (order_same _ _) I)].
    unfold move in E. rewrite S, R in E. cbn [bind] in E. unfold Copy_Model.place in E. rewrite Q in E.
    assert (F1 : dget f1 (place m) = Some text) by (apply (as_kept _ _ _ C); exact F). rewrite F1 in E.
    destruct (eqb_spec (T ++ r) (place m)) as [X|_]; [symmetry in X; destruct (N _ X)|]. cbn [bind] in E.
    apply Ok_inj in E. injection E as <- <-. exists f1, (path_join target rel). split; [exact C|]. split; [split; [exact Q|apply join_nonempty]|]. auto.
  Qed.
  Lemma copy_module_total f out m r text : startswith m dir = true -> place m = D ++ r ->
    dget f (place m) = Some text -> (forall s, In s (included_sources text) -> good s /\ (startswith s dir = true -> dget f (place s) <> None)) ->
    exists g out', copy_module cwd order dir target (f, out) m = Ok (g, out').
  Proof.
    intros S P F G. unfold copy_module. destruct (dest m r (under m S) P) as (rel & R & Q).
    rewrite R. cbn [bind]. unfold Copy_Model.place. rewrite F.
    destruct (copy_sources_total (order (included_sources text)) f) as [f1 C]; [intros s I; apply G; exact (proj1 (order_same _ _) I)|].
    rewrite C. cbn [bind]. apply copy_sources_spec in C; [|intros s I; apply G; exact (proj1 (order_same _ _) I)].
    unfold move. rewrite S, R. cbn [bind]. unfold Copy_Model.place.
    rewrite (as_kept _ _ _ C _ _ F). cbn [bind]. eauto.
  Qed.

  Notation content := (content cwd).
  Notation wanted := (wanted cwd dir).
  Notation usual := (usual cwd dir target D T).

  Notation copied := (copied cwd dir target D T).
  Lemma same_relpath m m' r : m <> ""%string -> m' <> ""%string -> place m = D ++ r -> place m' = T ++ r -> relpath cwd m' target = relpath cwd m dir.
  Proof.
    intros N N' P P'. unfold relpath. rewrite (proj2 (String.eqb_neq m "") N), (proj2 (String.eqb_neq m' "") N'). cbv zeta.
    rewrite (abs_comps_normal cwd dir D HD), (abs_comps_normal cwd target T HT), P, P', !common_len_app, !Nat.sub_diag.
    rewrite !skipn_app, !skipn_all, !Nat.sub_diag. reflexivity.
  Qed.

  Lemma step_usual f m ms text r f1 : usual f (m :: ms) -> dget f (place m) = Some text -> place m = D ++ r ->
    after_sources (order (included_sources text)) f f1 ->
    let g := dset f1 (T ++ r) (moved_text dir target text) in
    (forall m', In m' ms -> dget g (place m') = dget f (place m')) /\
    (forall s, wanted g ms s <-> wanted f ms s) /\ usual g ms.
  Proof.
    intros U F P A g.
    assert (L : forall p, (forall q, p <> T ++ q) -> dget g p = dget f p).
    { intros p N. unfold g. rewrite dget_dset_other; [|apply N]. apply (as_others _ _ _ A).
      intros (s & q & _ & _ & _ & E). destruct (N _ E). }
    assert (LM : forall m', In m' ms -> dget g (place m') = dget f (place m')).
    { intros m' I. apply L. intros q. apply (usual_apart _ _ _ _ _ _ _ U). left. right. exact I. }
    assert (W : forall s, wanted g ms s <-> wanted f ms s).
    { intros s. unfold Copy_Spec.wanted, Copy_Spec.content. split; intros (S & m' & t & I & C & J); split; auto; exists m', t;
        (rewrite LM in * by exact I || rewrite <- LM in * by exact I); auto. }
    split; [exact LM|]. split; [exact W|].
    assert (W' : forall s, wanted g ms s -> wanted f (m :: ms) s).
    { intros s X. apply W in X. destruct X as (S & m' & t & I & C & J). split; [exact S|]. exists m', t. split; [right; exact I|auto]. }
    destruct U as [U1 U2 U3 U4 U5 U6 U7]. split; auto.
    - intros m' I. apply U3. right. exact I.
    - intros p [I|X] q; apply U5; [left; right; exact I|right; auto].
    - inversion U6; assumption.
    - intros m' s I X. apply U7; [right; exact I|auto].
  Qed.

  Theorem copy_spec modules : forall f out0 g out, usual f modules ->
    fold_res (copy_module cwd order dir target) (f, out0) modules = Ok (g, out) ->
    exists out1, out = out0 ++ out1 /\ copied f modules g out1.
  Proof.
    induction modules as [|m ms IH]; intros f out0 g out U E; cbn [fold_res] in E.
    - apply Ok_inj in E. injection E as <- <-. exists []. rewrite app_nil_r. split; [reflexivity|]. split.
      + intros s r (_ & m & t & [] & _).
      + intros m r t [].
      + auto.
      + constructor.
    - destruct (copy_module cwd order dir target (f, out0) m) as [[f2 out2]|] eqn:C; [|discriminate E].
      destruct (usual_modules _ _ _ _ _ _ _ U m (or_introl eq_refl)) as [S (r & P)]. unfold at_place in P.
      destruct (dget f (place m)) as [text|] eqn:F.
      2:{ unfold copy_module in C. destruct (dest m r (under m S) P) as (rel & R & _). rewrite R in C. cbn [bind] in C.
          unfold Copy_Model.place in C. rewrite F in C. discriminate C. }
      assert (WM : forall s, startswith s dir = true -> In s (included_sources text) -> wanted f (m :: ms) s).
      { intros s S' I. split; [exact S'|]. exists m, text. split; [left; reflexivity|]. split; [exact F|]. apply included_spec. exact I. }
      assert (G : forall s, In s (included_sources text) -> good s).
      { intros s I S'. pose proof (WM s S' I) as W. split; [exact (usual_sources _ _ _ _ _ _ _ U s W)|].
        intros q. exact (usual_apart _ _ _ _ _ _ _ U s (or_intror W) q). }
      assert (N : forall q, place m <> T ++ q) by (intros q; apply (usual_apart _ _ _ _ _ _ _ U); left; left; reflexivity).
      destruct (copy_module_spec f out0 m r text f2 out2 S P N F G C) as (f1 & m' & A & [P' N'] & -> & X).
      pose proof (step_usual f m ms text r f1 U F P A) as Y. cbv zeta in Y. rewrite <- X in Y. destruct Y as (LM & W & U').
      destruct (IH f2 (out0 ++ [m']) g out U' E) as (out1 & -> & IA). exists (m' :: out1). rewrite <- app_assoc. split; [reflexivity|].
      destruct IA as [IS IM IO IT].
      assert (WS : forall s, wanted f (m :: ms) s -> (In s (included_sources text) /\ startswith s dir = true) \/ wanted f2 ms s).
      { intros s (S' & m1 & t & [<-|I] & C1 & J).
        - left. split; [|exact S']. unfold Copy_Spec.content in C1. rewrite F in C1. injection C1 as <-. apply included_spec. exact J.
        - right. apply W. split; [exact S'|]. exists m1, t. auto. }
      assert (NR : forall s q, wanted f (m :: ms) s -> place s = D ++ q -> q <> r).
      { intros s q W1 P1 ->. apply (usual_kinds _ _ _ _ _ _ _ U m s (or_introl eq_refl) W1). congruence. }
      assert (F2T : forall q, q <> r -> dget f2 (T ++ q) = dget f1 (T ++ q)).
      { intros q Q. rewrite X. apply dget_dset_other. intros E'. apply app_inv_head in E'. auto. }
      assert (DD : forall s q, wanted f (m :: ms) s -> place s = D ++ q -> dget f1 (D ++ q) = dget f (D ++ q) /\ dget f2 (D ++ q) = dget f (D ++ q)).
      { intros s q W1 P1. assert (N1 : forall q', D ++ q <> T ++ q').
        { intros q'. rewrite <- P1. apply (usual_apart _ _ _ _ _ _ _ U). right. exact W1. }
        assert (X1 : dget f1 (D ++ q) = dget f (D ++ q)).
        { apply (as_others _ _ _ A). intros (s' & q' & _ & _ & _ & E'). destruct (N1 _ E'). }
        split; [exact X1|]. rewrite X, dget_dset_other; [exact X1|apply N1]. }
      split.
      + assert (IS' : forall s r, wanted f2 ms s -> place s = D ++ r ->
          dget g (T ++ r) = match dget f2 (T ++ r) with Some c => Some c | None => dget f2 (D ++ r) end /\ dget g (T ++ r) <> None).
        { intros s q W1 P1. rewrite <- P1. exact (IS s q W1 P1). }
        intros s q W1 P1. unfold at_place in P1. unfold Copy_Spec.content. rewrite P1. pose proof (NR s q W1 P1) as Q. destruct (WS s W1) as [[I S']|W2].
        * destruct (as_copied _ _ _ A s q (proj2 (order_same _ _) I) S' P1) as [A1 A2].
          assert (Z : dget g (T ++ q) = dget f1 (T ++ q)).
          { destruct (dget f1 (T ++ q)) as [c|] eqn:F1; [|congruence].
            pose proof (F2T q Q) as F2. rewrite F1 in F2.
            (* whether later modules name it, too, or not *)
            destruct (dget g (T ++ q)) as [c'|] eqn:GE.
            - f_equal. destruct (string_dec c' c) as [->|NE]; [reflexivity|exfalso].
              assert (H : ~ ~ (exists s r0, (wanted f2 ms s \/ In s ms) /\ place s = D ++ r0 /\ T ++ q = T ++ r0)).
              { intros H. apply IO in H. congruence. }
              apply H. intros (s1 & q1 & H1 & P2 & E1). apply app_inv_head in E1. subst q1. destruct H1 as [H1|H1].
              + destruct (IS' s1 q H1 P2) as [B1 _]. rewrite F2 in B1. congruence.
              + apply (usual_kinds _ _ _ _ _ _ _ U s1 s (or_intror H1) W1). congruence.
            - exfalso.
              assert (H : ~ ~ (exists s r0, (wanted f2 ms s \/ In s ms) /\ place s = D ++ r0 /\ T ++ q = T ++ r0)).
              { intros H. apply IO in H. congruence. }
              apply H. intros (s1 & q1 & H1 & P2 & E1). apply app_inv_head in E1. subst q1. destruct H1 as [H1|H1].
              + destruct (IS' s1 q H1 P2) as [B1 _]. rewrite F2 in B1. congruence.
              + apply (usual_kinds _ _ _ _ _ _ _ U s1 s (or_intror H1) W1). congruence. }
          rewrite Z. auto.
        * destruct (IS' s q W2 P1) as [B1 B2]. split; [|exact B2]. rewrite B1, (F2T q Q).
          rewrite (proj2 (DD s q W1 P1)).
          destruct (dget f (T ++ q)) as [c|] eqn:F0; [rewrite (as_kept _ _ _ A _ _ F0); reflexivity|].
          destruct (dget f1 (T ++ q)) as [c|] eqn:F1; [|reflexivity].
          assert (H : ~ ~ hits (order (included_sources text)) (T ++ q)).
          { intros H. rewrite (as_others _ _ _ A _ H) in F1. congruence. }
          destruct (dget f (D ++ q)) as [c'|] eqn:FD.
          -- f_equal. destruct (string_dec c c') as [->|NE]; [reflexivity|exfalso]. apply H.
             intros (s1 & q1 & I1 & S1 & P2 & E1). apply app_inv_head in E1. subst q1.
             destruct (as_copied _ _ _ A s1 q I1 S1 P2) as [A1 _]. rewrite F0 in A1. congruence.
          -- exfalso. apply H. intros (s1 & q1 & I1 & S1 & P2 & E1). apply app_inv_head in E1. subst q1.
             destruct (as_copied _ _ _ A s1 q I1 S1 P2) as [A1 _]. rewrite F0 in A1. congruence.
      + intros m1 q t [<-|I] P1 F1; unfold at_place in P1; unfold Copy_Spec.content in F1.
        * rewrite P in P1. apply app_inv_head in P1. subst q. assert (t = text) as -> by congruence.
          exists (moved_text dir target text). split; [|apply moved_spec; assumption].
          assert (F2 : dget f2 (T ++ r) = Some (moved_text dir target text)) by (rewrite X; apply dget_dset_same).
          rewrite <- F2. apply IO. intros (s1 & q1 & H1 & P2 & E1). apply app_inv_head in E1. subst q1. destruct H1 as [H1|H1].
          -- apply W in H1. apply (NR s1 r); [|exact P2|reflexivity].
             destruct H1 as (S1 & m2 & t2 & I2 & C2 & J2). split; [exact S1|]. exists m2, t2. split; [right; exact I2|auto].
          -- pose proof (usual_once _ _ _ _ _ _ _ U) as ND. inversion ND as [|? ? NI _]; subst. apply NI.
             rewrite P, <- P2. apply in_map. exact H1.
        * apply (IM m1 q t I P1). unfold Copy_Spec.content. rewrite (LM m1 I). exact F1.
      + intros p NH. rewrite IO.
        * rewrite X, dget_dset_other.
          -- apply (as_others _ _ _ A). intros (s1 & q1 & I1 & S1 & P2 & E1). apply NH. exists s1, q1. split; [|auto].
             left. apply WM; [exact S1|]. exact (proj1 (order_same _ _) I1).
          -- intros ->. apply NH. exists m, r. split; [right; left; reflexivity|auto].
        * intros (s1 & q1 & H1 & P2 & E1). apply NH. exists s1, q1. split; [|auto]. destruct H1 as [H1|H1]; [left|right; right; exact H1].
          apply W in H1. destruct H1 as (S1 & m2 & t2 & I2 & C2 & J2). split; [exact S1|]. exists m2, t2. split; [right; exact I2|auto].
      + constructor; [|exact IT]. split; [exists r; auto|]. apply (same_relpath m m' r); auto. apply under. exact S.
  Qed.

  Theorem copy_total modules : forall f out0, usual f modules ->
    (forall m, In m modules -> content f m <> None) -> (forall s, wanted f modules s -> content f s <> None) ->
    exists g out, fold_res (copy_module cwd order dir target) (f, out0) modules = Ok (g, out).
  Proof.
    induction modules as [|m ms IH]; intros f out0 U HM HS; cbn [fold_res]; [eauto|].
    destruct (usual_modules _ _ _ _ _ _ _ U m (or_introl eq_refl)) as [S (r & P)]. unfold at_place in P.
    pose proof (HM m (or_introl eq_refl)) as FM. unfold Copy_Spec.content in FM.
    destruct (dget f (place m)) as [text|] eqn:F; [|congruence].
    assert (WM : forall s, startswith s dir = true -> In s (included_sources text) -> wanted f (m :: ms) s).
    { intros s S' I. split; [exact S'|]. exists m, text. split; [left; reflexivity|]. split; [exact F|]. apply included_spec. exact I. }
    assert (G : forall s, In s (included_sources text) -> good s).
    { intros s I S'. pose proof (WM s S' I) as W. split; [exact (usual_sources _ _ _ _ _ _ _ U s W)|].
      intros q. exact (usual_apart _ _ _ _ _ _ _ U s (or_intror W) q). }
    destruct (copy_module_total f out0 m r text S P F) as (f2 & out2 & C).
    { intros s I. split; [apply G; exact I|]. intros S'. apply HS. apply WM; assumption. }
    match goal with |- context [copy_module ?a ?b ?c ?d ?e ?g] => replace (copy_module a b c d e g) with (Ok (f2, out2)) by (symmetry; exact C) end.
    assert (N : forall q, place m <> T ++ q) by (intros q; apply (usual_apart _ _ _ _ _ _ _ U); left; left; reflexivity).
    destruct (copy_module_spec f out0 m r text f2 out2 S P N F G C) as (f1 & m' & A & [P' N'] & -> & X).
    pose proof (step_usual f m ms text r f1 U F P A) as Y. cbv zeta in Y. rewrite <- X in Y. destruct Y as (LM & W & U').
    apply IH; [exact U'| |].
    - intros m1 I. unfold Copy_Spec.content. rewrite (LM m1 I). apply HM. right. exact I.
    - intros s W1. apply W in W1. assert (W2 : wanted f (m :: ms) s).
      { destruct W1 as (S1 & m2 & t2 & I2 & C2 & J2). split; [exact S1|]. exists m2, t2. split; [right; exact I2|auto]. }
      unfold Copy_Spec.content. specialize (HS s W2). unfold Copy_Spec.content in HS.
      rewrite X, dget_dset_other; [|apply (usual_apart _ _ _ _ _ _ _ U); right; exact W2].
      destruct (dget f (place s)) as [c|] eqn:FS; [|congruence]. rewrite (as_kept _ _ _ A _ _ FS). discriminate.
  Qed.
End Files.
