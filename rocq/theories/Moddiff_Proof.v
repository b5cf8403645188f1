(** * Proofs about the comparison of all modules that use a global variable *)
From Coq Require Import String Arith Bool Lia List.
From Verif Require Import PyBase Result_Model Result_Spec Result_Proofs Moddiff_Model Moddiff_Spec.
Import ListNotations.
Open Scope list_scope.

Section Proof.
  Context {G M : Type}.
  Variables (w : world G M) (g : string).
  Implicit Types r o : result G.

  (** The functions that are compared, in order. *)
  Fixpoint scan (m1 m2 : M) (fs funs2 : list string) : list string :=
    match fs with
    | [] => []
    | f :: rest =>
      if mem f funs2 then
        if has_function w m1 f && has_function w m2 f then f :: scan m1 m2 rest funs2 else []
      else scan m1 m2 rest funs2
    end.

  Lemma scan_spec m1 m2 f : forall fs funs2,
    In f (scan m1 m2 fs funs2) <->
    exists l1 l2, fs = l1 ++ f :: l2 /\ In f funs2 /\
      forall h, In h (l1 ++ [f]) -> In h funs2 -> has_function w m1 h = true /\ has_function w m2 h = true.
  Proof.
    intros fs funs2. induction fs as [|x r IH]; simpl.
    - split; [intros []|]. intros (l1 & l2 & E & _). destruct l1; discriminate.
    - destruct (mem x funs2) eqn:Em.
      + apply mem_In in Em. destruct (has_function w m1 x && has_function w m2 x) eqn:Eh.
        * apply andb_true_iff in Eh. simpl. rewrite IH. split.
          -- intros [->|(l1 & l2 & -> & Hf & Hh)].
             ++ exists [], r. split; auto. split; auto. intros h [<-|[]] _. auto.
             ++ exists (x :: l1), l2. split; auto. split; auto. intros h [<-|Hi] Hu; auto.
          -- intros (l1 & l2 & E & Hf & Hh). destruct l1 as [|y l1]; simpl in E; injection E as -> ->; auto.
             right. exists l1, l2. split; auto. split; auto. intros h Hi. apply Hh. right. auto.
        * split; [intros []|]. intros (l1 & l2 & E & Hf & Hh). exfalso.
          assert (Hx : has_function w m1 x = true /\ has_function w m2 x = true).
          { apply Hh; auto. destruct l1 as [|y l1]; simpl in E; injection E as -> ->; simpl; auto. }
          destruct Hx as [Hx1 Hx2]. rewrite Hx1, Hx2 in Eh. discriminate.
      + assert (Hn : ~ In x funs2) by (intros Hi; apply mem_In in Hi; congruence).
        rewrite IH. split.
        * intros (l1 & l2 & -> & Hf & Hh). exists (x :: l1), l2. split; auto. split; auto.
          intros h [<-|Hi] Hu; [contradiction | auto].
        * intros (l1 & l2 & E & Hf & Hh). destruct l1 as [|y l1]; simpl in E; injection E as -> ->; [contradiction|].
          exists l1, l2. split; auto. split; auto. intros h Hi. apply Hh. right. auto.
  Qed.

  Lemma scan_incl m1 m2 funs2 fs f : In f (scan m1 m2 fs funs2) -> In f fs.
  Proof. intros H. apply scan_spec in H. destruct H as (l1 & l2 & -> & _). apply in_or_app. right. left. auto. Qed.

  Lemma scan_NoDup m1 m2 funs2 fs : NoDup fs -> NoDup (scan m1 m2 fs funs2).
  Proof.
    induction 1 as [|x r Hx Hr IH]; simpl; [constructor|]. destruct (mem x funs2); auto.
    destruct (has_function w m1 x && has_function w m2 x); [|constructor]. constructor; auto.
    intros Hi. apply scan_incl in Hi. contradiction.
  Qed.

  Lemma dset_new (d : dict string (result G)) k v : ~ In k (dkeys d) -> dset d k v = d ++ [(k, v)].
  Proof.
    induction d as [|[k' v'] d IH]; simpl; auto. intros Hn.
    destruct (String.eqb_spec k k') as [->|]; [exfalso; auto|]. f_equal. apply IH. auto.
  Qed.

  (** The loop: an exception of the first function that raises one, else all results are inside. *)
  Lemma loop_spec m1 m2 funs2 (Hnamed : forall f r, fdiff w m1 m2 f = Ok r -> en_name (r_first r) = f) :
    forall fs r, NoDup fs -> (forall f, In f fs -> ~ In f (dkeys (r_inner r))) ->
    match map_res (fdiff w m1 m2) (scan m1 m2 fs funs2) with
    | Err e => modules_loop w m1 m2 fs funs2 r = Err e
    | Ok rs => exists r', modules_loop w m1 m2 fs funs2 r = Ok r' /\ dvals (r_inner r') = dvals (r_inner r) ++ rs
    end.
  Proof.
    induction fs as [|f rest IH]; intros r Hd Hfresh; simpl.
    - exists r. rewrite app_nil_r. auto.
    - inversion Hd as [|? ? Hf Hrest]; subst.
      destruct (mem f funs2); simpl.
      2:{ apply IH; auto. intros h Hh. apply Hfresh. right. auto. }
      destruct (has_function w m1 f); simpl; [|exists (set_kind ERROR r); rewrite app_nil_r; auto].
      destruct (has_function w m2 f); simpl; [|exists (set_kind ERROR r); rewrite app_nil_r; auto].
      destruct (fdiff w m1 m2 f) as [fr|e] eqn:Efd; simpl; [|reflexivity].
      destruct (add_inner_ok r fr) as (r1 & E1 & _ & _ & Ei & _). rewrite E1. simpl.
      pose proof (Hnamed _ _ Efd) as Hn. rewrite Hn in Ei.
      rewrite dset_new in Ei by (apply Hfresh; left; auto).
      assert (Hfresh1 : forall h, In h rest -> ~ In h (dkeys (r_inner r1))).
      { intros h Hh Hk. rewrite Ei in Hk. unfold dkeys in Hk. rewrite map_app in Hk. apply in_app_or in Hk.
        destruct Hk as [Hk|[<-|[]]]; [|contradiction]. eapply Hfresh; [right; exact Hh | exact Hk]. }
      specialize (IH r1 Hrest Hfresh1).
      destruct (map_res (fdiff w m1 m2) (scan m1 m2 rest funs2)) as [rs|e]; simpl; [|exact IH].
      destruct IH as (r' & E' & Ev). exists r'. split; auto. rewrite Ev, Ei. unfold dvals. rewrite map_app.
      simpl. rewrite <- app_assoc. reflexivity.
  Qed.

  Lemma map_res_ok {A B} (f : A -> res B) l rs : map_res f l = Ok rs ->
    (forall x, In x l -> exists y, f x = Ok y /\ In y rs) /\ (forall y, In y rs -> exists x, In x l /\ f x = Ok y).
  Proof.
    revert rs. induction l as [|x l IH]; simpl; intros rs E.
    - injection E as <-. split; intros ? [].
    - destruct (f x) as [y|e] eqn:Ex; [|discriminate]. destruct (map_res f l) as [ys|e]; [|discriminate].
      injection E as <-. destruct (IH ys eq_refl) as [H1 H2]. split.
      + intros z [<-|Hz]; [exists y; simpl; auto|]. destruct (H1 z Hz) as (y' & ? & ?). exists y'; simpl; auto.
      + intros z [<-|Hz]; [exists x; auto|]. destruct (H2 z Hz) as (x' & ? & ?). exists x'; auto.
  Qed.

  Lemma map_res_err {A B} (f : A -> res B) l e : map_res f l = Err e -> exists x, In x l /\ f x = Err e.
  Proof.
    induction l as [|x l IH]; simpl; [discriminate|]. destruct (f x) as [y|e'] eqn:Ex.
    - destruct (map_res f l) as [ys|e'']; [discriminate|]. intros [= <-]. destruct IH as (x' & ? & ?); auto. exists x'; auto.
    - intros [= <-]. exists x; auto.
  Qed.

  Lemma compared_scan m1 m2 f : In f (scan m1 m2 (users w m1 g) (users w m2 g)) <-> compared w g m1 m2 f.
  Proof. apply scan_spec. Qed.

  (** One source that is in both versions. *)
  Lemma source_spec src r : proper w g -> In src (srcs1 w g) -> In src (srcs2 w g) ->
    match diff_source w g src r with
    | Err BuildException => not_built w g src
    | Err _ => True
    | Ok r' => ~ not_built w g src /\
               exists rs, add_inners r rs = Ok r' /\
               forall x, In x rs <-> exists m1 m2 f, both w g src m1 m2 /\ compared w g m1 m2 f /\ fdiff w m1 m2 f = Ok x
    end.
  Proof.
    intros [Hset Hnamed] H1 H2. unfold diff_source.
    destruct (build1 w src) as [m1|e] eqn:B1; simpl.
    2:{ destruct e; auto. split; auto. }
    destruct (build2 w src) as [m2|e] eqn:B2; simpl.
    2:{ destruct e; auto. split; auto. split; auto. right. left. eauto. }
    destruct (has_global w m1 g && has_global w m2 g) eqn:Eg; simpl.
    - apply andb_true_iff in Eg. destruct Eg as [Eg1 Eg2].
      assert (Hb : both w g src m1 m2) by (repeat split; auto).
      assert (Huniq : forall n1 n2, both w g src n1 n2 -> n1 = m1 /\ n2 = m2).
      { intros n1 n2 (_ & _ & E1 & E2 & _). split; congruence. }
      unfold modules_diff. simpl.
      pose proof (loop_spec m1 m2 (users w m2 g) (fun f r => Hnamed m1 m2 f r) (users w m1 g)
                    (new_result NONE (mod_name w m1) (mod_name w m2)) (Hset m1) ltac:(intros ? ? [])) as HL.
      destruct (map_res (fdiff w m1 m2) (scan m1 m2 (users w m1 g) (users w m2 g))) as [rs|e] eqn:Emap.
      + destruct HL as (sr & -> & Ev). simpl in *. rewrite Ev. 
        destruct (add_inners_total r rs) as [r' Er']. rewrite Er'.
        destruct (map_res_ok _ _ _ Emap) as [M1 M2]. split.
        * intros (_ & _ & [E|[(n & E & E')|(n1 & n2 & f & Hn & Hc & Hf)]]); try congruence.
          destruct (Huniq _ _ Hn) as [-> ->]. apply compared_scan in Hc. destruct (M1 f Hc) as (y & Hy & _). congruence.
        * exists rs. split; auto. intros x. split.
          -- intros Hx. destruct (M2 x Hx) as (f & Hf & Ef). apply compared_scan in Hf. exists m1, m2, f. auto.
          -- intros (n1 & n2 & f & Hn & Hc & Hf). destruct (Huniq _ _ Hn) as [-> ->]. apply compared_scan in Hc.
             destruct (M1 f Hc) as (y & Hy & Hi). congruence.
      + rewrite HL. simpl. destruct e; auto.
        destruct (map_res_err _ _ _ Emap) as (f & Hf & Ef). apply compared_scan in Hf.
        split; auto. split; auto. right. right. exists m1, m2, f. auto.
    - split.
      + intros (_ & _ & [E|[(n & E & E')|(n1 & n2 & f & (_ & _ & E1 & E2 & G1 & G2) & _)]]); try congruence.
        assert (n1 = m1) by congruence. assert (n2 = m2) by congruence. subst. rewrite G1, G2 in Eg. discriminate.
      + exists []. split; auto. intros x. split; [intros []|].
        intros (n1 & n2 & f & (_ & _ & E1 & E2 & G1 & G2) & _).
        assert (n1 = m1) by congruence. assert (n2 = m2) by congruence. subst. rewrite G1, G2 in Eg. discriminate.
  Qed.

  (** The parts that come from one source. *)
  Inductive part_of (src : string) : string -> kind -> Prop :=
  | po_first : In src (srcs1 w g) -> ~ In src (srcs2 w g) -> part_of src src NOT_EQUAL
  | po_build : not_built w g src -> part_of src src ERROR
  | po_pair m1 m2 f r : both w g src m1 m2 -> ~ not_built w g src -> compared w g m1 m2 f -> fdiff w m1 m2 f = Ok r ->
      part_of src f (r_kind r).

  Lemma part_of_part n k : part w g n k <-> exists src, In src (srcs1 w g) /\ part_of src n k.
  Proof.
    split.
    - intros [src H1 H2|src H|src m1 m2 f r H1 H2 H3 H4].
      + exists src. split; auto. constructor; auto.
      + exists src. split; [apply H|]. constructor; auto.
      + exists src. split; [apply H1|]. econstructor; eauto.
    - intros (src & _ & [H1 H2|H|m1 m2 f r H1 H2 H3 H4]).
      + constructor; auto.
      + constructor; auto.
      + econstructor; eauto.
  Qed.

  Lemma one_spec src r r' : proper w g -> In src (srcs1 w g) -> diff_one w g (srcs2 w g) r src = Ok r' ->
    exists rs, add_inners r rs = Ok r' /\ forall n k, part_of src n k <-> exists x, In x rs /\ en_name (r_first x) = n /\ r_kind x = k.
  Proof.
    intros Hp Hs. unfold diff_one. destruct (mem src (srcs2 w g)) eqn:Em; simpl.
    - apply mem_In in Em. pose proof (source_spec src r Hp Hs Em) as HS.
      destruct (diff_source w g src r) as [r1|e].
      + intros [= <-]. destruct HS as (Hnb & rs & Er & Hx). exists rs. split; auto. intros n k. split.
        * intros [H1 H2|H|m1 m2 f x H1 H2 H3 H4]; try contradiction.
          exists x. split; [apply Hx; eauto 8|]. split; auto. eapply (proj2 Hp); eauto.
        * intros (x & Hi & <- & <-). apply Hx in Hi. destruct Hi as (m1 & m2 & f & Hb & Hc & Hf).
          rewrite (proj2 Hp _ _ _ _ Hf). econstructor; eauto.
      + assert (Hcase : e = BuildException \/ (match e with BuildException => add_inner r (new_result ERROR src src) | _ => Err e end) = Err e).
        { destruct e; auto. }
        intros Ho. destruct Hcase as [->|Hc].
        * exists [new_result ERROR src src]. split; [rewrite add_inners_cons, Ho; reflexivity|].
          intros n k. split.
          -- intros [H1 H2|H|m1 m2 f x H1 H2 H3 H4]; try contradiction. eexists. split; [left; reflexivity|]. auto.
          -- intros (x & [<-|[]] & <- & <-). simpl. constructor. auto.
        * exfalso. destruct e; congruence.
    - assert (Hn : ~ In src (srcs2 w g)) by (intros Hi; apply mem_In in Hi; congruence).
      intros Ho. exists [new_result NOT_EQUAL src src]. split; [rewrite add_inners_cons, Ho; reflexivity|].
      intros n k. split.
      + intros [H1 H2|H|m1 m2 f x H1 H2 H3 H4].
        * eexists. split; [left; reflexivity|]. auto.
        * exfalso. apply Hn. apply H.
        * exfalso. apply Hn. apply H1.
      + intros (x & [<-|[]] & <- & <-). simpl. constructor; auto.
  Qed.

  Lemma add_inners_app o a b : add_inners o (a ++ b) = match add_inners o a with Ok o' => add_inners o' b | Err e => Err e end.
  Proof.
    revert o. induction a as [|x a IH]; intros o; [reflexivity|]. simpl app. rewrite !add_inners_cons.
    destruct (add_inner o x); auto.
  Qed.

  Lemma all_spec : proper w g -> forall l r r', (forall s, In s l -> In s (srcs1 w g)) ->
    fold_res (diff_one w g (srcs2 w g)) r l = Ok r' ->
    exists rs, add_inners r rs = Ok r' /\
      forall n k, (exists src, In src l /\ part_of src n k) <-> exists x, In x rs /\ en_name (r_first x) = n /\ r_kind x = k.
  Proof.
    intros Hp. induction l as [|s l IH]; simpl; intros r r' Hl E.
    - injection E as <-. exists []. split; auto. intros n k. split; [intros (? & [] & _) | intros (? & [] & _)].
    - destruct (diff_one w g (srcs2 w g) r s) as [r1|e] eqn:E1; [|discriminate].
      destruct (one_spec s r r1 Hp (Hl s (or_introl eq_refl)) E1) as (rs1 & Er1 & H1).
      destruct (IH r1 r' (fun x Hx => Hl x (or_intror Hx)) E) as (rs2 & Er2 & H2).
      exists (rs1 ++ rs2). split; [rewrite add_inners_app, Er1; auto|]. intros n k. split.
      + intros (src & [<-|Hi] & Hpart).
        * apply H1 in Hpart. destruct Hpart as (x & Hx & ?). exists x. split; auto. apply in_or_app. auto.
        * destruct (proj1 (H2 n k)) as (x & Hx & ?); eauto. exists x. split; auto. apply in_or_app. auto.
      + intros (x & Hx & Hnk). apply in_app_or in Hx. destruct Hx as [Hx|Hx].
        * exists s. split; auto. apply H1. eauto.
        * destruct (proj2 (H2 n k)) as (src & ? & ?); eauto.
  Qed.
End Proof.
