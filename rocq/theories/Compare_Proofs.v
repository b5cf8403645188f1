(** * Proofs about the compare command *)
From Coq Require Import String Ascii ZArith Arith Bool Lia List Sorted Permutation.
From Coq Require Import DecimalString DecimalNat.
From Verif Require Import PyBase Path_Model Result_Model Result_Spec Result_Proofs Cache_Proofs Snapshot_Model Snapshot_Spec Snapshot_Proofs
  Compare_Model Compare_Spec.
Import ListNotations.
Open Scope list_scope.

(** ** String order *)
Lemma ascii_compare_trans a b c : Ascii.compare a b = Lt -> Ascii.compare b c = Lt -> Ascii.compare a c = Lt.
Proof. unfold Ascii.compare. rewrite !N.compare_lt_iff. apply N.lt_trans. Qed.
Lemma ascii_compare_eq a b : Ascii.compare a b = Eq -> a = b.
Proof.
  unfold Ascii.compare. rewrite N.compare_eq_iff. intros E.
  rewrite <- (ascii_N_embedding a), <- (ascii_N_embedding b), E. reflexivity.
Qed.
Lemma ascii_compare_refl a : Ascii.compare a a = Eq.
Proof. unfold Ascii.compare. apply N.compare_refl. Qed.
Lemma compare_refl_s a : String.compare a a = Eq.
Proof. induction a as [|x a IH]; cbn [String.compare]; [reflexivity|]. rewrite ascii_compare_refl. exact IH. Qed.
Lemma compare_lt_trans a : forall b c, String.compare a b = Lt -> String.compare b c = Lt -> String.compare a c = Lt.
Proof.
  induction a as [|x a IH]; intros [|y b] [|z c]; cbn [String.compare]; try discriminate; auto.
  destruct (Ascii.compare x y) eqn:E1; try discriminate.
  - apply ascii_compare_eq in E1. subst y. destruct (Ascii.compare x z); try discriminate; auto. apply IH.
  - intros _. destruct (Ascii.compare y z) eqn:E2; try discriminate.
    + apply ascii_compare_eq in E2. subst z. rewrite E1. auto.
    + intros _. rewrite (ascii_compare_trans _ _ _ E1 E2). reflexivity.
Qed.
Lemma ltb_trans a b c : String.ltb a b = true -> String.ltb b c = true -> String.ltb a c = true.
Proof.
  unfold String.ltb. destruct (String.compare a b) eqn:E1; try discriminate.
  destruct (String.compare b c) eqn:E2; try discriminate. rewrite (compare_lt_trans _ _ _ E1 E2). reflexivity.
Qed.
Lemma ltb_irrefl a : String.ltb a a = false.
Proof. unfold String.ltb. rewrite compare_refl_s. reflexivity. Qed.
Lemma leb_ltb a b : String.leb a b = true -> a <> b -> String.ltb a b = true.
Proof.
  unfold String.leb, String.ltb. destruct (String.compare a b) eqn:E; try discriminate; auto.
  apply String.compare_eq_iff in E. congruence.
Qed.
Lemma nleb_ltb a b : String.leb a b = false -> String.ltb b a = true.
Proof.
  unfold String.leb, String.ltb. rewrite (String.compare_antisym b a).
  destruct (String.compare a b); try discriminate. reflexivity.
Qed.

Section SortP.
  Context {V : Type}.
  Definition item_lt (a b : string * V) : Prop := String.ltb (fst a) (fst b) = true.
  Lemma insert_perm (x : string * V) l : Permutation (x :: l) (insert_item x l).
  Proof.
    induction l as [|y l IH]; cbn [insert_item]; [reflexivity|].
    destruct (String.leb (fst x) (fst y)); [reflexivity|]. rewrite perm_swap. apply perm_skip, IH.
  Qed.
  Lemma sort_perm (l : list (string * V)) : Permutation l (sort_items l).
  Proof. induction l as [|x l IH]; cbn [sort_items]; [constructor|]. rewrite <- insert_perm. apply perm_skip, IH. Qed.
  Lemma insert_sorted (x : string * V) l : ~ In (fst x) (map fst l) -> StronglySorted item_lt l ->
    StronglySorted item_lt (insert_item x l).
  Proof.
    intros N S. induction S as [|y l S IH F]; cbn [insert_item]; [constructor; constructor|].
    cbn [map In] in N. destruct (String.leb (fst x) (fst y)) eqn:E.
    - constructor; [constructor; assumption|]. assert (L : item_lt x y) by (apply leb_ltb; auto).
      constructor; [exact L|]. eapply Forall_impl; [|exact F]. intros z Z. eapply ltb_trans; eassumption.
    - constructor; [apply IH; auto|]. apply Forall_forall. intros z I.
      apply (Permutation_in _ (Permutation_sym (insert_perm x l))) in I as [<-|I].
      + apply nleb_ltb, E.
      + eapply Forall_forall in F; eauto.
  Qed.
  Lemma sort_sorted (l : list (string * V)) : NoDup (map fst l) -> StronglySorted item_lt (sort_items l).
  Proof.
    induction l as [|x l IH]; cbn [sort_items map]; intros N; [constructor|]. inversion N; subst.
    apply insert_sorted; [|auto]. intros I. apply H1.
    eapply Permutation_in; [|exact I]. apply Permutation_map, Permutation_sym, sort_perm.
  Qed.
End SortP.

Lemma ss_app {A} (R : A -> A -> Prop) l1 l2 : StronglySorted R l1 -> StronglySorted R l2 ->
  (forall x y, In x l1 -> In y l2 -> R x y) -> StronglySorted R (l1 ++ l2).
Proof.
  intros S1 S2 H. induction S1 as [|x l1 S1 IH F]; [exact S2|]. cbn [app]. constructor.
  - apply IH. intros y z I. apply H. right. exact I.
  - apply Forall_app. split; [exact F|]. apply Forall_forall. intros y I. apply H; [left; reflexivity|exact I].
Qed.
Lemma ss_map {A B} (R : A -> A -> Prop) (Q : B -> B -> Prop) (f : A -> B) l :
  (forall x y, R x y -> Q (f x) (f y)) -> StronglySorted R l -> StronglySorted Q (map f l).
Proof.
  intros H S. induction S as [|x l S IH F]; [constructor|]. cbn [map]. constructor; [exact IH|].
  apply Forall_map. eapply Forall_impl; [|exact F]. intros y. apply H.
Qed.

(** ** The groups in order *)
Definition group_lt (a b : option string * group) : Prop :=
  exists x y, fst a = Some x /\ fst b = Some y /\ String.ltb x y = true.
Lemma named_unnamed s : Permutation s (map (fun x => (Some (fst x), snd x)) (named_groups s) ++ unnamed_groups s).
Proof.
  induction s as [|[[g|] fs] s IH]; [constructor| |]; unfold named_groups, unnamed_groups in *; cbn [flat_map fst snd app map].
  - apply perm_skip, IH.
  - rewrite IH at 1. apply Permutation_middle.
Qed.
Lemma named_NoDup s : NoDup (dkeys s) -> NoDup (map fst (named_groups s)).
Proof.
  intros N. pose proof (Permutation_map fst (named_unnamed s)) as P. rewrite map_app in P.
  apply (Permutation_NoDup P) in N. assert (N1 : NoDup (map fst (map (fun x : string * group => (Some (fst x), snd x)) (named_groups s)))).
  { clear P. induction (map fst (map (fun x : string * group => (Some (fst x), snd x)) (named_groups s))) as [|y l IH]; [constructor|].
    cbn [app] in N. inversion N as [|? ? N1 N2]; subst. constructor; [|auto]. intros I. apply N1, in_app_iff. auto. }
  rewrite map_map in N1. cbn [fst] in N1. rewrite <- (map_map fst Some) in N1. exact (NoDup_map_inv _ _ N1).
Qed.
Lemma unnamed_one s : NoDup (dkeys s) -> length (unnamed_groups s) <= 1.
Proof.
  intros N. pose proof (Permutation_map fst (named_unnamed s)) as P. rewrite map_app in P.
  apply (Permutation_NoDup P) in N.
  assert (N2 : NoDup (map fst (unnamed_groups s))).
  { clear P. induction (map fst (map (fun x : string * group => (Some (fst x), snd x)) (named_groups s))) as [|y l IH]; [exact N|].
    cbn [app] in N. inversion N; auto. }
  assert (A : forall k, In k (map fst (unnamed_groups s)) -> k = None).
  { intros k I. apply in_map_iff in I as ([g fs] & <- & I). apply in_flat_map in I as ([[g2|] fs2] & _ & I); cbn in I;
      [destruct I|destruct I as [I|[]]; injection I as <- <-; reflexivity]. }
  rewrite <- (map_length fst). destruct (map fst (unnamed_groups s)) as [|a [|b l]]; cbn; try lia.
  inversion N2 as [|? ? I _]; subst. exfalso. apply I. left.
  rewrite (A a), (A b); [reflexivity|right; left; reflexivity|left; reflexivity].
Qed.
Lemma sorted_groups_spec s gs : NoDup (dkeys s) -> sorted_groups s = Ok gs ->
  Permutation s gs /\ StronglySorted group_lt gs.
Proof.
  intros N. unfold sorted_groups. pose proof (named_unnamed s) as P. pose proof (unnamed_one s N) as U.
  pose proof (named_NoDup s N) as M.
  destruct (unnamed_groups s) as [|u us].
  - rewrite app_nil_r in P.
    assert (E : forall ns, Ok (map (fun x : string * group => (Some (fst x), snd x)) (sort_items ns)) = Ok gs ->
      ns = named_groups s -> Permutation s gs /\ StronglySorted group_lt gs).
    { intros ns E ->. apply Ok_inj in E. subst gs. split.
      - rewrite P at 1. apply Permutation_map, sort_perm.
      - eapply ss_map; [|apply sort_sorted, M]. intros [x a] [y b] L. exists x, y. auto. }
    destruct (named_groups s) eqn:Q; intros H; eapply E; eauto.
  - destruct (named_groups s) eqn:Q; [|discriminate]. intros E. apply Ok_inj in E. subst gs.
    split; [exact P|]. destruct us; [|cbn in U; lia]. constructor; constructor.
Qed.
Lemma sorted_groups_total s : (forall e, sorted_groups s = Err e ->
    e = TypeError /\ In None (dkeys s) /\ exists g, In (Some g) (dkeys s)).
Proof.
  intros e. unfold sorted_groups.
  assert (A : forall u us, unnamed_groups s = u :: us -> In None (dkeys s)).
  { intros u us E. assert (I : In u (unnamed_groups s)) by (rewrite E; left; reflexivity).
    apply in_flat_map in I as ([[g|] fs] & I & J); cbn in J; [destruct J|]. apply in_map_iff. exists (None, fs). auto. }
  assert (B : forall u us, named_groups s = u :: us -> exists g, In (Some g) (dkeys s)).
  { intros u us E. assert (I : In u (named_groups s)) by (rewrite E; left; reflexivity).
    apply in_flat_map in I as ([[g|] fs] & I & J); cbn in J; [|destruct J]. exists g. apply in_map_iff. exists (Some g, fs). auto. }
  destruct (named_groups s) as [|n ns] eqn:E1, (unnamed_groups s) as [|u us] eqn:E2; try discriminate.
  intros E. injection E as <-. repeat split; eauto.
Qed.

(** ** The loops *)
Section Loops.
  Context {G : Type}.
  Variables (an : analysis G) (o : copts) (s1 s2 : groups) (start : result G).

  Lemma add_inner_ok (a b : result G) : exists c, add_inner a b = Ok c.
  Proof. unfold add_inner. destruct (r_kind a), (r_kind b); cbn; eauto. Qed.
  Lemma add_inners_snoc (a : result G) l x b : add_inners a l = Ok b -> add_inners a (l ++ [x]) = add_inner b x.
  Proof.
    unfold add_inners. revert a. induction l as [|y l IH]; intros a; cbn [fold_res app].
    - intros E. apply Ok_inj in E. subst b. destruct (add_inner a x); reflexivity.
    - destruct (add_inner a y); [apply IH|discriminate].
  Qed.

  Lemma show_group_trace g (st : cstate G) : c_trace (show_group g st) = c_trace st /\ c_result (show_group g st) = c_result st
    /\ c_prev (show_group g st) = c_prev st.
  Proof. unfold show_group. destruct g; [destruct (c_printed st)|]; auto. Qed.
  Lemma make_dir_trace d (st : cstate G) : c_trace (make_dir d st) = c_trace st /\ c_result (make_dir d st) = c_result st
    /\ c_prev (make_dir d st) = c_prev st.
  Proof. unfold make_dir. destruct (mem d (c_dirs st)); auto. Qed.
  Lemma report_trace g f r (st : cstate G) : c_trace (report o g f r st) = c_trace st /\ c_result (report o g f r st) = c_result st
    /\ c_prev (report o g f r st) = c_prev st.
  Proof.
    unfold report. destruct (_ || _ || _ || _); [|auto]. destruct (_ || _).
    - set (st1 := match o_output o with Some d => _ | None => _ end).
      assert (E1 : c_trace st1 = c_trace st /\ c_result st1 = c_result st /\ c_prev st1 = c_prev st).
      { unfold st1. destruct (o_output o); [apply make_dir_trace|auto]. }
      set (st2 := match group_dir o g with Some d => _ | None => _ end).
      assert (E2 : c_trace st2 = c_trace st1 /\ c_result st2 = c_result st1 /\ c_prev st2 = c_prev st1).
      { unfold st2. destruct (group_dir o g); [apply make_dir_trace|apply show_group_trace]. }
      unfold show. cbn. intuition congruence.
    - unfold show. cbn. apply show_group_trace.
  Qed.

  (** The conditions on an entry made when the trace was [t]. *)
  Definition good_at (t : list (entry G)) (e : entry G) : Prop :=
    match e with
    | Compared c r =>
        ca_prev c = last_graph (ca_group c) t /\
        exists r0, an (calls_of t) c = Ok r0 /\ filter_result (o_regex o) r0 = Ok r
    | _ => True
    end.
  Definition good_trace (t : list (entry G)) : Prop := forall t1 e t2, t = t1 ++ e :: t2 -> good_at t1 e.
  Lemma good_nil : good_trace [].
  Proof. intros t1 e t2 E. destruct t1; discriminate. Qed.
  Lemma good_snoc t e : good_trace t -> good_at t e -> good_trace (t ++ [e]).
  Proof.
    intros T E t1 x t2 Q. destruct t2 as [|y t3 _] using rev_ind.
    - apply app_inj_tail in Q as [<- <-]. exact E.
    - rewrite app_comm_cons, app_assoc in Q. apply app_inj_tail in Q as [Q _]. eapply T, Q.
  Qed.

  Definition inv (st : cstate G) : Prop :=
    good_trace (c_trace st) /\ Forall (rightly_handled s1 s2) (c_trace st) /\
    add_inners start (flat_map contributed (c_trace st)) = Ok (c_result st).

  Lemma filter_result_graph rx (r r2 : result G) : filter_result rx r = Ok r2 -> r_graph r2 = r_graph r.
  Proof.
    unfold filter_result. destruct rx as [m|]; [|congruence].
    destruct (search_inner m _) as [b|]; [|discriminate]. cbn [bind]. intros E. apply Ok_inj in E. subst r2.
    destruct b; [reflexivity|]. destruct r; reflexivity.
  Qed.

  Lemma last_compared_snoc g (t : list (entry G)) e : last_compared g (t ++ [e]) =
    match e with Compared c r => if opt_eqb (ca_group c) g then Some r else last_compared g t | _ => last_compared g t end.
  Proof.
    induction t as [|x t IH]; cbn [app last_compared].
    - destruct e as [| |c r]; try reflexivity. 
    - rewrite IH. destruct e as [| |c r]; try reflexivity. destruct (opt_eqb (ca_group c) g); reflexivity.
  Qed.

  Lemma step_inv g st f old st2 : inv st -> get_by_name s1 f g = Some old -> c_prev st = last_graph g (c_trace st) ->
    compare_fun an o s2 g st (f, old) = Ok st2 ->
    inv st2 /\ c_prev st2 = last_graph g (c_trace st2) /\
    exists e, c_trace st2 = c_trace st ++ [e] /\ entry_key e = (g, f).
  Proof.
    intros (I1 & I2 & I3) L P. unfold compare_fun. destruct (get_by_name s2 f g) as [new|] eqn:N2.
    2:{ intros E. apply Ok_inj in E. subst st2. unfold inv. cbn [c_trace c_prev c_result]. split; [|split].
        - split; [|split].
          + apply good_snoc; [exact I1|exact Logic.I].
          + apply Forall_app. split; [exact I2|]. constructor; [exact N2|constructor].
          + rewrite flat_map_app. cbn [flat_map contributed app]. rewrite app_nil_r. exact I3.
        - unfold last_graph. rewrite last_compared_snoc. exact P.
        - eexists. split; [reflexivity|reflexivity]. }
    assert (NM : fd_mod old = None \/ fd_mod new = None ->
      (do total <- add_inner (c_result st) (new_result UNKNOWN f f);
       Ok (show (ShowLine g f UNKNOWN) (show_group g (mkCstate total (c_prev st) (c_printed st) (c_dirs st) (c_shown st)
              (c_trace st ++ [NoModule g f]))))) = Ok st2 ->
      inv st2 /\ c_prev st2 = last_graph g (c_trace st2) /\
      exists e, c_trace st2 = c_trace st ++ [e] /\ entry_key e = (g, f)).
    { intros M. destruct (add_inner (c_result st) (new_result UNKNOWN f f)) as [total|] eqn:A; [|discriminate].
      cbn [bind]. intros E. apply Ok_inj in E. subst st2.
      set (x := mkCstate total (c_prev st) (c_printed st) (c_dirs st) (c_shown st) (c_trace st ++ [NoModule g f])).
      destruct (show_group_trace g x) as (T1 & T2 & T3). unfold inv, show. cbn [c_trace c_result c_prev].
      rewrite T1, T2, T3. cbn [x c_trace c_result c_prev]. split; [|split].
      - split; [|split].
        + apply good_snoc; [exact I1|exact Logic.I].
        + apply Forall_app. split; [exact I2|]. constructor; [|constructor]. exists old, new. auto.
        + rewrite flat_map_app. cbn [flat_map contributed app]. rewrite (add_inners_snoc _ _ _ _ I3). exact A.
      - unfold last_graph. rewrite last_compared_snoc. exact P.
      - eexists. split; reflexivity. }
    destruct (fd_mod old) as [mo|] eqn:Mo; [|apply NM; auto].
    destruct (fd_mod new) as [mn|] eqn:Mn; [|apply NM; auto]. clear NM.
    set (c := mkCallArgs g f old new (c_prev st)).
    destruct (an (calls_of (c_trace st)) c) as [r|] eqn:A; [|discriminate]. cbn [bind].
    destruct (filter_result (o_regex o) r) as [r2|] eqn:F; [|discriminate]. cbn [bind].
    destruct (add_inner (c_result st) r2) as [total|] eqn:T; [|discriminate]. cbn [bind].
    intros E. apply Ok_inj in E. subst st2.
    set (x := mkCstate total (r_graph r) (c_printed st) (c_dirs st) (c_shown st) (c_trace st ++ [Compared c r2])).
    destruct (report_trace g f r2 x) as (T1 & T2 & T3). unfold inv.
    rewrite T1, T2, T3. cbn [x c_trace c_result c_prev]. split; [|split].
    - split; [|split].
      + apply good_snoc; [exact I1|]. cbn [good_at]. split; [exact P|]. exists r. auto.
      + apply Forall_app. split; [exact I2|]. constructor; [|constructor]. cbn.
        repeat split; try assumption; congruence.
      + rewrite flat_map_app. cbn [flat_map contributed app]. rewrite (add_inners_snoc _ _ _ _ I3). exact T.
    - unfold last_graph. rewrite last_compared_snoc. cbn [c ca_group].
      destruct (opt_eqb_spec g g); [|congruence]. symmetry. eapply filter_result_graph, F.
    - eexists. split; reflexivity.
  Qed.

  Lemma funs_inv g l : forall st st2, inv st -> (forall f old, In (f, old) l -> get_by_name s1 f g = Some old) ->
    c_prev st = last_graph g (c_trace st) ->
    fold_res (compare_fun an o s2 g) st l = Ok st2 ->
    inv st2 /\ map entry_key (c_trace st2) = map entry_key (c_trace st) ++ map (fun fd => (g, fst fd)) l.
  Proof.
    induction l as [|[f old] l IH]; intros st st2 I L P; cbn [fold_res].
    - intros E. apply Ok_inj in E. subst st2. rewrite app_nil_r. auto.
    - destruct (compare_fun an o s2 g st (f, old)) as [st1|] eqn:E1; [|discriminate]. intros E2.
      destruct (step_inv g st f old st1 I (L f old (or_introl eq_refl)) P E1) as (I1 & P1 & e & T & K).
      destruct (IH st1 st2 I1) as [I2 T2]; [intros f2 old2 J; apply L; right; exact J|exact P1|exact E2|].
      split; [exact I2|]. rewrite T2, T, map_app. cbn [map fst]. rewrite K, <- app_assoc. reflexivity.
  Qed.

  Lemma last_none g (t : list (entry G)) : ~ In g (map fst (map entry_key t)) -> last_compared g t = None.
  Proof.
    induction t as [|e t IH]; [reflexivity|]. cbn [map In last_compared]. intros N. rewrite IH by auto.
    destruct e as [| |c r]; try reflexivity. cbn [entry_key fst] in N.
    destruct (opt_eqb_spec (ca_group c) g) as [E|_]; [exfalso; auto|reflexivity].
  Qed.

  Lemma groups_inv gs : forall st st2, inv st ->
    (forall g fs f old, In (g, fs) gs -> In (f, old) fs -> get_by_name s1 f g = Some old) ->
    NoDup (map fst gs) -> (forall g, In g (map fst gs) -> ~ In g (map fst (map entry_key (c_trace st)))) ->
    fold_res (compare_group an o s2) st gs = Ok st2 ->
    inv st2 /\ map entry_key (c_trace st2) =
      map entry_key (c_trace st) ++ flat_map (fun kg => map (fun fd => (fst kg, fst fd)) (sort_items (snd kg))) gs.
  Proof.
    induction gs as [|[g fs] gs IH]; intros st st2 I L N D; cbn [fold_res].
    - intros E. apply Ok_inj in E. subst st2. cbn. rewrite app_nil_r. auto.
    - destruct (compare_group an o s2 st (g, fs)) as [st1|] eqn:E1; [|discriminate]. intros E2.
      unfold compare_group in E1. cbn [fst snd] in E1. inversion N as [|? ? N1 N2]; subst.
      apply funs_inv in E1 as [I1 T1].
      + destruct (IH st1 st2 I1) as [I2 T2]; [|exact N2| |exact E2|].
        * intros g2 fs2 f old J. apply L. right. exact J.
        * intros g2 J. rewrite T1. cbn [c_trace]. rewrite map_app, in_app_iff. intros [K|K].
          -- apply (D g2); [right; exact J|exact K].
          -- rewrite map_map in K. cbn [fst] in K. apply in_map_iff in K as (? & <- & _). contradiction.
        * split; [exact I2|]. rewrite T2, T1. cbn [c_trace flat_map fst snd]. rewrite <- app_assoc. reflexivity.
      + exact I.
      + intros f old J. apply L with (fs := fs); [left; reflexivity|].
        eapply Permutation_in; [|exact J]. apply Permutation_sym, sort_perm.
      + cbn [c_prev c_trace]. unfold last_graph. rewrite last_none; [reflexivity|]. apply D. left. reflexivity.
  Qed.
End Loops.

(** ** The regex filter *)
Section Filter.
  Context {G : Type}.
  Lemma search_inner_spec rx (l : list (result G)) :
    match search_inner rx l with
    | Ok true => exists r d, In r l /\ r_diff r = Some d /\ rx d = true
    | Ok false => forall r, In r l -> exists d, r_diff r = Some d /\ rx d = false
    | Err e => e = TypeError /\ exists r, In r l /\ r_diff r = None
    end.
  Proof.
    induction l as [|r l IH]; cbn [search_inner]; [intros r []|].
    destruct (r_diff r) as [d|] eqn:D; [|split; [reflexivity|exists r; simpl; auto]].
    destruct (rx d) eqn:R; [exists r, d; simpl; auto|].
    destruct (search_inner rx l) as [[|]|e].
    - destruct IH as (r2 & d2 & I & E). exists r2, d2. simpl. tauto.
    - intros r2 [<-|I]; [eauto|auto].
    - destruct IH as (-> & r2 & I & E). split; [reflexivity|]. exists r2. simpl. tauto.
  Qed.
  Lemma filter_result_cases rx (r r2 : result G) : filter_result rx r = Ok r2 ->
    r2 = r \/ r2 = with_verdict r EQUAL.
  Proof.
    unfold filter_result. destruct rx; [|intros E; left; congruence].
    destruct (search_inner _ _) as [hit|]; [|discriminate]. cbn [bind]. intros E. apply Ok_inj in E. subst r2.
    destruct hit; auto.
  Qed.

  Definition said (full : bool) (g : option string) (f : string) (r : result G) (x : shown G) : Prop :=
    if kind_eqb (r_kind r) NOT_EQUAL || full then x = ShowDiff g f r
    else if kind_eqb (r_kind r) UNKNOWN || kind_eqb (r_kind r) ERROR then x = ShowLine g f (r_kind r)
    else False.

  Lemma show_group_shown g (st : cstate G) x : mentions x -> (In x (c_shown (show_group g st)) <-> In x (c_shown st)).
  Proof.
    intros M. unfold show_group. destruct g; [|reflexivity]. destruct (c_printed st); [reflexivity|].
    cbn [c_shown]. rewrite in_app_iff. cbn [In]. split; [|auto]. intros [I|[<-|[]]]; [exact I|destruct M].
  Qed.
  Lemma show_group_dirs g (st : cstate G) : c_dirs (show_group g st) = c_dirs st.
  Proof. unfold show_group. destruct g; [destruct (c_printed st)|]; reflexivity. Qed.
  Lemma make_dir_shown d (st : cstate G) x : mentions x -> (In x (c_shown (make_dir d st)) <-> In x (c_shown st)).
  Proof.
    intros M. unfold make_dir. destruct (mem d (c_dirs st)); [reflexivity|].
    cbn [c_shown]. rewrite in_app_iff. cbn [In]. split; [|auto]. intros [I|[<-|[]]]; [exact I|destruct M].
  Qed.
  Lemma make_dir_dirs d (st : cstate G) x : In x (c_dirs (make_dir d st)) <-> x = d \/ In x (c_dirs st).
  Proof.
    unfold make_dir. destruct (mem d (c_dirs st)) eqn:M.
    - apply mem_In in M. split; [auto|]. intros [->|I]; auto.
    - cbn [c_dirs]. rewrite in_app_iff. cbn [In]. intuition congruence.
  Qed.

  Lemma report_shown o g f r (st : cstate G) x : mentions x ->
    (In x (c_shown (report o g f r st)) <-> In x (c_shown st) \/ said (o_full o) g f r x).
  Proof.
    intros M. unfold report, said.
    destruct (kind_eqb (r_kind r) NOT_EQUAL) eqn:K1, (o_full o) eqn:Fu; cbn [orb]; rewrite ?orb_true_r.
    1-3: unfold show; cbn [c_shown]; rewrite in_app_iff; cbn [In];
      (assert (S : In x (c_shown (match group_dir o g with
         | Some d => make_dir d match o_output o with Some d0 => make_dir d0 st | None => st end
         | None => show_group g match o_output o with Some d0 => make_dir d0 st | None => st end end)) <-> In x (c_shown st));
       [destruct (group_dir o g), (o_output o); rewrite ?make_dir_shown, ?show_group_shown, ?make_dir_shown by exact M; reflexivity|]);
      rewrite S; intuition congruence.
    rewrite orb_false_r. destruct (kind_eqb (r_kind r) UNKNOWN || kind_eqb (r_kind r) ERROR).
    - unfold show. cbn [c_shown]. rewrite in_app_iff, show_group_shown by exact M. cbn [In]. intuition congruence.
    - tauto.
  Qed.
  Lemma report_dirs o g f r (st : cstate G) d :
    In d (c_dirs (report o g f r st)) <->
    In d (c_dirs st) \/ (kind_eqb (r_kind r) NOT_EQUAL || o_full o = true /\ (o_output o = Some d \/ group_dir o g = Some d)).
  Proof.
    unfold report.
    destruct (kind_eqb (r_kind r) NOT_EQUAL) eqn:K1, (o_full o) eqn:Fu; cbn [orb]; rewrite ?orb_true_r.
    1-3: unfold show; cbn [c_dirs]; destruct (group_dir o g) eqn:GD, (o_output o) eqn:OO;
      rewrite ?make_dir_dirs, ?show_group_dirs, ?make_dir_dirs; intuition congruence.
    rewrite orb_false_r. destruct (kind_eqb (r_kind r) UNKNOWN || kind_eqb (r_kind r) ERROR).
    - unfold show. cbn [c_dirs]. rewrite show_group_dirs. intuition congruence.
    - intuition congruence.
  Qed.

  (** What a filtered run shows corresponds to something the unfiltered run shows. *)
  Definition corresponds (full : bool) (x y : shown G) : Prop :=
    x = y \/ (full = true /\ exists g f r r0, x = ShowDiff g f r /\ y = ShowDiff g f r0 /\ same_but_verdict r r0).
  Definition sim (full : bool) (a b : cstate G) : Prop :=
    c_prev a = c_prev b /\ calls_of (c_trace a) = calls_of (c_trace b) /\
    (forall x, mentions x -> In x (c_shown a) -> exists y, mentions y /\ In y (c_shown b) /\ corresponds full x y) /\
    (forall d, In d (c_dirs a) -> In d (c_dirs b)).

  Variables (an : analysis G) (rx : string -> bool) (full : bool) (out : option string) (s2 : groups).
  Let o1 := mkCopts (Some rx) full out.
  Let o2 := mkCopts None full out.

  Lemma calls_snoc (t : list (entry G)) e : calls_of (t ++ [e]) = calls_of t ++ match e with Compared c _ => [c] | _ => [] end.
  Proof. unfold calls_of. rewrite flat_map_app. cbn [flat_map]. rewrite app_nil_r. reflexivity. Qed.

  Lemma step_sim g a b fd a2 : sim full a b -> compare_fun an o1 s2 g a fd = Ok a2 ->
    exists b2, compare_fun an o2 s2 g b fd = Ok b2 /\ sim full a2 b2.
  Proof.
    destruct fd as [f old]. intros (P & C & S & D). unfold compare_fun.
    destruct (get_by_name s2 f g) as [new|].
    2:{ intros E. apply Ok_inj in E. subst a2. eexists. split; [reflexivity|].
        unfold sim. cbn [c_prev c_trace c_shown c_dirs]. rewrite !calls_snoc, !app_nil_r. auto. }
    assert (NM : forall ta : res (result G), ta = add_inner (c_result a) (new_result UNKNOWN f f) ->
      (do total <- ta;
       Ok (show (ShowLine g f UNKNOWN) (show_group g (mkCstate total (c_prev a) (c_printed a) (c_dirs a) (c_shown a)
              (c_trace a ++ [NoModule g f]))))) = Ok a2 ->
      exists b2, (do total <- add_inner (c_result b) (new_result UNKNOWN f f);
       Ok (show (ShowLine g f UNKNOWN) (show_group g (mkCstate total (c_prev b) (c_printed b) (c_dirs b) (c_shown b)
              (c_trace b ++ [NoModule g f]))))) = Ok b2 /\ sim full a2 b2).
    { intros ta _. destruct ta as [ta|]; [|discriminate]. cbn [bind]. intros E. apply Ok_inj in E. subst a2.
      destruct (add_inner_ok (c_result b) (new_result UNKNOWN f f)) as [tb ->]. cbn [bind].
      eexists. split; [reflexivity|]. unfold sim, show. cbn [c_prev c_trace c_shown c_dirs].
      rewrite !(proj1 (show_group_trace g _)), !(proj2 (proj2 (show_group_trace g _))), !show_group_dirs.
      cbn [c_trace c_prev c_dirs]. rewrite !calls_snoc, !app_nil_r. split; [exact P|split; [exact C|split; [|exact D]]].
      intros x M. rewrite in_app_iff, show_group_shown by exact M. cbn [c_shown In]. intros [I|[<-|[]]].
      - destruct (S x M I) as (y & My & Iy & Cy). exists y. split; [exact My|]. split; [|exact Cy].
        apply in_app_iff. left. apply show_group_shown; [exact My|]. exact Iy.
      - exists (ShowLine g f UNKNOWN). split; [exact Logic.I|]. split; [|left; reflexivity].
        apply in_app_iff. right. left. reflexivity. }
    destruct (fd_mod old) as [mo|]; [|apply (NM _ eq_refl)].
    destruct (fd_mod new) as [mn|]; [|apply (NM _ eq_refl)]. clear NM.
    rewrite <- P, <- C. set (c := mkCallArgs g f old new (c_prev a)).
    destruct (an (calls_of (c_trace a)) c) as [r|] eqn:A; [|discriminate]. cbn [bind].
    destruct (filter_result (o_regex o1) r) as [r1|] eqn:F; [|discriminate]. cbn [bind].
    destruct (add_inner (c_result a) r1) as [ta|]; [|discriminate]. cbn [bind].
    intros E. apply Ok_inj in E. subst a2. cbn [o2 o_regex filter_result bind].
    destruct (add_inner_ok (c_result b) r) as [tb ->]. cbn [bind].
    eexists. split; [reflexivity|]. unfold sim.
    rewrite !(proj1 (report_trace _ _ _ _ _)), !(proj2 (proj2 (report_trace _ _ _ _ _))).
    cbn [c_trace c_prev]. rewrite !calls_snoc, C. repeat split.
    - intros x M. rewrite report_shown by exact M. cbn [c_shown o1 o_full]. intros [I|I].
      + destruct (S x M I) as (y & My & Iy & Cy). exists y. split; [exact My|]. split; [|exact Cy].
        apply report_shown; [exact My|]. left. exact Iy.
      + apply filter_result_cases in F as [-> | ->].
        * exists x. split; [exact M|]. split; [|left; reflexivity]. apply report_shown; [exact M|]. right. exact I.
        * unfold said in I. cbn [with_verdict r_kind] in I. change (kind_eqb EQUAL NOT_EQUAL) with false in I.
          change (kind_eqb EQUAL UNKNOWN || kind_eqb EQUAL ERROR) with false in I. cbn [orb] in I.
          destruct full; [|destruct I]. subst x. exists (ShowDiff g f r). split; [exact Logic.I|]. split.
          -- apply report_shown; [exact Logic.I|]. right. unfold said. cbn [o2 o_full]. rewrite orb_true_r. reflexivity.
          -- right. split; [reflexivity|]. exists g, f, (with_verdict r EQUAL), r. repeat split.
    - intros d. rewrite !report_dirs. cbn [c_dirs o1 o2 o_full o_output]. intros [I|[K I]]; [auto|].
      right. split; [|exact I]. apply filter_result_cases in F as [-> | ->]; [exact K|].
      cbn [with_verdict r_kind] in K. change (kind_eqb EQUAL NOT_EQUAL) with false in K. cbn [orb] in K.
      rewrite K. apply orb_true_r.
  Qed.

  Lemma funs_sim g l : forall a b a2, sim full a b -> fold_res (compare_fun an o1 s2 g) a l = Ok a2 ->
    exists b2, fold_res (compare_fun an o2 s2 g) b l = Ok b2 /\ sim full a2 b2.
  Proof.
    induction l as [|fd l IH]; intros a b a2 S; cbn [fold_res].
    - intros E. apply Ok_inj in E. subst a2. eauto.
    - destruct (compare_fun an o1 s2 g a fd) as [a1|] eqn:E1; [|discriminate]. intros E2.
      destruct (step_sim g a b fd a1 S E1) as (b1 & -> & S1). eapply IH; eauto.
  Qed.
  Lemma groups_sim gs : forall a b a2, sim full a b -> fold_res (compare_group an o1 s2) a gs = Ok a2 ->
    exists b2, fold_res (compare_group an o2 s2) b gs = Ok b2 /\ sim full a2 b2.
  Proof.
    induction gs as [|kg gs IH]; intros a b a2 S; cbn [fold_res].
    - intros E. apply Ok_inj in E. subst a2. eauto.
    - destruct (compare_group an o1 s2 a kg) as [a1|] eqn:E1; [|discriminate]. intros E2.
      unfold compare_group in E1. destruct S as (P & C & S & D).
      eapply funs_sim in E1 as (b1 & Eb & S1);
        [|instantiate (1 := mkCstate (c_result b) None false (c_dirs b) (c_shown b) (c_trace b));
          unfold sim; cbn [c_prev c_trace c_shown c_dirs]; auto].
      unfold compare_group at 1. rewrite Eb. eapply IH; eauto.
  Qed.
End Filter.

(** ** Failure of the whole comparison *)
Section Failure.
  Context {G : Type}.
  Variables (an : analysis G) (o : copts) (s2 : groups).
  Definition one_failed (e : exn) : Prop :=
    exists calls c, an calls c = Err e \/ exists r, an calls c = Ok r /\ filter_result (o_regex o) r = Err e.
  Lemma step_fail g st fd e : compare_fun an o s2 g st fd = Err e -> one_failed e.
  Proof.
    destruct fd as [f old]. unfold compare_fun. destruct (get_by_name s2 f g) as [new|]; [|discriminate].
    destruct (add_inner_ok (c_result st) (new_result UNKNOWN f f)) as [t T].
    destruct (fd_mod old); [|rewrite T; discriminate]. destruct (fd_mod new); [|rewrite T; discriminate]. clear T t.
    set (c := mkCallArgs _ _ _ _ _). destruct (an (calls_of (c_trace st)) c) as [r|e2] eqn:A; cbn [bind].
    - destruct (filter_result (o_regex o) r) as [r2|e2] eqn:F; cbn [bind].
      + destruct (add_inner_ok (c_result st) r2) as [t ->]. discriminate.
      + intros E. injection E as <-. exists (calls_of (c_trace st)), c. right. eauto.
    - intros E. injection E as <-. exists (calls_of (c_trace st)), c. auto.
  Qed.
  Lemma fold_fail {X S} (f : S -> X -> res S) (P : exn -> Prop) l : (forall s x e, f s x = Err e -> P e) ->
    forall s e, fold_res f s l = Err e -> P e.
  Proof.
    intros H. induction l as [|x l IH]; intros s e; cbn [fold_res]; [discriminate|].
    destruct (f s x) eqn:E; [apply IH|]. intros Q. injection Q as <-. eapply H, E.
  Qed.
End Failure.

(** ** Output directories *)
Lemma dec_inj a b : dec a = dec b -> a = b.
Proof.
  unfold dec. intros E.
  assert (N : forall n, Nat.to_uint n <> Decimal.Nil).
  { intros n C. pose proof (Unsigned.of_to n) as Q. rewrite C in Q. cbn in Q. subst n. discriminate. }
  apply (f_equal NilZero.uint_of_string) in E. rewrite !NilZero.usu in E by apply N.
  injection E as E. apply (f_equal Nat.of_uint) in E. rewrite !Unsigned.of_to in E. exact E.
Qed.

Lemma candidate_inj base i j : candidate base i = candidate base j -> i = j.
Proof.
  assert (L : forall j, String.length (candidate base (S j)) > String.length base).
  { intros k. cbn [candidate]. rewrite !length_app_s. cbn. lia. }
  destruct i as [|i], j as [|j]; intros E.
  - reflexivity.
  - exfalso. specialize (L j). rewrite <- E in L. cbn in L. lia.
  - exfalso. specialize (L i). rewrite E in L. cbn in L. lia.
  - f_equal. apply dec_inj. cbn [candidate] in E.
    assert (A : forall x a b, (x ++ a)%string = (x ++ b)%string -> a = b).
    { induction x as [|c x IH]; cbn [append]; intros a b H; [exact H|]. injection H as H. auto. }
    apply A in E. cbn [append] in E. injection E as E. exact E.
Qed.
Lemma free_dir_finds isdir base k : forall i fuel, (forall j, i <= j < i + k -> isdir (candidate base j) = true) ->
  isdir (candidate base (i + k)) = false -> k < fuel ->
  free_dir fuel isdir base (candidate base i) i = Some (candidate base (i + k)).
Proof.
  induction k as [|k IH]; intros i fuel H F L; (destruct fuel as [|fuel]; [lia|]); cbn [free_dir].
  - rewrite Nat.add_0_r in *. rewrite F. reflexivity.
  - rewrite H by lia. change (base ++ "-" ++ dec i)%string with (candidate base (S i)).
    rewrite (IH (S i) fuel); [f_equal; f_equal; lia| | |lia].
    + intros j J. apply H. lia.
    + replace (S i + k) with (i + S k) by lia. exact F.
Qed.
Lemma first_free isdir base (l : list string) : (forall d, isdir d = true -> In d l) ->
  exists k, k <= length l /\ isdir (candidate base k) = false /\ forall j, j < k -> isdir (candidate base j) = true.
Proof.
  intros F.
  assert (E : forall n, (forall j, j < n -> isdir (candidate base j) = true) \/
    exists k, k < n /\ isdir (candidate base k) = false /\ forall j, j < k -> isdir (candidate base j) = true).
  { induction n as [|n [IH|(k & K1 & K2)]]; [left; lia| |right; exists k; split; [lia|exact K2]].
    destruct (isdir (candidate base n)) eqn:D.
    - left. intros j J. destruct (Nat.eq_dec j n) as [->|N]; [exact D|apply IH; lia].
    - right. exists n. auto. }
  destruct (E (S (length l))) as [A|(k & K1 & K2)]; [|exists k; split; [lia|exact K2]]. exfalso.
  assert (N : NoDup (map (candidate base) (seq 0 (S (length l))))).
  { apply FinFun.Injective_map_NoDup; [intros i j; apply candidate_inj|apply seq_NoDup]. }
  assert (I : incl (map (candidate base) (seq 0 (S (length l)))) l).
  { intros d J. apply in_map_iff in J as (j & <- & J). apply in_seq in J. apply F, A. lia. }
  pose proof (NoDup_incl_length N I) as B. rewrite map_length, seq_length in B. lia.
Qed.

(** ** Module frequencies *)
Lemma count_module_get m freq x : dget (count_module m freq) x =
  if String.eqb x m then Some (S (match dget freq m with Some n => n | None => 0 end)) else dget freq x.
Proof.
  unfold count_module. destruct (String.eqb_spec x m) as [->|N]; [apply dget_dset_same|apply dget_dset_other, N].
Qed.
Definition counts (freq : dict string nat) (refs : list string) : Prop :=
  NoDup (dkeys freq) /\
  forall x, dget freq x = match count_occ string_dec refs x with 0 => None | n => Some n end.
Lemma counts_snoc freq refs m : counts freq refs -> counts (count_module m freq) (refs ++ [m]).
Proof.
  intros [N C]. split; [unfold count_module; apply dset_NoDup, N|]. intros x. rewrite count_module_get, count_occ_app.
  cbn [count_occ]. destruct (String.eqb_spec x m) as [->|E].
  - destruct (string_dec m m); [|congruence]. rewrite C, Nat.add_1_r. destruct (count_occ string_dec refs m); reflexivity.
  - destruct (string_dec m x); [congruence|]. rewrite Nat.add_0_r. apply C.
Qed.
Lemma counts_desc freq refs d : counts freq refs ->
  counts (count_desc d freq) (refs ++ match fd_mod d with Some m => [m] | None => [] end).
Proof. intros C. unfold count_desc. destruct (fd_mod d); [apply counts_snoc, C|rewrite app_nil_r; exact C]. Qed.
Lemma frequencies_count fs g s2 : counts (module_frequencies fs g s2) (references fs g s2).
Proof.
  unfold module_frequencies, references.
  induction fs as [|[f old] fs IH] using rev_ind; [split; [constructor|reflexivity]|].
  rewrite fold_left_app, flat_map_app. cbn [fold_left flat_map fst snd]. rewrite app_nil_r.
  destruct (get_by_name s2 f g) as [new|]; [|rewrite app_nil_r; exact IH].
  rewrite app_assoc. apply counts_desc, counts_desc, IH.
Qed.

(** ** Stripping *)
Lemma blank_app a b : blank a -> blank b -> blank (a ++ b).
Proof. induction a as [|c a IH]; cbn [append blank]; tauto. Qed.
Lemma lstrip_spec s : exists a, s = (a ++ lstrip s)%string /\ blank a /\
  (lstrip s = ""%string \/ exists c t, lstrip s = String c t /\ is_space c = false).
Proof.
  induction s as [|c s IH]; cbn [lstrip]; [exists ""%string; simpl; auto|].
  destruct (is_space c) eqn:E.
  - destruct IH as (a & E1 & B & C). exists (String c a). cbn [append blank]. rewrite <- E1. auto.
  - exists ""%string. cbn. repeat split. right. eauto.
Qed.
Lemma rstrip_spec s : exists b, s = (rstrip s ++ b)%string /\ blank b /\
  (rstrip s = ""%string \/ exists c t, rstrip s = (t ++ String c "")%string /\ is_space c = false).
Proof.
  induction s as [|c s IH]; cbn [rstrip]; [exists ""%string; simpl; auto|].
  destruct IH as (b & E1 & B & C). destruct (rstrip s) as [|x t] eqn:R.
  - cbn [append] in E1. subst b. destruct (is_space c) eqn:E.
    + exists (String c s). cbn. auto.
    + exists s. cbn. repeat split; [exact B|]. right. exists c, ""%string. auto.
  - exists b. cbn [append]. rewrite E1 at 1. repeat split; [exact B|]. right.
    destruct C as [C|(y & u & C & S)]; [discriminate|]. exists y, (String c u). cbn [append]. rewrite <- C. auto.
Qed.
Lemma rstrip_first c s : is_space c = false -> exists t, rstrip (String c s) = String c t.
Proof. intros E. cbn [rstrip]. destruct (rstrip s); [rewrite E|]; eauto. Qed.

Lemma blank_first s c t : blank s -> s = String c t -> is_space c = true.
Proof. intros B ->. apply B. Qed.
Lemma blank_last s c t : blank s -> s = (t ++ String c "")%string -> is_space c = true.
Proof. intros B ->. induction t as [|x t IH]; cbn [append blank] in B; [apply B|]. apply IH, B. Qed.

Lemma lstrip_blank a s : blank a -> lstrip (a ++ s) = lstrip s.
Proof. induction a as [|c a IH]; cbn [append blank lstrip]; [reflexivity|]. intros [E B]. rewrite E. auto. Qed.
Lemma rstrip_blank b : blank b -> rstrip b = ""%string.
Proof. induction b as [|c b IH]; cbn [blank rstrip]; [reflexivity|]. intros [E B]. rewrite IH by exact B. rewrite E. reflexivity. Qed.
Lemma rstrip_app_blank s b : blank b -> rstrip (s ++ b) = rstrip s.
Proof.
  intros B. induction s as [|c s IH]; cbn [append rstrip]; [apply rstrip_blank, B|]. rewrite IH. reflexivity.
Qed.
Lemma rstrip_id t d : is_space d = false -> rstrip (t ++ String d "") = (t ++ String d "")%string.
Proof.
  intros E. induction t as [|c t IH]; cbn [append rstrip]; [rewrite E; reflexivity|]. rewrite IH.
  destruct (t ++ String d "")%string eqn:Q; [destruct t; discriminate|reflexivity].
Qed.
Lemma is_alpha_space c : is_alpha c = true \/ c = "_"%char -> is_space c = false.
Proof.
  unfold is_alpha, is_space. intros [H| ->]; [|reflexivity].
  rewrite orb_true_iff, !andb_true_iff, !Nat.leb_le in H. rewrite orb_false_iff, !andb_false_iff, !Nat.leb_gt. lia.
Qed.

Lemma symbol_of_line_spec line sym : In sym (symbol_of_line line) <-> symbol_on line sym.
Proof.
  unfold symbol_of_line, strip. split.
  - destruct (lstrip_spec line) as (a & E1 & B1 & C1). destruct (rstrip_spec (lstrip line)) as (b & E2 & B2 & C2).
    destruct (rstrip (lstrip line)) as [|c s] eqn:R; [intros []|].
    destruct (is_alpha c || Ascii.eqb c "_") eqn:A; [|intros []]. intros [<-|[]].
    destruct C2 as [C2|(d & t & C2 & S)]; [discriminate|].
    exists a, b, c, d. split; [congruence|]. repeat split; try assumption.
    + exists s. reflexivity.
    + apply orb_true_iff in A as [A|A]; [auto|]. apply Ascii.eqb_eq in A. auto.
    + exists t. exact C2.
  - intros (a & b & c & d & -> & B1 & B2 & (s & Es) & A & (t & Et) & S).
    rewrite lstrip_blank by exact B1.
    assert (L : lstrip (sym ++ b) = (sym ++ b)%string).
    { subst sym. cbn [append lstrip]. rewrite is_alpha_space by exact A. reflexivity. }
    rewrite L, rstrip_app_blank by exact B2. rewrite Et, rstrip_id, <- Et by exact S. rewrite Es.
    assert (Q : is_alpha c || Ascii.eqb c "_" = true).
    { destruct A as [->| ->]; [reflexivity|apply orb_true_r]. }
    rewrite Q. left. reflexivity.
Qed.
Lemma symbol_of_line_one line : symbol_of_line line = [] \/ exists s, symbol_of_line line = [s].
Proof. unfold symbol_of_line. destruct (strip line) as [|c s]; [auto|]. destruct (_ || _); eauto. Qed.
Lemma symbols_of_map ls : symbols_of ls (flat_map symbol_of_line ls).
Proof.
  induction ls as [|l ls IH]; cbn [flat_map]; [constructor|]. destruct (symbol_of_line_one l) as [E|[s E]]; rewrite E; cbn [app].
  - apply so_none; [|exact IH]. intros [s S]. apply symbol_of_line_spec in S. rewrite E in S. destruct S.
  - apply so_symbol; [|exact IH]. apply symbol_of_line_spec. rewrite E. left. reflexivity.
Qed.

(** ** Lines *)
Lemma un_clean s t : forall b, no_line_end s -> s <> ""%string -> universal_newlines b (s ++ t) = (s ++ universal_newlines false t)%string.
Proof.
  induction s as [|c s IH]; intros b [N C] E; [contradiction|]. cbn [append universal_newlines].
  cbn [has_char] in N, C. apply orb_false_iff in N as [N1 N2]. apply orb_false_iff in C as [C1 C2].
  rewrite Ascii.eqb_sym in N1, C1. rewrite C1, N1. cbn [andb]. f_equal. destruct s as [|d s]; [reflexivity|].
  apply IH; [split; assumption|discriminate].
Qed.
Lemma un_app s t : no_line_end s -> universal_newlines false (s ++ t) = (s ++ universal_newlines false t)%string.
Proof. intros N. destruct s; [reflexivity|]. apply un_clean; [exact N|discriminate]. Qed.
Lemma un_true rest : ~ first_char rest newline -> universal_newlines true rest = universal_newlines false rest.
Proof.
  intros N. destruct rest as [|c rest]; [reflexivity|]. cbn [universal_newlines].
  destruct (Ascii.eqb c cr); [reflexivity|]. destruct (Ascii.eqb_spec c newline) as [->|E]; [|reflexivity].
  exfalso. apply N. exists rest. reflexivity.
Qed.
Lemma lines_split text lines : lines_of text lines ->
  split_char newline (universal_newlines false text) = lines.
Proof.
  induction 1 as [s N|s rest ls N L IH|s rest ls N L IH|s rest ls N F L IH].
  - rewrite <- (app_nil_r_s s) at 1. rewrite un_app by exact N. cbn [universal_newlines]. rewrite app_nil_r_s.
    apply split_char_no, N.
  - rewrite un_app by exact N. unfold LF. cbn [append universal_newlines].
    change (Ascii.eqb newline cr) with false. cbv iota. rewrite andb_false_r.
    rewrite split_char_app, IH by apply N. reflexivity.
  - rewrite un_app by exact N. unfold LF, CR. cbn [append universal_newlines].
    change (Ascii.eqb cr cr) with true. change (Ascii.eqb newline cr) with false.
    change (Ascii.eqb newline newline && true) with true. cbv iota.
    rewrite split_char_app, IH by apply N. reflexivity.
  - rewrite un_app by exact N. unfold CR. cbn [append universal_newlines].
    change (Ascii.eqb cr cr) with true. cbv iota. rewrite un_true by exact F.
    rewrite split_char_app, IH by apply N. reflexivity.
Qed.
Lemma lines_exist_len : forall n text, String.length text <= n -> exists lines, lines_of text lines.
Proof.
  induction n as [|n IH]; intros text L.
  - destruct text; [|cbn in L; lia]. exists [""%string]. constructor. split; reflexivity.
  - assert (S : no_line_end text \/ exists s c rest, text = (s ++ String c rest)%string /\ no_line_end s /\ (c = newline \/ c = cr)).
    { clear. induction text as [|c text IH]; [left; split; reflexivity|].
      destruct (Ascii.eqb_spec c newline) as [->|N1]; [right; exists ""%string, newline, text; repeat split; auto|].
      destruct (Ascii.eqb_spec c cr) as [->|N2]; [right; exists ""%string, cr, text; repeat split; auto|].
      apply Ascii.eqb_neq in N1, N2. rewrite Ascii.eqb_sym in N1, N2. destruct IH as [[A B]|(s & d & rest & -> & [A B] & D)].
      - left. split; cbn [has_char]; rewrite ?N1, ?N2, ?A, ?B; reflexivity.
      - right. exists (String c s), d, rest. repeat split; [| |exact D]; cbn [has_char]; rewrite ?N1, ?N2, ?A, ?B; reflexivity. }
    destruct S as [S|(s & c & rest & -> & N & C)]; [exists [text]; constructor; exact S|].
    rewrite length_app_s in L. cbn [String.length] in L. destruct C as [->| ->].
    + destruct (IH rest) as [ls H]; [lia|]. exists (s :: ls). exact (lo_lf s rest ls N H).
    + destruct rest as [|d rest].
      * destruct (IH ""%string) as [ls H]; [cbn; lia|]. exists (s :: ls). apply (lo_cr s "" ls N); [intros [t T]; discriminate|exact H].
      * destruct (Ascii.eqb_spec d newline) as [->|D].
        -- destruct (IH rest) as [ls H]; [cbn in L; lia|]. exists (s :: ls). exact (lo_crlf s rest ls N H).
        -- destruct (IH (String d rest)) as [ls H]; [lia|]. exists (s :: ls).
           apply (lo_cr s (String d rest) ls N); [intros [t T]; congruence|exact H].
Qed.

(** ** What the user sees *)
Section Shown.
  Context {G : Type}.
  Variables (an : analysis G) (o : copts) (s2 : groups).
  Lemma said_about g f c (r : result G) x : ca_group c = g -> ca_fun c = f ->
    (said (o_full o) g f r x <-> about (o_full o) (Compared c r) x).
  Proof.
    intros <- <-. unfold said, about.
    assert (K : forall k, kind_eqb (r_kind r) k = true <-> r_kind r = k).
    { intros k. destruct (r_kind r), k; cbn; split; intros E; try reflexivity; discriminate. }
    destruct (kind_eqb (r_kind r) NOT_EQUAL) eqn:E1; cbn [orb].
    - apply K in E1. split; [auto|]. intros [[E _]|(_ & _ & [E|E])]; congruence.
    - assert (E1' : r_kind r <> NOT_EQUAL) by (rewrite <- K; congruence).
      destruct (o_full o) eqn:Fu; cbn [orb].
      + split; [auto|]. intros [[E _]|(_ & E & _)]; congruence.
      + destruct (kind_eqb (r_kind r) UNKNOWN || kind_eqb (r_kind r) ERROR) eqn:E2.
        * rewrite orb_true_iff, !K in E2. split; [auto|]. intros [[_ [E|E]]|(E & _)]; congruence.
        * assert (E2' : ~ (r_kind r = UNKNOWN \/ r_kind r = ERROR)) by (rewrite <- !K, <- orb_true_iff; congruence).
          split; [contradiction|]. intros [[_ [E|E]]|(_ & _ & E)]; congruence || contradiction.
  Qed.

  Definition told (st : cstate G) : Prop :=
    forall x, mentions x -> (In x (c_shown st) <-> exists e, In e (c_trace st) /\ about (o_full o) e x).
  Lemma step_told g st fd st2 : told st -> compare_fun an o s2 g st fd = Ok st2 -> told st2.
  Proof.
    destruct fd as [f old]. intros T. unfold compare_fun. destruct (get_by_name s2 f g) as [new|].
    2:{ intros E. apply Ok_inj in E. subst st2. intros x M. cbn [c_shown c_trace]. rewrite (T x M). split.
        - intros (e & I & A). exists e. rewrite in_app_iff. auto.
        - intros (e & I & A). apply in_app_iff in I as [I|[<-|[]]]; [eauto|destruct A]. }
    assert (NM : forall ta : res (result G),
      (do total <- ta;
       Ok (show (ShowLine g f UNKNOWN) (show_group g (mkCstate total (c_prev st) (c_printed st) (c_dirs st) (c_shown st)
              (c_trace st ++ [NoModule g f]))))) = Ok st2 -> told st2).
    { intros [ta|]; [|discriminate]. cbn [bind]. intros E. apply Ok_inj in E. subst st2. intros x M.
      unfold show. cbn [c_shown c_trace]. rewrite (proj1 (show_group_trace g _)), in_app_iff, show_group_shown by exact M.
      cbn [c_shown c_trace In]. rewrite (T x M). split.
      - intros [(e & I & A)|[<-|[]]]; [exists e|exists (NoModule g f)]; rewrite in_app_iff; simpl; auto.
      - intros (e & I & A). apply in_app_iff in I as [I|[<-|[]]]; [left; eauto|right; left; symmetry; exact A]. }
    destruct (fd_mod old) as [mo|]; [|apply NM]. destruct (fd_mod new) as [mn|]; [|apply NM]. clear NM.
    set (c := mkCallArgs g f old new (c_prev st)).
    destruct (an (calls_of (c_trace st)) c) as [r|] eqn:A; [|discriminate]. cbn [bind].
    destruct (filter_result (o_regex o) r) as [r2|] eqn:F; [|discriminate]. cbn [bind].
    destruct (add_inner (c_result st) r2) as [total|]; [|discriminate]. cbn [bind].
    intros E. apply Ok_inj in E. subst st2. intros x M. rewrite (proj1 (report_trace o _ _ _ _)), report_shown by exact M.
    cbn [c_shown c_trace]. rewrite (T x M), (said_about g f c r2 x eq_refl eq_refl). split.
    - intros [(e & I & B)|B]; [exists e|exists (Compared c r2)]; rewrite in_app_iff; simpl; auto.
    - intros (e & I & B). apply in_app_iff in I as [I|[<-|[]]]; [left; eauto|right; exact B].
  Qed.
  Lemma funs_told g l : forall st st2, told st -> fold_res (compare_fun an o s2 g) st l = Ok st2 -> told st2.
  Proof.
    induction l as [|fd l IH]; intros st st2 T; cbn [fold_res]; [intros E; apply Ok_inj in E; subst; assumption|].
    destruct (compare_fun an o s2 g st fd) as [st1|] eqn:E; [|discriminate]. apply IH. eapply step_told; eauto.
  Qed.
  Lemma groups_told gs : forall st st2, told st -> fold_res (compare_group an o s2) st gs = Ok st2 -> told st2.
  Proof.
    induction gs as [|kg gs IH]; intros st st2 T; cbn [fold_res]; [intros E; apply Ok_inj in E; subst; assumption|].
    destruct (compare_group an o s2 st kg) as [st1|] eqn:E; [|discriminate]. apply IH.
    unfold compare_group in E. eapply funs_told in E; [exact E|]. exact T.
  Qed.

  (** Directories made: the output directory exists at the end iff it existed before or some
      difference was written. *)
  Definition dir_made (dirs : list string) (d : string) (st : cstate G) : Prop :=
    In d (c_dirs st) -> In d dirs \/ exists g f r, In (ShowDiff g f r) (c_shown st) /\ (o_output o = Some d \/ group_dir o g = Some d).
  Definition dir_kept (dirs : list string) (st : cstate G) : Prop :=
    (forall d, In d dirs -> In d (c_dirs st)) /\
    (forall g f r d, In (ShowDiff g f r) (c_shown st) -> o_output o = Some d -> In d (c_dirs st)).

  Lemma report_dir_step dirs d g f r st :
    dir_made dirs d st -> dir_kept dirs st ->
    dir_made dirs d (report o g f r st) /\ dir_kept dirs (report o g f r st).
  Proof.
    intros DM [K1 K2].
    assert (SAID : kind_eqb (r_kind r) NOT_EQUAL || o_full o = true -> said (o_full o) g f r (ShowDiff g f r)).
    { intros E. unfold said. rewrite E. reflexivity. }
    split; [|split].
    - intros I. apply report_dirs in I as [I|[K I]].
      + destruct (DM I) as [J|(g2 & f2 & r2 & J & Q)]; [auto|]. right. exists g2, f2, r2. split; [|exact Q].
        apply report_shown; [exact Logic.I|]. auto.
      + right. exists g, f, r. split; [|exact I]. apply report_shown; [exact Logic.I|]. right. apply SAID, K.
    - intros x I. apply report_dirs. left. auto.
    - intros g2 f2 r2 x I O. apply report_dirs. apply report_shown in I; [|exact Logic.I].
      destruct I as [I|I]; [left; eauto|]. unfold said in I.
      destruct (kind_eqb (r_kind r) NOT_EQUAL || o_full o); [auto|].
      destruct (_ || _); [discriminate|destruct I].
  Qed.
  Lemma step_dirs dirs d g st fd st2 : dir_made dirs d st -> dir_kept dirs st ->
    compare_fun an o s2 g st fd = Ok st2 -> dir_made dirs d st2 /\ dir_kept dirs st2.
  Proof.
    destruct fd as [f old]. intros DM DK. unfold compare_fun. destruct (get_by_name s2 f g) as [new|].
    2:{ intros E. apply Ok_inj in E. subst st2. split; assumption. }
    assert (NM : forall ta : res (result G),
      (do total <- ta;
       Ok (show (ShowLine g f UNKNOWN) (show_group g (mkCstate total (c_prev st) (c_printed st) (c_dirs st) (c_shown st)
              (c_trace st ++ [NoModule g f]))))) = Ok st2 -> dir_made dirs d st2 /\ dir_kept dirs st2).
    { intros [ta|]; [|discriminate]. cbn [bind]. intros E. apply Ok_inj in E. subst st2. destruct DK as [K1 K2].
      assert (SD : forall g2 f2 r2 (y : cstate G), In (ShowDiff g2 f2 r2) (c_shown (show (ShowLine g f UNKNOWN) (show_group g y))) <->
                  In (ShowDiff g2 f2 r2) (c_shown y)).
      { intros. unfold show. cbn [c_shown]. rewrite in_app_iff, show_group_shown by exact Logic.I. cbn [In].
        split; [intros [I|[I|[]]]; [exact I|discriminate]|auto]. }
      assert (CD : forall y : cstate G, c_dirs (show (ShowLine g f UNKNOWN) (show_group g y)) = c_dirs y)
        by (intros; apply show_group_dirs).
      unfold dir_made, dir_kept. rewrite !CD. cbn [c_dirs].
      repeat split.
      - intros I. destruct (DM I) as [J|(g2 & f2 & r2 & J & Q)]; [auto|]. right. exists g2, f2, r2. split; [|exact Q].
        apply SD. exact J.
      - intros x I. rewrite ?CD; apply K1, I.
      - intros g2 f2 r2 x I O. apply (proj1 (SD _ _ _ _)) in I. rewrite ?CD; cbn [c_dirs c_shown] in *. exact (K2 _ _ _ _ I O). }
    destruct (fd_mod old) as [mo|]; [|apply NM]. destruct (fd_mod new) as [mn|]; [|apply NM]. clear NM.
    destruct (an _ _) as [r|] eqn:A; [|discriminate]. cbn [bind].
    destruct (filter_result (o_regex o) r) as [r2|] eqn:F; [|discriminate]. cbn [bind].
    destruct (add_inner (c_result st) r2) as [total|]; [|discriminate]. cbn [bind].
    intros E. apply Ok_inj in E. subst st2. apply report_dir_step; assumption.
  Qed.
  Lemma funs_dirs dirs d g l : forall st st2, dir_made dirs d st -> dir_kept dirs st ->
    fold_res (compare_fun an o s2 g) st l = Ok st2 -> dir_made dirs d st2 /\ dir_kept dirs st2.
  Proof.
    induction l as [|fd l IH]; intros st st2 DM DK; cbn [fold_res]; [intros E; apply Ok_inj in E; subst; auto|].
    destruct (compare_fun an o s2 g st fd) as [st1|] eqn:E; [|discriminate].
    destruct (step_dirs dirs d g st fd st1 DM DK E). apply IH; assumption.
  Qed.
  Lemma groups_dirs dirs d gs : forall st st2, dir_made dirs d st -> dir_kept dirs st ->
    fold_res (compare_group an o s2) st gs = Ok st2 -> dir_made dirs d st2 /\ dir_kept dirs st2.
  Proof.
    induction gs as [|kg gs IH]; intros st st2 DM DK; cbn [fold_res]; [intros E; apply Ok_inj in E; subst; auto|].
    destruct (compare_group an o s2 st kg) as [st1|] eqn:E; [|discriminate].
    unfold compare_group in E. eapply funs_dirs in E as [DM1 DK1]; [|exact DM|exact DK]. apply IH; assumption.
  Qed.

  (** Headings *)
  Lemma last_heading_app (a b : list (shown G)) : last_heading (a ++ b) =
    match last_heading b with Some g => Some g | None => last_heading a end.
  Proof.
    induction a as [|x a IH]; cbn [app last_heading]; [destruct (last_heading b); reflexivity|].
    rewrite IH. destruct (last_heading b); reflexivity.
  Qed.
  Definition headed (g : option string) (x : shown G) (before : list (shown G)) : Prop :=
    match x with
    | ShowLine g2 _ _ => last_heading before = g2
    | ShowDiff g2 _ _ => o_output o = None -> last_heading before = g2
    | _ => True
    end.
  Definition all_headed (l : list (shown G)) : Prop := forall a x b, l = a ++ x :: b -> headed None x a.
  Lemma all_headed_snoc l x : all_headed l -> headed None x l -> all_headed (l ++ [x]).
  Proof.
    intros A H a y b E. destruct b as [|z b _] using rev_ind.
    - apply app_inj_tail in E as [<- <-]. exact H.
    - rewrite app_comm_cons, app_assoc in E. apply app_inj_tail in E as [E _]. eapply A, E.
  Qed.
  (** State of the headings while group [g] is processed. *)
  Definition heading_ok (g : option string) (st : cstate G) : Prop :=
    all_headed (c_shown st) /\
    (c_printed st = true -> last_heading (c_shown st) = g) /\
    (g = None -> last_heading (c_shown st) = None).
  Lemma show_group_ok g st : heading_ok g st ->
    heading_ok g (show_group g st) /\ last_heading (c_shown (show_group g st)) = g.
  Proof.
    intros (A & P & N). unfold show_group. destruct g as [g|].
    - destruct (c_printed st) eqn:E; [split; [split; [exact A|split; [intros _; auto|discriminate]]|auto]|].
      assert (L : last_heading (c_shown st ++ [ShowGroup g]) = Some g) by (rewrite last_heading_app; reflexivity).
      split; [|exact L]. split; [|split]; cbn [c_shown c_printed].
      + apply all_headed_snoc; [exact A|exact Logic.I].
      + intros _. exact L.
      + discriminate.
    - split; [split; [exact A|split; [exact P|exact N]]|auto].
  Qed.
  Lemma show_ok g st x : heading_ok g st -> mentions x -> headed None x (c_shown st) -> heading_ok g (show x st).
  Proof.
    intros (A & P & N) M H. unfold show. split; [|split]; cbn [c_shown c_printed].
    - apply all_headed_snoc; assumption.
    - intros E. rewrite last_heading_app. destruct x; cbn in *; try contradiction; auto.
    - intros E. rewrite last_heading_app. destruct x; cbn in *; try contradiction; auto.
  Qed.
  Lemma make_dir_ok g st d : heading_ok g st -> heading_ok g (make_dir d st).
  Proof.
    intros (A & P & N). unfold make_dir. destruct (mem d (c_dirs st)); [split; auto|].
    split; [|split]; cbn [c_shown c_printed].
    - apply all_headed_snoc; [exact A|exact Logic.I].
    - intros E. rewrite last_heading_app. cbn. auto.
    - intros E. rewrite last_heading_app. cbn. auto.
  Qed.
  Lemma report_ok g f r st : heading_ok g st -> heading_ok g (report o g f r st).
  Proof.
    intros H. unfold report. destruct (_ || _ || _ || _); [|exact H]. destruct (_ || _).
    - set (st1 := match o_output o with Some d => _ | None => _ end).
      assert (H1 : heading_ok g st1) by (unfold st1; destruct (o_output o); [apply make_dir_ok|]; exact H).
      unfold group_dir. destruct (o_output o) as [d|] eqn:O.
      + assert (H2 : heading_ok g (match g with Some n => make_dir (path_join d n) st1 | None => show_group g st1 end)).
        { destruct g; [apply make_dir_ok|apply show_group_ok]; exact H1. }
        destruct g; apply show_ok; try exact H2; try exact Logic.I; cbn; congruence.
      + destruct (show_group_ok g st1 H1) as [H2 L]. apply show_ok; [exact H2|exact Logic.I|]. cbn. auto.
    - destruct (show_group_ok g st H) as [H2 L]. apply show_ok; [exact H2|exact Logic.I|exact L].
  Qed.
  Lemma heading_ok_ext g (a b : cstate G) : c_shown a = c_shown b -> c_printed a = c_printed b ->
    heading_ok g a -> heading_ok g b.
  Proof. unfold heading_ok. intros -> ->. auto. Qed.
  Lemma step_heading g st fd st2 : heading_ok g st -> compare_fun an o s2 g st fd = Ok st2 -> heading_ok g st2.
  Proof.
    destruct fd as [f old]. intros H. unfold compare_fun. destruct (get_by_name s2 f g) as [new|].
    2:{ intros E. apply Ok_inj in E. subst st2. eapply heading_ok_ext; [| |exact H]; reflexivity. }
    assert (NM : forall ta : res (result G),
      (do total <- ta;
       Ok (show (ShowLine g f UNKNOWN) (show_group g (mkCstate total (c_prev st) (c_printed st) (c_dirs st) (c_shown st)
              (c_trace st ++ [NoModule g f]))))) = Ok st2 -> heading_ok g st2).
    { intros [ta|]; [|discriminate]. cbn [bind]. intros E. apply Ok_inj in E. subst st2.
      edestruct (show_group_ok g) as [H2 L]; [|apply show_ok; [exact H2|exact Logic.I|exact L]].
      eapply heading_ok_ext; [| |exact H]; reflexivity. }
    destruct (fd_mod old) as [mo|]; [|apply NM]. destruct (fd_mod new) as [mn|]; [|apply NM]. clear NM.
    destruct (an _ _) as [r|] eqn:A; [|discriminate]. cbn [bind].
    destruct (filter_result (o_regex o) r) as [r2|] eqn:F; [|discriminate]. cbn [bind].
    destruct (add_inner (c_result st) r2) as [total|]; [|discriminate]. cbn [bind].
    intros E. apply Ok_inj in E. subst st2. apply report_ok. eapply heading_ok_ext; [| |exact H]; reflexivity.
  Qed.
  Lemma funs_heading g l : forall st st2, heading_ok g st -> fold_res (compare_fun an o s2 g) st l = Ok st2 -> heading_ok g st2.
  Proof.
    induction l as [|fd l IH]; intros st st2 H; cbn [fold_res]; [intros E; apply Ok_inj in E; subst; assumption|].
    destruct (compare_fun an o s2 g st fd) as [st1|] eqn:E; [|discriminate]. apply IH. eapply step_heading; eauto.
  Qed.
  Lemma groups_heading gs : forall st st2, all_headed (c_shown st) ->
    (In None (map fst gs) -> last_heading (c_shown st) = None /\ length gs = 1) ->
    fold_res (compare_group an o s2) st gs = Ok st2 -> all_headed (c_shown st2).
  Proof.
    induction gs as [|[g fs] gs IH]; intros st st2 H N; cbn [fold_res]; [intros E; apply Ok_inj in E; subst; assumption|].
    destruct (compare_group an o s2 st (g, fs)) as [st1|] eqn:E; [|discriminate].
    unfold compare_group in E. cbn [fst snd] in E. intros E2.
    apply funs_heading in E as (A & _ & _).
    - apply (IH st1 st2 A); [|exact E2]. intros I. exfalso.
      destruct N as [_ N]; [right; exact I|]. destruct gs; [destruct I|discriminate].
    - split; [exact H|split; [discriminate|]]. intros ->. apply N. left. reflexivity.
  Qed.
End Shown.
