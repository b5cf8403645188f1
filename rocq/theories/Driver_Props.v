(** * Theorems about the comparison of one function pair (C23-C26, C45, C63, C64) *)
From Coq Require Import String Ascii ZArith Arith Bool Lia List Permutation.
From Verif Require Import PyBase Path_Model Result_Model Result_Spec Result_Proofs Graph_Model Graph_Spec
  Graph_Proofs Graph_Objects Graph_Merge Graph_Props Merge_Props Cache_Model Module_Model Module_Props
  Driver_Model Driver_Spec Driver_Proofs.
Import ListNotations.
Open Scope list_scope.

(** ** Auxiliary facts *)
Lemma Forall2_len {A B} (R : A -> B -> Prop) l l' : Forall2 R l l' -> length l = length l'.
Proof. induction 1; simpl; congruence. Qed.
Lemma at_most_none k : at_most k NONE -> k = NONE.
Proof. intros H. apply at_most_int in H. destruct k; simpl in H; try lia; reflexivity. Qed.

Lemma finish_log s r o : fst (finish s r o) = s.
Proof. unfold finish. destruct o as [|[]]; reflexivity. Qed.
Lemma finish_err s r e st' out : finish s r (Err e) = (st', out) ->
  st' = s /\ ((exists r', out = Ok r' /\ caught e /\ r_kind r' = ERROR /\ r_inner r' = r_inner r /\
                          r_graph r' = match s_curr s with Some c => Some c | None => s_prev s end) \/
              (out = Err e /\ ~ caught e)).
Proof.
  unfold finish, caught.
  destruct e; intros H; injection H as <- <-; (split; [reflexivity|]);
    first [right; split; [reflexivity|]; intros [X|[X|[X|X]]]; discriminate
          | left; eexists; repeat split; auto].
Qed.
Lemma finish_ok s r u : finish s r (Ok u) =
  (s, Ok (with_graph r (match s_curr s with Some c => Some c | None => s_prev s end))).
Proof. reflexivity. Qed.

Lemma judged_plain cfg os kds : full_diff cfg = false -> semdiff_tool cfg = false ->
  Forall2 (judged cfg) os kds ->
  filter kept (combine os kds) = combine os kds /\
  Forall2 shows os (map inner_of (combine os kds)) /\
  Forall2 (fun o i => r_diff i = None <-> o_kind o <> NOT_EQUAL) os (map inner_of (combine os kds)) /\
  map r_kind (map inner_of (combine os kds)) = map o_kind os.
Proof.
  intros FD SD F. induction F as [|o [k d] os kds (J1 & J2) F (IH1 & IH2 & IH3 & IH4)];
    cbn [combine filter map].
  { repeat split; constructor. }
  cbn [fst snd] in *. assert (k = o_kind o) by auto. subst k.
  assert (kept (o, (o_kind o, d)) = true) as ->.
  { unfold kept, object_skipped. cbn [fst snd]. destruct (kind_eqb_spec (o_kind o) NOT_EQUAL) as [E|E]; [reflexivity|].
    assert (d = None) as -> by (apply J2; auto). reflexivity. }
  split; [congruence|]. split; [constructor; [repeat split|exact IH2]|].
  split; [|cbn; congruence]. constructor; [|exact IH3]. cbn. rewrite J2. tauto.
Qed.

Lemma pair_list_kinds w h g f1 f2 p : any_order w -> object_list w h g f1 f2 false p ->
  forall o, In o (p_objects p) -> o_kind o <> EQUAL /\ o_kind o <> ASSUMED_EQUAL.
Proof.
  intros PO T o Io.
  destruct (reachable_from_terminates h g LEFT f1) as (rl & nl & Hl).
  destruct (reachable_from_terminates h g RIGHT f2) as (rr & nr & Hr).
  destruct T as (n & T). pose proof (T (n + nl + nr) ltac:(lia)) as Tn. unfold graph_to_fun_pair_list in Tn.
  rewrite Hl in Tn by lia. destruct rl as [l|e]; [|discriminate]. cbn [obind] in Tn.
  rewrite Hr in Tn by lia. destruct rr as [r|e]; [|discriminate]. clear Tn.
  pose proof (Hl nl (le_n _)) as Hl0. pose proof (Hr nr (le_n _)) as Hr0.
  apply reachable_from_ok in Hl0. destruct Hl0 as (sl & D1 & _).
  apply reachable_from_ok in Hr0. destruct Hr0 as (sr & D2 & _).
  destruct (pair_list_reached (w_order w) h g f1 f2 false sl sr l r PO D1 D2) as (p' & vs & blocks & T' & _ & V & E & F & _).
  { exists nl; exact Hl. } { exists nr; exact Hr. }
  assert (p' = p).
  { destruct T' as (n' & T'). pose proof (T (n + n') ltac:(lia)) as A. rewrite T' in A by lia. congruence. }
  subst p'. rewrite E in Io. apply in_flat_map in Io. destruct Io as (b & Ib & Io).
  assert (exists v, In v vs /\ block_ok h g f1 f2 sl sr v b) as (v & Iv & (FD & ND)).
  { clear -F Ib. induction F as [|v b' vs bs B F IH]; [destruct Ib|]. destruct Ib as [->|Ib].
    - exists v. simpl. auto.
    - destruct (IH Ib) as (v' & Iv & B'). exists v'. simpl. auto. }
  destruct Io as [<-|Io].
  - destruct FD as (RF & _). apply V in Iv. destruct Iv as (_ & _ & NH).
    assert (K : o_kind (fst b) = v_result (h v)) by (unfold reports_function in RF; tauto).
    rewrite K. unfold hidden in NH. intuition.
  - assert (K : o_kind o = NOT_EQUAL).
    { clear -ND Io. induction ND as [|d o' ds os D F IH]; [destruct Io|]. destruct Io as [->|Io]; [|auto].
      destruct D as (RN & _). unfold reports_nonfun in RN. tauto. }
    rewrite K. split; discriminate.
Qed.

(** ** C23 *)

(** Without --full-diff and without a semantic checker a comparison that returns a result either
    failed in its last action (verdict ERROR), or its verdict and its inner results follow from
    the object list of the returned graph: EQUAL exactly if the list is empty; otherwise the most
    severe of the listed verdicts; and under each name the last listed object of that name is
    found, with its verdict and a text exactly if it is NOT_EQUAL. *)
Theorem C23_verdict_from_object_list : forall w cwd dir cfg f1 f2 st st' r,
  any_order w -> full_diff cfg = false -> semdiff_tool cfg = false ->
  ends w cwd dir cfg f1 f2 st st' (Ok r) ->
  (r_kind r = ERROR /\ exists e, caught e /\ last_action_failed w cwd dir (s_log st') e) \/
  (exists g p, r_graph r = Some g /\ object_list w (s_heap st') g f1 f2 false p /\
     (r_kind r = EQUAL <-> p_objects p = []) /\
     (p_objects p <> [] -> worst (r_kind r) (map o_kind (p_objects p))) /\
     exists is, Forall2 shows (p_objects p) is /\
       Forall2 (fun o i => r_diff i = None <-> o_kind o <> NOT_EQUAL) (p_objects p) is /\
       forall n, dget (r_inner r) n = last_named (fun i => en_name (r_first i)) n is).
Proof.
  intros w cwd dir cfg f1 f2 st st' r PO FD SD H.
  destruct (fd_cases w cwd dir cfg f1 f2 st st' (Ok r) PO H) as (st1 & lo & T & C).
  destruct T as (n & T). pose proof (T n (le_n _)) as Tn. apply loop_end in Tn. destruct Tn as (_ & LE).
  destruct lo as [reused|e].
  2:{ left. symmetry in C. apply finish_err in C. destruct C as (-> & [(r' & E & CA & K & _)|(E & _)]); [|discriminate].
      injection E as <-. split; [exact K|]. exists e. auto. }
  destruct C as (g & G & [(e & _ & _ & _ & E)|(p & P & E)]); [discriminate|].
  unfold objects_from in P. rewrite FD in P. unfold conclude in E.
  pose proof (pair_list_kinds w _ _ _ _ p PO P) as PK.
  destruct (p_objects p) as [|o os] eqn:EO.
  - right. rewrite finish_ok in E. injection E as -> ->. exists g, p.
    cbn. rewrite G.
    split; [reflexivity|]. split; [exact P|]. rewrite EO. split; [split; reflexivity|]. split; [congruence|].
    exists []. split; [constructor|]. split; [constructor|]. reflexivity.
  - destruct (process_objects _ _ _ _ _ _ _) as [[st3 r3] oo] eqn:PR.
    destruct (process_spec w cwd dir _ _ _ _ _ _ _ _ _ PR) as ((FR & _) & O).
    destruct oo as [u|e].
    2:{ left. symmetry in E. apply finish_err in E. destruct E as (-> & [(r' & E & CA & K & _)|(E & _)]); [|discriminate].
        injection E as <-. split; [exact K|]. exists e. split; [exact CA|].
        destruct O as [O|[-> | ->]]; [exact O| |]; destruct CA as [CA|[CA|[CA|CA]]]; discriminate. }
    right. rewrite finish_ok in E. injection E as -> ->. exists g, p.
    assert (HH : s_heap st3 = s_heap st1) by (destruct FR as (FR & _); exact FR).
    assert (HC : s_curr st3 = Some g) by (destruct FR as (_ & _ & _ & FR); rewrite FR; exact G).
    cbn [with_graph r_graph r_kind r_inner]. rewrite HH, HC.
    split; [reflexivity|]. split; [exact P|]. rewrite EO.
    destruct O as (kds & F & A). destruct (judged_plain _ _ _ FD SD F) as (FK & SH & DF & KK). rewrite FK in A.
    destruct (add_inners_kind _ _ _ A) as (U & M). rewrite KK in U, M. cbn [r_kind new_result] in U, M.
    assert (W : worst (r_kind r3) (map o_kind (o :: os))).
    { split; [|intros k' I; apply U; right; exact I]. destruct M as [M|M]; [|exact M].
      assert (X : at_most (o_kind o) (r_kind r3)) by (apply U; right; left; reflexivity).
      rewrite <- M in X. apply at_most_none in X. rewrite <- M. left. exact X. }
    split; [split; [|discriminate]|].
    { intros K. exfalso. destruct W as (W & _). apply in_map_iff in W. destruct W as (o' & W & I).
      destruct (PK o' I) as (N & _). congruence. }
    split; [intros _; exact W|].
    eexists. split; [exact SH|]. split; [exact DF|]. intros m. rewrite (add_inners_get _ _ _ m A).
    destruct (last_named _ m _); reflexivity.
Qed.
Print Assumptions C23_verdict_from_object_list.

(** A run of SimpLL that fails ends the comparison at once with the verdict ERROR and no
    inner results. *)
Theorem C23_simpll_failure_is_error : forall w cwd dir cfg f1 f2 st st' out l r pre new,
  any_order w -> ends w cwd dir cfg f1 f2 st st' out ->
  s_log st' = pre ++ ERunSimpll l r :: new ++ s_log st ->
  (forall h, w_simpll w (new ++ s_log st) h l r = Err SimpLLException) ->
  pre = [] /\ exists res, out = Ok res /\ r_kind res = ERROR /\ r_inner res = [].
Proof.
  intros w cwd dir cfg f1 f2 st st' out l r pre new PO H LG F.
  destruct (fd_cases w cwd dir cfg f1 f2 st st' out PO H) as (st1 & lo & T & C).
  destruct T as (n & T). pose proof (T n (le_n _)) as Tn.
  assert (LOOP : forall pre', s_log st1 = pre' ++ ERunSimpll l r :: new ++ s_log st ->
                 pre' = [] /\ lo = Err SimpLLException).
  { intros pre' E. eapply loop_failed_run; [exact Tn|exact E|exact F]. }
  destruct lo as [reused|e].
  - exfalso. destruct C as (g & G & [(e & _ & _ & E & _)|(p & P & E)]).
    + subst st'. destruct (LOOP pre LG) as (_ & X). discriminate.
    + assert (SH : exists nw, s_log st' = nw ++ s_log st1 /\ Forall only_shows nw).
      { unfold conclude in E. destruct (p_objects p).
        - injection E as -> _. exists []. split; [reflexivity|constructor].
        - destruct (process_objects _ _ _ _ _ _ _) as [[st3 r3] oo] eqn:PR.
          destruct (process_spec w cwd dir _ _ _ _ _ _ _ _ _ PR) as ((_ & _ & _ & nw & L & S & _) & _).
          assert (st' = st3) as -> by (rewrite <- (finish_log st3 r3 oo), <- E; reflexivity).
          exists nw. auto. }
      destruct SH as (nw & L & S). rewrite L in LG. apply app_eq_app in LG.
      destruct LG as (t & [(A & B)|(A & B)]).
      * destruct t as [|x t].
        -- cbn in B. destruct (LOOP [] (eq_sym B)) as (_ & X). discriminate.
        -- cbn in B. injection B as B1 B2. rewrite A in S. apply Forall_app in S. destruct S as (_ & S).
           inversion S as [|? ? S1 _]. rewrite <- B1 in S1. exact S1.
      * destruct (LOOP t B) as (_ & X). discriminate.
  - symmetry in C. apply finish_err in C. destruct C as (-> & C). destruct (LOOP pre LG) as (P & X).
    split; [exact P|]. injection X as ->. destruct C as [(r' & -> & _ & K & I & _)|(_ & NC)].
    + exists r'. auto.
    + exfalso. apply NC. left. reflexivity.
Qed.
Print Assumptions C23_simpll_failure_is_error.

(** With --full-diff: the objects that are not NOT_EQUAL and have an empty text are left out;
    the verdict is the most severe of the remaining ones, or NONE if none remains. *)
Theorem C23_full_diff_verdict : forall w cwd dir cfg f1 f2 st st' r,
  any_order w -> full_diff cfg = true -> semdiff_tool cfg = false ->
  ends w cwd dir cfg f1 f2 st st' (Ok r) -> r_kind r <> ERROR ->
  exists g p ds, r_graph r = Some g /\ object_list w (s_heap st') g f1 f2 true p /\
    length ds = length (p_objects p) /\
    (p_objects p = [] -> r_kind r = EQUAL) /\
    (p_objects p <> [] ->
       worst (r_kind r)
         (NONE :: map (fun x => o_kind (fst x))
                   (filter (fun x => kind_eqb (o_kind (fst x)) NOT_EQUAL || negb (String.eqb (snd x) ""))
                           (combine (p_objects p) ds)))).
Proof.
  intros w cwd dir cfg f1 f2 st st' r PO FD SD H NE.
  destruct (fd_cases w cwd dir cfg f1 f2 st st' (Ok r) PO H) as (st1 & lo & T & C).
  destruct lo as [reused|e].
  2:{ exfalso. symmetry in C. apply finish_err in C. destruct C as (-> & [(r' & E & CA & K & _)|(E & _)]); [|discriminate].
      injection E as <-. contradiction. }
  destruct C as (g & G & [(e & _ & _ & _ & E)|(p & P & E)]); [discriminate|].
  unfold objects_from in P. rewrite FD in P. unfold conclude in E.
  destruct (p_objects p) as [|o os] eqn:EO.
  - rewrite finish_ok in E. injection E as -> ->. exists g, p, []. rewrite EO. cbn. rewrite G.
    repeat split; auto; congruence.
  - destruct (process_objects _ _ _ _ _ _ _) as [[st3 r3] oo] eqn:PR.
    destruct (process_spec w cwd dir _ _ _ _ _ _ _ _ _ PR) as ((FR & _) & O).
    destruct oo as [u|e].
    2:{ exfalso. symmetry in E. apply finish_err in E. destruct E as (-> & [(r' & E & CA & K & _)|(E & _)]); [|discriminate].
        injection E as <-. contradiction. }
    rewrite finish_ok in E. injection E as -> ->.
    destruct O as (kds & F & A).
    exists g, p, (map (fun kd => match snd kd with Some d => d | None => ""%string end) kds).
    assert (HH : s_heap st3 = s_heap st1) by (destruct FR as (FR & _); exact FR).
    assert (HC : s_curr st3 = Some g) by (destruct FR as (_ & _ & _ & FR); rewrite FR; exact G).
    cbn [with_graph r_graph r_kind r_inner]. rewrite HH, HC. rewrite EO.
    split; [reflexivity|]. split; [exact P|]. split; [rewrite map_length; symmetry; eapply Forall2_len; eauto|].
    split; [discriminate|]. intros _.
    assert (KS : map r_kind (map inner_of (filter kept (combine (o :: os) kds))) =
      map (fun x => o_kind (fst x))
          (filter (fun x => kind_eqb (o_kind (fst x)) NOT_EQUAL || negb (String.eqb (snd x) ""))
             (combine (o :: os) (map (fun kd => match snd kd with Some d => d | None => ""%string end) kds)))).
    { clear -F FD SD. induction F as [|x [k d] xs ys (J1 & J2) F IH]; [reflexivity|].
      cbn [combine map filter fst snd] in *. assert (k = o_kind x) by auto. subst k.
      destruct d as [d|]; [|exfalso; destruct J2 as (J2 & _); destruct (J2 eq_refl); congruence].
      unfold kept at 1, object_skipped. cbn [fst snd]. rewrite negb_andb, negb_involutive.
      destruct (kind_eqb (o_kind x) NOT_EQUAL || negb (String.eqb d "")); cbn [map inner_of r_kind fst snd]; congruence. }
    destruct (add_inners_kind _ _ _ A) as (U & M). rewrite KS in U, M. split; [exact M|exact U].
Qed.
Print Assumptions C23_full_diff_verdict.

(** An EQUAL verdict is trustworthy: if the returned graph has the compared function on both
    sides, files for all functions and no weak calls, no function reachable on both sides is in
    doubt or different. *)
Theorem C23_equal_means_no_reachable_difference : forall w cwd dir cfg f1 f2 st st' r g sl sr,
  any_order w -> full_diff cfg = false -> semdiff_tool cfg = false ->
  ends w cwd dir cfg f1 f2 st st' (Ok r) -> r_kind r = EQUAL -> r_graph r = Some g ->
  dget (g_verts g) f1 = Some sl -> dget (g_verts g) f2 = Some sr ->
  all_files (s_heap st') g LEFT -> all_files (s_heap st') g RIGHT ->
  (forall s u e t, calls (s_heap st') g s u e t -> e_kind e = STRONG) ->
  forall v, reachable (s_heap st') g LEFT sl v -> reachable (s_heap st') g RIGHT sr v ->
    v_result (s_heap st' v) = EQUAL \/ v_result (s_heap st' v) = ASSUMED_EQUAL.
Proof.
  intros w cwd dir cfg f1 f2 st st' r g sl sr PO FD SD H K G D1 D2 A1 A2 NW v R1 R2.
  destruct (C23_verdict_from_object_list _ _ _ _ _ _ _ _ _ PO FD SD H) as [(E & _)|(g' & p & G' & P & EQ & _)].
  { congruence. }
  assert (g' = g) by congruence. subst g'. apply EQ in K.
  assert (DEC : hidden false (v_result (s_heap st' v)) \/ ~ hidden false (v_result (s_heap st' v))).
  { rewrite <- skip_vertex_hidden. destruct (skip_vertex false (s_heap st' v)); auto. }
  destruct DEC as [[X|(X & _)]|NH]; auto.
  destruct (C07_no_difference_missed_without_weak_calls _ _ g _ _ _ _ _ PO D1 D2 A1 A2 NW p v P R1 R2 NH) as ((o & I & _) & _).
  rewrite K in I. destruct I.
Qed.
Print Assumptions C23_equal_means_no_reachable_difference.

(** ** C24 *)

(** If the symbol finder knows finitely many modules, the comparison ends, whatever SimpLL
    reports as missing, and SimpLL was run at most once more than there are modules. *)
Theorem C24_linking_terminates : forall w cwd dir cfg f1 f2 st left_modules right_modules,
  any_order w ->
  (forall lg x m, w_find w lg LEFT x = Some m -> In m left_modules) ->
  (forall lg x m, w_find w lg RIGHT x = Some m -> In m right_modules) ->
  exists st' out, ends w cwd dir cfg f1 f2 st st' out /\
    runs (s_log st') <= runs (s_log st) + length left_modules + length right_modules + 1.
Proof.
  intros w cwd dir cfg f1 f2 st lm rm PO FL FR.
  destruct (fd_terminates w cwd dir cfg f1 f2 st (fun s => match s with LEFT => lm | RIGHT => rm end) PO)
    as (st' & out & T & R).
  { intros lg [] x m; eauto. }
  exists st', out. auto.
Qed.
Print Assumptions C24_linking_terminates.

(** ** C25 *)

(** With a decided same-file result for the function in the previous graph, nothing but single
    differences is looked at: no SimpLL, no search, no linking, no cache; graph, heap and cache
    stay, a pending restoration of the modules is carried out, and the answer is about the
    previous graph. *)
Theorem C25_known_result_reused : forall w cwd dir cfg f1 f2 st st' out g v,
  any_order w -> s_prev st = Some g -> dget (g_verts g) f1 = Some v ->
  v_result (s_heap st v) <> ASSUMED_EQUAL -> fst (v_files (s_heap st v)) = snd (v_files (s_heap st v)) ->
  ends w cwd dir cfg f1 f2 st st' out ->
  (exists new, s_log st' = new ++ s_log st /\ Forall only_shows new) /\
  s_heap st' = s_heap st /\ s_cache st' = s_cache st /\ s_prev st' = s_prev st /\
  (m_unlinked (s_first st) = None -> s_first st' = s_first st) /\
  (m_unlinked (s_second st) = None -> s_second st' = s_second st) /\
  (forall r, out = Ok r -> r_graph r = Some g).
Proof.
  intros w cwd dir cfg f1 f2 st st' out g v PO P D NA SF H.
  set (s0 := set_curr (s_heap st) None st).
  assert (RU : reusable s0 f1 = true).
  { unfold reusable, s0. cbn. rewrite P, D. apply andb_true_iff. split.
    - apply negb_true_iff. destruct (kind_eqb_spec (v_result (s_heap st v)) ASSUMED_EQUAL); congruence.
    - unfold same_file. apply (reflect_iff _ _ (opt_eqb_spec _ _)). exact SF. }
  destruct (fd_cases w cwd dir cfg f1 f2 st st' out PO H) as (st1 & lo & (n & T) & C).
  pose proof (T (S n) ltac:(lia)) as Tn. unfold loop_from in Tn. fold s0 in Tn. rewrite loop_reuse in Tn by exact RU.
  injection Tn as <- <-. destruct C as (g' & G & C). cbn in G. assert (g' = g) by congruence. subst g'.
  assert (RN : forall m, m_unlinked m = None -> restore_unlinked m = m) by (intros m E; unfold restore_unlinked; rewrite E; reflexivity).
  destruct C as [(e & _ & _ & -> & ->)|(p & _ & E)].
  - split; [exists []; split; [reflexivity|constructor]|]. cbn. repeat split; auto. discriminate.
  - unfold conclude in E. destruct (p_objects p) as [|o os].
    + rewrite finish_ok in E. injection E as -> ->.
      split; [exists []; split; [reflexivity|constructor]|]. cbn. repeat split; auto.
      intros r E. injection E as <-. cbn. rewrite P. reflexivity.
    + destruct (process_objects _ _ _ _ _ _ _) as [[st3 r3] oo] eqn:PR.
      destruct (process_spec w cwd dir _ _ _ _ _ _ _ _ _ PR) as (((F1 & F2 & F3 & F4) & M1 & M2 & nw & L & S & _) & _).
      assert (st' = st3) as -> by (rewrite <- (finish_log st3 r3 oo), <- E; reflexivity).
      split; [exists nw; split; [exact L|exact S]|].
      split; [exact F1|]. split; [exact F2|]. split; [exact F3|].
      split; [intros X; rewrite M1; cbn; auto|]. split; [intros X; rewrite M2; cbn; auto|].
      intros r ->. cbn in F4. rewrite P in F4. destruct oo as [u|e].
      * rewrite finish_ok in E. injection E as ->. cbn. rewrite F4. reflexivity.
      * symmetry in E. apply finish_err in E. destruct E as (_ & [(r' & E & _ & _ & _ & GR)|(E & _)]); [|discriminate].
        injection E as <-. rewrite F4 in GR. exact GR.
Qed.
Print Assumptions C25_known_result_reused.

(** In all other cases SimpLL is run. *)
Theorem C25_otherwise_simpll_runs : forall w cwd dir cfg f1 f2 st st' out,
  any_order w ->
  (forall g v, s_prev st = Some g -> dget (g_verts g) f1 = Some v ->
     v_result (s_heap st v) = ASSUMED_EQUAL \/ fst (v_files (s_heap st v)) <> snd (v_files (s_heap st v))) ->
  ends w cwd dir cfg f1 f2 st st' out -> runs (s_log st) < runs (s_log st').
Proof.
  intros w cwd dir cfg f1 f2 st st' out PO U H.
  set (s0 := set_curr (s_heap st) None st).
  assert (RU : reusable s0 f1 = false).
  { unfold reusable, s0. cbn. destruct (s_prev st) as [g|] eqn:P; [|reflexivity].
    destruct (dget (g_verts g) f1) as [v|] eqn:D; [|reflexivity].
    destruct (U g v eq_refl D) as [E|E].
    - rewrite E. reflexivity.
    - apply andb_false_iff. right. unfold same_file. destruct (opt_eqb_spec (fst (v_files (s_heap st v))) (snd (v_files (s_heap st v)))); congruence. }
  destruct (fd_cases w cwd dir cfg f1 f2 st st' out PO H) as (st1 & lo & (n & T) & C).
  pose proof (T n (le_n _)) as Tn. unfold loop_from in Tn. fold s0 in Tn. apply loop_runs in Tn; [|exact RU].
  change (runs (s_log s0)) with (runs (s_log st)) in Tn.
  destruct lo as [reused|e].
  - destruct C as (g & G & [(e & _ & _ & -> & _)|(p & P & E)]); [exact Tn|].
    unfold conclude in E. destruct (p_objects p).
    + injection E as -> _. exact Tn.
    + destruct (process_objects _ _ _ _ _ _ _) as [[st3 r3] oo] eqn:PR.
      destruct (process_spec w cwd dir _ _ _ _ _ _ _ _ _ PR) as ((_ & _ & _ & nw & L & S & _) & _).
      assert (st' = st3) as -> by (rewrite <- (finish_log st3 r3 oo), <- E; reflexivity).
      rewrite L, runs_app. change (s_log (restore_modules st1)) with (s_log st1). lia.
  - assert (st' = st1) as -> by (rewrite <- (finish_log st1 (new_result NONE f1 f2) (Err e)), <- C; reflexivity).
    exact Tn.
Qed.
Print Assumptions C25_otherwise_simpll_runs.

(** ** C26 *)
Lemma z3_line_answer k line k' : z3_answer line k' -> z3_line k line = k'.
Proof. intros [(-> & ->)|[(-> & ->)|(-> & ->)]]; reflexivity. Qed.
Lemma z3_line_other k line : (forall k', ~ z3_answer line k') -> z3_line k line = k.
Proof.
  intros N. unfold z3_line.
  destruct (String.eqb_spec line "sat") as [->|_]; [destruct (N NOT_EQUAL); left; auto|].
  destruct (String.eqb_spec line "unsat") as [->|_]; [destruct (N EQUAL); right; left; auto|].
  destruct (String.eqb_spec line "unknown") as [->|_]; [destruct (N UNKNOWN); right; right; auto|reflexivity].
Qed.
Lemma z3_answer_dec line : (exists k, z3_answer line k) \/ forall k, ~ z3_answer line k.
Proof.
  unfold z3_answer.
  destruct (String.eqb_spec line "sat") as [->|A]; [left; exists NOT_EQUAL; auto|].
  destruct (String.eqb_spec line "unsat") as [->|B]; [left; exists EQUAL; auto|].
  destruct (String.eqb_spec line "unknown") as [->|C]; [left; exists UNKNOWN; auto|].
  right. intros k [(X & _)|[(X & _)|(X & _)]]; contradiction.
Qed.
Lemma z3_fold lines : forall k0,
  (forall k, last_answer lines k -> fold_left z3_line lines k0 = k) /\
  ((forall x k, In x lines -> ~ z3_answer x k) -> fold_left z3_line lines k0 = k0) /\
  ((exists k, last_answer lines k) \/ (forall x k, In x lines -> ~ z3_answer x k)).
Proof.
  induction lines as [|x lines IH]; intros k0; cbn [fold_left].
  - split; [intros k (b & l & a & E & _); destruct b; discriminate|]. split; [auto|]. right. intros x k [].
  - destruct (IH (z3_line k0 x)) as (A & B & C). split; [|split].
    + intros k (b & l & a & E & Z & N). destruct b as [|y b]; cbn in E; injection E as -> ->.
      * rewrite B; [apply z3_line_answer, Z|]. intros y k' I. apply N, I.
      * apply A. exists b, l, a. auto.
    + intros N. rewrite B; [|intros y k I; apply N; right; exact I]. apply z3_line_other. intros k. apply N. left; auto.
    + destruct C as [(k & b & l & a & -> & Z)|N]; [left; exists k, (x :: b), l, a; auto|].
      destruct (z3_answer_dec x) as [(k & Z)|M].
      * left. exists k, [], x, lines. split; [reflexivity|]. split; [exact Z|]. intros y k'. apply N.
      * right. intros y k [<-|I]; auto.
Qed.

Theorem C26_verdict_by_last_answer : forall lines code,
  (forall k, last_answer lines k -> llreve_verdict lines 0 true = k) /\
  ((forall k, ~ last_answer lines k) -> llreve_verdict lines 0 true = ERROR) /\
  (code <> 0%Z -> llreve_verdict lines code true = ERROR) /\
  llreve_verdict lines code false = TIMEOUT.
Proof.
  intros lines code. unfold llreve_verdict. destruct (z3_fold lines ERROR) as (A & B & C).
  cbn [Z.eqb]. split; [exact A|]. split; [|split; [|reflexivity]].
  - intros N. destruct C as [(k & C)|C]; [destruct (N k C)|auto].
  - intros N. apply Z.eqb_neq in N. rewrite N. reflexivity.
Qed.
Print Assumptions C26_verdict_by_last_answer.

Theorem C26_equal_only_if_proved : forall lines code alive,
  llreve_verdict lines code alive = EQUAL <-> alive = true /\ code = 0%Z /\ last_answer lines EQUAL.
Proof.
  intros lines code alive. destruct (z3_fold lines ERROR) as (A & B & C).
  unfold llreve_verdict. split.
  - destruct alive; [|discriminate]. destruct (Z.eqb_spec code 0) as [->|_]; [|discriminate].
    intros E. split; [reflexivity|]. split; [reflexivity|].
    destruct C as [(k & C)|C].
    + rewrite (A k C) in E. subst. exact C.
    + rewrite (B C) in E. discriminate.
  - intros (-> & -> & L). cbn. apply A, L.
Qed.
Print Assumptions C26_equal_only_if_proved.
Example C26_example :
  last_answer ["unknown"; "unsat"; ""]%string EQUAL /\ llreve_verdict ["unknown"; "unsat"; ""]%string 0 true = EQUAL.
Proof.
  split; [|reflexivity]. exists ["unknown"%string], "unsat"%string, [""%string]. split; [reflexivity|].
  split; [right; left; auto|]. intros x k [<-|[]] [(X & _)|[(X & _)|(X & _)]]; discriminate.
Qed.

(** ** C45: modules during a comparison *)

(** A comparison of two fresh modules that does not end in ERROR leaves them unlinked. *)
Theorem C45_unlinked_after_comparison : forall w cwd dir cfg f1 f2 st st' r fl fr,
  any_order w -> s_first st = new_mod fl -> s_second st = new_mod fr ->
  ends w cwd dir cfg f1 f2 st st' (Ok r) -> r_kind r <> ERROR ->
  m_llvm (s_first st') = fl /\ m_unlinked (s_first st') = None /\ m_linked (s_first st') = [] /\
  m_llvm (s_second st') = fr /\ m_unlinked (s_second st') = None /\ m_linked (s_second st') = [].
Proof.
  intros w cwd dir cfg f1 f2 st st' r fl fr PO E1 E2 H NE.
  destruct (fd_cases w cwd dir cfg f1 f2 st st' (Ok r) PO H) as (st1 & lo & (n & T) & C).
  pose proof (T n (le_n _)) as Tn.
  destruct (loop_state w cwd dir fl fr f1 _ _ _ _ Tn) as (S1 & S2).
  { left. cbn. rewrite E1. auto. } { left. cbn. rewrite E2. auto. }
  assert (RS : forall f m, state_of f m -> m_llvm (restore_unlinked m) = f /\
                 m_unlinked (restore_unlinked m) = None /\ m_linked (restore_unlinked m) = []).
  { intros f m [(A & B & D)|(A & B & D)]; unfold restore_unlinked; rewrite B; cbn; auto. }
  destruct lo as [reused|e].
  2:{ exfalso. symmetry in C. apply finish_err in C. destruct C as (-> & [(r' & E & CA & K & _)|(E & _)]); [|discriminate].
      injection E as <-. contradiction. }
  destruct C as (g & G & [(e & _ & _ & _ & E)|(p & P & E)]); [discriminate|].
  assert (M : s_first st' = restore_unlinked (s_first st1) /\ s_second st' = restore_unlinked (s_second st1)).
  { unfold conclude in E. destruct (p_objects p).
    - injection E as -> _. auto.
    - destruct (process_objects _ _ _ _ _ _ _) as [[st3 r3] oo] eqn:PR.
      destruct (process_spec w cwd dir _ _ _ _ _ _ _ _ _ PR) as ((_ & M1 & M2 & _) & _).
      assert (st' = st3) as -> by (rewrite <- (finish_log st3 r3 oo), <- E; reflexivity).
      rewrite M1, M2. auto. }
  destruct M as (-> & ->). destruct (RS _ _ S1) as (A & B & D), (RS _ _ S2) as (A' & B' & D'). auto 10.
Qed.
Print Assumptions C45_unlinked_after_comparison.

(** ** C63: which objects the semantic checker sees *)

(** The checker is never asked about a function; whatever is configured, function objects keep
    SimpLL's verdict. *)
Theorem C63_checker_never_sees_functions : forall w cwd dir cfg f1 f2 st st' out,
  any_order w -> ends w cwd dir cfg f1 f2 st st' out ->
  (exists new, s_log st' = new ++ s_log st /\
     forall o, In (ESemdiff o) new -> en_kind (o_first o) <> DFunction /\ semdiff_tool cfg = true) /\
  (forall r, out = Ok r -> r_kind r <> ERROR ->
     exists g p, r_graph r = Some g /\ object_list w (s_heap st') g f1 f2 (full_diff cfg) p /\
       forall n i, dget (r_inner r) n = Some i -> en_kind (r_first i) = DFunction ->
         exists o, In o (p_objects p) /\ shows o i).
Proof.
  intros w cwd dir cfg f1 f2 st st' out PO H.
  destruct (fd_cases w cwd dir cfg f1 f2 st st' out PO H) as (st1 & lo & (n & T) & C).
  pose proof (T n (le_n _)) as Tn. apply loop_extends in Tn. destruct Tn as (n1 & L1 & F1).
  change (s_log (set_curr (s_heap st) None st)) with (s_log st) in L1.
  assert (N1 : forall o, ~ In (ESemdiff o) n1).
  { intros o I. rewrite Forall_forall in F1. apply (F1 _ I). exact Logic.I. }
  destruct lo as [reused|e].
  2:{ symmetry in C. apply finish_err in C. destruct C as (-> & C). split.
      - exists n1. split; [exact L1|]. intros o I. destruct (N1 o I).
      - intros r -> NE. destruct C as [(r' & E & CA & K & _)|(E & _)]; [|discriminate].
        injection E as <-. contradiction. }
  destruct C as (g & G & [(e & _ & _ & -> & ->)|(p & P & E)]).
  { split; [|discriminate]. exists n1. split; [exact L1|]. intros o I. destruct (N1 o I). }
  unfold conclude in E. destruct (p_objects p) as [|o os] eqn:EO.
  { rewrite finish_ok in E. injection E as -> ->. split.
    - exists n1. split; [exact L1|]. intros o I. destruct (N1 o I).
    - intros r E _. injection E as <-. exists g, p. cbn. rewrite G. split; [reflexivity|]. split; [exact P|]. discriminate. }
  destruct (process_objects _ _ _ _ _ _ _) as [[st3 r3] oo] eqn:PR.
  destruct (process_spec w cwd dir _ _ _ _ _ _ _ _ _ PR) as (((FH & _ & _ & FC) & _ & _ & nw & L & S & SD) & O).
  assert (ST : st' = st3) by (rewrite <- (finish_log st3 r3 oo), <- E; reflexivity). subst st'. split.
  - exists (nw ++ n1). split; [rewrite L; change (s_log (restore_modules st1)) with (s_log st1); rewrite L1, app_assoc; reflexivity|].
    intros x I. apply in_app_iff in I as [I|I]; [|destruct (N1 x I)]. apply SD in I. destruct I as (I1 & I2).
    split; [|exact I2]. intros X. unfold is_function in I1. rewrite X in I1. discriminate.
  - intros r -> NE. destruct oo as [u|e].
    2:{ exfalso. symmetry in E. apply finish_err in E. destruct E as (_ & [(r' & E & CA & K & _)|(E & _)]); [|discriminate].
        injection E as <-. contradiction. }
    rewrite finish_ok in E. injection E as ->. exists g, p.
    assert (HC : s_curr st3 = Some g) by (rewrite FC; exact G).
    cbn [with_graph r_graph r_kind r_inner]. rewrite HC, FH. split; [reflexivity|]. split; [exact P|].
    destruct O as (kds & F & A). intros m i D K. rewrite (add_inners_get _ _ _ m A) in D.
    destruct (last_named _ m _) as [x|] eqn:LN; [|cbn in D; discriminate]. injection D as ->.
    assert (I : In i (map inner_of (filter kept (combine (o :: os) kds)))).
    { clear -LN. induction (map inner_of _) as [|y l IH]; cbn in LN; [discriminate|].
      destruct (last_named _ m l); [right; auto|]. destruct (String.eqb _ _); [|discriminate]. injection LN as ->. left; auto. }
    apply in_map_iff in I. destruct I as ((x & kd) & <- & I). apply filter_In in I. destruct I as (I & _).
    exists x. rewrite EO. split; [eapply in_combine_l; exact I|].
    assert (J : judged cfg x kd).
    { clear -F I. revert I. induction F as [|a b la lb J F IH]; cbn [combine]; intros [].
      - injection H as <- <-. exact J.
      - auto. }
    destruct J as (J & _). cbn in K. split; [|split; reflexivity]. cbn. apply J. left. unfold is_function. rewrite K. reflexivity.
Qed.
Print Assumptions C63_checker_never_sees_functions.

(** ** C64: the knowledge handed to the next comparison *)

(** A comparison that does not end in ERROR hands over a graph that knows every function the
    previous graph knew. *)
Theorem C64_known_functions_kept : forall w cwd dir cfg f1 f2 st st' r p0,
  any_order w -> s_prev st = Some p0 -> dictionary_keys_distinct p0 ->
  (forall lg h l rr h' g ms, w_simpll w lg h l rr = Ok (h', g, ms) -> dictionary_keys_distinct g) ->
  ends w cwd dir cfg f1 f2 st st' (Ok r) -> r_kind r <> ERROR ->
  exists g, r_graph r = Some g /\ forall n, dget (g_verts p0) n <> None -> dget (g_verts g) n <> None.
Proof.
  intros w cwd dir cfg f1 f2 st st' r p0 PO P0 N0 NS H NE.
  destruct (fd_cases w cwd dir cfg f1 f2 st st' (Ok r) PO H) as (st1 & lo & (n & T) & C).
  pose proof (T n (le_n _)) as Tn. unfold loop_from in Tn.
  destruct lo as [reused|e].
  2:{ exfalso. symmetry in C. apply finish_err in C. destruct C as (-> & [(r' & E & CA & K & _)|(E & _)]); [|discriminate].
      injection E as <-. contradiction. }
  destruct C as (g & G & [(e & _ & _ & _ & E)|(p & P & E)]); [discriminate|].
  exists g. split.
  - unfold conclude in E. destruct (p_objects p).
    + rewrite finish_ok in E. injection E as -> ->. cbn. rewrite G. reflexivity.
    + destruct (process_objects _ _ _ _ _ _ _) as [[st3 r3] oo] eqn:PR.
      destruct (process_spec w cwd dir _ _ _ _ _ _ _ _ _ PR) as (((_ & _ & _ & FC) & _) & _).
      assert (HC : s_curr st3 = Some g) by (rewrite FC; exact G).
      destruct oo as [u|e].
      * rewrite finish_ok in E. injection E as -> ->. cbn. rewrite HC. reflexivity.
      * exfalso. symmetry in E. apply finish_err in E. destruct E as (_ & [(r' & E & CA & K & _)|(E & _)]); [|discriminate].
        injection E as <-. contradiction.
  - intros m K. destruct reused.
    + apply loop_end in Tn. destruct Tn as (_ & _ & CC & CP & _). rewrite CP in CC. cbn in CC.
      assert (g = p0) by congruence. subst g. exact K.
    + apply loop_merged in Tn. cbn in Tn. rewrite P0 in Tn.
      destruct Tn as (lg & h0 & l & rr & h1 & gl & ms & SL & g' & C' & AB).
      assert (g' = g) by congruence. subst g'. pose proof (NS _ _ _ _ _ _ _ SL) as NG.
      destruct (C08_merge_keeps_every_function _ _ _ _ _ N0 NG AB) as (_ & X & _).
      intros Y. apply X in Y. tauto.
Qed.
Print Assumptions C64_known_functions_kept.

(** ** A concrete world for the examples

    [f] calls the changed function [g] whose definition is missing at first; the finder has it
    in module 7.  The second run on the linked file answers with [second]. *)
Definition dr_heap : heap := heap_of
  [ ex_fun "f" EQUAL "a.c" [] [ex_call "g" STRONG];
    ex_fun "g" NOT_EQUAL "g.h" [] [];
    ex_fun "k" NOT_EQUAL "c.c" [] [] ].
Definition dr_graph : graph := mkGraph [("f", 0); ("g", 1)]%string [] [] [].
Definition dr_partial : graph := mkGraph [("f", 0)]%string [] [] [].
Definition dr_prev : graph := mkGraph [("k", 2)]%string [] [] [].
Definition dr_world (second : res (heap * graph * list missing)) : world := mkWorld
  (fun lg h l r => if String.eqb l "a.ll" then Ok (dr_heap, dr_partial, [(Some "g", None)])%string else second)
  (fun lg s x => match s with LEFT => if String.eqb x "g" then Some 7 else None | RIGHT => None end)
  (fun lg s m => LinkOk true) (fun m => "g.ll"%string)
  (fun lg o => Ok "text"%string) (fun lg o => Ok EQUAL) (fun l => l).
Definition dr_start (prev : option graph) : dst :=
  mkDst [] dr_heap [] (new_mod "a.ll") (new_mod "b.ll") None prev None.
Definition plain_cfg := mkDConfig false false.
Definition dr_ok := dr_world (Ok (dr_heap, dr_graph, [(Some "g", None)])%string).
Definition dr_bad := dr_world (Err SimpLLException).
Lemma dr_any_order second : any_order (dr_world second).
Proof. intros l. apply Permutation_refl. Qed.

(** The linked definition is compared in the second run; the second request for it changes
    nothing; the verdict is that of [g]; the modules are restored. *)
Example C23_C24_C45_example : exists st' r,
  ends dr_ok "/" "/" plain_cfg "f" "f" (dr_start (Some dr_prev)) st' (Ok r) /\
  r_kind r = NOT_EQUAL /\ map fst (r_inner r) = ["g"%string] /\ runs (s_log st') = 2 /\
  m_llvm (s_first st') = "a.ll"%string /\ r_graph r = Some (mkGraph [("k", 2); ("f", 0); ("g", 1)]%string ["f"%string] [] []).
Proof.
  do 2 eexists. split; [exists 10; intros m L; do 10 (destruct m as [|m]; [lia|]); vm_compute; reflexivity|].
  repeat split.
Qed.
Example C24_finite : forall lg s x m, w_find dr_ok lg s x = Some m -> In m [7].
Proof. intros lg [] x m; cbn; [|discriminate]. destruct (String.eqb x "g"); [|discriminate]. injection 1 as <-. auto. Qed.

(** SimpLL failing on the linked module: the verdict is ERROR, ... *)
Definition dr_failed : dst :=
  mkDst [ERunSimpll "a-linked.ll" "b.ll"; ELink LEFT 7; EFind LEFT "g"; ERunSimpll "a.ll" "b.ll"] dr_heap
        [("a-linked.ll"%string, [])] (mkMod "a-linked.ll" (Some "a.ll"%string) [7] (PModule "a-linked.ll"))
        (new_mod "b.ll") None (Some dr_prev) (Some dr_partial).
Lemma dr_failed_ends : exists r,
  ends dr_bad "/" "/" plain_cfg "f" "f" (dr_start (Some dr_prev)) dr_failed (Ok r) /\
  r_kind r = ERROR /\ r_graph r = Some dr_partial /\ r_inner r = [].
Proof.
  eexists. split; [exists 10; intros m L; do 10 (destruct m as [|m]; [lia|]); vm_compute; reflexivity|].
  repeat split.
Qed.
Example C23_failure_example : exists res,
  ends dr_bad "/" "/" plain_cfg "f" "f" (dr_start (Some dr_prev)) dr_failed (Ok res) /\
  s_log dr_failed = [] ++ ERunSimpll "a-linked.ll" "b.ll" ::
    [ELink LEFT 7; EFind LEFT "g"; ERunSimpll "a.ll" "b.ll"]%string ++ s_log (dr_start (Some dr_prev)) /\
  (forall h, w_simpll dr_bad [ELink LEFT 7; EFind LEFT "g"; ERunSimpll "a.ll" "b.ll"]%string h "a-linked.ll" "b.ll"
             = Err SimpLLException).
Proof. destruct dr_failed_ends as (r & E & _). exists r. split; [exact E|]. split; reflexivity. Qed.

(** ... the compared module stays linked, ... *)
Theorem C45_unlinked_after_failure_refuted : exists w st st' r,
  any_order w /\ s_first st = new_mod "a.ll" /\
  ends w "/" "/" plain_cfg "f" "f" st st' (Ok r) /\ m_llvm (s_first st') <> "a.ll"%string /\ m_linked (s_first st') <> [].
Proof.
  destruct dr_failed_ends as (r & E & _). exists dr_bad, (dr_start (Some dr_prev)), dr_failed, r.
  split; [apply dr_any_order|]. split; [reflexivity|]. split; [exact E|]. split; discriminate.
Qed.
Print Assumptions C45_unlinked_after_failure_refuted.

(** ... and the graph handed to the next comparison is the partial graph of the first run: the
    earlier result for [k] is forgotten. *)
Theorem C64_known_functions_kept_on_failure_refuted : exists w st st' r p0 g n,
  any_order w /\ s_prev st = Some p0 /\ dictionary_keys_distinct p0 /\
  (forall lg h l rr h' g ms, w_simpll w lg h l rr = Ok (h', g, ms) -> dictionary_keys_distinct g) /\
  ends w "/" "/" plain_cfg "f" "f" st st' (Ok r) /\
  r_graph r = Some g /\ dget (g_verts p0) n <> None /\ dget (g_verts g) n = None.
Proof.
  destruct dr_failed_ends as (r & E & _ & G & _).
  exists dr_bad, (dr_start (Some dr_prev)), dr_failed, r, dr_prev, dr_partial, "k"%string.
  split; [apply dr_any_order|]. split; [reflexivity|]. split; [repeat constructor; intros []|].
  split; [|split; [exact E|split; [exact G|split; [discriminate|reflexivity]]]].
  intros lg h l rr h' g ms. cbn. destruct (String.eqb l "a.ll"); [|discriminate]. intros X. injection X as _ <- _.
  repeat constructor; intros [].
Qed.
Print Assumptions C64_known_functions_kept_on_failure_refuted.
Example C64_example : dictionary_keys_distinct dr_prev /\
  forall lg h l rr h' g ms, w_simpll dr_ok lg h l rr = Ok (h', g, ms) -> dictionary_keys_distinct g.
Proof.
  split; [repeat constructor; intros []|]. intros lg h l rr h' g ms. cbn.
  destruct (String.eqb l "a.ll"); intros X; injection X as _ <- _; unfold dictionary_keys_distinct; cbn;
    repeat constructor; cbn; intuition discriminate.
Qed.

(** The checker would prove the changed function equal, but is not asked. *)
Theorem C63_checker_used_for_functions_refuted : exists w st st' r,
  any_order w /\ (forall lg o, w_semdiff w lg o = Ok EQUAL) /\
  ends w "/" "/" (mkDConfig false true) "f" "f" st st' (Ok r) /\
  r_kind r = NOT_EQUAL /\ forall o, ~ In (ESemdiff o) (s_log st').
Proof.
  exists (dr_world (Ok (dr_heap, dr_graph, []))), (dr_start None). do 2 eexists.
  split; [apply dr_any_order|]. split; [reflexivity|]. split.
  - exists 10. intros m L. do 10 (destruct m as [|m]; [lia|]). vm_compute. reflexivity.
  - split; [reflexivity|]. intros o I. cbn in I. repeat (destruct I as [I|I]; [discriminate|]). destruct I.
Qed.
Print Assumptions C63_checker_used_for_functions_refuted.

(** With --full-diff an unchanged function (EQUAL, same text) gets the verdict NONE. *)
Theorem C23_full_diff_equal_refuted : exists w st st' r,
  any_order w /\
  ends w "/" "/" (mkDConfig true false) "k" "k" st st' (Ok r) /\
  r_kind r = NONE /\
  (forall g v, r_graph r = Some g -> In v (map snd (g_verts g)) -> v_result (s_heap st' v) = EQUAL) /\
  (forall lg o, w_syntax_diff w lg o = Ok ""%string).
Proof.
  set (w := mkWorld (fun lg h l r => Ok (heap_of [ex_fun "k" EQUAL "c.c" [] []], mkGraph [("k", 0)]%string [] [] [], []))
              (fun _ _ _ => None) (fun _ _ _ => LinkFails) (fun _ => ""%string) (fun _ _ => Ok ""%string)
              (fun _ _ => Ok EQUAL) (fun l => l)).
  exists w, (dr_start None). do 2 eexists. split; [intros l; apply Permutation_refl|]. split.
  - exists 10. intros m L. do 10 (destruct m as [|m]; [lia|]). vm_compute. reflexivity.
  - split; [reflexivity|]. split; [|reflexivity].
    intros g v E. cbn in E. injection E as <-. cbn. intros [<-|[]]. reflexivity.
Qed.
Print Assumptions C23_full_diff_equal_refuted.

(** A known result: [k] was compared before. *)
Example C25_example : exists st' r,
  ends dr_ok "/" "/" plain_cfg "k" "k" (dr_start (Some dr_prev)) st' (Ok r) /\
  dget (g_verts dr_prev) "k"%string = Some 2 /\ v_result (dr_heap 2) = NOT_EQUAL /\ r_kind r = NOT_EQUAL /\
  length (s_log st') = 1.
Proof.
  do 2 eexists. split; [exists 10; intros m L; do 10 (destruct m as [|m]; [lia|]); vm_compute; reflexivity|].
  repeat split.
Qed.
