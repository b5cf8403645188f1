(** * Both sides of a pattern. *)
From Coq Require Import String Ascii ZArith Arith Bool Lia List.
From Verif Require Import PyBase Funcomp_Model Source_Model Pattern_Model Pattern_Spec Pattern_Frame.
Import ListNotations.
Open Scope list_scope.
Open Scope nat_scope.

(** ** The first instruction *)
Section Start.
  Variable same_rest : string -> string -> bool.
  Variable struct_gep : inst -> bool.
  Variable left : bool.
  Variables mf pf : func.
  Variable pmeta : dict nat meta.
  Variable inputs : list value.
  Variable startp : nat.
  Notation compare_side := (compare_side same_rest struct_gep left mf pf pmeta inputs startp).
  Notation step := (step same_rest left mf pf inputs).
  Notation Inv := (Inv same_rest left mf pf inputs).

  Lemma first_matched m ml p pl s s' ml' pl' :
    cmp_block same_rest struct_gep left mf pf pmeta inputs true (m :: ml) (p :: pl) s = (true, s', ml', pl') ->
    within mf (m :: ml) -> within pf (p :: pl) ->
    flag pmeta m_end p = false -> is_terminator p = false -> In (VReg (i_reg p)) inputs ->
    dget (pim s') (VReg (i_reg p)) = Some (VReg (i_reg m)).
  Proof.
    intros E Wm Wp F T I. cbn [cmp_block] in E. rewrite F, T, andb_false_r in E. rewrite andb_true_r in E.
    destruct (is_terminator m && (length (successors m) =? 1)%nat); [discriminate|].
    destruct (cmp_inst same_rest struct_gep left mf pf pmeta inputs m p s) as [ok s1] eqn:C.
    destruct (cmp_inst_frame _ _ _ _ _ _ _ _ _ _ _ _ C) as (_ & _ & _ & S).
    destruct ok; [|rewrite orb_true_r in E; discriminate].
    assert (P1 : dget (pim s1) (VReg (i_reg p)) = Some (VReg (i_reg m))).
    { destruct (S eq_refl) as [_ Q]. inversion Q as [|a b Ca Cb H]; subst. apply H. exact I. }
    destruct ml as [|m2 ml], pl as [|p2 pl]; try discriminate; [injection E as <- _ _; exact P1|].
    destruct (cmp_block_step _ _ _ _ _ _ _ _ _ _ _ _ _ _ _ E) as ((K & _) & _).
    - intros i Hi. apply Wm. right. exact Hi.
    - intros i Hi. apply Wp. right. exact Hi.
    - apply K. exact P1.
  Qed.
  Lemma compare_side_first start s s' mb m ml pb p pl : compare_side start s = (true, s') ->
    locate start (f_blocks mf) = Some (mb, m :: ml) -> single_successor mf mb = None ->
    locate startp (f_blocks pf) = Some (pb, p :: pl) ->
    flag pmeta m_end p = false -> is_terminator p = false -> In (VReg (i_reg p)) inputs ->
    dget (pim s') (VReg (i_reg p)) = Some (VReg (i_reg m)) /\ dmem (imm s') (i_reg p) = true.
  Proof.
    intros E Lm Sm Lp F T I. split.
    2:{ eapply compare_side_cover; [exact E|exact Lp|]. cbn. rewrite F, T. left. reflexivity. }
    unfold Pattern_Model.compare_side in E.
    match type of E with context [match_pattern _ _ _ _ _ _ _ _ _ ?x] => set (s0 := x) in * end.
    destruct (match_pattern same_rest struct_gep left mf pf pmeta inputs startp start s0) as [ok s1] eqn:M.
    destruct ok; cbn [negb] in E; [|discriminate].
    apply check_inputs_step in E. destruct E as (K & _). apply K. cbn.
    unfold match_pattern in M. rewrite Lm, Lp in M. unfold group_fuel at 1 in M. cbn [match_loop] in M.
    destruct (cmp_values left mf pf inputs (VBlock mb) (VBlock pb) s0) as [ok2 s2]. destruct ok2; cbn [negb] in M; [|discriminate].
    assert (Wm : within mf (m :: ml)) by (eapply locate_within; eauto).
    assert (Wp : within pf (p :: pl)) by (eapply locate_within; eauto).
    destruct (cmp_group same_rest struct_gep left mf pf pmeta inputs (group_fuel mf pf) mb pb (m :: ml) (p :: pl) [mb] [pb] (set_depth s2 0%Z)) as [[[[[mb1 pb1] mvis1] pvis1] s3]|] eqn:G; [|discriminate].
    assert (P3 : dget (pim s3) (VReg (i_reg p)) = Some (VReg (i_reg m))).
    { unfold group_fuel in G. cbn [cmp_group] in G. rewrite Sm in G.
      destruct (cmp_block same_rest struct_gep left mf pf pmeta inputs true (m :: ml) (p :: pl) (set_depth s2 0%Z)) as [[[ok4 s4] ml4] pl4] eqn:B.
      destruct ok4; [|discriminate].
      assert (P4 := first_matched _ _ _ _ _ _ _ _ B Wm Wp F T I).
      destruct (cmp_block_step _ _ _ _ _ _ _ _ _ _ _ _ _ _ _ B Wm Wp) as (_ & W1 & _).
      destruct (single_successor pf pb) as [ps|]; [|injection G as _ _ _ _ <-; exact P4].
      destruct (mem ps [pb]); [injection G as _ _ _ _ <-; exact P4|].
      destruct (ends_at_terminator pf pmeta pb); [injection G as _ _ _ _ <-; exact P4|].
      destruct (cmp_group_step _ _ _ _ _ _ _ _ _ _ _ _ _ _ _ _ _ _ _ _ G W1 (block_within pf ps)) as (K4 & _). apply K4. exact P4. }
    destruct (run_on mf (group_fuel mf pf) mb1 mvis1) as [mb2 mvis2].
    destruct (ends_at_terminator pf pmeta pb1 || (length (successors_of pf pb1) =? 0)%nat).
    - destruct (match_loop_step _ _ _ _ _ _ _ _ _ _ _ _ _ _ M Logic.I) as (K5 & _). apply K5. exact P3.
    - destruct (queue (successors_of mf mb2) (successors_of pf pb1) mvis2 pvis1 []) as [[mvis3 pvis3] work3].
      destruct (match_loop_step _ _ _ _ _ _ _ _ _ _ _ _ _ _ M Logic.I) as (K5 & _). apply K5. exact P3.
  Qed.
End Start.

Section Both.
  Variable same_rest : string -> string -> bool.
  Variable struct_gep : inst -> bool.
  Variables fl fr : func.
  Variables musersL musersR : value -> list value.
  Variables pusersL pusersR : ipattern -> value -> list value.
  Notation side_compare := (side_compare same_rest struct_gep fl fr).
  Notation side_inputs := (side_inputs same_rest struct_gep fl fr musersL musersR pusersL pusersR).
  Notation inputs_valid := (inputs_valid same_rest struct_gep fl fr musersL musersR pusersL pusersR).
  Notation try_pattern := (try_pattern same_rest struct_gep fl fr musersL musersR pusersL pusersR).

  Definition stepL (p : ipattern) := step same_rest true fl (ip_L p) (ip_inL p).
  Definition stepR (p : ipattern) := step same_rest false fr (ip_R p) (ip_inR p).
  Lemma side_inputs_L p m a s ok s' : side_inputs p true m a s = (ok, s') ->
    stepL p s s' /\ (ok = true -> exists mv, m = Some mv /\ dget (pim s') a = Some mv).
  Proof. exact (cmp_input_values_step _ _ _ _ _ _ _ _ _ _ _ _ _ _). Qed.
  Lemma side_inputs_R p m a s ok s' : side_inputs p false m a s = (ok, s') ->
    stepR p s s' /\ (ok = true -> exists mv, m = Some mv /\ dget (pim s') a = Some mv).
  Proof. exact (cmp_input_values_step _ _ _ _ _ _ _ _ _ _ _ _ _ _). Qed.
  Lemma mapped_paired d x y : mapped d (true, x) (false, y) = true -> paired d x y.
  Proof.
    unfold mapped. intros H. left. destruct (dget (d_L d) (true, x)) as [i|]; [|discriminate].
    destruct (dget (d_R d) (false, y)) as [j|]; [|discriminate]. apply Nat.eqb_eq in H. subst. eauto.
  Qed.
  Lemma get_left_paired d x y : option_map snd (get_mapped d (true, x) true) = Some y -> paired d x y.
  Proof.
    unfold get_mapped. cbn. intros H. right. left. destruct (dget (d_L d) (true, x)) as [i|] eqn:E; [|discriminate].
    destruct (dget (d_by d) i) as [[k [c z]]|] eqn:F; [|discriminate]. cbn in H. injection H as ->. exists i, k, c. split; [reflexivity|exact F].
  Qed.
  Lemma get_right_paired d x y : option_map snd (get_mapped d (false, y) false) = Some x -> paired d x y.
  Proof.
    unfold get_mapped. cbn. intros H. right. right. destruct (dget (d_R d) (false, y)) as [i|] eqn:E; [|discriminate].
    destruct (dget (d_by d) i) as [[[c z] k]|] eqn:F; [|discriminate]. cbn in H. injection H as ->. exists i, k, c. split; [reflexivity|exact F].
  Qed.
  Lemma inputs_valid_step p d args : forall sl sr ok sl' sr', inputs_valid p d args sl sr = (ok, sl', sr') ->
    stepL p sl sl' /\ stepR p sr sr' /\
    (ok = true -> forall a b, In (a, b) args -> dmem (pim sl) a = true \/ dmem (pim sr) b = true ->
       exists x y, dget (pim sl') a = Some x /\ dget (pim sr') b = Some y /\ paired d x y).
  Proof.
    induction args as [|[a b] args IH]; intros sl sr ok sl' sr' E; cbn [Pattern_Model.inputs_valid] in E.
    - injection E as <- <- <-. split; [apply step_refl|]. split; [apply step_refl|]. intros _ a b [].
    - assert (MONO : forall sl1 sr1, stepL p sl sl1 -> stepR p sr sr1 -> forall a b, dmem (pim sl) a = true \/ dmem (pim sr) b = true -> dmem (pim sl1) a = true \/ dmem (pim sr1) b = true).
      { intros sl1 sr1 (K1 & _) (K2 & _) a' b' [H|H]; unfold dmem in *.
        - left. destruct (dget (pim sl) a') eqn:Q; [|discriminate]. rewrite (K1 _ _ Q). reflexivity.
        - right. destruct (dget (pim sr) b') eqn:Q; [|discriminate]. rewrite (K2 _ _ Q). reflexivity. }
      destruct (dget (pim sl) a) as [x|] eqn:Ea, (dget (pim sr) b) as [y|] eqn:Eb.
      + destruct (mapped d (true, x) (false, y)) eqn:M.
        2:{ injection E as <- <- <-. split; [apply step_refl|]. split; [apply step_refl|]. discriminate. }
        destruct (IH _ _ _ _ _ E) as (A & B & C). split; [exact A|]. split; [exact B|]. intros Hok a' b' [H|H] Q.
        * injection H as <- <-. exists x, y. split; [apply A; exact Ea|]. split; [apply B; exact Eb|apply mapped_paired; exact M].
        * apply C; auto.
      + destruct (side_inputs p false (option_map snd (get_mapped d (true, x) true)) b sr) as [ok1 sr1] eqn:S.
        destruct (side_inputs_R _ _ _ _ _ _ S) as (S1 & S2). destruct ok1.
        2:{ injection E as <- <- <-. split; [apply step_refl|]. split; [exact S1|]. discriminate. }
        destruct (IH _ _ _ _ _ E) as (A & B & C). split; [exact A|]. split; [eapply step_trans; eauto|]. intros Hok a' b' [H|H] Q.
        * injection H as <- <-. destruct (S2 eq_refl) as (mv & G & P). exists x, mv. split; [apply A; exact Ea|].
          split; [apply B; exact P|apply get_left_paired; exact G].
        * apply (C Hok a' b' H). apply (MONO sl sr1 (step_refl _ _ _ _ _ _) S1). exact Q.
      + destruct (side_inputs p true (option_map snd (get_mapped d (false, y) false)) a sl) as [ok1 sl1] eqn:S.
        destruct (side_inputs_L _ _ _ _ _ _ S) as (S1 & S2). destruct ok1.
        2:{ injection E as <- <- <-. split; [exact S1|]. split; [apply step_refl|]. discriminate. }
        destruct (IH _ _ _ _ _ E) as (A & B & C). split; [eapply step_trans; eauto|]. split; [exact B|]. intros Hok a' b' [H|H] Q.
        * injection H as <- <-. destruct (S2 eq_refl) as (mv & G & P). exists mv, y. split; [apply A; exact P|].
          split; [apply B; exact Eb|apply get_right_paired; exact G].
        * apply (C Hok a' b' H). apply (MONO sl1 sr S1 (step_refl _ _ _ _ _ _)). exact Q.
      + destruct (IH _ _ _ _ _ E) as (A & B & C). split; [exact A|]. split; [exact B|]. intros Hok a' b' [H|H] Q.
        * injection H as <- <-. unfold dmem in Q. rewrite Ea, Eb in Q. destruct Q; discriminate.
        * apply C; auto.
  Qed.
  Lemma try_pattern_parts p l r d sl sr : try_pattern p l r d = Some (sl, sr) ->
    exists sl0 sr0, side_compare p true l mstart = (true, sl0) /\ side_compare p false r mstart = (true, sr0) /\ stepL p sl0 sl /\ stepR p sr0 sr /\
      (forall a b, In (a, b) (ip_args p) -> dmem (pim sl0) a = true \/ dmem (pim sr0) b = true ->
         exists x y, dget (pim sl) a = Some x /\ dget (pim sr) b = Some y /\ paired d x y).
  Proof.
    unfold Pattern_Model.try_pattern. destruct (side_compare p true l mstart) as [okl sl0]. destruct okl; cbn [negb]; [|discriminate].
    destruct (side_compare p false r mstart) as [okr sr0]. destruct okr; cbn [negb]; [|discriminate].
    destruct (inputs_valid p d (ip_args p) sl0 sr0) as [[ok sl1] sr1] eqn:V. destruct ok; [|discriminate]. intros H. injection H as <- <-.
    destruct (inputs_valid_step _ _ _ _ _ _ _ _ V) as (A & B & C). exists sl0, sr0. split; [reflexivity|]. split; [reflexivity|].
    split; [exact A|]. split; [exact B|]. exact (C eq_refl).
  Qed.
  Lemma try_pattern_Inv p l r d sl sr : try_pattern p l r d = Some (sl, sr) ->
    Inv same_rest true fl (ip_L p) (ip_inL p) sl /\ Inv same_rest false fr (ip_R p) (ip_inR p) sr.
  Proof.
    intros H. destruct (try_pattern_parts _ _ _ _ _ _ H) as (sl0 & sr0 & A & B & C & D & _). split.
    - apply C. exact (compare_side_Inv _ _ _ _ _ _ _ _ _ _ _ A).
    - apply D. exact (compare_side_Inv _ _ _ _ _ _ _ _ _ _ _ B).
  Qed.
End Both.

(** ** Numbers after a match *)
Definition crossed (m : matches) : Prop := forall a b, In (a, b) (mappings m) -> fst a = false /\ fst b = true.
Lemma process_mappings p sl sr m a b : In (a, b) (mappings (process p sl sr m)) ->
  exists x q y z, In (x, z) (imm sl) /\ dget (ip_out p) x = Some q /\ dget (imm sr) q = Some y /\ a = (false, VReg y) /\ b = (true, VReg z).
Proof.
  cbn. enough (G : forall l acc, In (a, b) (fold_left (fun d x => match dget (ip_out p) (fst x) with
        | Some q => match dget (imm sr) q with Some r => dset d (false, VReg r) (true, VReg (snd x)) | None => d end
        | None => d end) l acc) -> In (a, b) acc \/ exists x q y z, In (x, z) l /\ dget (ip_out p) x = Some q /\ dget (imm sr) q = Some y /\ a = (false, VReg y) /\ b = (true, VReg z)).
  { intros H. destruct (G _ _ H) as [[]|K]. exact K. }
  induction l as [|[x z] l IH]; intros acc H; cbn in H; [left; exact H|].
  apply IH in H. destruct H as [H|(x' & q & y & z' & A & B)].
  - destruct (dget (ip_out p) x) as [q|] eqn:Q; [|left; exact H]. destruct (dget (imm sr) q) as [y|] eqn:Y; [|left; exact H].
    apply dset_In in H. destruct H as [H|H]; [|left; exact H]. injection H as -> ->. right. exists x, q, y, z. cbn. auto 10.
  - right. exists x', q, y, z'. split; [right; exact A|exact B].
Qed.
Lemma process_crossed p sl sr m : crossed (process p sl sr m).
Proof. intros a b H. destruct (process_mappings _ _ _ _ _ _ H) as (x & q & y & z & _ & _ & _ & -> & ->). auto. Qed.
Lemma create_mapping_crossed m d : crossed m ->
  (forall v, dget (d_L (create_mapping m d)) (true, v) = dget (d_L d) (true, v)) /\
  (forall v, dget (d_R (create_mapping m d)) (false, v) = dget (d_R d) (false, v)).
Proof.
  unfold create_mapping, crossed. revert d. induction (mappings m) as [|[a b] l IH]; intros d C; cbn; [auto|].
  destruct (C a b (or_introl eq_refl)) as [Fa Fb].
  assert (C' : forall x y, In (x, y) l -> fst x = false /\ fst y = true) by (intros x y H; apply C; right; exact H).
  destruct (dmem (d_L d) a || dmem (d_R d) b); [apply IH; exact C'|].
  destruct (IH (mkN (dset (d_L d) a (length (d_L d))) (dset (d_R d) b (length (d_R d))) (dset (d_by d) (length (d_L d)) (a, b))) C') as [L R].
  split; intros v; [rewrite L|rewrite R]; cbn; apply dget_dset_other.
  - intros <-. discriminate Fa.
  - intros <-. discriminate Fb.
Qed.
Lemma dset_length_new {K V} `{EqB K} (d : dict K V) k v : dmem d k = false -> length (dset d k v) = S (length d).
Proof.
  unfold dmem. induction d as [|[c j] d IH]; cbn; intros E; [reflexivity|].
  destruct (eqb_spec k c); [discriminate|]. cbn. f_equal. apply IH. exact E.
Qed.
Lemma create_mapping_sizes m d : exists n, length (d_L (create_mapping m d)) = length (d_L d) + n /\ length (d_R (create_mapping m d)) = length (d_R d) + n.
Proof.
  unfold create_mapping. revert d. induction (mappings m) as [|[a b] l IH]; intros d; cbn; [exists 0; lia|].
  destruct (dmem (d_L d) a) eqn:A; cbn; [apply IH|]. destruct (dmem (d_R d) b) eqn:B; cbn; [apply IH|].
  match goal with |- context [fold_left _ _ ?x] => destruct (IH x) as (n & P & Q) end.
  exists (S n). rewrite P, Q. cbn. rewrite !dset_length_new by assumption. lia.
Qed.
