(** * Proofs about the way of SimpLL's results to the tool *)
From Coq Require Import String Ascii ZArith Arith Bool Lia Permutation Sorted List.
From Verif Require Import PyBase Result_Model Graph_Model Graph_Spec Source_Model Modcomp_Model Modcomp_Proofs Build_Props Report_Model Report_Spec.
From Verif Require Kernel_Proofs.
Import ListNotations.
Open Scope list_scope.

(** ** What holds of every result *)
Section Every.
  Context {W F C V X : Type} `{EqB F}.
  Notation state := (@Modcomp_Model.state W F C V X).
  Notation res := (@Modcomp_Model.result X).
  Variable E : @env W F C V X.
  Variable P : res -> Prop.
  Hypothesis P_new : P (mkresult UNKNOWN [] [] []).
  Hypothesis P_kind : forall k x, P x -> P (set_kind k x).
  Hypothesis P_calls : forall l r ll lr x, P x -> P (Modcomp_Model.add_calls E l r ll lr x).
  Hypothesis P_object : forall o x, P x -> P (add_object o x).
  Hypothesis P_mark : forall f g x, P x -> P (mark_calls E f g x).
  Definition every (st : state) : Prop := forall p x, In (p, x) (s_compared st) -> P x.
  Lemma every_update (st st' : state) p f : update st p f = Done st' -> (forall x, P x -> P (f x)) -> every st -> every st'.
  Proof.
    intros U K S. apply update_inv in U as (x & D & ->). intros q y I. cbn [s_compared with_compared] in I. apply dset_In in I as [I|I].
    - injection I as -> ->. apply K. apply dget_In in D. apply (S p x D).
    - apply (S q y I).
  Qed.
  Lemma every_erase ps (st : state) : every st -> every (fold_left (fun st p => erase p st) ps st).
  Proof.
    revert st. induction ps as [|p ps IH]; intros st S; [exact S|]. cbn [fold_left]. apply IH. intros q x I. cbn [s_compared erase with_compared] in I. apply filter_In in I as [I _]. apply (S q x I).
  Qed.
  Definition rec_every (rec : F -> F -> state -> outcome state) : Prop := forall l r st st', rec l r st = Done st' -> every st -> every st'.
  Lemma run_every rec cur c : rec_every rec -> forall saved st b st', run_from E rec cur c saved st = Done (b, st') -> every st -> every st'.
  Proof.
    intros RS. induction c as [a|l r ll lr k IH|o k IH|l r k IH|q k IH|i k IH|i k IH]; intros saved st b st' Q S; cbn [run_from] in Q;
      try (eapply IH; [exact Q|exact S]; fail).
    - injection Q as <- <-. exact S.
    - destruct (global_values E rec cur l r ll lr st) as [[a st1]| |] eqn:G; cbn [Modcomp_Model.obind fst snd] in Q; try discriminate. eapply IH; [exact Q|].
      rewrite global_values_eq in G. destruct (is_callees E l r); cbn [Modcomp_Model.obind] in G; [|injection G as _ <-; exact S].
      destruct (update st cur (Modcomp_Model.add_calls E l r ll lr)) as [st2| |] eqn:U; cbn [Modcomp_Model.obind] in G; try discriminate. apply every_update in U; [|apply P_calls|exact S].
      destruct (dmem (s_compared st2) (l, r)); cbn [Modcomp_Model.obind] in G; [injection G as _ <-; exact U|].
      destruct (rec l r st2) as [st3| |] eqn:RQ; cbn [Modcomp_Model.obind] in G; try discriminate. injection G as _ <-. eapply RS; eassumption.
    - destruct (update st cur (add_object o)) as [st1| |] eqn:U; cbn [Modcomp_Model.obind] in Q; try discriminate. eapply IH; [exact Q|]. eapply every_update; [eassumption|apply P_object|exact S].
  Qed.
  Lemma loop_every rec l r : rec_every rec -> forall n inl st st', inline_loop E n rec l r inl st = Done st' -> every st -> every st'.
  Proof.
    intros RS n. induction n as [|n IH]; intros inl st st' Q S; [discriminate|]. cbn [inline_loop] in Q.
    assert (K : forall a b, match try_to_inline E (s_world st) (found E (s_world st) a l) with None => Crash | Some (ra, w) =>
                match try_to_inline E w (found E (s_world st) b r) with None => Crash | Some (rb, w) =>
       let st0 := with_world w st in
       let fa := called E (s_world st) (found E (s_world st) a l) in let fb := called E (s_world st) (found E (s_world st) b r) in
       let inlined := key (fa, fb) ++ inl in
       let st1 := if is_missing ra || is_missing rb then with_missing (s_missing st0 ++ [(option_map VFun fa, option_map VFun fb)]) st0 else st0 in
       if negb (is_inlined ra) && negb (is_inlined rb) then Done st1 else
       let st := with_world (e_simplify E (e_simplify E w l) r) st1 in
       Modcomp_Model.obind (update st (l, r) (set_kind UNKNOWN)) (fun st =>
       Modcomp_Model.obind (run E rec (l, r) (e_body E (s_world st) l r) st) (fun a0 =>
       let st := snd a0 in
       Modcomp_Model.obind (update st (l, r) (fun x => x)) (fun st =>
       if fst a0 then
         Modcomp_Model.obind (update st (l, r) (mark_calls E fa fb)) (fun st =>
         let st := fold_left (fun st p => erase p st) inlined st in
         Modcomp_Model.obind (update st (l, r) (set_kind EQUAL)) (inline_loop E n rec l r inlined))
       else Modcomp_Model.obind (update st (l, r) (set_kind NOT_EQUAL)) (inline_loop E n rec l r inlined)))) end end = Done st' -> every st').
    { clear Q. intros a b Q. destruct (try_to_inline E (s_world st) (found E (s_world st) a l)) as [[ra wa]|]; [|discriminate].
      destruct (try_to_inline E wa (found E (s_world st) b r)) as [[rb wb]|]; [|discriminate]. cbv zeta in Q.
      remember (if is_missing ra || is_missing rb then _ else with_world wb st) as st1 eqn:E1 in Q.
      assert (S1 : every st1) by (subst st1; destruct (is_missing ra || is_missing rb); exact S). clear E1.
      destruct (negb (is_inlined ra) && negb (is_inlined rb)); [injection Q as <-; exact S1|].
      match type of Q with Modcomp_Model.obind (update ?s _ _) _ = _ => assert (S2 : every s) by exact S1; destruct (update s (l, r) (set_kind UNKNOWN)) as [st3| |] eqn:U3; cbn [Modcomp_Model.obind] in Q; try discriminate; pose proof (every_update _ _ _ _ U3 (P_kind _) S2) as S3 end.
      destruct (run E rec (l, r) (e_body E (s_world st3) l r) st3) as [[c st4]| |] eqn:RQ; cbn [Modcomp_Model.obind fst snd] in Q; try discriminate.
      pose proof (run_every _ _ _ RS _ _ _ _ RQ S3) as S4.
      destruct (update st4 (l, r) (fun x => x)) as [st5| |] eqn:U5; cbn [Modcomp_Model.obind] in Q; try discriminate. pose proof (every_update _ _ _ _ U5 (fun x p => p) S4) as S5.
      destruct c.
      - match type of Q with Modcomp_Model.obind (update ?s ?p ?f) _ = _ => destruct (update s p f) as [st6| |] eqn:U6; cbn [Modcomp_Model.obind] in Q; try discriminate; pose proof (every_update _ _ _ _ U6 (P_mark _ _) S5) as S6 end.
        match type of Q with Modcomp_Model.obind (update ?s ?p ?f) _ = _ => destruct (update s p f) as [st7| |] eqn:U7; cbn [Modcomp_Model.obind] in Q; try discriminate end.
        eapply IH; [exact Q|]. eapply every_update; [exact U7|apply P_kind|]. apply every_erase. exact S6.
      - destruct (update st5 (l, r) (set_kind NOT_EQUAL)) as [st7| |] eqn:U7; cbn [Modcomp_Model.obind] in Q; try discriminate. eapply IH; [exact Q|]. eapply every_update; [eassumption|apply P_kind|exact S5]. }
    destruct (s_inline st) as [[ca|] [cb|]]; [apply (K (Some ca) (Some cb)); exact Q|apply (K (Some ca) None); exact Q|apply (K None (Some cb)); exact Q|].
    injection Q as <-. exact S.
  Qed.
  Lemma compare_every n : rec_every (compare E n).
  Proof.
    induction n as [|n IH]; intros l r st st' Q S; [discriminate|]. cbn [compare] in Q.
    assert (S0 : every (emplace (l, r) st)).
    { unfold emplace. destruct (dmem (s_compared st) (l, r)); [exact S|]. intros p x I. cbn [s_compared with_compared] in I. apply dset_In in I as [I|I]; [injection I as _ ->; exact P_new|apply (S p x I)]. }
    remember (emplace (l, r) st) as st0 eqn:E0. clear E0. destruct (e_cached E l r); [eapply every_update; [eassumption|apply P_kind|eassumption]|].
    destruct (e_declared E (s_world st0) l || e_declared E (s_world st0) r).
    - destruct (update st0 (l, r) (set_kind (declaration_verdict E l r))) as [st1| |] eqn:U; cbn [Modcomp_Model.obind] in Q; try discriminate. injection Q as <-. exact (every_update _ _ _ _ U (P_kind _) S0).
    - destruct (run E (compare E n) (l, r) (e_body E (s_world st0) l r) st0) as [[b st1]| |] eqn:RQ; cbn [Modcomp_Model.obind fst snd] in Q; try discriminate.
      pose proof (run_every _ _ _ IH _ _ _ _ RQ S0) as S1. destruct (update st1 (l, r) (fun x => x)) as [st2| |] eqn:U2; cbn [Modcomp_Model.obind] in Q; try discriminate.
      pose proof (every_update _ _ _ _ U2 (fun x p => p) S1) as S2. destruct b; [eapply every_update; [eassumption|apply P_kind|eassumption]|].
      destruct (update st2 (l, r) (set_kind NOT_EQUAL)) as [st3| |] eqn:U3; cbn [Modcomp_Model.obind] in Q; try discriminate. eapply loop_every; [exact IH|exact Q|]. eapply every_update; [eassumption|apply P_kind|exact S2].
  Qed.
  Lemma listed_every n w l r d same missing : compare_functions E n w l r = Done (d, same, missing) -> forall p x, In (p, x) d -> P x.
  Proof.
    unfold compare_functions. destruct (compare E n l r (start w)) as [st| |] eqn:CQ; cbn [Modcomp_Model.obind]; try discriminate. intros [= <- _ _] p x I.
    apply filter_In in I as [I _]. apply (compare_every n l r (start w) st CQ) in I; [exact I|]. intros q y [].
  Qed.
End Every.

(** Both sides have calls, or none has. *)
Section Both.
  Context {W F C V X : Type} `{EqB F}.
  Variable E : @env W F C V X.
  Definition both (x : @Modcomp_Model.result X) : Prop := r_left x = [] <-> r_right x = [].
  Lemma add_call_some n line d : add_call n line d <> [].
  Proof.
    unfold add_call. destruct (dmem d n) eqn:M; [intros ->; discriminate M|]. destruct d as [|[k v] d]; cbn [dset]; [discriminate|]. destruct (eqb n k); discriminate.
  Qed.
  Lemma mark_weak_none f d : mark_weak E f d = [] <-> d = [].
  Proof. destruct f as [f|]; [|reflexivity]. cbn. destruct d; [split; reflexivity|]. split; discriminate. Qed.
  Lemma listed_both n w l r d same missing : compare_functions E n w l r = Done (d, same, missing) -> forall p x, In (p, x) d -> both x.
  Proof.
    apply (listed_every E both).
    - split; reflexivity.
    - intros k x B. exact B.
    - intros a b ll lr x _. split; intros Q; exfalso; eapply add_call_some; exact Q.
    - intros o x B. exact B.
    - intros f g x B. unfold both. cbn. rewrite !mark_weak_none. exact B.
  Qed.
End Both.

(** ** The order of calls *)
Lemma insert_perm c l : Permutation (insert_call c l) (c :: l).
Proof. induction l as [|d l IH]; cbn; [reflexivity|]. destruct (String.leb (fst c) (fst d)); [reflexivity|]. rewrite IH. apply perm_swap. Qed.
Lemma order_perm l : Permutation (in_set_order l) l.
Proof. induction l as [|c l IH]; cbn; [reflexivity|]. rewrite insert_perm. constructor. exact IH. Qed.
Lemma insert_sorted c l : StronglySorted (fun a b => String.leb (fst a) (fst b) = true) l -> StronglySorted (fun a b => String.leb (fst a) (fst b) = true) (insert_call c l).
Proof.
  destruct Kernel_Proofs.leb_total as (T & R). induction 1 as [|d l S IH A]; cbn; [repeat constructor|]. destruct (String.leb (fst c) (fst d)) eqn:L.
  - constructor; [constructor; assumption|]. constructor; [exact L|]. eapply Forall_impl; [|exact A]. cbn. intros x. apply R. exact L.
  - constructor; [exact IH|]. rewrite Forall_forall in *. intros x I. apply (Permutation_in _ (insert_perm c l)) in I. destruct I as [<-|I]; [|apply A; exact I].
    destruct (T (fst c) (fst d)); congruence.
Qed.
Lemma order_sorted l : StronglySorted (fun a b => String.leb (fst a) (fst b) = true) (in_set_order l).
Proof. induction l as [|c l IH]; cbn; [constructor|]. apply insert_sorted. exact IH. Qed.
Lemma order_nil l : in_set_order l = [] <-> l = [].
Proof. split; [|intros ->; reflexivity]. intros E. apply Permutation_nil. rewrite <- E. apply order_perm. Qed.
Lemma same_calls file calls : Same_calls file calls (map edge_from_yaml (map (write_call file) (in_set_order calls))).
Proof.
  rewrite map_map. split.
  - apply (Permutation_map (fun x => edge_from_yaml (write_call file x))), order_perm.
  - pose proof (order_sorted calls) as S. induction S as [|c l S IH A]; cbn; constructor; [exact IH|]. rewrite Forall_forall in *. intros x I. apply in_map_iff in I as (y & <- & I). cbn. apply (A y I).
Qed.
Lemma objects_read prev : forall ds, nonfuns_from_yaml prev (map YNonfun ds) = Ok ds.
Proof. intros ds. revert prev. induction ds as [|d ds IH]; intros prev; cbn; [reflexivity|]. rewrite IH. reflexivity. Qed.
Lemma line_read line : Same_line line (if Z.eqb line 0 then None else Some line).
Proof. unfold Same_line. destruct (Z.eqb_spec line 0); auto. Qed.

(** ** The buffer *)
Lemma strcpy_before : forall s m a b, (b < a)%Z -> strcpy m a s b = m b.
Proof.
  induction s as [|c s IH]; intros m a b L; cbn [strcpy]; [destruct (Z.eqb_spec b a); [lia|reflexivity]|].
  destruct (Ascii.eqb c "000"); [destruct (Z.eqb_spec b a); [lia|reflexivity]|]. rewrite IH by lia. destruct (Z.eqb_spec b a); [lia|reflexivity].
Qed.
Lemma no_zero_tail c s : No_zero (String c s) -> c <> "000"%char /\ No_zero s.
Proof. intros N. split; [apply (N EmptyString c s); reflexivity|]. intros a d b ->. apply (N (String c a) d b). reflexivity. Qed.
Lemma strcpy_at : forall s m a i, No_zero s ->
  strcpy m a s i = if (i <? a)%Z then m i else match String.get (Z.to_nat (i - a)) s with Some c => c | None => if (i =? a + Z.of_nat (String.length s))%Z then "000"%char else m i end.
Proof.
  induction s as [|c s IH]; intros m a i N; cbn [strcpy String.length].
  - replace (a + Z.of_nat 0)%Z with a by lia. destruct (Z.ltb_spec i a); [destruct (Z.eqb_spec i a); [lia|reflexivity]|]. destruct (Z.to_nat (i - a)); reflexivity.
  - apply no_zero_tail in N as (N & M). apply Ascii.eqb_neq in N. rewrite N. rewrite IH by exact M. destruct (Z.ltb_spec i (a + 1)).
    + destruct (Z.eqb_spec i a) as [->|D].
      * rewrite Z.ltb_irrefl, Z.sub_diag. reflexivity.
      * destruct (Z.ltb_spec i a); [reflexivity|lia].
    + destruct (Z.ltb_spec i a); [lia|]. replace (Z.to_nat (i - a)) with (S (Z.to_nat (i - (a + 1)))) by lia. cbn [String.get].
      replace (a + Z.of_nat (S (String.length s)))%Z with (a + 1 + Z.of_nat (String.length s))%Z by lia. destruct (String.get _ s); [reflexivity|]. destruct (Z.eqb_spec i a); [lia|reflexivity].
Qed.
Lemma read_back : forall s m a n, No_zero s -> (String.length s < n)%nat ->
  (forall i, (a <= i <= a + Z.of_nat (String.length s))%Z -> m i = match String.get (Z.to_nat (i - a)) s with Some c => c | None => "000"%char end) -> ffi_string n m a = s.
Proof.
  induction s as [|c s IH]; intros m a n N L M; (destruct n as [|n]; [lia|]); cbn [ffi_string].
  - rewrite (M a) by lia. destruct (Z.to_nat (a - a)); reflexivity.
  - apply no_zero_tail in N as (N & N'). rewrite (M a) by lia. rewrite Z.sub_diag. cbn [Z.to_nat String.get]. apply Ascii.eqb_neq in N. rewrite N. f_equal. apply IH; [exact N'|cbn in L; lia|].
    intros i I. rewrite M by (cbn [String.length]; lia). replace (Z.to_nat (i - a)) with (S (Z.to_nat (i - (a + 1)))) by lia. reflexivity.
Qed.
