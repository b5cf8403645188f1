(** * Proofs about the comparison of functions with their callees *)
From Coq Require Import String Ascii ZArith Arith Bool Lia List.
From Verif Require Import PyBase Source_Model Source_Spec Modcomp_Model Modcomp_Spec.
From Verif Require Source_Proofs.
Import ListNotations.
Open Scope list_scope.

Section Proofs.
  Context {W F C V X : Type} `{EqB F}.
  Notation env := (env W F C V X).
  Notation comp := (comp W F C V X).
  Notation state := (state W F C V X).
  Variable E : env.

  (** ** Names *)
  Lemma plain_name_iff f n : plain_name E f n <-> base_name (e_name E f) = n.
  Proof. apply Source_Proofs.base_of_iff. Qed.
  Lemma print_iff n : is_print n = true <-> print_name n.
  Proof. apply mem_In. Qed.
  Lemma same_name_iff l r : same_name E l r = true <-> taken_equal E l r.
  Proof.
    unfold same_name, taken_equal. rewrite orb_true_iff, andb_true_iff, String.eqb_eq, !print_iff. split.
    - intros Q. exists (base_name (e_name E l)), (base_name (e_name E r)). rewrite !plain_name_iff. auto.
    - intros (a & b & A & B & Q). apply plain_name_iff in A, B. subst. exact Q.
  Qed.
  Lemma excluded_iff f : excluded E f = true <-> skipped E f.
  Proof. unfold excluded, skipped. rewrite !orb_true_iff, print_iff. tauto. Qed.
  Definition asm_equal (l r : F) : bool :=
    match e_asm E l, e_asm E r with Some (al, cl), Some (ar, cr) => String.eqb al ar && String.eqb cl cr | _, _ => true end.
  Lemma asm_equal_iff l r : asm_equal l r = true <-> (forall a b, e_asm E l = Some a -> e_asm E r = Some b -> a = b).
  Proof.
    unfold asm_equal. destruct (e_asm E l) as [[al cl]|]; [|split; [discriminate|reflexivity]].
    destruct (e_asm E r) as [[ar cr]|]; [|split; [discriminate|reflexivity]].
    rewrite andb_true_iff, !String.eqb_eq. split; [intros [-> ->] a b [= <-] [= <-]; reflexivity|]. intros Q. specialize (Q _ _ eq_refl eq_refl). split; congruence.
  Qed.
  Lemma values_equal_iff l r : same_name E l r && asm_equal l r = true <-> values_equal E l r.
  Proof. rewrite andb_true_iff, same_name_iff, asm_equal_iff. reflexivity. Qed.
  Definition is_callees (l r : F) : bool := same_name E l r && negb (excluded E l || excluded E r).
  Lemma callees_iff l r : is_callees l r = true <-> callees E l r.
  Proof.
    unfold is_callees, callees. rewrite andb_true_iff, negb_true_iff, orb_false_iff, same_name_iff.
    rewrite <- !excluded_iff. destruct (excluded E l), (excluded E r); intuition congruence.
  Qed.
  Lemma global_values_eq rec cur l r ll lr (st : state) : global_values E rec cur l r ll lr st =
    obind (if is_callees l r then obind (update st cur (add_calls E l r ll lr)) (fun st => if dmem (s_compared st) (l, r) then Done st else rec l r st) else Done st)
      (fun st => Done (same_name E l r && asm_equal l r, st)).
  Proof.
    unfold global_values, is_callees, asm_equal. destruct (same_name E l r); [|reflexivity]. cbn [andb].
    destruct (excluded E l || excluded E r); cbn [negb]; destruct (e_asm E l) as [[]|]; try reflexivity; destruct (e_asm E r) as [[]|]; reflexivity.
  Qed.

  (** ** The map *)
  Lemma update_done (st : state) p f (st' : state) : update st p f = Done st' -> exists x, dget (s_compared st) p = Some x /\ st' = with_compared (dset (s_compared st) p (f x)) st.
  Proof. unfold update. destruct (dget (s_compared st) p) as [x|]; [|discriminate]. intros [= <-]. eauto. Qed.
  Lemma update_some (st : state) p f x : dget (s_compared st) p = Some x -> update st p f = Done (with_compared (dset (s_compared st) p (f x)) st).
  Proof. intros G. unfold update. rewrite G. reflexivity. Qed.
  Lemma dmem_dget (d : dict (F * F) result) (p : F * F) : dmem d p = true <-> exists x : @result X, dget d p = Some x.
  Proof. unfold dmem. destruct (dget d p); split; eauto; [discriminate|]. intros [x Q]. discriminate. Qed.

  (** ** Comparisons of bodies that do not change *)
  Lemma visits_fun l r lines v v' : Visits E l r lines v -> Visits E l r lines v' -> v = v'.
  Proof. intros [[A ->]|[A ->]] [[B ->]|[B ->]]; tauto. Qed.
  Lemma visits_ok l r lines : Visits E l r lines (if is_callees l r then [(l, r, lines)] else []).
  Proof.
    unfold Visits. rewrite <- callees_iff. destruct (is_callees l r); auto.
  Qed.
  Lemma does_fun w c : forall vs os b vs' os' b', Does E w c vs os b -> Does E w c vs' os' b' -> vs = vs' /\ os = os' /\ b = b'.
  Proof.
    induction c as [a|l r ll lr k IH|o k IH|l r k IH|q k IH|i k IH|i k IH]; intros vs os b vs' os' b' D D'.
    - inversion D; inversion D'; subst. auto.
    - inversion D as [|? ? ? ? ? a v vs1 os1 b1 A VI D1| | | | |]; subst. inversion D' as [|? ? ? ? ? a' v' vs1' os1' b1' A' VI' D1'| | | | |]; subst.
      assert (a = a') by (destruct a, a'; auto; [symmetry; apply A', A; reflexivity|apply A, A'; reflexivity]). subst a'.
      rewrite (visits_fun _ _ _ _ _ VI VI'). destruct (IH _ _ _ _ _ _ _ _ D1 D1') as (-> & -> & ->). auto.
    - inversion D as [| |? ? ? ? ? D1| | | |]; subst. inversion D' as [| |? ? ? ? ? D1'| | | |]; subst. destruct (IH _ _ _ _ _ _ D1 D1') as (-> & -> & ->). auto.
    - inversion D as [| | |? ? ? ? ? ? D1| | |]; subst. inversion D' as [| | |? ? ? ? ? ? D1'| | |]; subst. exact (IH _ _ _ _ _ _ D1 D1').
    - inversion D as [| | | |? ? ? ? ? D1| |]; subst. inversion D' as [| | | |? ? ? ? ? D1'| |]; subst. exact (IH _ _ _ _ _ _ D1 D1').
    - inversion D as [| | | | |? ? ? ? ? D1|]; subst. inversion D' as [| | | | |? ? ? ? ? D1'|]; subst. exact (IH _ _ _ _ _ _ D1 D1').
    - inversion D as [| | | | | |? ? ? ? ? D1]; subst. inversion D' as [| | | | | |? ? ? ? ? D1']; subst. exact (IH _ _ _ _ _ _ D1 D1').
  Qed.
  Lemma does_exists w c : exists vs os b, Does E w c vs os b.
  Proof.
    induction c as [a|l r ll lr k IH|o k IH|l r k IH|q k IH|i k IH|i k IH].
    - exists [], [], a. constructor.
    - destruct (IH w (same_name E l r && asm_equal l r)) as (vs & os & b & D). exists ((if is_callees l r then [(l, r, (ll, lr))] else []) ++ vs), os, b.
      econstructor; [apply values_equal_iff|apply visits_ok|exact D].
    - destruct IH as (vs & os & b & D). exists vs, (o :: os), b. constructor. exact D.
    - destruct IH as (vs & os & b & D). exists vs, os, b. constructor. exact D.
    - destruct IH as (vs & os & b & D). exists vs, os, b. constructor. exact D.
    - destruct IH as (vs & os & b & D). exists vs, os, b. constructor. exact D.
    - destruct IH as (vs & os & b & D). exists vs, os, b. constructor. exact D.
  Qed.

  (** ** Recorded calls *)
  Definition record_calls (side : F * F * (Z * Z) -> F * Z) (vs : list (F * F * (Z * Z))) (d : dict string (Z * bool)) : dict string (Z * bool) :=
    fold_left (fun d v => add_call (e_name E (fst (side v))) (snd (side v)) d) vs d.
  Lemma dget_add_call n line d m : dget (add_call n line d) m = if eqb m n then (match dget d n with Some x => Some x | None => Some (line, false) end) else dget d m.
  Proof.
    unfold add_call, dmem. destruct (dget d n) eqn:G.
    - destruct (eqb_spec m n) as [->|]; [exact G|reflexivity].
    - rewrite dget_dset. destruct (eqb_spec m n); reflexivity.
  Qed.
  Lemma record_calls_old side vs d n x : dget d n = Some x -> dget (record_calls side vs d) n = Some x.
  Proof.
    revert d. induction vs as [|v vs IH]; intros d G; [exact G|]. cbn [record_calls fold_left]. apply IH. rewrite dget_add_call.
    destruct (eqb_spec n (e_name E (fst (side v)))) as [<-|]; [rewrite G; reflexivity|exact G].
  Qed.
  Lemma record_calls_new side vs d n line weak : dget d n = None ->
    (dget (record_calls side vs d) n = Some (line, weak) <->
      weak = false /\ exists a v b, vs = a ++ v :: b /\ e_name E (fst (side v)) = n /\ snd (side v) = line /\ forall u, In u a -> e_name E (fst (side u)) <> n).
  Proof.
    revert d. induction vs as [|v vs IH]; intros d G.
    - cbn [record_calls fold_left]. rewrite G. split; [discriminate|]. intros (_ & a & u & b & Q & _). destruct a; discriminate.
    - cbn [record_calls fold_left]. fold (record_calls side vs (add_call (e_name E (fst (side v))) (snd (side v)) d)).
      destruct (eqb_spec n (e_name E (fst (side v)))) as [N|N].
      + rewrite (record_calls_old side vs _ n (snd (side v), false)).
        * split.
          -- intros [= <- <-]. split; [reflexivity|]. exists [], v, vs. split; [reflexivity|]. split; [auto|]. split; [reflexivity|]. intros u [].
          -- intros (-> & a & u & b & Q & Q1 & Q2 & Q3). destruct a as [|y a]; cbn [app] in Q; [injection Q as <- _; congruence|].
             injection Q as <- _. destruct (Q3 v (or_introl eq_refl)). auto.
        * rewrite dget_add_call. destruct (eqb_spec n (e_name E (fst (side v)))); [|congruence]. rewrite <- N, G. reflexivity.
      + rewrite IH.
        * split; intros (-> & a & u & b & Q & Q1 & Q2 & Q3); (split; [reflexivity|]).
          -- exists (v :: a), u, b. rewrite Q. split; [reflexivity|]. split; [exact Q1|]. split; [exact Q2|]. intros y [<-|I]; [auto|exact (Q3 y I)].
          -- destruct a as [|y a]; cbn [app] in Q; [injection Q as <- _; congruence|]. injection Q as <- ->. exists a, u, b. split; [reflexivity|]. split; [exact Q1|].
             split; [exact Q2|]. intros y I. apply Q3. right. exact I.
        * rewrite dget_add_call. destruct (eqb_spec n (e_name E (fst (side v)))); [congruence|exact G].
  Qed.
  Lemma record_first side vs : first_calls E side vs (record_calls side vs []).
  Proof. intros n line weak. apply record_calls_new. reflexivity. Qed.

  (** ** Comparison without inlining *)
  Section Fixed.
    Variable w : W.
    Hypothesis NI : no_inlining E w.
    Variable R : F * F -> Prop.
    Variable ps : list (F * F).
    Hypothesis Rin : forall p, R p -> In p ps.
    Hypothesis Rstep : forall p l r lines vs os b, R p -> compared E w p -> Does E w (e_body E w (fst p) (snd p)) vs os b -> In (l, r, lines) vs -> R (l, r).

    Definition known (st : state) (p : F * F) : Prop := dget (s_compared st) p <> None.
    Definition left_over (st : state) : nat := length (filter (fun p => negb (dmem (s_compared st) p)) (nodup (fun a b => match eqb_spec a b with ReflectT _ e => left e | ReflectF _ n => right n end) ps)).
    Definition closed (st : state) (p : F * F) : Prop :=
      compared E w p -> forall vs os b, Does E w (e_body E w (fst p) (snd p)) vs os b -> forall l r lines, In (l, r, lines) vs -> known st (l, r).
    Definition fresh_ok (st st' : state) : Prop :=
      forall p x, dget (s_compared st) p = None -> dget (s_compared st') p = Some x -> PairResult E w p x /\ closed st' p /\ R p.
    Definition grows (st st' : state) : Prop := forall p, known st p -> known st' p.
    Definition extends (st st' : state) : Prop :=
      s_world st' = w /\ (forall p x, dget (s_compared st) p = Some x -> dget (s_compared st') p = Some x) /\ fresh_ok st st'.
    Definition extends_but (cur : F * F) (st st' : state) : Prop :=
      s_world st' = w /\ (forall p x, p <> cur -> dget (s_compared st) p = Some x -> dget (s_compared st') p = Some x) /\ fresh_ok st st'.

    Lemma left_over_mono st st' : grows st st' -> left_over st' <= left_over st.
    Proof.
      intros G. unfold left_over. induction (nodup _ ps) as [|p l IH]; [reflexivity|]. cbn [filter].
      destruct (dmem (s_compared st) p) eqn:M.
      - apply dmem_dget in M. destruct M as [x M]. assert (M' : dmem (s_compared st') p = true).
        { unfold dmem. specialize (G p). unfold known in G. rewrite M in G. destruct (dget (s_compared st') p); [reflexivity|]. exfalso. apply G; [discriminate|reflexivity]. }
        rewrite M'. exact IH.
      - cbn [negb]. destruct (dmem (s_compared st') p); cbn [negb length]; lia.
    Qed.
    Lemma left_over_less st st' p : grows st st' -> R p -> ~ known st p -> known st' p -> left_over st' < left_over st.
    Proof.
      intros G RP NK K. unfold left_over. pose proof (Rin p RP) as I.
      remember (nodup _ ps) as l eqn:El. assert (I' : In p l) by (rewrite El; apply nodup_In; exact I). clear El I.
      assert (Q : forall l, length (filter (fun p => negb (dmem (s_compared st') p)) l) <= length (filter (fun p => negb (dmem (s_compared st) p)) l)).
      { clear -G. induction l as [|p l IH]; [reflexivity|]. cbn [filter]. destruct (dmem (s_compared st) p) eqn:M.
        - assert (M' : dmem (s_compared st') p = true).
          { unfold dmem in *. specialize (G p). unfold known in G. destruct (dget (s_compared st) p); [|discriminate]. destruct (dget (s_compared st') p); [reflexivity|]. exfalso. apply G; [discriminate|reflexivity]. }
          rewrite M'. exact IH.
        - cbn [negb]. destruct (dmem (s_compared st') p); cbn [negb length]; lia. }
      induction l as [|q l IH]; [destruct I'|]. cbn [filter]. destruct I' as [->|I'].
      - assert (M : dmem (s_compared st) p = false) by (unfold dmem, known in *; destruct (dget (s_compared st) p); [destruct NK; discriminate|reflexivity]).
        assert (M' : dmem (s_compared st') p = true) by (unfold dmem, known in *; destruct (dget (s_compared st') p); [reflexivity|congruence]).
        rewrite M, M'. cbn [negb length]. specialize (Q l). lia.
      - specialize (IH I'). specialize (Q l). destruct (dmem (s_compared st) q) eqn:M.
        + assert (M' : dmem (s_compared st') q = true).
          { unfold dmem in *. specialize (G q). unfold known in G. destruct (dget (s_compared st) q); [|discriminate]. destruct (dget (s_compared st') q); [reflexivity|]. exfalso. apply G; [discriminate|reflexivity]. }
          rewrite M'. exact IH.
        + cbn [negb]. destruct (dmem (s_compared st') q); cbn [negb length]; lia.
    Qed.
    Lemma grows_extends st st' : extends st st' -> grows st st'.
    Proof. intros (_ & P & _) p K. unfold known in *. destruct (dget (s_compared st) p) as [x|] eqn:G; [|congruence]. rewrite (P _ _ G). discriminate. Qed.
    Lemma grows_but cur st st' : extends_but cur st st' -> known st' cur -> grows st st'.
    Proof.
      intros (_ & P & _) KC p K. destruct (eqb_spec p cur) as [->|N]; [exact KC|]. unfold known in *.
      destruct (dget (s_compared st) p) as [x|] eqn:G; [|congruence]. rewrite (P _ _ N G). discriminate.
    Qed.
    Lemma closed_grows st st' p : grows st st' -> closed st p -> closed st' p.
    Proof. intros G CL CO vs os b D l r lines I. apply G. eapply CL; eauto. Qed.
    Lemma fresh_trans st st1 st2 : (forall p x, dget (s_compared st) p = None -> dget (s_compared st1) p = Some x -> dget (s_compared st2) p = Some x) ->
      grows st1 st2 -> fresh_ok st st1 -> fresh_ok st1 st2 -> fresh_ok st st2.
    Proof.
      intros P G A B p x N S2. destruct (dget (s_compared st1) p) as [y|] eqn:S1.
      - pose proof (P _ _ N S1) as Q. assert (y = x) by congruence. subst y. destruct (A _ _ N S1) as (Q1 & Q2 & Q3). split; [exact Q1|]. split; [|exact Q3]. eapply closed_grows; eauto.
      - exact (B _ _ S1 S2).
    Qed.

    (** *** Nothing is inlined *)
    Lemma simplified_iff n : is_simplified n = true <-> In n never_inlined.
    Proof. unfold is_simplified, is_print. rewrite orb_true_iff, !mem_In. unfold never_inlined. cbn [In]. tauto. Qed.
    Lemma try_fixed a f : try_to_inline E w (found E w a f) = Some (NotInlined, w) \/ try_to_inline E w (found E w a f) = Some (MissingDef, w).
    Proof.
      destruct a as [c|]; [|left; reflexivity]. unfold found. destruct (e_present E w c f) eqn:P; [|left; reflexivity].
      destruct (NI c f P) as (g & CA & Q). unfold try_to_inline. rewrite CA.
      destruct (negb (e_splits E) && negb (e_abstraction E g)) eqn:S; [left; reflexivity|].
      destruct (e_declared E w g) eqn:D; [destruct (negb (e_intrinsic E g) && negb (e_abstraction E g)); auto|].
      destruct (is_simplified (e_name E g)) eqn:IS; cbn [negb]; [left; reflexivity|].
      destruct Q as [Q|[Q|[Q|[Q1 Q2]]]]; try congruence; [|apply simplified_iff in Q; congruence|]; [rewrite Q; left; reflexivity|]. rewrite Q1, Q2 in S. discriminate.
    Qed.
    Lemma loop_fixed n rec l r inl st : s_world st = w -> n <> 0 ->
      exists st', inline_loop E n rec l r inl st = Done st' /\ s_compared st' = s_compared st /\ s_world st' = w.
    Proof.
      intros WW N. destruct n as [|n]; [congruence|]. cbn [inline_loop].
      assert (Q : forall a b, exists st', match try_to_inline E w (found E w a l) with None => Crash | Some (ra, w0) =>
                  match try_to_inline E w0 (found E w b r) with None => Crash | Some (rb, w1) =>
                    let st0 := with_world w1 st in
                    let st1 := if is_missing ra || is_missing rb then with_missing (s_missing st0 ++ [(option_map VFun (called E w (found E w a l)), option_map VFun (called E w (found E w b r)))]) st0 else st0 in
                    if negb (is_inlined ra) && negb (is_inlined rb) then Done st1 else
                      let inlined := key (called E w (found E w a l), called E w (found E w b r)) ++ inl in
                      let st := with_world (e_simplify E (e_simplify E w1 l) r) st1 in
                      obind (update st (l, r) (set_kind UNKNOWN)) (fun st =>
                      obind (run E rec (l, r) (e_body E (s_world st) l r) st) (fun a0 =>
                      let st := snd a0 in
                      obind (update st (l, r) (fun x => x)) (fun st =>
                      if fst a0 then
                        obind (update st (l, r) (mark_calls E (called E w (found E w a l)) (called E w (found E w b r)))) (fun st =>
                        let st := fold_left (fun st p => erase p st) inlined st in
                        obind (update st (l, r) (set_kind EQUAL)) (inline_loop E n rec l r inlined))
                      else obind (update st (l, r) (set_kind NOT_EQUAL)) (inline_loop E n rec l r inlined))))
                  end end = Done st' /\ s_compared st' = s_compared st /\ s_world st' = w).
      { intros a b. destruct (try_fixed a l) as [-> | ->], (try_fixed b r) as [-> | ->]; cbn [is_missing is_inlined orb negb andb]; eexists; (split; [reflexivity|split; reflexivity]). }
      destruct (s_inline st) as [[ca|] [cb|]]; rewrite ?WW; [apply (Q (Some ca) (Some cb))|apply (Q (Some ca) None)|apply (Q None (Some cb))|].
      exists st. auto.
    Qed.

    (** *** A comparison of bodies *)
    Definition rec_ok (n : nat) (rec : F -> F -> state -> outcome state) : Prop := forall l r st, s_world st = w -> R (l, r) -> dget (s_compared st) (l, r) = None ->
      match rec l r st with
      | Done st' => extends st st' /\ known st' (l, r)
      | Crash => False
      | OutOfFuel => n <= left_over st
      end.
    Definition grown (x : result) (vs : list (F * F * (Z * Z))) (os : list X) : result :=
      mkresult (r_kind x) (record_calls left_side vs (r_left x)) (record_calls right_side vs (r_right x)) (r_objects x ++ os).
    Lemma grown_nil x : grown x [] [] = x.
    Proof. destruct x. unfold grown. cbn. rewrite app_nil_r. reflexivity. Qed.
    Lemma grown_app x vs os vs' os' : grown (grown x vs os) vs' os' = grown x (vs ++ vs') (os ++ os').
    Proof. unfold grown, record_calls. cbn [r_kind r_left r_right r_objects]. rewrite !fold_left_app, app_assoc. reflexivity. Qed.
    Definition run_post (n : nat) (cur : F * F) (c : comp) (st : state) (x : result) (o : outcome (bool * state)) : Prop :=
      match o with
      | Done (b, st') => exists vs os, Does E w c vs os b /\ extends_but cur st st' /\ dget (s_compared st') cur = Some (grown x vs os) /\
          forall l r lines, In (l, r, lines) vs -> known st' (l, r)
      | Crash => False
      | OutOfFuel => n <= left_over st
      end.
    Lemma extends_but_compared cur st st' : s_world st' = w -> (forall p, p <> cur -> dget (s_compared st') p = dget (s_compared st) p) -> known st cur -> extends_but cur st st'.
    Proof.
      intros WW Q K. split; [exact WW|]. split; [intros p x N G; rewrite Q; assumption|]. intros p x N S.
      destruct (eqb_spec p cur) as [->|NE]; [destruct K; exact N|]. rewrite Q in S by exact NE. congruence.
    Qed.
    Lemma extends_but_trans cur st st1 st2 : known st cur -> known st1 cur -> known st2 cur -> extends_but cur st st1 -> extends_but cur st1 st2 -> extends_but cur st st2.
    Proof.
      intros K K1 K2 (W1 & P1 & F1) (W2 & P2 & F2). split; [exact W2|]. split; [intros p x N G; apply P2; auto|].
      apply (fresh_trans st st1 st2); auto.
      - intros p x N S. apply P2; [|exact S]. intros ->. destruct K. exact N.
      - apply (grows_but cur); [split; auto|exact K2].
    Qed.
    Lemma known_some (st : state) p x : dget (s_compared st) p = Some x -> known st p.
    Proof. unfold known. congruence. Qed.
    Lemma run_post_step n cur c c' st x st1 vs1 os1 o : known st cur -> dget (s_compared st1) cur = Some (grown x vs1 os1) -> extends_but cur st st1 ->
      (forall l r lines, In (l, r, lines) vs1 -> known st1 (l, r)) ->
      (forall vs os b, Does E w c' vs os b -> Does E w c (vs1 ++ vs) (os1 ++ os) b) ->
      run_post n cur c' st1 (grown x vs1 os1) o -> run_post n cur c st x o.
    Proof.
      intros K S1 X1 V1 D P. pose proof (known_some _ _ _ S1) as K1. pose proof (grows_but _ _ _ X1 K1) as G1. unfold run_post in *. destruct o as [[b st']| |]; [|exact P|pose proof (left_over_mono st st1 G1); lia].
      destruct P as (vs & os & DD & X2 & S2 & V2). pose proof (known_some _ _ _ S2) as K2. exists (vs1 ++ vs), (os1 ++ os). split; [auto|]. split; [|split].
      - exact (extends_but_trans cur st st1 st' K K1 K2 X1 X2).
      - rewrite S2, grown_app. reflexivity.
      - intros l r lines I. apply in_app_iff in I. destruct I as [I|I]; [|eauto]. apply (grows_but _ _ _ X2 K2). eauto.
    Qed.
    Lemma run_fixed n rec cur c : rec_ok n rec -> forall saved st x, s_world st = w -> dget (s_compared st) cur = Some x ->
      (forall vs os b, Does E w c vs os b -> forall l r lines, In (l, r, lines) vs -> R (l, r)) ->
      run_post n cur c st x (run_from E rec cur c saved st).
    Proof.
      intros RO. induction c as [a|l r ll lr k IH|o k IH|l r k IH|q k IH|i k IH|i k IH]; intros saved st x WW S VR; cbn [run_from].
      - exists [], []. split; [constructor|]. split; [|split; [rewrite grown_nil; exact S|intros l r lines []]].
        apply extends_but_compared; [exact WW|reflexivity|exact (known_some _ _ _ S)].
      - rewrite global_values_eq. remember (same_name E l r && asm_equal l r) as a eqn:Ea.
        assert (D : forall vs os b, Does E w (k w a) vs os b -> Does E w (Globals l r ll lr k) ((if is_callees l r then [(l, r, (ll, lr))] else []) ++ vs) os b).
        { intros vs os b D. econstructor; [|apply visits_ok|exact D]. subst a. apply values_equal_iff. }
        assert (VR' : forall vs os b, Does E w (k w a) vs os b -> forall l r lines, In (l, r, lines) vs -> R (l, r)).
        { intros vs os b DD l' r' lines I. apply (VR _ _ _ (D _ _ _ DD) l' r' lines). apply in_app_iff. right. exact I. }
        destruct (is_callees l r) eqn:CA.
        + assert (RC : R (l, r)).
          { destruct (does_exists w (k w a)) as (vs & os & b & DD). apply (VR _ _ _ (D _ _ _ DD) l r (ll, lr)). left. reflexivity. }
          rewrite (update_some _ _ _ _ S). cbn [obind].
          remember (with_compared (dset (s_compared st) cur (add_calls E l r ll lr x)) st) as st1 eqn:E1.
          assert (S1 : dget (s_compared st1) cur = Some (grown x [(l, r, (ll, lr))] [])).
          { subst st1. cbn [s_compared with_compared]. rewrite dget_dset_same. unfold grown, add_calls. cbn. rewrite app_nil_r. reflexivity. }
          assert (X1 : extends_but cur st st1).
          { apply extends_but_compared; [subst st1; exact WW| |exact (known_some _ _ _ S)]. intros p N. subst st1. cbn [s_compared with_compared]. apply dget_dset_other. exact N. }
          assert (WW1 : s_world st1 = w) by (subst st1; exact WW).
          clear E1.
          destruct (dmem (s_compared st1) (l, r)) eqn:M.
          * cbn [obind fst snd]. rewrite WW1. apply (run_post_step n cur _ (k w a) st x st1 [(l, r, (ll, lr))] []); auto.
            -- exact (known_some _ _ _ S).
            -- intros l' r' lines [I|[]]. injection I as <- <- <-. apply dmem_dget in M. destruct M as [y M]. exact (known_some _ _ _ M).
          * assert (NM : dget (s_compared st1) (l, r) = None) by (unfold dmem in M; destruct (dget (s_compared st1) (l, r)); [discriminate|reflexivity]).
            pose proof (RO l r st1 WW1 RC NM) as Q. destruct (rec l r st1) as [st2| |]; cbn [obind fst snd].
            -- destruct Q as [X2 K2]. pose proof X2 as (WW2 & P2 & F2). rewrite WW2.
               pose proof (known_some _ _ _ S) as K0. pose proof (known_some _ _ _ S1) as K1. pose proof (known_some _ _ _ (P2 _ _ S1)) as K3.
               apply (run_post_step n cur _ (k w a) st x st2 [(l, r, (ll, lr))] []); auto.
               ++ apply (extends_but_trans cur st st1 st2); auto. split; [exact WW2|]. split; [auto|exact F2].
               ++ intros l' r' lines [I|[]]. injection I as <- <- <-. exact K2.
            -- destruct Q.
            -- cbn [run_post]. pose proof (left_over_mono st st1 (grows_but _ _ _ X1 (known_some _ _ _ S1))). lia.
        + cbn [obind fst snd]. rewrite WW. apply (run_post_step n cur _ (k w a) st x st [] []); auto.
          * exact (known_some _ _ _ S).
          * rewrite grown_nil. exact S.
          * apply extends_but_compared; [exact WW|reflexivity|exact (known_some _ _ _ S)].
          * intros l' r' lines [].
          * apply IH; [exact WW|rewrite grown_nil; exact S|exact VR'].
      - rewrite (update_some _ _ _ _ S). cbn [obind].
        apply (run_post_step n cur _ k st x (with_compared (dset (s_compared st) cur (add_object o x)) st) [] [o]).
        + exact (known_some _ _ _ S).
        + cbn [s_compared with_compared]. apply dget_dset_same.
        + apply extends_but_compared; [exact WW| |exact (known_some _ _ _ S)]. intros p N. cbn [s_compared with_compared]. apply dget_dset_other. exact N.
        + intros l' r' lines [].
        + intros vs os b D. cbn [app]. constructor. exact D.
        + apply IH; [exact WW|cbn [s_compared with_compared]; apply dget_dset_same|]. intros vs os b D. apply (VR vs (o :: os) b). constructor. exact D.
      - apply (run_post_step n cur _ k st x (with_missing (s_missing st ++ [(Some (VVar l), Some (VVar r))]) st) [] []); rewrite ?grown_nil; auto.
        + exact (known_some _ _ _ S).
        + apply extends_but_compared; [exact WW|reflexivity|exact (known_some _ _ _ S)].
        + intros l' r' lines [].
        + intros vs os b D. cbn [app]. constructor. exact D.
        + apply IH; [exact WW|exact S|]. intros vs os b D. apply (VR vs os b). constructor. exact D.
      - apply (run_post_step n cur _ k st x (with_inline q st) [] []); rewrite ?grown_nil; auto.
        + exact (known_some _ _ _ S).
        + apply extends_but_compared; [exact WW|reflexivity|exact (known_some _ _ _ S)].
        + intros l' r' lines [].
        + intros vs os b D. cbn [app]. constructor. exact D.
        + apply IH; [exact WW|exact S|]. intros vs os b D. apply (VR vs os b). constructor. exact D.
      - apply (run_post_step n cur _ k st x st [] []); rewrite ?grown_nil; auto.
        + exact (known_some _ _ _ S).
        + apply extends_but_compared; [exact WW|reflexivity|exact (known_some _ _ _ S)].
        + intros l' r' lines [].
        + intros vs os b D. cbn [app]. constructor. exact D.
        + apply IH; [exact WW|exact S|]. intros vs os b D. apply (VR vs os b). constructor. exact D.
      - apply (run_post_step n cur _ k st x (with_inline (match dget saved i with Some p => p | None => (None, None) end) st) [] []); rewrite ?grown_nil; auto.
        + exact (known_some _ _ _ S).
        + apply extends_but_compared; [exact WW|reflexivity|exact (known_some _ _ _ S)].
        + intros l' r' lines [].
        + intros vs os b D. cbn [app]. constructor. exact D.
        + apply IH; [exact WW|exact S|]. intros vs os b D. apply (VR vs os b). constructor. exact D.
    Qed.

    (** *** A comparison of functions *)
    Lemma declaration_ok l r : Declared E l r (declaration_verdict E l r).
    Proof.
      unfold declaration_verdict. destruct (String.eqb_spec (base_name (e_name E l)) (base_name (e_name E r))) as [Q|Q].
      - apply (Declared_same E l r (base_name (e_name E l))); apply plain_name_iff; auto.
      - eapply Declared_other; [apply plain_name_iff; reflexivity|apply plain_name_iff; reflexivity|exact Q].
    Qed.
    Lemma emplace_new (p : F * F) (st : state) : dget (s_compared st) p = None -> emplace p st = with_compared (dset (s_compared st) p (mkresult UNKNOWN [] [] [])) st.
    Proof. intros N. unfold emplace, dmem. rewrite N. reflexivity. Qed.
    Lemma dset_twice (d : dict (F * F) (@result X)) p x y q : dget (dset (dset d p x) p y) q = dget (dset d p y) q.
    Proof. rewrite !dget_dset. destruct (eqb q p); reflexivity. Qed.
    Lemma fresh_result (st st' : state) p x : dget (s_compared st) p = None -> s_world st' = w -> (forall q, dget (s_compared st') q = dget (dset (s_compared st) p x) q) ->
      PairResult E w p x -> ~ compared E w p -> R p -> extends st st' /\ known st' p.
    Proof.
      intros N WW Q PR NC RP. split; [split; [exact WW|split]|].
      - intros q y G. rewrite Q, dget_dset. destruct (eqb_spec q p) as [->|]; [congruence|exact G].
      - intros q y NQ S. rewrite Q, dget_dset in S. destruct (eqb_spec q p) as [->|]; [|congruence]. injection S as <-.
        split; [exact PR|]. split; [|exact RP]. intros CO. destruct (NC CO).
      - unfold known. rewrite Q, dget_dset_same. discriminate.
    Qed.
    Lemma compare_fixed n : rec_ok n (compare E n).
    Proof.
      induction n as [|n IH]; intros l r st WW RP N; cbn [compare]; [lia|].
      rewrite (emplace_new _ _ N). remember (with_compared (dset (s_compared st) (l, r) (mkresult UNKNOWN [] [] [])) st) as st0 eqn:E0.
      assert (S0 : dget (s_compared st0) (l, r) = Some (mkresult UNKNOWN [] [] [])) by (subst st0; cbn [s_compared with_compared]; apply dget_dset_same).
      assert (W0 : s_world st0 = w) by (subst st0; exact WW).
      destruct (e_cached E l r) eqn:CA.
      - rewrite (update_some _ _ _ _ S0). apply (fresh_result st _ (l, r) (mkresult UNKNOWN [] [] [])); auto.
        + intros q. subst st0. cbn [s_compared with_compared]. apply dset_twice.
        + constructor. exact CA.
        + intros (Q & _). cbn [fst snd] in Q. congruence.
      - rewrite W0. destruct (e_declared E w l || e_declared E w r) eqn:DE.
        + rewrite (update_some _ _ _ _ S0). cbn [obind]. apply (fresh_result st _ (l, r) (mkresult (declaration_verdict E l r) [] [] [])); auto.
          * intros q. subst st0. cbn [s_compared with_compared with_missing]. apply dset_twice.
          * apply Result_declared; [exact CA|apply orb_true_iff; exact DE|apply declaration_ok].
          * intros (_ & Q1 & Q2). cbn [fst snd] in *. rewrite Q1, Q2 in DE. discriminate.
        + apply orb_false_iff in DE. assert (CO : compared E w (l, r)) by (split; [exact CA|exact DE]).
          assert (G0 : grows st st0).
          { intros p K. unfold known in *. subst st0. cbn [s_compared with_compared]. rewrite dget_dset. destruct (eqb p (l, r)); [discriminate|exact K]. }
          assert (L0 : left_over st0 < left_over st).
          { apply (left_over_less _ _ (l, r)); [exact G0|exact RP| |exact (known_some _ _ _ S0)]. unfold known. rewrite N. intros Q. apply Q. reflexivity. }
          assert (P := run_fixed n (compare E n) (l, r) (e_body E w l r) IH [] st0 _ W0 S0).
          fold (run E (compare E n) (l, r) (e_body E w l r) st0) in P.
          assert (VR : forall vs os b, Does E w (e_body E w l r) vs os b -> forall l' r' lines, In (l', r', lines) vs -> R (l', r')).
          { intros vs os b D l' r' lines I. exact (Rstep (l, r) l' r' lines vs os b RP CO D I). }
          specialize (P VR). destruct (run E (compare E n) (l, r) (e_body E w l r) st0) as [[b st1]| |]; cbn [obind fst snd]; [|exact P|cbn [run_post] in P; lia].
          destruct P as (vs & os & D & X1 & S1 & V1). pose proof X1 as (W1 & P1 & F1).
          assert (FIN : forall st2 : state, s_world st2 = w -> (forall q, dget (s_compared st2) q = dget (dset (s_compared st1) (l, r) (mkresult (if b then EQUAL else NOT_EQUAL) (record_calls left_side vs []) (record_calls right_side vs []) os)) q) -> extends st st2 /\ known st2 (l, r)).
          { intros st2 W2 Q. assert (K2 : known st2 (l, r)) by (unfold known; rewrite Q, dget_dset_same; discriminate).
            assert (G2 : grows st1 st2) by (intros p K; unfold known in *; rewrite Q, dget_dset; destruct (eqb p (l, r)); [discriminate|exact K]).
            split; [|exact K2]. split; [exact W2|]. split.
            - intros p x G. assert (NE : p <> (l, r)) by congruence. rewrite Q, dget_dset_other by exact NE. apply P1; [exact NE|].
              subst st0. cbn [s_compared with_compared]. rewrite dget_dset_other by exact NE. exact G.
            - intros p x NP S2. rewrite Q, dget_dset in S2. destruct (eqb_spec p (l, r)) as [->|NE].
              + injection S2 as <-. split; [|split; [|exact RP]].
                * apply (Result_compared E w l r vs os b); [exact CO|exact D|apply record_first|apply record_first].
                * intros _ vs' os' b' D' l' r' lines I. destruct (does_fun _ _ _ _ _ _ _ _ D D') as (<- & _ & _). apply G2. eapply V1. exact I.
              + assert (NP0 : dget (s_compared st0) p = None) by (subst st0; cbn [s_compared with_compared]; rewrite dget_dset_other by exact NE; exact NP).
                destruct (F1 p x NP0 S2) as (A & B & RR). split; [exact A|]. split; [|exact RR]. eapply closed_grows; eassumption. }
          rewrite (update_some _ _ _ _ S1). cbn [obind].
          remember (with_compared (dset (s_compared st1) (l, r) (grown (mkresult UNKNOWN [] [] []) vs os)) st1) as st2 eqn:E2.
          assert (S2 : dget (s_compared st2) (l, r) = Some (grown (mkresult UNKNOWN [] [] []) vs os)) by (subst st2; cbn [s_compared with_compared]; apply dget_dset_same).
          destruct b.
          * rewrite (update_some _ _ _ _ S2). apply FIN; [subst st2; exact W1|]. intros q. subst st2. cbn [s_compared with_compared]. rewrite dset_twice. reflexivity.
          * rewrite (update_some _ _ _ _ S2). cbn [obind]. destruct n as [|n]; [cbn [inline_loop]; lia|].
            destruct (loop_fixed (S n) (compare E (S n)) l r [] (with_compared (dset (s_compared st2) (l, r) (set_kind NOT_EQUAL (grown (mkresult UNKNOWN [] [] []) vs os))) st2)) as (st3 & L & Q & W3); [subst st2; exact W1|discriminate|].
            rewrite L. apply FIN; [exact W3|]. intros q. rewrite Q. subst st2. cbn [s_compared with_compared]. rewrite dset_twice. reflexivity.
    Qed.
  End Fixed.

  (** *** The results without inlining *)
  Section Results.
    Variable w : W.
    Hypothesis NI : no_inlining E w.
    Variables l r : F.
    Variable ps : list (F * F).
    Hypothesis Rin : forall p, Reached E w (l, r) p -> In p ps.
    Lemma reached_step p a b lines vs os c : Reached E w (l, r) p -> compared E w p -> Does E w (e_body E w (fst p) (snd p)) vs os c -> In (a, b, lines) vs -> Reached E w (l, r) (a, b).
    Proof. intros. econstructor; eassumption. Qed.
    Lemma start_fixed n : match compare E n l r (start w) with
      | Done st => s_world st = w /\ (forall p x, dget (s_compared st) p = Some x -> Reached E w (l, r) p /\ PairResult E w p x) /\
          (forall p, Reached E w (l, r) p -> exists x, dget (s_compared st) p = Some x)
      | Crash => False
      | OutOfFuel => n <= length ps
      end.
    Proof.
      pose proof (compare_fixed w NI (Reached E w (l, r)) ps Rin reached_step n l r (start w) eq_refl (Reached_start _ _ _) eq_refl) as Q.
      destruct (compare E n l r (start w)) as [st| |]; [|exact Q|].
      - destruct Q as ((WW & _ & FR) & K). split; [exact WW|]. split.
        + intros p x S. destruct (FR p x eq_refl S) as (A & _ & B). auto.
        + assert (Q : forall p, Reached E w (l, r) p -> known st p).
          { intros p RE. induction RE as [|p a b lines vs os c RE IH CO D I]; [exact K|].
            unfold known in IH. destruct (dget (s_compared st) p) as [x|] eqn:G; [|congruence]. destruct (FR p x eq_refl G) as (_ & CL & _). eapply CL; eassumption. }
          intros p RE. specialize (Q p RE). unfold known in Q. destruct (dget (s_compared st) p) as [x|]; [eauto|congruence].
      - etransitivity; [exact Q|]. unfold left_over. apply NoDup_incl_length; [apply NoDup_filter, NoDup_nodup|]. intros p I. apply filter_In in I. destruct I as [I _]. apply nodup_In in I. exact I.
    Qed.
  End Results.
  Lemma declared_fun l r k k' : Declared E l r k -> Declared E l r k' -> k = k'.
  Proof.
    intros D D'. destruct D as [l r a A B|l r a b A B N]; inversion D' as [? ? a' A' B'|? ? a' b' A' B' N']; subst; try reflexivity;
      apply plain_name_iff in A, B, A', B'; congruence.
  Qed.
  Lemma pair_kind_fun w p x y : PairResult E w p x -> PairResult E w p y -> r_kind x = r_kind y /\ r_objects x = r_objects y.
  Proof.
    intros A B. destruct A as [l r CA|l r k CA DE D|l r vs os b cl cr CO D F1 F2]; inversion B as [? ? CA'|? ? k' CA' DE' D'|? ? vs' os' b' cl' cr' CO' D' F1' F2']; subst; cbn [r_kind r_objects];
      try (unfold compared in *; cbn [fst snd] in *; intuition congruence).
    - split; [eapply declared_fun; eassumption|reflexivity].
    - destruct (does_fun _ _ _ _ _ _ _ _ D D') as (_ & -> & ->). auto.
  Qed.
  Lemma all_equal_iff (st : state) : NoDup (dkeys (s_compared st)) -> (all_equal st = true <-> forall p x, dget (s_compared st) p = Some x -> r_kind x <> NOT_EQUAL).
  Proof.
    intros ND. unfold all_equal. rewrite forallb_forall. split.
    - intros A p x G. apply dget_In in G. specialize (A _ G). cbn [snd] in A. intros Q. rewrite Q in A. discriminate.
    - intros A [p x] I. cbn [snd]. assert (G : dget (s_compared st) p = Some x).
      { clear -I ND. induction (s_compared st) as [|[q y] d IH]; [destruct I|]. cbn [dget dkeys map fst] in *. inversion ND as [|? ? N1 N2]; subst. destruct I as [Q|I].
        - injection Q as -> ->. destruct (eqb_spec p p); [reflexivity|congruence].
        - destruct (eqb_spec p q) as [->|]; [|apply IH; assumption]. destruct N1. apply (in_map fst) in I. exact I. }
      specialize (A _ _ G). destruct (r_kind x); congruence.
  Qed.

  (** ** With inlining *)
  Lemma evolves_trans a b c : Evolves E a b -> Evolves E b c -> Evolves E a c.
  Proof. induction 1; intros Q; [exact Q|eapply Evolves_inline; eauto|apply Evolves_simplify with f; auto]. Qed.
  Lemma justified_mono a b p k : Evolves E a b -> Justified E b p k -> Justified E a p k.
  Proof.
    intros EV J. destruct J.
    - constructor. assumption.
    - apply Justified_declared with w1; auto. eapply evolves_trans; eauto.
    - apply Justified_compared with w1; auto. eapply evolves_trans; eauto.
  Qed.
  (** What becomes of the results other than those of the pairs in [own]. *)
  Definition sound_but (own : F * F -> Prop) (st st' : state) : Prop :=
    Evolves E (s_world st) (s_world st') /\
    forall p x, ~ own p -> dget (s_compared st') p = Some x -> Justified E (s_world st) p (r_kind x) \/ exists y, dget (s_compared st) p = Some y /\ r_kind y = r_kind x.
  Lemma sound_refl own st : sound_but own st st.
  Proof. split; [constructor|]. intros p x _ G. right. eauto. Qed.
  Lemma sound_trans own st st1 st2 : sound_but own st st1 -> sound_but own st1 st2 -> sound_but own st st2.
  Proof.
    intros (E1 & A1) (E2 & A2). split; [eapply evolves_trans; eauto|]. intros p x N G. destruct (A2 p x N G) as [J|(y & G1 & Q)]; [left; eapply justified_mono; eauto|].
    destruct (A1 p y N G1) as [J|(z & G0 & Q')]; [left; rewrite <- Q; exact J|right; exists z; split; congruence].
  Qed.
  Lemma update_inv (st st' : state) p f : update st p f = Done st' -> exists x, dget (s_compared st) p = Some x /\ st' = with_compared (dset (s_compared st) p (f x)) st.
  Proof. unfold update. destruct (dget (s_compared st) p) as [x|]; [|discriminate]. intros [= <-]. eauto. Qed.
  Lemma sound_update own (st st' : state) p f : (own p \/ forall x, r_kind (f x) = r_kind x) -> update st p f = Done st' -> sound_but own st st'.
  Proof.
    intros O U. apply update_inv in U. destruct U as (x & G & ->). split; [constructor|]. cbn [s_compared with_compared]. intros q y N S. rewrite dget_dset in S.
    destruct (eqb_spec q p) as [->|]; [|right; eauto]. injection S as <-. destruct O as [O|O]; [contradiction|]. right. exists x. auto.
  Qed.
  Lemma dget_filter_In (d : dict (F * F) (@result X)) g p x : dget (filter (fun e => negb (eqb (fst e) g)) d) p = Some x -> dget d p = Some x.
  Proof.
    induction d as [|[q y] d IH]; [discriminate|]. cbn [filter fst]. destruct (eqb_spec q g) as [->|N]; cbn [negb dget].
    - intros S. destruct (eqb_spec p g) as [->|]; [|auto]. exfalso. clear -S. induction d as [|[q z] d IH]; [discriminate|]. cbn [filter fst] in S.
      destruct (eqb_spec q g) as [->|N]; cbn [negb dget] in S; [auto|]. destruct (eqb_spec g q); [congruence|auto].
    - destruct (eqb p q); auto.
  Qed.
  Lemma sound_erase own ps (st : state) : sound_but own st (fold_left (fun st p => erase p st) ps st) /\ s_world (fold_left (fun st p => erase p st) ps st) = s_world st.
  Proof.
    revert st. induction ps as [|q ps IH]; intros st; [split; [apply sound_refl|reflexivity]|]. cbn [fold_left]. destruct (IH (erase q st)) as (A & B). split; [|exact B].
    apply (sound_trans _ _ (erase q st)); [|exact A]. split; [constructor|]. intros p x _ G. right. exists x. split; [|reflexivity]. unfold erase in G. cbn [s_compared with_compared] in G. eapply dget_filter_In. exact G.
  Qed.
  Lemma try_evolves (w0 w1 : W) c k : try_to_inline E w0 c = Some (k, w1) -> Evolves E w0 w1.
  Proof.
    unfold try_to_inline. destruct c as [c|]; [|intros [= _ <-]; constructor]. destruct (e_callee E w0 c) as [g|] eqn:CA; [|discriminate].
    destruct (negb (e_splits E) && negb (e_abstraction E g)); [intros [= _ <-]; constructor|].
    destruct (e_declared E w0 g) eqn:D; [intros [= _ <-]; constructor|].
    destruct (negb (is_simplified (e_name E g))); [|intros [= _ <-]; constructor].
    destruct (e_inline E w0 c) as [w2|] eqn:I; intros [= _ <-]; [|constructor]. eapply Evolves_inline; eauto. constructor.
  Qed.
  Definition rec_sound (rec : F -> F -> state -> outcome state) : Prop := forall l r st st', rec l r st = Done st' ->
    (forall p, p = (l, r) -> exists x, dget (s_compared st') p = Some x /\ Justified E (s_world st) p (r_kind x)) /\ sound_but (eq (l, r)) st st'.
  Lemma rec_sound_all rec l r st st' own : rec_sound rec -> rec l r st = Done st' -> sound_but own st st'.
  Proof.
    intros RS Q. destruct (RS _ _ _ _ Q) as (A & EV & B). split; [exact EV|]. intros p x N G. destruct (eqb_spec p (l, r)) as [->|NE]; [|apply B; auto].
    destruct (A _ eq_refl) as (y & G' & J). left. congruence.
  Qed.
  Lemma run_sound rec cur c : rec_sound rec -> forall saved st b st' (own : F * F -> Prop), own cur -> run_from E rec cur c saved st = Done (b, st') ->
    sound_but own st st' /\ Ends E (s_world st) c b.
  Proof.
    intros RS. induction c as [a|l r ll lr k IH|o k IH|l r k IH|q k IH|i k IH|i k IH]; intros saved st b st' own OC Q; cbn [run_from] in Q.
    - injection Q as <- <-. split; [apply sound_refl|constructor].
    - rewrite global_values_eq in Q. remember (same_name E l r && asm_equal l r) as a eqn:Ea.
      assert (VE : a = true <-> values_equal E l r) by (subst a; apply values_equal_iff).
      assert (S : exists st1, sound_but own st st1 /\ run_from E rec cur (k (s_world st1) a) saved st1 = Done (b, st')).
      { destruct (is_callees l r).
        - destruct (update st cur (add_calls E l r ll lr)) as [st1| |] eqn:U; cbn [obind] in Q; try discriminate.
          pose proof (sound_update own _ _ _ _ (or_introl OC) U) as S1. destruct (dmem (s_compared st1) (l, r)).
          + cbn [obind fst snd] in Q. eauto.
          + destruct (rec l r st1) as [st2| |] eqn:RQ; cbn [obind fst snd] in Q; try discriminate. exists st2. split; [|exact Q].
            eapply sound_trans; [exact S1|]. eapply rec_sound_all; eauto.
        - cbn [obind fst snd] in Q. exists st. split; [apply sound_refl|exact Q]. }
      destruct S as (st1 & S1 & Q1). destruct (IH _ _ _ _ _ _ own OC Q1) as (S2 & EN). split; [eapply sound_trans; eauto|]. eapply Ends_globals; [exact VE|exact (proj1 S1)|exact EN].
    - destruct (update st cur (add_object o)) as [st1| |] eqn:U; cbn [obind] in Q; try discriminate. pose proof (sound_update own _ _ _ _ (or_introl OC) U) as S1.
      destruct (IH _ _ _ _ own OC Q) as (S2 & EN). apply update_inv in U. destruct U as (x & _ & ->). split; [eapply sound_trans; eauto|constructor; exact EN].
    - destruct (IH _ _ _ _ own OC Q) as (S2 & EN). split; [exact S2|constructor; exact EN].
    - destruct (IH _ _ _ _ own OC Q) as (S2 & EN). split; [exact S2|constructor; exact EN].
    - destruct (IH _ _ _ _ own OC Q) as (S2 & EN). split; [exact S2|constructor; exact EN].
    - destruct (IH _ _ _ _ own OC Q) as (S2 & EN). split; [exact S2|constructor; exact EN].
  Qed.
  Definition settled (w0 : W) (st : state) (p : F * F) : Prop := exists x, dget (s_compared st) p = Some x /\ Justified E w0 p (r_kind x).
  Lemma loop_sound rec l r : rec_sound rec -> e_cached E l r = false -> forall n inl st st' w0, Evolves E w0 (s_world st) -> settled w0 st (l, r) ->
    inline_loop E n rec l r inl st = Done st' -> settled w0 st' (l, r) /\ sound_but (eq (l, r)) st st'.
  Proof.
    intros RS NC n. induction n as [|n IH]; intros inl st st' w0 EV SE Q; [discriminate|]. cbn [inline_loop] in Q.
    assert (P : forall ra rb w1 fa fb inlined, Evolves E (s_world st) w1 ->
      (let st0 := with_world w1 st in
       let st1 := if is_missing ra || is_missing rb then with_missing (s_missing st0 ++ [(option_map VFun fa, option_map VFun fb)]) st0 else st0 in
       if negb (is_inlined ra) && negb (is_inlined rb) then Done st1 else
       let st := with_world (e_simplify E (e_simplify E w1 l) r) st1 in
       obind (update st (l, r) (set_kind UNKNOWN)) (fun st =>
       obind (run E rec (l, r) (e_body E (s_world st) l r) st) (fun a0 =>
       let st := snd a0 in
       obind (update st (l, r) (fun x => x)) (fun st =>
       if fst a0 then
         obind (update st (l, r) (mark_calls E fa fb)) (fun st =>
         let st := fold_left (fun st p => erase p st) inlined st in
         obind (update st (l, r) (set_kind EQUAL)) (inline_loop E n rec l r inlined))
       else obind (update st (l, r) (set_kind NOT_EQUAL)) (inline_loop E n rec l r inlined))))) = Done st' ->
      settled w0 st' (l, r) /\ sound_but (eq (l, r)) st st').
    { clear Q. intros ra rb w1 fa fb inlined EV1 Q. cbv zeta in Q.
      remember (if is_missing ra || is_missing rb then with_missing (s_missing (with_world w1 st) ++ [(option_map VFun fa, option_map VFun fb)]) (with_world w1 st) else with_world w1 st) as st1 eqn:E1.
      assert (C1 : s_compared st1 = s_compared st) by (subst st1; destruct (is_missing ra || is_missing rb); reflexivity).
      assert (W1 : s_world st1 = w1) by (subst st1; destruct (is_missing ra || is_missing rb); reflexivity).
      assert (S1 : sound_but (eq (l, r)) st st1) by (split; [rewrite W1; exact EV1|]; intros p x _ G; right; exists x; rewrite <- C1; auto).
      clear E1. destruct (negb (is_inlined ra) && negb (is_inlined rb)).
      { injection Q as <-. split; [|exact S1]. unfold settled. rewrite C1. exact SE. }
      remember (with_world (e_simplify E (e_simplify E w1 l) r) st1) as st2 eqn:E2.
      assert (S2 : sound_but (eq (l, r)) st1 st2).
      { subst st2. split; [|intros p x _ G; right; exists x; auto]. rewrite W1. cbn [s_world with_world]. apply Evolves_simplify with l. apply Evolves_simplify with r. constructor. }
      clear E2.
      destruct (update st2 (l, r) (set_kind UNKNOWN)) as [st3| |] eqn:U3; cbn [obind] in Q; try discriminate.
      pose proof (sound_update (eq (l, r)) _ _ _ _ (or_introl eq_refl) U3) as S3.
      destruct (run E rec (l, r) (e_body E (s_world st3) l r) st3) as [[b st4]| |] eqn:RQ; cbn [obind fst snd] in Q; try discriminate.
      destruct (run_sound rec (l, r) _ RS _ _ _ _ (eq (l, r)) eq_refl RQ) as (S4 & EN).
      assert (S04 : sound_but (eq (l, r)) st st4) by (eapply sound_trans; [exact S1|eapply sound_trans; [exact S2|eapply sound_trans; [exact S3|exact S4]]]).
      assert (J : Justified E w0 (l, r) (if b then EQUAL else NOT_EQUAL)).
      { apply Justified_compared with (s_world st3); auto. eapply evolves_trans; [exact EV|]. eapply evolves_trans; [exact (proj1 S1)|]. eapply evolves_trans; [exact (proj1 S2)|exact (proj1 S3)]. }
      destruct (update st4 (l, r) (fun x => x)) as [st5| |] eqn:U5; cbn [obind] in Q; try discriminate.
      pose proof (sound_update (eq (l, r)) _ _ _ _ (or_introl eq_refl) U5) as S5.
      assert (FIN : forall st6 st7 k, sound_but (eq (l, r)) st5 st6 -> k = (if b then EQUAL else NOT_EQUAL) -> update st6 (l, r) (set_kind k) = Done st7 -> inline_loop E n rec l r inlined st7 = Done st' ->
        settled w0 st' (l, r) /\ sound_but (eq (l, r)) st st').
      { intros st6 st7 k S6 KQ U7 L. pose proof (sound_update (eq (l, r)) _ _ _ _ (or_introl eq_refl) U7) as S7.
        assert (S07 : sound_but (eq (l, r)) st st7) by (eapply sound_trans; [exact S04|eapply sound_trans; [exact S5|eapply sound_trans; [exact S6|exact S7]]]).
        destruct (IH inlined st7 st' w0) as (A & B).
        - eapply evolves_trans; [exact EV|exact (proj1 S07)].
        - apply update_inv in U7. destruct U7 as (x & _ & ->). exists (set_kind k x). cbn [s_compared with_compared set_kind r_kind]. split; [apply dget_dset_same|]. rewrite KQ. exact J.
        - exact L.
        - split; [exact A|]. eapply sound_trans; eauto. }
      destruct b.
      - destruct (update st5 (l, r) (mark_calls E fa fb)) as [st6| |] eqn:U6; cbn [obind] in Q; try discriminate.
        pose proof (sound_update (eq (l, r)) _ _ _ _ (or_introl eq_refl) U6) as S6.
        destruct (update (fold_left (fun st p => erase p st) inlined st6) (l, r) (set_kind EQUAL)) as [st7| |] eqn:U7; cbn [obind] in Q; try discriminate.
        eapply (FIN _ st7 EQUAL); [|reflexivity|exact U7|exact Q]. eapply sound_trans; [exact S6|]. apply sound_erase.
      - destruct (update st5 (l, r) (set_kind NOT_EQUAL)) as [st7| |] eqn:U7; cbn [obind] in Q; try discriminate.
        eapply (FIN st5 st7 NOT_EQUAL); [apply sound_refl|reflexivity|exact U7|exact Q]. }
    assert (P' : forall a b, match try_to_inline E (s_world st) (found E (s_world st) a l) with None => Crash | Some (ra, w) =>
                match try_to_inline E w (found E (s_world st) b r) with None => Crash | Some (rb, w) =>
       let st0 := with_world w st in
       let fa := called E (s_world st) (found E (s_world st) a l) in let fb := called E (s_world st) (found E (s_world st) b r) in
       let inlined := key (fa, fb) ++ inl in
       let st1 := if is_missing ra || is_missing rb then with_missing (s_missing st0 ++ [(option_map VFun fa, option_map VFun fb)]) st0 else st0 in
       if negb (is_inlined ra) && negb (is_inlined rb) then Done st1 else
       let st := with_world (e_simplify E (e_simplify E w l) r) st1 in
       obind (update st (l, r) (set_kind UNKNOWN)) (fun st =>
       obind (run E rec (l, r) (e_body E (s_world st) l r) st) (fun a0 =>
       let st := snd a0 in
       obind (update st (l, r) (fun x => x)) (fun st =>
       if fst a0 then
         obind (update st (l, r) (mark_calls E fa fb)) (fun st =>
         let st := fold_left (fun st p => erase p st) inlined st in
         obind (update st (l, r) (set_kind EQUAL)) (inline_loop E n rec l r inlined))
       else obind (update st (l, r) (set_kind NOT_EQUAL)) (inline_loop E n rec l r inlined)))) end end = Done st' -> settled w0 st' (l, r) /\ sound_but (eq (l, r)) st st').
    { intros a b D. destruct (try_to_inline E (s_world st) (found E (s_world st) a l)) as [[ra wa]|] eqn:TA; [|discriminate].
      destruct (try_to_inline E wa (found E (s_world st) b r)) as [[rb wb]|] eqn:TB; [|discriminate]. eapply P; [|exact D].
      eapply evolves_trans; eapply try_evolves; eassumption. }
    destruct (s_inline st) as [[ca|] [cb|]]; [apply (P' (Some ca) (Some cb)); exact Q|apply (P' (Some ca) None); exact Q|apply (P' None (Some cb)); exact Q|].
    injection Q as <-. split; [exact SE|apply sound_refl].
  Qed.
  Lemma compare_sound n : rec_sound (compare E n).
  Proof.
    induction n as [|n IH]; intros l r st st' Q; [discriminate|]. cbn [compare] in Q.
    assert (S0 : sound_but (eq (l, r)) st (emplace (l, r) st)).
    { unfold emplace. destruct (dmem (s_compared st) (l, r)); [apply sound_refl|]. split; [constructor|]. intros p x N G. cbn [s_compared with_compared] in G.
      rewrite dget_dset_other in G by auto. right. eauto. }
    assert (W0 : s_world (emplace (l, r) st) = s_world st) by (unfold emplace; destruct (dmem (s_compared st) (l, r)); reflexivity).
    remember (emplace (l, r) st) as st0 eqn:E0. clear E0.
    assert (FIN : forall st1 st2 k, sound_but (eq (l, r)) st0 st1 -> Justified E (s_world st) (l, r) k -> update st1 (l, r) (set_kind k) = Done st2 ->
      settled (s_world st) st2 (l, r) /\ sound_but (eq (l, r)) st st2).
    { intros st1 st2 k S1 J U. split; [|eapply sound_trans; [exact S0|eapply sound_trans; [exact S1|]]; eapply sound_update; [left; reflexivity|exact U]].
      apply update_inv in U. destruct U as (x & _ & ->). exists (set_kind k x). cbn [s_compared with_compared set_kind r_kind]. split; [apply dget_dset_same|exact J]. }
    assert (OUT : settled (s_world st) st' (l, r) /\ sound_but (eq (l, r)) st st' ->
      (forall p, p = (l, r) -> exists x, dget (s_compared st') p = Some x /\ Justified E (s_world st) p (r_kind x)) /\ sound_but (eq (l, r)) st st').
    { intros (A & B). split; [intros p ->; exact A|exact B]. }
    apply OUT. destruct (e_cached E l r) eqn:CA.
    - eapply FIN; [apply sound_refl| |exact Q]. constructor. exact CA.
    - rewrite W0 in Q. destruct (e_declared E (s_world st) l || e_declared E (s_world st) r) eqn:DE.
      + destruct (update st0 (l, r) (set_kind (declaration_verdict E l r))) as [st1| |] eqn:U; cbn [obind] in Q; try discriminate. injection Q as <-.
        destruct (FIN st0 st1 (declaration_verdict E l r)) as (A & B); [apply sound_refl| |exact U|split; [exact A|exact B]].
        eapply Justified_declared; [exact CA|constructor|apply orb_true_iff; exact DE|apply declaration_ok].
      + destruct (run E (compare E n) (l, r) (e_body E (s_world st) l r) st0) as [[b st1]| |] eqn:RQ; cbn [obind fst snd] in Q; try discriminate.
        destruct (run_sound _ (l, r) _ IH _ _ _ _ (eq (l, r)) eq_refl RQ) as (S1 & EN). rewrite W0 in EN.
        assert (J : Justified E (s_world st) (l, r) (if b then EQUAL else NOT_EQUAL)) by (apply Justified_compared with (s_world st); [exact CA|constructor|exact EN]).
        destruct (update st1 (l, r) (fun x => x)) as [st2| |] eqn:U2; cbn [obind] in Q; try discriminate.
        assert (S2 : sound_but (eq (l, r)) st0 st2) by (eapply sound_trans; [exact S1|eapply sound_update; [left; reflexivity|exact U2]]).
        destruct b; [eapply FIN; [exact S2|exact J|exact Q]|].
        destruct (update st2 (l, r) (set_kind NOT_EQUAL)) as [st3| |] eqn:U3; cbn [obind] in Q; try discriminate.
        destruct (FIN st2 st3 NOT_EQUAL S2 J U3) as (A & B).
        destruct (loop_sound (compare E n) l r IH CA n [] st3 st' (s_world st) (proj1 B) A Q) as (A' & B'). split; [exact A'|eapply sound_trans; eauto].
  Qed.

  (** ** One result for a pair *)
  Definition single (st : state) : Prop := NoDup (dkeys (s_compared st)).
  Lemma single_update (st st' : state) p f : update st p f = Done st' -> single st -> single st'.
  Proof. intros U S. apply update_inv in U. destruct U as (x & _ & ->). apply dset_NoDup. exact S. Qed.
  Lemma single_erase ps (st : state) : single st -> single (fold_left (fun st p => erase p st) ps st).
  Proof.
    revert st. induction ps as [|p ps IH]; intros st S; [exact S|]. cbn [fold_left]. apply IH. unfold single, erase in *. cbn [s_compared with_compared]. unfold dkeys in *.
    induction (s_compared st) as [|[q y] d ID]; [constructor|]. cbn [filter map fst] in *. inversion S as [|? ? N1 N2]; subst. destruct (negb (eqb q p)); [|auto].
    cbn [map fst]. constructor; [|auto]. intros I. apply N1. apply in_map_iff in I. destruct I as (e & Q & I). apply filter_In in I. apply in_map_iff. exists e. tauto.
  Qed.
  Definition rec_single (rec : F -> F -> state -> outcome state) : Prop := forall l r st st', rec l r st = Done st' -> single st -> single st'.
  Lemma run_single rec cur c : rec_single rec -> forall saved st b st', run_from E rec cur c saved st = Done (b, st') -> single st -> single st'.
  Proof.
    intros RS. induction c as [a|l r ll lr k IH|o k IH|l r k IH|q k IH|i k IH|i k IH]; intros saved st b st' Q S; cbn [run_from] in Q;
      try (eapply IH; [exact Q|exact S]; fail).
    - injection Q as <- <-. exact S.
    - destruct (global_values E rec cur l r ll lr st) as [[a st1]| |] eqn:G; cbn [obind fst snd] in Q; try discriminate. eapply IH; [exact Q|].
      rewrite global_values_eq in G. destruct (is_callees l r); cbn [obind] in G; [|injection G as _ <-; exact S].
      destruct (update st cur (add_calls E l r ll lr)) as [st2| |] eqn:U; cbn [obind] in G; try discriminate. apply single_update in U; [|exact S].
      destruct (dmem (s_compared st2) (l, r)); cbn [obind] in G; [injection G as _ <-; exact U|].
      destruct (rec l r st2) as [st3| |] eqn:RQ; cbn [obind] in G; try discriminate. injection G as _ <-. eapply RS; eassumption.
    - destruct (update st cur (add_object o)) as [st1| |] eqn:U; cbn [obind] in Q; try discriminate. eapply IH; [exact Q|]. eapply single_update; eassumption.
  Qed.
  Lemma loop_single rec l r : rec_single rec -> forall n inl st st', inline_loop E n rec l r inl st = Done st' -> single st -> single st'.
  Proof.
    intros RS n. induction n as [|n IH]; intros inl st st' Q S; [discriminate|]. cbn [inline_loop] in Q.
    assert (P : forall a b, match try_to_inline E (s_world st) (found E (s_world st) a l) with None => Crash | Some (ra, w) =>
                match try_to_inline E w (found E (s_world st) b r) with None => Crash | Some (rb, w) =>
       let st0 := with_world w st in
       let fa := called E (s_world st) (found E (s_world st) a l) in let fb := called E (s_world st) (found E (s_world st) b r) in
       let inlined := key (fa, fb) ++ inl in
       let st1 := if is_missing ra || is_missing rb then with_missing (s_missing st0 ++ [(option_map VFun fa, option_map VFun fb)]) st0 else st0 in
       if negb (is_inlined ra) && negb (is_inlined rb) then Done st1 else
       let st := with_world (e_simplify E (e_simplify E w l) r) st1 in
       obind (update st (l, r) (set_kind UNKNOWN)) (fun st =>
       obind (run E rec (l, r) (e_body E (s_world st) l r) st) (fun a0 =>
       let st := snd a0 in
       obind (update st (l, r) (fun x => x)) (fun st =>
       if fst a0 then
         obind (update st (l, r) (mark_calls E fa fb)) (fun st =>
         let st := fold_left (fun st p => erase p st) inlined st in
         obind (update st (l, r) (set_kind EQUAL)) (inline_loop E n rec l r inlined))
       else obind (update st (l, r) (set_kind NOT_EQUAL)) (inline_loop E n rec l r inlined)))) end end = Done st' -> single st').
    { clear Q. intros a b Q. destruct (try_to_inline E (s_world st) (found E (s_world st) a l)) as [[ra wa]|]; [|discriminate].
      destruct (try_to_inline E wa (found E (s_world st) b r)) as [[rb wb]|]; [|discriminate]. cbv zeta in Q.
      remember (if is_missing ra || is_missing rb then _ else with_world wb st) as st1 eqn:E1 in Q.
      assert (S1 : single st1) by (subst st1; destruct (is_missing ra || is_missing rb); exact S). clear E1.
      destruct (negb (is_inlined ra) && negb (is_inlined rb)); [injection Q as <-; exact S1|].
      match type of Q with obind (update ?s _ _) _ = _ => assert (S2 : single s) by exact S1; destruct (update s (l, r) (set_kind UNKNOWN)) as [st3| |] eqn:U3; cbn [obind] in Q; try discriminate; pose proof (single_update _ _ _ _ U3 S2) as S3 end.
      destruct (run E rec (l, r) (e_body E (s_world st3) l r) st3) as [[c st4]| |] eqn:RQ; cbn [obind fst snd] in Q; try discriminate.
      pose proof (run_single _ _ _ RS _ _ _ _ RQ S3) as S4.
      destruct (update st4 (l, r) (fun x => x)) as [st5| |] eqn:U5; cbn [obind] in Q; try discriminate. pose proof (single_update _ _ _ _ U5 S4) as S5.
      destruct c.
      - match type of Q with obind (update ?s ?p ?f) _ = _ => destruct (update s p f) as [st6| |] eqn:U6; cbn [obind] in Q; try discriminate; pose proof (single_update _ _ _ _ U6 S5) as S6 end.
        match type of Q with obind (update ?s ?p ?f) _ = _ => destruct (update s p f) as [st7| |] eqn:U7; cbn [obind] in Q; try discriminate end.
        eapply IH; [exact Q|]. eapply single_update; [exact U7|]. apply single_erase. exact S6.
      - destruct (update st5 (l, r) (set_kind NOT_EQUAL)) as [st7| |] eqn:U7; cbn [obind] in Q; try discriminate. eapply IH; [exact Q|]. eapply single_update; eassumption. }
    destruct (s_inline st) as [[ca|] [cb|]]; [apply (P (Some ca) (Some cb)); exact Q|apply (P (Some ca) None); exact Q|apply (P None (Some cb)); exact Q|].
    injection Q as <-. exact S.
  Qed.
  Lemma compare_single n : rec_single (compare E n).
  Proof.
    induction n as [|n IH]; intros l r st st' Q S; [discriminate|]. cbn [compare] in Q.
    assert (S0 : single (emplace (l, r) st)) by (unfold emplace; destruct (dmem (s_compared st) (l, r)); [exact S|apply dset_NoDup; exact S]).
    remember (emplace (l, r) st) as st0 eqn:E0. clear E0. destruct (e_cached E l r); [eapply single_update; eassumption|].
    destruct (e_declared E (s_world st0) l || e_declared E (s_world st0) r).
    - destruct (update st0 (l, r) (set_kind (declaration_verdict E l r))) as [st1| |] eqn:U; cbn [obind] in Q; try discriminate. injection Q as <-. exact (single_update _ _ _ _ U S0).
    - destruct (run E (compare E n) (l, r) (e_body E (s_world st0) l r) st0) as [[b st1]| |] eqn:RQ; cbn [obind fst snd] in Q; try discriminate.
      pose proof (run_single _ _ _ IH _ _ _ _ RQ S0) as S1. destruct (update st1 (l, r) (fun x => x)) as [st2| |] eqn:U2; cbn [obind] in Q; try discriminate.
      pose proof (single_update _ _ _ _ U2 S1) as S2. destruct b; [eapply single_update; eassumption|].
      destruct (update st2 (l, r) (set_kind NOT_EQUAL)) as [st3| |] eqn:U3; cbn [obind] in Q; try discriminate. eapply loop_single; [exact IH|exact Q|]. eapply single_update; eassumption.
  Qed.

  (** ** Suggestions *)
  Lemma hints_run rec cur c hs b : Hints c hs b -> forall saved st b' st' p hs0, run_from E rec cur c saved st = Done (b', st') ->
    After p hs0 (s_inline st) ->
    (forall i, match dget saved i with Some q => exists x y, hs0 = x ++ Saves i :: y /\ ~ In (Saves i) y /\ After p x q | None => ~ In (Saves i) hs0 end) ->
    b' = b /\ After p (hs0 ++ hs) (s_inline st').
  Proof.
    induction 1 as [b|o k hs b K IH|l r k hs b K IH|q k hs b K IH|i k hs b K IH|i k hs b K IH]; intros saved st b' st' p hs0 R A SV; cbn [run_from] in R.
    - injection R as <- <-. rewrite app_nil_r. auto.
    - destruct (update st cur (add_object o)) as [st1| |] eqn:U; cbn [obind] in R; try discriminate. apply (IH saved st1 b' st' p hs0 R); [|exact SV].
      unfold update in U. destruct (dget (s_compared st) cur); [|discriminate]. injection U as <-. exact A.
    - exact (IH _ _ _ _ p hs0 R A SV).
    - change (Suggests q :: hs) with ([Suggests q] ++ hs). rewrite app_assoc. apply (IH _ _ _ _ p _ R); [apply After_suggest|].
      intros j. specialize (SV j). destruct (dget saved j) as [x|].
      + destruct SV as (a & y & -> & N & AX). exists a, (y ++ [Suggests q]). split; [rewrite <- app_assoc; reflexivity|]. split; [|exact AX]. intros I. apply in_app_or in I. destruct I as [I|[I|[]]]; [exact (N I)|discriminate].
      + intros I. apply in_app_or in I. destruct I as [I|[I|[]]]; [exact (SV I)|discriminate].
    - change (Saves i :: hs) with ([@Saves C i] ++ hs). rewrite app_assoc. apply (IH _ _ _ _ p _ R); [apply After_save; exact A|].
      intros j. specialize (SV j). destruct (Nat.eq_dec i j) as [<-|N].
      + rewrite dget_dset_same. exists hs0, []. split; [reflexivity|]. split; [intros []|exact A].
      + rewrite dget_dset_other by (intros Q; apply N; congruence). destruct (dget saved j) as [x|].
        * destruct SV as (a & y & -> & NI' & AX). exists a, (y ++ [Saves i]). split; [rewrite <- app_assoc; reflexivity|]. split; [|exact AX]. intros I. apply in_app_or in I. destruct I as [I|[I|[]]]; [exact (NI' I)|congruence].
        * intros I. apply in_app_or in I. destruct I as [I|[I|[]]]; [exact (SV I)|congruence].
    - change (Restores i :: hs) with ([@Restores C i] ++ hs). rewrite app_assoc. apply (IH _ _ _ _ p _ R).
      + cbn [s_inline with_inline]. specialize (SV i). destruct (dget saved i) as [x|].
        * destruct SV as (a & y & -> & N & AX). rewrite <- app_assoc. exact (After_restore p a y i x AX N).
        * apply After_unsaved. exact SV.
      + intros j. specialize (SV j). destruct (dget saved j) as [x|].
        * destruct SV as (a & y & -> & N & AX). exists a, (y ++ [Restores i]). split; [rewrite <- app_assoc; reflexivity|]. split; [|exact AX]. intros I. apply in_app_or in I. destruct I as [I|[I|[]]]; [exact (N I)|discriminate].
        * intros I. apply in_app_or in I. destruct I as [I|[I|[]]]; [exact (SV I)|discriminate].
  Qed.
End Proofs.
