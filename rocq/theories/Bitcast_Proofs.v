(** * Proofs about the separation of casts from calls *)
From Coq Require Import String Arith Bool Lia List.
From Verif Require Import Bitcast_Model Bitcast_Spec.
Import ListNotations.
Open Scope list_scope.

Lemma ty_eqb_spec a b : ty_eqb a b = true <-> a = b.
Proof.
  destruct a, b; cbn; try (split; [discriminate|congruence]); try tauto.
  - rewrite andb_true_iff, Nat.eqb_eq, eqb_true_iff. split; [intros (-> & ->); reflexivity|intros [= -> ->]; auto].
  - rewrite andb_true_iff, !Nat.eqb_eq. split; [intros (-> & ->); reflexivity|intros [= -> ->]; auto].
  - rewrite Nat.eqb_eq. split; congruence.
Qed.
Lemma ty_eqb_false a b : ty_eqb a b = false <-> a <> b.
Proof. rewrite <- ty_eqb_spec. destruct (ty_eqb a b); split; congruence. Qed.
Lemma value_eqb_spec a b : value_eqb a b = true <-> a = b.
Proof.
  destruct a, b; cbn; try (split; [discriminate|congruence]); try (rewrite Nat.eqb_eq; split; congruence).
  rewrite andb_true_iff, !Nat.eqb_eq. split; [intros (-> & ->); reflexivity|intros [= -> ->]; auto].
Qed.
Lemma value_eqb_refl a : value_eqb a a = true.
Proof. apply value_eqb_spec. reflexivity. Qed.
Lemma value_eqb_neq a b : a <> b -> value_eqb a b = false.
Proof. intros N. destruct (value_eqb a b) eqn:E; [apply value_eqb_spec in E; congruence|reflexivity]. Qed.

Section Pass.
  Variable params : nat -> list ty.
  Variable returns : nat -> ty.
  Notation separated := (separated params returns).
  Notation replaced := (replaced params returns).
  Notation rename := (rename params returns).
  Lemma separated_iff t f args : separated t f args = true <-> ~ Stays params returns t f args.
  Proof.
    unfold Bitcast_Model.separated, Stays. rewrite andb_true_iff, !negb_true_iff, Nat.ltb_ge, andb_false_iff, negb_false_iff, ty_eqb_spec, ty_eqb_false. split.
    - intros (L & D) [S|(R & T)]; [lia|]. destruct D; congruence.
    - intros N. split; [destruct (le_lt_dec (length (params f)) (length args)); [assumption|exfalso; apply N; auto]|].
      destruct (ty_eqb (returns f) Void) eqn:R; [|left; apply ty_eqb_false; exact R]. right. destruct (ty_eqb t Void) eqn:T; [apply ty_eqb_spec; exact T|].
      exfalso. apply N. right. apply ty_eqb_spec in R. apply ty_eqb_false in T. auto.
  Qed.
  Lemma separated_rename t f args g : separated t f (map (fun a => (g (fst a), snd a)) args) = separated t f args.
  Proof. unfold Bitcast_Model.separated. rewrite map_length. reflexivity. Qed.
  Lemma replaced_none l i : ~ In (Result i) (map result_of l) -> replaced l i = None.
  Proof.
    induction l as [|x l IH]; intros N; [reflexivity|]. cbn [map In] in N. assert (IH' : replaced l i = None) by (apply IH; tauto).
    destruct x as [[j| | | |] t [f|f|v] args p|r a b v|r c ops]; try exact IH'. cbn [Bitcast_Model.replaced]. destruct (Nat.eqb_spec i j) as [->|_]; [exfalso; apply N; left; reflexivity|exact IH'].
  Qed.
  Lemma replaced_this l x i : NoDup (map result_of l) -> In x l -> result_of x = Result i ->
    replaced l i = match x with Call _ t (Casted f) args _ => if separated t f args then Some (replacement returns i t f) else None | _ => None end.
  Proof.
    induction l as [|y l IH]; intros ND I R; [destruct I|]. cbn [map] in ND. inversion ND as [|? ? N ND']; subst. destruct I as [->|I].
    - assert (E : replaced l i = None) by (apply replaced_none; rewrite R in N; exact N).
      destruct x as [r t [f|f|v] args p|r a b v|r c ops]; cbn [result_of] in R; subst; cbn [Bitcast_Model.replaced]; try exact E. rewrite Nat.eqb_refl. cbn [andb]. destruct (separated t f args); [reflexivity|exact E].
    - specialize (IH ND' I R). assert (D : result_of y <> Result i) by (intros Q; apply N; rewrite Q, <- R; apply in_map; exact I).
      destruct y as [[j| | | |] t [f|f|v] args p|r a b v|r c ops]; try exact IH. cbn [Bitcast_Model.replaced]. destruct (Nat.eqb_spec i j) as [->|_]; [exfalso; apply D; reflexivity|exact IH].
  Qed.
  Lemma replaced_some l i v : replaced l i = Some v -> v = New_call i \/ v = New_cast i.
  Proof.
    induction l as [|x l IH]; [discriminate|]. destruct x as [[j| | | |] t [f|f|w] args p|r a b w|r c ops]; try exact IH. cbn [Bitcast_Model.replaced]. destruct (Nat.eqb i j && separated t f args); [|exact IH].
    intros [= <-]. unfold replacement. destruct (needs_cast returns t f); auto.
  Qed.
  Definition not_arg (v : value) : Prop := match v with New_arg _ _ => False | _ => True end.
  Lemma rename_not_arg l v : Original v -> not_arg (rename l v).
  Proof. destruct v; cbn; try tauto. intros _. destruct (replaced l i) eqn:E; [|exact I]. destruct (replaced_some _ _ _ E) as [->| ->]; exact I. Qed.

  Section Run.
    Variable bits : Type.
    Variable const : nat -> bits.
    Variable gives : list nat -> list (event bits) -> event bits -> bits.
    Variable leads : nat -> list bits -> option nat.
    Notation value_of := (value_of bits const).
    Notation step := (step bits const gives).
    Notation run := (run bits const gives leads).
    Lemma value_write s r b v : v <> r -> value_of (write bits s r b) v = value_of s v.
    Proof. intros N. destruct v; try reflexivity; cbn [Bitcast_Spec.value_of]; unfold write; rewrite value_eqb_neq by exact N; reflexivity. Qed.
    Lemma value_written s r b : (forall c, r <> Const c) -> value_of (write bits s r b) r = b.
    Proof. intros N. destruct r; cbn [Bitcast_Spec.value_of]; unfold write; try (rewrite value_eqb_refl; reflexivity). exfalso. eapply N; reflexivity. Qed.
    Lemma convert_runs path i : forall ps k args s h, Forall (fun a => not_arg (fst a)) args ->
      exists s', fold_left (step path) (fst (convert i k ps args)) (s, h) = (s', h) /\
        map (fun a => value_of s' (fst a)) (snd (convert i k ps args)) = map (fun a => value_of s (fst a)) args /\
        forall v, (forall m, k <= m -> v <> New_arg i m) -> value_of s' v = value_of s v.
    Proof.
      induction ps as [|p ps IH]; intros k args s h A; [exists s; destruct args as [|[v t] args]; cbn; auto|]. destruct args as [|[v t] args]; [exists s; cbn; auto|].
      inversion A as [|? ? A1 A2]; subst. cbn [convert]. destruct (convert i (S k) ps args) as [casts args'] eqn:E. destruct (ty_eqb t p).
      - destruct (IH (S k) args s h A2) as (s' & F & M & K). rewrite E in F, M. cbn [fst snd] in *. exists s'. split; [exact F|]. split.
        + cbn [map fst]. rewrite M. f_equal. apply K. intros m L Q. rewrite Q in A1. exact A1.
        + intros w W. apply K. intros m L. apply W. lia.
      - cbn [fst snd fold_left Bitcast_Spec.step]. destruct (IH (S k) args (write bits s (New_arg i k) (value_of s v)) h A2) as (s' & F & M & K). rewrite E in F, M. cbn [fst snd] in *. exists s'. split; [exact F|]. split.
        + cbn [map fst]. f_equal.
          * rewrite K by (intros m L; intros [= Q]; lia). apply value_written. discriminate.
          * rewrite M. apply map_ext_in. intros a I. apply value_write. rewrite Forall_forall in A2. intros Q. specialize (A2 a I). rewrite Q in A2. exact A2.
        + intros w W. rewrite K by (intros m L; apply W; lia). apply value_write. apply W. lia.
    Qed.
    (** The stores of the function and of what the pass makes of it *)
    Variable l : list inst.
    Hypothesis ND : NoDup (map result_of l).
    Definition agree (s s' : store bits) : Prop := forall v, Original v -> value_of s v = value_of s' (rename l v).
    Lemma agree_map s s' ops : agree s s' -> Forall Original ops -> map (value_of s) ops = map (value_of s') (map (rename l) ops).
    Proof. intros A O. rewrite map_map. apply map_ext_in. intros v I. apply A. rewrite Forall_forall in O. apply O. exact I. Qed.
    Lemma agree_args s s' args : agree s s' -> Forall Original (map fst args) ->
      map (fun a : value * ty => value_of s (fst a)) args = map (fun a => value_of s' (fst a)) (map (fun a => (rename l (fst a), snd a)) args).
    Proof. intros A O. rewrite map_map. apply map_ext_in. intros a I. cbn [fst]. apply A. rewrite Forall_forall in O. apply O. apply in_map. exact I. Qed.
    Lemma agree_plain s s' i b : replaced l i = None -> agree s s' -> agree (write bits s (Result i) b) (write bits s' (Result i) b).
    Proof.
      intros R A v O. destruct v as [j| | | |c]; try destruct O.
      - destruct (Nat.eq_dec i j) as [<-|D].
        + cbn [Bitcast_Model.rename]. rewrite R. rewrite !value_written by discriminate. reflexivity.
        + rewrite value_write by congruence. rewrite (A (Result j) I). symmetry. apply value_write. cbn [Bitcast_Model.rename]. destruct (replaced l j) eqn:E; [destruct (replaced_some _ _ _ E) as [->| ->]; discriminate|congruence].
      - reflexivity.
    Qed.
    Lemma step_agree path x s s' h : In x l -> (exists i, result_of x = Result i) -> Forall Original (operands x) -> agree s s' ->
      exists s2 s2' h2, step path (s, h) x = (s2, h2) /\ fold_left (step path) (rewrite params returns l x) (s', h) = (s2', h2) /\ agree s2 s2'.
    Proof.
      intros IN (i & R) O A. pose proof (replaced_this l x i ND IN R) as RE.
      destruct x as [r t c args p|r a b v|r c ops]; cbn [result_of] in R; subst r; cbn [operands] in O.
      - destruct c as [f|f|v].
        + cbn [rewrite fold_left Bitcast_Spec.step event_of]. rewrite <- (agree_args s s' args A O). eexists _, _, _. split; [reflexivity|]. split; [reflexivity|]. apply agree_plain; assumption.
        + cbn [rewrite]. rewrite separated_rename. destruct (separated t f args) eqn:SP.
          * unfold separate. destruct (convert_runs path i (params f) 0 (map (fun a => (rename l (fst a), snd a)) args) s' h) as (s1 & F & M & K).
            { apply Forall_forall. intros a I. apply in_map_iff in I as (a0 & <- & I). cbn [fst]. apply rename_not_arg. rewrite Forall_forall in O. apply O. apply in_map. exact I. }
            destruct (convert i 0 (params f) (map (fun a => (rename l (fst a), snd a)) args)) as [casts args']. cbn [fst snd] in F, M. rewrite fold_left_app, F. cbn [fold_left Bitcast_Spec.step event_of].
            rewrite M, <- (agree_args s s' args A O).
            assert (KK : forall v b s2, (v = New_call i \/ v = New_cast i) -> (forall w, w <> Result i -> Original w -> value_of s w = value_of s2 (rename l w)) -> forall w, w <> Result i -> Original w -> value_of s w = value_of (write bits s2 v b) (rename l w)).
            { intros v b s2 V Q w N OW. rewrite (Q w N OW). symmetry. apply value_write. destruct w as [j| | | |c]; try destruct OW.
              - cbn [Bitcast_Model.rename]. destruct (replaced l j) eqn:E; [destruct (replaced_some _ _ _ E) as [->| ->]; destruct V as [->| ->]; congruence|destruct V as [->| ->]; discriminate].
              - destruct V as [->| ->]; discriminate. }
            assert (Q1 : forall w, w <> Result i -> Original w -> value_of s w = value_of s1 (rename l w)).
            { intros w _ OW. rewrite (A w OW). symmetry. apply K. intros m _ Q. pose proof (rename_not_arg l w OW) as N. rewrite Q in N. exact N. }
            unfold replacement in RE. destruct (needs_cast returns t f).
            { cbn [fold_left Bitcast_Spec.step]. eexists _, _, _. split; [reflexivity|]. split; [reflexivity|]. rewrite value_written by discriminate. intros w OW. destruct (value_eqb w (Result i)) eqn:W.
              - apply value_eqb_spec in W. subst w. cbn [Bitcast_Model.rename]. rewrite RE. rewrite !value_written by discriminate. reflexivity.
              - assert (W' : w <> Result i) by (intros Q; apply value_eqb_spec in Q; congruence). rewrite value_write by exact W'. apply KK; [auto| |exact W'|exact OW]. intros w' W2 O2. apply KK; auto. }
            { cbn [fold_left]. eexists _, _, _. split; [reflexivity|]. split; [reflexivity|]. intros w OW. destruct (value_eqb w (Result i)) eqn:W.
              - apply value_eqb_spec in W. subst w. cbn [Bitcast_Model.rename]. rewrite RE. rewrite !value_written by discriminate. reflexivity.
              - assert (W' : w <> Result i) by (intros Q; apply value_eqb_spec in Q; congruence). rewrite value_write by exact W'. apply KK; auto. }
          * cbn [fold_left Bitcast_Spec.step event_of]. rewrite <- (agree_args s s' args A O). eexists _, _, _. split; [reflexivity|]. split; [reflexivity|]. apply agree_plain; assumption.
        + inversion O as [|? ? O1 O2]; subst. cbn [rewrite fold_left Bitcast_Spec.step event_of]. rewrite <- (agree_args s s' args A O2), <- (A v O1). eexists _, _, _. split; [reflexivity|]. split; [reflexivity|]. apply agree_plain; assumption.
      - inversion O as [|? ? O1 O2]; subst. cbn [rewrite fold_left Bitcast_Spec.step]. rewrite <- (A v O1). eexists _, _, _. split; [reflexivity|]. split; [reflexivity|]. apply agree_plain; assumption.
      - cbn [rewrite fold_left Bitcast_Spec.step event_of]. rewrite <- (agree_map s s' ops A O). eexists _, _, _. split; [reflexivity|]. split; [reflexivity|]. apply agree_plain; assumption.
    Qed.
    Lemma steps_agree path : forall xs s s' h, (forall x, In x xs -> In x l /\ (exists i, result_of x = Result i) /\ Forall Original (operands x)) -> agree s s' ->
      exists s2 s2' h2, fold_left (step path) xs (s, h) = (s2, h2) /\ fold_left (step path) (flat_map (rewrite params returns l) xs) (s', h) = (s2', h2) /\ agree s2 s2'.
    Proof.
      induction xs as [|x xs IH]; intros s s' h OK A; [exists s, s', h; cbn; auto|]. destruct (OK x (or_introl eq_refl)) as (O1 & O2 & O3).
      destruct (step_agree path x s s' h O1 O2 O3 A) as (s1 & s1' & h1 & E1 & E2 & A1). destruct (IH s1 s1' h1 (fun y I => OK y (or_intror I)) A1) as (s2 & s2' & h2 & E3 & E4 & A2).
      exists s2, s2', h2. cbn [fold_left flat_map]. rewrite E1, fold_left_app, E2. auto.
    Qed.
  End Run.

  (** ** Casts *)
  Lemma convert_casts i : forall ps k args r a b v, In (Cast r a b v) (fst (convert i k ps args)) ->
    exists j w, nth_error args j = Some (w, a) /\ nth_error ps j = Some b /\ a <> b.
  Proof.
    induction ps as [|p ps IH]; intros k args r a b v I; [destruct args as [|[? ?] ?]; destruct I|]. destruct args as [|[w t] args]; [destruct I|]. cbn [convert] in I.
    specialize (IH (S k) args r a b v). destruct (convert i (S k) ps args) as [casts args']. cbn [fst] in IH. destruct (ty_eqb t p) eqn:E; cbn [fst] in I.
    - destruct (IH I) as (j & u & J). exists (S j), u. exact J.
    - destruct I as [Q|I]; [injection Q as _ -> -> _; exists 0, w; apply ty_eqb_false in E; auto|]. destruct (IH I) as (j & u & J). exists (S j), u. exact J.
  Qed.
  Lemma convert_only_casts i : forall ps k args x, In x (fst (convert i k ps args)) -> exists r a b v, x = Cast r a b v.
  Proof.
    induction ps as [|p ps IH]; intros k args x I; [destruct args as [|[? ?] ?]; destruct I|]. destruct args as [|[w t] args]; [destruct I|]. cbn [convert] in I.
    specialize (IH (S k) args x). destruct (convert i (S k) ps args) as [casts args']. cbn [fst] in IH. destruct (ty_eqb t p); cbn [fst] in I; [auto|]. destruct I as [<-|I]; eauto.
  Qed.
  Lemma convert_types i : forall ps k args, length ps <= length args -> map snd (snd (convert i k ps args)) = ps ++ skipn (length ps) (map snd args).
  Proof.
    induction ps as [|p ps IH]; intros k args L; [destruct args as [|[? ?] ?]; reflexivity|]. destruct args as [|[w t] args]; [cbn in L; lia|]. cbn [convert length] in *.
    specialize (IH (S k) args ltac:(lia)). destruct (convert i (S k) ps args) as [casts args']. cbn [snd] in IH. destruct (ty_eqb t p) eqn:E; cbn [snd map app length skipn]; rewrite IH; [apply ty_eqb_spec in E; subst; reflexivity|reflexivity].
  Qed.
End Pass.
