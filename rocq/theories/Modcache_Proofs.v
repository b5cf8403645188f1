(** * Proofs about the preparation of modules and modules kept in memory *)
From Coq Require Import String Arith Bool Lia List.
From Verif Require Import PyBase Modcache_Model Modcache_Spec.
Import ListNotations.
Open Scope list_scope.

Definition is_some {A} (x : option A) : bool := match x with Some _ => true | None => false end.

Section Proofs.
  Variables body disk text : Type.
  Variable old_llvm : bool.
  Variable functions : body -> list string.
  Variable has_var : body -> string -> bool.
  Variable on_function : pass -> string -> body -> body.
  Variable on_module : pass -> body -> body.
  Variable slice : string -> string -> body -> body.
  Variable parse : disk -> string -> option (module body).
  Variable simplify : bool -> body -> body -> string -> string -> option (text * body * body).
  Variable p : patterns.

  Notation passes := (run_passes body old_llvm functions on_function on_module p).
  Notation preprocess := (preprocess body old_llvm functions on_function on_module slice p).
  Notation pac := (process_and_compare body disk text old_llvm functions has_var on_function on_module slice simplify p).
  Notation load := (load body disk old_llvm functions on_function on_module slice parse p).
  Notation par := (parse_and_run body disk text old_llvm functions has_var on_function on_module slice parse simplify p).
  Notation run_simpll ffi := (run_simpll body disk text old_llvm functions has_var on_function on_module slice parse simplify ffi p).
  Notation run_from ffi := (run_from body disk text old_llvm functions has_var on_function on_module slice parse simplify ffi p).
  Notation session ffi := (session body disk text old_llvm functions has_var on_function on_module slice parse simplify ffi p).
  Notation tool := (tool body).
  Notation find_main := (find_main body functions).
  Notation find_var := (find_var body has_var).
  Notation cached := (cached body).

  Lemma nth_store_same (h : list (module body)) : forall a m x, nth_error h a = Some x -> nth_error (store body h a m) a = Some m.
  Proof. induction h as [|y h IH]; intros [|a] m x; simpl; try discriminate; eauto. Qed.
  Lemma nth_store_other (h : list (module body)) : forall a b m, a <> b -> nth_error (store body h a m) b = nth_error h b.
  Proof.
    induction h as [|y h IH]; intros [|a] [|b] m N; simpl; auto; lia.
  Qed.

  (** The preparation of a module that is to be kept. *)
  Definition prep (m : module body) : module body := if marked m then m else mkModule (passes (code m)) true.
  Lemma preprocess_none m : preprocess None None m = Some (prep m).
  Proof. unfold Modcache_Model.preprocess, prep. destruct (marked m); reflexivity. Qed.
  Lemma prep_marked m : marked (prep m) = true.
  Proof. unfold prep. destruct (marked m) eqn:E; auto. Qed.

  (** The text of a comparison of two modules, or of a module object with itself. *)
  Definition apart (ml mr : module body) (q : request disk) : option text :=
    match preprocess (find_main (code ml) (r_fun1 q)) (find_var (code ml) (r_var q)) ml,
          preprocess (find_main (code mr) (r_fun2 q)) (find_var (code mr) (r_var q)) mr with
    | Some a, Some b => match simplify false (code a) (code b) (r_fun1 q) (r_fun2 q) with Some (t, _, _) => Some t | None => None end
    | _, _ => None
    end.
  Definition same (m : module body) (q : request disk) : option text :=
    match preprocess (find_main (code m) (r_fun1 q)) (find_var (code m) (r_var q)) m with
    | None => None
    | Some m' =>
      match preprocess (find_main (code m) (r_fun2 q)) (find_var (code m) (r_var q)) m' with
      | None => None
      | Some m' => match simplify true (code m') (code m') (r_fun1 q) (r_fun2 q) with Some (t, _, _) => Some t | None => None end
      end
    end.

  Lemma pac_apart h l r q ml mr :
    nth_error h l = Some ml -> nth_error h r = Some mr -> l <> r ->
    option_map fst (pac h l r q) = apart ml mr q.
  Proof.
    intros Hl Hr N. unfold Modcache_Model.process_and_compare, apart. rewrite Hl, Hr.
    destruct (preprocess (find_main (code ml) _) _ ml) as [a|] eqn:E1; [|reflexivity].
    rewrite (nth_store_other h l r a N), Hr.
    destruct (preprocess (find_main (code mr) _) _ mr) as [b|] eqn:E2; [|reflexivity].
    rewrite (nth_store_other (store body h l a) r l b) by auto.
    rewrite (nth_store_same h l a ml Hl).
    rewrite (nth_store_same (store body h l a) r b mr) by (rewrite nth_store_other; auto).
    rewrite (proj2 (Nat.eqb_neq l r) N).
    destruct (simplify false _ _ _ _) as [[[t x] y]|]; reflexivity.
  Qed.
  Lemma pac_same h l q m :
    nth_error h l = Some m -> option_map fst (pac h l l q) = same m q.
  Proof.
    intros Hl. unfold Modcache_Model.process_and_compare, same. rewrite Hl.
    destruct (preprocess (find_main (code m) (r_fun1 q)) _ m) as [a|] eqn:E1; [|reflexivity].
    rewrite (nth_store_same h l a m Hl).
    destruct (preprocess (find_main (code m) (r_fun2 q)) _ a) as [b|] eqn:E2; [|reflexivity].
    rewrite (nth_store_same (store body h l a) l b a) by (apply (nth_store_same h l a m Hl)).
    rewrite Nat.eqb_refl.
    destruct (simplify true _ _ _ _) as [[[t x] y]|]; reflexivity.
  Qed.
  Lemma par_apart q :
    par q = match parse (r_disk q) (r_first q), parse (r_disk q) (r_second q) with
            | Some ml, Some mr => apart ml mr q | _, _ => None end.
  Proof.
    unfold Modcache_Model.parse_and_run.
    destruct (parse _ (r_first q)) as [ml|]; [|reflexivity].
    destruct (parse _ (r_second q)) as [mr|]; [|reflexivity].
    rewrite <- (pac_apart [ml; mr] 0 1 q ml mr eq_refl eq_refl) by discriminate.
    destruct (pac _ 0 1 q) as [[t h]|]; reflexivity.
  Qed.

  (** The outcome of a comparison, from the modules in the files alone. *)
  Definition opt_out (bad : outcome text) (x : option text) : outcome text :=
    match x with Some t => Answer t | None => bad end.
  Definition pure (ffi : bool) (tc : list string) (q : request disk) : outcome text :=
    if ffi then
      if mem (r_first q) tc && negb (is_some (parse (r_disk q) (r_first q))) then Invalid
      else if mem (r_second q) tc && negb (is_some (parse (r_disk q) (r_second q))) then Invalid
      else if mem (r_first q) tc && mem (r_second q) tc then
        match parse (r_disk q) (r_first q), parse (r_disk q) (r_second q) with
        | Some ml, Some mr =>
          opt_out Failed (if String.eqb (r_first q) (r_second q) then same (prep ml) q else apart (prep ml) (prep mr) q)
        | _, _ => Failed
        end
      else opt_out Ended (par q)
    else opt_out Failed (par q).

  (** What holds of the tool between comparisons. *)
  Definition Inv (tc : list string) (d : disk) (t : tool) : Prop :=
    (forall path a, cached t path = Some a ->
       In path tc /\ exists m, parse d path = Some m /\ nth_error (t_memory body t) a = Some (prep m)) /\
    (forall path path' a, cached t path = Some a -> cached t path' = Some a -> path = path').

  Lemma Inv_start tc d : Inv tc d (start body).
  Proof. split; intros; discriminate. Qed.
  Lemma Inv_disk tc d d' t : (forall path, In path tc -> parse d path = parse d' path) -> Inv tc d t -> Inv tc d' t.
  Proof.
    intros S [I1 I2]. split; [|exact I2]. intros path a E. destruct (I1 path a E) as (H & m & Hm & Hn).
    split; [exact H|]. exists m. rewrite <- (S path H). auto.
  Qed.

  Lemma load_spec tc d t path :
    Inv tc d t ->
    match load tc d t path with
    | None => In path tc /\ parse d path = None
    | Some t' => Inv tc d t' /\
                 (In path tc -> exists a, cached t' path = Some a) /\
                 (~ In path tc -> cached t' path = None) /\
                 (forall path' a, cached t path' = Some a -> cached t' path' = Some a)
    end.
  Proof.
    intros [I1 I2]. unfold Modcache_Model.load.
    destruct (cached t path) as [a|] eqn:E.
    - split; [split; auto|]. destruct (I1 path a E) as (H & _).
      split; [intros _; exists a; exact E|]. split; [intros N; contradiction|auto].
    - destruct (mem path tc) eqn:M.
      + apply mem_In in M. destruct (parse d path) as [m|] eqn:P; [|auto].
        rewrite preprocess_none.
        assert (NB : forall path' b, cached t path' = Some b -> b < length (t_memory body t)).
        { intros path' b H. destruct (I1 path' b H) as (_ & m' & _ & Hn).
          apply nth_error_Some. rewrite Hn. discriminate. }
        assert (C : forall path', Modcache_Model.cached body
                  (mkTool body (t_memory body t ++ [prep m]) (dset (t_cache body t) path (length (t_memory body t)))) path' =
                  if String.eqb path' path then Some (length (t_memory body t)) else cached t path').
        { intros path'. unfold Modcache_Model.cached; simpl. rewrite dget_dset. reflexivity. }
        split; [split|split; [|split]].
        * intros path' b. rewrite C. destruct (String.eqb_spec path' path) as [->|N].
          -- intros [= <-]. split; [exact M|]. exists m. split; [exact P|]. simpl.
             rewrite nth_error_app2, Nat.sub_diag by lia. reflexivity.
          -- intros H. destruct (I1 path' b H) as (H1 & m' & H2 & H3). split; [exact H1|].
             exists m'. split; [exact H2|]. simpl. rewrite nth_error_app1; [exact H3|apply (NB _ _ H)].
        * intros path1 path2 b. rewrite !C.
          destruct (String.eqb_spec path1 path) as [->|N1], (String.eqb_spec path2 path) as [->|N2]; auto.
          -- intros [= <-] H. apply NB in H. lia.
          -- intros H [= <-]. apply NB in H. lia.
          -- apply I2.
        * intros _. exists (length (t_memory body t)). rewrite C, String.eqb_refl. reflexivity.
        * intros N; contradiction.
        * intros path' b H. rewrite C. destruct (String.eqb_spec path' path) as [->|N]; [congruence|exact H].
      + split; [split; auto|]. split; [intros H; apply mem_In in H; congruence|]. split; auto.
  Qed.

  Lemma mem_cached tc d t path a : Inv tc d t -> cached t path = Some a -> mem path tc = true.
  Proof. intros [I1 _] E. apply mem_In. apply (I1 path a E). Qed.

  Lemma run_spec ffi tc t q :
    Inv tc (r_disk q) t ->
    fst (run_simpll ffi tc t q) = pure ffi tc q /\ Inv tc (r_disk q) (snd (run_simpll ffi tc t q)).
  Proof.
    intros I. cbv beta. unfold Modcache_Model.run_simpll, pure. destruct ffi; [|split; [destruct (par q); reflexivity|exact I]].
    pose proof (load_spec tc (r_disk q) t (r_first q) I) as L1.
    destruct (load tc (r_disk q) t (r_first q)) as [t1|].
    2:{ destruct L1 as (H & P). apply mem_In in H. rewrite H, P. simpl. split; [reflexivity|exact I]. }
    destruct L1 as (I1 & H1 & N1 & _).
    pose proof (load_spec tc (r_disk q) t1 (r_second q) I1) as L2.
    assert (F1 : mem (r_first q) tc && negb (is_some (parse (r_disk q) (r_first q))) = false).
    { destruct (mem (r_first q) tc) eqn:M; [|reflexivity]. apply mem_In in M. destruct (H1 M) as (a & Ha).
      destruct I1 as [I1 _]. destruct (I1 _ _ Ha) as (_ & m & -> & _). reflexivity. }
    rewrite F1.
    destruct (load tc (r_disk q) t1 (r_second q)) as [t2|].
    2:{ destruct L2 as (H & P). apply mem_In in H. rewrite H, P. simpl. split; [reflexivity|exact I1]. }
    destruct L2 as (I2 & H2 & N2 & K2).
    assert (F2 : mem (r_second q) tc && negb (is_some (parse (r_disk q) (r_second q))) = false).
    { destruct (mem (r_second q) tc) eqn:M; [|reflexivity]. apply mem_In in M. destruct (H2 M) as (a & Ha).
      destruct I2 as [I2 _]. destruct (I2 _ _ Ha) as (_ & m & -> & _). reflexivity. }
    rewrite F2.
    destruct (cached t2 (r_first q)) as [l|] eqn:C1.
    - rewrite (mem_cached tc _ t2 _ l I2 C1).
      destruct (cached t2 (r_second q)) as [r|] eqn:C2.
      + rewrite (mem_cached tc _ t2 _ r I2 C2). cbn [andb fst snd]. split; [|exact I2].
        destruct I2 as [J1 J2].
        destruct (J1 _ _ C1) as (_ & ml & P1 & M1), (J1 _ _ C2) as (_ & mr & P2 & M2).
        rewrite P1, P2.
        destruct (String.eqb_spec (r_first q) (r_second q)) as [E|N].
        * rewrite E in C1, P1. rewrite C1 in C2. injection C2 as ->. rewrite P1 in P2. injection P2 as ->.
          rewrite <- (pac_same (t_memory body t2) r q (prep mr) M2).
          destruct (pac _ r r q) as [[x h]|]; reflexivity.
        * rewrite <- (pac_apart (t_memory body t2) l r q (prep ml) (prep mr) M1 M2).
          -- destruct (pac _ l r q) as [[x h]|]; reflexivity.
          -- intros ->. apply N. apply (J2 _ _ r C1 C2).
      + destruct (mem (r_second q) tc) eqn:M; [apply mem_In in M; destruct (H2 M); congruence|].
        cbn [andb fst snd]. split; [destruct (par q); reflexivity|exact I2].
    - destruct (mem (r_first q) tc) eqn:M; [apply mem_In in M; destruct (H1 M) as (a & Ha); rewrite (K2 _ _ Ha) in C1; discriminate|].
      cbn [andb fst snd]. split; [destruct (par q); reflexivity|exact I2].
  Qed.

  (** Outcomes up to the end of the process. *)
  Fixpoint until_end (os : list (outcome text)) : list (outcome text) :=
    match os with [] => [] | o :: os => o :: match o with Ended => [] | _ => until_end os end end.

  Lemma run_from_spec ffi tc : forall qs d t,
    Inv tc d t -> (forall q path, In q qs -> In path tc -> parse (r_disk q) path = parse d path) ->
    run_from ffi tc t qs = until_end (map (pure ffi tc) qs).
  Proof.
    induction qs as [|q qs IH]; intros d t I S; [reflexivity|].
    assert (Iq : Inv tc (r_disk q) t).
    { apply (Inv_disk tc d); [|exact I]. intros path H. symmetry. apply S; [left; reflexivity|exact H]. }
    destruct (run_spec ffi tc t q Iq) as (E & I').
    cbn [Modcache_Model.run_from map until_end]. cbv beta in E, I'.
    destruct (Modcache_Model.run_simpll _ _ _ _ _ _ _ _ _ _ _ _ _ _ _ _) as [o t']. cbn [fst snd] in E, I'. subst o. f_equal.
    assert (R : run_from ffi tc t' qs = until_end (map (pure ffi tc) qs)).
    { apply (IH (r_disk q) t' I'). intros q' path H H'. rewrite (S q'), (S q); simpl; auto. }
    destruct (pure ffi tc q); auto.
  Qed.
  Lemma session_spec ffi tc qs :
    stable parse tc qs -> session ffi tc qs = until_end (map (pure ffi tc) qs).
  Proof.
    intros S. destruct qs as [|q qs]; [reflexivity|].
    apply (run_from_spec ffi tc (q :: qs) (r_disk q)); [apply Inv_start|].
    intros q' path H H'. apply S; simpl; auto.
  Qed.
  Lemma session_one ffi tc q : session ffi tc [q] = [pure ffi tc q].
  Proof.
    rewrite session_spec.
    - simpl. destruct (pure ffi tc q); reflexivity.
    - intros a b path [<-|[]] [<-|[]] _; reflexivity.
  Qed.

  Lemma until_end_app os os' :
    until_end (os ++ os') = if existsb (fun o => match o with Ended => true | _ => false end) os then until_end os
                            else until_end os ++ until_end os'.
  Proof using Type.
    induction os as [|o os IH]; simpl; [reflexivity|].
    destruct o; simpl; rewrite ?IH; auto; destruct (existsb _ os); reflexivity.
  Qed.
  Lemma until_end_In os : In Ended (until_end os) <-> In Ended os.
  Proof using Type.
    induction os as [|o os IH]; simpl; [split; intros []|]. destruct o; simpl; rewrite ?IH; clear; [split; intros [H|H]; try discriminate; right; exact H ..|split; intros _; left; reflexivity].
  Qed.
  Lemma ended_exists os : existsb (fun o : outcome text => match o with Ended => true | _ => false end) os = true <-> In Ended os.
  Proof using Type.
    rewrite existsb_exists. split; [intros (o & H & E); destruct o; try discriminate; exact H|intros H; exists Ended; auto].
  Qed.

  Lemma until_end_nth : forall os i o, nth_error (until_end os) i = Some o -> nth_error os i = Some o.
  Proof using Type.
    induction os as [|o os IH]; intros [|i] o'; simpl; try discriminate; auto.
    destruct o; auto; destruct i; discriminate.
  Qed.
  Lemma until_end_none os : ~ In Ended os -> until_end os = os.
  Proof using Type. induction os as [|o os IH]; simpl; [auto|]. intros N. destruct o; rewrite ?IH; auto; exfalso; apply N; auto. Qed.

  (** Without a variable, the preparation done before is no matter. *)
  Lemma find_var_none b : find_var b "" = None.
  Proof. reflexivity. Qed.
  Lemma preprocess_novar main m : preprocess main None m = Some (prep m).
  Proof. unfold Modcache_Model.preprocess, prep. destruct (marked m); reflexivity. Qed.
  Lemma prep_idem m : prep (prep m) = prep m.
  Proof. unfold prep at 1. rewrite prep_marked. reflexivity. Qed.
  Lemma apart_novar ml mr q : r_var q = ""%string -> apart (prep ml) (prep mr) q = apart ml mr q.
  Proof. intros E. unfold apart. rewrite E, !find_var_none, !preprocess_novar, !prep_idem. reflexivity. Qed.

  Lemma pure_answer ffi tc q t :
    r_var q = ""%string -> r_first q <> r_second q -> pure ffi tc q = Answer t -> par q = Some t.
  Proof.
    intros V N. unfold pure. destruct ffi.
    - destruct (mem (r_first q) tc && negb _); [discriminate|].
      destruct (mem (r_second q) tc && negb _); [discriminate|].
      destruct (mem (r_first q) tc && mem (r_second q) tc).
      + rewrite par_apart. destruct (parse _ (r_first q)) as [ml|]; [|discriminate].
        destruct (parse _ (r_second q)) as [mr|]; [|discriminate].
        rewrite (proj2 (String.eqb_neq _ _) N), (apart_novar ml mr q V).
        destruct (apart ml mr q); simpl; [intros [= ->]; reflexivity|discriminate].
      + destruct (par q); simpl; [intros [= ->]; reflexivity|discriminate].
    - destruct (par q); simpl; [intros [= ->]; reflexivity|discriminate].
  Qed.
  Lemma pure_bad ffi tc q :
    r_var q = ""%string -> r_first q <> r_second q -> (forall t, pure ffi tc q <> Answer t) -> par q = None.
  Proof.
    intros V N. unfold pure. destruct ffi.
    - destruct (mem (r_first q) tc && negb (is_some (parse (r_disk q) (r_first q)))) eqn:B1.
      { intros _. apply andb_true_iff in B1. destruct B1 as [_ B1]. rewrite par_apart. destruct (parse _ (r_first q)); [discriminate|reflexivity]. }
      destruct (mem (r_second q) tc && negb (is_some (parse (r_disk q) (r_second q)))) eqn:B2.
      { intros _. apply andb_true_iff in B2. destruct B2 as [_ B2]. rewrite par_apart.
        destruct (parse _ (r_first q)); [|reflexivity]. destruct (parse _ (r_second q)); [discriminate|reflexivity]. }
      destruct (mem (r_first q) tc && mem (r_second q) tc).
      + rewrite par_apart. destruct (parse _ (r_first q)) as [ml|]; [|reflexivity].
        destruct (parse _ (r_second q)) as [mr|]; [|reflexivity].
        rewrite (proj2 (String.eqb_neq _ _) N), (apart_novar ml mr q V).
        destruct (apart ml mr q) as [x|]; simpl; [|reflexivity]. intros H. exfalso. apply (H x). reflexivity.
      + destruct (par q) as [x|]; simpl; [|reflexivity]. intros H. exfalso. apply (H x). reflexivity.
    - destruct (par q) as [x|]; simpl; [|reflexivity]. intros H. exfalso. apply (H x). reflexivity.
  Qed.

  Lemma stable_app_l tc qs qs' : stable parse tc (qs ++ qs') -> stable parse tc qs.
  Proof. intros S a b path Ha Hb. apply S; apply in_or_app; auto. Qed.

  Lemma history ffi tc qs q :
    stable parse tc (qs ++ [q]) ->
    (~ In Ended (session ffi tc qs) -> session ffi tc (qs ++ [q]) = session ffi tc qs ++ session ffi tc [q]) /\
    (In Ended (session ffi tc qs) -> session ffi tc (qs ++ [q]) = session ffi tc qs).
  Proof.
    intros S. rewrite session_one, (session_spec ffi tc _ S), (session_spec ffi tc qs (stable_app_l _ _ _ S)).
    rewrite until_end_In, map_app, until_end_app.
    destruct (existsb _ (map (pure ffi tc) qs)) eqn:E.
    - apply ended_exists in E. split; [contradiction|reflexivity].
    - split.
      + intros _. f_equal. simpl. destruct (pure ffi tc q); reflexivity.
      + intros H. apply ended_exists in H. congruence.
  Qed.

  Lemma modes ffi ffi' tc tc' qs :
    stable parse tc qs -> stable parse tc' qs ->
    (forall q, In q qs -> r_var q = ""%string /\ r_first q <> r_second q) ->
    agree (session ffi tc qs) (session ffi' tc' qs) /\
    (~ In Ended (session ffi tc qs) -> ~ In Ended (session ffi' tc' qs) ->
     forall i t, nth_error (session ffi tc qs) i = Some (Answer t) <-> nth_error (session ffi' tc' qs) i = Some (Answer t)).
  Proof.
    intros S S' Hq. rewrite (session_spec ffi tc qs S), (session_spec ffi' tc' qs S').
    assert (K : forall f c i o, nth_error (map (pure f c) qs) i = Some o -> exists q, In q qs /\ nth_error qs i = Some q /\ o = pure f c q).
    { intros f c i o H. rewrite nth_error_map in H. destruct (nth_error qs i) as [q|] eqn:E; [|discriminate].
      injection H as <-. exists q. split; [eapply nth_error_In; exact E|auto]. }
    split.
    - intros i t1 t2 H1 H2. apply until_end_nth in H1, H2.
      destruct (K _ _ _ _ H1) as (q & Hin & E & E1), (K _ _ _ _ H2) as (q' & _ & E' & E2).
      rewrite E in E'. injection E' as <-. destruct (Hq q Hin) as (V & N).
      symmetry in E1, E2. apply pure_answer in E1, E2; auto. congruence.
    - rewrite !until_end_In. intros N N' i t. rewrite !until_end_none by assumption.
      assert (G : forall f c f' c', nth_error (map (pure f c) qs) i = Some (Answer t) -> nth_error (map (pure f' c') qs) i = Some (Answer t)).
      { intros f c f' c' H. destruct (K _ _ _ _ H) as (q & Hin & E & E1). rewrite nth_error_map, E. simpl. f_equal.
        destruct (Hq q Hin) as (V & NQ). symmetry in E1. pose proof (pure_answer _ _ _ _ V NQ E1) as P.
        destruct (pure f' c' q) as [t'| | |] eqn:X.
        - apply pure_answer in X; auto. congruence.
        - exfalso. assert (par q = None) by (apply (pure_bad f' c' q V NQ); intros y; rewrite X; discriminate). congruence.
        - exfalso. assert (par q = None) by (apply (pure_bad f' c' q V NQ); intros y; rewrite X; discriminate). congruence.
        - exfalso. assert (par q = None) by (apply (pure_bad f' c' q V NQ); intros y; rewrite X; discriminate). congruence. }
      split; apply G.
  Qed.

  (** Which comparisons end the process. *)
  Lemma pure_ended ffi tc q :
    pure ffi tc q = Ended <->
    ffi = true /\ ~ kept tc q /\ par q = None /\
    (In (r_first q) tc -> parse (r_disk q) (r_first q) <> None) /\
    (In (r_second q) tc -> parse (r_disk q) (r_second q) <> None).
  Proof.
    unfold pure, kept. rewrite <- !mem_In. destruct ffi.
    2:{ split; [destruct (par q); discriminate|intros (H & _); discriminate]. }
    destruct (mem (r_first q) tc) eqn:M1, (mem (r_second q) tc) eqn:M2; cbn [andb].
    all: destruct (parse _ (r_first q)) as [ml|] eqn:P1, (parse _ (r_second q)) as [mr|] eqn:P2; cbn [is_some negb].
    all: try (split; [discriminate|intros (_ & H1 & _ & H2 & H3); exfalso; first [apply H1; split; reflexivity | apply H2; reflexivity | apply H3; reflexivity]]).
    all: try (split; [destruct (if String.eqb _ _ then _ else _); discriminate|intros (_ & H & _); exfalso; apply H; split; reflexivity]).
    all: split; [intros H; destruct (par q) eqn:E; [discriminate|]; repeat split; try (intros [A B]); try congruence
                |intros (_ & _ & -> & _); reflexivity].
  Qed.

  Lemma program_fails tc q : session false tc [q] = [Failed] <-> par q = None.
  Proof. rewrite session_one. unfold pure. destruct (par q); simpl; split; congruence. Qed.
End Proofs.

(** ** The order of passes *)
Section Trace.
  Variable old_llvm : bool.
  Variable fs : list string.
  Variable p : patterns.
  Definition tf (x : pass) (f : string) (b : list deed) : list deed := b ++ [OnFunction x f].
  Definition tm (x : pass) (b : list deed) : list deed := b ++ [OnModule x].
  Definition ts (f v : string) (b : list deed) : list deed := b ++ [Sliced f v].
  Notation prepare := (Modcache_Model.preprocess (list deed) old_llvm (fun _ => fs) tf tm ts p).

  Lemma fold_tf f : forall xs b, fold_left (fun b x => tf x f b) xs b = b ++ map (fun x => OnFunction x f) xs.
  Proof.
    induction xs as [|x xs IH]; intros b; simpl; [symmetry; apply app_nil_r|]. rewrite IH. unfold tf. rewrite <- app_assoc. reflexivity.
  Qed.
  Lemma function_passes_filter :
    function_passes old_llvm p = filter (asked old_llvm p) [ControlFlow; KernelPrints; Memcpy; DeadCode; Expect; ReduceMetadata; SeparateBitcasts].
  Proof. unfold function_passes. simpl. destruct (control_flow_only p), (kernel_prints p), (dead_code p), old_llvm; reflexivity. Qed.
  Lemma trace_passes b :
    Modcache_Model.run_passes (list deed) old_llvm (fun _ => fs) tf tm p b = b ++ preparation old_llvm p fs.
  Proof.
    unfold run_passes, preparation. rewrite <- function_passes_filter.
    assert (G : forall l b, fold_left (fun b f => fold_left (fun b x => tf x f b) (function_passes old_llvm p) b) l b =
                            b ++ flat_map (fun f => map (fun x => OnFunction x f) (function_passes old_llvm p)) l).
    { induction l as [|f l IH]; intros b0; simpl; [symmetry; apply app_nil_r|].
      rewrite IH, fold_tf, <- app_assoc. reflexivity. }
    rewrite G. unfold module_passes, tm. simpl. rewrite <- !app_assoc. reflexivity.
  Qed.
  Lemma prepare_spec c m m' :
    prepare (fst c) (snd c) m = Some m' ->
    m' = mkModule (code m ++ slicing c ++ (if marked m then [] else preparation old_llvm p fs)) true.
  Proof.
    unfold Modcache_Model.preprocess. destruct c as [[f|] [v|]], m as [b k]; cbn [fst snd code marked slicing]; try discriminate.
    all: destruct k; intros [= <-]; rewrite ?trace_passes; unfold ts; cbn [code]; rewrite ?app_nil_r, <- ?app_assoc; try reflexivity.
    all: rewrite ?app_nil_r; reflexivity.
  Qed.
  Lemma prepare_many : forall cs m m',
    marked m = true ->
    fold_left (fun o c => match o with Some m => prepare (fst c) (snd c) m | None => None end) cs (Some m) = Some m' ->
    m' = mkModule (code m ++ flat_map slicing cs) true.
  Proof.
    induction cs as [|c cs IH]; intros m m' K; cbn [fold_left flat_map].
    - intros [= <-]. rewrite app_nil_r. destruct m as [b k]; simpl in *; subst k; reflexivity.
    - destruct (prepare (fst c) (snd c) m) as [m1|] eqn:E.
      + apply prepare_spec in E. rewrite K in E. subst m1. intros H. apply IH in H; [|reflexivity].
        subst m'. cbn [code]. rewrite app_nil_r, app_assoc. reflexivity.
      + intros H. exfalso. clear -H. induction cs as [|c cs IH]; simpl in H; [discriminate|auto].
  Qed.
End Trace.
