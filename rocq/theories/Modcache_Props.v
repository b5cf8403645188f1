(** * C147-C149: modules kept in memory, comparisons that die, the preparation of modules *)
From Coq Require Import String Arith Bool Lia List.
From Verif Require Import PyBase Modcache_Model Modcache_Spec Modcache_Proofs.
Import ListNotations.
Open Scope list_scope.

Section Claims.
  Variables body disk text : Type.
  Variable old_llvm : bool.
  Variable functions : body -> list string.
  Variable has_var : body -> string -> bool.
  Variable on_function : pass -> string -> body -> body.
  Variable on_module : pass -> body -> body.
  Variable slice : string -> string -> body -> body.
  Variable parse : disk -> string -> option (module body).
  Variable simplify : bool -> body -> body -> string -> string -> option (text * body * body).
  Variable p : patterns.
  Notation session ffi := (session body disk text old_llvm functions has_var on_function on_module slice parse simplify ffi p).
  Notation passes := (run_passes body old_llvm functions on_function on_module p).

  (** C147: what was compared before does not matter: a comparison has the outcome it has on its own. *)
  Theorem C147_history ffi to_cache qs q :
    stable parse to_cache (qs ++ [q]) ->
    ~ In Ended (session ffi to_cache qs) ->
    session ffi to_cache (qs ++ [q]) = session ffi to_cache qs ++ session ffi to_cache [q].
  Proof. intros S. apply history. exact S. Qed.

  (** C147: without a variable, the answers are the same in every way of running, with any modules
      kept in memory. *)
  Theorem C147_modes ffi ffi' to_cache to_cache' qs :
    stable parse to_cache qs -> stable parse to_cache' qs ->
    (forall q, In q qs -> r_var q = ""%string /\ r_first q <> r_second q) ->
    agree (session ffi to_cache qs) (session ffi' to_cache' qs) /\
    (~ In Ended (session ffi to_cache qs) -> ~ In Ended (session ffi' to_cache' qs) ->
     forall i t, nth_error (session ffi to_cache qs) i = Some (Answer t) <->
                 nth_error (session ffi' to_cache' qs) i = Some (Answer t)).
  Proof. apply modes. Qed.

  (** C147: with a variable, modules kept in memory are sliced after the other passes, other modules
      before them. *)
  Theorem C147_variable to_cache q m1 m2 t :
    parse (r_disk q) (r_first q) = Some (mkModule m1 false) ->
    parse (r_disk q) (r_second q) = Some (mkModule m2 false) ->
    r_first q <> r_second q -> r_var q <> ""%string ->
    (forall m, has_var m (r_var q) = true) ->
    (forall m, In (r_fun1 q) (functions m) /\ In (r_fun2 q) (functions m)) ->
    (kept to_cache q ->
     (session true to_cache [q] = [Answer t] <->
      exists x y, simplify false (slice (r_fun1 q) (r_var q) (passes m1)) (slice (r_fun2 q) (r_var q) (passes m2))
                           (r_fun1 q) (r_fun2 q) = Some (t, x, y))) /\
    (~ kept to_cache q ->
     (session true to_cache [q] = [Answer t] <->
      exists x y, simplify false (passes (slice (r_fun1 q) (r_var q) m1)) (passes (slice (r_fun2 q) (r_var q) m2))
                           (r_fun1 q) (r_fun2 q) = Some (t, x, y))).
  Proof.
    intros P1 P2 N V HV HF. rewrite session_one. unfold pure, kept. rewrite <- !mem_In, P1, P2. cbn [is_some negb].
    rewrite !andb_false_r, (proj2 (String.eqb_neq _ _) N).
    assert (FV : forall m, find_var body has_var m (r_var q) = Some (r_var q)).
    { intros m. unfold find_var. rewrite (proj2 (String.eqb_neq _ _) V), HV. reflexivity. }
    assert (F1 : forall m, find_main body functions m (r_fun1 q) = Some (r_fun1 q)).
    { intros m. unfold find_main. rewrite (proj2 (mem_In _ _) (proj1 (HF m))). reflexivity. }
    assert (F2 : forall m, find_main body functions m (r_fun2 q) = Some (r_fun2 q)).
    { intros m. unfold find_main. rewrite (proj2 (mem_In _ _) (proj2 (HF m))). reflexivity. }
    split.
    - intros [-> ->]. cbn [andb]. unfold apart, prep; cbn [marked code]. rewrite !FV, F1, F2. unfold preprocess; cbn [marked code].
      destruct (simplify _ _ _ _ _) as [[[t' x] y]|]; simpl; split.
      + intros [= ->]. eauto.
      + intros (x' & y' & [= -> _ _]). reflexivity.
      + discriminate.
      + intros (x' & y' & H); discriminate.
    - intros K. destruct (mem (r_first q) to_cache && mem (r_second q) to_cache) eqn:M.
      { exfalso. apply K. apply andb_true_iff. exact M. }
      rewrite par_apart, P1, P2. unfold apart; cbn [marked code]. rewrite !FV, F1, F2. unfold preprocess; cbn [marked code].
      destruct (simplify _ _ _ _ _) as [[[t' x] y]|]; simpl; split.
      + intros [= ->]. eauto.
      + intros (x' & y' & [= -> _ _]). reflexivity.
      + discriminate.
      + intros (x' & y' & H); discriminate.
  Qed.

  (** C147: a file compared with itself: kept in memory it is one module that is both, else it is two. *)
  Theorem C147_itself to_cache q m t :
    parse (r_disk q) (r_first q) = Some (mkModule m false) -> r_second q = r_first q -> r_var q = ""%string ->
    (session true to_cache [q] = [Answer t] <->
     exists x y, simplify (if in_dec string_dec (r_first q) to_cache then true else false)
                          (passes m) (passes m) (r_fun1 q) (r_fun2 q) = Some (t, x, y)).
  Proof.
    intros P E V. rewrite session_one. unfold pure. rewrite E, P. cbn [is_some negb]. rewrite !andb_false_r, String.eqb_refl, andb_diag.
    destruct (in_dec string_dec (r_first q) to_cache) as [I|I].
    - rewrite (proj2 (mem_In _ _) I). unfold same, prep; cbn [marked code]. rewrite V. unfold find_var; cbn [String.eqb].
      unfold preprocess; cbn [marked code].
      destruct (simplify _ _ _ _ _) as [[[t' x] y]|]; simpl; split.
      + intros [= ->]. eauto.
      + intros (x' & y' & [= -> _ _]). reflexivity.
      + discriminate.
      + intros (x' & y' & H); discriminate.
    - destruct (mem (r_first q) to_cache) eqn:M; [apply mem_In in M; contradiction|].
      rewrite par_apart, E, P. unfold apart; cbn [marked code]. rewrite V. unfold find_var; cbn [String.eqb].
      unfold preprocess; cbn [marked code].
      destruct (simplify _ _ _ _ _) as [[[t' x] y]|]; simpl; split.
      + intros [= ->]. eauto.
      + intros (x' & y' & [= -> _ _]). reflexivity.
      + discriminate.
      + intros (x' & y' & H); discriminate.
  Qed.

  (** C148: with the program, and with modules kept in memory, every comparison has an outcome. *)
  Theorem C148_goes_on ffi to_cache qs :
    stable parse to_cache qs ->
    ffi = false \/ (forall q, In q qs -> kept to_cache q) ->
    length (session ffi to_cache qs) = length qs /\ ~ In Ended (session ffi to_cache qs).
  Proof.
    intros S H. rewrite (session_spec body disk text old_llvm functions has_var on_function on_module slice parse simplify p ffi to_cache qs S).
    assert (N : ~ In Ended (map (pure body disk text old_llvm functions has_var on_function on_module slice parse simplify p ffi to_cache) qs)).
    { intros I. apply in_map_iff in I. destruct I as (q & E & I). apply pure_ended in E.
      destruct E as (F & K & _). destruct H as [H|H]; [congruence|apply K; apply H; exact I]. }
    rewrite until_end_none by exact N. rewrite map_length. auto.
  Qed.

  (** C148: otherwise, a comparison ends the whole run just when the program would fail on it, unless a
      module to be kept cannot be read. *)
  Theorem C148_ends to_cache q :
    session true to_cache [q] = [Ended] <->
    ~ kept to_cache q /\ session false to_cache [q] = [Failed] /\
    (In (r_first q) to_cache -> parse (r_disk q) (r_first q) <> None) /\
    (In (r_second q) to_cache -> parse (r_disk q) (r_second q) <> None).
  Proof.
    rewrite program_fails, session_one.
    split.
    - intros E. apply (f_equal (hd Failed)) in E. cbn [hd] in E. apply pure_ended in E. tauto.
    - intros H. f_equal. apply pure_ended. tauto.
  Qed.

  (** C148: nothing is compared after the end. *)
  Theorem C148_nothing_after ffi to_cache qs qs' :
    stable parse to_cache (qs ++ qs') ->
    In Ended (session ffi to_cache qs) -> session ffi to_cache (qs ++ qs') = session ffi to_cache qs.
  Proof.
    intros S. rewrite (session_spec body disk text old_llvm functions has_var on_function on_module slice parse simplify p ffi to_cache _ S).
    rewrite (session_spec body disk text old_llvm functions has_var on_function on_module slice parse simplify p ffi to_cache qs (stable_app_l body disk parse to_cache qs qs' S)).
    rewrite until_end_In, map_app, until_end_app. intros I. apply ended_exists in I. rewrite I. reflexivity.
  Qed.

  (** C148: what a comparison of modules kept in memory leads to. *)
  Theorem C148_kept to_cache q :
    kept to_cache q ->
    (session true to_cache [q] = [Invalid] <->
     parse (r_disk q) (r_first q) = None \/ parse (r_disk q) (r_second q) = None) /\
    (r_var q = ""%string -> r_first q <> r_second q ->
     parse (r_disk q) (r_first q) <> None -> parse (r_disk q) (r_second q) <> None ->
     session true to_cache [q] = session false to_cache [q]).
  Proof.
    intros [K1 K2]. apply mem_In in K1, K2. rewrite !session_one. unfold pure. rewrite K1, K2. cbn [andb].
    split.
    - destruct (parse _ (r_first q)) as [m1|] eqn:P1, (parse _ (r_second q)) as [m2|] eqn:P2; cbn [is_some negb].
      2-4: split; auto.
      split; [|intros [H|H]; discriminate]. intros [= H].
      destruct (if String.eqb (r_first q) (r_second q) then _ else _); discriminate.
    - intros V N R1 R2. rewrite par_apart.
      destruct (parse _ (r_first q)) as [m1|]; [|congruence]. destruct (parse _ (r_second q)) as [m2|]; [|congruence].
      cbn [is_some negb]. rewrite (proj2 (String.eqb_neq _ _) N). rewrite apart_novar by exact V. reflexivity.
  Qed.
End Claims.
Print Assumptions C147_history.
Print Assumptions C147_modes.
Print Assumptions C147_variable.
Print Assumptions C147_itself.
Print Assumptions C148_goes_on.
Print Assumptions C148_ends.
Print Assumptions C148_nothing_after.
Print Assumptions C148_kept.

(** C149: over any calls of the preparation of a module, the passes asked for are run on each
    function, in their order and function by function, then those on the module; once, at the first
    call.  The slicing is done at every call that asks for it. *)
Theorem C149_once old_llvm fs p c cs b m :
  fold_left (fun o c => match o with
                        | Some m => preprocess (list deed) old_llvm (fun _ => fs)
                                      (fun x f b => b ++ [OnFunction x f]) (fun x b => b ++ [OnModule x])
                                      (fun f v b => b ++ [Sliced f v]) p (fst c) (snd c) m
                        | None => None end) (c :: cs) (Some (mkModule b false)) = Some m ->
  m = mkModule (b ++ slicing c ++ preparation old_llvm p fs ++ flat_map slicing cs) true.
Proof.
  cbn [fold_left].
  destruct (preprocess _ _ _ _ _ _ p (fst c) (snd c) (mkModule b false)) as [m1|] eqn:E.
  - pose proof (prepare_spec old_llvm fs p c (mkModule b false) m1 E) as E'. cbn [code marked] in E'. subst m1.
    intros H. apply (prepare_many old_llvm fs p cs) in H; [|reflexivity]. cbn [code] in H. rewrite H. rewrite <- !app_assoc. reflexivity.
  - intros H. exfalso. clear -H. induction cs as [|c' cs IH]; simpl in H; [discriminate|auto].
Qed.
Print Assumptions C149_once.

(** C149: a module that has been prepared is only sliced. *)
Theorem C149_prepared old_llvm fs p cs b m :
  fold_left (fun o c => match o with
                        | Some m => preprocess (list deed) old_llvm (fun _ => fs)
                                      (fun x f b => b ++ [OnFunction x f]) (fun x b => b ++ [OnModule x])
                                      (fun f v b => b ++ [Sliced f v]) p (fst c) (snd c) m
                        | None => None end) cs (Some (mkModule b true)) = Some m ->
  m = mkModule (b ++ flat_map slicing cs) true.
Proof. intros H. apply (prepare_many old_llvm fs p cs) in H; [exact H|reflexivity]. Qed.
Print Assumptions C149_prepared.

(** ** Cases *)
Module Cases.
  Definition pat := mkPatterns true false true.
  (** Code is a list of deeds; a comparison answers whether the lists are as long as each other, and
      dies of an empty name. *)
  Definition dparse (d : unit) (path : string) : option (module (list deed)) :=
    if String.eqb path "gone.ll" then None else Some (mkModule [] false).
  Definition dsimplify (same : bool) (a b : list deed) (f g : string) : option (list deed * list deed * list deed) :=
    if String.eqb f "bad" then None else Some (a ++ b, [], []).
  Definition dsession := session (list deed) unit (list deed) true (fun _ => ["f"; "bad"]%string) (fun _ _ => true)
    (fun x f b => b ++ [OnFunction x f]) (fun x b => b ++ [OnModule x]) (fun f v b => b ++ [Sliced f v]) dparse dsimplify.
  Definition q (a b f v : string) : request unit := mkRequest tt a b f f v.
  Definition ab := ["a.ll"; "b.ll"]%string.

  (** A comparison that dies between two others: with modules in memory the last one is as the first. *)
  Example history_example :
    exists t, dsession true pat ab [q "a.ll" "b.ll" "f" ""; q "a.ll" "b.ll" "bad" ""; q "a.ll" "b.ll" "f" ""] =
              [Answer t; Failed; Answer t].
  Proof. eexists. reflexivity. Qed.
  Example stable_example : stable dparse ab [q "a.ll" "b.ll" "f" ""; q "a.ll" "b.ll" "bad" ""].
  Proof. intros x y path _ _ _. reflexivity. Qed.
  Example ends_example :
    exists t, dsession true pat ["a.ll"]%string [q "a.ll" "b.ll" "f" ""; q "a.ll" "b.ll" "bad" ""; q "a.ll" "b.ll" "f" ""] =
              [Answer t; Ended].
  Proof. eexists. reflexivity. Qed.
  Example missing_example :
    dsession true pat ["a.ll"; "gone.ll"]%string [q "a.ll" "gone.ll" "f" ""; q "gone.ll" "c.ll" "f" ""; q "c.ll" "d.ll" "bad" ""] =
    [Invalid; Invalid; Ended].
  Proof. reflexivity. Qed.
  Example once_example :
    exists m, fold_left (fun o c => match o with
                | Some m => preprocess (list deed) true (fun _ => ["f"; "g"]%string)
                              (fun x f b => b ++ [OnFunction x f]) (fun x b => b ++ [OnModule x])
                              (fun f v b => b ++ [Sliced f v]) pat (fst c) (snd c) m
                | None => None end) [(None, None); (Some "f", Some "v"); (Some "g", Some "v")]%string (Some (mkModule [] false)) = Some m /\
              length (code m) = 18.
  Proof. eexists. split; reflexivity. Qed.
End Cases.

(** C147: the answer for a function with a variable can depend on whether its modules are kept in memory. *)
Theorem C147_variable_refuted :
  exists t t', t <> t' /\
    Cases.dsession true Cases.pat Cases.ab [Cases.q "a.ll" "b.ll" "f" "v"] = [Answer t] /\
    Cases.dsession true Cases.pat [] [Cases.q "a.ll" "b.ll" "f" "v"] = [Answer t'].
Proof. do 2 eexists. split; [|split; reflexivity]. discriminate. Qed.
Print Assumptions C147_variable_refuted.
