(** * Properties of the separation of casts from calls (C139) *)
From Coq Require Import String Arith Bool Lia List.
From Verif Require Import Bitcast_Model Bitcast_Spec Bitcast_Proofs.
Import ListNotations.
Open Scope list_scope.

Section Separation.
  Variable params : nat -> list ty.
  Variable returns : nat -> ty.
  (** However long the function runs, it does the same after the pass: the same functions are called, with the same bits of arguments and
      with the same properties, all other instructions get the same bits, in the same order, and the same blocks are passed. *)
  Theorem C139_behaviour bits const gives leads fn n (undefined : bits) : Function_ok fn ->
    run bits const gives leads n (pass params returns fn) [] (Some 0) (fun _ => undefined, []) = run bits const gives leads n fn [] (Some 0) (fun _ => undefined, []).
  Proof.
    intros (ND & OK & EN).
    assert (G : forall n path b s s' h, agree params returns bits const (flat_map b_insts fn) s s' ->
      run bits const gives leads n (pass params returns fn) path b (s', h) = run bits const gives leads n fn path b (s, h)).
    { clear n. induction n as [|n IH]; intros path [b|] s s' h A; try reflexivity. cbn [run]. unfold pass. rewrite nth_error_map. destruct (nth_error fn b) as [blk|] eqn:E; [|reflexivity]. cbn [option_map b_insts b_end b_ops].
      apply nth_error_In in E. destruct (steps_agree params returns bits const gives (flat_map b_insts fn) ND path (b_insts blk) s s' h) as (s2 & s2' & h2 & E1 & E2 & A2); [|exact A|].
      - intros x I. assert (I' : In x (flat_map b_insts fn)) by (apply in_flat_map; exists blk; auto). split; [exact I'|]. apply OK. exact I'.
      - rewrite E1, E2. cbn [fst]. rewrite <- (agree_map params returns bits const _ s2 s2' (b_ops blk) A2 (EN blk E)). apply IH. exact A2. }
    apply G. intros v O. destruct v; try destruct O; [|reflexivity]. cbn. destruct (replaced params returns (flat_map b_insts fn) i) as [v|] eqn:E; [|reflexivity]. destruct (replaced_some _ _ _ _ _ E) as [->| ->]; reflexivity.
  Qed.
  Lemma in_pass fn x : In x (flat_map b_insts (pass params returns fn)) <-> exists y, In y (flat_map b_insts fn) /\ In x (rewrite params returns (flat_map b_insts fn) y).
  Proof.
    unfold pass. rewrite in_flat_map. split.
    - intros (b & I & J). apply in_map_iff in I as (b0 & <- & I). cbn [b_insts] in J. apply in_flat_map in J as (y & J & K). exists y. split; [apply in_flat_map; exists b0; auto|exact K].
    - intros (y & I & J). apply in_flat_map in I as (b & I & K). eexists. split; [apply in_map; exact I|]. cbn [b_insts]. apply in_flat_map. exists y. auto.
  Qed.
  (** Only those calls through casts are left that have fewer arguments than their function has parameters, or a result that their
      function does not have, and these all are. *)
  Theorem C139_left fn : Function_ok fn ->
    (forall r t f args pr, In (Call r t (Casted f) args pr) (flat_map b_insts (pass params returns fn)) -> Stays params returns t f args) /\
    (forall r t f args pr, In (Call r t (Casted f) args pr) (flat_map b_insts fn) -> Stays params returns t f args ->
      exists args', In (Call r t (Casted f) args' pr) (flat_map b_insts (pass params returns fn)) /\ map snd args' = map snd args).
  Proof.
    intros (ND & OK & EN). split.
    - intros r t f args pr I. apply in_pass in I as (y & I & J). destruct (OK y I) as ((i & R) & _).
      destruct y as [r0 t0 c args0 p|r0 a b v|r0 c ops]; cbn [result_of] in R; subst; cbn [rewrite] in J; try (destruct J as [J|[]]; discriminate).
      destruct c as [g|g|v]; try (destruct J as [J|[]]; discriminate). destruct (separated params returns t0 g _) eqn:S.
      + exfalso. unfold separate in J. destruct (convert _ _ _ _) as [casts args'] eqn:E. apply in_app_iff in J as [J|[J|J]]; [|discriminate|destruct (needs_cast returns t0 g); [destruct J as [J|[]]; discriminate|destruct J]].
        replace casts with (fst (casts, args')) in J by reflexivity. rewrite <- E in J. apply convert_only_casts in J as (? & ? & ? & ? & J). discriminate.
      + destruct J as [J|[]]. injection J as <- <- <- <- <-.
        unfold Stays. unfold separated in S. apply andb_false_iff in S as [S|S]; rewrite negb_false_iff in S; [left; apply Nat.ltb_lt; exact S|]. apply andb_true_iff in S as (S1 & S2). right. split; [apply ty_eqb_spec; exact S1|apply ty_eqb_false; apply negb_true_iff; exact S2].
    - intros r t f args pr I ST. destruct (OK _ I) as ((i & R) & _). cbn [result_of] in R. subst r. eexists. split; [apply in_pass; eexists; split; [exact I|]; cbn [rewrite]; rewrite separated_rename|].
      + destruct (separated params returns t f args) eqn:S; [apply separated_iff in S; contradiction|]. left. reflexivity.
      + rewrite map_map. reflexivity.
  Qed.
  (** Every cast made is that of an argument to the type of its parameter or that of the result to the type of the call. *)
  Theorem C139_casts fn r a b v : In (Cast r a b v) (flat_map b_insts (pass params returns fn)) ->
    (exists v0, In (Cast r a b v0) (flat_map b_insts fn)) \/
    exists r0 t f args pr, In (Call r0 t (Casted f) args pr) (flat_map b_insts fn) /\ ~ Stays params returns t f args /\ a <> b /\
      ((exists k w, nth_error args k = Some (w, a) /\ nth_error (params f) k = Some b) \/ (a = returns f /\ b = t)).
  Proof.
    intros I. apply in_pass in I as (y & I & J). destruct y as [r0 t c args p|r0 a0 b0 v0|r0 c ops]; cbn [rewrite] in J.
    - right. exists r0, t. destruct r0 as [i| | | |], c as [f|f|w]; try (destruct J as [J|[]]; discriminate). rewrite separated_rename in J. destruct (separated params returns t f args) eqn:S; [|destruct J as [J|[]]; discriminate].
      exists f, args, p. split; [exact I|]. split; [apply separated_iff; exact S|]. unfold separate in J. destruct (convert _ _ _ _) as [casts args'] eqn:E. apply in_app_iff in J as [J|[J|J]]; [|discriminate|].
      + replace casts with (fst (casts, args')) in J by reflexivity. rewrite <- E in J. apply convert_casts in J as (j & w & J1 & J2 & J3). split; [exact J3|]. left. rewrite nth_error_map in J1. destruct (nth_error args j) as [[w0 a0]|] eqn:N; [|discriminate]. injection J1 as _ ->. exists j, w0. auto.
      + unfold needs_cast in J. destruct (negb (ty_eqb t (returns f)) && negb (ty_eqb (returns f) Void)) eqn:Q; [|destruct J]. destruct J as [J|[]]. injection J as _ <- <- _. apply andb_true_iff in Q as (Q & _). apply negb_true_iff in Q. apply ty_eqb_false in Q. split; [congruence|]. right. auto.
    - left. destruct J as [J|[]]. injection J as -> -> -> _. exists v0. exact I.
    - destruct J as [J|[]]. discriminate.
  Qed.
  (** Every call made has the types of the function: those of its parameters, its remaining arguments, and its result. *)
  Theorem C139_calls fn r t f args pr : In (Call r t (Direct f) args pr) (flat_map b_insts (pass params returns fn)) ->
    (exists args0, In (Call r t (Direct f) args0 pr) (flat_map b_insts fn) /\ map snd args = map snd args0) \/
    (t = returns f /\ exists r0 t0 args0, In (Call r0 t0 (Casted f) args0 pr) (flat_map b_insts fn) /\ ~ Stays params returns t0 f args0 /\ map snd args = params f ++ skipn (length (params f)) (map snd args0)).
  Proof.
    intros I. apply in_pass in I as (y & I & J). destruct y as [r0 t0 c args0 p|r0 a0 b0 v0|r0 c ops]; cbn [rewrite] in J; try (destruct J as [J|[]]; discriminate).
    destruct c as [g|g|w].
    - left. exists args0. assert (Q : Call r t (Direct f) args pr = Call r0 t0 (Direct g) (map (fun a => (rename params returns (flat_map b_insts fn) (fst a), snd a)) args0) p) by (destruct r0; destruct J as [J|[]]; congruence).
      injection Q as -> -> -> -> ->. split; [exact I|]. rewrite map_map. reflexivity.
    - right. destruct r0 as [i| | | |]; try (destruct J as [J|[]]; discriminate). rewrite separated_rename in J. destruct (separated params returns t0 g args0) eqn:S; [|destruct J as [J|[]]; discriminate].
      unfold separate in J. destruct (convert _ _ _ _) as [casts args'] eqn:E. apply in_app_iff in J as [J|[J|J]].
      + replace casts with (fst (casts, args')) in J by reflexivity. rewrite <- E in J. apply convert_only_casts in J as (? & ? & ? & ? & J). discriminate.
      + injection J as <- <- <- <- <-. split; [reflexivity|]. exists (Result i), t0, args0. split; [exact I|]. apply separated_iff in S as S'. split; [exact S'|].
        replace args' with (snd (casts, args')) by reflexivity. rewrite <- E. rewrite convert_types; [rewrite map_map; reflexivity|]. rewrite map_length. unfold Stays in S'. destruct (le_lt_dec (length (params g)) (length args0)); [assumption|exfalso; apply S'; auto].
      + destruct (needs_cast returns t0 g); [destruct J as [J|[]]; discriminate|destruct J].
    - destruct r0; destruct J as [J|[]]; discriminate.
  Qed.
  (** So all casts made are allowed if the types at all separated calls are castable where they differ. *)
  Theorem C139_allowed fn : (forall r0 t f args pr, In (Call r0 t (Casted f) args pr) (flat_map b_insts fn) -> ~ Stays params returns t f args ->
      (forall k w a b, nth_error args k = Some (w, a) -> nth_error (params f) k = Some b -> a <> b -> Castable a b) /\ (returns f <> t -> Castable (returns f) t)) ->
    forall r a b v, In (Cast r a b v) (flat_map b_insts (pass params returns fn)) -> (exists v0, In (Cast r a b v0) (flat_map b_insts fn)) \/ Castable a b.
  Proof.
    intros H r a b v I. destruct (C139_casts fn r a b v I) as [O|(r0 & t & f & args & pr & J & S & D & [(k & w & K1 & K2)|(-> & ->)])]; [left; exact O| |]; right; destruct (H _ _ _ _ _ J S) as (H1 & H2); [eapply H1; eassumption|apply H2; exact D].
  Qed.
End Separation.
Print Assumptions C139_behaviour.
Print Assumptions C139_left.
Print Assumptions C139_casts.
Print Assumptions C139_calls.
Print Assumptions C139_allowed.

(** A function takes a pointer to characters and returns a number. It is called through casts: with a pointer to numbers and a result of another type, and without an argument. *)
Definition f_params (f : nat) : list ty := [Ptr 8 0].
Definition f_returns (f : nat) : ty := Num false 32.
Definition casting : list block :=
  [mkblock [Call (Result 0) (Num true 32) (Casted 1) [(Const 0, Ptr 32 0); (Const 1, Num false 64)] 7; Call (Result 1) (Num false 32) (Casted 1) [] 0; Other (Result 2) 5 [Result 0; Result 1]] 0 [Result 0]].
Example C139_example : Function_ok casting /\ pass f_params f_returns casting =
  [mkblock [Cast (New_arg 0 0) (Ptr 32 0) (Ptr 8 0) (Const 0); Call (New_call 0) (Num false 32) (Direct 1) [(New_arg 0 0, Ptr 8 0); (Const 1, Num false 64)] 7;
            Cast (New_cast 0) (Num false 32) (Num true 32) (New_call 0); Call (Result 1) (Num false 32) (Casted 1) [] 0; Other (Result 2) 5 [New_cast 0; Result 1]] 0 [New_cast 0]].
Proof.
  split; [|reflexivity]. split; [|split].
  - cbn. repeat constructor; cbn; intuition discriminate.
  - intros x [<-|[<-|[<-|[]]]]; (split; [eexists; reflexivity|]); repeat constructor.
  - intros b [<-|[]]. repeat constructor.
Qed.
(** A call that ignores the result of its function gets a cast to the type without values, and arguments of another size are cast, too:
    no such casts are allowed. *)
Definition ignoring : list block := [mkblock [Call (Result 0) Void (Casted 1) [(Const 0, Num false 64)] 0] 0 []].
Theorem C139_allowed_refuted : Function_ok ignoring /\
  (exists r v, In (Cast r (Num false 32) Void v) (flat_map b_insts (pass f_params f_returns ignoring))) /\ ~ Castable (Num false 32) Void /\
  (exists r v, In (Cast r (Num false 64) (Ptr 8 0) v) (flat_map b_insts (pass f_params f_returns ignoring))) /\ ~ Castable (Num false 64) (Ptr 8 0).
Proof.
  split; [|split; [|split; [|split]]].
  - split; [|split].
    + cbn. repeat constructor; cbn; intuition discriminate.
    + intros x [<-|[]]; (split; [eexists; reflexivity|]); repeat constructor.
    + intros b [<-|[]]. repeat constructor.
  - eexists _, _. right. right. left. reflexivity.
  - intros H. inversion H.
  - eexists _, _. left. reflexivity.
  - intros H. inversion H.
Qed.
Print Assumptions C139_allowed_refuted.
