(** * Properties C127 and C128: parameters *)
From Coq Require Import String Ascii ZArith Arith Bool Lia List.
From Verif Require Import PyBase Param_Model Param_Spec.
Import ListNotations.
Open Scope list_scope.
Open Scope Z_scope.

Section Using.
  Variable beyond : nat -> Z.
  Variable indices : list Z.
  Lemma correspond_spec ops : forall i, correspond beyond indices i ops = true <->
    forall k v, (length indices <= i + k)%nat -> nth_error ops k = Some (OpNum v) -> v = beyond (i + k)%nat mod 2 ^ 32.
  Proof.
    induction ops as [|op ops IH]; intros i; cbn [correspond].
    - split; [intros _ [|k] v _ E; discriminate E|reflexivity].
    - rewrite andb_true_iff, IH. split.
      + intros [A B] [|k] v L E; cbn in E.
        * rewrite Nat.add_0_r in *. apply Nat.leb_le in L. rewrite L in A. injection E as ->. apply Z.eqb_eq in A. exact A.
        * replace (i + S k)%nat with (S i + k)%nat in * by lia. apply B; [exact L|exact E].
      + intros H. split.
        * destruct (Nat.leb_spec (length indices) i) as [L|L]; [|reflexivity]. destruct op; try reflexivity.
          apply Z.eqb_eq. specialize (H 0%nat v). rewrite Nat.add_0_r in H. apply H; [exact L|reflexivity].
        * intros k v L E. specialize (H (S k) v). replace (i + S k)%nat with (S i + k)%nat in H by lia. apply H; assumption.
  Qed.
  Lemma checked_spec gep ops : checked beyond indices gep ops = true <-> (gep = true -> indices <> [] -> Agree beyond indices (tl ops)).
  Proof.
    unfold checked. destruct gep; cbn [andb]; [|split; [discriminate|reflexivity]].
    destruct indices as [|z zs] eqn:E; [cbn; split; [congruence|reflexivity]|]. rewrite <- E. 
    replace (negb (Nat.eqb (length indices) 0)) with true by (rewrite E; reflexivity).
    rewrite correspond_spec. unfold Agree. cbn [Nat.add]. split; [auto|]. intros H. apply H; [reflexivity|rewrite E; discriminate].
  Qed.
  Lemma uses_spec g i : uses beyond indices g i = true <-> Accepted beyond indices g i.
  Proof.
    unfold uses, Accepted. rewrite existsb_exists. split.
    - intros ([x|v|gep ops|] & I & H); try discriminate H; apply andb_true_iff in H as [H1 H2]; pose proof (proj1 (checked_spec _ _) H2) as H3.
      + apply String.eqb_eq in H1. subst x. left. auto.
      + apply existsb_exists in H1 as ([y| | |] & J & H1); try discriminate H1. cbn in H1. apply String.eqb_eq in H1. subst y.
        right. exists gep, ops. auto.
    - intros [[I H]|(gep & ops & I & J & H)].
      + exists (OpVar g). split; [exact I|]. rewrite String.eqb_refl. apply (proj2 (checked_spec _ _)). exact H.
      + exists (OpExpr gep ops). split; [exact I|]. apply andb_true_iff. split; [|apply (proj2 (checked_spec _ _)); exact H].
        apply existsb_exists. exists (OpVar g). split; [exact J|]. apply String.eqb_refl.
  Qed.
End Using.

(** ** C127: the functions that use a parameter *)
Theorem C127_exact : forall beyond indices m g f,
  In f (functions_using beyond indices m g) <->
  In g (m_vars m) /\ ~ Left_out f /\ exists body i, In (f, body) (m_funs m) /\ In i body /\ Accepted beyond indices g i.
Proof.
  intros beyond indices m g f. unfold functions_using. destruct (mem g (m_vars m)) eqn:M.
  - apply mem_In in M. rewrite in_map_iff. split.
    + intros ([f' body] & E & I). cbn in E. subst f'. apply filter_In in I as [I H]. cbn in H. apply andb_true_iff in H as [H1 H2].
      split; [exact M|]. split.
      * intros L. apply negb_true_iff in H1. apply contains_spec in L. congruence.
      * apply existsb_exists in H2 as (i & J & H2). apply uses_spec in H2. eauto.
    + intros (_ & L & body & i & I & J & A). exists (f, body). split; [reflexivity|]. apply filter_In. split; [exact I|]. cbn.
      apply andb_true_iff. split.
      * apply negb_true_iff. destruct (contains f ".old") eqn:C; [|reflexivity]. apply contains_spec in C. contradiction.
      * apply existsb_exists. exists i. split; [exact J|]. apply uses_spec. exact A.
  - split; [intros []|]. intros (I & _). apply mem_In in I. congruence.
Qed.
(** If no computation from the variable has more indices than are given (or none are given), then they
    do not matter: the functions are those that use the variable at all. *)
Theorem C127_functions : forall beyond indices m g f,
  indices = [] \/ (forall f' body i l, In (f', body) (m_funs m) -> In i body -> Computed g i l -> (length l <= length indices)%nat) ->
  In f (functions_using beyond indices m g) <-> In g (m_vars m) /\ ~ Left_out f /\ Function_touches m g f.
Proof.
  intros beyond indices m g f H. rewrite C127_exact. unfold Function_touches.
  assert (X : forall body i, In (f, body) (m_funs m) -> In i body -> (Accepted beyond indices g i <-> Touches g i)).
  { intros body i I J. unfold Accepted, Touches.
    assert (S : forall l, (length l <= length indices)%nat -> Agree beyond indices l).
    { intros l L k v K E. assert (k < length l)%nat by (apply nth_error_Some; congruence). lia. }
    split.
    - intros [[A _]|(gep & ops & A & B & _)]; [left; exact A|right; eauto].
    - intros [A|(gep & ops & A & B)].
      + left. split; [exact A|]. intros G N. destruct H as [->|H]; [congruence|]. apply S.
        destruct (i_ops i) as [|p l] eqn:E; [destruct A|]. apply (H f body i l I J). apply Computed_here with p; [exact G|exact E|rewrite E; exact A].
      + right. exists gep, ops. split; [exact A|]. split; [exact B|]. intros -> N. destruct H as [->|H]; [congruence|]. apply S.
        destruct ops as [|p l]; [destruct B|]. apply (H f body i l I J). apply Computed_const with p; assumption. }
  split; intros (V & L & body & i & I & J & A); repeat (split; [assumption|]); exists body, i; repeat (split; [assumption|]);
    apply (X body i I J); exact A.
Qed.
(** Each function is found once. *)
Theorem C127_once : forall beyond indices m g, NoDup (map fst (m_funs m)) -> NoDup (functions_using beyond indices m g).
Proof.
  intros beyond indices m g. unfold functions_using. destruct (mem g (m_vars m)); [|constructor].
  induction (m_funs m) as [|[f b] fs IH]; intros N; cbn; [constructor|]. inversion N as [|? ? NI N']; subst.
  destruct (_ && _); [|auto]. cbn. constructor; [|auto]. intros I. apply NI. apply in_map_iff in I as ([f' b'] & E & I).
  apply filter_In in I as [I _]. apply in_map_iff. exists (f', b'). auto.
Qed.

(** *** A case: two functions that access different fields of a structure *)
Definition load_field (g : string) (l : list Z) : inst := mkInst false [OpExpr true (OpVar g :: map OpNum l)].
Definition two_fields : module := mkModule ["conf"%string]
  [("first"%string, [load_field "conf" [0; 0]]); ("second"%string, [load_field "conf" [0; 1]]); ("other"%string, [mkInst false [OpOther]])].
Example C127_met :
  (forall f' body i l, In (f', body) (m_funs two_fields) -> In i body -> Computed "conf" i l -> (length l <= length [0; 1])%nat) /\
  functions_using (fun _ => 0) [0; 1] two_fields "conf" = ["first"; "second"]%string.
Proof.
  split; [|reflexivity]. intros f body i l I J C.
  destruct I as [E|[E|[E|[]]]]; injection E as <- <-; destruct J as [<-|[]]; inversion C as [p k G E H|p k H1 H2]; subst; try discriminate;
    destruct H1 as [H1|[]]; try discriminate H1; injection H1 as _ <-; cbn; lia.
Qed.
(** A function that accesses another field only is found, whatever is in memory. *)
Theorem C127_fields_refuted : exists m indices, forall beyond,
  In "first"%string (functions_using beyond indices m "conf") /\
  forall body i l, In ("first"%string, body) (m_funs m) -> In i body -> Computed "conf" i l -> ~ Field indices l.
Proof.
  exists two_fields, [0; 1]. intros beyond. split; [left; reflexivity|]. intros body i l I J C F. unfold Field in F. subst l.
  destruct I as [E|[E|[E|[]]]]; injection E as E1; try discriminate; subst body; destruct J as [<-|[]];
    inversion C as [p k G E2 H|p k H1 H2]; subst; try discriminate; destruct H1 as [H1|[]]; discriminate H1.
Qed.
(** With fewer indices than a computation has, what is found depends on memory behind the list. *)
Theorem C127_beyond_refuted : exists m indices b b', functions_using b indices m "conf" <> functions_using b' indices m "conf".
Proof. exists two_fields, [0], (fun _ => 0), (fun _ => 1). vm_compute. discriminate. Qed.
(** A use in an expression within an expression is not found. *)
Theorem C127_nested_refuted : exists m i, In ("f"%string, [i]) (m_funs m) /\
  (exists gep ops ops', In (OpExpr gep ops) (i_ops i) /\ In (OpExpr false ops') ops /\ In (OpVar "conf") ops') /\
  forall beyond indices, functions_using beyond indices m "conf" = [].
Proof.
  pose (i := mkInst false [OpExpr true [OpExpr false [OpVar "conf"]; OpNum 4]]).
  exists (mkModule ["conf"%string] [("f"%string, [i])]), i. split; [left; reflexivity|]. split.
  - exists true, [OpExpr false [OpVar "conf"]; OpNum 4], [OpVar "conf"]. cbn. auto.
  - intros beyond indices. reflexivity.
Qed.
(** A function is left out for a name that only contains the suffix. *)
Theorem C127_names_refuted : exists m, Function_touches m "conf" "set.older_limit" /\ forall beyond indices, functions_using beyond indices m "conf" = [].
Proof.
  exists (mkModule ["conf"%string] [("set.older_limit"%string, [mkInst false [OpVar "conf"]])]). split; [|reflexivity].
  exists [mkInst false [OpVar "conf"]], (mkInst false [OpVar "conf"]). cbn. repeat split; auto. left. cbn. auto.
Qed.

(** ** C128: the variable of a parameter *)
Lemma wrapper_spec g : wrapper g = true <-> Wrapper g.
Proof.
  unfold wrapper, Wrapper. rewrite orb_true_iff, !contains_spec. split.
  - intros [(a & b & E)|(a & b & E)]; eauto.
  - intros (a & b & [E|E]); [left|right]; eauto.
Qed.
Lemma wrapper_false g : wrapper g = false <-> ~ Wrapper g.
Proof. rewrite <- wrapper_spec. destruct (wrapper g); split; congruence. Qed.
Lemma last_of_app es c : last_of (es ++ [c]) = Some c.
Proof. unfold last_of. rewrite rev_app_distr. reflexivity. Qed.
Lemma last_of_inv es : (es = [] /\ last_of es = None) \/ exists es' c, es = es' ++ [c] /\ last_of es = Some c.
Proof.
  destruct (rev es) as [|c r] eqn:R.
  - left. assert (es = []) by (rewrite <- (rev_involutive es), R; reflexivity). subst. auto.
  - right. exists (rev r), c. assert (E : es = rev r ++ [c]) by (rewrite <- (rev_involutive es), R; reflexivity). split; [exact E|]. rewrite E. apply last_of_app.
Qed.
Lemma extract_sound m : forall n c o, extract n m c = Some o -> Leads m c o.
Proof.
  induction n as [|n IH]; intros c o E; [discriminate E|]. cbn [extract] in E. destruct c as [g|[|c cs]|es|].
  - destruct (wrapper g) eqn:W.
    + apply wrapper_spec in W. destruct (dget m g) as [[[x|ops|es|]|]|] eqn:G; try (injection E as <-).
      * apply Leads_nothing with (KVar x); [exact W|exact G|discriminate].
      * apply Leads_nothing with (KExpr ops); [exact W|exact G|discriminate].
      * destruct (last_of_inv es) as [[-> L]|(es' & c & -> & L)]; rewrite L in E.
        -- injection E as <-. apply Leads_empty; assumption.
        -- eapply Leads_wrapper; [exact W|exact G|]. apply IH. exact E.
      * apply Leads_nothing with KOther; [exact W|exact G|discriminate].
      * apply Leads_declared; auto.
      * apply Leads_declared; auto.
    + injection E as <-. apply Leads_var. apply wrapper_false. exact W.
  - injection E as <-. constructor.
  - constructor. apply IH. exact E.
  - injection E as <-. constructor.
  - injection E as <-. constructor.
Qed.
Lemma extract_complete m c o : Leads m c o -> exists n, forall k, (n <= k)%nat -> extract k m c = Some o.
Proof.
  induction 1 as [g W|g es c o W G L [n IH]|g W G|g c W G N|g W G|c cs o L [n IH]| |es|].
  all: try (exists 1%nat; intros [|k] K; [lia|]; cbn [extract]; reflexivity).
  - exists 1%nat. intros [|k] K; [lia|]. cbn [extract]. apply wrapper_false in W. rewrite W. reflexivity.
  - exists (S n). intros [|k] K; [lia|]. cbn [extract]. apply wrapper_spec in W. rewrite W, G, last_of_app. apply IH. lia.
  - exists 1%nat. intros [|k] K; [lia|]. cbn [extract]. apply wrapper_spec in W. rewrite W, G. reflexivity.
  - exists 1%nat. intros [|k] K; [lia|]. cbn [extract]. apply wrapper_spec in W. rewrite W, G. destruct c; try reflexivity. edestruct N; reflexivity.
  - exists 1%nat. intros [|k] K; [lia|]. cbn [extract]. apply wrapper_spec in W. rewrite W. destruct G as [->| ->]; reflexivity.
  - exists (S n). intros [|k] K; [lia|]. cbn [extract]. apply IH. lia.
Qed.
(** The variable found is the one the pointer leads to. *)
Theorem C128_variable : forall m p c o, Is_param m p c -> o <> Name "" ->
  ((exists n, find_param_var n m p = Some o) <-> Leads m c o \/ (o = Nothing /\ Leads m c (Name ""))).
Proof.
  intros m p c o (es & G) N. unfold find_param_var. rewrite G, last_of_app. split.
  - intros (n & E). destruct (extract n m c) as [x|] eqn:X; [|discriminate E]. apply extract_sound in X.
    destruct x as [[|a s]| |]; injection E as <-; auto.
  - intros [L|[-> L]]; destruct (extract_complete _ _ _ L) as (n & H); exists n; rewrite (H n (le_n n)).
    + destruct o as [[|a s]| |]; [congruence|reflexivity|reflexivity|reflexivity].
    + reflexivity.
Qed.
(** There is only one, and more steps do not change it. *)
Theorem C128_unique : forall m c o o', Leads m c o -> Leads m c o' -> o = o'.
Proof.
  intros m c o o' L L'. destruct (extract_complete _ _ _ L) as (n & H), (extract_complete _ _ _ L') as (n' & H').
  specialize (H (n + n')%nat ltac:(lia)). specialize (H' (n + n')%nat ltac:(lia)). congruence.
Qed.
(** The search ends if the wrappers are not circular. *)
Theorem C128_ends : forall m (rank : string -> nat),
  (forall g es c g', dget m g = Some (Some (KStruct (es ++ [c]))) -> start c = KVar g' -> (rank g' < rank g)%nat) ->
  forall p, exists n o, find_param_var n m p = Some o.
Proof.
  intros m rank R p.
  assert (E : forall r c, (forall g, start c = KVar g -> (rank g < r)%nat) -> exists n o, extract n m c = Some o).
  { induction r as [|r IH]; intros c.
    - revert c. fix F 1. intros [g|[|c cs]|es|] H.
      + specialize (H g eq_refl). lia.
      + exists 1%nat, Crash. reflexivity.
      + destruct (F c H) as (n & o & E). exists (S n), o. exact E.
      + exists 1%nat, Nothing. reflexivity.
      + exists 1%nat, Nothing. reflexivity.
    - revert c. fix F 1. intros [g|[|c cs]|es|] H.
      + destruct (wrapper g) eqn:W.
        * destruct (dget m g) as [[[x|ops|es|]|]|] eqn:G.
          3:{ destruct (last_of_inv es) as [[-> L]|(es' & c & -> & L)].
              - exists 1%nat, Crash. cbn [extract]. rewrite W, G. reflexivity.
              - destruct (IH c) as (n & o & E).
                + intros g' X. specialize (R g es' c g' G X). specialize (H g eq_refl). lia.
                + exists (S n), o. cbn [extract]. rewrite W, G, L. exact E. }
          all: eexists 1%nat, _; cbn [extract]; rewrite W, G; reflexivity.
        * exists 1%nat, (Name g). cbn [extract]. rewrite W. reflexivity.
      + exists 1%nat, Crash. reflexivity.
      + destruct (F c H) as (n & o & E). exists (S n), o. exact E.
      + exists 1%nat, Nothing. reflexivity.
      + exists 1%nat, Nothing. reflexivity. }
  unfold find_param_var. destruct (dget m ("__param_" ++ p)%string) as [[[x|ops|es|]|]|]; try (exists 0%nat; eexists; reflexivity).
  destruct (last_of es) as [[x|ops|[|c [|c' cs]]|]|]; try (exists 0%nat; eexists; reflexivity).
  destruct (E (S (match start c with KVar g => rank g | _ => 0%nat end)) c) as (n & o & X).
  { intros g ->. lia. }
  exists n. rewrite X. destruct o as [[|a s]| |]; eexists; reflexivity.
Qed.
(** Parameters of the three kinds of the kernel: a variable, an array and a string *)
Theorem C128_kinds : forall m p v, ~ Wrapper v -> v <> ""%string ->
  (Is_param m p (KVar v) -> exists n, find_param_var n m p = Some (Name v)) /\
  (forall w es cs, Wrapper w -> dget m w = Some (Some (KStruct (es ++ [KExpr (KVar v :: cs)]))) -> Is_param m p (KVar w) ->
    exists n, find_param_var n m p = Some (Name v)).
Proof.
  intros m p v W N. assert (X : Name v <> Name "") by congruence. split.
  - intros P. apply (C128_variable m p (KVar v) (Name v) P X). left. apply Leads_var. exact W.
  - intros w es cs W' G P. apply (C128_variable m p (KVar w) (Name v) P X). left. eapply Leads_wrapper; [exact W'|exact G|]. constructor. constructor. exact W.
Qed.
(** A parameter that is not there gives nothing. *)
Theorem C128_missing : forall m p n, dget m ("__param_" ++ p)%string = None -> find_param_var n m p = Some Nothing.
Proof. intros m p n E. unfold find_param_var. rewrite E. reflexivity. Qed.
Definition ex_globals : globals :=
  [("__param_debug"%string, Some (KStruct [KOther; KStruct [KExpr [KVar "debug_level"]]]));
   ("__param_ids"%string, Some (KStruct [KOther; KStruct [KVar "__param_arr_ids"]]));
   ("__param_arr_ids"%string, Some (KStruct [KOther; KExpr [KVar "ids"; KOther; KOther]]));
   ("debug_level"%string, Some KOther); ("ids"%string, Some KOther)].
Example C128_met : find_param_var 3 ex_globals "debug" = Some (Name "debug_level") /\ find_param_var 3 ex_globals "ids" = Some (Name "ids") /\
  Is_param ex_globals "ids" (KVar "__param_arr_ids") /\ Wrapper "__param_arr_ids" /\ find_param_var 3 ex_globals "none" = Some Nothing.
Proof.
  repeat split.
  - exists [KOther]. reflexivity.
  - exists ""%string, "_ids"%string. left. reflexivity.
Qed.
(** A variable whose own name looks like that of a wrapper is not found, but what is in it. *)
Theorem C128_names_refuted : exists m v, Is_param m "mode" (KVar v) /\ dget m v = Some (Some (KStruct [KVar "table"])) /\
  find_param_var 3 m "mode" = Some (Name "table").
Proof.
  exists [("__param_mode"%string, Some (KStruct [KStruct [KVar "m__param_arrangement"]])); ("m__param_arrangement"%string, Some (KStruct [KVar "table"]))],
    "m__param_arrangement"%string.
  repeat split. exists []. reflexivity.
Qed.
(** A declared wrapper crashes the search. *)
Theorem C128_declared_refuted : exists m, find_param_var 2 m "x" = Some Crash.
Proof. exists [("__param_x"%string, None)]. reflexivity. Qed.

Print Assumptions C127_exact.
Print Assumptions C127_functions.
Print Assumptions C127_once.
Print Assumptions C127_met.
Print Assumptions C127_fields_refuted.
Print Assumptions C127_beyond_refuted.
Print Assumptions C127_nested_refuted.
Print Assumptions C127_names_refuted.
Print Assumptions C128_variable.
Print Assumptions C128_unique.
Print Assumptions C128_ends.
Print Assumptions C128_kinds.
Print Assumptions C128_missing.
Print Assumptions C128_met.
Print Assumptions C128_names_refuted.
Print Assumptions C128_declared_refuted.
