(** * Proofs about slicing by control flow *)
From Coq Require Import String Ascii ZArith Arith Bool Lia List.
From Verif Require Import PyBase Funcomp_Model Funcomp_Spec Slice_Model Slice_Spec Slice_Effect.
Import ListNotations.
Open Scope list_scope.
Open Scope nat_scope.

Lemma find_inst_In f r i : find_inst f r = Some i -> In i (insts f) /\ i_reg i = r.
Proof. intros H. apply find_some in H. destruct H as (A & B). apply Nat.eqb_eq in B. auto. Qed.
Lemma nodup_find (l : list inst) i : NoDup (map i_reg l) -> In i l -> find (fun j => Nat.eqb (i_reg j) (i_reg i)) l = Some i.
Proof.
  induction l as [|j l IH]; intros N I; [destruct I|]. cbn [map] in N. apply NoDup_cons_iff in N. destruct N as (A & B).
  cbn [find]. destruct I as [->|I]; [rewrite Nat.eqb_refl; reflexivity|].
  destruct (Nat.eqb_spec (i_reg j) (i_reg i)) as [E|E]; [|auto]. exfalso. apply A. rewrite E. apply in_map. exact I.
Qed.
Lemma same_reg (l : list inst) i j : NoDup (map i_reg l) -> In i l -> In j l -> i_reg i = i_reg j -> i = j.
Proof. intros N I J E. pose proof (nodup_find l i N I) as A. pose proof (nodup_find l j N J) as B. rewrite E in A. congruence. Qed.
Lemma users_spec f v u : In u (users f v) <-> In u (insts f) /\ In v (i_ops u).
Proof. unfold users. rewrite filter_In. rewrite mem_In. reflexivity. Qed.

Section Control.
  Variable m : module.
  Variable f : func.
  Hypothesis N : NoDup (map i_reg (insts f)).

  Lemma inst_of_self d : In d (insts f) -> inst_of f (VReg (i_reg d)) = Some d.
  Proof. intros I. cbn [inst_of]. unfold find_inst. apply nodup_find; auto. Qed.
  Lemma inst_of_In v d : inst_of f v = Some d -> In d (insts f) /\ v = VReg (i_reg d).
  Proof. destruct v; cbn [inst_of]; try discriminate. intros H. apply find_inst_In in H. destruct H as (A & <-). auto. Qed.

  (** ** The operands are added, too *)
  Definition missing (dep : list nat) : nat := length (filter (fun i => negb (mem (i_reg i) dep)) (insts f)).
  Lemma missing_incl dep dep' : incl dep dep' -> missing dep' <= missing dep.
  Proof. intros I. apply filter_less. intros x H. apply negb_true_iff in H. apply mem_not_In in H. apply negb_true_iff, mem_not_In. auto. Qed.
  Lemma missing_cons i dep : In i (insts f) -> ~ In (i_reg i) dep -> missing (i_reg i :: dep) < missing dep.
  Proof.
    intros I H. apply filter_strict with (x := i); auto.
    - intros x E. apply negb_true_iff in E. apply mem_not_In in E. apply negb_true_iff, mem_not_In. intros X. apply E. right. exact X.
    - apply negb_true_iff, mem_not_In. exact H.
    - apply negb_false_iff, mem_In. left. reflexivity.
  Qed.
  Definition closed (P : list nat) (dep : list nat) : Prop :=
    forall i d, In i (insts f) -> In d (insts f) -> In (i_reg i) dep -> ~ In (i_reg i) P -> uses i d -> In (i_reg d) dep.

  Lemma add_incl n : forall i dep, incl dep (add_with_operands f n i dep).
  Proof.
    induction n as [|n IH]; intros i dep; cbn [add_with_operands]; [apply incl_refl|].
    destruct (mem (i_reg i) dep); [apply incl_refl|].
    assert (K : forall l d, incl d (fold_left (fun d v => match inst_of f v with Some j => add_with_operands f n j d | None => d end) l d)).
    { induction l as [|v l IHl]; intros d; cbn [fold_left]; [apply incl_refl|].
      eapply incl_tran; [|apply IHl]. destruct (inst_of f v); [apply IH|apply incl_refl]. }
    intros x X. apply K. right. exact X.
  Qed.
  Lemma add_closed n : forall i dep P, In i (insts f) -> missing dep < n -> closed P dep ->
    closed P (add_with_operands f n i dep) /\ In (i_reg i) (add_with_operands f n i dep).
  Proof.
    induction n as [|n IH]; intros i dep P I L C; [lia|]. cbn [add_with_operands].
    destruct (mem (i_reg i) dep) eqn:Mi; [apply mem_In in Mi; auto|]. apply mem_not_In in Mi.
    set (step := fun d v => match inst_of f v with Some j => add_with_operands f n j d | None => d end).
    assert (SI : forall l d, incl d (fold_left step l d)).
    { induction l as [|v l IHl]; intros d; cbn [fold_left]; [apply incl_refl|].
      eapply incl_tran; [|apply IHl]. unfold step. destruct (inst_of f v); [apply add_incl|apply incl_refl]. }
    assert (K : forall l d, incl (i_reg i :: dep) d -> closed (i_reg i :: P) d ->
                closed (i_reg i :: P) (fold_left step l d) /\ forall v j, In v l -> inst_of f v = Some j -> In (i_reg j) (fold_left step l d)).
    { induction l as [|v l IHl]; intros d Id Cd; cbn [fold_left]; [split; [exact Cd|intros ? ? []]|].
      assert (S : closed (i_reg i :: P) (step d v) /\ forall j, inst_of f v = Some j -> In (i_reg j) (step d v)).
      { unfold step. destruct (inst_of f v) as [j|] eqn:E; [|split; [exact Cd|discriminate]].
        destruct (IH j d (i_reg i :: P)) as (A & B).
        - apply inst_of_In in E. apply E.
        - pose proof (missing_incl _ _ Id). pose proof (missing_cons i dep I Mi). lia.
        - exact Cd.
        - split; [exact A|]. intros j' E'. injection E' as <-. exact B. }
      destruct S as (S1 & S2). destruct (IHl (step d v)) as (A & B).
      - eapply incl_tran; [exact Id|]. exact (SI [v] d).
      - exact S1.
      - split; [exact A|]. intros v' j [<-|V] E; [apply SI; auto|eauto]. }
    destruct (K (i_ops i) (i_reg i :: dep)) as (A & B).
    { apply incl_refl. }
    { intros x d Ix Id [X|X] NP U; [exfalso; apply NP; left; exact X|]. right. apply (C x d Ix Id X); [|exact U]. intros Y. apply NP. right. exact Y. }
    split.
    - intros x d Ix Id X NP U. destruct (Nat.eq_dec (i_reg x) (i_reg i)) as [E|E].
      + assert (x = i) by (apply (same_reg (insts f)); auto). subst x. apply (B (VReg (i_reg d)) d); [exact U|apply inst_of_self; exact Id].
      + apply (A x d Ix Id X); [|exact U]. intros [Y|Y]; [congruence|contradiction].
    - apply SI. left. reflexivity.
  Qed.
  Lemma add_only n (Q : inst -> Prop) : (forall i d, Q i -> In d (insts f) -> uses i d -> Q d) ->
    forall i dep, Q i -> In i (insts f) -> (forall d, In d (insts f) -> In (i_reg d) dep -> Q d) ->
    forall d, In d (insts f) -> In (i_reg d) (add_with_operands f n i dep) -> Q d.
  Proof.
    intros QO. induction n as [|n IH]; intros i dep Qi Ii D; cbn [add_with_operands]; [exact D|].
    destruct (mem (i_reg i) dep); [exact D|].
    assert (D1 : forall d, In d (insts f) -> In (i_reg d) (i_reg i :: dep) -> Q d).
    { intros d Id [E|X]; [|auto]. assert (d = i) by (apply (same_reg (insts f)); auto). subst. exact Qi. }
    assert (UO : forall v j, In v (i_ops i) -> inst_of f v = Some j -> Q j).
    { intros v j V E. apply inst_of_In in E. destruct E as (J & ->). apply (QO i j Qi J V). }
    revert D1 UO. generalize (i_reg i :: dep). induction (i_ops i) as [|v l IHl]; intros x D1 UO d Id X; cbn [fold_left] in X; [auto|].
    revert d Id X. apply IHl.
    - destruct (inst_of f v) as [j|] eqn:E; [|exact D1]. apply IH; [apply (UO v j (or_introl eq_refl) E)|apply inst_of_In in E; apply E|exact D1].
    - intros w j W. apply UO. right. exact W.
  Qed.

  Lemma missing_bound dep : missing dep < S (length (insts f)).
  Proof. unfold missing. pose proof (filter_short (fun i => negb (mem (i_reg i) dep)) (insts f)). lia. Qed.

  (** ** The conditions *)
  Lemma indirect_call_spec : indirect_call m f = true <-> through_value m f.
  Proof.
    unfold indirect_call, through_value. rewrite existsb_exists. split.
    - intros (i & I & H). apply andb_true_iff in H. destruct H as (C & H). assert (Ci : i_code i = Call) by (unfold is_call in C; destruct (i_code i); congruence).
      destruct (called m i) as [g|] eqn:E; [discriminate|]. apply existsb_exists in H. destruct H as (u & U & H).
      destruct (callee i) as [v|] eqn:K; [|destruct U]. apply callee_spec in K. destruct K as (ops & K).
      apply users_spec in U. destruct U as (U1 & U2). apply andb_true_iff in H. destruct H as (H1 & H2).
      exists i, ops, v, u. split; [exact I|]. split; [exact Ci|]. split; [apply called_none; auto|]. split; [exact K|]. split; [exact U1|]. split; [exact U2|].
      apply negb_true_iff in H1. apply Nat.eqb_neq in H1. apply negb_true_iff in H2. unfold intrinsic in H2. apply orb_false_iff in H2. destruct H2 as (H2 & H3).
      split; [exact H1|]. split; [intros D; unfold is_debug in H2; rewrite D in H2; discriminate|].
      intros g G. pose proof (proj1 G) as Cu. unfold is_call in H3. rewrite Cu in H3. apply (called_spec m u g Cu) in G. rewrite G in H3. exact H3.
    - intros (i & ops & v & u & I & Ci & NG & K & U1 & U2 & NE & ND & NI). exists i. split; [exact I|].
      unfold is_call at 1. rewrite Ci. cbn [andb]. apply (called_none m i Ci) in NG. rewrite NG.
      apply existsb_exists. exists u. assert (K' : callee i = Some v) by (apply callee_spec; eauto). rewrite K'.
      split; [apply users_spec; auto|]. apply andb_true_iff. split; [apply negb_true_iff, Nat.eqb_neq; exact NE|].
      apply negb_true_iff. unfold intrinsic. apply orb_false_iff. split; [unfold is_debug; destruct (i_code u); congruence|].
      unfold is_call. destruct (i_code u) eqn:Cu; try reflexivity. cbn [andb]. destruct (called m u) as [g|] eqn:G; [|reflexivity]. apply NI. apply called_spec; auto.
  Qed.
  Lemma only_stored_spec i : only_stored f i = true <-> (exists u, In u (insts f) /\ uses u i) /\ forall u, In u (insts f) -> uses u i -> i_code u = Store.
  Proof.
    unfold only_stored, uses. pose proof (users_spec f (VReg (i_reg i))) as US. destruct (users f (VReg (i_reg i))) as [|u us]; split.
    - discriminate.
    - intros ((u & A & B) & _). assert (In u []) by (apply US; auto). contradiction.
    - intros H. rewrite forallb_forall in H. split.
      + exists u. apply US. left. reflexivity.
      + intros x A B. assert (X : In x (u :: us)) by (apply US; auto). apply H in X. unfold is_store in X. destruct (i_code x); congruence.
    - intros (_ & H). apply forallb_forall. intros x X. apply US in X. destruct X as (A & B). unfold is_store. rewrite (H x A B). reflexivity.
  Qed.
  Lemma function_operand_spec i : function_operand m i = true <-> exists g, In (VConst (CGlobal g)) (i_ops i) /\ In g (dkeys m).
  Proof.
    unfold function_operand. rewrite existsb_exists. split.
    - intros (v & V & H). destruct v as [| | |[z|n]]; try discriminate. exists n. split; [exact V|apply dmem_In; exact H].
    - intros (g & V & G). exists (VConst (CGlobal g)). split; [exact V|apply dmem_In; exact G].
  Qed.
  Lemma keeps_needed i : In i (insts f) -> keeps m f i = true -> needed m f i.
  Proof.
    intros I. unfold keeps. destruct (is_terminator i) eqn:T; [intros _; apply needed_end; auto|].
    assert (K : i_code i <> Call -> function_operand m i && indirect_call m f = true -> needed m f i).
    { intros C H. apply andb_true_iff in H. destruct H as (A & B). apply function_operand_spec in A. destruct A as (g & G1 & G2). apply indirect_call_spec in B. eapply needed_function; eauto. }
    destruct (i_code i) eqn:C; try (apply K; discriminate); [|intros _; apply needed_debug; auto].
    intros H. apply needed_call; auto. intros (g & G & E & U). apply (called_spec m i g C) in G. rewrite G in H.
    apply negb_true_iff in H. apply andb_false_iff in H. destruct H as [H|H].
    - apply negb_false_iff in H. apply has_side_effect_spec in H. auto.
    - apply only_stored_spec in U. congruence.
  Qed.
  Lemma end_keeps i : is_terminator i = true -> keeps m f i = true.
  Proof. intros T. unfold keeps. rewrite T. reflexivity. Qed.
  Lemma call_keeps i : i_code i = Call -> ~ no_result_needed m f i -> keeps m f i = true.
  Proof.
    intros C H. unfold keeps. unfold is_terminator. rewrite C. destruct (called m i) as [g|] eqn:G; [|reflexivity].
    apply negb_true_iff. apply not_true_is_false. intros X. apply andb_true_iff in X. destruct X as (A & B). apply H. exists g.
    split; [apply called_spec; auto|]. split; [intros E; apply has_side_effect_spec in E; rewrite E in A; discriminate|apply only_stored_spec; exact B].
  Qed.
  Lemma function_keeps i g : i_code i <> Call -> In (VConst (CGlobal g)) (i_ops i) -> In g (dkeys m) -> through_value m f -> keeps m f i = true.
  Proof.
    intros C G1 G2 T. unfold keeps. destruct (is_terminator i); [reflexivity|].
    assert (K : function_operand m i && indirect_call m f = true) by (apply andb_true_iff; split; [apply function_operand_spec; eauto|apply indirect_call_spec; exact T]).
    destruct (i_code i); try exact K; congruence.
  Qed.
  Lemma debug_keeps i : i_code i = Debug -> keeps m f i = true.
  Proof. intros C. unfold keeps, is_terminator. rewrite C. reflexivity. Qed.

  (** ** Allocations *)
  Lemma with_users_incl c dep : incl (i_reg c :: dep) (add_with_users f c dep).
  Proof.
    unfold add_with_users. generalize (i_reg c :: dep). induction (users f (VReg (i_reg c))) as [|u l IH]; intros d; cbn [fold_left]; [apply incl_refl|].
    eapply incl_tran; [|apply IH]. apply add_incl.
  Qed.
  Lemma with_users_closed c dep P : closed P dep -> closed (i_reg c :: P) (add_with_users f c dep) /\ forall u, In u (insts f) -> uses u c -> In (i_reg u) (add_with_users f c dep).
  Proof.
    intros C. unfold add_with_users.
    assert (C1 : closed (i_reg c :: P) (i_reg c :: dep)).
    { intros x d Ix Id [X|X] NP U; [exfalso; apply NP; left; exact X|]. right. apply (C x d Ix Id X); [|exact U]. intros Y. apply NP. right. exact Y. }
    pose proof (users_spec f (VReg (i_reg c))) as US.
    assert (K : forall l d, (forall u, In u l -> In u (insts f)) -> closed (i_reg c :: P) d ->
       closed (i_reg c :: P) (fold_left (fun d u => add f u d) l d) /\ incl d (fold_left (fun d u => add f u d) l d) /\ forall u, In u l -> In (i_reg u) (fold_left (fun d u => add f u d) l d)).
    { induction l as [|u l IH]; intros d L Cd; cbn [fold_left]; [split; [exact Cd|]; split; [apply incl_refl|intros ? []]|].
      destruct (add_closed (S (length (insts f))) u d (i_reg c :: P) (L u (or_introl eq_refl)) (missing_bound d) Cd) as (A & B).
      destruct (IH (add f u d)) as (A1 & B1 & B2).
      - intros x X. apply L. right. exact X.
      - exact A.
      - split; [exact A1|]. split; [eapply incl_tran; [apply add_incl|exact B1]|]. intros x [<-|X]; [apply B1; exact B|auto]. }
    destruct (K (users f (VReg (i_reg c))) (i_reg c :: dep)) as (A & _ & B).
    - intros u U. apply US in U. apply U.
    - exact C1.
    - split; [exact A|]. intros u U1 U2. apply B. apply US. auto.
  Qed.
  Lemma allocates_spec i : allocates m i = true <-> exists g, calls m i g /\ In g ["kzalloc"; "__kmalloc"; "kmalloc"]%string.
  Proof.
    unfold allocates, alloc_function. split.
    - intros H. apply andb_true_iff in H. destruct H as (C & H). assert (Ci : i_code i = Call) by (unfold is_call in C; destruct (i_code i); congruence).
      destruct (called m i) as [g|] eqn:G; [|discriminate]. exists g. split; [apply called_spec; auto|apply mem_In; exact H].
    - intros (g & G & A). pose proof (proj1 G) as C. unfold is_call. rewrite C. apply (called_spec m i g C) in G. rewrite G. apply mem_In. exact A.
  Qed.

  (** ** All instructions *)
  Lemma visit_incl i next dep : incl dep (visit m f i next dep).
  Proof.
    unfold visit. set (dep1 := if allocates m i then _ else dep).
    assert (I : incl dep dep1).
    { unfold dep1. destruct (allocates m i); [|apply incl_refl]. destruct next as [c|]; [|apply incl_refl].
      destruct (i_code c) as [ | | | | |[|]| | | | | | | | | ]; try apply incl_refl. intros x X. apply with_users_incl. right. exact X. }
    destruct (keeps m f i); [|exact I]. eapply incl_tran; [exact I|apply add_incl].
  Qed.
  Lemma visit_all_incl l : forall dep, incl dep (visit_all m f l dep).
  Proof. induction l as [|i l IH]; intros dep; cbn [visit_all]; [apply incl_refl|]. eapply incl_tran; [apply visit_incl|apply IH]. Qed.
  Lemma visit_keeps i next dep : In i (insts f) -> keeps m f i = true -> In (i_reg i) (visit m f i next dep).
  Proof.
    intros I K. unfold visit. rewrite K. set (dep1 := if allocates m i then _ else dep).
    apply (add_closed (S (length (insts f))) i dep1 (dep1)); [exact I|apply missing_bound|].
    intros x d _ _ X Y _. contradiction.
  Qed.
  Lemma visit_casts i c dep u : allocates m i = true -> i_code c = Cast true -> In u (insts f) -> u = c \/ uses u c -> In (i_reg u) (visit m f i (Some c) dep).
  Proof.
    intros A C U H. unfold visit. rewrite A, C.
    assert (K : In (i_reg u) (add_with_users f c dep)).
    { destruct H as [->|H]; [apply with_users_incl; left; reflexivity|].
      apply (with_users_closed c dep dep); [intros x d _ _ X Y _; contradiction|exact U|exact H]. }
    destruct (keeps m f i); [|exact K]. apply add_incl. exact K.
  Qed.
  Lemma visit_only (i : inst) (next : option inst) dep : In i (insts f) -> (forall c, next = Some c -> follows f i c /\ In c (insts f)) ->
    (forall d, In d (insts f) -> In (i_reg d) dep -> needed m f d) -> forall d, In d (insts f) -> In (i_reg d) (visit m f i next dep) -> needed m f d.
  Proof.
    intros I F D. unfold visit. set (dep1 := if allocates m i then _ else dep).
    assert (QO : forall i d, needed m f i -> In d (insts f) -> uses i d -> needed m f d) by (intros; eapply needed_operand; eauto).
    assert (D1 : forall d, In d (insts f) -> In (i_reg d) dep1 -> needed m f d).
    { unfold dep1. destruct (allocates m i) eqn:A; [|exact D]. destruct next as [c|]; [|exact D].
      destruct (i_code c) as [ | | | | |[|]| | | | | | | | | ] eqn:C; try exact D.
      destruct (F c eq_refl) as (Fc & Ic). apply allocates_spec in A. destruct A as (g & G & Ag).
      assert (AA : after_allocation m f c) by (exists i, g; auto).
      assert (D2 : forall d, In d (insts f) -> In (i_reg d) (i_reg c :: dep) -> needed m f d).
      { intros d Id [E|X]; [|auto]. assert (d = c) by (apply (same_reg (insts f)); auto). subst. apply needed_cast. exact AA. }
      unfold add_with_users. assert (US : forall u, In u (users f (VReg (i_reg c))) -> In u (insts f) /\ uses u c) by (intros u U; apply users_spec in U; exact U).
      revert D2 US. generalize (i_reg c :: dep). induction (users f (VReg (i_reg c))) as [|u l IH]; intros x D2 US d Id X; cbn [fold_left] in X; [auto|].
      revert d Id X. apply IH; [|intros v V; apply US; right; exact V].
      destruct (US u (or_introl eq_refl)) as (Iu & Uu).
      apply (add_only _ (needed m f) QO u x); [eapply needed_access; eauto|exact Iu|exact D2]. }
    destruct (keeps m f i) eqn:K; [|exact D1].
    apply (add_only _ (needed m f) QO i dep1); [apply keeps_needed; auto|exact I|exact D1].
  Qed.
  Lemma visit_closed i next dep : casts_result m f -> In i (insts f) -> (forall c, next = Some c -> follows f i c) -> closed [] dep -> closed [] (visit m f i next dep).
  Proof.
    intros CR I F C. unfold visit. destruct (allocates m i) eqn:A.
    2: { destruct (keeps m f i); [|exact C]. apply add_closed; [exact I|apply missing_bound|exact C]. }
    destruct next as [c|].
    2: { destruct (keeps m f i); [|exact C]. apply add_closed; [exact I|apply missing_bound|exact C]. }
    assert (CC : i_code c = Cast true \/ i_code c <> Cast true) by (destruct (i_code c) as [ | | | | |[|]| | | | | | | | | ]; auto; right; discriminate).
    destruct CC as [CC|CC].
    2: { assert (E : match i_code c with Cast true => add_with_users f c dep | _ => dep end = dep) by (destruct (i_code c) as [ | | | | |[|]| | | | | | | | | ]; congruence).
         rewrite E. destruct (keeps m f i); [|exact C]. apply add_closed; [exact I|apply missing_bound|exact C]. }
    rewrite CC. apply allocates_spec in A. destruct A as (g & G & Ag). pose proof (CR i c g (F c eq_refl) G Ag CC) as O.
    assert (K : keeps m f i = true).
    { apply call_keeps; [exact (proj1 G)|]. intros (_ & _ & _ & _ & S). 
      assert (Ic : In c (insts f)). { destruct (F c eq_refl) as (b & l1 & l2 & B). unfold insts. apply in_flat_map. exists (b, l1 ++ i :: c :: l2). split; [exact B|]. cbn. apply in_app_iff. right. right. left. reflexivity. }
      assert (U : uses c i) by (unfold uses; rewrite O; left; reflexivity). rewrite (S c Ic U) in CC. discriminate. }
    rewrite K. destruct (with_users_closed c dep [] C) as (C1 & _).
    destruct (add_closed (S (length (insts f))) i _ _ I (missing_bound _) C1) as (C2 & I2).
    intros x d Ix Id X _ U. destruct (Nat.eq_dec (i_reg x) (i_reg c)) as [E|E].
    - assert (Ic : In c (insts f)). { destruct (F c eq_refl) as (b & l1 & l2 & B). unfold insts. apply in_flat_map. exists (b, l1 ++ i :: c :: l2). split; [exact B|]. cbn. apply in_app_iff. right. right. left. reflexivity. }
      assert (x = c) by (apply (same_reg (insts f)); auto). subst x. unfold uses in U. rewrite O in U. destruct U as [U|[]]. injection U as <-. exact I2.
    - apply (C2 x d Ix Id X); [|exact U]. intros [Y|[]]. congruence.
  Qed.

  Lemma next_follows b l1 i l2 c : In (b, l1 ++ i :: l2) (f_blocks f) -> hd_error l2 = Some c -> follows f i c /\ In c (insts f).
  Proof.
    intros B H. destruct l2 as [|c' l2]; [discriminate|]. injection H as ->. split; [exists b, l1, l2; exact B|].
    unfold insts. apply in_flat_map. exists (b, l1 ++ i :: c :: l2). split; [exact B|]. cbn. apply in_app_iff. right. right. left. reflexivity.
  Qed.
  Lemma in_insts b l i : In (b, l) (f_blocks f) -> In i l -> In i (insts f).
  Proof. intros B L. unfold insts. apply in_flat_map. exists (b, l). auto. Qed.

  Lemma visit_all_only b l : forall l1 dep, In (b, l1 ++ l) (f_blocks f) -> (forall d, In d (insts f) -> In (i_reg d) dep -> needed m f d) ->
    forall d, In d (insts f) -> In (i_reg d) (visit_all m f l dep) -> needed m f d.
  Proof.
    induction l as [|i l IH]; intros l1 dep B D; cbn [visit_all]; [exact D|].
    apply (IH (l1 ++ [i])); [rewrite <- app_assoc; exact B|].
    apply visit_only; [eapply in_insts; [exact B|apply in_app_iff; right; left; reflexivity]| |exact D].
    intros c Hc. eapply next_follows; [exact B|exact Hc].
  Qed.
  Lemma visit_all_closed b l : casts_result m f -> forall l1 dep, In (b, l1 ++ l) (f_blocks f) -> closed [] dep -> closed [] (visit_all m f l dep).
  Proof.
    intros CR. induction l as [|i l IH]; intros l1 dep B C; cbn [visit_all]; [exact C|].
    apply (IH (l1 ++ [i])); [rewrite <- app_assoc; exact B|].
    apply visit_closed; [exact CR|eapply in_insts; [exact B|apply in_app_iff; right; left; reflexivity]| |exact C].
    intros c Hc. eapply next_follows; [exact B|exact Hc].
  Qed.
  Lemma blocks_incl bs : forall dep, incl dep (fold_left (fun d (kb : nat * list inst) => visit_all m f (snd kb) d) bs dep).
  Proof. induction bs as [|kb bs IH]; intros dep; cbn [fold_left]; [apply incl_refl|]. eapply incl_tran; [apply visit_all_incl|apply IH]. Qed.
  Lemma visited_all b l1 i l2 (x : nat) : In (b, l1 ++ i :: l2) (f_blocks f) -> (forall dep, In x (visit m f i (hd_error l2) dep)) -> In x (control_kept m f).
  Proof.
    intros B H. unfold control_kept. revert B. generalize (@nil nat) as dep. induction (f_blocks f) as [|kb bs IH]; intros dep B; [destruct B|].
    cbn [fold_left]. destruct B as [->|B]; [|apply IH; exact B]. apply blocks_incl. cbn [snd]. clear IH bs.
    revert dep. induction l1 as [|j l1 IHl]; intros dep; cbn [app visit_all]; [apply visit_all_incl; apply H|]. apply IHl.
  Qed.

  Lemma kept_only d : In d (insts f) -> In (i_reg d) (control_kept m f) -> needed m f d.
  Proof.
    unfold control_kept.
    assert (K : forall bs dep, incl bs (f_blocks f) -> (forall d, In d (insts f) -> In (i_reg d) dep -> needed m f d) ->
      forall d, In d (insts f) -> In (i_reg d) (fold_left (fun d kb => visit_all m f (snd kb) d) bs dep) -> needed m f d).
    { induction bs as [|[b l] bs IH]; intros dep B D; cbn [fold_left]; [exact D|].
      apply IH; [intros x X; apply B; right; exact X|]. apply (visit_all_only b l []); [apply B; left; reflexivity|exact D]. }
    apply K; [apply incl_refl|intros ? _ []].
  Qed.
  Lemma kept_closed : casts_result m f -> closed [] (control_kept m f).
  Proof.
    intros CR. unfold control_kept.
    assert (K : forall bs dep, incl bs (f_blocks f) -> closed [] dep -> closed [] (fold_left (fun d kb => visit_all m f (snd kb) d) bs dep)).
    { induction bs as [|[b l] bs IH]; intros dep B D; cbn [fold_left]; [exact D|].
      apply IH; [intros x X; apply B; right; exact X|]. apply (visit_all_closed b l CR []); [apply B; left; reflexivity|exact D]. }
    apply K; [apply incl_refl|]. intros ? ? _ _ [].
  Qed.
  Lemma in_block i : In i (insts f) -> exists b l1 l2, In (b, l1 ++ i :: l2) (f_blocks f).
  Proof.
    unfold insts. intros H. apply in_flat_map in H. destruct H as ([b l] & B & L). apply in_split in L. destruct L as (l1 & l2 & E). cbn in E. subst l. eauto.
  Qed.
  Lemma keeps_kept i : In i (insts f) -> keeps m f i = true -> In (i_reg i) (control_kept m f).
  Proof.
    intros I K. destruct (in_block i I) as (b & l1 & l2 & B). eapply visited_all; [exact B|]. intros dep. apply visit_keeps; auto.
  Qed.
  Lemma casts_kept c u : after_allocation m f c -> In u (insts f) -> u = c \/ uses u c -> In (i_reg u) (control_kept m f).
  Proof.
    intros (i & g & (b & l1 & l2 & B) & G & A & C) U H. eapply visited_all; [exact B|]. intros dep. cbn [hd_error].
    apply visit_casts; auto. apply allocates_spec. eauto.
  Qed.
  Lemma needed_kept : casts_result m f -> forall d, needed m f d -> In (i_reg d) (control_kept m f).
  Proof.
    intros CR d H. assert (II : forall d, needed m f d -> In d (insts f)).
    { clear d H. intros d H. induction H as [| | | |c (i & g & (b & l1 & l2 & B) & _)| |]; auto. eapply in_insts; [exact B|]. apply in_app_iff. right. right. left. reflexivity. }
    induction H as [i I T|i I C R|i I C|i g I C G1 G2 T|c A|c u A U H|i d H IH D U].
    - apply keeps_kept; [exact I|apply end_keeps; exact T].
    - apply keeps_kept; [exact I|apply call_keeps; auto].
    - apply keeps_kept; [exact I|apply debug_keeps; exact C].
    - apply keeps_kept; [exact I|eapply function_keeps; eauto].
    - eapply casts_kept; [exact A|apply II; apply needed_cast; exact A|left; reflexivity].
    - eapply casts_kept; [exact A|exact U|right; exact H].
    - apply (kept_closed CR i d); auto.
  Qed.

  Lemma control_sliced : casts_result m f -> keeps_only (needed m f) f (control_slice m f).
  Proof.
    intros CR. split; [reflexivity|]. split; [reflexivity|]. exists (fun i => mem (i_reg i) (control_kept m f)). split.
    - intros i I. rewrite mem_In. split; [apply kept_only; exact I|apply needed_kept; exact CR].
    - unfold control_slice, erase_others. cbn [f_blocks]. apply map_ext_in. intros [b l] B. cbn [fst snd]. f_equal.
      rewrite <- (map_id (filter _ l)) at 2. apply map_ext_in. intros i H. apply filter_In in H. destruct H as (L & K). apply mem_In in K.
      assert (I : In i (insts f)) by (eapply in_insts; eauto).
      unfold erased. enough (map (erased_operand f (control_kept m f)) (i_ops i) = i_ops i) as -> by (destruct i; reflexivity).
      rewrite <- (map_id (i_ops i)) at 2. apply map_ext_in. intros v V. unfold erased_operand.
      destruct (inst_of f v) as [d|] eqn:E; [|reflexivity]. apply inst_of_In in E. destruct E as (Id & ->).
      assert (X : In (i_reg d) (control_kept m f)) by (apply (kept_closed CR i d I Id K); [intros []|exact V]).
      apply mem_In in X. rewrite X. reflexivity.
  Qed.
End Control.
