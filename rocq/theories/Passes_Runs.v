(** Runs of merged modules (for Passes_Props). *)
From Coq Require Import String Ascii ZArith Arith Bool Lia Permutation List.
From Verif Require Import PyBase Source_Model Source_Spec Source_Proofs Funcomp_Model Funcomp_Spec Passes_Model Passes_Spec Passes_Sim Passes_Merge.
Import ListNotations.
Open Scope list_scope.
Open Scope nat_scope.

Lemma Forall2_map_map {A B C D} (R : B -> D -> Prop) (f : A -> B) (g : C -> D) l l' : Forall2 (fun x y => R (f x) (g y)) l l' -> Forall2 R (map f l) (map g l').
Proof. induction 1; constructor; assumption. Qed.
Lemma Forall2_last {A B} (R : A -> B -> Prop) d d' l l' : R d d' -> Forall2 R l l' -> R (last l d) (last l' d').
Proof. intros D H. induction H as [|x y l l' X H IH]; [exact D|]. cbn. destruct H; [exact X|exact IH]. Qed.
Lemma Forall2_removelast {A B} (R : A -> B -> Prop) l l' : Forall2 R l l' -> Forall2 R (removelast l) (removelast l').
Proof. intros H. induction H as [|x y l l' X H IH]; [constructor|]. cbn. destruct H; [constructor|constructor; [exact X|exact IH]]. Qed.
Lemma Forall2_nth {A B} (R : A -> B -> Prop) d d' l l' k : R d d' -> Forall2 R l l' -> R (nth k l d) (nth k l' d').
Proof. intros D H. revert k. induction H as [|x y l l' X H IH]; intros [|k]; cbn; auto. Qed.

Lemma body_of_in m id f : body_of m id = Some f -> exists g, In g m /\ g_id g = id /\ g_body g = Some f.
Proof. induction m as [|g m IH]; [discriminate|]. cbn. destruct (String.eqb_spec (g_id g) id); [intros E; exists g; tauto|]. intros E. destruct (IH E) as (h & I & H). exists h. tauto. Qed.
Lemma body_of_id m g : NoDup (map g_id m) -> In g m -> body_of m (g_id g) = g_body g.
Proof.
  induction m as [|h m IH]; intros N I; [contradiction|]. inversion N as [|? ? X D]; subst. cbn. destruct I as [->|I]; [rewrite String.eqb_refl; reflexivity|].
  destruct (String.eqb_spec (g_id h) (g_id g)) as [E|E]; [|apply IH; assumption]. exfalso. apply X. rewrite E. apply in_map. exact I.
Qed.
Lemma body_of_none m id : (forall g, In g m -> g_id g <> id) -> body_of m id = None.
Proof. induction m as [|h m IH]; intros H; [reflexivity|]. cbn. destruct (String.eqb_spec (g_id h) id) as [E|E]; [exfalso; apply (H h); [left; reflexivity|exact E]|]. apply IH. intros g I. apply H. right. exact I. Qed.

Section Refer.
  Variables (S : semantics) (consts : const -> V S) (sub : string -> string) (RV : V S -> V S -> Prop) (RM : M S -> M S -> Prop).
  Variables e1 e2 : code -> string -> list (V S) -> M S -> option (V S * M S).
  Hypothesis H_undef : RV (undef S) (undef S).
  Hypothesis H_const : forall c, RV (consts c) (consts (sub_const sub c)).
  Hypothesis H_choose : forall c rest vs vs', Forall2 RV vs vs' -> choose S c rest vs = choose S c rest vs'.
  Hypothesis H_exec : forall c rest vs vs' mem mem', Forall2 RV vs vs' -> RM mem mem' -> both (fun x y => RV (fst x) (fst y) /\ RM (snd x) (snd y)) (e1 c rest vs mem) (e2 c rest vs' mem').
  Variables args args' : nat -> V S.
  Hypothesis H_args : forall k, RV (args k) (args' k).
  Lemma refer_eval env env' v : (forall r, RV (env r) (env' r)) -> RV (eval (sem_with S e1) consts args env v) (eval (sem_with S e2) consts args' env' (refer sub v)).
  Proof. intros E. destruct v as [k|r|b|c]; cbn; auto. destruct c; cbn; [exact (H_const (CInt z))|exact (H_const (CGlobal name))]. Qed.
  Lemma refer_ops env env' ops : (forall r, RV (env r) (env' r)) -> Forall2 RV (map (eval (sem_with S e1) consts args env) ops) (map (eval (sem_with S e2) consts args' env') (map (refer sub) ops)).
  Proof. intros E. induction ops as [|v ops IH]; [constructor|]. cbn [map]. constructor; [apply refer_eval; exact E|exact IH]. Qed.
  Lemma refer_blocks ops : blocks_of (map (refer sub) ops) = blocks_of ops.
  Proof. unfold blocks_of. induction ops as [|v ops IH]; [reflexivity|]. cbn. rewrite IH. destruct v as [| | |[]]; reflexivity. Qed.
  Lemma refer_runs f n mem mem' : RM mem mem' -> outcomes (Forall2 RV) RM (result (sem_with S e1) consts args f n mem) (result (sem_with S e2) consts args' (referring sub f) n mem').
  Proof.
    intros R. apply (result_match (sem_with S e1) (sem_with S e2) consts consts args args' RV RM (Forall2 RV) (fun _ => false)); [|exact H_undef|exact R].
    unfold referring. cbn [f_blocks]. induction (f_blocks f) as [|[k l] bs IH]; [constructor|]. cbn [map]. constructor; [|exact IH]. split; [reflexivity|]. cbn [fst snd].
    induction l as [|i l IHl]; [constructor|]. cbn [map]. constructor; [|exact IHl]. clear IH IHl bs l. constructor; try reflexivity.
    - intros _. unfold incoming. destruct i as [r c s ops]. cbn [i_code i_ops]. destruct c; try (constructor; fail). cbn. revert from. induction ops as [|v ops IH]; intros [|b from]; try (constructor; fail).
      cbn [combine map]. constructor; [|apply IH]. split; [reflexivity|]. intros e e' E. cbn [fst]. apply refer_eval. intros r0. apply E. reflexivity.
    - intros _ _ _ e e' a a' E Q. cbn [i_code i_rest i_ops]. assert (Z := H_exec (plain (i_code i)) (i_rest i) _ _ _ _ (refer_ops e e' (i_ops i) (fun r => E r eq_refl)) Q).
      unfold both in Z. cbn [exec sem_with]. destruct (e1 _ _ _ a) as [[v x]|], (e2 _ _ _ a') as [[v' x']|]; cbn in Z; try contradiction; [|exact I]. split; [intros _|]; tauto.
    - intros T e e' E. cbn [i_code i_rest i_ops]. assert (Z := refer_ops e e' (i_ops i) (fun r => E r eq_refl)). destruct (i_code i) eqn:C; try (right; split; [congruence|]; split; [congruence|]; split; [apply (H_choose _ _ _ _ Z)|]; unfold successors; cbn [i_code i_ops]; rewrite C, ?refer_blocks; reflexivity).
      left. tauto.
  Qed.
End Refer.

Section Merged.
  Variables (S : semantics) (consts : const -> V S) (target : V S -> option string) (m m' : gmodule) (sub : string -> string) (RV : V S -> V S -> Prop) (RM : M S -> M S -> Prop).
  Hypothesis ids : NoDup (map g_id m).
  Hypothesis merge : merging m sub.
  Hypothesis kept : Forall2 (but_name sub) (filter (fun g => String.eqb (sub (g_id g)) (g_id g)) m) m'.
  Hypothesis copies : copies_only S consts target m sub RV RM.

  Lemma m'_ids : map g_id m' = map g_id (filter (fun g => String.eqb (sub (g_id g)) (g_id g)) m).
  Proof. induction kept as [|g g' l l' (E & _) H IH]; [reflexivity|]. cbn. rewrite E. f_equal. apply IH. exact H. Qed.
  Lemma m'_body id : sub id = id -> body_of m' id = option_map (referring sub) (body_of m id).
  Proof.
    intros F. assert (Q : forall l l', Forall2 (but_name sub) l l' -> body_of l' id = option_map (referring sub) (body_of l id)).
    { induction 1 as [|g g' l l' (E & _ & _ & B) H IH]; [reflexivity|]. cbn. rewrite E. destruct (String.eqb (g_id g) id); [exact B|exact IH]. }
    rewrite (Q _ _ kept). f_equal. clear -F. induction m as [|g l IH]; [reflexivity|]. cbn. destruct (String.eqb_spec (g_id g) id) as [<-|N].
    - rewrite F, String.eqb_refl. cbn. rewrite String.eqb_refl. reflexivity.
    - destruct (String.eqb (sub (g_id g)) (g_id g)); cbn; [rewrite (proj2 (String.eqb_neq _ _) N)|]; exact IH.
  Qed.
  Lemma sub_idem b a : merged m b a -> sub (g_id a) = g_id a.
  Proof.
    intros (M & N & X & k & B & F & T). apply (proj2 merge). intros c d (Mc & Nc & Xc & k' & Bc & Fc & Tc) E. assert (c = a) by (apply (same_id m ids); [exact Mc|apply (first_in m k); exact F|exact E]). subst c.
    assert (k' = k) by (destruct F as (? & ? & _ & _ & B2 & _); apply base_of_iff in B2, Bc; congruence). subst k'. apply Nc. f_equal. apply (first_unique m ids k); assumption.
  Qed.
  Lemma sub_cases id : sub id = id \/ exists b a, merged m b a /\ g_id b = id /\ sub id = g_id a.
  Proof.
    destruct (String.eqb_spec (sub id) id) as [E|E]; [left; exact E|right]. destruct (in_dec string_dec id (map g_id m)) as [I|I].
    - apply in_map_iff in I. destruct I as (b & Q & I). destruct (existsb (fun g => mergeable g) [b] && true) eqn:Z.
      + cbn in Z. assert (Mb : mergeable b = true) by (destruct (mergeable b); [reflexivity|discriminate Z]).
        assert (K : member (base_name (g_name b)) b = true) by (unfold member; rewrite Mb, String.eqb_refl; reflexivity).
        destruct (filter (member (base_name (g_name b))) m) as [|a r] eqn:L; [exfalso; assert (In b []) as []; rewrite <- L; apply filter_In; tauto|].
        destruct (String.eqb_spec (g_id b) (g_id a)) as [W|W].
        * exfalso. apply E. apply (proj2 merge). intros b' a' (Mb' & Nb & Xb & k & B & F & T) E'. assert (b' = b) by (apply (same_id m ids); congruence). subst b'.
          apply base_of_iff in B. subst k. apply (first_iff m ids) in F. destruct F as [r' F]. rewrite L in F. injection F as -> _. contradiction.
        * destruct (same_type (g_type a) (g_type b)) eqn:T.
          -- exists b, a. assert (MM : merged m b a). { split; [exact I|]. split; [exact W|]. apply member_iff in K. split; [tauto|]. exists (base_name (g_name b)). split; [tauto|]. split; [apply (first_iff m ids); eauto|apply same_type_iff; exact T]. }
             split; [exact MM|]. split; [exact Q|]. rewrite <- Q. apply (proj1 merge). exact MM.
          -- exfalso. apply E. apply (proj2 merge). intros b' a' (Mb' & Nb & Xb & k & B & F & T') E'. assert (b' = b) by (apply (same_id m ids); congruence). subst b'.
             apply base_of_iff in B. subst k. apply (first_iff m ids) in F. destruct F as [r' F]. rewrite L in F. injection F as <- _. apply same_type_iff in T'. congruence.
      + exfalso. apply E. apply (proj2 merge). intros b' a' (Mb' & Nb & Xb & _) E'. assert (b' = b) by (apply (same_id m ids); congruence). subst b'. apply mergeable_iff in Xb. cbn in Z. rewrite Xb in Z. discriminate.
    - exfalso. apply E. apply (proj2 merge). intros b a (M & _) Q. apply I. rewrite <- Q. apply in_map. exact M.
  Qed.
  (** The body that is run for [id]: that of [id] up to copies. *)
  Lemma bodies id : both (fun f g => forall (T : semantics) cs args n mem, result T cs args (referring sub f) n mem = result T cs args g n mem) (body_of m id) (body_of m' (sub id)).
  Proof.
    destruct (sub_cases id) as [E|(b & a & M & E & F)].
    - rewrite E, (m'_body id E). destruct (body_of m id); cbn; [reflexivity|exact I].
    - pose proof (sub_idem b a M) as Z. rewrite F, (m'_body _ Z), <- E. assert (C := rel_copies _ _ _ _ _ _ _ copies b a M). unfold both in *. destruct (body_of m (g_id b)), (body_of m (g_id a)); cbn; try contradiction; auto.
  Qed.
  Lemma exec_same n : forall c rest vs vs' mem mem', Forall2 RV vs vs' -> RM mem mem' ->
    both (fun x y => RV (fst x) (fst y) /\ RM (snd x) (snd y)) (exec_in S consts target m n c rest vs mem) (exec_in S consts target m' n c rest vs' mem').
  Proof.
    induction n as [|n IH]; intros c rest vs vs' mem mem' H R.
    all: assert (L : RV (last vs (undef S)) (last vs' (undef S))) by (apply Forall2_last; [apply (rel_undef _ _ _ _ _ _ _ copies)|exact H]).
    all: pose proof (rel_target _ _ _ _ _ _ _ copies _ _ L) as T.
    all: assert (X := fun K => rel_exec _ _ _ _ _ _ _ copies c rest vs vs' mem mem' H R K).
    all: destruct c; try (apply X; discriminate).
    all: cbn [exec_in]; rewrite T.
    all: destruct (target (last vs (undef S))) as [id|] eqn:TL; cbn [option_map]; [|apply X; intros _ id Q; congruence].
    all: pose proof (bodies id) as B; unfold both in B; destruct (body_of m id) as [f|] eqn:BM, (body_of m' (sub id)) as [g|]; try contradiction; [|apply X; intros _ id' Q; congruence].
    - exact I.
    - rewrite <- B. assert (Z : outcomes (Forall2 RV) RM (result (sem_with S (exec_in S consts target m n)) consts (fun k => nth k (removelast vs) (undef S)) f n mem)
        (result (sem_with S (exec_in S consts target m' n)) consts (fun k => nth k (removelast vs') (undef S)) (referring sub f) n mem')).
      { apply refer_runs; [apply (rel_undef _ _ _ _ _ _ _ copies)|apply (rel_const _ _ _ _ _ _ _ copies)|apply (rel_choose _ _ _ _ _ _ _ copies)|exact IH| |exact R].
        intros k. apply Forall2_nth; [apply (rel_undef _ _ _ _ _ _ _ copies)|apply Forall2_removelast; exact H]. }
      destruct (result (sem_with S (exec_in S consts target m n)) consts _ f n mem) as [rs a| |a], (result (sem_with S (exec_in S consts target m' n)) consts _ (referring sub f) n mem') as [rs' a'| |a']; cbn in Z; try contradiction; cbn; auto.
      destruct Z as [Z1 Z2]. split; [|exact Z2]. destruct Z1; [apply (rel_undef _ _ _ _ _ _ _ copies)|assumption].
  Qed.
  Lemma merged_runs n id args args' mem mem' : (forall k, RV (args k) (args' k)) -> RM mem mem' ->
    both (outcomes (Forall2 RV) RM) (does S consts target m n id args mem) (does S consts target m' n (sub id) args' mem').
  Proof.
    intros A R. unfold does. pose proof (bodies id) as B. unfold both in B |- *. destruct (body_of m id) as [f|], (body_of m' (sub id)) as [g|]; try contradiction; [|exact I]. rewrite <- B.
    apply refer_runs; [apply (rel_undef _ _ _ _ _ _ _ copies)|apply (rel_const _ _ _ _ _ _ _ copies)|apply (rel_choose _ _ _ _ _ _ _ copies)|apply exec_same|exact A|exact R].
  Qed.
End Merged.
