(** Proofs about merging (for Passes_Props). *)
From Coq Require Import String Ascii ZArith Arith Bool Lia Permutation List.
From Verif Require Import PyBase Source_Model Source_Spec Source_Proofs Funcomp_Model Funcomp_Spec Passes_Model Passes_Spec.
Import ListNotations.
Open Scope list_scope.
Open Scope nat_scope.

Lemma mergeable_iff g : mergeable g = true <-> ~ exempt (g_name g).
Proof.
  unfold mergeable, is_abstraction, intrinsic_name, exempt. rewrite negb_true_iff. split.
  - intros E (p & r & I & N). rewrite !orb_false_iff in E. destruct E as [[E1 E2] E3].
    assert (A : startswith (g_name g) p = true) by (apply startswith_spec; eauto). cbn in I. destruct I as [<-|[<-|[<-|[]]]]; congruence.
  - intros N. rewrite !orb_false_iff. repeat split; apply not_true_iff_false; intros E; apply startswith_spec in E; destruct E as [r E]; apply N; eexists _, r; (split; [|exact E]); cbn; tauto.
Qed.
Lemma same_type_iff a b : same_type a b = true <-> a = b.
Proof.
  unfold same_type, strings_eqb. destruct a as [r p v], b as [r' p' v']; cbn [t_ret t_params t_variadic]. rewrite !andb_true_iff. split.
  - intros [[A B] C]. apply String.eqb_eq in A. apply eqb_prop in C. revert B. destruct (list_eq_dec string_dec p p'); intros B; congruence.
  - intros [= -> -> ->]. rewrite String.eqb_refl, eqb_reflx. destruct (list_eq_dec string_dec p' p'); tauto.
Qed.

(** ** Groups *)
Definition member (k : string) (g : gfun) : bool := mergeable g && String.eqb (base_name (g_name g)) k.
Lemma groups_get m k : dget (groups m) k = match filter (member k) m with [] => None | l => Some l end.
Proof.
  unfold groups. enough (H : forall l d, dget (fold_left (fun d g => if mergeable g then push d (base_name (g_name g)) g else d) l d) k =
    match dget d k with Some x => Some (x ++ filter (member k) l) | None => match filter (member k) l with [] => None | l => Some l end end).
  { rewrite H. reflexivity. }
  induction l as [|g l IH]; intros d; cbn [fold_left filter]; [destruct (dget d k); [rewrite app_nil_r|]; reflexivity|]. rewrite IH. change (member k g) with (mergeable g && String.eqb (base_name (g_name g)) k)%bool. unfold push.
  destruct (mergeable g); cbn [andb]; [|reflexivity]. rewrite dget_dset. change (eqb k (base_name (g_name g))) with (String.eqb k (base_name (g_name g))). rewrite String.eqb_sym.
  destruct (String.eqb_spec (base_name (g_name g)) k) as [->|N]; [|reflexivity]. destruct (dget d k); [rewrite <- app_assoc|]; reflexivity.
Qed.
Lemma groups_nodup m : NoDup (dkeys (groups m)).
Proof.
  unfold groups. enough (H : forall l (d : dict string (list gfun)), NoDup (dkeys d) -> NoDup (dkeys (fold_left (fun d g => if mergeable g then push d (base_name (g_name g)) g else d) l d))) by (apply H; constructor).
  induction l as [|g l IH]; intros d N; [exact N|]. apply IH. destruct (mergeable g); [apply dset_NoDup|]; exact N.
Qed.
Lemma groups_in m k l : In (k, l) (groups m) -> l = filter (member k) m.
Proof. intros I. apply (dget_In_NoDup _ _ _ (groups_nodup m)) in I. rewrite groups_get in I. destruct (filter (member k) m); congruence. Qed.

(** ** Names do not matter for the rest *)
Definition strip (m : gmodule) : gmodule := map (with_name "") m.
Definition one_pair (m : gmodule) (p : string * string) : gmodule := erase (fst p) (replace_uses (fst p) (snd p) m).
Lemma strip_set_name u id n m : strip (set_name u id n m) = strip m.
Proof. unfold strip, set_name. cbv zeta. rewrite map_map. apply map_ext. intros g. destruct (String.eqb (g_id g) id); reflexivity. Qed.
Lemma strip_one m p : strip (one_pair m p) = one_pair (strip m) p.
Proof.
  unfold one_pair, erase, replace_uses, map_bodies, strip. rewrite !map_map. induction m as [|g m IH]; [reflexivity|]. cbn -[String.eqb]. destruct (String.eqb (g_id g) (fst p)); cbn -[String.eqb]; [exact IH|]. f_equal; exact IH.
Qed.
Lemma strip_fold ps : forall m, strip (fold_left one_pair ps m) = fold_left one_pair ps (strip m).
Proof. induction ps as [|p ps IH]; intros m; [reflexivity|]. cbn [fold_left]. rewrite IH, strip_one. reflexivity. Qed.

Definition pairs_of (l : list gfun) : list (string * string) :=
  match l with [] => [] | first :: r => map (fun g => (g_id g, g_id first)) (filter (fun g => same_type (g_type first) (g_type g)) r) end.
Lemma merge_ones first r : forall m, fold_left (merge_one first) r m = fold_left one_pair (map (fun g => (g_id g, g_id first)) (filter (fun g => same_type (g_type first) (g_type g)) r)) m.
Proof. induction r as [|g r IH]; intros m; [reflexivity|]. cbn [fold_left filter]. unfold merge_one at 2. destruct (same_type (g_type first) (g_type g)); apply IH. Qed.
Lemma strip_group u m k l : strip (merge_group u m (k, l)) = fold_left one_pair (pairs_of l) (strip m).
Proof.
  unfold merge_group. cbn [snd]. destruct l as [|a [|b r]]; [reflexivity..|]. rewrite strip_set_name. cbn [tl]. rewrite merge_ones. apply strip_fold.
Qed.
Lemma strip_groups u gs : forall m, strip (fold_left (merge_group u) gs m) = fold_left one_pair (flat_map (fun kl => pairs_of (snd kl)) gs) (strip m).
Proof. induction gs as [|[k l] gs IH]; intros m; [reflexivity|]. cbn [fold_left flat_map snd]. rewrite IH, strip_group, fold_left_app. reflexivity. Qed.

(** ** One substitution *)
Definition sub_of (ps : list (string * string)) (x : string) : string := match dget ps x with Some a => a | None => x end.
Lemma referring_map sub f : map_insts (map_inst sub) f = referring sub f.
Proof.
  unfold map_insts, referring, map_inst. f_equal.
Qed.
Lemma with_body_id b g : g_id (with_body b g) = g_id g. Proof. reflexivity. Qed.
Lemma refer_comp s t v : refer s (refer t v) = refer (fun x => s (t x)) v.
Proof. destruct v as [| | |[]]; reflexivity. Qed.
Lemma referring_comp s t f : referring s (referring t f) = referring (fun x => s (t x)) f.
Proof.
  unfold referring. cbn [f_sig f_args f_blocks]. f_equal. rewrite map_map. apply map_ext. intros [k l]. cbn. f_equal. rewrite map_map. apply map_ext. intros i. cbn. f_equal.
  rewrite map_map. apply map_ext. intros v. apply refer_comp.
Qed.
Lemma referring_ext s t f : (forall x, s x = t x) -> referring s f = referring t f.
Proof.
  intros H. unfold referring. f_equal. apply map_ext. intros [k l]. cbn. f_equal. apply map_ext. intros i. cbn. f_equal. apply map_ext. intros [| | |[]]; cbn; try reflexivity. rewrite H. reflexivity.
Qed.
Lemma referring_id f : referring (fun x => x) f = f.
Proof.
  destruct f as [s a bs]. unfold referring. cbn. f_equal. rewrite <- (map_id bs) at 2. apply map_ext. intros [k l]. cbn. f_equal. rewrite <- (map_id l) at 2. apply map_ext. intros [r c t o]. cbn. f_equal.
  rewrite <- (map_id o) at 2. apply map_ext. intros [| | |[]]; reflexivity.
Qed.
Lemma one_pairs ps : NoDup (dkeys ps) -> (forall b a, In (b, a) ps -> ~ In a (dkeys ps)) ->
  forall m, fold_left one_pair ps m = map (fun g => with_body (option_map (referring (sub_of ps)) (g_body g)) g) (filter (fun g => negb (mem (g_id g) (dkeys ps))) m).
Proof.
  induction ps as [|[b a] ps IH]; intros ND F m.
  - cbn. rewrite <- (map_id m) at 1. replace (filter (fun _ => true) m) with m by (induction m; cbn; congruence). apply map_ext. intros [i n t s [f|]]; unfold with_body; cbn; [|reflexivity].
    unfold sub_of. cbn. f_equal. f_equal. symmetry. apply (referring_id f).
  - cbn [fold_left]. rewrite IH; [|inversion ND; assumption|intros b' a' I J; apply (F b' a'); [right; exact I|right; exact J]].
    unfold one_pair, erase, replace_uses, map_bodies. cbn [fst snd]. clear IH.
    assert (Q : forall x, sub_of ps (one b a x) = sub_of ((b, a) :: ps) x).
    { intros x. unfold one, sub_of. cbn [dget]. change (eqb x b) with (String.eqb x b). destruct (String.eqb_spec x b) as [->|N]; [|reflexivity].
      rewrite (proj2 (dget_None ps a)); [reflexivity|]. intros J. apply (F b a); [left; reflexivity|right; exact J]. }
    induction m as [|g m IH]; [reflexivity|]. cbn [map filter]. rewrite with_body_id. change (mem (g_id g) (dkeys ((b, a) :: ps))) with (String.eqb (g_id g) b || mem (g_id g) (dkeys ps)).
    destruct (String.eqb_spec (g_id g) b) as [E|N]; cbn [negb orb].
    + exact IH.
    + cbn [filter]. rewrite with_body_id. destruct (mem (g_id g) (dkeys ps)); cbn [negb]; [exact IH|]. cbn [map]. f_equal; [|exact IH].
      unfold with_body. cbn [g_id g_name g_type g_asm g_body]. f_equal. destruct (g_body g); [|reflexivity]. cbn. f_equal. rewrite referring_map, referring_comp. apply referring_ext. exact Q.
Qed.

(** ** What is merged into what *)
Lemma NoDup_app_intro {A} (l l' : list A) : NoDup l -> NoDup l' -> (forall x, In x l -> In x l' -> False) -> NoDup (l ++ l').
Proof.
  intros N N' H. induction N as [|x l X N IH]; [exact N'|]. cbn. constructor; [|apply IH; intros y I J; apply (H y); [right; exact I|exact J]].
  intros I. apply in_app_iff in I. destruct I as [I|I]; [contradiction|]. apply (H x); [left; reflexivity|exact I].
Qed.
Section Merged.
  Variable m : gmodule.
  Hypothesis ids : NoDup (map g_id m).
  Lemma same_id g h : In g m -> In h m -> g_id g = g_id h -> g = h.
  Proof.
    clear -ids. induction m as [|x l IH]; intros I J E; [contradiction|]. inversion ids as [|? ? N D]; subst. destruct I as [->|I], J as [->|J]; [reflexivity| | |apply IH; assumption].
    - exfalso. apply N. rewrite E. apply in_map. exact J.
    - exfalso. apply N. rewrite <- E. apply in_map. exact I.
  Qed.
  Lemma filter_ids p : NoDup (map g_id (filter p m)).
  Proof.
    clear -ids. induction m as [|x l IH]; [constructor|]. inversion ids as [|? ? N D]; subst. cbn. destruct (p x); [|apply IH; exact D]. cbn. constructor; [|apply IH; exact D].
    intros I. apply N. apply in_map_iff in I. destruct I as (y & E & I). apply filter_In in I. rewrite <- E. apply in_map. tauto.
  Qed.
  Lemma member_iff k g : member k g = true <-> ~ exempt (g_name g) /\ base_of (g_name g) k.
  Proof. unfold member. rewrite andb_true_iff, mergeable_iff, String.eqb_eq, base_of_iff. tauto. Qed.
  Lemma first_iff k g : first_named m k g <-> exists r, filter (member k) m = g :: r.
  Proof.
    split.
    - intros (m1 & m2 & -> & N & B & H). exists (filter (member k) m2). rewrite filter_app. replace (filter (member k) m1) with (@nil gfun).
      + cbn. rewrite (proj2 (member_iff k g)) by tauto. reflexivity.
      + symmetry. clear -H. induction m1 as [|x l IH]; [reflexivity|]. cbn. destruct (member k x) eqn:E; [|apply IH; intros h I; apply H; right; exact I].
        apply member_iff in E. exfalso. apply (H x); [left; reflexivity| |]; tauto.
    - intros (r & E). clear ids. induction m as [|x l IH]; [discriminate|]. cbn in E. destruct (member k x) eqn:Q.
      + injection E as -> _. apply member_iff in Q. exists [], l. split; [reflexivity|]. split; [tauto|]. split; [tauto|]. intros h [].
      + destruct (IH E) as (m1 & m2 & -> & A & B & C). exists (x :: m1), m2. split; [reflexivity|]. split; [exact A|]. split; [exact B|]. intros h [->|I]; [|apply C; exact I].
        intros N1 N2. assert (member k h = true) by (apply member_iff; tauto). congruence.
  Qed.
  Definition pairs (gs : list (string * list gfun)) : list (string * string) := flat_map (fun kl => pairs_of (snd kl)) gs.
  Lemma pairs_of_in k b a : In (b, a) (pairs_of (filter (member k) m)) <->
    exists gb ga, g_id gb = b /\ g_id ga = a /\ first_named m k ga /\ In gb m /\ member k gb = true /\ g_id gb <> g_id ga /\ g_type ga = g_type gb.
  Proof.
    unfold pairs_of. pose proof (filter_ids (member k)) as ND. destruct (filter (member k) m) as [|x r] eqn:E.
    - split; [contradiction|]. intros (gb & ga & _ & _ & F & _). apply first_iff in F. destruct F as [r F]. congruence.
    - rewrite in_map_iff. split.
      + intros (g & [= <- <-] & I). apply filter_In in I. destruct I as [I T]. apply same_type_iff in T. exists g, x. split; [reflexivity|]. split; [reflexivity|].
        split; [apply first_iff; eauto|]. assert (J : In g (filter (member k) m)) by (rewrite E; right; exact I). apply filter_In in J. split; [tauto|]. split; [tauto|]. split; [|exact T].
        intros Q. inversion ND as [|? ? N D]; subst. apply N. rewrite <- Q. apply in_map. exact I.
      + intros (gb & ga & <- & <- & F & I & Q & N & T). apply first_iff in F. destruct F as [r' F]. rewrite E in F. injection F as -> <-. exists gb. split; [reflexivity|]. apply filter_In. split; [|apply same_type_iff; exact T].
        assert (J : In gb (filter (member k) m)) by (apply filter_In; tauto). rewrite E in J. destruct J as [->|J]; [contradiction|exact J].
  Qed.
  Variable gs : list (string * list gfun).
  Hypothesis perm : Permutation gs (groups m).
  Lemma gs_in k l : In (k, l) gs -> l = filter (member k) m.
  Proof. intros I. apply groups_in. apply (Permutation_in _ perm). exact I. Qed.
  Lemma gs_keys : NoDup (dkeys gs).
  Proof. apply (Permutation_NoDup (Permutation_map fst (Permutation_sym perm))). apply groups_nodup. Qed.
  Lemma gs_has k g : In g m -> member k g = true -> In (k, filter (member k) m) gs.
  Proof.
    intros I Q. apply (Permutation_in _ (Permutation_sym perm)). apply dget_In. rewrite groups_get. assert (J : In g (filter (member k) m)) by (apply filter_In; tauto).
    destruct (filter (member k) m); [contradiction|reflexivity].
  Qed.
  Lemma pairs_in b a : In (b, a) (pairs gs) <-> exists gb ga, merged m gb ga /\ g_id gb = b /\ g_id ga = a.
  Proof.
    unfold pairs. rewrite in_flat_map. split.
    - intros ([k l] & I & J). cbn in J. rewrite (gs_in k l I) in J. apply pairs_of_in in J. destruct J as (gb & ga & E1 & E2 & F & M & Q & N & T). exists gb, ga. split; [|tauto].
      apply member_iff in Q. split; [exact M|]. split; [exact N|]. split; [tauto|]. exists k. tauto.
    - intros (gb & ga & (M & N & X & k & B & F & T) & E1 & E2). assert (Q : member k gb = true) by (apply member_iff; tauto).
      exists (k, filter (member k) m). split; [apply (gs_has k gb); assumption|]. cbn [snd]. apply pairs_of_in. exists gb, ga. tauto.
  Qed.
  Lemma pairs_keys : NoDup (dkeys (pairs gs)).
  Proof.
    assert (H : forall k l, In (k, l) gs -> l = filter (member k) m) by exact gs_in. pose proof gs_keys as ND. revert H ND. clear perm. induction gs as [|[k l] gs' IH]; intros H ND; [constructor|].
    inversion ND as [|? ? N D]; subst. unfold pairs, dkeys. cbn [flat_map snd]. rewrite map_app. apply NoDup_app_intro.
    - rewrite (H k l) by (left; reflexivity). unfold pairs_of. pose proof (filter_ids (member k)) as F. destruct (filter (member k) m) as [|x r]; [constructor|]. rewrite map_map. cbn.
      inversion F as [|? ? _ F2]; subst. clear -F2. induction r as [|y r IH]; [constructor|]. inversion F2 as [|? ? N D]; subst. cbn. destruct (same_type (g_type x) (g_type y)); [|apply IH; exact D]. cbn. constructor; [|apply IH; exact D].
      intros I. apply N. apply in_map_iff in I. destruct I as (z & <- & I). apply in_map. apply filter_In in I. tauto.
    - apply IH; [intros k' l' I; apply H; right; exact I|exact D].
    - intros b I J. apply in_map_iff in I. destruct I as ([b1 a1] & E1 & I). apply in_map_iff in J. destruct J as ([b2 a2] & E2 & J). cbn in E1, E2. subst b1 b2.
      rewrite (H k l) in I by (left; reflexivity). apply pairs_of_in in I. destruct I as (gb & ga & E1 & _ & _ & M1 & Q1 & _).
      apply in_flat_map in J. destruct J as ([k' l'] & I' & J). cbn in J. rewrite (H k' l') in J by (right; exact I'). apply pairs_of_in in J. destruct J as (gb' & ga' & E2 & _ & _ & M2 & Q2 & _).
      assert (gb = gb') by (apply same_id; congruence). subst gb'. apply member_iff in Q1, Q2. assert (k = k') by (destruct Q1 as [_ Q1], Q2 as [_ Q2]; apply base_of_iff in Q1, Q2; congruence). subst k'.
      apply N. change (In (fst (k, l')) (map fst gs')). apply in_map. exact I'.
  Qed.
  Lemma first_unique k g h : first_named m k g -> first_named m k h -> g = h.
  Proof. intros F G. apply first_iff in F, G. destruct F as [r F], G as [r' G]. congruence. Qed.
  Lemma first_in k g : first_named m k g -> In g m.
  Proof. clear. intros (m1 & m2 & -> & _). apply in_elt. Qed.
  Lemma targets b a : In (b, a) (pairs gs) -> ~ In a (dkeys (pairs gs)).
  Proof.
    intros I J. unfold dkeys in J. apply in_map_iff in J. destruct J as ([a2 c] & E & J). cbn in E. subst a2. apply pairs_in in I, J.
    destruct I as (gb & ga & (M & N & X & k & B & F & T) & E1 & E2), J as (ga' & gc & (M' & N' & X' & k' & B' & F' & T') & E1' & E2').
    assert (ga' = ga) by (apply same_id; [exact M'|apply (first_in k); exact F|congruence]). subst ga'.
    assert (k' = k) by (destruct F as (? & ? & _ & _ & B2 & _); apply base_of_iff in B2, B'; congruence). subst k'. apply N'. f_equal. apply (first_unique k); assumption.
  Qed.
  Lemma merging_sub : merging m (sub_of (pairs gs)).
  Proof.
    split.
    - intros b a M. unfold sub_of. rewrite (dget_In_NoDup _ (g_id b) (g_id a) pairs_keys); [reflexivity|]. apply pairs_in. eauto.
    - intros x H. unfold sub_of. destruct (dget (pairs gs) x) as [a|] eqn:E; [|reflexivity]. apply dget_In, pairs_in in E. destruct E as (gb & ga & M & E & _). exfalso. apply (H gb ga M E).
  Qed.
  Lemma strips F : forall L X : gmodule, strip X = map (fun g => with_body (option_map F (g_body g)) g) (strip L) ->
    Forall2 (fun g g' => g_id g' = g_id g /\ g_type g' = g_type g /\ g_asm g' = g_asm g /\ g_body g' = option_map F (g_body g)) L X.
  Proof.
    induction L as [|g L IH]; intros [|x X] E; try discriminate E; [constructor|]. unfold strip in E. cbn [map] in E. injection E as E1 E2 E3 E4 E. constructor; [cbn in *; tauto|]. apply IH. exact E.
  Qed.
  Lemma filter_strip p l : (forall g n, p (with_name n g) = p g) -> filter p (strip l) = strip (filter p l).
  Proof. intros H. induction l as [|g l IH]; [reflexivity|]. unfold strip. cbn. rewrite H. destruct (p g); cbn; [f_equal|]; exact IH. Qed.
  Lemma merge_kept u : exists sub, merging m sub /\ Forall2 (but_name sub) (filter (fun g => String.eqb (sub (g_id g)) (g_id g)) m) (fold_left (merge_group u) gs m).
  Proof.
    exists (sub_of (pairs gs)). split; [exact merging_sub|]. apply strips. rewrite strip_groups. fold (pairs gs). rewrite (one_pairs _ pairs_keys targets). f_equal.
    rewrite filter_strip by reflexivity. f_equal. apply filter_ext. intros g. destruct (mem (g_id g) (dkeys (pairs gs))) eqn:E.
    - apply mem_In in E. symmetry. apply String.eqb_neq. apply dkeys_dget in E. destruct E as [a E]. unfold sub_of. rewrite E. intros ->. apply dget_In in E. apply (targets _ _ E).
      unfold dkeys. apply in_map_iff. exists (g_id g, g_id g). tauto.
    - symmetry. apply String.eqb_eq. unfold sub_of. rewrite (proj2 (dget_None _ _)); [reflexivity|]. intros I. apply mem_In in I. congruence.
  Qed.

  (** ** Names *)
  Variable u : list string -> string -> string.
  Hypothesis agree : names_agree m.
  Definition named (D : list (string * list gfun)) (g : gfun) (n : string) : Prop :=
    (exists k r, In (k, g :: r) D /\ r <> [] /\ n = k) \/ ((forall k r, In (k, g :: r) D -> r = []) /\ n = g_name g).
  Lemma merge_ones_in first r : forall cur g', In g' (fold_left (merge_one first) r cur) ->
    (exists g0, In g0 cur /\ g_id g0 = g_id g' /\ g_name g0 = g_name g') /\ forall h, In h r -> g_type h = g_type first -> g_id h <> g_id g'.
  Proof.
    induction r as [|x r IH]; intros cur g' I; [cbn in I; split; [eauto|intros h []]|]. cbn [fold_left] in I. destruct (IH _ _ I) as ((g0 & I0 & E1 & E2) & H).
    unfold merge_one in I0. destruct (same_type (g_type first) (g_type x)) eqn:T.
    - unfold erase, replace_uses, map_bodies in I0. apply filter_In in I0. destruct I0 as [I0 N]. apply in_map_iff in I0. destruct I0 as (y & <- & I0). apply negb_true_iff, String.eqb_neq in N. split.
      + exists y. split; [exact I0|]. split; [exact E1|exact E2].
      + intros h [<-|J] Q; [|apply H; assumption]. intros Z. apply N. rewrite Z. exact E1.
    - split; [eauto|]. intros h [<-|J] Q; [|apply H; assumption]. exfalso. assert (same_type (g_type first) (g_type x) = true) by (apply same_type_iff; congruence). congruence.
  Qed.
  Lemma set_name_in id n cur g' : In g' (set_name u id n cur) -> (forall h, In h cur -> g_id h <> id -> g_name h <> n) ->
    exists g0, In g0 cur /\ g_id g0 = g_id g' /\ g_name g' = if String.eqb (g_id g0) id then n else g_name g0.
  Proof.
    intros I H. unfold set_name in I. cbv zeta in I. destruct (mem n (map g_name (filter (fun g => negb (String.eqb (g_id g) id)) cur))) eqn:E.
    - exfalso. apply mem_In, in_map_iff in E. destruct E as (h & E & J). apply filter_In in J. destruct J as [J N]. apply negb_true_iff, String.eqb_neq in N. apply (H h J N E).
    - apply in_map_iff in I. destruct I as (g0 & Q & I). exists g0. split; [exact I|]. destruct (String.eqb (g_id g0) id); subst g'; split; reflexivity.
  Qed.
  Lemma names_step rest : forall D cur, D ++ rest = gs -> (forall g', In g' cur -> exists g, In g m /\ g_id g = g_id g' /\ named D g (g_name g')) ->
    forall g', In g' (fold_left (merge_group u) rest cur) -> exists g, In g m /\ g_id g = g_id g' /\ named gs g (g_name g').
  Proof.
    induction rest as [|[k l] rest IH]; intros D cur E H; [rewrite app_nil_r in E; subst D; exact H|]. cbn [fold_left]. apply (IH (D ++ [(k, l)])); [rewrite <- app_assoc; exact E|].
    assert (IN : forall x, In x D -> In x gs) by (intros x I; rewrite <- E; apply in_app_iff; tauto).
    assert (INk : In (k, l) gs) by (rewrite <- E; apply in_elt).
    assert (NK : forall l', ~ In (k, l') D).
    { intros l' I. pose proof gs_keys as ND. rewrite <- E in ND. unfold dkeys in ND. rewrite map_app in ND. cbn [map fst] in ND. apply NoDup_remove_2 in ND. apply ND. apply in_app_iff. left.
      change k with (fst (k, l')). apply in_map. exact I. }
    pose proof (gs_in k l INk) as L. unfold merge_group. cbn [snd]. destruct l as [|a [|b r]].
    - intros g' I. destruct (H g' I) as (g & M & Q & N). exists g. split; [exact M|]. split; [exact Q|]. destruct N as [(k' & r' & N)|[N Z]].
      + left. exists k', r'. split; [apply in_app_iff; tauto|tauto].
      + right. split; [|exact Z]. intros k' r' J. apply in_app_iff in J. destruct J as [J|[J|[]]]; [apply (N k'); exact J|discriminate].
    - intros g' I. destruct (H g' I) as (g & M & Q & N). exists g. split; [exact M|]. split; [exact Q|]. destruct N as [(k' & r' & N)|[N Z]].
      + left. exists k', r'. split; [apply in_app_iff; tauto|tauto].
      + right. split; [|exact Z]. intros k' r' J. apply in_app_iff in J. destruct J as [J|[J|[]]]; [apply (N k'); exact J|congruence].
    - cbn [tl]. intros g' I. assert (MA : In a m /\ member k a = true) by (apply filter_In; rewrite <- L; left; reflexivity). destruct MA as [Ma Qa]. apply member_iff in Qa as Qb. destruct Qb as [Xa Ba].
      assert (Bk : base_name (g_name a) = k) by (apply base_of_iff; exact Ba).
      apply set_name_in in I.
      + destruct I as (g1 & I1 & E1 & N1). destruct (merge_ones_in _ _ _ _ I1) as ((g0 & I0 & E0 & N0) & HB). destruct (H g0 I0) as (g & M & Q & N).
        exists g. split; [exact M|]. split; [congruence|]. rewrite N1. destruct (String.eqb_spec (g_id g1) (g_id a)) as [Z|Z].
        * left. exists k, (b :: r). assert (g = a) by (apply same_id; [exact M|exact Ma|congruence]). subst g. split; [apply in_app_iff; right; left; reflexivity|]. split; [discriminate|exact Bk].
        * rewrite <- N0. destruct N as [(k' & r' & N)|[N W]].
          -- left. exists k', r'. split; [apply in_app_iff; tauto|tauto].
          -- right. split; [|exact W]. intros k' r' J. apply in_app_iff in J. destruct J as [J|[J|[]]]; [apply (N k'); exact J|]. injection J as _ J _. exfalso. apply Z. congruence.
      + intros h J Z W. rewrite Bk in W. destruct (merge_ones_in _ _ _ _ J) as ((g0 & I0 & E0 & N0) & HB). destruct (H g0 I0) as (g & M & Q & N). rewrite N0, W in N.
        destruct N as [(k' & r' & N & _ & ->)|[_ N]]; [exact (NK _ N)|].
        destruct (agree a g Ma M Xa) as (Xg & Bg & Tg); [rewrite <- N; exact Ba|]. rewrite <- N in Bg.
        assert (K : In g (filter (member k) m)) by (apply filter_In; split; [exact M|apply member_iff; rewrite <- N in *; tauto]). rewrite <- L in K. destruct K as [->|K]; [congruence|].
        apply (HB g K Tg). congruence.
  Qed.
  Lemma merge_names g' : In g' (fold_left (merge_group u) gs m) ->
    exists g, In g m /\ g_id g = g_id g' /\ ((exists base, shares m base g /\ g_name g' = base) \/ ((forall base, ~ shares m base g) /\ g_name g' = g_name g)).
  Proof.
    intros I. destruct (names_step gs [] m eq_refl) with (g' := g') as (g & M & E & N).
    - intros x J. exists x. split; [exact J|]. split; [reflexivity|]. right. split; [intros k r []|reflexivity].
    - exact I.
    - exists g. split; [exact M|]. split; [exact E|]. destruct N as [(k & r & J & R & N)|[H N]].
      + left. exists k. split; [|exact N]. pose proof (gs_in _ _ J) as L. split; [apply first_iff; eauto|]. destruct r as [|h r]; [congruence|]. exists h.
        assert (K : In h (filter (member k) m)) by (rewrite <- L; right; left; reflexivity). pose proof (filter_ids (member k)) as ND. rewrite <- L in ND. apply filter_In in K. destruct K as [K Q].
        split; [exact K|]. split; [|apply member_iff; exact Q]. inversion ND as [|? ? X _]; subst. intros Z. apply X. left. exact Z.
      + right. split; [|exact N]. intros k [F (h & Mh & Z & Xh & Bh)]. apply first_iff in F. destruct F as [r F].
        assert (J : In (k, g :: r) gs) by (rewrite <- F; apply (gs_has k h); [exact Mh|apply member_iff; tauto]). pose proof (H k r J). subst r.
        assert (K : In h (filter (member k) m)) by (apply filter_In; split; [exact Mh|apply member_iff; tauto]). rewrite F in K. destruct K as [->|[]]. congruence.
  Qed.
End Merged.
