(** Assertions at compile time. *)
From Coq Require Import String Ascii ZArith Arith Bool Lia List.
From Verif Require Import PyBase Funcomp_Model Funcomp_Spec Passes_Model Passes_Spec Passes_Merge.
Import ListNotations.
Open Scope list_scope.
Open Scope nat_scope.

Lemma by_id_some m id g : NoDup (map g_id m) -> by_id m id = Some g <-> In g m /\ g_id g = id.
Proof.
  unfold by_id. intros ND. split.
  - intros F. apply find_some in F as [I E]. apply String.eqb_eq in E. auto.
  - intros [I E]. induction m as [|h m IH]; [destruct I|]. cbn [map] in ND. apply NoDup_cons_iff in ND as [N1 N2]. cbn [find]. destruct I as [->|I]; [rewrite E, String.eqb_refl; reflexivity|].
    destruct (String.eqb_spec (g_id h) id) as [Q|Q]; [exfalso; apply N1; rewrite Q, <- E; apply in_map; exact I|apply IH; assumption].
Qed.
Lemma by_name_some m n g : NoDup (map g_name m) -> by_name m n = Some g <-> In g m /\ g_name g = n.
Proof.
  unfold by_name. intros ND. split.
  - intros F. apply find_some in F as [I E]. apply String.eqb_eq in E. auto.
  - intros [I E]. induction m as [|h m IH]; [destruct I|]. cbn [map] in ND. apply NoDup_cons_iff in ND as [N1 N2]. cbn [find]. destruct I as [->|I]; [rewrite E, String.eqb_refl; reflexivity|].
    destruct (String.eqb_spec (g_name h) n) as [Q|Q]; [exfalso; apply N1; rewrite Q, <- E; apply in_map; exact I|apply IH; assumption].
Qed.
Lemma assert_iff n : assert_function n = true <-> has_text n "__compiletime_assert" /\ n <> "__compiletime_assert"%string.
Proof. unfold assert_function. rewrite andb_true_iff, contains_spec, negb_true_iff, String.eqb_neq. reflexivity. Qed.

Definition to (o : string) (l : list string) (x : string) : string := if mem x l then o else x.
Definition refers (o : string) (l : list string) (m : gmodule) : gmodule := map (fun g => with_body (option_map (referring (to o l)) (g_body g)) g) m.
Definition is_assert (m : gmodule) (id : string) : bool := match by_id m id with Some g => assert_function (g_name g) | None => false end.
Lemma refers_nil o m : refers o [] m = m.
Proof.
  unfold refers. rewrite <- (map_id m) at 2. apply map_ext. intros [a b c d e]. unfold with_body. cbn. f_equal. destruct e as [f|]; [|reflexivity]. cbn. f_equal. rewrite <- (referring_id f) at 2. apply referring_ext. reflexivity.
Qed.
Lemma refers_ids o l m : map g_id (refers o l m) = map g_id m. Proof. unfold refers. rewrite map_map. reflexivity. Qed.
Lemma refers_names o l m : map g_name (refers o l m) = map g_name m. Proof. unfold refers. rewrite map_map. reflexivity. Qed.
Lemma refers_is o l m id : is_assert (refers o l m) id = is_assert m id.
Proof. unfold is_assert, by_id, refers. induction m as [|g m IH]; [reflexivity|]. cbn. destruct (String.eqb (g_id g) id); [reflexivity|exact IH]. Qed.
Lemma refers_name o l m n : option_map g_id (by_name (refers o l m) n) = option_map g_id (by_name m n).
Proof. unfold by_name, refers. induction m as [|g m IH]; [reflexivity|]. cbn. destruct (String.eqb (g_name g) n); [reflexivity|exact IH]. Qed.
Lemma refers_step o l m id : ~ In o l -> id <> o -> replace_uses id o (refers o l m) = refers o (l ++ [id]) m.
Proof.
  intros NI NO. unfold replace_uses, map_bodies, refers. rewrite map_map. apply map_ext. intros [a b c d e]. unfold with_body. cbn. f_equal. destruct e as [f|]; [|reflexivity]. cbn. f_equal. rewrite referring_map, referring_comp. apply referring_ext.
  intros x. unfold to, one. assert (MM : mem x (l ++ [id]) = mem x l || String.eqb x id) by (apply eq_true_iff_eq; rewrite orb_true_iff, !mem_In, String.eqb_eq, in_app_iff; cbn; intuition).
  rewrite MM. destruct (mem x l); cbn [orb]; [|reflexivity]. destruct (String.eqb_spec o id); congruence.
Qed.
Lemma exists_fold m o todo : by_name m "__compiletime_assert" = Some o -> NoDup (map g_id m) ->
  forall l, ~ In (g_id o) l -> fold_left unify_assert todo (refers (g_id o) l m) = refers (g_id o) (l ++ filter (is_assert m) todo) m.
Proof.
  intros B ND. induction todo as [|id todo IH]; intros l NI; cbn [fold_left filter]; [rewrite app_nil_r; reflexivity|].
  assert (BI : by_id m (g_id o) = Some o) by (apply by_id_some; [exact ND|]; unfold by_name in B; apply find_some in B; split; [apply B|reflexivity]).
  assert (NO : is_assert m (g_id o) = false).
  { unfold is_assert. rewrite BI. apply not_true_iff_false. rewrite assert_iff. intros [_ Q]. apply Q. unfold by_name in B. apply find_some in B as [_ B]. apply String.eqb_eq in B. exact B. }
  assert (U : unify_assert (refers (g_id o) l m) id = if is_assert m id then replace_uses id (g_id o) (refers (g_id o) l m) else refers (g_id o) l m).
  { unfold unify_assert. rewrite <- (refers_is (g_id o) l). unfold is_assert. destruct (by_id (refers (g_id o) l m) id) as [g|]; [|reflexivity]. destruct (assert_function (g_name g)); [|reflexivity].
    pose proof (refers_name (g_id o) l m "__compiletime_assert") as Q. rewrite B in Q. cbn in Q. destruct (by_name (refers _ l m) _) as [o'|]; [|discriminate]. cbn in Q. injection Q as ->. reflexivity. }
  rewrite U. destruct (is_assert m id) eqn:A; [|apply IH; exact NI]. assert (id <> g_id o) by (intros ->; congruence).
  rewrite refers_step by assumption. rewrite IH; [rewrite <- app_assoc; reflexivity|]. intros Q. apply in_app_or in Q as [Q|[Q|[]]]; congruence.
Qed.
(** With a function of the name. *)
Lemma unify_with m o : by_name m "__compiletime_assert" = Some o -> NoDup (map g_id m) -> unify_asserts m = refers (g_id o) (filter (is_assert m) (map g_id m)) m.
Proof. intros B ND. unfold unify_asserts. rewrite <- (refers_nil (g_id o) m) at 2. rewrite (exists_fold m o); auto. Qed.

Definition named_assert (id : string) (m : gmodule) : gmodule := map (fun h => if String.eqb (g_id h) id then with_name "__compiletime_assert" h else h) m.
Lemma named_ids id m : map g_id (named_assert id m) = map g_id m.
Proof. unfold named_assert. rewrite map_map. apply map_ext. intros g. destruct (String.eqb (g_id g) id); reflexivity. Qed.
Lemma skip_fold m todo : (forall id, In id todo -> is_assert m id = false) -> fold_left unify_assert todo m = m.
Proof.
  induction todo as [|id todo IH]; intros H; [reflexivity|]. cbn [fold_left].
  assert (E : unify_assert m id = m). { unfold unify_assert. specialize (H id (or_introl eq_refl)). unfold is_assert in H. destruct (by_id m id); [rewrite H|]; reflexivity. }
  rewrite E. apply IH. intros x X. apply H. right. exact X.
Qed.
Lemma unify_first m1 o m2 : let m := m1 ++ o :: m2 in NoDup (map g_id m) -> NoDup (map g_name m) -> (forall g, In g m -> g_name g <> "__compiletime_assert"%string) -> asserting o -> (forall g, In g m1 -> ~ asserting g) ->
  unify_asserts m = refers (g_id o) (filter (is_assert (named_assert (g_id o) m)) (map g_id m2)) (named_assert (g_id o) m).
Proof.
  intros m ND NN NE A F. unfold unify_asserts. unfold m at 1. rewrite map_app. cbn [map]. rewrite fold_left_app. rewrite (skip_fold m (map g_id m1)).
  2:{ intros id I. apply in_map_iff in I as (g & <- & I). unfold is_assert. rewrite (proj2 (by_id_some m (g_id g) g ND)); [|split; [apply in_or_app; left; exact I|reflexivity]]. apply not_true_iff_false. rewrite assert_iff. intros [Q _]. exact (F g I Q). }
  cbn [fold_left]. assert (Io : In o m) by (apply in_or_app; right; left; reflexivity).
  assert (BN : by_name m "__compiletime_assert" = None). { destruct (by_name m _) as [g|] eqn:Q; [|reflexivity]. apply by_name_some in Q as [Q1 Q2]; [|exact NN]. exfalso. exact (NE g Q1 Q2). }
  assert (U : unify_assert m (g_id o) = named_assert (g_id o) m).
  { unfold unify_assert. rewrite (proj2 (by_id_some m (g_id o) o ND)) by auto. rewrite (proj2 (assert_iff (g_name o))) by (split; [exact A|apply NE; exact Io]). rewrite BN. reflexivity. }
  rewrite U. set (o' := with_name "__compiletime_assert" o). assert (B : by_name (named_assert (g_id o) m) "__compiletime_assert" = Some o').
  { unfold by_name, named_assert. assert (OO : forall g, In g m -> g_id g = g_id o -> g = o) by (intros g I E; assert (X : by_id m (g_id o) = Some g) by (apply by_id_some; auto); assert (Y : by_id m (g_id o) = Some o) by (apply by_id_some; auto); congruence).
    clear -OO Io NE. induction m as [|h l IH]; [destruct Io|]. cbn [map find]. destruct (String.eqb_spec (g_id h) (g_id o)) as [Q|Q].
    - rewrite (OO h (or_introl eq_refl) Q). cbn. reflexivity.
    - destruct (String.eqb_spec (g_name h) "__compiletime_assert") as [Z|Z]; [exfalso; exact (NE h (or_introl eq_refl) Z)|]. apply IH; [intros g I; apply NE; right; exact I| |intros g I; apply OO; right; exact I]. destruct Io as [->|Io]; [congruence|exact Io]. }
  rewrite <- (refers_nil (g_id o) (named_assert (g_id o) m)). change (g_id o) with (g_id o') in *. rewrite (exists_fold _ o'); [|exact B|rewrite named_ids; exact ND|intros []]. rewrite refers_nil. reflexivity.
Qed.
Lemma unify_whole m o : NoDup (map g_id m) -> NoDup (map g_name m) -> the_assert m o ->
  exists sub, (forall g, In g m -> asserting g -> sub (g_id g) = g_id o) /\ (forall x, (forall g, In g m -> asserting g -> g_id g <> x) -> sub x = x) /\
    Forall2 (fun g g' => but_name sub g g' /\ g_name g' = (if String.eqb (g_id g) (g_id o) then "__compiletime_assert" else g_name g)%string) m (unify_asserts m).
Proof.
  intros ND NN TA.
  assert (OO : forall g h, In g m -> In h m -> g_id g = g_id h -> g = h) by (intros g h I J E; assert (X : by_id m (g_id h) = Some g) by (apply by_id_some; auto); assert (Y : by_id m (g_id h) = Some h) by (apply by_id_some; auto); congruence).
  assert (IA : forall g, In g m -> is_assert m (g_id g) = true <-> asserting g /\ g_name g <> "__compiletime_assert"%string) by (intros g I; unfold is_assert; rewrite (proj2 (by_id_some m (g_id g) g ND)) by auto; apply assert_iff).
  destruct TA as [[Io No]|(NE & m1 & m2 & Em & A & F)].
  - pose proof (proj2 (by_name_some m _ o NN) (conj Io No)) as B. rewrite (unify_with m o B ND). exists (to (g_id o) (filter (is_assert m) (map g_id m))).
    assert (FF : forall x, In x (filter (is_assert m) (map g_id m)) <-> exists g, In g m /\ g_id g = x /\ asserting g /\ g_name g <> "__compiletime_assert"%string).
    { intros x. rewrite filter_In, in_map_iff. split; [intros [(g & <- & I) Q]; exists g; rewrite IA in Q by exact I; tauto|intros (g & I & <- & Q); split; [exists g; auto|apply IA; assumption]]. }
    split; [|split].
    + intros g I Ag. unfold to. destruct (mem (g_id g) _) eqn:M; [reflexivity|]. apply not_true_iff_false in M. rewrite mem_In, FF in M.
      destruct (string_dec (g_name g) "__compiletime_assert") as [Q|Q]; [|exfalso; apply M; exists g; auto]. f_equal. assert (X : by_name m "__compiletime_assert" = Some g) by (apply by_name_some; auto). congruence.
    + intros x Hx. unfold to. destruct (mem x _) eqn:M; [|reflexivity]. apply mem_In, FF in M as (g & I & E & Ag & _). exfalso. exact (Hx g I Ag E).
    + unfold refers. assert (G : forall l, incl l m -> Forall2 (fun g g' => but_name (to (g_id o) (filter (is_assert m) (map g_id m))) g g' /\ g_name g' = (if String.eqb (g_id g) (g_id o) then "__compiletime_assert" else g_name g)%string) l (map (fun g => with_body (option_map (referring (to (g_id o) (filter (is_assert m) (map g_id m)))) (g_body g)) g) l)).
      { induction l as [|g l IH]; intros L; cbn [map]; constructor; [|apply IH; intros z Z; apply L; right; exact Z]. split; [repeat split|]. cbn. destruct (String.eqb_spec (g_id g) (g_id o)) as [Q|Q]; [|reflexivity]. rewrite (OO g o); [exact No|apply L; left; reflexivity|exact Io|exact Q]. }
      apply G. apply incl_refl.
  - assert (Io : In o m) by (rewrite Em; apply in_or_app; right; left; reflexivity).
    assert (UE : unify_asserts m = refers (g_id o) (filter (is_assert (named_assert (g_id o) m)) (map g_id m2)) (named_assert (g_id o) m)) by (rewrite Em; apply unify_first; rewrite <- ?Em; assumption).
    rewrite UE. set (L := filter _ _). exists (to (g_id o) L).
    assert (IN : forall g, In g m -> g_id g <> g_id o -> is_assert (named_assert (g_id o) m) (g_id g) = true <-> asserting g).
    { intros g I N. unfold is_assert. rewrite (proj2 (by_id_some (named_assert (g_id o) m) (g_id g) g ltac:(rewrite named_ids; exact ND))); [rewrite assert_iff; split; [tauto|intros Q; split; [exact Q|apply NE; exact I]]|]. split; [|reflexivity]. unfold named_assert. apply in_map_iff. exists g. destruct (String.eqb_spec (g_id g) (g_id o)); [contradiction|auto]. }
    assert (FF : forall x, In x L <-> exists g, In g m2 /\ g_id g = x /\ asserting g).
    { assert (D : forall g, In g m2 -> In g m /\ g_id g <> g_id o). { intros g I. split; [rewrite Em; apply in_or_app; right; right; exact I|]. intros E. rewrite Em, map_app in ND. cbn in ND. apply NoDup_remove_2 in ND. apply ND. apply in_or_app. right. rewrite <- E. apply in_map. exact I. }
      intros x. unfold L. rewrite filter_In, in_map_iff. split; [intros [(g & <- & I) Q]; exists g; destruct (D g I) as [D1 D2]; rewrite IN in Q by assumption; tauto|intros (g & I & <- & Q); destruct (D g I) as [D1 D2]; split; [exists g; auto|apply IN; assumption]]. }
    split; [|split].
    + intros g I Ag. unfold to. destruct (mem (g_id g) L) eqn:M; [reflexivity|]. apply not_true_iff_false in M. rewrite mem_In, FF in M. rewrite Em in I. apply in_app_or in I as [I|[<-|I]]; [exfalso; exact (F g I Ag)|reflexivity|exfalso; apply M; exists g; auto].
    + intros x Hx. unfold to. destruct (mem x L) eqn:M; [|reflexivity]. apply mem_In, FF in M as (g & I & E & Ag). exfalso. apply (Hx g); [rewrite Em; apply in_or_app; right; right; exact I|exact Ag|exact E].
    + unfold refers, named_assert. rewrite map_map. generalize (to (g_id o) L). intros sub. clear. induction m as [|g l IH]; cbn [map]; constructor; [|exact IH]. destruct (String.eqb (g_id g) (g_id o)); (split; [repeat split|reflexivity]).
Qed.
Lemma unify_none m : NoDup (map g_id m) -> (forall g, In g m -> ~ asserting g) -> unify_asserts m = m.
Proof.
  intros ND H. apply skip_fold. intros id I. apply in_map_iff in I as (g & <- & I). unfold is_assert. rewrite (proj2 (by_id_some m (g_id g) g ND)) by auto. apply not_true_iff_false. rewrite assert_iff. intros [Q _]. exact (H g I Q).
Qed.
