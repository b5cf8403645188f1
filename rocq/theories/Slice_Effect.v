(** * Proofs about hasSideEffect *)
From Coq Require Import String Ascii ZArith Arith Bool Lia List.
From Verif Require Import PyBase Funcomp_Model Funcomp_Spec Slice_Model Slice_Spec.
Import ListNotations.
Open Scope list_scope.
Open Scope nat_scope.

Lemma dmem_In {V} (d : dict string V) k : dmem d k = true <-> In k (dkeys d).
Proof.
  unfold dmem, dkeys. induction d as [|[k' v] d IH]; cbn [dget map fst In]; [split; [discriminate|tauto]|].
  destruct (eqb_spec k k') as [E|E].
  - subst. split; auto.
  - rewrite IH. split; [auto|]. intros [C|C]; [congruence|auto].
Qed.

Lemma callee_spec i v : callee i = Some v <-> exists ops, i_ops i = ops ++ [v].
Proof.
  unfold callee. split.
  - destruct (rev (i_ops i)) as [|x l] eqn:E; [discriminate|]. intros H. injection H as ->.
    exists (rev l). rewrite <- (rev_involutive (i_ops i)), E. reflexivity.
  - intros [ops ->]. rewrite rev_app_distr. reflexivity.
Qed.
Lemma called_spec m i g : i_code i = Call -> (called m i = Some g <-> calls m i g).
Proof.
  intros C. unfold called, calls. split.
  - destruct (callee i) as [v|] eqn:E; [|discriminate]. destruct v as [| | |[z|n]]; try discriminate.
    destruct (dmem m n) eqn:D; [|discriminate]. intros H. injection H as <-.
    split; [exact C|]. split; [apply callee_spec; exact E|apply dmem_In; exact D].
  - intros (_ & O & I). apply callee_spec in O. rewrite O. apply dmem_In in I. rewrite I. reflexivity.
Qed.
Lemma called_none m i : i_code i = Call -> (called m i = None <-> forall g, ~ calls m i g).
Proof.
  intros C. split.
  - intros N g H. apply (called_spec m i g C) in H. congruence.
  - intros N. destruct (called m i) as [g|] eqn:E; [|reflexivity]. exfalso. apply (N g). apply called_spec; auto.
Qed.

Section Effect.
  Variable m : module.
  Notation SE := (side_effect m).

  (** ** What is found is there *)
  Lemma effect_of_true rec l : (forall g v v', rec g v = Some (true, v') -> effect m g) ->
    forall v v', effect_of m rec l v = Some (true, v') ->
    exists i, In i l /\ (i_code i = Store \/ (i_code i = Call /\ ((forall h, ~ calls m i h) \/ exists h, calls m i h /\ effect m h))).
  Proof.
    intros R. induction l as [|i l IH]; intros v v' H; cbn [effect_of] in H; [discriminate|].
    assert (K : forall x y, effect_of m rec l x = Some (true, y) -> exists i0, In i0 (i :: l) /\ (i_code i0 = Store \/ (i_code i0 = Call /\ ((forall h, ~ calls m i0 h) \/ exists h, calls m i0 h /\ effect m h)))).
    { intros x y E. destruct (IH x y E) as (i0 & I & Q). exists i0. split; [right; exact I|exact Q]. }
    destruct (i_code i) eqn:C; try (eapply K; exact H).
    - exists i. split; [left; reflexivity|left; exact C].
    - destruct (called m i) as [g|] eqn:E.
      + destruct (mem g v); [eapply K; exact H|].
        destruct (rec g v) as [[[|] v1]|] eqn:Q; [|eapply K; exact H|discriminate].
        exists i. split; [left; reflexivity|]. right. split; [exact C|]. right. exists g. split; [apply called_spec; auto|eapply R; exact Q].
      + exists i. split; [left; reflexivity|]. right. split; [exact C|]. left. apply called_none; auto.
  Qed.
  Lemma side_effect_true n : forall g v v', SE n g v = Some (true, v') -> effect m g.
  Proof.
    induction n as [|n IH]; intros g v v' H; cbn [side_effect] in H; [discriminate|].
    destruct (dget m g) as [[b|]|] eqn:D.
    - destruct (effect_of_true (SE n) (insts b) IH (g :: v) v' H) as (i & I & [S|(C & [U|(h & K & E)])]).
      + eapply effect_store; eauto.
      + eapply effect_unknown; eauto.
      + eapply effect_call; eauto.
    - injection H as H _. apply effect_declared; [congruence|].
      apply negb_true_iff in H. unfold ignored in H. apply mem_not_In in H. exact H.
    - injection H as H _. apply effect_declared; [congruence|].
      apply negb_true_iff in H. unfold ignored in H. apply mem_not_In in H. exact H.
  Qed.

  (** ** Nothing is missed *)
  Definition silent (g : string) : Prop := (forall b, dget m g <> Some (Some b)) /\ ignored g = true.
  Definition quiet (v : list string) (i : inst) : Prop :=
    i_code i <> Store /\ (i_code i = Call -> exists h, calls m i h /\ (In h v \/ silent h)).
  Definition fine (v : list string) (g : string) : Prop := exists b, dget m g = Some (Some b) /\ forall i, In i (insts b) -> quiet v i.
  Lemma quiet_incl v v' i : incl v v' -> quiet v i -> quiet v' i.
  Proof. intros I (A & B). split; [exact A|]. intros C. destruct (B C) as (h & K & [H|H]); exists h; split; auto. Qed.
  Lemma fine_incl v v' g : incl v v' -> fine v g -> fine v' g.
  Proof. intros I (b & D & Q). exists b. split; [exact D|]. intros i H. eapply quiet_incl; eauto. Qed.

  Definition fine_call (rec : string -> list string -> option (bool * list string)) : Prop := forall g v v', rec g v = Some (false, v') ->
    incl v v' /\ (In g v' \/ silent g) /\ forall h, In h v' -> In h v \/ fine v' h.
  Lemma effect_of_false rec l : fine_call rec -> forall v v', effect_of m rec l v = Some (false, v') ->
    incl v v' /\ (forall i, In i l -> quiet v' i) /\ forall h, In h v' -> In h v \/ fine v' h.
  Proof.
    intros R. induction l as [|i l IH]; intros v v' H; cbn [effect_of] in H.
    { injection H as <-. split; [apply incl_refl|]. split; [intros i []|auto]. }
    assert (K : i_code i <> Store -> i_code i <> Call -> effect_of m rec l v = Some (false, v') ->
                incl v v' /\ (forall j, In j (i :: l) -> quiet v' j) /\ forall h, In h v' -> In h v \/ fine v' h).
    { intros S C E. destruct (IH v v' E) as (A & B & D). split; [exact A|]. split; [|exact D].
      intros j [<-|J]; [|auto]. split; [exact S|]. intros; congruence. }
    destruct (i_code i) eqn:C; try (apply K; [discriminate|discriminate|exact H]).
    - discriminate.
    - destruct (called m i) as [g|] eqn:E; [|discriminate].
      assert (CG : calls m i g) by (apply called_spec; auto).
      destruct (mem g v) eqn:Mg.
      + apply mem_In in Mg. destruct (IH v v' H) as (A & B & D). split; [exact A|]. split; [|exact D].
        intros j [<-|J]; [|auto]. split; [congruence|]. intros _. exists g. split; [exact CG|left; auto].
      + destruct (rec g v) as [[[|] v1]|] eqn:Q; [discriminate| |discriminate].
        destruct (R g v v1 Q) as (A1 & B1 & D1). destruct (IH v1 v' H) as (A & B & D).
        split; [eapply incl_tran; eauto|]. split.
        * intros j [<-|J]; [|auto]. split; [congruence|]. intros _. exists g. split; [exact CG|]. destruct B1; [left; auto|right; auto].
        * intros h Hh. destruct (D h Hh) as [X|X]; [|right; exact X]. destruct (D1 h X) as [Y|Y]; [left; exact Y|right; eapply fine_incl; eauto].
  Qed.
  Lemma side_effect_false n : fine_call (SE n).
  Proof.
    induction n as [|n IH]; intros g v v' H; cbn [side_effect] in H; [discriminate|].
    destruct (dget m g) as [[b|]|] eqn:D.
    - destruct (effect_of_false (SE n) (insts b) IH (g :: v) v' H) as (A & B & C).
      split; [intros x X; apply A; right; exact X|]. split; [left; apply A; left; reflexivity|].
      intros h Hh. destruct (C h Hh) as [[<-|X]|X]; [right; exists b; split; [exact D|exact B]|left; exact X|right; exact X].
    - injection H as H <-. apply negb_false_iff in H. split; [apply incl_refl|]. split; [right; split; [congruence|exact H]|auto].
    - injection H as H <-. apply negb_false_iff in H. split; [apply incl_refl|]. split; [right; split; [congruence|exact H]|auto].
  Qed.
  Lemma fine_quiet v : (forall h, In h v -> fine v h) -> forall g, effect m g -> ~ (In g v \/ silent g).
  Proof.
    intros F g E. induction E as [g D N|g b i D I S|g b i D I C U|g b i h D I C E IH]; intros [H|[H K]].
    - destruct (F g H) as (b & B & _). exact (D b B).
    - unfold ignored in K. apply mem_In in K. auto.
    - destruct (F g H) as (b' & B & Q). assert (b' = b) by congruence; subst b'. destruct (Q i I). auto.
    - exact (H b D).
    - destruct (F g H) as (b' & B & Q). assert (b' = b) by congruence; subst b'. destruct (Q i I) as (_ & X). destruct (X C) as (h & Y & _). exact (U h Y).
    - exact (H b D).
    - destruct (F g H) as (b' & B & Q). assert (b' = b) by congruence; subst b'. destruct (Q i I) as (_ & X). destruct (X (proj1 C)) as (h' & Y & Z).
      assert (h' = h) as ->. { apply (called_spec m i) in Y; [|exact (proj1 C)]. apply (called_spec m i) in C; [|exact (proj1 C)]. congruence. }
      auto.
    - exact (H b D).
  Qed.

  (** ** An answer is always found *)
  Definition left_over (v : list string) : nat := length (filter (fun g => negb (mem g v)) (dkeys m)).
  Lemma filter_less {A} (p q : A -> bool) l : (forall x, q x = true -> p x = true) -> length (filter q l) <= length (filter p l).
  Proof.
    intros I. induction l as [|x l IH]; cbn [filter]; [lia|].
    destruct (q x) eqn:Q; [rewrite (I x Q); cbn [length]; lia|]. destruct (p x); cbn [length]; lia.
  Qed.
  Lemma filter_short {A} (p : A -> bool) l : length (filter p l) <= length l.
  Proof. induction l as [|x l IH]; cbn [filter length]; [lia|]. destruct (p x); cbn [length]; lia. Qed.
  Lemma filter_strict {A} (p q : A -> bool) l x : (forall x, q x = true -> p x = true) -> In x l -> p x = true -> q x = false -> length (filter q l) < length (filter p l).
  Proof.
    intros I. induction l as [|y l IH]; intros X P Q; [destruct X|]. cbn [filter]. destruct X as [->|X].
    - rewrite P, Q. cbn [length]. pose proof (filter_less p q l I). lia.
    - specialize (IH X P Q). destruct (q y) eqn:E; [rewrite (I y E); cbn [length]; lia|]. destruct (p y); cbn [length]; lia.
  Qed.
  Lemma left_over_incl v v' : incl v v' -> left_over v' <= left_over v.
  Proof.
    intros I. apply filter_less. intros x H. apply negb_true_iff in H. apply mem_not_In in H. apply negb_true_iff, mem_not_In. auto.
  Qed.
  Lemma side_effect_incl n : forall g v b v', SE n g v = Some (b, v') -> incl v v'.
  Proof.
    induction n as [|n IH]; intros g v b v' H; cbn [side_effect] in H; [discriminate|].
    destruct (dget m g) as [[f|]|]; [|injection H as _ <-; apply incl_refl|injection H as _ <-; apply incl_refl].
    assert (K : forall l x b y, effect_of m (SE n) l x = Some (b, y) -> incl x y).
    { induction l as [|i l IHl]; intros x c y E; cbn [effect_of] in E; [injection E as _ <-; apply incl_refl|].
      destruct (i_code i); try (eapply IHl; exact E); try (injection E as _ <-; apply incl_refl).
      destruct (called m i) as [h|]; [|injection E as _ <-; apply incl_refl].
      destruct (mem h x); [eapply IHl; exact E|]. destruct (SE n h x) as [[[|] y']|] eqn:Q; [injection E as _ <-; eapply IH; exact Q| |discriminate].
      eapply incl_tran; [eapply IH; exact Q|eapply IHl; exact E]. }
    intros x X. apply (K _ _ _ _ H). right. exact X.
  Qed.
  Lemma side_effect_ends n : forall g v, ~ In g v -> left_over v < n -> exists r, SE n g v = Some r.
  Proof.
    induction n as [|n IH]; intros g v N L; [lia|]. cbn [side_effect].
    destruct (dget m g) as [[f|]|] eqn:D; [|eauto|eauto].
    assert (L1 : left_over (g :: v) < n).
    { enough (left_over (g :: v) < left_over v) by lia. apply filter_strict with (x := g).
      - intros x H. apply negb_true_iff in H. apply mem_not_In in H. apply negb_true_iff, mem_not_In. intros X. apply H. right. exact X.
      - apply dmem_In. unfold dmem. rewrite D. reflexivity.
      - apply negb_true_iff, mem_not_In. exact N.
      - apply negb_false_iff, mem_In. left. reflexivity. }
    revert L1. generalize (g :: v). induction (insts f) as [|i l IHl]; intros x Lx; cbn [effect_of]; [eauto|].
    destruct (i_code i); try (apply IHl; exact Lx); [eauto|].
    destruct (called m i) as [h|]; [|eauto]. destruct (mem h x) eqn:Mh; [apply IHl; exact Lx|].
    apply mem_not_In in Mh. destruct (IH h x Mh Lx) as [[[|] y] E]; rewrite E; [eauto|].
    apply IHl. pose proof (left_over_incl x y (side_effect_incl _ _ _ _ _ E)). lia.
  Qed.

  Lemma has_side_effect_spec g : has_side_effect m g = true <-> effect m g.
  Proof.
    unfold has_side_effect. destruct (side_effect_ends (S (length m)) g []) as [[b v] E].
    { intros []. }
    { unfold left_over. assert (H : length (filter (fun x => negb (mem x [])) (dkeys m)) <= length (dkeys m)) by (clear; induction (dkeys m) as [|x l IH]; cbn [filter mem negb length] in *; lia). unfold dkeys in *. rewrite map_length in H. lia. }
    rewrite E. destruct b; split; intros H; try reflexivity; try discriminate.
    - eapply side_effect_true; exact E.
    - exfalso. destruct (side_effect_false _ _ _ _ E) as (_ & A & B). apply (fine_quiet v) in H; [auto|].
      intros h Hh. destruct (B h Hh) as [[]|F]; exact F.
  Qed.
End Effect.
