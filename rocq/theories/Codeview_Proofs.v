(** * Proofs about the code of a function in the result viewer *)
From Coq Require Import String Ascii ZArith Arith Bool Lia List.
From Verif Require Import PyBase Show_Model Codeview_Model Codeview_Spec.
Import ListNotations.
Open Scope list_scope.

Lemma key_inj : forall a a' b b', plain a -> plain a' -> code_key a b = code_key a' b' -> b = b'.
Proof.
  unfold code_key. induction a as [|c a IH]; intros [|c' a'] b b' P P' E; simpl in *.
  - congruence.
  - injection E as E1 E2. destruct P'. congruence.
  - injection E as E1 E2. destruct P. congruence.
  - injection E as E1 E2. destruct P, P'. eauto.
Qed.

Section Fetch.
  Variable src : string -> string.
  Variable has_diff : string -> bool.
  Variable file : string -> string.
  Notation spec_of := (spec_of src has_diff).
  Notation step := (step src has_diff file).
  Notation run := (run src has_diff file).
  Notation right_code := (right_code src file).
  Notation right_diff := (right_diff has_diff file).

  Definition good (f : string) (c : component) : Prop :=
    c_spec c = spec_of f /\ (exists comp, plain comp /\ c_key c = code_key comp f) /\
    (forall o, c_old c = Some o -> o = right_code f) /\
    (forall d, c_diff c = Some d -> d = right_diff f).
  Definition path_of (f : string) (x : fetch) : Prop :=
    if f_is_diff x then has_diff (plain_name f) = true /\ f_path x = ("diffs/" ++ plain_name f ++ ".diff")%string
    else f_path x = ("src/" ++ src (plain_name f))%string.
  Definition Inv (w : option string) (p : page) : Prop :=
    (forall x, In x (p_fetches p) -> f_effect x < p_next p) /\
    match p_code p, w with
    | None, None => True
    | Some c, Some f => good f c /\ c_effect c < p_next p /\
                        (forall x, In x (p_fetches p) -> f_effect x = c_effect c -> path_of f x)
    | _, _ => False
    end.

  Lemma in_remove {A} (x : A) : forall l n, In x (remove_nth n l) -> In x l.
  Proof. induction l as [|y l IH]; intros [|n]; simpl; auto. intros [H|H]; eauto. Qed.
  Lemma fetches_in e s x : In x (fetches e s) -> f_effect x = e.
  Proof. unfold fetches. intros [<-|H]; [reflexivity|]. destruct (s_diff s); [destruct H as [<-|[]]; reflexivity|destruct H]. Qed.
  Lemma fetches_path e f x : In x (fetches e (spec_of f)) -> path_of f x.
  Proof.
    unfold fetches, path_of, Codeview_Model.spec_of. cbn [s_src s_diff]. intros [<-|H]; [reflexivity|].
    destruct (has_diff (plain_name f)) eqn:D; [destruct H as [<-|[]]; cbn; auto|destruct H].
  Qed.
  Lemma no_diff_right f d : (forall x, d = Some x -> x = right_diff f) ->
    forall x, no_diff (spec_of f) d = Some x -> x = right_diff f.
  Proof.
    intros H x. unfold no_diff, Codeview_Model.spec_of, Codeview_Spec.right_diff in *. cbn [s_diff].
    destruct (has_diff (plain_name f)); [apply H|congruence].
  Qed.

  Lemma step_inv w p e : (forall comp f, e = Render comp f -> plain comp) ->
    Inv w p -> Inv (wanted_from w [e]) (step p e).
  Proof.
    intros PL [I1 I2]. destruct e as [comp f| |i|i]; cbn [wanted_from Codeview_Model.step].
    - specialize (PL comp f eq_refl).
      set (od := match p_code p with Some c => if String.eqb (c_key c) (code_key comp f) then (c_old c, c_diff c) else (None, None) | None => (None, None) end).
      assert (G : (forall x, fst od = Some x -> x = right_code f) /\ (forall x, snd od = Some x -> x = right_diff f)).
      { subst od. destruct (p_code p) as [c|]; [|split; intros; discriminate].
        destruct (String.eqb_spec (c_key c) (code_key comp f)) as [E|N]; [|split; intros; discriminate].
        destruct w as [f0|]; [|destruct I2]. destruct I2 as ((_ & (c0 & P0 & K) & O & D) & _).
        rewrite K in E. apply key_inj in E; auto. subst f0. split; assumption. }
      destruct od as [o d]. destruct G as [G1 G2]. split.
      + cbn. intros x H. apply in_app_or in H. destruct H as [H|H]; [apply I1 in H; lia|apply fetches_in in H; lia].
      + cbn. split; [|split].
        * split; [reflexivity|]. cbn. split; [exists comp; auto|]. split; [exact G1|]. apply no_diff_right. exact G2.
        * lia.
        * intros x H E. apply in_app_or in H. destruct H as [H|H]; [apply I1 in H; lia|]. apply (fetches_path _ _ _ H).
    - split; cbn; auto.
    - destruct (nth_error (p_fetches p) i) as [x|] eqn:X; [|split; assumption].
      assert (Hin : In x (p_fetches p)) by (eapply nth_error_In; exact X).
      split; cbn.
      + intros y H. apply in_remove in H. auto.
      + destruct (p_code p) as [c|], w as [f|]; try contradiction; [|exact I].
        destruct I2 as ((S & K & O & D) & L & F).
        destruct (Nat.eqb_spec (f_effect x) (c_effect c)) as [E|N].
        * specialize (F x Hin E) as Px. unfold path_of in Px. destruct (f_is_diff x).
          -- destruct Px as [HD Px]. cbn. split; [|split; [exact L|]].
             ++ split; [exact S|]. split; [exact K|]. split; [exact O|]. cbn. intros d [= <-].
                unfold Codeview_Spec.right_diff. rewrite HD, Px. reflexivity.
             ++ intros y H. apply in_remove in H. auto.
          -- cbn. split; [|split; [exact L|]].
             ++ split; [exact S|]. split; [exact K|]. split; [|exact D]. cbn. intros o [= <-].
                unfold Codeview_Spec.right_code. rewrite Px. reflexivity.
             ++ intros y H. apply in_remove in H. auto.
        * split; [split; auto|]. split; [exact L|]. intros y H. apply in_remove in H. auto.
    - split; cbn.
      + intros y H. apply in_remove in H. auto.
      + destruct (p_code p) as [c|], w as [f|]; try contradiction; [|exact I].
        destruct I2 as (S & L & F). split; [exact S|]. split; [exact L|]. intros y H. apply in_remove in H. auto.
  Qed.

  Lemma wanted_from_cons w e es : wanted_from w (e :: es) = wanted_from (wanted_from w [e]) es.
  Proof. destruct e; reflexivity. Qed.
  Lemma run_inv : forall es w p, plain_names es -> Inv w p -> Inv (wanted_from w es) (fold_left step es p).
  Proof.
    induction es as [|e es IH]; intros w p P I; [exact I|].
    rewrite wanted_from_cons. cbn [fold_left]. apply IH.
    - intros comp f H. apply (P comp f). right. exact H.
    - apply step_inv; [|exact I]. intros comp f ->. apply (P comp f). left. reflexivity.
  Qed.
  Lemma inv_all es : plain_names es -> Inv (wanted es) (run es).
  Proof. intros P. apply run_inv; [exact P|]. split; cbn; [intros x []|exact I]. Qed.

  (** Everything asked for comes. *)
  Definition Asked (p : page) : Prop :=
    match p_code p with
    | None => True
    | Some c =>
      (c_old c = None -> exists x, In x (p_fetches p) /\ f_effect x = c_effect c /\ f_is_diff x = false) /\
      (c_diff c = None -> exists x, In x (p_fetches p) /\ f_effect x = c_effect c /\ f_is_diff x = true)
    end.
  Lemma in_remove_other {A} (x y : A) : forall l n, nth_error l n = Some y -> In x l -> x = y \/ In x (remove_nth n l).
  Proof.
    induction l as [|z l IH]; intros [|n] E H; simpl in *; try contradiction.
    - injection E as ->. destruct H as [->|H]; auto.
    - destruct H as [->|H]; [right; left; reflexivity|]. destruct (IH n E H); auto.
  Qed.
  Lemma step_asked p e : (forall i, e <> Lose i) -> Asked p -> Asked (step p e).
  Proof.
    intros NL A. destruct e as [comp f| |i|i]; cbn [Codeview_Model.step].
    - match goal with |- context [let '(o, d) := ?X in _] => destruct X as [o d] end.
      unfold Asked. cbn. split.
      + intros _. exists (mkFetch (p_next p) false ("src/" ++ src (plain_name f))). split; [|auto].
        apply in_or_app. right. left. reflexivity.
      + unfold no_diff, Codeview_Model.spec_of. cbn. destruct (has_diff (plain_name f)); [|discriminate].
        intros _. eexists. split; [apply in_or_app; right; right; left; reflexivity|auto].
    - exact I.
    - destruct (nth_error (p_fetches p) i) as [x|] eqn:X; [|exact A].
      unfold Asked in *. cbn. destruct (p_code p) as [c|]; [|exact I].
      destruct A as [A1 A2]. destruct (Nat.eqb_spec (f_effect x) (c_effect c)) as [E|N].
      + destruct (f_is_diff x) eqn:D; cbn.
        * split; [|discriminate]. intros H. destruct (A1 H) as (y & Y1 & Y2 & Y3). exists y.
          destruct (in_remove_other y x _ _ X Y1) as [->|R]; [congruence|auto].
        * split; [discriminate|]. intros H. destruct (A2 H) as (y & Y1 & Y2 & Y3). exists y.
          destruct (in_remove_other y x _ _ X Y1) as [->|R]; [congruence|auto].
      + split; intros H.
        * destruct (A1 H) as (y & Y1 & Y2 & Y3). exists y. destruct (in_remove_other y x _ _ X Y1) as [->|R]; [congruence|auto].
        * destruct (A2 H) as (y & Y1 & Y2 & Y3). exists y. destruct (in_remove_other y x _ _ X Y1) as [->|R]; [congruence|auto].
    - destruct (NL i eq_refl).
  Qed.
  Lemma run_asked : forall es p, (forall i, ~ In (Lose i) es) -> Asked p -> Asked (fold_left step es p).
  Proof.
    induction es as [|e es IH]; intros p N A; [exact A|]. cbn [fold_left]. apply IH.
    - intros i H. apply (N i). right. exact H.
    - apply step_asked; [|exact A]. intros i ->. apply (N i). left. reflexivity.
  Qed.
End Fetch.

Section Lines.
  Variable n : nat.
  Notation expand := (expand n).

  Lemma expand_spec a b l x : expand a b l x = true <-> l x = true \/ (a <= x <= b /\ 1 <= x <= n).
  Proof. unfold Codeview_Model.expand. rewrite orb_true_iff, !andb_true_iff, !Nat.leb_le. intuition lia. Qed.

  Lemma run_start_spec l : forall x,
    run_start l x <= x /\ (forall y, run_start l x <= y < x -> l y = true) /\
    (forall z, run_start l x = S z -> l z = false).
  Proof.
    induction x as [|x (IH1 & IH2 & IH3)]; simpl.
    - split; [lia|]. split; [intros; lia|discriminate].
    - destruct (l x) eqn:E.
      + split; [lia|]. split; [|exact IH3]. intros y H. destruct (Nat.eq_dec y x) as [->|]; [exact E|]. apply IH2. lia.
      + split; [lia|]. split; [intros; lia|]. intros z [= <-]. exact E.
  Qed.
  Lemma run_end_spec l : forall k x,
    x <= run_end l k x <= x + k /\ (forall y, x < y <= run_end l k x -> l y = true) /\
    (run_end l k x < x + k -> l (S (run_end l k x)) = false).
  Proof.
    induction k as [|k IH]; intros x; simpl.
    - split; [lia|]. split; [intros; lia|lia].
    - destruct (l (S x)) eqn:E.
      + destruct (IH (S x)) as (H1 & H2 & H3). split; [lia|]. split.
        * intros y H. destruct (Nat.eq_dec y (S x)) as [->|]; [exact E|]. apply H2. lia.
        * intros H. apply H3. lia.
      + split; [lia|]. split; [intros; lia|]. intros _. exact E.
  Qed.

  Lemma in_range_spec s e l x : 1 <= s <= e -> e <= n -> l s = true -> l e = true -> (forall y, l y = true -> 1 <= y <= n) ->
    (in_range n s e l x = true <->
     l x = true /\ ((s <= x <= e) \/ (x < s /\ forall y, x <= y < s -> l y = true) \/ (e < x /\ forall y, e < y <= x -> l y = true))).
  Proof.
    intros R N Ls Le B. unfold in_range. rewrite !andb_true_iff, !Nat.leb_le.
    destruct (run_start_spec l x) as (S1 & S2 & S3), (run_end_spec l (n - x) x) as (E1 & E2 & E3).
    split.
    - intros (Lx & A1 & A2). split; [exact Lx|]. pose proof (B x Lx).
      destruct (le_lt_dec s x), (le_lt_dec x e); [left; lia|right; right|right; left|lia].
      + split; [lia|]. intros y H'. destruct (Nat.eq_dec y x) as [->|]; [exact Lx|]. apply S2. lia.
      + split; [lia|]. intros y H'. destruct (Nat.eq_dec y x) as [->|]; [exact Lx|]. apply E2. lia.
    - intros (Lx & H). split; [exact Lx|]. pose proof (B x Lx). destruct H as [H|[(H & A)|(H & A)]].
      + lia.
      + split; [lia|]. destruct (le_lt_dec s (S (run_end l (n - x) x))) as [|C]; [assumption|].
        rewrite A in E3 by lia. assert (run_end l (n - x) x < x + (n - x)) by lia. specialize (E3 H1). discriminate.
      + split; [|lia]. destruct (le_lt_dec (run_start l x) e) as [|C]; [assumption|].
        destruct (run_start l x) as [|z] eqn:Z; [lia|]. specialize (S3 z eq_refl).
        destruct (Nat.eq_dec z e) as [->|]; [congruence|]. rewrite A in S3 by lia. discriminate.
  Qed.

  Lemma base_spec hunks s e x : 1 <= s <= e -> e <= n -> (forall y, hunks y = true -> 1 <= y <= n) ->
    (in_range n s e (expand e e (expand s s hunks)) x = true <->
     (s <= x <= e /\ (hunks x = true \/ x = s \/ x = e)) \/ around hunks s e x).
  Proof.
    intros R N B. rewrite in_range_spec; auto.
    2-3: rewrite !expand_spec; lia.
    2:{ intros y. rewrite !expand_spec. intros [[H|H]|H]; [apply B; exact H|lia|lia]. }
    assert (L : forall y, expand e e (expand s s hunks) y = true <-> hunks y = true \/ y = s \/ y = e).
    { intros y. rewrite !expand_spec. intuition lia. }
    rewrite L. unfold around. split.
    - intros (Lx & [H|[(H & A)|(H & A)]]).
      + left. split; assumption.
      + right. left. split; [exact H|]. intros y Hy. specialize (A y Hy). apply L in A. destruct A as [A|[-> | ->]]; [exact A|lia|lia].
      + right. right. split; [exact H|]. intros y Hy. specialize (A y Hy). apply L in A. destruct A as [A|[-> | ->]]; [exact A|lia|lia].
    - intros [(H & A)|[(H & A)|(H & A)]].
      + split; [exact A|left; exact H].
      + split; [left; apply A; lia|]. right. left. split; [exact H|]. intros y Hy. apply L. left. apply A. exact Hy.
      + split; [left; apply A; lia|]. right. right. split; [exact H|]. intros y Hy. apply L. left. apply A. exact Hy.
  Qed.

  Lemma context_spec s e c l x : 1 <= s <= e -> e <= n ->
    (with_context n s e c l x = true <-> l x = true \/ (s <= x <= e /\ (Z.abs (Z.of_nat x - c) <= 10)%Z)).
  Proof. intros R N. unfold with_context. rewrite expand_spec. intuition lia. Qed.

  Lemma first_lines_spec hunks s e calls x : 1 <= s <= e -> e <= n -> (forall y, hunks y = true -> 1 <= y <= n) ->
    (first_lines n hunks s e calls x = true <->
     (s <= x <= e /\ of_function hunks s e calls x) \/ around hunks s e x).
  Proof.
    intros R N B. unfold first_lines, of_function. destruct calls as [[c c']|].
    - unfold is_long. destruct (Nat.leb_spec 25 (e - s)) as [L|L].
      + destruct (Z.eqb_spec c' c) as [->|NC].
        * rewrite context_spec, base_spec by auto. intuition lia.
        * rewrite !context_spec, base_spec by auto. intuition lia.
      + rewrite expand_spec, base_spec by auto. intuition lia.
    - rewrite base_spec by auto. intuition.
  Qed.

  (** Buttons *)
  Lemma buttons_sound l : forall k x prev a b,
    (forall q, prev = Some q -> 1 < q <= x /\ l (q - 1) = true /\ forall z, q <= z < x -> l z = false) -> 1 <= x ->
    In (a, b) (buttons_from l prev k x) ->
    1 < a /\ a <= b /\ S b < x + k /\ l (a - 1) = true /\ l (S b) = true /\ (forall z, a <= z <= b -> l z = false).
  Proof.
    induction k as [|k IH]; intros x prev a b P X H; simpl in H; [destruct H|].
    destruct (l x) eqn:E.
    - apply in_app_or in H. destruct H as [H|H].
      + destruct prev as [q|]; [|destruct H]. destruct (Nat.ltb_spec q x) as [L|L]; [|destruct H].
        destruct H as [H|[]]. injection H as <- <-. destruct (P q eq_refl) as (Q1 & Q2 & Q3).
        replace (S (x - 1)) with x by lia. repeat split; auto; try lia. intros z Hz. apply Q3. lia.
      + apply IH in H; [|intros q [= <-]; replace (S x - 1) with x by lia; repeat split; auto; lia|lia].
        destruct H as (H1 & H2 & H3 & H4). repeat split; try tauto; lia.
    - apply IH in H; [|intros q Q; destruct (P q Q) as (Q1 & Q2 & Q3); repeat split; auto; try lia;
                       intros z Hz; destruct (Nat.eq_dec z x) as [->|]; [exact E|apply Q3; lia]|lia].
      destruct H as (H1 & H2 & H3 & H4). repeat split; try tauto; lia.
  Qed.
  Lemma buttons_complete l : forall k x prev z b,
    (forall q, prev = Some q -> q <= x /\ forall y, q <= y < x -> l y = false) ->
    z < b < x + k -> l b = true -> l z = false ->
    ((z < x /\ exists q, prev = Some q /\ q <= z) \/ (x <= z /\ (prev <> None \/ exists a, x <= a < z /\ l a = true))) ->
    exists p r, In (p, r) (buttons_from l prev k x) /\ p <= z <= r.
  Proof.
    induction k as [|k IH]; intros x prev z b P B Lb Lz H.
    - exfalso. destruct H as [(H & q & -> & Q)|(H & _)]; [|lia]. destruct (P q eq_refl) as (_ & Y). rewrite (Y b) in Lb by lia. discriminate.
    - cbn [buttons_from]. destruct (l x) eqn:E.
      + destruct H as [(H & q & -> & Q)|(H & _)].
        * exists q, (x - 1). destruct (Nat.ltb_spec q x); [|lia]. split; [left; reflexivity|lia].
        * assert (z <> x) by congruence.
          destruct (IH (S x) (Some (S x)) z b) as (p & r & I & R); auto; try lia.
          -- intros q [= <-]. split; [lia|intros; lia].
          -- right. split; [lia|]. left. discriminate.
          -- exists p, r. split; [apply in_or_app; right; exact I|exact R].
      + assert (P' : forall q, prev = Some q -> q <= S x /\ forall y, q <= y < S x -> l y = false).
        { intros q Q. destruct (P q Q) as (Q1 & Q2). split; [lia|]. intros y Hy. destruct (Nat.eq_dec y x) as [->|]; [exact E|apply Q2; lia]. }
        assert (b <> x) by congruence.
        destruct H as [(H & q & -> & Q)|(H & A)].
        * apply (IH (S x) (Some q) z b); auto; try lia. left. split; [lia|]. exists q. auto.
        * destruct (Nat.eq_dec z x) as [->|NZ].
          -- destruct A as [A|(a & A & _)]; [|lia]. destruct prev as [q|]; [|congruence].
             apply (IH (S x) (Some q) x b); auto; try lia. left. split; [lia|]. exists q. split; [reflexivity|]. apply (P q eq_refl).
          -- apply (IH (S x) prev z b); auto; try lia. right. split; [lia|]. destruct A as [A|(a & A & La)]; [left; exact A|].
             right. exists a. split; [|exact La]. assert (a <> x) by congruence. lia.
  Qed.

  Lemma press_grows l i x : l x = true -> press n l i x = true.
  Proof. intros H. unfold press. destruct (nth_error _ i) as [[a b]|]; [apply expand_spec; auto|exact H]. Qed.
  Lemma press_between l i x : press n l i x = true -> l x = true \/ exists a b, a < x < b /\ l a = true /\ l b = true.
  Proof.
    unfold press. destruct (nth_error _ i) as [[a b]|] eqn:E; [|auto].
    intros H. apply expand_spec in H. destruct H as [H|(H & _)]; [auto|]. right.
    apply nth_error_In in E. unfold buttons in E. apply buttons_sound in E; [|discriminate|lia].
    destruct E as (A1 & A2 & A3 & A4 & A5 & _). exists (a - 1), (S b). repeat split; auto; lia.
  Qed.
  Lemma presses_grow : forall is l x, l x = true -> presses n l is x = true.
  Proof. induction is as [|i is IH]; intros l x H; [exact H|]. simpl. apply IH. apply press_grows. exact H. Qed.
  Lemma presses_between : forall is l x, presses n l is x = true -> l x = true \/ exists a b, a < x < b /\ l a = true /\ l b = true.
  Proof.
    induction is as [|i is IH]; intros l x H; [auto|]. simpl in H. apply IH in H.
    destruct H as [H|(a & b & R & A & B)]; [apply press_between in H; exact H|].
    right. apply press_between in A, B.
    assert (A' : exists a', a' < x /\ l a' = true).
    { destruct A as [A|(a' & b1 & R' & A & _)]; [exists a; split; [lia|exact A]|exists a'; split; [lia|exact A]]. }
    assert (B' : exists b', x < b' /\ l b' = true).
    { destruct B as [B|(a1 & b' & R' & _ & B)]; [exists b; split; [lia|exact B]|exists b'; split; [lia|exact B]]. }
    destruct A' as (a' & ? & ?), B' as (b' & ? & ?). exists a', b'. auto.
  Qed.
  Lemma press_shows l a x b : 1 <= a < x -> x < b <= n -> l a = true -> l b = true -> l x = false ->
    exists i, press n l i x = true.
  Proof.
    intros A B La Lb Lx.
    destruct (buttons_complete l n 1 None x b) as (p & r & I & R); auto; try lia; try discriminate.
    { right. split; [lia|]. right. exists a. split; [lia|exact La]. }
    apply In_nth_error in I. destruct I as (i & I). exists i. unfold press, buttons. rewrite I. apply expand_spec. lia.
  Qed.
  Lemma no_buttons l a x b : 1 <= a <= x -> x <= b <= n -> l a = true -> l b = true -> buttons n l = [] -> l x = true.
  Proof.
    intros A B La Lb E. destruct (l x) eqn:Lx; [reflexivity|].
    assert (a <> x) by congruence. assert (b <> x) by congruence.
    destruct (press_shows l a x b) as (i & H'); auto; try lia. unfold press in H'. rewrite E in H'. destruct i; simpl in H'; congruence.
  Qed.

  Definition hidden (l : lines) : nat := length (filter (fun x => negb (l x)) (seq 1 n)).
  Lemma filter_le (f g : nat -> bool) : (forall x, g x = true -> f x = true) -> forall xs, length (filter g xs) <= length (filter f xs).
  Proof.
    intros H. induction xs as [|x xs IH]; simpl; [lia|]. pose proof (H x). destruct (g x), (f x); simpl; try lia; specialize (H0 eq_refl); discriminate.
  Qed.
  Lemma filter_lt (f g : nat -> bool) y : (forall x, g x = true -> f x = true) -> f y = true -> g y = false ->
    forall xs, In y xs -> length (filter g xs) < length (filter f xs).
  Proof.
    intros H F G. induction xs as [|x xs IH]; simpl; [intros []|]. pose proof (filter_le f g H xs) as LE. intros [->|I].
    - rewrite F, G. simpl. lia.
    - specialize (IH I). pose proof (H x). destruct (g x), (f x); simpl; try lia; specialize (H0 eq_refl); discriminate.
  Qed.
  Lemma press_hides l : buttons n l <> [] -> hidden (press n l 0) < hidden l.
  Proof.
    intros B. unfold press. destruct (buttons n l) as [|[a b] bs] eqn:E; [congruence|]. cbn [nth_error].
    assert (I : In (a, b) (buttons n l)) by (rewrite E; left; reflexivity).
    unfold buttons in I. apply buttons_sound in I; [|discriminate|lia]. destruct I as (A1 & A2 & A3 & _ & _ & A6).
    unfold hidden. apply (filter_lt _ _ a).
    - intros x. rewrite !negb_true_iff. intros H. destruct (l x) eqn:Lx; [|reflexivity].
      assert (expand a b l x = true) by (apply expand_spec; auto). congruence.
    - rewrite A6 by lia. reflexivity.
    - apply negb_false_iff. apply expand_spec. lia.
    - apply in_seq. lia.
  Qed.
  Lemma all_shown : forall k l, hidden l < k -> exists is, buttons n (presses n l is) = [].
  Proof.
    induction k as [|k IH]; intros l H; [lia|].
    destruct (buttons n l) as [|p bs] eqn:E; [exists []; exact E|].
    destruct (IH (press n l 0)) as (is & His).
    - assert (buttons n l <> []) by congruence. apply press_hides in H0. lia.
    - exists (0 :: is). exact His.
  Qed.
End Lines.
