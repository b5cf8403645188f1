(** * A slice runs like the function *)
From Coq Require Import String Ascii ZArith Arith Bool Lia List.
From Verif Require Import PyBase Funcomp_Model Funcomp_Spec Slice_Model Slice_Spec Slice_Effect Slice_Control.
Import ListNotations.
Open Scope list_scope.
Open Scope nat_scope.

Section Run.
  Variable S : semantics.
  Variable cs : const -> V S.
  Variable args : nat -> V S.
  Variables f g : func.
  Variable P : inst -> Prop.
  Variable same : M S -> M S -> Prop.
  Variable keep : inst -> bool.
  Hypothesis KP : forall i, In i (insts f) -> (keep i = true <-> P i).
  Hypothesis KB : f_blocks g = map (fun kb => (fst kb, filter keep (snd kb))) (f_blocks f).
  Hypothesis U : unnoticed S P f same.
  Hypothesis T : forall i, In i (insts f) -> is_terminator i = true -> P i.
  Hypothesis C : forall i d, In i (insts f) -> In d (insts f) -> P i -> uses i d -> P d.

  Definition agree (env env' : nat -> V S) : Prop := forall r, (forall d, In d (insts f) -> i_reg d = r -> P d) -> env r = env' r.
  Notation eval := (eval S cs args).

  Lemma agree_eval env env' i v : agree env env' -> In i (insts f) -> P i -> In v (i_ops i) -> eval env v = eval env' v.
  Proof.
    intros A I Pi V. destruct v as [n|r|b|c]; cbn [Funcomp_Spec.eval]; try reflexivity. apply A. intros d D E. subst r. apply (C i d); auto.
  Qed.
  Lemma agree_ops env env' i : agree env env' -> In i (insts f) -> P i -> map (eval env) (i_ops i) = map (eval env') (i_ops i).
  Proof. intros A I Pi. apply map_ext_in. intros v V. eapply agree_eval; eauto. Qed.
  Lemma block_g b : block g b = filter keep (block f b).
  Proof.
    unfold block. rewrite KB. clear. induction (f_blocks f) as [|[k l] bs IH]; cbn [map dget fst snd]; [reflexivity|].
    destruct (eqb b k); [reflexivity|exact IH].
  Qed.
  Lemma block_in b i : In i (block f b) -> In i (insts f).
  Proof.
    unfold block, insts. clear. induction (f_blocks f) as [|[k l] bs IH]; cbn [dget flat_map snd]; [intros []|].
    destruct (eqb b k); intros H; apply in_app_iff; [left; exact H|right; auto].
  Qed.

  Lemma agree_enter env env' p b : agree env env' -> agree (enter S cs args env p (block f b)) (enter S cs args env' p (block g b)).
  Proof.
    intros A r R. unfold enter. rewrite block_g.
    assert (E : find (fun q => is_phi q && Nat.eqb (i_reg q) r) (filter keep (block f b)) = find (fun q => is_phi q && Nat.eqb (i_reg q) r) (block f b)).
    { pose proof (block_in b) as BI. induction (block f b) as [|i l IH]; cbn [filter find]; [reflexivity|].
      destruct (is_phi i && Nat.eqb (i_reg i) r) eqn:E.
      - apply andb_true_iff in E. destruct E as (E1 & E2). apply Nat.eqb_eq in E2. assert (K : keep i = true) by (apply KP; [|apply R]; auto; apply BI; left; reflexivity).
        rewrite K. cbn [find]. rewrite E1, E2, Nat.eqb_refl. reflexivity.
      - assert (IH' := IH (fun x X => BI x (or_intror X))). destruct (keep i); [cbn [find]; rewrite E|]; exact IH'. }
    rewrite E. destruct (find _ (block f b)) as [q|] eqn:F; [|apply A; exact R].
    apply find_some in F. destruct F as (Q & F). apply andb_true_iff in F. destruct F as (F1 & F2). apply Nat.eqb_eq in F2.
    pose proof (block_in b q Q) as Iq.
    destruct (find (fun e => Nat.eqb (snd e) p) (incoming q)) as [[v c]|] eqn:G; [|reflexivity].
    apply find_some in G. destruct G as (G & _). apply (agree_eval env env' q); [exact A|exact Iq|apply R; auto|].
    unfold incoming in G. destruct (i_code q); try destruct G. eapply in_combine_l. exact G.
  Qed.

  Lemma body_same l : (forall i, In i l -> In i (insts f)) -> forall env env' m m', agree env env' -> same m m' ->
    match body S cs args l env m, body S cs args (filter keep l) env' m' with
    | Some (e, n, t), Some (e', n', t') => agree e e' /\ same n n' /\ t = t' /\ In t l /\ is_terminator t = true
    | None, None => True
    | _, _ => False
    end.
  Proof.
    induction l as [|i l IH]; intros LI env env' m m' A Sm; cbn [body filter]; [exact I|].
    assert (LI' : forall j, In j l -> In j (insts f)) by (intros j J; apply LI; right; exact J).
    assert (Ii : In i (insts f)) by (apply LI; left; reflexivity).
    assert (W : forall e e' n n', agree e e' -> same n n' ->
      match body S cs args l e n, body S cs args (filter keep l) e' n' with
      | Some (e, n, t), Some (e', n', t') => agree e e' /\ same n n' /\ t = t' /\ In t (i :: l) /\ is_terminator t = true
      | None, None => True
      | _, _ => False
      end).
    { intros e e' n n' Ae Sn. specialize (IH LI' e e' n n' Ae Sn). destruct (body S cs args l e n) as [[[? ?] ?]|], (body S cs args (filter keep l) e' n') as [[[? ?] ?]|]; auto.
      destruct IH as (X & Y & Z & J & Tt). split; [exact X|]. split; [exact Y|]. split; [exact Z|]. split; [right; exact J|exact Tt]. }
    destruct (is_debug i || is_phi i) eqn:D.
    { destruct (keep i); [cbn [body]; rewrite D|]; apply W; auto. }
    destruct (is_terminator i) eqn:Ti.
    { assert (K : keep i = true) by (apply KP; auto). rewrite K. cbn [body]. rewrite D, Ti.
      split; [exact A|]. split; [exact Sm|]. split; [reflexivity|]. split; [left; reflexivity|reflexivity]. }
    destruct (keep i) eqn:K.
    - assert (Pi : P i) by (apply KP; auto). cbn [body]. rewrite D, Ti. rewrite <- (agree_ops env env' i A Ii Pi).
      pose proof (kept_same _ _ _ _ U i (map (eval env) (i_ops i)) m m' Ii Pi Ti Sm) as Q.
      destruct (exec S (plain (i_code i)) (i_rest i) (map (eval env) (i_ops i)) m) as [[v n]|], (exec S (plain (i_code i)) (i_rest i) (map (eval env) (i_ops i)) m') as [[v' n']|]; try contradiction; [|exact I].
      destruct Q as (<- & Q). apply W; [|exact Q]. intros r R. unfold upd. destruct (Nat.eqb r (i_reg i)); [reflexivity|]. apply A. exact R.
    - assert (Pi : ~ P i) by (intros Y; apply KP in Y; [congruence|exact Ii]).
      destruct (left_same _ _ _ _ U i (map (eval env) (i_ops i)) m m' Ii Pi Sm) as (v & n & -> & Q).
      apply W; [|exact Q]. intros r R. unfold upd. destruct (Nat.eqb_spec r (i_reg i)) as [E|E]; [exfalso; apply Pi; apply R; auto|apply A; exact R].
  Qed.

  Lemma run_same n : forall env env' m m' prev b, agree env env' -> same m m' -> same_outcome same (run S cs args f n env m prev b) (run S cs args g n env' m' prev b).
  Proof.
    induction n as [|n IH]; intros env env' m m' prev b A Sm; cbn [run]; [exact Sm|].
    assert (A' : agree (match prev with Some p => enter S cs args env p (block f b) | None => env end) (match prev with Some p => enter S cs args env' p (block g b) | None => env' end)).
    { destruct prev as [p|]; [apply agree_enter; exact A|exact A]. }
    pose proof (body_same (block f b) (block_in b) _ _ m m' A' Sm) as Q. rewrite <- block_g in Q.
    destruct (body S cs args (block f b) _ m) as [[[e k] t]|], (body S cs args (block g b) _ m') as [[[e' k'] t']|]; try contradiction; [|exact I].
    destruct Q as (Ae & Sk & <- & Tb & Tt). assert (It : In t (insts f)) by (eapply block_in; exact Tb).
    rewrite <- (agree_ops e e' t Ae It (T t It Tt)).
    assert (K : same_outcome same
      match choose S (i_code t) (i_rest t) (map (eval e) (i_ops t)) with Some j => match nth_error (successors t) j with Some b' => run S cs args f n e k (Some b) b' | None => Stuck end | None => Stuck end
      match choose S (i_code t) (i_rest t) (map (eval e) (i_ops t)) with Some j => match nth_error (successors t) j with Some b' => run S cs args g n e' k' (Some b) b' | None => Stuck end | None => Stuck end).
    { destruct (choose S _ _ _) as [j|]; [|exact I]. destruct (nth_error (successors t) j) as [b'|]; [|exact I]. apply IH; auto. }
    destruct (i_code t); try exact K. split; [reflexivity|exact Sk].
  Qed.
End Run.

Lemma slice_runs S cs args f g P same : keeps_only P f g -> unnoticed S P f same ->
  (forall i, In i (insts f) -> is_terminator i = true -> P i) -> (forall i d, In i (insts f) -> In d (insts f) -> P i -> uses i d -> P d) ->
  forall n m m', same m m' -> same_outcome same (result S cs args f n m) (result S cs args g n m').
Proof.
  intros (_ & _ & keep & KP & KB) U T C n m m' Sm. unfold result.
  assert (E : entry g = entry f) by (unfold entry; rewrite KB; destruct (f_blocks f) as [|[b l] bs]; reflexivity). rewrite E.
  apply (run_same S cs args f g P same keep); auto. intros r _. reflexivity.
Qed.
