(** Runs of functions whose instructions correspond one to one. *)
From Coq Require Import String Ascii ZArith Arith Bool Lia List.
From Verif Require Import PyBase Funcomp_Model Funcomp_Spec Passes_Model Passes_Spec.
Import ListNotations.
Open Scope list_scope.
Open Scope nat_scope.

Section Sim.
  Variables S1 S2 : semantics.
  Variables (cs1 : const -> V S1) (cs2 : const -> V S2) (args1 : nat -> V S1) (args2 : nat -> V S2).
  Variables (RV : V S1 -> V S2 -> Prop) (RM : M S1 -> M S2 -> Prop) (RR : list (V S1) -> list (V S2) -> Prop).
  Variable dead : nat -> bool.
  Notation ev1 := (eval S1 cs1 args1). Notation ev2 := (eval S2 cs2 args2).
  Definition erel (e : nat -> V S1) (e' : nat -> V S2) : Prop := forall r, dead r = false -> RV (e r) (e' r).
  Record matches (i j : inst) : Prop := mkMatches {
    m_reg : i_reg i = i_reg j;
    m_debug : is_debug i = is_debug j;
    m_phi : is_phi i = is_phi j;
    m_term : is_terminator i = is_terminator j;
    m_from : is_phi i = true -> Forall2 (fun a b => snd a = snd b /\ forall e e', erel e e' -> RV (ev1 e (fst a)) (ev2 e' (fst b))) (incoming i) (incoming j);
    m_exec : is_debug i = false -> is_phi i = false -> is_terminator i = false -> forall e e' m m', erel e e' -> RM m m' ->
      match exec S1 (plain (i_code i)) (i_rest i) (map (ev1 e) (i_ops i)) m, exec S2 (plain (i_code j)) (i_rest j) (map (ev2 e') (i_ops j)) m' with
      | Some (v, n), Some (v', n') => (dead (i_reg i) = false -> RV v v') /\ RM n n'
      | None, None => True
      | _, _ => False
      end;
    m_end : is_terminator i = true -> forall e e', erel e e' ->
      (i_code i = Ret /\ i_code j = Ret /\ RR (map (ev1 e) (i_ops i)) (map (ev2 e') (i_ops j))) \/
      (i_code i <> Ret /\ i_code j <> Ret /\
       choose S1 (i_code i) (i_rest i) (map (ev1 e) (i_ops i)) = choose S2 (i_code j) (i_rest j) (map (ev2 e') (i_ops j)) /\ successors i = successors j) }.
  Variables f g : func.
  Hypothesis H_blocks : Forall2 (fun a b => fst a = fst b /\ Forall2 matches (snd a) (snd b)) (f_blocks f) (f_blocks g).
  Hypothesis H_undef : RV (undef S1) (undef S2).

  Lemma block_match b : Forall2 matches (block f b) (block g b).
  Proof.
    unfold block, dget. revert H_blocks. generalize (f_blocks f) (f_blocks g). intros l l' H. induction H as [|[k x] [k' x'] l l' [K X] H IH]; [constructor|].
    cbn in K, X. subst k'. cbn. destruct (Nat.eqb_spec b k); [exact X|exact IH].
  Qed.
  Lemma entry_match : entry f = entry g.
  Proof. unfold entry. destruct H_blocks as [|[k x] [k' x'] l l' [K X] H]; [reflexivity|exact K]. Qed.
  Lemma enter_match e e' p l l' : erel e e' -> Forall2 matches l l' -> erel (enter S1 cs1 args1 e p l) (enter S2 cs2 args2 e' p l').
  Proof.
    intros E H r D. unfold enter. induction H as [|i j l l' X H IH]; [apply E; exact D|]. cbn [find]. rewrite <- (m_phi _ _ X), <- (m_reg _ _ X).
    destruct (is_phi i) eqn:P; cbn [andb]; [|exact IH]. destruct (Nat.eqb_spec (i_reg i) r) as [_|N]; [|exact IH].
    pose proof (m_from _ _ X P) as F. clear -F E H_undef. induction F as [|[v a] [v' a'] k k' [Q Y] F IH]; [exact H_undef|]. cbn in Q |- *. subst a'.
    destruct (Nat.eqb_spec a p); [apply (Y _ _ E)|exact IH].
  Qed.
  Lemma erel_upd e e' r v v' : erel e e' -> (dead r = false -> RV v v') -> erel (upd S1 e r v) (upd S2 e' r v').
  Proof. intros E H x D. unfold upd. destruct (Nat.eqb_spec x r) as [->|]; auto. Qed.
  Lemma body_match l l' : Forall2 matches l l' -> forall e e' m m', erel e e' -> RM m m' ->
    match body S1 cs1 args1 l e m, body S2 cs2 args2 l' e' m' with
    | Some (a, n, i), Some (a', n', j) => erel a a' /\ RM n n' /\ matches i j /\ is_terminator i = true
    | None, None => True
    | _, _ => False
    end.
  Proof.
    intros H. induction H as [|i j l l' X H IH]; intros e e' m m' E R; [exact I|]. cbn [body]. rewrite <- (m_debug _ _ X), <- (m_phi _ _ X), <- (m_term _ _ X).
    destruct (is_debug i) eqn:D; cbn [orb]; [apply IH; assumption|]. destruct (is_phi i) eqn:P; [apply IH; assumption|]. destruct (is_terminator i) eqn:T; [tauto|].
    pose proof (m_exec _ _ X D P T _ _ _ _ E R) as Q.
    destruct (exec S1 (plain (i_code i)) (i_rest i) (map (ev1 e) (i_ops i)) m) as [[v n]|], (exec S2 (plain (i_code j)) (i_rest j) (map (ev2 e') (i_ops j)) m') as [[v' n']|]; try contradiction; [|exact I].
    rewrite <- (m_reg _ _ X). apply IH; [apply erel_upd; tauto|tauto].
  Qed.
  Lemma run_match n : forall e e' m m' prev b, erel e e' -> RM m m' -> outcomes RR RM (run S1 cs1 args1 f n e m prev b) (run S2 cs2 args2 g n e' m' prev b).
  Proof.
    induction n as [|n IH]; intros e e' m m' prev b E R; [exact R|]. cbn [run].
    assert (E2 : erel (match prev with Some p => enter S1 cs1 args1 e p (block f b) | None => e end) (match prev with Some p => enter S2 cs2 args2 e' p (block g b) | None => e' end))
      by (destruct prev; [apply enter_match; [exact E|apply block_match]|exact E]).
    pose proof (body_match _ _ (block_match b) _ _ _ _ E2 R) as Q.
    destruct (body S1 cs1 args1 (block f b) _ m) as [[[a k] i]|], (body S2 cs2 args2 (block g b) _ m') as [[[a' k'] j]|]; try contradiction; [|exact I].
    destruct Q as (E3 & R3 & X & T). destruct (m_end _ _ X T _ _ E3) as [(C1 & C2 & Y)|(C1 & C2 & Y & Z)].
    - rewrite C1, C2. split; assumption.
    - match goal with |- outcomes _ _ ?X ?Y =>
        replace X with (match choose S1 (i_code i) (i_rest i) (map (ev1 a) (i_ops i)) with None => Stuck | Some k0 => match nth_error (successors i) k0 with None => Stuck | Some b' => run S1 cs1 args1 f n a k (Some b) b' end end) by (clear -C1; destruct (i_code i); congruence);
        replace Y with (match choose S2 (i_code j) (i_rest j) (map (ev2 a') (i_ops j)) with None => Stuck | Some k0 => match nth_error (successors j) k0 with None => Stuck | Some b' => run S2 cs2 args2 g n a' k' (Some b) b' end end) by (clear -C2; destruct (i_code j); congruence)
      end.
      rewrite Y, Z. destruct (choose S2 _ _ _) as [x|]; [|exact I]. destruct (nth_error (successors j) x); [|exact I]. apply IH; assumption.
  Qed.
  Lemma result_match n m m' : RM m m' -> outcomes RR RM (result S1 cs1 args1 f n m) (result S2 cs2 args2 g n m').
  Proof. intros R. unfold result. rewrite entry_match. apply run_match; [|exact R]. intros r _. exact H_undef. Qed.
End Sim.
