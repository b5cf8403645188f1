(** * A function without its return value runs the same (proofs for Trim_Props) *)
From Coq Require Import String Ascii ZArith Arith Bool Lia List.
From Verif Require Import PyBase Funcomp_Model Funcomp_Spec Slice_Model Slice_Spec Trim_Model Trim_Spec Trim_Run.
Import ListNotations.
Open Scope list_scope.
Open Scope nat_scope.

Lemma void_code i : i_code (void_return i) = i_code i.
Proof. destruct i as [r c x ops]. destruct c; reflexivity. Qed.
Lemma void_reg i : i_reg (void_return i) = i_reg i.
Proof. destruct i as [r c x ops]. destruct c; reflexivity. Qed.
Lemma void_other i : i_code i <> Ret -> void_return i = i.
Proof. destruct i as [r c x ops]. destruct c; cbn; congruence. Qed.
Lemma block_void f b : block (to_void f) b = map void_return (block f b).
Proof.
  unfold block, to_void. cbn [f_blocks]. rewrite (dget_map_key (fun _ l => map void_return l)). destruct (dget (f_blocks f) b); reflexivity.
Qed.
Section Run.
  Variable S : semantics.
  Variable cs : const -> V S.
  Variable args : nat -> V S.
  Lemma void_enter env p l r : enter S cs args env p (map void_return l) r = enter S cs args env p l r.
  Proof.
    unfold enter. assert (X : find (fun q => is_phi q && Nat.eqb (i_reg q) r) (map void_return l) = find (fun q => is_phi q && Nat.eqb (i_reg q) r) l).
    { induction l as [|i l IH]; cbn [map find]; [reflexivity|]. rewrite IH. destruct i as [q c x ops]. destruct c; reflexivity. }
    rewrite X. reflexivity.
  Qed.
  Definition same_env (a b : nat -> V S) : Prop := forall r, a r = b r.
  Lemma same_eval a b v : same_env a b -> eval S cs args a v = eval S cs args b v.
  Proof. intros H. destruct v; cbn; auto. Qed.
  Lemma void_body l : forall a b m, same_env a b ->
    match body S cs args l a m with
    | Some (a', m', t) => exists b', same_env a' b' /\ body S cs args (map void_return l) b m = Some (b', m', void_return t)
    | None => body S cs args (map void_return l) b m = None
    end.
  Proof.
    induction l as [|i l IH]; intros a b m H; cbn [body map]; [reflexivity|].
    assert (D : is_debug (void_return i) || is_phi (void_return i) = is_debug i || is_phi i).
    { destruct (i_code i) eqn:C; try (rewrite void_other by congruence; reflexivity). destruct i as [r c x ops]. cbn in C. subst c. reflexivity. }
    rewrite D. destruct (is_debug i || is_phi i); [apply IH; exact H|].
    unfold is_terminator. rewrite void_code. fold (is_terminator i). destruct (is_terminator i) eqn:T; [exists b; auto|].
    assert (N : i_code i <> Ret) by (intros C; unfold is_terminator in T; rewrite C in T; discriminate).
    rewrite (void_other i N). assert (E : map (eval S cs args b) (i_ops i) = map (eval S cs args a) (i_ops i)) by (apply map_ext; intros v; symmetry; apply same_eval; exact H).
    rewrite E. destruct (exec S _ _ _ m) as [[v m']|]; [|reflexivity]. apply IH. intros r. unfold upd. destruct (Nat.eqb r _); auto.
  Qed.
  Theorem void_run f : forall n a b m prev x, same_env a b -> run S cs args (to_void f) n b m prev x = without_values (run S cs args f n a m prev x).
  Proof.
    induction n as [|n IH]; intros a b m prev x H; cbn [run]; [reflexivity|]. rewrite block_void.
    pose proof (void_body (block f x) (match prev with Some p => enter S cs args a p (block f x) | None => a end)
      (match prev with Some p => enter S cs args b p (map void_return (block f x)) | None => b end) m) as X.
    assert (Y : same_env (match prev with Some p => enter S cs args a p (block f x) | None => a end) (match prev with Some p => enter S cs args b p (map void_return (block f x)) | None => b end)).
    { destruct prev as [p|]; [|exact H]. intros r. rewrite void_enter. unfold enter. destruct (find _ _); [|apply H]. destruct (find _ (incoming i)) as [[v c]|]; [|reflexivity]. apply same_eval. exact H. }
    specialize (X Y). destruct (body S cs args (block f x) _ m) as [[[a' m'] t]|]; [|rewrite X; reflexivity]. destruct X as (b' & E' & ->).
    destruct (i_code t) eqn:C; try (rewrite (void_other t) by congruence; rewrite C;
      assert (E : map (eval S cs args b') (i_ops t) = map (eval S cs args a') (i_ops t)) by (apply map_ext; intros v; symmetry; apply same_eval; exact E');
      rewrite E; destruct (choose S _ _ _) as [k|]; [|reflexivity]; destruct (nth_error _ k); [|reflexivity]; apply IH; exact E').
    destruct t as [r c y ops]. cbn in C. subst c. reflexivity.
  Qed.
End Run.
Lemma void_entry f : entry (to_void f) = entry f.
Proof. unfold entry, to_void. cbn [f_blocks]. destruct (f_blocks f) as [|[k l] bs]; reflexivity. Qed.
