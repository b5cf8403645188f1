(** * A search that is exact: what the theorems assume of [reachable] can be met *)
From Coq Require Import String Ascii ZArith Arith Bool Lia List.
From Verif Require Import PyBase Funcomp_Model Slice_Model Slice_Spec.
Import ListNotations.
Open Scope list_scope.
Open Scope nat_scope.

Fixpoint closure (n : nat) (next : nat -> list nat) (s : list nat) : list nat :=
  match n with
  | O => s
  | S n' => match find (fun x => negb (mem x s)) (flat_map next s) with Some x => closure n' next (x :: s) | None => s end
  end.
Definition search (f : func) (next : nat -> list nat) (b c : nat) : bool :=
  mem c (closure (S (length (flat_map next (dkeys (f_blocks f))))) next [b]).

Lemma closure_sound n next b : forall s, (forall x, In x s -> path next b x) -> forall x, In x (closure n next s) -> path next b x.
Proof.
  induction n as [|n IH]; intros s H x X; [apply H; exact X|]. cbn [closure] in X. destruct (find _ _) as [y|] eqn:E; [|apply H; exact X].
  apply (IH (y :: s)); [|exact X]. intros z [->|Z]; [|apply H; exact Z]. apply find_some in E as [I _]. apply in_flat_map in I as (w & W & I).
  apply path_step with w; [apply H; exact W|exact I].
Qed.
Lemma closure_incl n next : forall s x, In x s -> In x (closure n next s).
Proof. induction n as [|n IH]; intros s x X; [exact X|]. cbn [closure]. destruct (find _ _); [apply IH; right; exact X|exact X]. Qed.
Lemma closure_complete U next b : forall n s, NoDup s -> (forall x, In x s -> x = b \/ In x U) -> (forall x y, In y (next x) -> In y U) ->
  n + length s >= S (S (length U)) -> forall x y, In x (closure n next s) -> In y (next x) -> In y (closure n next s).
Proof.
  induction n as [|n IH]; intros s N B HU L x y X Y.
  - exfalso. assert (length s <= length (b :: U)) by (apply NoDup_incl_length; [exact N|intros z Z; destruct (B z Z) as [->|K]; [left; reflexivity|right; exact K]]). cbn [length] in *. lia.
  - cbn [closure] in *. destruct (find _ _) as [z|] eqn:E.
    + pose proof (find_some _ _ E) as [I M]. apply in_flat_map in I as (w & W & I).
      apply (IH (z :: s)) with x; [constructor; [intros K; apply mem_In in K; rewrite K in M; discriminate|exact N]| |exact HU|cbn [length] in *; lia|exact X|exact Y].
      intros a [->|A]; [right; apply (HU w); exact I|apply B; exact A].
    + pose proof (find_none _ _ E y) as K. apply mem_In. destruct (mem y s) eqn:Q; [reflexivity|]. exfalso.
      assert (F : negb (mem y s) = false) by (apply K; apply in_flat_map; exists x; split; assumption). rewrite Q in F. discriminate.
Qed.
Lemma search_exact f : exact f (search f).
Proof.
  intros next b c H. unfold search. rewrite mem_In. split.
  - apply closure_sound. intros x [<-|[]]. constructor.
  - intros P. induction P as [|b c d P IH I]; [apply closure_incl; left; reflexivity|].
    apply (closure_complete (flat_map next (dkeys (f_blocks f))) next b) with c; [constructor; [intros []|constructor]| | | |exact IH|exact I].
    + intros x [<-|[]]; left; reflexivity.
    + intros x y Y. apply in_flat_map. exists x. split; [|exact Y]. destruct (in_dec Nat.eq_dec x (dkeys (f_blocks f))) as [K|K]; [exact K|].
      rewrite (H x K) in Y. destruct Y.
    + cbn [length]. lia.
Qed.
