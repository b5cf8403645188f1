(** * Functions without their empty blocks run the same (proofs for Trim_Props) *)
From Coq Require Import String Ascii ZArith Arith Bool Lia List.
From Verif Require Import PyBase Funcomp_Model Funcomp_Spec Slice_Model Slice_Spec Slice_Whole Slice_Phi Trim_Model Trim_Spec.
Import ListNotations.
Open Scope list_scope.
Open Scope nat_scope.

Lemma dget_map_key {A C} (h : nat -> A -> C) (bs : list (nat * A)) x :
  dget (map (fun kb => (fst kb, h (fst kb) (snd kb))) bs) x = option_map (h x) (dget bs x).
Proof.
  induction bs as [|[k l] bs IH]; cbn [map dget fst snd option_map]; [reflexivity|].
  destruct (eqb_spec x k) as [-> | N]; [reflexivity|exact IH].
Qed.
Lemma dget_filter_key {A} (P : nat -> bool) (bs : list (nat * A)) x :
  dget (filter (fun kb => P (fst kb)) bs) x = if P x then dget bs x else None.
Proof.
  induction bs as [|[k l] bs IH]; cbn [filter dget fst]; [destruct (P x); reflexivity|].
  destruct (P k) eqn:E; cbn [dget]; destruct (eqb_spec x k) as [-> | N]; rewrite ?E; try reflexivity; rewrite IH, ?E; reflexivity.
Qed.
Lemma block_delete D f x : block (delete D f) x = if D x then [] else map (left_inst D f x) (block f x).
Proof.
  unfold block, delete. cbn [f_blocks]. rewrite (dget_map_key (fun k l => map (left_inst D f k) l)).
  rewrite (dget_filter_key (fun k => negb (D k))). destruct (D x); cbn [negb option_map]; [reflexivity|]. destruct (dget (f_blocks f) x); reflexivity.
Qed.
Lemma block_merge b s f x : block (merge b s f) x = if Nat.eqb x b then [] else map (moved b s (into f b) x) (block f x).
Proof.
  unfold block, merge. cbn [f_blocks]. rewrite (dget_map_key (fun k l => map (moved b s (into f b) k) l)).
  rewrite (dget_filter_key (fun k => negb (Nat.eqb k b))). destruct (Nat.eqb x b); cbn [negb option_map]; [reflexivity|]. destruct (dget (f_blocks f) x); reflexivity.
Qed.
Lemma in_block f b i : In i (block f b) -> In (b, block f b) (f_blocks f).
Proof. unfold block. destruct (dget (f_blocks f) b) eqn:E; [|intros []]. intros _. apply dget_In. exact E. Qed.
Lemma block_is f b l : NoDup (dkeys (f_blocks f)) -> In (b, l) (f_blocks f) -> block f b = l.
Proof. intros N H. unfold block. rewrite (dget_In_NoDup _ _ _ N H). reflexivity. Qed.
Lemma targets_next f b : targets f b = next_blocks f b. Proof. reflexivity. Qed.
Lemma body_end S cs args l env m e n t : body S cs args l env m = Some (e, n, t) -> exists k r, l = k ++ t :: r /\ is_terminator t = true.
Proof.
  revert env m. induction l as [|i l IH]; intros env m; cbn [body]; [discriminate|].
  destruct (is_debug i || is_phi i).
  { intros H. destruct (IH _ _ H) as (k & r & -> & T). exists (i :: k), r. split; [reflexivity|exact T]. }
  destruct (is_terminator i) eqn:T.
  { intros [= _ _ <-]. exists [], l. split; [reflexivity|exact T]. }
  destruct (exec _ _ _ _ _) as [[v m']|]; [|discriminate].
  intros H. destruct (IH _ _ H) as (k & r & -> & T'). exists (i :: k), r. split; [reflexivity|exact T'].
Qed.
Lemma last_terminator k t : is_terminator t = true -> terminator (k ++ [t]) = Some t.
Proof. intros T. unfold terminator. rewrite rev_app_distr. cbn [rev app]. rewrite T. reflexivity. Qed.
Lemma into_iff f b p : NoDup (dkeys (f_blocks f)) -> In p (into f b) <-> In b (next_blocks f p).
Proof.
  intros N. unfold into. rewrite in_flat_map. split.
  - intros ([k l] & I & H). cbn [fst snd] in H. apply in_map_iff in H. destruct H as (y & <- & H). apply filter_In in H. destruct H as (H & E). apply Nat.eqb_eq in E. subst y.
    unfold next_blocks. rewrite (block_is f k l N I). exact H.
  - intros H. unfold next_blocks in H. destruct (terminator (block f p)) as [t|] eqn:T; [|destruct H].
    assert (I : In t (block f p)) by (destruct (terminator_last _ _ T) as (k & -> & _); apply in_app_iff; right; left; reflexivity).
    exists (p, block f p). split; [apply (in_block f p t I)|]. cbn [fst snd]. rewrite T. apply in_map_iff. exists b. split; [reflexivity|]. apply filter_In. split; [exact H|apply Nat.eqb_refl].
Qed.

Section Run.
  Variable S : semantics.
  Variable cs : const -> V S.
  Variable args : nat -> V S.
  Notation eval := (eval S cs args).
  Notation body := (body S cs args).
  Notation run := (run S cs args).
  Notation env := (nat -> V S).

  (** One block. *)
  Definition step (f : func) (e : env) (m : M S) (prev : option nat) (x : nat) : outcome (V S) (M S) + (env * M S * nat) :=
    match body (block f x) (match prev with Some p => enter S cs args e p (block f x) | None => e end) m with
    | None => inl Stuck
    | Some (e', m', t) =>
      let vs := map (eval e') (i_ops t) in
      match i_code t with
      | Ret => inl (Returned vs m')
      | c => match choose S c (i_rest t) vs with
             | None => inl Stuck
             | Some k => match nth_error (successors t) k with None => inl Stuck | Some y => inr (e', m', y) end
             end
      end
    end.
  Lemma run_step f n e m prev x : run f (Datatypes.S n) e m prev x = match step f e m prev x with inl o => o | inr (e', m', y) => run f n e' m' (Some x) y end.
  Proof.
    cbn [Funcomp_Spec.run]. unfold step. destruct (body _ _ _) as [[[e' m'] t]|]; [|reflexivity]. cbv zeta.
    destruct (i_code t); try reflexivity; destruct (choose _ _ _ _); try reflexivity; destruct (nth_error _ _); reflexivity.
  Qed.

  Section Like.
    (** The registers that are never set. *)
    Variable U : nat -> bool.
    Definition rel (e e' : env) : Prop := (forall r, e r = e' r) /\ forall r, U r = true -> e r = undef S.
    Definition like (i i' : inst) : Prop :=
      i_reg i' = i_reg i /\ i_rest i' = i_rest i /\ is_phi i' = is_phi i /\ (is_phi i = false -> i_code i' = i_code i) /\
      (is_phi i = false -> forall e e', rel e e' -> map (eval e) (i_ops i) = map (eval e') (i_ops i')) /\ U (i_reg i) = false.
    Lemma rel_upd e e' r v : rel e e' -> U r = false -> rel (upd S e r v) (upd S e' r v).
    Proof.
      intros (A & B) F. split; intros x; unfold upd.
      - destruct (Nat.eqb x r); [reflexivity|apply A].
      - intros X. destruct (Nat.eqb_spec x r) as [-> | N]; [congruence|apply B; exact X].
    Qed.
    Lemma body_like h l : (forall i, In i l -> like i (h i)) -> forall e e' m, rel e e' ->
      match body l e m, body (map h l) e' m with
      | Some (a, n, t), Some (a', n', t') => rel a a' /\ n' = n /\ t' = h t /\ In t l
      | None, None => True
      | _, _ => False
      end.
    Proof.
      intros L. induction l as [|i l IH]; intros e e' m R; cbn [Funcomp_Spec.body map]; [exact I|].
      assert (W : forall e e' m, rel e e' ->
        match body l e m, body (map h l) e' m with
        | Some (a, n, t), Some (a', n', t') => rel a a' /\ n' = n /\ t' = h t /\ In t (i :: l)
        | None, None => True
        | _, _ => False
        end).
      { intros e1 e2 m1 R1. specialize (IH (fun j J => L j (or_intror J)) e1 e2 m1 R1).
        destruct (body l e1 m1) as [[[? ?] ?]|], (body (map h l) e2 m1) as [[[? ?] ?]|]; auto.
        destruct IH as (X & Y & Z & J). repeat split; try apply X; auto. right. exact J. }
      destruct (L i (or_introl eq_refl)) as (R1 & R2 & R3 & R4 & R5 & R6).
      destruct (is_phi i) eqn:P.
      { rewrite R3, !orb_true_r. apply W. exact R. }
      specialize (R4 eq_refl). specialize (R5 eq_refl).
      assert (Db : is_debug (h i) = is_debug i) by (unfold is_debug; rewrite R4; reflexivity).
      assert (Tb : is_terminator (h i) = is_terminator i) by (unfold is_terminator; rewrite R4; reflexivity).
      rewrite Db, Tb, R3, R4, R1, R2, !orb_false_r. unfold is_debug, is_terminator.
      destruct (i_code i) eqn:C; cbv iota; try (apply W; exact R); try (split; [exact R|]; split; [reflexivity|]; split; [reflexivity|left; reflexivity]);
        rewrite <- (R5 _ _ R); destruct (exec _ _ _ _ _) as [[v m']|]; auto; apply W; apply rel_upd; auto.
    Qed.
    Lemma step_like f g h ren x prev prev' e e' m : ended f -> block g x = map h (block f x) -> (forall i, In i (block f x) -> like i (h i)) ->
      (forall i, In i (block f x) -> is_terminator i = true -> successors (h i) = map ren (successors i)) ->
      rel (match prev with Some p => enter S cs args e p (block f x) | None => e end) (match prev' with Some p => enter S cs args e' p (block g x) | None => e' end) ->
      match step f e m prev x, step g e' m prev' x with
      | inl o, inl o' => o' = o
      | inr (a, n, y), inr (a', n', y') => rel a a' /\ n' = n /\ y' = ren y /\ In y (next_blocks f x)
      | _, _ => False
      end.
    Proof.
      intros E B L T R. unfold step. rewrite B in *. pose proof (body_like h (block f x) L _ _ m R) as H.
      destruct (body (block f x) _ m) as [[[a n] t]|] eqn:X, (body (map h (block f x)) _ m) as [[[a' n'] t']|] eqn:X'; try contradiction; [|reflexivity].
      destruct H as (Ra & -> & -> & It). cbv zeta.
      destruct (body_end _ _ _ _ _ _ _ _ _ X) as (k & r & K & Tt).
      assert (r = []) by (apply (E x k t r); [rewrite <- K; apply (in_block f x t It)|exact Tt]). subst r.
      assert (NB : next_blocks f x = successors t) by (unfold next_blocks; rewrite K, (last_terminator k t Tt); reflexivity).
      destruct (L t It) as (R1 & R2 & R3 & R4 & R5 & R6).
      assert (P : is_phi t = false) by (unfold is_phi, is_terminator in *; destruct (i_code t); congruence).
      rewrite (R4 P), R2, <- (R5 P _ _ Ra), (T t It Tt), NB.
      destruct (i_code t) eqn:C; try reflexivity; (destruct (choose _ _ _ _) as [j|]; [|reflexivity]; rewrite nth_error_map; destruct (nth_error (successors t) j) as [y|] eqn:N; cbn [option_map]; [|reflexivity]; apply nth_error_In in N; auto).
    Qed.
  End Like.

  (** ** Deleted blocks *)

  Lemma block_unique (bs : list (nat * list inst)) b l b' l' i j : NoDup (map i_reg (flat_map snd bs)) -> In (b, l) bs -> In (b', l') bs -> In i l -> In j l' -> i_reg i = i_reg j -> (b, l) = (b', l').
  Proof using Type.
    induction bs as [|[k x] bs IH]; cbn [flat_map snd map]; [intros _ []|]. rewrite map_app. intros N H H' Ii Ij E.
    assert (D : forall p q, In p x -> In q (flat_map snd bs) -> i_reg p = i_reg q -> False).
    { clear - N. intros p q P Q E. induction x as [|y x IHx]; [destruct P|]. cbn [map app] in N. inversion N as [|? ? N1 N2]; subst.
      destruct P as [-> | P]; [|auto]. apply N1. apply in_app_iff. right. rewrite E. apply in_map. exact Q. }
    destruct H as [H|H], H' as [H'|H'].
    - congruence.
    - inversion H; subst. destruct (D i j Ii); [apply in_flat_map; exists (b', l'); auto|exact E].
    - inversion H'; subst. destruct (D j i Ij); [apply in_flat_map; exists (b, l); auto|auto].
    - apply IH; auto. clear - N. induction x as [|y x IHx]; [exact N|]. apply IHx. inversion N; auto.
  Qed.
  Lemma defined_out D f c i : NoDup (map i_reg (insts f)) -> D c = false -> In i (block f c) -> defined_in D f (i_reg i) = false.
  Proof using Type.
    intros N Dc Ii. unfold defined_in. apply not_true_iff_false. rewrite existsb_exists. intros ([k l] & K & H). cbn [fst snd] in H.
    apply andb_true_iff in H. destruct H as (Dk & H). apply mem_In, in_map_iff in H. destruct H as (j & E & J).
    assert (X := block_unique _ _ _ _ _ i j N (in_block f c i Ii) K Ii J (eq_sym E)). inversion X; subst. congruence.
  Qed.
  Lemma incoming_with i l : incoming (with_incoming i l) = l.
  Proof using Type. unfold incoming, with_incoming. cbn [i_code i_ops]. apply combine_split. Qed.
  Lemma left_phi D f c i : is_phi i = true -> incoming (left_inst D f c i) = map (fun e => (left_value D f (fst e), snd e)) (filter (fun e => negb (D (snd e) && mem c (targets f (snd e)))) (incoming i)).
  Proof using Type.
    unfold is_phi. intros P. unfold left_inst. destruct (i_code i); try discriminate. cbv zeta. unfold incoming at 1. cbn [i_code i_ops with_incoming].
    set (l := filter _ _). clearbody l. induction l as [|[v k] l IH]; cbn [map fst snd combine]; [reflexivity|]. rewrite IH. reflexivity.
  Qed.
  Lemma left_other D f c i : is_phi i = false -> left_inst D f c i = mkInst (i_reg i) (i_code i) (i_rest i) (map (left_value D f) (i_ops i)).
  Proof using Type. unfold is_phi, left_inst. destruct (i_code i) eqn:C; intros; try discriminate; cbv zeta; rewrite C; reflexivity. Qed.
  Lemma left_is_phi D f c i : is_phi (left_inst D f c i) = is_phi i /\ i_reg (left_inst D f c i) = i_reg i /\ i_rest (left_inst D f c i) = i_rest i.
  Proof using Type. unfold is_phi, left_inst. destruct (i_code i) eqn:C; cbv zeta; cbn [i_code i_reg i_rest with_incoming]; rewrite ?C; auto. Qed.
  Lemma blocks_left D f ops : blocks_of (map (left_value D f) ops) = blocks_of ops.
  Proof using Type.
    unfold blocks_of. induction ops as [|v ops IH]; cbn [map flat_map]; [reflexivity|]. rewrite IH. f_equal. destruct v as [n|r|b|c]; cbn [left_value]; try reflexivity.
    destruct (defined_in D f r); reflexivity.
  Qed.
  Lemma left_successors D f c i : successors (left_inst D f c i) = successors i.
  Proof using Type.
    destruct (is_phi i) eqn:P; [|rewrite (left_other _ _ _ _ P); unfold successors; cbn [i_code i_ops]; rewrite blocks_left; reflexivity].
    destruct (left_is_phi D f c i) as (Q & _). unfold is_phi in *. unfold successors. destruct (i_code i); try discriminate. destruct (i_code (left_inst D f c i)); try discriminate. reflexivity.
  Qed.
  Lemma find_map_in {A} (P : A -> bool) (h : A -> A) l : (forall x, In x l -> P (h x) = P x) -> find P (map h l) = option_map h (find P l).
  Proof using Type.
    induction l as [|x l IH]; intros H; cbn [map find option_map]; [reflexivity|]. rewrite (H x (or_introl eq_refl)). destruct (P x); [reflexivity|]. apply IH. intros y Y. apply H. right. exact Y.
  Qed.
  Lemma next_left f i p : ended f -> In i (block f p) -> is_terminator i = true -> next_blocks f p = successors i.
  Proof using Type.
    intros E I T. destruct (in_split _ _ I) as (k & r & K). assert (r = []) by (apply (E p k i r); [rewrite <- K; apply (in_block f p i I)|exact T]). subst r.
    unfold next_blocks. rewrite K, (last_terminator k i T). reflexivity.
  Qed.

  Section Delete.
    Variable f : func.
    Variable D : nat -> bool.
    Hypothesis NR : NoDup (map i_reg (insts f)).
    Hypothesis EN : ended f.
    Hypothesis CL : forall x y, D x = false -> In y (next_blocks f x) -> D y = false.
    Hypothesis UN : cs (CGlobal "undef") = undef S.
    Notation U := (defined_in D f).

    Lemma left_eval e e' v : rel U e e' -> eval e v = eval e' (left_value D f v).
    Proof.
      intros (A & B). destruct v as [n|r|b|c]; cbn [left_value Funcomp_Spec.eval]; try reflexivity. destruct (U r) eqn:F; cbn [Funcomp_Spec.eval undefined]; [|apply A].
      rewrite B by exact F. unfold undefined. cbn [Funcomp_Spec.eval]. symmetry. exact UN.
    Qed.
    Lemma left_like c i : D c = false -> In i (block f c) -> like U i (left_inst D f c i).
    Proof.
      intros Dc I. destruct (left_is_phi D f c i) as (P & Q & R). split; [exact Q|]. split; [exact R|]. split; [exact P|].
      split; [intros N; rewrite (left_other _ _ _ _ N); reflexivity|]. split; [|apply (defined_out D f c); auto].
      intros N e e' H. rewrite (left_other _ _ _ _ N). cbn [i_ops]. rewrite map_map. apply map_ext. intros v. apply left_eval. exact H.
    Qed.
    Lemma left_enter e e' p c : rel U e e' -> D c = false -> D p = false -> rel U (enter S cs args e p (block f c)) (enter S cs args e' p (map (left_inst D f c) (block f c))).
    Proof.
      intros H Dc Dp. split.
      - intros r. unfold enter. rewrite find_map_in.
        2:{ intros i _. destruct (left_is_phi D f c i) as (P & Q & _). rewrite P, Q. reflexivity. }
        destruct (find _ (block f c)) as [i|] eqn:F; cbn [option_map]; [|apply (proj1 H)].
        apply find_some in F. destruct F as (I & F). apply andb_true_iff in F. destruct F as (P & F).
        rewrite (left_phi _ _ _ _ P). clear F. induction (incoming i) as [|[v k] l IH]; cbn [filter map find fst snd]; [reflexivity|].
        destruct (Nat.eqb_spec k p) as [-> | N].
        + rewrite Dp. cbn [andb negb map find fst snd]. rewrite Nat.eqb_refl. apply left_eval. exact H.
        + destruct (negb _); cbn [map find fst snd]; [|exact IH]. destruct (Nat.eqb_spec k p); [contradiction|exact IH].
      - intros r F. unfold enter. destruct (find _ (block f c)) as [i|] eqn:G; [|apply (proj2 H); exact F].
        apply find_some in G. destruct G as (I & G). apply andb_true_iff in G. destruct G as (_ & G). apply Nat.eqb_eq in G. subst r.
        rewrite (defined_out D f c i NR Dc I) in F. discriminate.
    Qed.
    Lemma run_delete n : forall e e' m prev x, rel U e e' -> D x = false -> (forall p, prev = Some p -> D p = false) ->
      run f n e m prev x = run (delete D f) n e' m prev x.
    Proof.
      induction n as [|n IH]; intros e e' m prev x R Dx Dp; [reflexivity|]. rewrite !run_step.
      assert (B : block (delete D f) x = map (left_inst D f x) (block f x)) by (rewrite block_delete, Dx; reflexivity).
      pose proof (step_like U f (delete D f) (left_inst D f x) (fun y => y) x prev prev e e' m EN B (fun i I => left_like x i Dx I)) as H.
      assert (H1 : forall i, In i (block f x) -> is_terminator i = true -> successors (left_inst D f x i) = map (fun y => y) (successors i)) by (intros i _ _; rewrite map_id; apply left_successors).
      specialize (H H1).
      assert (H2 : rel U (match prev with Some p => enter S cs args e p (block f x) | None => e end) (match prev with Some p => enter S cs args e' p (block (delete D f) x) | None => e' end)).
      { destruct prev as [p|]; [|exact R]. rewrite B. apply left_enter; auto. }
      specialize (H H2). destruct (step f e m prev x) as [o|[[a k] y]], (step (delete D f) e' m prev x) as [o'|[[a' k'] y']]; try contradiction; [auto|].
      destruct H as (Ra & -> & -> & Y). apply IH; [exact Ra|apply (CL x y); auto|]. intros p [= <-]. exact Dx.
    Qed.
  End Delete.

  (** ** Blocks that only go on *)

  Lemma moved_is_phi b s ps c i : is_phi (moved b s ps c i) = is_phi i /\ i_reg (moved b s ps c i) = i_reg i /\ i_rest (moved b s ps c i) = i_rest i.
  Proof using Type. unfold is_phi, moved. destruct (i_code i) eqn:C; try (destruct (Nat.eqb c s)); cbn [i_code i_reg i_rest with_incoming]; rewrite ?C; auto. Qed.
  Lemma moved_other b s ps c i : is_phi i = false -> moved b s ps c i = mkInst (i_reg i) (i_code i) (i_rest i) (map (redirected_value b s) (i_ops i)).
  Proof using Type. unfold is_phi, moved. destruct (i_code i) eqn:C; intros; try discriminate; reflexivity. Qed.
  Lemma moved_phi b s ps c i : is_phi i = true -> incoming (moved b s ps c i) =
    if Nat.eqb c s then filter (fun e => negb (Nat.eqb (snd e) b)) (incoming i) ++ match value_from i b with Some v => map (pair v) ps | None => [] end else incoming i.
  Proof using Type.
    unfold is_phi. intros P. unfold moved. destruct (i_code i) eqn:C; try discriminate. destruct (Nat.eqb c s); [apply incoming_with|reflexivity].
  Qed.
  Definition redirect_to (b s x : nat) : nat := if Nat.eqb x b then s else x.
  Lemma blocks_redirected b s ops : blocks_of (map (redirected_value b s) ops) = map (redirect_to b s) (blocks_of ops).
  Proof using Type.
    unfold blocks_of. induction ops as [|v ops IH]; cbn [map flat_map]; [reflexivity|]. rewrite map_app, IH. f_equal. destruct v as [n|r|x|c]; cbn [redirected_value map]; try reflexivity.
    unfold redirect_to. destruct (Nat.eqb x b); reflexivity.
  Qed.
  Lemma moved_successors b s ps c i : successors (moved b s ps c i) = map (redirect_to b s) (successors i).
  Proof using Type.
    destruct (is_phi i) eqn:P.
    - destruct (moved_is_phi b s ps c i) as (Q & _). unfold is_phi in *. unfold successors. destruct (i_code i); try discriminate. destruct (i_code (moved b s ps c i)); try discriminate. reflexivity.
    - rewrite (moved_other _ _ _ _ _ P). unfold successors. cbn [i_code i_ops]. rewrite blocks_redirected. destruct (i_code i); try reflexivity. rewrite map_rev. reflexivity.
  Qed.

  Lemma value_from_find i p : match find (fun e => Nat.eqb (snd e) p) (incoming i) with Some (v, _) => Some v | None => None end = value_from i p.
  Proof using Type. reflexivity. Qed.

  Section Merge.
    Variable f : func.
    Variables b s : nat.
    Variable t : inst.
    Hypothesis NB : NoDup (dkeys (f_blocks f)).
    Hypothesis EN : ended f.
    Hypothesis BT : block f b = [t].
    Hypothesis TT : i_code t = Br /\ i_ops t = [VBlock s].
    Hypothesis BS : s <> b.
    Hypothesis CR : can_remove f b s = true.
    Hypothesis PH : forall p c i, In c (next_blocks f p) -> In i (block f c) -> is_phi i = true -> exists v, In (v, p) (incoming i).
    Hypothesis JF : forall r v, choose S Br r [v] = Some 0.
    Notation g := (merge b s f).
    Notation none := (fun _ : nat => false).

    Lemma next_b : next_blocks f b = [s].
    Proof. unfold next_blocks. rewrite BT. unfold terminator. cbn [rev app]. unfold is_terminator. rewrite (proj1 TT). unfold successors. rewrite (proj1 TT), (proj2 TT). reflexivity. Qed.
    (** What comes to a PHI node of [s]. *)
    Lemma same_value i p : In i (block f s) -> is_phi i = true -> In p (into f b) -> forall v, value_from i p = Some v -> p <> b -> value_from i b = Some v.
    Proof.
      intros I P Ip v V Np. unfold can_remove in CR. rewrite forallb_forall in CR. specialize (CR i I). rewrite P in CR. cbn [negb orb] in CR. rewrite forallb_forall in CR.
      unfold value_from in V. destruct (find (fun e => Nat.eqb (snd e) p) (incoming i)) as [[v' k]|] eqn:F; [|discriminate]. inversion V; subst v'. pose proof F as F'.
      apply find_some in F. destruct F as (F1 & F2). apply Nat.eqb_eq in F2. cbn [snd] in F2. subst k.
      specialize (CR _ F1). cbn [snd] in CR. destruct (Nat.eqb_spec p b); [contradiction|]. cbn [orb] in CR. rewrite forallb_forall in CR. specialize (CR p Ip).
      unfold value_from at 1 in CR. rewrite F' in CR. destruct (eqb_spec (Some v) (value_from i b)) as [E|E]; [symmetry; exact E|discriminate].
    Qed.
    Lemma find_filter_other {A} (l : list (A * nat)) p : p <> b -> find (fun e => Nat.eqb (snd e) p) (filter (fun e => negb (Nat.eqb (snd e) b)) l) = find (fun e => Nat.eqb (snd e) p) l.
    Proof.
      intros N. induction l as [|[v k] l IH]; cbn [filter find snd]; [reflexivity|]. destruct (Nat.eqb_spec k b) as [-> | Nk]; cbn [negb].
      - destruct (Nat.eqb_spec b p); [congruence|exact IH].
      - cbn [find snd]. rewrite IH. reflexivity.
    Qed.
    Lemma find_app {A} (P : A -> bool) l l' : find P (l ++ l') = match find P l with Some x => Some x | None => find P l' end.
    Proof. induction l as [|x l IH]; cbn [app find]; [reflexivity|]. destruct (P x); [reflexivity|exact IH]. Qed.
    Lemma find_pairs (v : value) ps p : find (fun e => Nat.eqb (snd e) p) (map (pair v) ps) = if mem p ps then Some (v, p) else None.
    Proof.
      induction ps as [|q ps IH]; cbn [map find snd mem]; [reflexivity|]. rewrite IH. change (eqb p q) with (Nat.eqb p q). rewrite (Nat.eqb_sym q p). destruct (Nat.eqb_spec p q) as [-> | N]; reflexivity.
    Qed.
    Lemma moved_value_direct c i p : In i (block f c) -> is_phi i = true -> In c (next_blocks f p) -> p <> b -> value_from (moved b s (into f b) c i) p = value_from i p.
    Proof.
      intros I P E Np. unfold value_from at 1. rewrite (moved_phi _ _ _ _ _ P). destruct (Nat.eqb_spec c s) as [-> | N]; [|reflexivity].
      rewrite find_app, find_filter_other by exact Np. rewrite <- (value_from_find i p). destruct (find (fun e => Nat.eqb (snd e) p) (incoming i)) as [[v k]|] eqn:F; [reflexivity|].
      destruct (PH p s i E I P) as (v & V). exfalso. eapply find_none in F; [|exact V]. cbn [snd] in F. rewrite Nat.eqb_refl in F. discriminate.
    Qed.
    Lemma moved_value_through i p : In i (block f s) -> is_phi i = true -> In p (into f b) -> p <> b -> value_from (moved b s (into f b) s i) p = value_from i b.
    Proof.
      intros I P E Np. unfold value_from at 1. rewrite (moved_phi _ _ _ _ _ P), Nat.eqb_refl.
      rewrite find_app, find_filter_other by exact Np. destruct (find (fun e => Nat.eqb (snd e) p) (incoming i)) as [[v k]|] eqn:F.
      - symmetry. apply (same_value i p I P E v); [|exact Np]. unfold value_from. rewrite F. reflexivity.
      - destruct (value_from i b) as [v|]; [|reflexivity]. rewrite find_pairs, (proj2 (mem_In p (into f b)) E). reflexivity.
    Qed.
    Lemma moved_eval e e' v : rel none e e' -> eval e v = eval e' (redirected_value b s v).
    Proof. intros (A & _). destruct v as [n|r|x|c]; cbn [redirected_value Funcomp_Spec.eval]; auto. destruct (Nat.eqb x b); reflexivity. Qed.
    Lemma moved_like c i : In i (block f c) -> like none i (moved b s (into f b) c i).
    Proof.
      intros I. destruct (moved_is_phi b s (into f b) c i) as (P & Q & R). split; [exact Q|]. split; [exact R|]. split; [exact P|].
      split; [intros N; rewrite (moved_other _ _ _ _ _ N); reflexivity|]. split; [|reflexivity].
      intros N e e' H. rewrite (moved_other _ _ _ _ _ N). cbn [i_ops]. rewrite map_map. apply map_ext. intros v. apply moved_eval. exact H.
    Qed.
    Lemma enter_value e p l r : enter S cs args e p l r =
      match find (fun i => is_phi i && Nat.eqb (i_reg i) r) l with Some i => match value_from i p with Some v => eval e v | None => undef S end | None => e r end.
    Proof. unfold enter, value_from. destruct (find _ l) as [i|]; [|reflexivity]. destruct (find _ (incoming i)) as [[v k]|]; reflexivity. Qed.
    Lemma moved_enter e e' p p' c : rel none e e' -> (forall i, In i (block f c) -> is_phi i = true -> value_from (moved b s (into f b) c i) p' = value_from i p) ->
      rel none (enter S cs args e p (block f c)) (enter S cs args e' p' (map (moved b s (into f b) c) (block f c))).
    Proof.
      intros H V. split; [|discriminate]. intros r. rewrite !enter_value, find_map_in.
      2:{ intros i _. destruct (moved_is_phi b s (into f b) c i) as (P & Q & _). rewrite P, Q. reflexivity. }
      destruct (find _ (block f c)) as [i|] eqn:F; cbn [option_map]; [|apply (proj1 H)].
      apply find_some in F. destruct F as (I & F). apply andb_true_iff in F. destruct F as (P & _). rewrite (V i I P).
      destruct (value_from i p) as [v|]; [|reflexivity]. destruct v as [n|q|x|k]; cbn [Funcomp_Spec.eval]; try reflexivity. apply (proj1 H).
    Qed.

    (** Where the two runs are. *)
    Definition together (prev prev' : option nat) (x : nat) : Prop :=
      x <> b /\ (prev = None /\ prev' = None \/
                 (exists p, prev = Some p /\ prev' = Some p /\ p <> b /\ In x (next_blocks f p)) \/
                 (exists p, prev = Some b /\ prev' = Some p /\ x = s /\ p <> b /\ In p (into f b))).
    Lemma together_step prev prev' x e e' m : together prev prev' x -> rel none e e' ->
      match step f e m prev x, step g e' m prev' x with
      | inl o, inl o' => o' = o
      | inr (a, n, y), inr (a', n', y') => rel none a a' /\ n' = n /\ y' = redirect_to b s y /\ In y (next_blocks f x)
      | _, _ => False
      end.
    Proof.
      intros (X & H) R. assert (B : block g x = map (moved b s (into f b) x) (block f x)) by (rewrite block_merge; destruct (Nat.eqb_spec x b); [contradiction|reflexivity]).
      apply (step_like none f g (moved b s (into f b) x) (redirect_to b s) x prev prev' e e' m EN B (moved_like x)).
      - intros i _ _. apply moved_successors.
      - rewrite B. destruct H as [(-> & ->)|[(p & -> & -> & Np & E)|(p & -> & -> & -> & Np & E)]]; [exact R| |].
        + apply moved_enter; [exact R|]. intros i I P. apply moved_value_direct; auto.
        + apply moved_enter; [exact R|]. intros i I P. apply moved_value_through; auto.
    Qed.
    (** Through [b]. *)
    Lemma step_b e m x : exists e', step f e m (Some x) b = inr (e', m, s) /\ forall r, e' r = e r.
    Proof.
      unfold step. rewrite BT. cbn [Funcomp_Spec.body]. unfold is_debug, is_phi, is_terminator. rewrite (proj1 TT). cbn [orb]. cbv zeta.
      unfold successors. rewrite (proj1 TT), (proj2 TT). cbn [map]. rewrite JF. cbn [blocks_of flat_map app rev nth_error].
      eexists. split; [reflexivity|]. intros r. unfold enter. cbn [find]. unfold is_phi. rewrite (proj1 TT). reflexivity.
    Qed.
    Lemma into_b p : In p (into f b) -> p <> b.
    Proof. intros H ->. apply into_iff in H; [|exact NB]. rewrite next_b in H. destruct H as [H|[]]. contradiction. Qed.
    Lemma together_next x y : x <> b -> In y (next_blocks f x) -> y <> b -> together (Some x) (Some x) y.
    Proof. intros X Y N. split; [exact N|]. right. left. exists x. auto. Qed.
    Lemma together_through x : x <> b -> In b (next_blocks f x) -> together (Some b) (Some x) s.
    Proof. intros X Y. split; [exact BS|]. right. right. exists x. repeat split; auto. apply into_iff; [exact NB|exact Y]. Qed.

    Lemma run_merge_to n : forall e e' m prev prev' x o, together prev prev' x -> rel none e e' -> (forall m', o <> Running m') -> run f n e m prev x = o -> exists n', run g n' e' m prev' x = o.
    Proof.
      induction n as [n IH] using lt_wf_ind. intros e e' m prev prev' x o T R O H. destruct n as [|n]; [cbn in H; destruct (O m); auto|].
      rewrite run_step in H. pose proof (together_step prev prev' x e e' m T R) as St.
      destruct (step f e m prev x) as [o1|[[a k] y]] eqn:Sf, (step g e' m prev' x) as [o1'|[[a' k'] y']] eqn:Sg; try contradiction.
      - exists 1. rewrite run_step, Sg. congruence.
      - destruct St as (Ra & -> & -> & Y). unfold redirect_to in Sg. destruct (Nat.eqb_spec y b) as [-> | Ny].
        + destruct n as [|n]; [cbn in H; destruct (O k); auto|]. rewrite run_step in H. destruct (step_b a k x) as (a1 & Sb & Ea). rewrite Sb in H.
          destruct (IH n ltac:(lia) a1 a' k (Some b) (Some x) s o) as (n' & Hn); auto.
          { apply together_through; [apply T|exact Y]. }
          { destruct Ra as (Ra & _). split; [|discriminate]. intros r. rewrite Ea. apply Ra. }
          exists (Datatypes.S n'). rewrite run_step, Sg. exact Hn.
        + destruct (IH n ltac:(lia) a a' k (Some x) (Some x) y o) as (n' & Hn); auto; [apply together_next; auto; apply T|].
          exists (Datatypes.S n'). rewrite run_step, Sg. exact Hn.
    Qed.
    Lemma run_merge_from n : forall e e' m prev prev' x o, together prev prev' x -> rel none e e' -> (forall m', o <> Running m') -> run g n e' m prev' x = o -> exists n', run f n' e m prev x = o.
    Proof.
      induction n as [|n IH]; intros e e' m prev prev' x o T R O H; [cbn in H; destruct (O m); auto|].
      rewrite run_step in H. pose proof (together_step prev prev' x e e' m T R) as St.
      destruct (step f e m prev x) as [o1|[[a k] y]] eqn:Sf, (step g e' m prev' x) as [o1'|[[a' k'] y']] eqn:Sg; try contradiction.
      - exists 1. rewrite run_step, Sf. congruence.
      - destruct St as (Ra & -> & -> & Y). unfold redirect_to in H. destruct (Nat.eqb_spec y b) as [-> | Ny].
        + destruct (step_b a k x) as (a1 & Sb & Ea).
          destruct (IH a1 a' k (Some b) (Some x) s o) as (n' & Hn); auto.
          { apply together_through; [apply T|exact Y]. }
          { destruct Ra as (Ra & _). split; [|discriminate]. intros r. rewrite Ea. apply Ra. }
          exists (Datatypes.S (Datatypes.S n')). rewrite run_step, Sf, run_step, Sb. exact Hn.
        + destruct (IH a a' k (Some x) (Some x) y o) as (n' & Hn); auto; [apply together_next; auto; apply T|].
          exists (Datatypes.S n'). rewrite run_step, Sf. exact Hn.
    Qed.
  End Merge.
End Run.
