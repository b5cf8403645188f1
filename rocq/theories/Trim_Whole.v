(** * The first block and the blocks that cannot be reached (proofs for Trim_Props) *)
From Coq Require Import String Ascii ZArith Arith Bool Lia List.
From Verif Require Import PyBase Funcomp_Model Funcomp_Spec Slice_Model Slice_Spec Slice_Whole Slice_Phi Trim_Model Trim_Spec Trim_Run Trim_Proofs.
Import ListNotations.
Open Scope list_scope.
Open Scope nat_scope.

(** ** The search *)

Section Search.
  Variable f : func.
  Notation keys := (dkeys (f_blocks f)).
  Definition unseen (v : list nat) : nat := length (filter (fun k => negb (mem k v)) keys).
  Lemma unseen_le v v' : incl v v' -> unseen v' <= unseen v.
  Proof.
    intros I. unfold unseen. induction keys as [|k ks IH]; cbn [filter]; [lia|]. destruct (mem k v) eqn:A, (mem k v') eqn:B; cbn [negb length]; try lia.
    apply mem_In in A. apply mem_not_In in B. destruct (B (I _ A)).
  Qed.
  Lemma unseen_lt b v : In b keys -> ~ In b v -> unseen (b :: v) < unseen v.
  Proof.
    unfold unseen. induction keys as [|k ks IH]; [intros []|]. intros I N.
    assert (Le : length (filter (fun k => negb (mem k (b :: v))) ks) <= length (filter (fun k => negb (mem k v)) ks)).
    { clear. induction ks as [|k ks IH]; [auto|]. cbn [filter]. destruct (mem k (b :: v)) eqn:A, (mem k v) eqn:B; cbn [negb length]; try lia.
      apply mem_In in B. apply mem_not_In in A. destruct A. right. exact B. }
    cbn [filter]. destruct (Nat.eq_dec k b) as [-> | Nk].
    - rewrite (proj2 (mem_not_In b v) N), (proj2 (mem_In b (b :: v)) (or_introl eq_refl)). cbn [negb length]. lia.
    - destruct I as [-> | I]; [contradiction|]. specialize (IH I N). destruct (mem k (b :: v)) eqn:A, (mem k v) eqn:B; cbn [negb length]; try lia.
      apply mem_In in B. apply mem_not_In in A. destruct A. right. exact B.
  Qed.
  Lemma unseen_all v : unseen v <= length (f_blocks f).
  Proof.
    unfold unseen, dkeys. induction (f_blocks f) as [|[k l] ks IH]; [auto|]. cbn [map fst filter length]. destruct (negb _); cbn [length]; lia.
  Qed.
  Definition searched (rv rv' : list nat * list nat) : Prop :=
    incl (fst rv) (fst rv') /\ incl (snd rv) (snd rv') /\
    (forall x, In x (snd rv') -> In x (snd rv) \/ incl (next_blocks f x) (fst rv')) /\ (forall y, In y (fst rv') -> In y (fst rv) \/ In y (snd rv')).
  Lemma searched_refl rv : searched rv rv.
  Proof. repeat split; try apply incl_refl; auto. Qed.
  Lemma searched_trans a b c : searched a b -> searched b c -> searched a c.
  Proof.
    intros (A1 & A2 & A3 & A4) (B1 & B2 & B3 & B4). repeat split; try (eapply incl_tran; eassumption).
    - intros x X. destruct (B3 x X) as [Y|Y]; [|auto]. destruct (A3 x Y) as [Z|Z]; [auto|]. right. eapply incl_tran; eassumption.
    - intros y Y. destruct (B4 y Y) as [Z|Z]; [|auto]. destruct (A4 y Z) as [W|W]; auto.
  Qed.
  Lemma reach_spec n : forall b rv, unseen (snd rv) < n -> searched rv (reach_from n f b rv) /\ In b (snd (reach_from n f b rv)).
  Proof.
    induction n as [|n IH]; intros b [R V0] H; [lia|]. cbn [reach_from fst snd] in *. destruct (mem b V0) eqn:M.
    { split; [apply searched_refl|]. apply mem_In. exact M. }
    apply mem_not_In in M.
    assert (F : forall ts rv, (ts = [] \/ unseen (snd rv) < n) -> let rv' := fold_left (fun rv t => reach_from n f t (t :: fst rv, snd rv)) ts rv in
      searched rv rv' /\ incl ts (fst rv')).
    { induction ts as [|t ts IHt]; intros rv U; cbn [fold_left]; [split; [apply searched_refl|intros x []]|]. destruct U as [U|U]; [discriminate|].
      destruct (IH t (t :: fst rv, snd rv) U) as (S1 & S2). set (rv1 := reach_from n f t (t :: fst rv, snd rv)) in *.
      destruct (IHt rv1) as (S3 & S4). { right. eapply Nat.le_lt_trans; [apply unseen_le; apply S1|exact U]. }
      cbv zeta in *. set (rv2 := fold_left _ ts rv1) in *. clearbody rv1 rv2.
      assert (S5 : searched rv rv1).
      { destruct S1 as (A1 & A2 & A3 & A4). cbn [fst snd] in *. repeat split; auto; [intros x X; apply A1; right; exact X|]. intros y Y. destruct (A4 y Y) as [[<- |Z]|Z]; auto. }
      split; [exact (searched_trans _ _ _ S5 S3)|]. intros x [<- |X]; [|apply S4; exact X]. apply S3. apply S1. left. reflexivity. }
    specialize (F (targets f b) (R, b :: V0)). cbv zeta in F. destruct F as (S1 & S2).
    { destruct (in_dec Nat.eq_dec b keys) as [I|I].
      - right. cbn [snd]. pose proof (unseen_lt b V0 I M). lia.
      - left. unfold targets, block. rewrite (proj2 (dget_None _ _) I). reflexivity. }
    set (rv' := fold_left _ _ _) in *. clearbody rv'. destruct S1 as (A1 & A2 & A3 & A4). cbn [fst snd] in *. split; [|apply A2; left; reflexivity]. repeat split; auto.
    - intros x X. apply A2. right. exact X.
    - intros x X. destruct (A3 x X) as [[<- |Y]|Y]; auto.
  Qed.
  Lemma reach_sound e n : forall b rv, path (next_blocks f) e b -> (forall x, In x (fst rv) -> path (next_blocks f) e x) -> forall x, In x (fst (reach_from n f b rv)) -> path (next_blocks f) e x.
  Proof.
    induction n as [|n IH]; intros b [R V0] Pb H; cbn [reach_from fst snd]; [exact H|]. destruct (mem b V0); [exact H|].
    assert (F : forall ts rv, incl ts (next_blocks f b) -> (forall x, In x (fst rv) -> path (next_blocks f) e x) -> forall x, In x (fst (fold_left (fun rv t => reach_from n f t (t :: fst rv, snd rv)) ts rv)) -> path (next_blocks f) e x).
    { induction ts as [|t ts IHt]; intros rv I Hr; cbn [fold_left]; [exact Hr|]. assert (Pt : path (next_blocks f) e t) by (apply (path_step _ _ b); [exact Pb|apply I; left; reflexivity]).
      apply IHt; [intros x X; apply I; right; exact X|]. apply IH; [exact Pt|]. cbn [fst]. intros x [<- |X]; [exact Pt|apply Hr; exact X]. }
    apply F; [apply incl_refl|exact H].
  Qed.
  Definition found (e : nat) : list nat := fst (reach_from (S (length (f_blocks f))) f e ([e], [])).
  Lemma found_iff e x : In x (found e) <-> path (next_blocks f) e x.
  Proof.
    unfold found. split.
    - apply reach_sound; [constructor|]. cbn [fst]. intros y [<- |[]]. constructor.
    - destruct (reach_spec (S (length (f_blocks f))) e ([e], [])) as ((A1 & A2 & A3 & A4) & B).
      { cbn [snd]. apply Nat.lt_succ_r. apply unseen_all. }
      set (rv := reach_from _ _ _ _) in *. clearbody rv. cbn [fst snd] in *. intros H. induction H as [b|b c d H IH D]; [apply A1; left; reflexivity|].
      specialize (IH A1 A4 B). assert (V : In c (snd rv)) by (destruct (A4 c IH) as [[<- |[]]|X]; auto). destruct (A3 c V) as [[]|X]. apply X. exact D.
  Qed.
End Search.

(** ** From the first block on *)

Section Run.
  Variable S : semantics.
  Variable cs : const -> V S.
  Variable args : nat -> V S.
  Variable P : plain_jumps S cs.
  Variable inc : list nat.
  Variable f : func.
  Hypothesis EM : emptied inc f.
  Notation none := (fun _ : nat => false).
  Notation run := (run S cs args).
  Notation entered e prev x := (match prev with Some p => enter S cs args e p (block f x) | None => e end).

  Lemma enter_rel e e' p x : rel S none e e' -> rel S none (enter S cs args e p (block f x)) (enter S cs args e' p (block f x)).
  Proof.
    intros (A & _). split; [|discriminate]. intros r. rewrite !enter_value. destruct (find _ _) as [i|]; [|apply A]. destruct (value_from i p) as [v|]; [|reflexivity].
    destruct v; cbn [eval]; auto.
  Qed.
  Lemma run_same n : forall e e' m prev prev' x, rel S none (entered e prev x) (entered e' prev' x) -> run f n e m prev x = run f n e' m prev' x.
  Proof.
    induction n as [|n IH]; intros e e' m prev prev' x R; [reflexivity|]. rewrite !run_step.
    pose proof (step_like S cs args none f f (fun i => i) (fun y => y) x prev prev' e e' m (em_ended _ _ EM) (eq_sym (map_id _))) as H.
    assert (L : forall i, In i (block f x) -> like S cs args none i i).
    { intros i _. repeat split; auto. intros _ e1 e2 (A & _). apply map_ext. intros v. destruct v; cbn [eval]; auto. }
    specialize (H L (fun i _ _ => eq_sym (map_id _)) R). destruct (step S cs args f e m prev x) as [o|[[a k] y]], (step S cs args f e' m prev' x) as [o'|[[a' k'] y']]; try contradiction; [auto|].
    destruct H as (Ra & -> & -> & _). apply IH. apply enter_rel. exact Ra.
  Qed.
  Lemma empty_enter x e prev : ~ In x inc -> In x (dkeys (f_blocks f)) -> rel S none (entered e prev x) e.
  Proof.
    intros N K. split; [|discriminate]. intros r. destruct prev as [p|]; [|reflexivity]. unfold enter.
    destruct (dkeys_dget _ _ K) as (l & D). destruct (em_empty _ _ EM x l (dget_In _ _ _ D) N) as (t & -> & T). unfold block. rewrite D. cbn [find].
    assert (is_phi t = false) as -> by (unfold is_phi, is_terminator in *; destruct (i_code t); congruence). reflexivity.
  Qed.
  Lemma run_goes x y : goes_on inc f x y -> forall prev e e' m o, rel S none e e' -> (x <> y -> In y (dkeys (f_blocks f))) -> (x = y -> prev = None \/ ~ In x inc /\ In x (dkeys (f_blocks f))) -> (forall m', o <> Running m') ->
    (exists n, run f n e m prev x = o) <-> (exists n, run f n e' m None y = o).
  Proof.
    intros G. induction G as [x|x t y N1 N2 T G IH]; intros prev e e' m o R K X O.
    - assert (A : forall n, run f n e m prev x = run f n e' m None x).
      { intros n. apply run_same. destruct (X eq_refl) as [-> |(A & B)]; [exact R|]. destruct (empty_enter x e prev A B) as (C & _). split; [|discriminate]. intros r. rewrite C. apply R. }
      split; intros (n & H); exists n; [rewrite <- A|rewrite A]; exact H.
    - destruct (merge_block inc f x t EM N1 T) as (i & B & Ib & Io).
      assert (St : exists e1, step S cs args f e m prev x = inr (e1, m, t) /\ forall r, e1 r = e r).
      { unfold step. rewrite B. cbn [body]. unfold is_debug, is_phi, is_terminator. rewrite Ib. cbn [orb]. cbv zeta. unfold successors. rewrite Ib, Io. cbn [map]. rewrite (jump_first _ _ P). cbn [blocks_of flat_map app rev nth_error].
        eexists. split; [reflexivity|]. intros r. destruct prev; [|reflexivity]. unfold enter. cbn [find]. unfold is_phi. rewrite Ib. reflexivity. }
      destruct St as (e1 & St & E1). assert (R1 : rel S none e1 e') by (split; [intros r; rewrite E1; apply R|discriminate]).
      assert (Ky : In y (dkeys (f_blocks f))).
      { destruct (Nat.eq_dec x y) as [<- |E]; [|auto]. unfold dkeys. apply in_map_iff. exists (x, block f x). split; [reflexivity|]. apply (in_block f x i). rewrite B. left. reflexivity. }
      rewrite <- (IH (Some x) e1 e' m o R1 (fun _ => Ky)); auto.
      + split; intros (n & H); [|exists (Datatypes.S n); rewrite run_step, St; exact H]. destruct n as [|n]; [cbn in H; destruct (O m); auto|]. rewrite run_step, St in H. exists n. exact H.
      + intros ->. right. split; [exact N2|exact Ky].
  Qed.
End Run.

(** ** Everything *)

Lemma first_dropped inc f g : emptied inc f -> drop_first inc f = g ->
  g = f \/ ~ In (entry f) inc /\ (forall t, In t (next_blocks f (entry f)) -> ~ In t inc) /\ closed (Nat.eqb (entry f)) f /\ g = delete (Nat.eqb (entry f)) f.
Proof.
  intros E H. unfold drop_first in H. destruct (mem (entry f) inc) eqn:M; cbn [negb andb] in H; [left; auto|]. destruct (can_remove_first inc f (entry f)) eqn:C; [|left; auto]. right.
  apply mem_not_In in M. split; [exact M|]. split; [|split; [|auto]].
  - intros t T I. unfold can_remove_first in C. rewrite forallb_forall in C. specialize (C t T). rewrite (proj2 (mem_In t inc) I) in C. cbn [andb] in C.
    destruct (no_predecessor f t) eqn:NP; [|discriminate]. rewrite (no_predecessor_iff f t (em_blocks _ _ E)) in NP. exact (NP _ T).
  - intros x y _ Y. destruct (Nat.eqb_spec (entry f) y) as [<- | _]; [destruct (em_first _ _ E _ Y)|reflexivity].
Qed.
Lemma delete_unreachable_spec f h : delete_unreachable f = Some h -> f_blocks f <> [] /\ h = delete (fun b => negb (mem b (found f (entry f)))) f.
Proof.
  unfold delete_unreachable. fold (found f (entry f)). cbv zeta. set (d := delete _ f). clearbody d. destruct (f_blocks f); [discriminate|]. intros [= <-]. split; [discriminate|reflexivity].
Qed.
Lemma found_closed f : closed (fun b => negb (mem b (found f (entry f)))) f.
Proof.
  intros x y X Y. apply negb_false_iff, mem_In, found_iff in X. apply negb_false_iff, mem_In, found_iff. apply (path_step _ _ x); auto.
Qed.
Lemma found_entry f : negb (mem (entry f) (found f (entry f))) = false.
Proof. apply negb_false_iff, mem_In, found_iff. constructor. Qed.
Lemma drop_regs inc f : emptied inc f -> NoDup (map i_reg (insts (drop_first inc f))) /\ ended (drop_first inc f).
Proof.
  intros E. unfold drop_first. destruct (_ && _); [|split; [apply (em_regs _ _ E)|apply (em_ended _ _ E)]]. rewrite delete_shape. split.
  - apply shape_regs; [|apply (em_regs _ _ E)]. intros c i. apply (left_is_phi _ f c i).
  - apply shape_ended; [|apply (em_ended _ _ E)]. intros c i. apply left_terminator.
Qed.
Lemma entry_key f : f_blocks f <> [] -> In (entry f) (dkeys (f_blocks f)).
Proof. unfold entry, dkeys. destruct (f_blocks f) as [|[k l] bs]; [congruence|]. intros _. left. reflexivity. Qed.
Lemma delete_keys D f x : In x (dkeys (f_blocks (delete D f))) <-> In x (dkeys (f_blocks f)) /\ D x = false.
Proof. rewrite delete_shape, shape_keys, filter_In, negb_true_iff. reflexivity. Qed.

Lemma trim_entry inc f h : trim inc f = Some h -> entry h = entry (drop_first inc (merge_empty inc (clear_dead inc f))).
Proof.
  intros H. unfold trim in H. destruct (delete_unreachable_spec _ _ H) as (N & ->). rewrite delete_shape.
  apply shape_some; [exact N|]. rewrite found_entry. reflexivity.
Qed.
Theorem trim_behaves inc f h : emptied inc f -> trim inc f = Some h -> goes_on inc f (entry f) (entry h) -> behaves f h.
Proof.
  intros E H G S cs args P m o. pose proof (first_steps inc f E) as T. pose proof (trim_entry inc f h H) as Eh. unfold trim in H. set (g := merge_empty inc (clear_dead inc f)) in *. clearbody g.
  pose proof (tr_emptied _ _ _ T E) as Eg. rewrite (tr_behaves _ _ _ T S cs args P m o). destruct (delete_unreachable_spec _ _ H) as (N & ->). destruct (drop_regs inc g Eg) as (R3 & E3).
  set (k := drop_first inc g) in *. assert (Dk := first_dropped inc g k Eg eq_refl).
  assert (X : forall n, result S cs args k n m = result S cs args (delete (fun b => negb (mem b (found k (entry k)))) k) n m).
  { intros n. unfold result. rewrite Eh. apply run_delete; auto; [apply found_closed|apply (undef_const _ _ P)|split; auto|apply found_entry|discriminate]. }
  assert (Y : ends_with S cs args k m o <-> ends_with S cs args (delete (fun b => negb (mem b (found k (entry k)))) k) m o).
  { unfold ends_with. split; intros (O & n & Hn); split; auto; exists n; [rewrite <- X|rewrite X]; exact Hn. }
  rewrite <- Y. clear X Y H. clearbody k. rewrite Eh in G. destruct Dk as [-> |(N1 & N2 & C & ->)]; [reflexivity|].
  assert (Kk : In (entry (delete (Nat.eqb (entry g)) g)) (dkeys (f_blocks g)) /\ Nat.eqb (entry g) (entry (delete (Nat.eqb (entry g)) g)) = false) by (apply delete_keys; apply entry_key; exact N).
  destruct Kk as (Kk & Nk). set (x := entry (delete (Nat.eqb (entry g)) g)) in *.
  assert (Gg : goes_on inc g (entry g) x).
  { rewrite (tr_entry _ _ _ T). apply (tr_goes _ _ _ T); auto. rewrite <- (tr_entry _ _ _ T). apply entry_key. apply (em_some _ _ Eg). }
  apply Nat.eqb_neq in Nk. unfold ends_with, result. fold x.
  assert (Z : forall n, run S cs args g n (fun _ => undef S) m None x = run S cs args (delete (Nat.eqb (entry g)) g) n (fun _ => undef S) m None x).
  { intros n. apply run_delete; auto; [apply (em_regs _ _ Eg)|apply (em_ended _ _ Eg)|apply (undef_const _ _ P)|split; auto|apply Nat.eqb_neq; exact Nk|discriminate]. }
  split; intros (O & Hn); split; auto.
  - apply (run_goes S cs args P inc g Eg _ _ Gg None (fun _ => undef S) (fun _ => undef S) m o) in Hn; auto; [|apply rel_refl]. destruct Hn as (n & Hn). exists n. rewrite <- Z. exact Hn.
  - apply (run_goes S cs args P inc g Eg _ _ Gg None (fun _ => undef S) (fun _ => undef S) m o); auto; [apply rel_refl|]. destruct Hn as (n & Hn). exists n. rewrite Z. exact Hn.
Qed.

Theorem trim_later inc f h : emptied inc f -> trim inc f = Some h -> later_than f h.
Proof.
  intros E H. pose proof (first_steps inc f E) as T. unfold trim in H. set (g := merge_empty inc (clear_dead inc f)) in *. clearbody g. pose proof (tr_emptied _ _ _ T E) as Eg.
  destruct (delete_unreachable_spec _ _ H) as (N & ->). apply (later_trans f g); [apply (tr_later _ _ _ T)|]. set (k := drop_first inc g) in *. assert (Dk := first_dropped inc g k Eg eq_refl).
  apply (later_trans g k); [|apply delete_later; apply found_closed]. destruct Dk as [-> |(_ & _ & C & ->)]; [apply later_refl|apply delete_later; exact C].
Qed.
Lemma delete_path D f x c : closed D f -> D x = false -> path (next_blocks f) x c -> path (next_blocks (delete D f)) x c /\ D c = false.
Proof.
  intros C Dx H. induction H as [b|b c d H IH I]; [split; [constructor|exact Dx]|]. destruct (IH Dx) as (A & B). split; [|apply (C c d B I)]. apply (path_step _ _ c); [exact A|]. rewrite delete_next, B. exact I.
Qed.
Theorem trim_reachable inc f h b : trim inc f = Some h -> In b (dkeys (f_blocks h)) -> path (next_blocks h) (entry h) b.
Proof.
  intros H K. pose proof (trim_entry inc f h H) as Eh. unfold trim in H. destruct (delete_unreachable_spec _ _ H) as (N & ->). rewrite Eh. apply delete_keys in K. destruct K as (_ & K).
  apply delete_path; [apply found_closed|apply found_entry|]. apply negb_false_iff, mem_In, found_iff in K. exact K.
Qed.
Lemma goes_reaches inc f x y c : goes_on inc f x y -> path (next_blocks f) x c -> In c inc -> path (next_blocks f) y c.
Proof.
  intros G. revert c. induction G as [x|x t y N1 N2 T G IH]; intros c H I; [exact H|]. apply IH; [|exact I].
  assert (A : path (next_blocks f) t c \/ c = x).
  { clear IH I. induction H as [b|b d e H IHp D]; [right; reflexivity|]. destruct (IHp N1 T) as [A| ->]; [left; apply (path_step _ _ d); auto|]. left. rewrite T in D. destruct D as [<- |[]]. constructor. }
  destruct A as [A| ->]; [exact A|contradiction].
Qed.
Theorem trim_kept inc f h b : emptied inc f -> trim inc f = Some h -> goes_on inc f (entry f) (entry h) -> In b inc -> In b (dkeys (f_blocks f)) -> path (next_blocks f) (entry f) b -> In b (dkeys (f_blocks h)).
Proof.
  intros E H G I K Pa. pose proof (first_steps inc f E) as T. pose proof (trim_entry inc f h H) as Eh. unfold trim in H. set (g := merge_empty inc (clear_dead inc f)) in *. clearbody g. pose proof (tr_emptied _ _ _ T E) as Eg.
  destruct (delete_unreachable_spec _ _ H) as (N & ->). pose proof (tr_kept _ _ _ T b I K) as Kg. pose proof (tr_path _ _ _ T b Kg Pa) as Pg. rewrite <- (tr_entry _ _ _ T) in Pg.
  set (k := drop_first inc g) in *. assert (Dk := first_dropped inc g k Eg eq_refl). rewrite Eh in G. clearbody k. apply delete_keys.
  assert (Z : In b (dkeys (f_blocks k)) /\ path (next_blocks k) (entry k) b).
  { destruct Dk as [-> |(N1 & N2 & C & ->)]; [auto|].
    destruct (proj1 (delete_keys (Nat.eqb (entry g)) g (entry (delete (Nat.eqb (entry g)) g))) (entry_key _ N)) as (Kk & Nk).
    split; [apply delete_keys; split; [exact Kg|]; apply Nat.eqb_neq; intros <-; contradiction|].
    apply delete_path; [exact C|exact Nk|]. apply (goes_reaches inc g (entry g)); [|exact Pg|exact I].
    assert (Ke : In (entry f) (dkeys (f_blocks g))) by (rewrite <- (tr_entry _ _ _ T); apply entry_key; apply (em_some _ _ Eg)).
    pose proof (tr_goes _ _ _ T _ _ Ke Kk G) as Gg. rewrite (tr_entry _ _ _ T) at 1. exact Gg. }
  split; [apply Z|]. apply negb_false_iff, mem_In, found_iff. apply Z.
Qed.
Theorem trim_defined inc f b : emptied inc f -> In b inc -> In b (dkeys (f_blocks f)) -> exists h, trim inc f = Some h.
Proof.
  intros E I K. pose proof (first_steps inc f E) as T. unfold trim. set (g := merge_empty inc (clear_dead inc f)) in *. clearbody g. pose proof (tr_emptied _ _ _ T E) as Eg. pose proof (tr_kept _ _ _ T b I K) as Kg.
  assert (Dk := first_dropped inc g (drop_first inc g) Eg eq_refl). assert (Kk : In b (dkeys (f_blocks (drop_first inc g)))).
  { destruct Dk as [-> |(N1 & _ & _ & ->)]; [exact Kg|]. apply delete_keys. split; [exact Kg|]. apply Nat.eqb_neq. intros <-. contradiction. }
  unfold delete_unreachable. destruct (f_blocks (drop_first inc g)); [destruct Kk|eauto].
Qed.
