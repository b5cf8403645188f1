(** * The slice by a variable is a function whose other blocks are empty (proofs for Trim_Props) *)
From Coq Require Import String Ascii ZArith Arith Bool Lia List.
From Verif Require Import PyBase Funcomp_Model Funcomp_Spec Slice_Model Slice_Spec Slice_Control Slice_Variable Slice_Whole Slice_Result Slice_Phi Trim_Model Trim_Spec Trim_Run Trim_Proofs.
Import ListNotations.
Open Scope list_scope.
Open Scope nat_scope.

(** ** Where the instructions that are kept are *)

Section Placed.
  Variable par : nat -> option nat.
  Variable tm : nat -> bool.
  Definition placed (s : sets) : Prop := forall r b, par r = Some b -> tm r = false -> kept s r -> In b (in_blocks s).

  Section In_function.
    Variable f : func.
    Hypothesis PF : forall r, parent f r = par r.
    Lemma add_included_placed r s : placed s -> placed (snd (add_included f r s)).
    Proof.
      intros H. unfold add_included. destruct (_ || _); [exact H|]. cbn [snd]. intros q b Pq T [[<- |K]|K]; cbn [in_blocks]; unfold add_block; rewrite PF.
      - rewrite Pq. left. reflexivity.
      - destruct (par r); [right|]; apply (H q b Pq T); left; exact K.
      - destruct (par r); [right|]; apply (H q b Pq T); right; exact K.
    Qed.
    Lemma add_placed n :
      (forall i s s', add_operands n f i s = Some s' -> placed s -> placed s') /\
      (forall a use work visited s s', add_stores n f a use work visited s = Some s' -> placed s -> placed s').
    Proof.
      induction n as [|n [IHo IHs]]; [split; [intros i s s' H; discriminate|intros a use work visited s s' H; discriminate]|]. split.
      - intros i s s' H. cbn [add_operands] in H.
        enough (X : forall l s s', (fix ops (l : list value) (s : sets) : option sets :=
           match l with
           | [] => Some s
           | v :: l' =>
             match inst_of f v with
             | None => ops l' s
             | Some d =>
               let '(new, s1) := add_included f (i_reg d) s in
               match (if new then add_operands n f d s1 else Some s1) with
               | None => None
               | Some s2 =>
                 match (match i_code d with Alloca => add_stores n f d i (next_node f d) [i_reg d; i_reg i] s2 | _ => Some s2 end) with
                 | None => None
                 | Some s3 => ops l' s3
                 end
               end
             end
           end) l s = Some s' -> placed s -> placed s') by (apply (X (i_ops i)); exact H).
        clear s s' H. induction l as [|v l IH]; intros s s' H Pl; [injection H as <-; exact Pl|].
        destruct (inst_of f v) as [d|] eqn:Ev; [|apply (IH s s' H Pl)].
        pose proof (add_included_placed (i_reg d) s Pl) as P1. destruct (add_included f (i_reg d) s) as [new s1]. cbn [snd] in P1.
        destruct (if new then add_operands n f d s1 else Some s1) as [s2|] eqn:E2; [|discriminate].
        assert (P2 : placed s2) by (destruct new; [apply (IHo _ _ _ E2 P1)|injection E2 as <-; exact P1]).
        destruct (match i_code d with Alloca => add_stores n f d i (next_node f d) [i_reg d; i_reg i] s2 | _ => Some s2 end) as [s3|] eqn:E3; [|discriminate].
        apply (IH s3 s' H). destruct (i_code d); try (injection E3 as <-; exact P2). apply (IHs _ _ _ _ _ _ E3 P2).
      - intros a use work visited s s' H Pl. cbn [add_stores] in H. destruct work as [|i work]; [injection H as <-; exact Pl|].
        set (takes := match i_code i with Store => eqb (op 1 i) (VReg (i_reg a)) | Call => mem (VReg (i_reg a)) (i_ops i) | _ => false end) in H.
        set (derived := match i_code i with Cast true | Gep _ => eqb (op 0 i) (VReg (i_reg a)) | _ => false end) in H.
        destruct (if takes then add_included f (i_reg i) s else (false, s)) as [new s1] eqn:E1.
        assert (P1 : placed s1).
        { destruct takes; [|injection E1 as <- <-; exact Pl]. pose proof (add_included_placed (i_reg i) s Pl) as X. rewrite E1 in X. exact X. }
        destruct (if new then add_operands n f i s1 else Some s1) as [s2|] eqn:E2; [|discriminate].
        assert (P2 : placed s2) by (destruct new; [apply (IHo _ _ _ E2 P1)|injection E2 as <-; exact P1]).
        destruct (if derived then add_stores n f i use (next_node f i) [i_reg i; i_reg use] s2 else Some s2) as [s3|] eqn:E3; [|discriminate].
        apply (IHs _ _ _ _ _ _ H). destruct derived; [apply (IHs _ _ _ _ _ _ E3 P2)|injection E3 as <-; exact P2].
    Qed.
    Lemma dependent_placed n : forall l s s', each (operands_of_dependent n f) l s = Some s' -> placed s -> placed s'.
    Proof.
      induction l as [|r l IH]; intros s s' H Pl; cbn [each] in H; [injection H as <-; exact Pl|]. destruct (operands_of_dependent n f s r) as [s1|] eqn:E; [|discriminate].
      apply (IH s1 s' H). unfold operands_of_dependent in E. destruct (find_inst f r) as [i|]; [|injection E as <-; exact Pl]. destruct (is_phi i); [injection E as <-; exact Pl|]. apply (proj1 (add_placed n) _ _ _ E Pl).
    Qed.
    Lemma phis_placed n : forall l s s', each (phi_operands n f) l s = Some s' -> placed s -> placed s'.
    Proof.
      induction l as [|i l IH]; intros s s' H Pl; cbn [each] in H; [injection H as <-; exact Pl|]. destruct (phi_operands n f s i) as [s1|] eqn:E; [|discriminate].
      apply (IH s1 s' H). unfold phi_operands in E. destruct (_ && _); [|injection E as <-; exact Pl]. clear IH H. revert s s1 E Pl. induction (i_ops i) as [|v vs IH]; intros s s1 E Pl; cbn [each] in E; [injection E as <-; exact Pl|].
      destruct (incoming_of n f s v) as [s2|] eqn:E2; [|discriminate]. apply (IH s2 s1 E). unfold incoming_of in E2. destruct (inst_of f v) as [d|]; [|injection E2 as <-; exact Pl].
      apply (proj1 (add_placed n) _ _ _ E2). apply add_included_placed. exact Pl.
    Qed.
  End In_function.
End Placed.

Lemma parent_shrunk f g r : shrunk f g -> parent g r = parent f r.
Proof.
  intros H. unfold parent. assert (X : forall bs bs', Forall2 (fun kb kb' : nat * list inst => fst kb = fst kb' /\ Forall2 became (snd kb) (snd kb')) bs bs' ->
    match find (fun kb => mem r (map i_reg (snd kb))) bs' with Some kb => Some (fst kb) | None => None end = match find (fun kb => mem r (map i_reg (snd kb))) bs with Some kb => Some (fst kb) | None => None end).
  { intros bs bs' F. induction F as [|[k l] [k' l'] bs bs' (E & F1) F IH]; [reflexivity|]. cbn [find fst snd] in *. rewrite (became_regs _ _ F1). destruct (mem r (map i_reg l)); [rewrite E; reflexivity|exact IH]. }
  apply X. exact H.
Qed.
Definition term_reg (f : func) (r : nat) : bool := existsb (fun i => Nat.eqb (i_reg i) r && is_terminator i) (insts f).

Section Slice.
  Variable reachable : (nat -> list nat) -> nat -> nat -> bool.
  Variable var : string.
  Variable f : func.
  Hypothesis U : NoDup (map i_reg (insts f)).
  Hypothesis B : NoDup (dkeys (f_blocks f)).
  Hypothesis E : ended f.
  Variable D : list nat.
  Notation other := (fun r => term_reg f r && negb (mem r D)).
  Notation placed := (placed (parent f) other).

  Lemma first_placed : placed (first_phase reachable var f).
  Proof.
    intros r b Pr _ K. destruct (phase_located reachable var f U) as (I0 & L). destruct K as [K|K]; [rewrite I0 in K; destruct K|].
    unfold parent in Pr. destruct (find _ (f_blocks f)) as [[c l]|] eqn:F; [|discriminate]. injection Pr as ->. apply find_some in F. destruct F as (F1 & F2). cbn [snd] in F2. apply mem_In, in_map_iff in F2. destruct F2 as (i & <- & F2).
    exact (L b l i F1 F2 K).
  Qed.
  Lemma end_placed n exit g s s0 b g' s' : dependent s0 = D -> state_ok f g s0 s -> end_of_block reachable n exit (g, s) b = Some (g', s') -> placed s -> placed s'.
  Proof.
    intros Ds O H Pl. pose proof (ok_shrunk _ _ _ _ O) as Sh. pose proof (ok_dependent _ _ _ _ O) as Dp. unfold end_of_block in H. destruct (terminator (block g b)) as [t|] eqn:T; [|injection H as <- <-; exact Pl].
    assert (New : mem (i_reg t) (dependent s) = false -> placed (mkSets (dependent s) (i_reg t :: included s) (affected s) (in_blocks s))).
    { intros Nd r c Pr Tr [[<- |K]|K]; [|apply (Pl r c Pr Tr); left; exact K|apply (Pl r c Pr Tr); right; exact K].
      exfalso. destruct (terminator_last _ _ T) as (k & K & Tt). assert (It : In t (insts g)) by (apply (terminator_insts g b); exact T).
      destruct (Forall2_right _ _ _ _ (shrunk_insts _ _ Sh) It) as (i & Ii & Bi). rewrite Dp, Ds in Nd. rewrite Nd, andb_true_r in Tr. apply not_true_iff_false in Tr. apply Tr. apply existsb_exists. exists i. split; [exact Ii|].
      rewrite (became_reg _ _ Bi), Nat.eqb_refl, <- (became_terminator _ _ Bi), Tt. reflexivity. }
    destruct (i_code t); try (injection H as <- <-; exact Pl). destruct (mem (i_reg t) (dependent s)) eqn:Nd; [injection H as <- <-; exact Pl|]. specialize (New eq_refl).
    destruct (successors t) as [|first ts]; [injection H as <- <-; exact Pl|]. destruct (included_successors reachable g s exit b t) as [|x [|y l]]; try (injection H as <- <-; exact New).
    destruct (add_operands n g t (snd (add_included g (i_reg t) s))) as [s1|] eqn:A; [|discriminate]. injection H as <- <-.
    assert (PG : forall r, parent g r = parent f r) by (intros r; apply parent_shrunk; exact Sh).
    apply (proj1 (add_placed (parent f) other g PG n) _ _ _ A). apply add_included_placed; assumption.
  Qed.
  Lemma ends_placed n exit s0 : dependent s0 = D -> forall bs g s g' s', state_ok f g s0 s -> each (end_of_block reachable n exit) bs (g, s) = Some (g', s') -> placed s -> placed s'.
  Proof.
    intros Ds. induction bs as [|b bs IH]; intros g s g' s' O H Pl; cbn [each] in H; [injection H as <- <-; exact Pl|].
    destruct (end_of_block reachable n exit (g, s) b) as [[g1 s1]|] eqn:E1; [|discriminate].
    destruct (end_ok reachable f U B E n exit g s0 s b g1 s1 O E1) as (O1 & _). apply (IH g1 s1 g' s' O1 H). exact (end_placed n exit g s s0 b g1 s1 Ds O E1 Pl).
  Qed.
  Lemma second_placed n s0 g s : dependent s0 = D -> included s0 = [] -> second_phase reachable n f s0 = Some (g, s) -> placed s0 -> placed s.
  Proof.
    intros Ds I0 H Pl. unfold second_phase in H. destruct (each (operands_of_dependent n f) (dependent s0) s0) as [s1|] eqn:E1; [|discriminate].
    destruct (dependent_operands f U n _ _ _ (fun r R => R) E1) as [G1 S1].
    destruct (each (end_of_block reachable n (return_block f)) (dkeys (f_blocks f)) (f, s1)) as [[g2 s2]|] eqn:E2; [|discriminate].
    destruct (each (phi_operands n g2) (insts g2) s2) as [s3|] eqn:E3; [|discriminate]. injection H as <- <-.
    assert (O1 : state_ok f f s0 s1).
    { constructor; [apply shrunk_refl|apply (grows_dependent _ _ _ G1)|apply (grows_included _ _ _ G1)|apply (grows_blocks _ _ _ G1)| |].
      - intros i I K. destruct (grows_served _ _ _ G1 i I K) as [[K'|K']|S]; [rewrite I0 in K'; destruct K'| |left; exact S].
        destruct (is_phi i) eqn:P; [right; reflexivity|left; apply S1; assumption].
      - intros i i' Ii I' Bi _. left. apply (same_reg (insts f)); [exact U|exact I'|exact Ii|apply became_reg; exact Bi]. }
    destruct (ends_ok reachable f U B E n (return_block f) s0 _ _ _ _ _ O1 E2) as (O2 & _ & _).
    assert (P1 : placed s1) by (apply (dependent_placed (parent f) other f (fun r => eq_refl) n _ _ _ E1 Pl)).
    assert (P2 : placed s2) by (apply (ends_placed n _ s0 Ds _ _ _ _ _ O1 E2 P1)).
    apply (phis_placed (parent f) other g2 (fun r => parent_shrunk f g2 r (ok_shrunk _ _ _ _ O2)) n _ _ _ E3 P2).
  Qed.
End Slice.

(** ** The slice *)

Lemma slice_keys g s : dkeys (f_blocks (remove_others g s)) = dkeys (f_blocks g).
Proof. unfold dkeys, remove_others. cbn [f_blocks]. rewrite map_map. reflexivity. Qed.
Lemma slice_regs g s : NoDup (map i_reg (insts g)) -> NoDup (map i_reg (insts (remove_others g s))).
Proof.
  unfold insts, remove_others. cbn [f_blocks]. set (kp := fun i => mem (i_reg i) (included s ++ dependent s) || is_terminator i). intros N.
  assert (X : map i_reg (flat_map snd (map (fun kb : nat * list inst => (fst kb, map (erased g (included s ++ dependent s)) (filter kp (snd kb)))) (f_blocks g))) = map i_reg (filter kp (flat_map snd (f_blocks g)))).
  { clear N. induction (f_blocks g) as [|[k l] bs IH]; [reflexivity|]. cbn [map flat_map fst snd]. rewrite filter_app, !map_app, map_map. f_equal. exact IH. }
  rewrite X. clear X. induction (flat_map snd (f_blocks g)) as [|i l IH]; cbn [filter map]; [constructor|]. cbn [map] in N. inversion N; subst. destruct (kp i); cbn [map]; [|auto]. constructor; [|auto].
  intros H. apply H1. apply in_map_iff in H. destruct H as (j & <- & J). apply in_map. apply filter_In in J. apply J.
Qed.
Theorem slice_emptied reachable var n f g s : whole f -> second_phase reachable n f (first_phase reachable var f) = Some (g, s) -> emptied (in_blocks s) (remove_others g s) /\ entry (remove_others g s) = entry f.
Proof.
  intros [U Bn So En We Wf Wp Wj] H. destruct (phase_located reachable var f U) as (I0 & _).
  pose proof (second_spec reachable f U Bn En n _ g s I0 H) as Sec. pose proof (sec_shrunk _ _ _ _ Sec) as Sh. pose proof (shrunk_ended f g Sh En) as Eg. pose proof (shrunk_blocks_unique f Bn g Sh) as Bg. pose proof (shrunk_unique f U g Sh) as Ug.
  pose proof (second_placed reachable f U Bn En _ n _ g s eq_refl I0 H (first_placed reachable var f U _)) as Pl.
  assert (Ent : entry (remove_others g s) = entry f).
  { unfold entry, remove_others. cbn [f_blocks]. inversion Sh as [X Y|[k l] [k' l'] bs bs' (Ek & _) _ X Y]; [reflexivity|]. cbn [map fst]. cbn [fst] in Ek. auto. }
  assert (Nx : forall x, next_blocks (remove_others g s) x = next_blocks g x) by (intros x; apply removed_next; assumption).
  assert (Ng : forall x y, In y (next_blocks g x) -> In y (next_blocks f x)).
  { intros x y Y. unfold next_blocks in *. destruct (terminator (block g x)) as [t|] eqn:T; [|destruct Y]. destruct (terminator_last _ _ T) as (k & K & Tt).
    assert (I : In t (block g x)) by (rewrite K; apply in_app_iff; right; left; reflexivity). destruct (Forall2_right _ _ _ _ Sh (in_block g x t I)) as ([x' l] & L & Ex & F). cbn [fst snd] in *. subst x'.
    rewrite (block_is f x l Bn L). rewrite K in F. apply Forall2_app_inv_r in F. destruct F as (k1 & k2 & _ & F & ->). inversion F as [|t0 ? l0 ? Bt F0 X Y0]; subst. inversion F0; subst.
    rewrite (last_terminator k1 t0) by (rewrite <- (became_terminator _ _ Bt); exact Tt). destruct Bt as [-> |[(_ & Q & _)|(C & u & I1 & ->)]]; [exact Y| |].
    - unfold is_phi, is_terminator in *. destruct (i_code t); discriminate.
    - rewrite jump_successors in Y. destruct Y as [<- |[]]. exact I1. }
  split; [|exact Ent]. constructor.
  - apply slice_regs. exact Ug.
  - rewrite slice_keys. exact Bg.
  - unfold remove_others. cbn [f_blocks]. inversion Sh as [X Y|? ? ? ? _ _ X Y]; [symmetry in X; contradiction|discriminate].
  - intros b l1 i l2 I T. cbn [remove_others f_blocks] in I. apply in_map_iff in I. destruct I as ([k l] & Eq & I). cbn [fst snd] in Eq. injection Eq as -> Eq. apply map_eq_app in Eq. destruct Eq as (a1 & a2 & Eq & <- & Eq2).
    apply map_eq_cons in Eq2. destruct Eq2 as (j & a3 & -> & <- & <-).
    assert (Lst : exists c1 c2, l = c1 ++ j :: c2 /\ a3 = filter (fun i => mem (i_reg i) (included s ++ dependent s) || is_terminator i) c2).
    { clear - Eq. revert a1 Eq. induction l as [|x l IH]; intros a1 Eq; cbn [filter] in Eq; [destruct a1; discriminate|]. destruct (_ || _).
      - destruct a1 as [|y a1]; cbn [app] in Eq; injection Eq as -> Eq; [exists [], l; auto|]. destruct (IH a1 Eq) as (c1 & c2 & -> & X). exists (y :: c1), c2. auto.
      - destruct (IH a1 Eq) as (c1 & c2 & -> & X). exists (x :: c1), c2. auto. }
    destruct Lst as (c1 & c2 & -> & ->). rewrite (Eg b c1 j c2 I T). reflexivity.
  - intros b. rewrite Ent, Nx. intros X. exact (Wf b (Ng _ _ X)).
  - intros p c i' Ed I P. pose proof (in_block _ _ _ I) as Ib.
    pose proof Ib as Ib0. cbn [remove_others f_blocks] in Ib0. apply in_map_iff in Ib0. destruct Ib0 as ([c2 l2] & Eq & L2). cbn [fst snd] in Eq. injection Eq as -> Eq.
    assert (I' := I). rewrite <- Eq in I'. apply in_map_iff in I'. destruct I' as (j & Ej & J). apply filter_In in J. destruct J as (J & _).
    destruct (Forall2_right _ _ _ _ Sh L2) as ([c3 l3] & L3 & Ec & F). cbn [fst snd] in *. subst c3. destruct (Forall2_right _ _ _ _ F J) as (i & Ii & Bi).
    assert (Pj : is_phi j = true) by (rewrite <- Ej in P; exact P).
    assert (Pi : is_phi i = true) by (destruct Bi as [-> |[(Q & _)|(C & u & _ & ->)]]; [exact Pj|exact Q|discriminate]).
    rewrite Nx in Ed. pose proof (Ng _ _ Ed) as Ef. destruct (Wp p c i Ef) as (v & V); [rewrite (block_is f c l3 Bn L3); exact Ii|exact Pi|].
    exists v. apply (slice_incoming reachable f U Bn En n _ g s c l3 _ i i' I0 H L3 Ii Pi Ib I); [rewrite <- Ej; cbn [erased i_reg]; apply (became_reg _ _ Bi)|]. split; [exact V|]. intros _. rewrite Nx. exact Ed.
  - intros b l' I N. cbn [remove_others f_blocks] in I. apply in_map_iff in I. destruct I as ([k l] & Eq & I). cbn [fst snd] in Eq. injection Eq as -> <-.
    destruct (Forall2_right _ _ _ _ Sh I) as ([b' l0] & L0 & Eb & F). cbn [fst snd] in *. subst b'. destruct (We b l0 L0) as (k0 & t0 & -> & T0). apply Forall2_app_inv_l in F. destruct F as (k1 & k2 & F1 & F2 & ->).
    inversion F2 as [|? t ? k3 Bt F3 X Y]; subst. inversion F3; subst. rewrite filter_app. cbn [filter]. assert (Tt : is_terminator t = true) by (rewrite (became_terminator _ _ Bt); exact T0). rewrite Tt, orb_true_r.
    assert (Em : filter (fun i => mem (i_reg i) (included s ++ dependent s) || is_terminator i) k1 = []).
    { destruct (filter _ k1) as [|i r] eqn:Fi; [reflexivity|]. exfalso. assert (Ii : In i (filter (fun i => mem (i_reg i) (included s ++ dependent s) || is_terminator i) k1)) by (rewrite Fi; left; reflexivity). apply filter_In in Ii. destruct Ii as (Ii & K).
      assert (NT : is_terminator i = false).
      { destruct (is_terminator i) eqn:Ti; [|reflexivity]. exfalso. destruct (in_split _ _ Ii) as (z1 & z2 & Z). rewrite Z, <- app_assoc in I. cbn [app] in I. pose proof (Eg b z1 i (z2 ++ [t]) I Ti) as X. destruct z2; discriminate. }
      rewrite NT, orb_false_r in K. apply kept_mem in K. apply N. apply (Pl (i_reg i) b); [|apply not_true_iff_false; intros X|exact K].
      - rewrite <- (parent_shrunk f g (i_reg i) Sh). apply (parent_of g Ug b (k1 ++ [t])); [exact I|apply in_app_iff; left; exact Ii].
      - apply andb_true_iff in X. destruct X as (X & _). apply existsb_exists in X. destruct X as (j & J & X). apply andb_true_iff in X. destruct X as (X1 & X2). apply Nat.eqb_eq in X1.
        destruct (Forall2_left _ _ _ _ (shrunk_insts _ _ Sh) J) as (j' & J' & Bj). assert (j' = i).
        { apply (same_reg (insts g)); [exact Ug|exact J'|apply in_flat_map; exists (b, k1 ++ [t]); split; [exact I|apply in_app_iff; left; exact Ii]|rewrite (became_reg _ _ Bj); exact X1]. }
        subst j'. rewrite (became_terminator _ _ Bj), X2 in NT. discriminate. }
    rewrite Em. cbn [app map]. eexists. split; [reflexivity|]. exact Tt.
  - intros i' u I Su. unfold insts in I. apply in_flat_map in I. destruct I as ([b l'] & I & J). cbn [remove_others f_blocks] in I. apply in_map_iff in I. destruct I as ([k l] & Eq & I). cbn [fst snd] in Eq. injection Eq as -> <-. cbn [snd] in J.
    apply in_map_iff in J. destruct J as (j & <- & J). apply filter_In in J. destruct J as (J & _). rewrite erased_blocks in Su. cbn [erased i_code i_ops].
    destruct (Forall2_right _ _ _ _ (shrunk_insts _ _ Sh) (ltac:(apply in_flat_map; exists (b, l); split; [exact I|exact J]) : In j (insts g))) as (i & Ii & Bi).
    destruct Bi as [-> |[(_ & Q & _)|(C & u' & _ & ->)]].
    + destruct (Wj i u Ii Su) as (K1 & K2). rewrite K1, K2. split; reflexivity.
    + unfold successors, is_phi in *. destruct (i_code j); discriminate.
    + rewrite jump_successors in Su. injection Su as ->. split; reflexivity.
Qed.
