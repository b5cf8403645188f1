(** * What is loaded of a pattern. *)
From Coq Require Import String Ascii ZArith Arith Bool Lia List.
From Verif Require Import PyBase Funcomp_Model Source_Model Pattern_Model Pattern_Spec.
Import ListNotations.
Open Scope list_scope.
Open Scope nat_scope.

(** ** Marks *)
Definition has (n : string) (l : list mdop) : bool := existsb (fun o => match o with MString x => String.eqb x n | MOther => false end) l.
Definition all_known (l : list mdop) : Prop := forall o, In o l -> exists n, o = MString n /\ In n known_marks.
Definition marks_of (l : list mdop) (m : meta) : meta :=
  mkMeta (m_start m || has "pattern-start" l) (m_end m || has "pattern-end" l) (m_group m || has "group-start" l)
    (m_group_end m || has "group-end" l) (m_noname m || has "disable-name-comparison" l) (m_noinput m || has "not-an-input" l)
    (m_novalue m || has "no-value-pattern-detection" l).
Lemma has_In n l : has n l = true <-> In (MString n) l.
Proof.
  unfold has. rewrite existsb_exists. split.
  - intros ([x|] & H & E); [|discriminate]. apply String.eqb_eq in E. subst. exact H.
  - intros H. exists (MString n). split; [exact H|apply String.eqb_refl].
Qed.
Lemma set_meta_spec n m : set_meta n m = if existsb (String.eqb n) known_marks then Some (marks_of [MString n] m) else None.
Proof.
  destruct m as [a b c d e f g]. unfold set_meta, known_marks. cbn [existsb].
  destruct (String.eqb_spec n "pattern-start") as [->|_]; [unfold marks_of; cbn; rewrite ?orb_true_r, ?orb_false_r; reflexivity|].
  destruct (String.eqb_spec n "pattern-end") as [->|_]; [unfold marks_of; cbn; rewrite ?orb_true_r, ?orb_false_r; reflexivity|].
  destruct (String.eqb_spec n "group-start") as [->|_]; [unfold marks_of; cbn; rewrite ?orb_true_r, ?orb_false_r; reflexivity|].
  destruct (String.eqb_spec n "group-end") as [->|_]; [unfold marks_of; cbn; rewrite ?orb_true_r, ?orb_false_r; reflexivity|].
  destruct (String.eqb_spec n "disable-name-comparison") as [->|_]; [unfold marks_of; cbn; rewrite ?orb_true_r, ?orb_false_r; reflexivity|].
  destruct (String.eqb_spec n "not-an-input") as [->|_]; [unfold marks_of; cbn; rewrite ?orb_true_r, ?orb_false_r; reflexivity|].
  destruct (String.eqb_spec n "no-value-pattern-detection") as [->|_]; [unfold marks_of; cbn; rewrite ?orb_true_r, ?orb_false_r; reflexivity|].
  reflexivity.
Qed.
Lemma marks_of_cons o l m : marks_of l (marks_of [o] m) = marks_of (o :: l) m.
Proof. unfold marks_of. cbn. f_equal; rewrite orb_false_r, orb_assoc; reflexivity. Qed.
Lemma parse_meta_spec l : forall m r, parse_meta l m = Some r <-> all_known l /\ r = marks_of l m.
Proof.
  induction l as [|o l IH]; intros m r; cbn [parse_meta].
  - split.
    + intros H. injection H as <-. split; [intros o []|]. destruct m. unfold marks_of. cbn. rewrite !orb_false_r. reflexivity.
    + intros [_ ->]. destruct m. unfold marks_of. cbn. rewrite !orb_false_r. reflexivity.
  - destruct o as [n|].
    + rewrite set_meta_spec. destruct (existsb (String.eqb n) known_marks) eqn:K.
      * rewrite IH, marks_of_cons. apply existsb_exists in K. destruct K as (x & I & E). apply String.eqb_eq in E. subst x.
        split; intros [A B]; (split; [|exact B]).
        -- intros o [<-|H]; [exists n; auto|apply A; exact H].
        -- intros o H. apply A. right. exact H.
      * split; [discriminate|]. intros [A _]. exfalso. destruct (A (MString n) (or_introl eq_refl)) as (x & E & I). injection E as <-.
        assert (Q : existsb (String.eqb n) known_marks = true) by (apply existsb_exists; exists n; split; [exact I|apply String.eqb_refl]). congruence.
    + split; [discriminate|]. intros [A _]. destruct (A MOther (or_introl eq_refl)) as (x & E & _). discriminate.
Qed.
Lemma metadata_spec md i m : metadata md i = Some m <-> exists ops, dget md (i_reg i) = Some ops /\ all_known ops /\ m = marks_of ops no_meta.
Proof.
  unfold metadata. destruct (dget md (i_reg i)) as [ops|].
  - rewrite parse_meta_spec. split; [intros [A B]; exists ops; auto|]. intros (ops' & E & A & B). injection E as <-. auto.
  - split; [discriminate|]. intros (ops & E & _). discriminate.
Qed.
Definition reads (f : meta -> bool) (n : string) : Prop := forall ops, f (marks_of ops no_meta) = has n ops.
Lemma reads_marked f n md i : reads f n -> (match metadata md i with Some m => f m | None => false end = true <-> marked md i n).
Proof.
  intros R. split.
  - destruct (metadata md i) as [m|] eqn:E; [|discriminate]. apply metadata_spec in E. destruct E as (ops & A & B & ->). rewrite R.
    intros H. apply has_In in H. exists ops. auto.
  - intros (ops & A & B & C). assert (E : metadata md i = Some (marks_of ops no_meta)) by (apply metadata_spec; exists ops; auto).
    rewrite E, R. apply has_In. exact B.
Qed.
Lemma reads_start : reads m_start "pattern-start". Proof. intros ops. reflexivity. Qed.
Lemma reads_end : reads m_end "pattern-end". Proof. intros ops. reflexivity. Qed.
Lemma reads_group : reads m_group "group-start". Proof. intros ops. reflexivity. Qed.
Lemma reads_group_end : reads m_group_end "group-end". Proof. intros ops. reflexivity. Qed.
Lemma reads_noname : reads m_noname "disable-name-comparison". Proof. intros ops. reflexivity. Qed.
Lemma reads_noinput : reads m_noinput "not-an-input". Proof. intros ops. reflexivity. Qed.
Lemma reads_novalue : reads m_novalue "no-value-pattern-detection". Proof. intros ops. reflexivity. Qed.

(** ** A side *)
Definition isf (f : meta -> bool) (md : dict nat (list mdop)) (i : inst) : bool := match metadata md i with Some m => f m | None => false end.
Lemma find_app {A} (f : A -> bool) a b : find f (a ++ b) = match find f a with Some x => Some x | None => find f b end.
Proof. induction a as [|x a IH]; cbn; [reflexivity|]. destruct (f x); [reflexivity|exact IH]. Qed.
Lemma find_none_all {A} (f : A -> bool) l : find f l = None <-> forall x, In x l -> f x = false.
Proof.
  split; [intros H x Hx; exact (find_none _ _ H x Hx)|]. induction l as [|x l IH]; intros H; cbn; [reflexivity|].
  rewrite (H x (or_introl eq_refl)). apply IH. intros y Hy. apply H. right. exact Hy.
Qed.
Section Side.
  Variable f : func.
  Variable md : dict nat (list mdop).
  Definition loaded_of (l : list inst) : loaded := fold_left (load_inst md) l (mkLoaded (arguments f) None [] false None).
  Definition input_at (l : list inst) (v : value) : Prop :=
    exists a i b, l = a ++ i :: b /\ v = VReg (i_reg i) /\ is_terminator i = false /\ isf m_noinput md i = false /\ forall j, In j (a ++ [i]) -> isf m_start md j = false.
  Lemma snoc_split {A} (l : list A) x a y b : l ++ [x] = a ++ y :: b -> (a = l /\ y = x /\ b = []) \/ exists b', b = b' ++ [x] /\ l = a ++ y :: b'.
  Proof.
    intros E. destruct b as [|z b] using rev_ind.
    - apply app_inj_tail in E. destruct E as [-> ->]. left. auto.
    - right. exists b. change (y :: b ++ [z]) with ((y :: b) ++ [z]) in E. rewrite app_assoc in E. apply app_inj_tail in E. destruct E as [E ->]. split; [reflexivity|exact E].
  Qed.
  Lemma loaded_of_spec l : NoDup (map i_reg l) ->
    (forall v, In v (l_inputs (loaded_of l)) <-> In v (arguments f) \/ input_at l v) /\
    l_start (loaded_of l) = option_map i_reg (find (isf m_start md) l) /\
    (forall i, In i l -> dget (l_meta (loaded_of l)) (i_reg i) = metadata md i) /\
    (forall r, ~ In r (map i_reg l) -> dget (l_meta (loaded_of l)) r = None) /\
    l_end (loaded_of l) = existsb (isf m_end md) l /\
    l_output (loaded_of l) = find is_output l.
  Proof.
    induction l as [|i l IH] using rev_ind; intros N.
    - cbn. repeat split; auto; try tauto. intros [H|(a & i & b & E & _)]; [exact H|]. destruct a; discriminate.
    - rewrite map_app in N. cbn in N.
      assert (NL : NoDup (map i_reg l)) by (apply NoDup_remove_1 in N; rewrite app_nil_r in N; exact N).
      assert (Ni : ~ In (i_reg i) (map i_reg l)).
      { apply NoDup_remove_2 in N. rewrite app_nil_r in N. exact N. }
      destruct (IH NL) as (A & B & C & D & E & F). unfold loaded_of in *. rewrite fold_left_app. cbn [fold_left].
      set (s := fold_left (load_inst md) l (mkLoaded (arguments f) None [] false None)) in *.
      unfold load_inst. set (m := metadata md i).
      assert (ST : match l_start s, m with None, Some x => if m_start x then Some (i_reg i) else None | st, _ => st end = option_map i_reg (find (isf m_start md) (l ++ [i]))).
      { rewrite B, find_app. destruct (find (isf m_start md) l) as [j|]; [cbn; destruct m; reflexivity|]. cbn. unfold isf. fold m. destruct m as [x|]; [destruct (m_start x); reflexivity|reflexivity]. }
      cbn [l_inputs l_start l_meta l_end l_output]. split; [|split; [exact ST|split; [|split; [|split]]]].
      + intros v. rewrite ST.
        assert (Z : match option_map i_reg (find (isf m_start md) (l ++ [i])) with Some _ => false | None => true end && negb (is_terminator i) && match m with Some x => negb (m_noinput x) | None => true end = true
          <-> (forall j, In j (l ++ [i]) -> isf m_start md j = false) /\ is_terminator i = false /\ isf m_noinput md i = false).
        { rewrite !andb_true_iff, negb_true_iff. change (isf m_noinput md i) with (match m with Some x => m_noinput x | None => false end). rewrite <- find_none_all.
          destruct (find (isf m_start md) (l ++ [i])); cbn; destruct m as [x|]; try rewrite negb_true_iff; intuition congruence. }
        destruct (match option_map i_reg (find (isf m_start md) (l ++ [i])) with Some _ => false | None => true end && negb (is_terminator i) && match m with Some x => negb (m_noinput x) | None => true end) eqn:Q.
        * destruct (proj1 Z eq_refl) as (Z1 & Z2 & Z3). rewrite set_add_In, A. split.
          -- intros [->|[H|(a & j & b & Q1 & Q2)]]; [right; exists l, i, []; auto 10|left; exact H|].
             right. exists a, j, (b ++ [i]). split; [rewrite Q1, <- app_assoc; reflexivity|exact Q2].
          -- intros [H|(a & j & b & Q1 & Q2 & Q3)]; [auto|]. apply snoc_split in Q1. destruct Q1 as [(-> & -> & ->)|(b' & -> & Q1)]; [left; exact Q2|].
             right. right. exists a, j, b'. auto.
        * rewrite A. split.
          -- intros [H|(a & j & b & Q1 & Q2)]; [auto|]. right. exists a, j, (b ++ [i]). split; [rewrite Q1, <- app_assoc; reflexivity|exact Q2].
          -- intros [H|(a & j & b & Q1 & Q2 & Q3 & Q4 & Q5)]; [auto|]. apply snoc_split in Q1. destruct Q1 as [(-> & -> & ->)|(b' & -> & Q1)].
             ++ assert (false = true) by (apply Z; auto). discriminate.
             ++ right. exists a, j, b'. auto.
      + intros j Hj. apply in_app_iff in Hj. destruct Hj as [Hj|[<-|[]]].
        * assert (NE : i_reg j <> i_reg i) by (intros Q; apply Ni; rewrite <- Q; apply in_map; exact Hj).
          destruct m; [rewrite dget_dset_other by exact NE|]; apply C; exact Hj.
        * fold m. destruct m as [x|]; [apply dget_dset_same|]. apply D. exact Ni.
      + intros r Hr. rewrite map_app, in_app_iff in Hr. cbn in Hr.
        destruct m as [x|]; [rewrite dget_dset_other by (intros ->; tauto)|]; apply D; tauto.
      + rewrite E, existsb_app. cbn. rewrite orb_false_r. reflexivity.
      + rewrite F, find_app. destruct (find is_output l); reflexivity.
  Qed.
  Hypothesis REGS : NoDup (map i_reg (insts f)).
  Let a := load_side f md.
  Lemma load_side_inputs v : In v (l_inputs a) <-> In v (arguments f) \/ input_at (insts f) v.
  Proof. apply (loaded_of_spec (insts f) REGS). Qed.
  Lemma load_side_start : l_start a = match find (isf m_start md) (insts f) with
                                      | Some i => Some (i_reg i)
                                      | None => match entry f with i :: _ => Some (i_reg i) | [] => None end
                                      end.
  Proof.
    unfold a, load_side, load_insts. cbn. destruct (loaded_of_spec (insts f) REGS) as (_ & B & _). unfold loaded_of in B. rewrite B.
    destruct (find (isf m_start md) (insts f)); [reflexivity|]. cbn. unfold entry. destruct (f_blocks f) as [|[b [|i l]] bs]; reflexivity.
  Qed.
  Lemma load_side_output : l_output a = find is_output (insts f).
  Proof. apply (loaded_of_spec (insts f) REGS). Qed.
  Definition unend (g : meta -> bool) : Prop := (forall x, g (with_end x) = g x) /\ g no_meta = false.
  Lemma load_side_flag g i : In i (insts f) -> unend g -> flag (l_meta a) g i = isf g md i.
  Proof.
    intros Hi [U Z]. unfold flag, meta_of, a, load_side, load_insts. cbn.
    destruct (loaded_of_spec (insts f) REGS) as (_ & _ & C & _ & E & F). unfold loaded_of in C, E, F. rewrite E, F.
    destruct (find is_output (insts f)) as [o|] eqn:O; [|rewrite C by exact Hi; reflexivity].
    destruct (existsb (isf m_end md) (insts f)); [rewrite C by exact Hi; reflexivity|].
    rewrite dget_dset. destruct (eqb_spec (i_reg i) (i_reg o)) as [Q|Q]; [|rewrite C by exact Hi; reflexivity].
    rewrite <- Q, C by exact Hi. rewrite U. unfold isf. destruct (metadata md i); [reflexivity|exact Z].
  Qed.
  Lemma load_side_end i : In i (insts f) ->
    (flag (l_meta a) m_end i = true <-> isf m_end md i = true \/ ((forall j, In j (insts f) -> isf m_end md j = false) /\ find is_output (insts f) = Some i)).
  Proof.
    intros Hi. unfold flag, meta_of, a, load_side, load_insts. cbn.
    destruct (loaded_of_spec (insts f) REGS) as (_ & _ & C & _ & E & F). unfold loaded_of in C, E, F. rewrite E, F.
    destruct (find is_output (insts f)) as [o|] eqn:O.
    2:{ rewrite C by exact Hi. unfold isf. split; [auto|]. intros [H|[_ H]]; [exact H|discriminate]. }
    destruct (existsb (isf m_end md) (insts f)) eqn:X.
    - rewrite C by exact Hi. split; [auto|]. intros [H|[H _]]; [exact H|]. apply existsb_exists in X. destruct X as (j & Hj & Q). rewrite (H j Hj) in Q. discriminate.
    - assert (NX : forall j, In j (insts f) -> isf m_end md j = false).
      { intros j Hj. destruct (isf m_end md j) eqn:Q; [|reflexivity]. assert (existsb (isf m_end md) (insts f) = true) by (apply existsb_exists; eauto). congruence. }
      rewrite dget_dset. destruct (eqb_spec (i_reg i) (i_reg o)) as [Q|Q].
      + assert (Oi : i = o).
        { apply find_some in O. destruct O as [Io _]. clear - REGS Hi Io Q. induction (insts f) as [|x l IH]; [destruct Hi|].
          cbn in REGS. apply NoDup_cons_iff in REGS. destruct REGS as [N R]. destruct Hi as [->|Hi], Io as [->|Io]; auto.
          - exfalso. apply N. rewrite Q. apply in_map. exact Io.
          - exfalso. apply N. rewrite <- Q. apply in_map. exact Hi. }
        subst o. split; [auto|]. intros _. destruct (dget _ _) as [[]|]; reflexivity.
      + rewrite C by exact Hi. fold (isf m_end md i). rewrite (NX i Hi). split; [discriminate|]. intros [H|[_ H]]; [discriminate|]. injection H as ->. congruence.
  Qed.
End Side.
Lemma isf_marked f n md i : reads f n -> (isf f md i = true <-> marked md i n).
Proof. apply reads_marked. Qed.
Lemma isf_unmarked f n md i : reads f n -> (isf f md i = false <-> ~ marked md i n).
Proof. intros R. rewrite <- (isf_marked f n md i R). destruct (isf f md i); intuition congruence. Qed.
Lemma find_first {A} (f : A -> bool) (P : A -> Prop) l x : (forall y, f y = true <-> P y) -> (find f l = Some x <-> first_with P l x).
Proof.
  intros FP. split.
  - intros H. induction l as [|y l IH]; cbn in H; [discriminate|]. destruct (f y) eqn:F.
    + injection H as ->. exists [], l. split; [reflexivity|]. split; [apply FP; exact F|intros z []].
    + destruct (IH H) as (a & b & -> & Px & N). exists (y :: a), b. split; [reflexivity|]. split; [exact Px|].
      intros z [<-|Hz]; [intros Q; apply FP in Q; congruence|apply N; exact Hz].
  - intros (a & b & -> & Px & N). rewrite find_app. assert (E : find f a = None).
    { apply find_none_all. intros z Hz. destruct (f z) eqn:F; [|reflexivity]. exfalso. apply (N z Hz). apply FP. exact F. }
    rewrite E. cbn. rewrite (proj2 (FP x) Px). reflexivity.
Qed.
Lemma is_output_spec i : is_output i = true <-> exists outs, gives_outputs i outs.
Proof.
  unfold is_output, gives_outputs. split.
  - destruct (i_code i) eqn:C; try discriminate; intros H; [|exists (i_ops i); left; auto].
    destruct (rev (i_ops i)) as [|v l] eqn:R; [discriminate|]. destruct v as [| | |[|n]]; try discriminate. apply String.eqb_eq in H. subst n.
    exists (rev l). right. split; [reflexivity|]. rewrite <- (rev_involutive (i_ops i)), R. reflexivity.
  - intros (outs & [[C _]|[C E]]); rewrite C; [reflexivity|]. rewrite E, rev_app_distr. reflexivity.
Qed.
Lemma outputs_spec f md o outs : NoDup (map i_reg (insts f)) ->
  first_with (fun i => exists x, gives_outputs i x) (insts f) o -> gives_outputs o outs -> outputs (load_side f md) = outs.
Proof.
  intros N F G. apply (find_first is_output) in F; [|apply is_output_spec]. unfold outputs. rewrite (load_side_output f md N), F.
  destruct G as [[C ->]|[C E]]; rewrite C; [reflexivity|]. rewrite E. apply removelast_last.
Qed.
Lemma no_outputs_spec f md : NoDup (map i_reg (insts f)) -> (forall o x, In o (insts f) -> ~ gives_outputs o x) -> outputs (load_side f md) = [].
Proof.
  intros N H. unfold outputs. rewrite (load_side_output f md N).
  destruct (find is_output (insts f)) as [o|] eqn:F; [|reflexivity]. apply find_some in F. destruct F as [I O]. apply is_output_spec in O.
  destruct O as [x G]. exfalso. exact (H o x I G).
Qed.
Lemma map_outputs_spec ls : forall rs d r, length ls = length rs -> map_outputs ls rs d = Some r ->
  (forall v, In v ls \/ In v rs -> exists k, v = VReg k) /\
  (forall a b, dget r a = Some b -> dget d a = Some b \/ In (VReg a, VReg b) (combine ls rs)) /\
  (forall a b, In (VReg a, VReg b) (combine ls rs) -> dmem r a = true) /\ (forall a, dmem d a = true -> dmem r a = true).
Proof.
  induction ls as [|l ls IH]; intros [|x rs] d r L E; cbn in L; try discriminate.
  - cbn in E. injection E as <-. split; [intros v [[]|[]]|]. split; [auto|]. split; [intros a b []|auto].
  - cbn in E. destruct l as [|a| |]; try discriminate. destruct x as [|b| |]; try discriminate.
    destruct (IH _ _ _ (eq_add_S _ _ L) E) as (P & Q & R & S). split; [|split; [|split]].
    + intros v [[<-|H]|[<-|H]]; eauto.
    + intros a' b' H. apply Q in H. destruct H as [H|H]; [|right; right; exact H].
      rewrite dget_dset in H. destruct (eqb_spec a' a) as [->|N]; [injection H as <-; right; left; reflexivity|left; exact H].
    + intros a' b' [H|H]; [|eapply R; eauto]. injection H as <- <-. apply S. unfold dmem. rewrite dget_dset_same. reflexivity.
    + intros a' H. apply S. unfold dmem in *. rewrite dget_dset. destruct (eqb_spec a' a); [reflexivity|exact H].
Qed.
Lemma map_outputs_total ls : forall rs d, (forall v, In v ls \/ In v rs -> exists k, v = VReg k) -> exists r, map_outputs ls rs d = Some r.
Proof.
  induction ls as [|l ls IH]; intros [|x rs] d H; cbn; eauto.
  - destruct (H l (or_introl (or_introl eq_refl))) as [k ->]. eauto.
  - destruct (H l (or_introl (or_introl eq_refl))) as [a ->]. destruct (H x (or_intror (or_introl eq_refl))) as [b ->].
    apply IH. intros v [Q|Q]; apply H; [left|right]; right; exact Q.
Qed.
