(** * Examples of functions: checking that they are well-formed, and a meaning for them *)
From Coq Require Import String Ascii ZArith Arith Bool Lia List.
From Verif Require Import PyBase Funcomp_Model Funcomp_Spec Funcomp_Walk.
Import ListNotations.
Open Scope list_scope.
Open Scope nat_scope.

(** ** Well-formedness by computation *)
Fixpoint nodupb (l : list nat) : bool := match l with [] => true | x :: l' => negb (mem x l') && nodupb l' end.
Lemma nodupb_sound l : nodupb l = true -> NoDup l.
Proof. induction l as [|x l IH]; cbn [nodupb]; [constructor|]. intros H. apply andb_true_iff in H. destruct H as [H1 H2]. constructor; [|auto]. apply mem_not_In. destruct (mem x l); [discriminate|reflexivity]. Qed.
Definition inclb (a b : list nat) : bool := forallb (fun x => mem x b) a.
Lemma inclb_sound a b : inclb a b = true -> incl a b.
Proof. intros H x I. unfold inclb in H. rewrite forallb_forall in H. apply mem_In. apply H. exact I. Qed.
Definition succs (l : list inst) : list nat := match terminator l with Some t => successors t | None => [] end.
Definition endsb (l : list inst) : bool := match rev l with t :: l0 => is_terminator t && forallb (fun i => negb (is_terminator i)) l0 | [] => false end.
Definition operandb (f : func) (i : inst) (v : value) : bool :=
  match v with
  | VArg n => n <? f_args f
  | VBlock _ => match i_code i with Br | Switch => true | _ => false end
  | VReg r => match find_inst f r with Some d => negb (is_debug d) && negb (is_terminator d) | None => true end
  | VConst _ => true
  end.
Definition phib (f : func) (b : nat) (i : inst) : bool :=
  match i_code i with
  | Phi from => Nat.eqb (length (i_ops i)) (length from) && nodupb from && forallb (fun c => mem b (succs (block f c))) from
      && forallb (fun kb => negb (mem b (succs (snd kb))) || mem (fst kb) from) (f_blocks f) && negb (Nat.eqb b (entry f))
  | _ => true
  end.
Fixpoint orderb (have : list nat) (l : list inst) : bool :=
  match l with [] => true | i :: l' => (is_phi i || inclb (regs (i_ops i)) have) && orderb (have ++ [i_reg i]) l' end.
Definition ssab (f : func) (av : nat -> list nat) (b : nat) (l : list inst) : bool :=
  forallb (fun c => inclb (av c) (av b ++ defs l)) (succs l) && forallb (fun r => negb (mem r (av b))) (defs l) &&
  forallb (fun c => match find_inst f c with Some i => is_phi i || inclb (regs (i_ops i)) (av b) | None => true end) (av b) &&
  orderb (av b) l &&
  forallb (fun c => forallb (fun i => negb (is_phi i) || forallb (fun e => negb (Nat.eqb (snd e) b) || inclb (regs [fst e]) (av b ++ defs l)) (incoming i)) (block f c)) (succs l).
Definition check (f : func) (av : nat -> list nat) : bool :=
  nodupb (map i_reg (insts f)) && nodupb (dkeys (f_blocks f)) && mem (entry f) (dkeys (f_blocks f)) && forallb (fun kb => endsb (snd kb)) (f_blocks f) &&
  forallb (fun kb => forallb (fun c => mem c (dkeys (f_blocks f)) && negb (Nat.eqb c (entry f))) (succs (snd kb))) (f_blocks f) &&
  forallb (fun i => forallb (operandb f i) (i_ops i)) (insts f) &&
  forallb (fun kb => forallb (phib f (fst kb)) (snd kb)) (f_blocks f) &&
  match av (entry f) with [] => true | _ => false end && forallb (fun kb => ssab f av (fst kb) (snd kb)) (f_blocks f).

Lemma orderb_sound l : forall have, orderb have l = true -> forall l1 i l2, l = l1 ++ i :: l2 -> is_phi i = false -> incl (regs (i_ops i)) (have ++ defs l1).
Proof.
  induction l as [|x l IH]; intros have H l1 i l2 E P; [destruct l1; discriminate|]. cbn in H. apply andb_true_iff in H. destruct H as [H1 H2].
  destruct l1 as [|y l1]; cbn in E; injection E as -> E.
  - rewrite P in H1. cbn in H1. rewrite app_nil_r. apply inclb_sound. exact H1.
  - intros r R. pose proof (IH _ H2 l1 i l2 E P r R) as Q. rewrite <- app_assoc in Q. exact Q.
Qed.
Lemma edge_succs f b c : edge f b c <-> exists l, dget (f_blocks f) b = Some l /\ In c (succs l).
Proof.
  split.
  - intros [l [t [G [T I]]]]. exists l. split; [exact G|]. unfold succs. rewrite T. exact I.
  - intros [l [G I]]. unfold succs in I. destruct (terminator l) as [t|] eqn:T; [|destruct I]. exists l, t. auto.
Qed.
Lemma dget_blocks f b l : dget (f_blocks f) b = Some l -> In (b, l) (f_blocks f).
Proof. apply dget_In. Qed.

Lemma check_sound f av : check f av = true -> well_formed f.
Proof.
  unfold check. intros H. repeat (apply andb_true_iff in H; let Q := fresh "C" in destruct H as [H Q]).
  rewrite forallb_forall in C, C1, C2, C3, C4. constructor.
  - apply nodupb_sound. exact H.
  - apply nodupb_sound. exact C6.
  - apply mem_In. exact C5.
  - intros b l G. specialize (C4 _ (dget_blocks f b l G)). cbn [snd] in C4. unfold endsb in C4. destruct (rev l) as [|t l0] eqn:R; [discriminate|].
    apply andb_true_iff in C4. destruct C4 as [T F]. rewrite forallb_forall in F. exists (rev l0), t. split; [rewrite <- (rev_involutive l), R; reflexivity|]. split; [exact T|].
    intros i I. apply in_rev in I. specialize (F i I). destruct (is_terminator i); [discriminate|reflexivity].
  - intros b c E. apply edge_succs in E. destruct E as [l [G I]]. specialize (C3 _ (dget_blocks f b l G)). cbn [snd] in C3. rewrite forallb_forall in C3. specialize (C3 c I).
    apply andb_true_iff in C3. destruct C3 as [Q1 Q2]. split; [apply mem_In; exact Q1|]. intros ->. rewrite Nat.eqb_refl in Q2. discriminate.
  - intros i v I V. specialize (C2 i I). rewrite forallb_forall in C2. specialize (C2 v V). unfold operandb in C2. destruct v as [n|r|b|k]; [apply Nat.ltb_lt; exact C2| | |exact Logic.I].
    + intros d F. rewrite F in C2. apply andb_true_iff in C2. destruct (is_debug d), (is_terminator d); cbn in C2; destruct C2; try discriminate; auto.
    + destruct (i_code i); try discriminate; auto.
  - intros b l i from G I K. specialize (C1 _ (dget_blocks f b l G)). cbn [fst snd] in C1. rewrite forallb_forall in C1. specialize (C1 i I). unfold phib in C1. rewrite K in C1.
    repeat (apply andb_true_iff in C1; let Q := fresh "D" in destruct C1 as [C1 Q]). rewrite forallb_forall in D0, D1.
    split; [apply Nat.eqb_eq; exact C1|]. split; [apply nodupb_sound; exact D2|]. split; [|intros ->; rewrite Nat.eqb_refl in D; discriminate].
    intros c. split.
    + intros X. specialize (D1 c X). apply mem_In in D1. apply edge_succs. unfold block in D1. destruct (dget (f_blocks f) c) as [m|] eqn:GM; [exists m; auto|destruct D1].
    + intros E. apply edge_succs in E. destruct E as [m [GM X]]. specialize (D0 _ (dget_blocks f c m GM)). cbn [fst snd] in D0. apply mem_In in X. rewrite X in D0. cbn in D0. apply mem_In. exact D0.
  - exists av. split; [destruct (av (entry f)); [reflexivity|discriminate]|]. intros b l _ G. specialize (C _ (dget_blocks f b l G)). cbn [fst snd] in C. unfold ssab in C.
    repeat (apply andb_true_iff in C; let Q := fresh "D" in destruct C as [C Q]). rewrite forallb_forall in C, D, D1, D2.
    split; [|split; [|split; [|split]]].
    + intros c E. apply edge_succs in E. destruct E as [l' [G' I]]. assert (l' = l) by congruence. subst l'. apply inclb_sound, C. exact I.
    + intros r R A. specialize (D2 r R). apply mem_In in A. rewrite A in D2. discriminate.
    + intros c i A F P. specialize (D1 c A). rewrite F, P in D1. apply inclb_sound. exact D1.
    + apply orderb_sound. exact D0.
    + intros c m i v E GM I P V. apply edge_succs in E. destruct E as [l' [G' X]]. assert (l' = l) by congruence. subst l'. specialize (D c X). rewrite forallb_forall in D.
      rewrite (block_get _ _ _ GM) in D. specialize (D i I). rewrite P in D. cbn [negb orb] in D. rewrite forallb_forall in D. specialize (D _ V). cbn [fst snd] in D. rewrite Nat.eqb_refl in D. cbn [negb orb] in D.
      apply inclb_sound. exact D.
Qed.
Definition table (l : list (nat * list nat)) : nat -> list nat := fun b => match dget l b with Some x => x | None => [] end.

(** ** A meaning for the examples
    Values are integers; the memory holds what was stored and the calls that were made.  A call
    returns 1 for the first three calls and then 0; the operation not is a logical one; the rest
    of an instruction tells allocations apart and makes a load one of a byte; other instructions
    with two operands add to a place in the memory. *)
Definition memory : Type := list (Z * Z) * list (list Z).
Definition global_at (name : string) : Z := match name with String c _ => (1000 + Z.of_nat (nat_of_ascii c))%Z | EmptyString => 1000%Z end.
Definition value_of (c : const) : Z := match c with CInt z => z | CGlobal n => global_at n end.
Definition sum (vs : list Z) : Z := fold_right Z.add 0%Z vs.
Definition stored (m : list (Z * Z)) (p : Z) : Z := match find (fun e => Z.eqb (fst e) p) m with Some e => snd e | None => 0%Z end.
Definition ex_exec (c : code) (rest : string) (vs : list Z) (m : memory) : option (Z * memory) :=
  match c, vs with
  | Alloca, _ => Some ((5000 + 1000 * Z.of_nat (String.length rest))%Z, m)
  | Load, p :: _ => Some (if String.eqb rest "i8" then Z.modulo (stored (fst m) p) 256 else stored (fst m) p, m)
  | Store, v :: p :: _ => Some (0%Z, ((p, v) :: fst m, snd m))
  | Call, _ => Some (if (length (snd m) <? 3)%nat then 1%Z else 0%Z, (fst m, vs :: snd m))
  | Cast _, v :: _ => Some (v, m)
  | Cast _, [] => Some (0%Z, m)
  | Gep _, _ => Some (sum vs, m)
  | Binop b, _ => Some (if String.eqb b "not" then (1 - sum vs)%Z else sum vs, m)
  | Other, v :: p :: _ => Some (stored (fst m) p, ((p, (stored (fst m) p + v)%Z) :: fst m, snd m))
  | Cmp p, a :: b :: _ => Some ((if Bool.eqb (String.eqb p "eq") (Z.eqb a b) then 1 else 0)%Z, m)
  | _, _ => None
  end.
Definition ex_choose (c : code) (_ : string) (vs : list Z) : option nat :=
  match c, vs with
  | Br, [_] => Some 0
  | Br, v :: _ => Some (if Z.eqb v 0 then 1 else 0)
  | Switch, v :: _ :: c :: _ :: d :: _ => Some (if Z.eqb v c then 1 else if Z.eqb v d then 2 else 0)
  | Switch, _ => Some 0
  | _, _ => None
  end.
Definition ex_sem : semantics := mkSem Z memory 0%Z value_of value_of ex_exec ex_choose.

(** GEPs with a constant offset are written with that offset as the only index. *)
Definition simple (f : func) : Prop := forall i z, In i (insts f) -> i_code i = Gep (Some z) -> exists p, i_ops i = [p; VConst (CInt z)].
Definition simpleb (f : func) : bool := forallb (fun i => match i_code i with Gep (Some z) => match i_ops i with [_; VConst (CInt y)] => Z.eqb z y | _ => false end | _ => true end) (insts f).
Lemma simpleb_sound f : simpleb f = true -> simple f.
Proof.
  unfold simpleb. rewrite forallb_forall. intros H i z I K. specialize (H i I). rewrite K in H. destruct (i_ops i) as [|p [|[| | |[y|]] [|]]]; try discriminate. apply Z.eqb_eq in H. subst y. eauto.
Qed.
(** The oracles say equal only of what is the same. *)
Definition exact (w : world) : Prop := (forall a b, same_rest w a b = true -> a = b) /\ (forall a b, same_const w a b = true -> a = b).
Lemma ex_lawful w fl fr : exact w -> simple fl -> simple fr -> lawful w ex_sem fl fr.
Proof.
  intros [ER EC] SL SR. constructor.
  - intros c r r' vs m H. rewrite (ER _ _ H). reflexivity.
  - intros c r r' vs H. rewrite (ER _ _ H). reflexivity.
  - intros a b H. rewrite (EC _ _ H). reflexivity.
  - exists Z.add. intros cs f H args env m i z I K.
    assert (CS : cs = value_of /\ simple f) by (destruct H as [[-> ->]|[-> ->]]; auto). destruct CS as [-> SF]. destruct (SF i z I K) as [p E]. unfold op. rewrite E. cbn. rewrite Z.add_0_r. reflexivity.
  - intros cs f H args env m i I K. assert (CS : cs = value_of) by (destruct H as [[-> ->]|[-> ->]]; auto). subst cs. destruct K as [[K _]|K].
    + rewrite K. unfold op. destruct (i_ops i); reflexivity.
    + destruct K as [[o K'] K]. rewrite K'. cbn [plain exec ex_sem]. unfold op. destruct (i_ops i) as [|p vs]; [reflexivity|]. cbn [tl] in K. cbn [map sum fold_right ex_exec nth].
      assert (Q : fold_right Z.add 0%Z (map (eval ex_sem value_of args env) vs) = 0%Z).
      { induction vs as [|v vs IH]; [reflexivity|]. cbn [map fold_right]. rewrite IH by (intros x X; apply K; right; exact X).
        rewrite (K v (or_introl eq_refl)). reflexivity. }
      change (Some ((eval ex_sem value_of args env p + fold_right Z.add 0 (map (eval ex_sem value_of args env) vs))%Z, m) = Some (eval ex_sem value_of args env p, m)). rewrite Q, Z.add_0_r. reflexivity.
Qed.
