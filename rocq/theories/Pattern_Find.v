(** * A pattern of one block is found in code that contains it. *)
From Coq Require Import String Ascii ZArith Arith Bool Lia List.
From Verif Require Import PyBase Funcomp_Model Source_Model Pattern_Model Pattern_Spec Pattern_Frame.
Import ListNotations.
Open Scope list_scope.
Open Scope nat_scope.

Definition value_dec (x y : value) : {x = y} + {x <> y} := reflect_dec _ _ (value_eqb_spec x y).

(** ** The values still to be mapped run out *)
Section Fuel.
  Variables mf pf : func.
  Variable inputs : list value.
  Definition vals : list value := flat_map i_ops (insts mf).
  Definition unseen (visited : list value) : nat := length (filter (fun v => negb (mem v visited)) vals).
  Lemma filter_le {A} (f g : A -> bool) l : (forall x, f x = true -> g x = true) -> length (filter f l) <= length (filter g l).
  Proof.
    intros H. induction l as [|x l IH]; cbn; [lia|]. destruct (f x) eqn:F; [rewrite (H x F); cbn; lia|]. destruct (g x); cbn; lia.
  Qed.
  Lemma filter_len {A} (f : A -> bool) l : length (filter f l) <= length l.
  Proof. induction l as [|x l IH]; cbn; [lia|]. destruct (f x); cbn; lia. Qed.
  Lemma filter_lt {A} (f g : A -> bool) l y : (forall x, f x = true -> g x = true) -> In y l -> f y = false -> g y = true ->
    length (filter f l) < length (filter g l).
  Proof.
    intros H. induction l as [|x l IH]; intros Hy Fy Gy; [destruct Hy|]. cbn. destruct Hy as [->|Hy].
    - rewrite Fy, Gy. cbn. assert (K := filter_le f g l H). lia.
    - specialize (IH Hy Fy Gy). destruct (f x) eqn:F; [rewrite (H x F); cbn; lia|]. destruct (g x); cbn; lia.
  Qed.
  Lemma unseen_add v visited : In v vals -> mem v visited = false -> unseen (v :: visited) < unseen visited.
  Proof.
    intros I N. apply (filter_lt _ _ _ v); [|exact I| |].
    - intros x. cbn. destruct (value_eqb x v); cbn; [discriminate|auto].
    - cbn. destruct (value_eqb_spec v v); [reflexivity|congruence].
    - rewrite N. reflexivity.
  Qed.
  Lemma push_ops_fuel ms : forall ps p visited work v w, push_ops ms ps p visited work = (v, w) -> (forall x, In x ms -> In x vals) ->
    length w + unseen v <= length work + unseen visited.
  Proof.
    induction ms as [|m ms IH]; intros [|q ps] p visited work v w E H; cbn in E; try (injection E as <- <-; lia).
    assert (H' : forall x, In x ms -> In x vals) by (intros x Hx; apply H; right; exact Hx).
    destruct (dmem p q); [eapply IH; eauto|]. destruct (mem m visited) eqn:M; [eapply IH; eauto|].
    specialize (IH _ _ _ _ _ _ E H'). assert (U := unseen_add m visited (H m (or_introl eq_refl)) M). cbn in IH. lia.
  Qed.
  Lemma ops_of_vals v l : ops_of mf v = Some l -> forall x, In x l -> In x vals.
  Proof.
    unfold ops_of. destruct (inst_of mf v) as [i|] eqn:E; [|discriminate]. intros H x Hx. injection H as <-.
    apply inst_of_In in E. apply in_flat_map. exists i. tauto.
  Qed.
  (** The loop ends because the values run out or the numbers of operands differ, not for lack
      of fuel: more fuel changes nothing. *)
  Lemma map_loop_fuel n : forall work visited s k, length work + unseen visited <= n ->
    map_loop mf pf inputs (n + k) work visited s = map_loop mf pf inputs n work visited s.
  Proof.
    induction n as [|n IH]; intros [|[m p] work] visited s k L; cbn [length] in L; try (destruct k; reflexivity); try lia.
    cbn [map_loop plus]. destruct (negb (mem p inputs)); [apply IH; lia|].
    destruct (ops_of mf m) as [mo|] eqn:Om; [|apply IH; lia]. destruct (ops_of pf p) as [po|]; [|apply IH; lia].
    destruct (length mo =? length po)%nat; cbn [negb]; [|reflexivity].
    match goal with |- context [push_ops ?a ?b ?c ?d ?e] => destruct (push_ops a b c d e) as [v w] eqn:P end.
    apply IH. assert (F := push_ops_fuel _ _ _ _ _ _ _ P (ops_of_vals m mo Om)). lia.
  Qed.
  Lemma map_fuel_enough (m p : value) : length [(m, p)] + unseen [m] <= map_fuel mf.
  Proof.
    unfold map_fuel, unseen. cbn [length]. assert (K := filter_len (fun v => negb (mem v [m])) vals). unfold vals in *. lia.
  Qed.
End Fuel.

Section Find.
  Variable same_rest : string -> string -> bool.
  Variable struct_gep : inst -> bool.
  Variable left : bool.
  Variables mf pf : func.
  Variable pmeta : dict nat meta.
  Variable inputs : list value.
  Variable D : value -> Prop.
  Variable phi : value -> value.
  Hypothesis REN : renames left D phi.
  (** Inputs that are instructions have copies in the code. *)
  Hypothesis IN_COPY : forall i, In i (insts pf) -> In (VReg (i_reg i)) inputs ->
    exists m, inst_of mf (phi (VReg (i_reg i))) = Some m /\ copy same_rest phi m i.
  Hypothesis IN_D : forall v, In v inputs -> D v.
  Hypothesis OPS_D : forall i o, In i (insts pf) -> In o (i_ops i) -> D o.

  Definition img (d : dict value nat) : dict value nat := map (fun x => (phi (fst x), snd x)) d.
  Definition keys_in (d : dict value nat) : Prop := forall b, In b (dkeys d) -> D b.
  Lemma img_get d b : keys_in d -> D b -> dget (img d) (phi b) = dget d b.
  Proof.
    intros K B. induction d as [|[c k] d IH]; cbn; [reflexivity|].
    assert (Dc : D c) by (apply K; left; reflexivity).
    destruct (value_eqb_spec (phi b) (phi c)) as [E|N], (value_eqb_spec b c) as [E'|N']; try reflexivity.
    - exfalso. apply N'. apply (proj1 REN); auto.
    - subst. congruence.
    - apply IH. intros x Hx. apply K. right. exact Hx.
  Qed.
  Lemma img_set d b k : dget d b = None -> keys_in d -> D b -> dset (img d) (phi b) k = img (dset d b k).
  Proof.
    intros H K B. induction d as [|[c j] d IH]; cbn; [reflexivity|]. cbn in H.
    assert (Dc : D c) by (apply K; left; reflexivity).
    destruct (value_eqb_spec b c) as [E'|N']; [discriminate|].
    destruct (value_eqb_spec (phi b) (phi c)) as [E|N]; [exfalso; apply N'; apply (proj1 REN); auto|].
    cbn. f_equal. apply IH; [exact H|]. intros x Hx. apply K. right. exact Hx.
  Qed.
  Lemma img_length d : length (img d) = length d. Proof. apply map_length. Qed.
  Lemma keys_in_set d b k : keys_in d -> D b -> keys_in (dset d b k).
  Proof. intros K B x H. apply dkeys_dset_In in H. destruct H as [->|H]; auto. Qed.

  (** The state so far agrees with the renaming. *)
  Record agrees (s : mstate) : Prop := {
    ag_numbers : nL s = img (nR s);
    ag_keys : keys_in (nR s);
    ag_pim : forall v x, dget (pim s) v = Some x -> x = phi v;
    ag_inputs : forall v, In v (dkeys (pim s)) -> In v inputs;
    ag_nodup : NoDup (dkeys (pim s));
    ag_imm : forall p m, dget (imm s) p = Some m -> VReg m = phi (VReg p) }.

  Lemma phi_const b : D b -> is_const (phi b) = is_const b.
  Proof.
    intros B. assert (R := proj2 REN b B). destruct b; cbn; try apply R.
    - destruct R as (x & ->). reflexivity.
    - destruct R as (c' & -> & _). reflexivity.
  Qed.
  Lemma number_agrees s b : agrees s -> D b ->
    let '(i, l) := number (nL s) (phi b) in let '(j, r) := number (nR s) b in i = j /\ l = img r /\ keys_in r /\ (forall x, In x (dkeys r) <-> x = b \/ In x (dkeys (nR s))).
  Proof.
    intros A B. unfold number. rewrite (ag_numbers s A), (img_get _ _ (ag_keys s A) B). destruct (dget (nR s) b) as [k|] eqn:E.
    - split; [reflexivity|]. split; [reflexivity|]. split; [apply (ag_keys s A)|]. intros x. split; [auto|].
      intros [->|H]; [|exact H]. apply dget_Some_key in E. exact E.
    - rewrite img_length. split; [reflexivity|]. split; [apply img_set; [exact E|apply (ag_keys s A)|exact B]|].
      split; [apply keys_in_set; [apply (ag_keys s A)|exact B]|]. intros x. apply dkeys_dset_In.
  Qed.

  Lemma push_ops_pairs os : forall p visited work v w, push_ops (map phi os) os p visited work = (v, w) ->
    (forall a b, In (a, b) work -> a = phi b) -> forall a b, In (a, b) w -> a = phi b.
  Proof.
    induction os as [|o os IH]; intros p visited work v w E H a b K; cbn in E; [injection E as <- <-; auto|].
    destruct (dmem p o); [eapply IH; eauto|]. destruct (mem (phi o) visited); [eapply IH; eauto|].
    eapply (IH _ _ _ _ _ E); [|exact K]. intros x y [Q|Q]; [congruence|auto].
  Qed.
  Lemma map_loop_agrees n : forall work visited s, length work + unseen mf visited <= n -> agrees s -> (forall a b, In (a, b) work -> a = phi b) ->
    exists s', map_loop mf pf inputs n work visited s = (true, s') /\ agrees s' /\ nR s' = nR s /\ imm s' = imm s /\ depth s' = depth s.
  Proof.
    induction n as [|n IH]; intros [|[m p] work] visited s L A W; cbn [length] in L; try lia; try (exists s; cbn; auto; fail).
    cbn [map_loop]. assert (W' : forall a b, In (a, b) work -> a = phi b) by (intros a b H; apply W; right; exact H).
    destruct (mem p inputs) eqn:I; cbn [negb]; [|apply IH; auto; lia].
    assert (E : m = phi p) by (apply W; left; reflexivity). apply mem_In in I.
    set (s1 := set_inputs s (set_add m (newML s)) (set_add p (newPR s)) (dset (pim s) p m) (dset (mim s) m p)) in *.
    assert (A1 : agrees s1).
    { destruct A as [Ha Hb Hc Hd He Hf]. constructor; cbn; auto.
      - intros v x. rewrite dget_dset. destruct (eqb_spec v p) as [->|N]; [congruence|apply Hc].
      - intros v H. apply dkeys_dset_In in H. destruct H as [->|H]; auto.
      - apply dset_NoDup. exact He. }
    assert (REST : forall wk vis, length wk + unseen mf vis <= n -> (forall a b, In (a, b) wk -> a = phi b) ->
      exists s', map_loop mf pf inputs n wk vis s1 = (true, s') /\ agrees s' /\ nR s' = nR s /\ imm s' = imm s /\ depth s' = depth s).
    { intros wk vis L1 W1. destruct (IH wk vis s1 L1 A1 W1) as (s' & X & Y & Z & U & V). exists s'. auto. }
    destruct (ops_of mf m) as [mo|] eqn:Om; [|apply REST; auto; lia].
    destruct (ops_of pf p) as [po|] eqn:Op; [|apply REST; auto; lia].
    assert (Q : mo = map phi po).
    { unfold ops_of in Om, Op. destruct (inst_of pf p) as [i|] eqn:Ii; [|discriminate]. injection Op as <-.
      apply inst_of_In in Ii. destruct Ii as [Ii ->]. destruct (IN_COPY i Ii I) as (m' & Hm & _ & _ & _ & Ho & _).
      rewrite E, Hm in Om. injection Om as <-. exact Ho. }
    subst mo. rewrite map_length, Nat.eqb_refl. cbn [negb].
    destruct (push_ops (map phi po) po (pim s1) visited work) as [v w] eqn:P. apply REST.
    - assert (F := push_ops_fuel mf _ _ _ _ _ _ _ P (ops_of_vals mf m _ Om)). lia.
    - exact (push_ops_pairs _ _ _ _ _ _ P W').
  Qed.
  Lemma map_inputs_agrees b s : agrees s ->
    exists s', map_inputs mf pf inputs (phi b) b s = (true, s') /\ agrees s' /\ nR s' = nR s /\ imm s' = imm s /\ depth s' = depth s.
  Proof.
    intros A. unfold map_inputs. destruct (dget (pim s) b) as [x|] eqn:E.
    - exists s. rewrite (ag_pim s A _ _ E). split; [|auto]. f_equal. cbn. destruct (value_eqb_spec (phi b) (phi b)); congruence.
    - apply map_loop_agrees; [apply map_fuel_enough|exact A|]. intros x y [H|[]]. congruence.
  Qed.
  Lemma cmp_values_agrees b s : agrees s -> D b ->
    exists s', cmp_values left mf pf inputs (phi b) b s = (true, s') /\ agrees s' /\
      (forall x, In x (dkeys (nR s')) <-> x = b \/ In x (dkeys (nR s))) /\ imm s' = imm s /\ depth s' = depth s.
  Proof.
    intros A B. unfold cmp_values.
    assert (BC : exists s1, base_cmp left (phi b) b s = (true, s1) /\ agrees s1 /\ imm s1 = imm s /\ depth s1 = depth s /\
       exists i l r, touch (nL s1) (phi b) = (i, l) /\ touch (nR s1) b = (i, r) /\ l = img r /\ keys_in r /\
         (forall x, In x (dkeys r) <-> x = b \/ In x (dkeys (nR s)))).
    { unfold base_cmp. assert (N := number_agrees s b A B). assert (C := phi_const b B). assert (R := proj2 REN b B).
      assert (LOCAL : is_const b = false -> exists s1,
        (let '(i, l) := number (nL s) (phi b) in let '(j, r) := number (nR s) b in (Nat.eqb i j, set_numbers s l r)) = (true, s1) /\ agrees s1 /\ imm s1 = imm s /\ depth s1 = depth s /\
        exists i l r, touch (nL s1) (phi b) = (i, l) /\ touch (nR s1) b = (i, r) /\ l = img r /\ keys_in r /\
         (forall x, In x (dkeys r) <-> x = b \/ In x (dkeys (nR s)))).
      { intros _. destruct (number (nL s) (phi b)) as [i l] eqn:Nl. destruct (number (nR s) b) as [j r] eqn:Nr.
        destruct N as (<- & -> & K & KI). rewrite Nat.eqb_refl. exists (set_numbers s (img r) r). split; [reflexivity|].
        assert (A1 : agrees (set_numbers s (img r) r)) by (destruct A; constructor; cbn; auto).
        split; [exact A1|]. split; [reflexivity|]. split; [reflexivity|]. cbn. unfold touch. rewrite (img_get r b K B).
        assert (G : exists k, dget r b = Some k). { destruct (dkeys_dget r b) as [k Hk]; [apply KI; left; reflexivity|]. eauto. }
        destruct G as [k G]. rewrite G. exists k, (img r), r. auto 10. }
      destruct b as [n|n|n|c].
      - destruct (phi (VArg n)) eqn:E; try (exact (LOCAL eq_refl)). discriminate C.
      - destruct (phi (VReg n)) eqn:E; try (exact (LOCAL eq_refl)). discriminate C.
      - destruct (phi (VBlock n)) eqn:E; try (exact (LOCAL eq_refl)). discriminate C.
      - destruct R as (c' & E & CC). rewrite E. exists s. apply const_match_iff in CC. rewrite CC.
        split; [reflexivity|]. split; [exact A|]. split; [reflexivity|]. split; [reflexivity|].
        unfold touch. rewrite <- E, (ag_numbers s A), (img_get _ _ (ag_keys s A) B). destruct (dget (nR s) (VConst c)) as [k|] eqn:G.
        + exists k, (img (nR s)), (nR s). split; [reflexivity|]. split; [reflexivity|]. split; [reflexivity|]. split; [apply (ag_keys s A)|].
          intros x. split; [auto|]. intros [->|H]; [|exact H]. apply dget_Some_key in G. exact G.
        + exists 0, (img (dset (nR s) (VConst c) 0)), (dset (nR s) (VConst c) 0). rewrite (img_set _ _ _ G (ag_keys s A) B).
          split; [reflexivity|]. split; [reflexivity|]. split; [reflexivity|]. split; [apply keys_in_set; [apply (ag_keys s A)|exact B]|].
          intros x. apply dkeys_dset_In. }
    destruct BC as (s1 & E1 & A1 & I1 & D1 & i & l & r & T1 & T2 & -> & K & KI). rewrite E1. cbn [negb]. rewrite T1, T2.
    match goal with |- context [map_inputs _ _ _ _ _ ?x] => set (s2 := x) end.
    assert (A2 : agrees s2) by (destruct A1; constructor; cbn; auto).
    destruct (map_inputs_agrees b s2 A2) as (s' & X & Y & Z & U & V). exists s'. split; [exact X|]. split; [exact Y|].
    split; [intros x; rewrite Z; apply KI|]. cbn in U, V. split; congruence.
  Qed.
  Lemma cmp_list_agrees os : forall s, agrees s -> (forall o, In o os -> D o) ->
    exists s', cmp_list left mf pf inputs (map phi os) os s = (true, s') /\ agrees s' /\
      (forall x, In x (dkeys (nR s')) <-> In x os \/ In x (dkeys (nR s))) /\ imm s' = imm s /\ depth s' = depth s.
  Proof.
    induction os as [|o os IH]; intros s A H; cbn [cmp_list map]; [exists s; split; [reflexivity|]; split; [exact A|]; split; [cbn; tauto|auto]|].
    destruct (cmp_values_agrees o s A (H o (or_introl eq_refl))) as (s1 & E & A1 & K1 & I1 & D1). rewrite E.
    destruct (IH s1 A1 (fun x Hx => H x (or_intror Hx))) as (s' & E' & A' & K' & I' & D').
    exists s'. split; [exact E'|]. split; [exact A'|]. split; [|split; congruence].
    intros x. rewrite K', K1. cbn. intuition congruence.
  Qed.
  Lemma same_code_refl i : ordinary i -> same_code (i_code i) (i_code i) = true.
  Proof. unfold ordinary. destruct (i_code i); cbn; intros H; try reflexivity; try (destruct H); try apply String.eqb_refl. apply Bool.eqb_reflx. Qed.
  Lemma same_kinds_phi os : (forall o, In o os -> D o) -> same_kinds (map phi os) os = true.
  Proof.
    unfold same_kinds. induction os as [|o os IH]; intros H; cbn; [reflexivity|]. apply andb_true_intro. split; [|apply IH; intros x Hx; apply H; right; exact Hx].
    assert (R := proj2 REN o (H o (or_introl eq_refl))). destruct o; cbn.
    - destruct R as [_ ->]. reflexivity.
    - destruct R as [_ ->]. reflexivity.
    - destruct R as (x & ->). reflexivity.
    - destruct R as (c' & -> & _). reflexivity.
  Qed.
  Notation cmp_operation := (cmp_operation same_rest struct_gep left mf pf pmeta inputs).
  Notation cmp_inst := (cmp_inst same_rest struct_gep left mf pf pmeta inputs).
  Lemma operation_plain m p s s1 ok : ordinary p -> cmp_values left mf pf inputs (VReg (i_reg m)) (VReg (i_reg p)) s = (ok, s1) ->
    cmp_operation m p s = if ok then if same_code (i_code m) (i_code p) && cmp_rest same_rest m p then cmp_list left mf pf inputs (i_ops m) (i_ops p) s1 else (false, s1) else (false, s1).
  Proof.
    intros O E. unfold Pattern_Model.cmp_operation. rewrite E. destruct ok; cbn [negb]; [|reflexivity].
    unfold ordinary in O. destruct (i_code m), (i_code p); try reflexivity; destruct O.
  Qed.
  Lemma cmp_inst_agrees m p s : agrees s -> In p (insts pf) -> D (VReg (i_reg p)) -> copy same_rest phi m p ->
    exists s', cmp_inst m p s = (true, s') /\ agrees s' /\
      (forall x, In x (dkeys (nR s')) <-> x = VReg (i_reg p) \/ In x (i_ops p) \/ In x (dkeys (nR s))) /\ depth s' = depth s.
  Proof.
    intros A Hp Dp (O & C & R & Ho & Hr). unfold Pattern_Model.cmp_inst.
    set (s0 := set_inputs (set_new s [] []) [] [] (pim s) (mim s)).
    assert (A0 : agrees s0) by (destruct A; constructor; cbn; auto).
    destruct (cmp_values_agrees (VReg (i_reg p)) s0 A0 Dp) as (s1 & E1 & A1 & K1 & I1 & D1). rewrite <- Hr in E1.
    assert (DO : forall o, In o (i_ops p) -> D o) by (intros o H; eapply OPS_D; eauto).
    destruct (cmp_list_agrees (i_ops p) s1 A1 DO) as (s2 & E2 & A2 & K2 & I2 & D2).
    rewrite (operation_plain m p s0 s1 true O E1), C, (same_code_refl p O).
    assert (CR : cmp_rest same_rest m p = true).
    { unfold cmp_rest. rewrite Ho, map_length, Nat.eqb_refl, R. cbn. apply same_kinds_phi. exact DO. }
    rewrite CR, Ho, E2. cbn [andb].
    exists (set_matched s2 (dset (imm s2) (i_reg p) (i_reg m))). split; [reflexivity|]. split.
    - destruct A2 as [Ha Hb Hc Hd He Hf]. constructor; cbn; auto. intros q n. rewrite dget_dset.
      destruct (eqb_spec q (i_reg p)) as [->|N]; [intros H; injection H as <-; exact Hr|apply Hf].
    - split; [|cbn; cbn in D1; congruence]. intros x. cbn. rewrite K2, K1. cbn. tauto.
  Qed.

  (** *** An instruction in between leaves everything as it was *)
  Lemma map_loop_new n : forall work visited s ok s', map_loop mf pf inputs n work visited s = (ok, s') -> NoDup (dkeys (pim s)) ->
    NoDup (dkeys (pim s')) /\ (forall v, In v (newPR s) -> In v (newPR s')) /\ nL s' = nL s /\ nR s' = nR s /\ newL s' = newL s /\ newR s' = newR s /\ imm s' = imm s /\ depth s' = depth s /\
    (forall v, ~ In v (newPR s') -> dget (pim s') v = dget (pim s) v).
  Proof.
    induction n as [|n IH]; intros [|[m p] work] visited s ok s' E N; cbn in E; try (injection E as <- <-; auto 12; fail).
    destruct (mem p inputs); cbn in E; [|eapply IH; eauto].
    set (s1 := set_inputs s (set_add m (newML s)) (set_add p (newPR s)) (dset (pim s) p m) (dset (mim s) m p)) in *.
    assert (N1 : NoDup (dkeys (pim s1))) by (apply dset_NoDup; exact N).
    assert (S1 : forall v, In v (newPR s) -> In v (newPR s1)) by (intros v H; apply set_add_In; right; exact H).
    assert (P1 : In p (newPR s1)) by (apply set_add_In; left; reflexivity).
    assert (REST : forall wk vis, map_loop mf pf inputs n wk vis s1 = (ok, s') ->
      NoDup (dkeys (pim s')) /\ (forall v, In v (newPR s) -> In v (newPR s')) /\ nL s' = nL s /\ nR s' = nR s /\ newL s' = newL s /\ newR s' = newR s /\ imm s' = imm s /\ depth s' = depth s /\
      (forall v, ~ In v (newPR s') -> dget (pim s') v = dget (pim s) v)).
    { intros wk vis E1. destruct (IH _ _ _ _ _ E1 N1) as (a & b & c & d & e & f & g & h & i).
      repeat split; auto. intros v Hv. rewrite (i v Hv). cbn. apply dget_dset_other. intros ->. apply Hv, b, P1. }
    destruct (ops_of mf m) as [mo|]; [|apply (REST _ _ E)]. destruct (ops_of pf p) as [po|]; [|apply (REST _ _ E)].
    destruct (length mo =? length po)%nat; cbn [negb] in E.
    - match type of E with context [push_ops ?a ?b ?c ?d ?e] => destruct (push_ops a b c d e) as [v w] end. apply (REST _ _ E).
    - injection E as <- <-. repeat split; auto. intros v Hv. cbn. apply dget_dset_other. intros ->. apply Hv, P1.
  Qed.
  Lemma erase_all_NoDup {V} l : forall (d : dict value V), NoDup (dkeys d) -> NoDup (dkeys (erase_all l d)).
  Proof. induction l as [|a l IH]; intros d H; cbn; [exact H|]. apply IH. apply ddel_NoDup. exact H. Qed.
  Lemma erase_all_same {V} l : forall (d : dict value V) v, NoDup (dkeys d) -> In v l -> dget (erase_all l d) v = None.
  Proof.
    induction l as [|a l IH]; intros d v N H; [destruct H|]. cbn. destruct (in_dec value_dec v l) as [I|I].
    - apply IH; [apply ddel_NoDup; exact N|exact I].
    - destruct H as [->|H]; [|contradiction]. change (dget (erase_all l (ddel d v)) v = None). rewrite (erase_all_other l (ddel d v) v I). apply dget_ddel_same. exact N.
  Qed.
  Lemma ddel_dset_new (d : dict value nat) v k : dget d v = None -> ddel (dset d v k) v = d.
  Proof.
    induction d as [|[c j] d IH]; cbn; intros H.
    - destruct (value_eqb_spec v v); congruence.
    - destruct (value_eqb_spec v c) as [E|N]; [discriminate|]. cbn. destruct (value_eqb_spec v c); [contradiction|]. f_equal. apply IH. exact H.
  Qed.
  Lemma dset_length (d : dict value nat) v k : dget d v = None -> length (dset d v k) = S (length d).
  Proof.
    induction d as [|[c j] d IH]; cbn; intros H; [reflexivity|]. destruct (value_eqb_spec v c); [discriminate|]. cbn. f_equal. apply IH. exact H.
  Qed.
  Lemma img_fresh d m : keys_in d -> (forall b, D b -> phi b <> VReg m) -> dget (img d) (VReg m) = None.
  Proof.
    intros K H. apply dget_None. unfold dkeys, img. rewrite map_map. cbn. intros I. apply in_map_iff in I. destruct I as ([b k] & E & I).
    cbn in E. apply (H b); [apply K; apply in_map_iff; exists (b, k); auto|exact E].
  Qed.
  Lemma skip_agrees m p s : agrees s -> ordinary p -> i_code m <> i_code p -> (forall b, D b -> phi b <> VReg (i_reg m)) ->
    ~ In (VReg (i_reg p)) (dkeys (nR s)) ->
    exists s', cmp_inst m p s = (false, s') /\ agrees (erase_new s') /\ nR (erase_new s') = nR s /\ imm (erase_new s') = imm s /\ depth (erase_new s') = depth s.
  Proof.
    intros A O C F P. unfold Pattern_Model.cmp_inst. set (s0 := set_inputs (set_new s [] []) [] [] (pim s) (mim s)).
    assert (FL : dget (nL s) (VReg (i_reg m)) = None) by (rewrite (ag_numbers s A); apply img_fresh; [apply (ag_keys s A)|exact F]).
    assert (FR : dget (nR s) (VReg (i_reg p)) = None) by (apply dget_None; exact P).
    assert (LEN : length (nL s) = length (nR s)) by (rewrite (ag_numbers s A); apply img_length).
    set (s2 := mkM (dset (nL s) (VReg (i_reg m)) (length (nR s))) (dset (nR s) (VReg (i_reg p)) (length (nR s)))
                   [VReg (i_reg m)] [VReg (i_reg p)] [] [] (pim s) (mim s) (imm s) (depth s)).
    assert (CV : cmp_values left mf pf inputs (VReg (i_reg m)) (VReg (i_reg p)) s0 = map_inputs mf pf inputs (VReg (i_reg m)) (VReg (i_reg p)) s2).
    { unfold cmp_values, base_cmp, number. cbn [nL nR s0 set_inputs set_new]. rewrite FL, FR, LEN, Nat.eqb_refl. cbn [negb].
      unfold touch. cbn [nL nR set_numbers]. rewrite !dget_dset_same. rewrite !dset_length by assumption. rewrite LEN.
      replace (S (length (nR s)) - 1) with (length (nR s)) by lia. rewrite Nat.eqb_refl. reflexivity. }
    destruct (map_inputs mf pf inputs (VReg (i_reg m)) (VReg (i_reg p)) s2) as [ok s1] eqn:M.
    rewrite (operation_plain m p s0 s1 ok O CV).
    assert (SC : same_code (i_code m) (i_code p) = false).
    { destruct (same_code (i_code m) (i_code p)) eqn:Q; [|reflexivity]. apply same_code_eq in Q. destruct Q as [Q _]. contradiction. }
    rewrite SC. cbn [andb]. replace (if ok then (false, s1) else (false, s1)) with (false, s1) by (destruct ok; reflexivity).
    exists s1. split; [reflexivity|].
    assert (N0 : NoDup (dkeys (pim s2))) by apply (ag_nodup s A).
    assert (FACTS : NoDup (dkeys (pim s1)) /\ nL s1 = nL s2 /\ nR s1 = nR s2 /\ newL s1 = newL s2 /\ newR s1 = newR s2 /\ imm s1 = imm s2 /\ depth s1 = depth s2 /\
      (forall v, ~ In v (newPR s1) -> dget (pim s1) v = dget (pim s2) v)).
    { unfold map_inputs in M. destruct (dget (pim s2) (VReg (i_reg p))).
      - injection M as <- <-. auto 10.
      - destruct (map_loop_new _ _ _ _ _ _ M N0) as (a & b & c & d & e & f & g & h & i). auto 10. }
    destruct FACTS as (a & c & d & e & f & g & h & i).
    assert (PIM : forall v x, dget (pim (erase_new s1)) v = Some x -> dget (pim s) v = Some x).
    { intros v x H. cbn in H. destruct (in_dec value_dec v (newPR s1)) as [I|I].
      - rewrite erase_all_same in H by assumption. discriminate.
      - rewrite erase_all_other in H by exact I. rewrite (i v I) in H. exact H. }
    assert (NL : nL (erase_new s1) = nL s). { cbn. rewrite c, e. cbn. apply ddel_dset_new. exact FL. }
    assert (NR : nR (erase_new s1) = nR s). { cbn. rewrite d, f. cbn. apply ddel_dset_new. exact FR. }
    split; [|split; [exact NR|split; [cbn; rewrite g; reflexivity|cbn; rewrite h; reflexivity]]].
    destruct A as [Ha Hb Hc Hd He Hf]. constructor.
    - rewrite NL, NR. exact Ha.
    - rewrite NR. exact Hb.
    - intros v x H. apply Hc. apply PIM. exact H.
    - intros v H. apply Hd. destruct (dkeys_dget _ _ H) as [x Hx]. apply PIM in Hx. apply dget_Some_key in Hx. exact Hx.
    - cbn. apply erase_all_NoDup. exact a.
    - cbn. rewrite g. exact Hf.
  Qed.

  (** *** The block *)
  Notation cmp_block := (cmp_block same_rest struct_gep left mf pf pmeta inputs).
  Notation contains := (contains same_rest D phi).
  Definition usual (p : inst) : Prop :=
    In p (insts pf) /\ D (VReg (i_reg p)) /\ is_terminator p = false /\ flag pmeta m_end p = false /\ flag pmeta m_group p = false /\ flag pmeta m_group_end p = false.
  Lemma contains_nonempty ps ms : contains ps ms -> exists m ms', ms = m :: ms'.
  Proof. destruct 1; eauto. Qed.
  Lemma contains_ordinary ps ms : contains ps ms -> match ps with p :: _ => ordinary p | [] => True end.
  Proof. induction 1 as [|p ps m ms C _ _|p ps m ms _ _ _ _ IH]; [exact I|apply C|exact IH]. Qed.
  Lemma is_terminator_code a b : i_code a = i_code b -> is_terminator a = is_terminator b.
  Proof. unfold is_terminator. intros ->. reflexivity. Qed.
  Definition fresh (ps : list inst) (s : mstate) : Prop := forall p, In p ps -> ~ In (VReg (i_reg p)) (dkeys (nR s)).
  Lemma in_order_tail p ps : in_order (p :: ps) -> in_order ps.
  Proof. intros H a q b E r Hr. apply (H (p :: a) q b); [rewrite E; reflexivity|right; exact Hr]. Qed.
  Lemma in_order_head p ps : in_order (p :: ps) -> forall q, In q ps -> i_reg p <> i_reg q /\ ~ In (VReg (i_reg q)) (i_ops p).
  Proof. intros H q Hq. apply in_split in Hq. destruct Hq as (a & b & ->). apply (H (p :: a) q b); [reflexivity|left; reflexivity]. Qed.
  Lemma take_step first p ps m ms s : agrees s -> depth s = 0%Z -> usual p -> copy same_rest phi m p -> ms <> [] -> ps <> [] -> in_order (p :: removelast ps) -> fresh (removelast ps) s ->
    exists s', cmp_block first (m :: ms) (p :: ps) s = cmp_block false ms ps s' /\ agrees s' /\ depth s' = 0%Z /\ fresh (removelast ps) s'.
  Proof.
    intros A Z (Hp & Dp & T & F & G1 & G2) C Nm Np O Fr.
    destruct (cmp_inst_agrees m p s A Hp Dp C) as (s1 & E & A1 & K & Z1). exists (update_depth pmeta p s1).
    split.
    - cbn [Pattern_Model.cmp_block]. rewrite F. assert (Tm : is_terminator m = false) by (rewrite <- T; apply is_terminator_code; apply C).
      rewrite Tm, T. cbn [andb negb]. rewrite E. destruct ms as [|m2 ms]; [congruence|]. destruct ps as [|p2 ps]; [congruence|]. reflexivity.
    - unfold update_depth. rewrite G1, G2. split; [destruct A1; constructor; cbn; auto|]. split; [cbn; lia|].
      intros q Hq H. cbn in H. apply K in H. destruct (in_order_head _ _ O q Hq) as [N1 N2].
      destruct H as [H|[H|H]]; [congruence|contradiction|exact (Fr q Hq H)].
  Qed.
  Lemma removelast_snoc (ps : list inst) e : removelast (ps ++ [e]) = ps.
  Proof. apply removelast_last. Qed.
  Lemma cmp_block_found ps ms : contains ps ms -> forall e s, flag pmeta m_end e = true -> agrees s -> depth s = 0%Z ->
    (forall p, In p ps -> usual p) -> in_order ps -> fresh ps s ->
    exists s' ms', cmp_block false ms (ps ++ [e]) s = (true, s', ms', [e]) /\ agrees s'.
  Proof.
    induction 1 as [m ms|p ps m ms C Cs IH|p ps m ms T N F Cs IH]; intros e s Fe A Z U O Fr.
    - exists s, (m :: ms). cbn. rewrite Fe. auto.
    - destruct (contains_nonempty _ _ Cs) as (m2 & ms2 & ->).
      destruct (take_step false p (ps ++ [e]) m (m2 :: ms2) s A Z (U p (or_introl eq_refl)) C) as (s1 & E & A1 & Z1 & F1).
      + discriminate.
      + destruct ps; discriminate.
      + rewrite removelast_snoc. exact O.
      + rewrite removelast_snoc. intros q Hq. apply Fr. right. exact Hq.
      + rewrite removelast_snoc in F1. change ((p :: ps) ++ [e]) with (p :: ps ++ [e]). rewrite E.
        apply IH; auto; [intros q Hq; apply U; right; exact Hq|eapply in_order_tail; eauto].
    - destruct (U p (or_introl eq_refl)) as (Hp & Dp & Tp & Fp & G1 & G2).
      assert (Op := contains_ordinary _ _ Cs). cbn in Op.
      destruct (skip_agrees m p s A Op N F (Fr p (or_introl eq_refl))) as (s1 & E & A1 & NR & IM & Z1).
      destruct (IH e (erase_new s1) Fe A1 (eq_trans Z1 Z) U O) as (s' & ms' & E' & A').
      { intros q Hq. rewrite NR. apply Fr. exact Hq. }
      exists s', ms'. split; [|exact A']. change ((p :: ps) ++ [e]) with (p :: ps ++ [e]). cbn [Pattern_Model.cmp_block].
      rewrite Fp, T, Tp. cbn [andb negb]. rewrite E. rewrite Z1, Z. cbn [Z.ltb Z.compare orb]. destruct (contains_nonempty _ _ Cs) as (m2 & ms2 & Ems). rewrite Ems in *. exact E'.
  Qed.

  (** *** The whole side *)
  Variables (pb mb : nat) (pre body : list inst) (e : inst) (startp start : nat).
  Hypothesis PF : f_blocks pf = [(pb, pre ++ body ++ [e])].
  Hypothesis E_RET : i_code e = Ret.
  Hypothesis E_END : flag pmeta m_end e = true.
  Hypothesis USUAL : forall p, In p body -> is_terminator p = false /\ flag pmeta m_end p = false /\ flag pmeta m_group p = false /\ flag pmeta m_group_end p = false.
  Hypothesis ORDER : in_order body.
  Hypothesis DOM : forall v, D v <-> occurring pf pb v.
  Hypothesis BLOCK : phi (VBlock pb) = VBlock mb.
  Lemma insts_pf : insts pf = pre ++ body ++ [e].
  Proof. unfold insts. rewrite PF. cbn. rewrite app_nil_r. reflexivity. Qed.
  Lemma block_pf : block pf pb = pre ++ body ++ [e].
  Proof. unfold block. rewrite PF. cbn. rewrite Nat.eqb_refl. reflexivity. Qed.
  Lemma terminator_pf : terminator (block pf pb) = Some e.
  Proof. rewrite block_pf. unfold terminator. rewrite app_assoc, rev_app_distr. cbn. unfold is_terminator. rewrite E_RET. reflexivity. Qed.
  Lemma successors_pf : successors_of pf pb = [].
  Proof. unfold successors_of. rewrite terminator_pf. unfold successors. rewrite E_RET. reflexivity. Qed.
  Lemma check_insts_agrees l : forall s, agrees s -> (forall i, In i l -> In i (insts pf)) ->
    exists s' found, check_insts same_rest struct_gep left mf pf pmeta inputs l s = (true, s', found) /\ agrees s'.
  Proof.
    induction l as [|p l IH]; intros s A H; cbn; [exists s, false; auto|].
    assert (H' : forall i, In i l -> In i (insts pf)) by (intros i Hi; apply H; right; exact Hi).
    destruct (flag pmeta m_start p); [exists s, true; auto|]. destruct (flag pmeta m_noinput p); [apply IH; auto|].
    destruct (dget (pim s) (VReg (i_reg p))) as [v|] eqn:E; [|apply IH; auto].
    assert (Hp : In p (insts pf)) by (apply H; left; reflexivity).
    assert (Ip : In (VReg (i_reg p)) inputs) by (apply (ag_inputs s A); eapply dget_Some_key; eauto).
    destruct (IN_COPY p Hp Ip) as (m & Im & C). rewrite (ag_pim s A _ _ E), Im.
    destruct (cmp_inst_agrees m p s A Hp (IN_D _ Ip) C) as (s1 & E1 & A1 & _). rewrite E1. apply IH; auto.
  Qed.
  Lemma check_args_agrees l : forall s, agrees s -> (forall a, In a l -> D a) ->
    exists s', check_args left mf pf inputs l s = (true, s') /\ agrees s'.
  Proof.
    induction l as [|a l IH]; intros s A H; cbn; [exists s; auto|].
    destruct (dget (pim s) a) as [v|] eqn:E; [|apply IH; auto; intros x Hx; apply H; right; exact Hx].
    rewrite (ag_pim s A _ _ E). destruct (cmp_values_agrees a s A (H a (or_introl eq_refl))) as (s1 & E1 & A1 & _). rewrite E1.
    apply IH; auto. intros x Hx. apply H. right. exact Hx.
  Qed.
  Lemma check_inputs_agrees s : agrees s -> exists s', check_inputs same_rest struct_gep left mf pf pmeta inputs s = (true, s') /\ agrees s'.
  Proof.
    intros A. unfold check_inputs.
    destruct (check_args_agrees (arguments pf) s A) as (s1 & E1 & A1).
    { intros a Ha. apply DOM. right. left. exact Ha. }
    rewrite E1. cbn [negb]. unfold group_fuel. rewrite PF. cbn [length]. rewrite Nat.add_1_r.
    destruct (check_insts_agrees (block pf pb) s1 A1) as (s2 & found & E2 & A2); [intros i Hi; eapply block_within; eauto|].
    cbn [check_blocks]. rewrite E2. cbn [negb]. rewrite successors_pf. cbn [queue_blocks].
    exists s2. destruct found; auto.
  Qed.
  Variables (p0 m0 : inst) (body0 ms0 : list inst).
  Hypothesis BODY : body = p0 :: body0.
  Hypothesis START : locate startp (f_blocks pf) = Some (pb, body ++ [e]).
  Hypothesis MSTART : locate start (f_blocks mf) = Some (mb, m0 :: ms0).
  Hypothesis COPY0 : copy same_rest phi m0 p0.
  Hypothesis FOUND : contains body0 ms0.
  Lemma compare_side_found s : exists s', compare_side same_rest struct_gep left mf pf pmeta inputs startp start s = (true, s') /\ agrees s'.
  Proof.
    unfold compare_side. set (s0 := mkM [] [] (newL s) (newR s) (newML s) (newPR s) [] [] [] (depth s)).
    assert (A0 : agrees s0). { constructor; cbn; auto; try discriminate; try (intros v []). constructor. }
    assert (MP : exists s1, match_pattern same_rest struct_gep left mf pf pmeta inputs startp start s0 = (true, s1) /\ agrees s1).
    { unfold match_pattern. rewrite MSTART, START. unfold group_fuel at 1. cbn [match_loop].
      assert (DB : D (VBlock pb)) by (apply DOM; left; reflexivity).
      destruct (cmp_values_agrees (VBlock pb) s0 A0 DB) as (s1 & E1 & A1 & K1 & I1 & D1). rewrite BLOCK in E1. rewrite E1. cbn [negb].
      set (s1' := set_depth s1 0%Z). assert (A1' : agrees s1') by (destruct A1; constructor; cbn; auto).
      assert (UB : forall p, In p body -> usual p).
      { intros p Hp. destruct (USUAL p Hp) as (U1 & U2 & U3 & U4). unfold usual.
        assert (Hi : In p (insts pf)) by (rewrite insts_pf; apply in_app_iff; right; apply in_app_iff; left; exact Hp).
        repeat split; auto. apply DOM. right. right. exists p. auto. }
      assert (FB : fresh body s1').
      { intros p Hp H. cbn in H. apply K1 in H. destruct H as [H|H]; [discriminate|exact H]. }
      assert (G : exists s2 mb', cmp_group same_rest struct_gep left mf pf pmeta inputs (group_fuel mf pf) mb pb (m0 :: ms0) (body ++ [e]) [mb] [pb] s1' = Some (mb', pb, [mb], [pb], s2) /\ agrees s2).
      { unfold group_fuel. cbn [cmp_group].
        destruct (contains_nonempty _ _ FOUND) as (m2 & ms2 & Ems).
        assert (UB0 : forall p, In p body0 -> usual p) by (intros p Hp; apply UB; rewrite BODY; right; exact Hp).
        destruct (take_step true p0 (body0 ++ [e]) m0 ms0 s1' A1' eq_refl (UB p0 ltac:(rewrite BODY; left; reflexivity)) COPY0) as (s2 & E2 & A2 & Z2 & F2).
        - rewrite Ems. discriminate.
        - destruct body0; discriminate.
        - rewrite removelast_snoc. rewrite <- BODY. exact ORDER.
        - rewrite removelast_snoc. intros q Hq. apply FB. rewrite BODY. right. exact Hq.
        - rewrite removelast_snoc in F2.
          assert (O0 : in_order body0) by (apply (in_order_tail p0); rewrite <- BODY; exact ORDER).
          destruct (cmp_block_found _ _ FOUND e s2 E_END A2 Z2 UB0 O0 F2) as (s3 & ms3 & E3 & A3).
          rewrite BODY. change ((p0 :: body0) ++ [e]) with (p0 :: body0 ++ [e]). rewrite E2, E3.
          unfold single_successor. rewrite successors_pf. eauto. }
      destruct G as (s2 & mb' & G & A2). rewrite G. destruct (run_on mf (group_fuel mf pf) mb' [mb]) as [mb2 mv2].
      rewrite successors_pf. cbn [length Nat.eqb]. rewrite orb_true_r. exists s2. split; [|exact A2].
      destruct (length (f_blocks mf) + length (f_blocks pf)); reflexivity. }
    destruct MP as (s1 & E1 & A1). rewrite E1. cbn [negb]. apply check_inputs_agrees.
    destruct A1 as [a b c d f g]. constructor; cbn; auto. intros x [].
  Qed.
End Find.
