(** Proofs about the calls that are rewritten (for Passes_Props). *)
From Coq Require Import String Ascii ZArith Arith Bool Lia Permutation List.
From Verif Require Import PyBase Source_Model Source_Spec Source_Proofs Funcomp_Model Funcomp_Spec Slice_Model Slice_Spec Slice_Run Passes_Model Passes_Spec Passes_Sim Passes_Merge Passes_Runs Passes_Abstract Passes_Void.
Import ListNotations.
Open Scope list_scope.
Open Scope nat_scope.

Section Names.
  Variable name_of : string -> option string.
  Variable assembly : string -> option string.
  Notation by_name := (calls_by_name name_of).
  Notation code_of := (calls_code name_of assembly).
  Lemma named_iff n i : is_call i = true -> callee_name name_of i = Some n <-> by_name n i.
  Proof.
    intros C. apply is_call_iff in C. unfold callee_name, calls_by_name. split.
    - intros H. split; [exact C|]. destruct (callee_id i) as [g|] eqn:E; [|discriminate]. apply callee_some in E as (ops & E). exists ops, g. auto.
    - intros (_ & ops & g & O & H). assert (callee_id i = Some g) as -> by (apply callee_some; exists ops; exact O). exact H.
  Qed.
  Lemma calls_named_iff n i : calls_named name_of n i = true <-> by_name n i.
  Proof.
    unfold calls_named. rewrite andb_true_iff. split.
    - intros [C E]. destruct (opt_eqb_spec (callee_name name_of i) (Some n)) as [Q|]; [|discriminate]. apply named_iff; assumption.
    - intros H. assert (C : is_call i = true) by (apply is_call_iff; apply H). split; [exact C|]. apply named_iff in H; [|exact C]. rewrite H. destruct (opt_eqb_spec (Some n) (Some n)); congruence.
  Qed.
  Lemma by_name_one n n' i : by_name n i -> by_name n' i -> n = n'.
  Proof. intros (_ & ops & g & O & E) (_ & ops' & g' & O' & E'). rewrite O in O'. apply app_inj_tail in O' as [_ O']. injection O' as ->. congruence. Qed.
  Lemma by_name_code n c i : by_name n i -> code_of c i -> False.
  Proof. intros (_ & ops & g & O & E) (_ & ops' & g' & O' & E' & _). rewrite O in O'. apply app_inj_tail in O' as [_ O']. injection O' as ->. congruence. Qed.
  Lemma code_one c c' i : code_of c i -> code_of c' i -> c = c'.
  Proof. intros (_ & ops & g & O & _ & E) (_ & ops' & g' & O' & _ & E'). rewrite O in O'. apply app_inj_tail in O' as [_ O']. injection O' as ->. congruence. Qed.
  Lemma ops_last i : (exists n, by_name n i) \/ (exists c, code_of c i) -> exists l v, i_ops i = l ++ [v] /\ call_args i = l.
  Proof. intros [(n & _ & ops & g & O & _)|(c & _ & ops & g & O & _)]; exists ops, (VConst (CGlobal g)); (split; [exact O|]); unfold call_args; rewrite O; apply removelast_last. Qed.

  Variable is_pointer : inst -> nat -> bool.
  Definition set_at (k : nat) (w : value) (l : list value) : list value := firstn k l ++ w :: skipn (S k) l.
  Lemma set_op_args i l v k w : i_ops i = l ++ [v] -> k < length l -> i_ops (set_op k w i) = set_at k w l ++ [v].
  Proof.
    intros O L. unfold set_op, set_at. cbn [i_ops]. rewrite O, firstn_app, skipn_app. replace (k - length l) with 0 by lia. replace (S k - length l) with 0 by lia. cbn [firstn skipn]. rewrite app_nil_r, <- app_assoc. reflexivity.
  Qed.
  Lemma set_at_length k w l : k < length l -> length (set_at k w l) = length l.
  Proof. intros L. unfold set_at. rewrite app_length, firstn_length. cbn [length]. rewrite skipn_length. lia. Qed.
  (** Zeroing and nulling, on argument lists. *)
  Definition zero_at (k : nat) (l : list value) : list value := match nth_error l k with Some (VConst (CInt _)) => set_at k (VConst (CInt 0)) l | _ => l end.
  Definition null_at (p : bool) (k : nat) (l : list value) : list value := match nth_error l k with Some _ => if p then set_at k null l else l | None => l end.
  Lemma zero_arg_args i l v k : i_ops i = l ++ [v] -> with_args i (zero_arg k i) l (zero_at k l).
  Proof.
    intros O. unfold zero_arg, zero_at, call_args. rewrite O, removelast_last. assert (R : with_args i i l l) by (repeat split; exists v; auto). destruct (nth_error l k) as [[| | |[z|]]|] eqn:E; try exact R.
    assert (L : k < length l) by (apply nth_error_Some; congruence). repeat split. exists v. split; [exact O|apply set_op_args; assumption].
  Qed.
  Lemma null_arg_args i l v k : i_ops i = l ++ [v] -> with_args i (null_arg is_pointer k i) l (null_at (is_pointer i k) k l).
  Proof.
    intros O. unfold null_arg, null_at, call_args. rewrite O, removelast_last. assert (R : with_args i i l l) by (repeat split; exists v; auto). destruct (nth_error l k) eqn:E; [|exact R]. destruct (is_pointer i k); [|exact R].
    assert (L : k < length l) by (apply nth_error_Some; congruence). repeat split. exists v. split; [exact O|apply set_op_args; assumption].
  Qed.
  Lemma with_args_trans i j k l l' l'' : with_args i j l l' -> with_args j k l' l'' -> with_args i k l l''.
  Proof.
    intros (A1 & A2 & A3 & v & A4 & A5) (B1 & B2 & B3 & w & B4 & B5). repeat split; try congruence. exists v. split; [exact A4|]. rewrite A5 in B4. apply app_inj_tail in B4 as [_ B4]. congruence.
  Qed.
  Lemma args_last i j l l' : with_args i j l l' -> exists v, i_ops j = l' ++ [v].
  Proof. intros (_ & _ & _ & v & _ & E). exists v. exact E. Qed.
  Lemma places_same (R : nat -> value -> value -> Prop) k l : (forall j v, k <= j -> R j v v) -> places R k l l.
  Proof. revert k. induction l as [|v l IH]; intros k H; constructor; [apply H; lia|apply IH; intros j w L; apply H; lia]. Qed.
  Lemma simplify_ok i : simplified name_of assembly is_pointer i (simplify_call name_of assembly is_pointer i).
  Proof.
    unfold simplified, simplify_call. destruct (is_call i) eqn:C; cbn [negb].
    2:{ assert (X : i_code i <> Call) by (intros Q; apply is_call_iff in Q; congruence).
        split; [intros (n & _ & (Q & _)); contradiction|]. split; [intros [(n & _ & (Q & _))|(c & (Q & _) & _)]; contradiction|]. split; [intros (c & (Q & _) & _); contradiction|reflexivity]. }
    destruct (callee_name name_of i) as [n|] eqn:E.
    - apply named_iff in E as B; [|exact C]. destruct (ops_last i (or_introl (ex_intro _ n B))) as (l & v & O & LA).
      assert (NC : ~ counting name_of assembly i) by (intros (c & Q & _); exact (by_name_code n c i B Q)).
      assert (PI : printing name_of i <-> print_function n = true). { unfold print_function. rewrite mem_In. split; [intros (n' & I & Q); rewrite (by_name_one n n' i B Q); exact I|intros I; exists n; auto]. }
      assert (WI : warning name_of assembly i <-> warn_function n = true). { unfold warn_function. rewrite mem_In. split; [intros [(n' & I & Q)|(c & Q & _)]; [rewrite (by_name_one n n' i B Q); exact I|exfalso; exact (by_name_code n c i B Q)]|intros I; left; exists n; auto]. }
      destruct (print_function n) eqn:P; [|destruct (warn_function n) eqn:W].
      + split.
        * intros _. exists l. repeat split; try (symmetry; apply is_call_iff; exact C). exists v. split; [exact O|]. cbn [i_ops]. destruct B as (_ & ops & g & O' & Q). rewrite O in O'. apply app_inj_tail in O' as [-> ->].
          assert (callee_id i = Some g) as -> by (apply callee_some; exists ops; exact O). reflexivity.
        * split; [intros _ Q; exfalso; apply Q; apply PI; reflexivity|]. split; [contradiction|]. intros Q. exfalso. apply Q. apply PI. reflexivity.
      + split; [intros Q; apply PI in Q; discriminate|]. split.
        * intros _ _. pose proof (null_arg_args i l v 0 O) as A0. destruct (args_last _ _ _ _ A0) as (v0 & O0). pose proof (zero_arg_args _ _ v0 1 O0) as A1. exists l, (zero_at 1 (null_at (is_pointer i 0) 0 l)).
          split; [exact (with_args_trans _ _ _ _ _ _ A0 A1)|]. clear -NC. destruct l as [|a [|b l]]; cbn.
          -- constructor.
          -- destruct (is_pointer i 0) eqn:Q; cbn; (constructor; [split; [contradiction|intros _; reflexivity]|constructor]).
          -- assert (T : forall k l, places (fun k v v' => match k with 0 => (counting name_of assembly i -> exists w, nulled (is_pointer i 0) v w /\ zeroed w v') /\ (~ counting name_of assembly i -> nulled (is_pointer i 0) v v') | 1 => zeroed v v' | _ => v' = v end) (S (S k)) l l) by (intros k l0; apply places_same; intros [|[|j]] w J; try lia; reflexivity).
             destruct (is_pointer i 0) eqn:Q; destruct b as [| | |[z|]]; cbn; (constructor; [split; [contradiction|intros _; reflexivity]|constructor; [reflexivity|apply T]]).
        * split; [contradiction|]. intros _ Q. exfalso. apply Q. apply WI. reflexivity.
      + split; [intros Q; apply PI in Q; discriminate|]. split; [intros Q; apply WI in Q; discriminate|]. split; [contradiction|reflexivity].
    - assert (NP : ~ printing name_of i) by (intros (n & _ & Q); apply named_iff in Q; [congruence|exact C]).
      destruct (callee_id i) as [g|] eqn:G.
      2:{ assert (NC : forall c, ~ code_of c i) by (intros c (_ & ops & g & O & _); assert (callee_id i = Some g) by (apply callee_some; exists ops; exact O); congruence).
          split; [contradiction|]. split; [intros [(n & _ & Q)|(c & Q & _)]; [apply named_iff in Q; [congruence|exact C]|exfalso; exact (NC c Q)]|]. split; [intros (c & Q & _); exfalso; exact (NC c Q)|reflexivity]. }
      assert (NN : name_of g = None) by (unfold callee_name in E; rewrite G in E; exact E).
      apply callee_some in G as (l & O).
      destruct (assembly g) as [code|] eqn:A.
      2:{ assert (NC : forall c, ~ code_of c i) by (intros c (_ & ops & g' & O' & _ & Q); rewrite O in O'; apply app_inj_tail in O' as [_ O']; injection O' as ->; congruence).
          split; [contradiction|]. split; [intros [(n & _ & Q)|(c & Q & _)]; [apply named_iff in Q; [congruence|exact C]|exfalso; exact (NC c Q)]|]. split; [intros (c & Q & _); exfalso; exact (NC c Q)|reflexivity]. }
      assert (CO : code_of code i) by (split; [apply is_call_iff; exact C|exists l, g; auto]). cbv zeta.
      assert (WI : warning name_of assembly i <-> contains code "__bug_table" = true).
      { rewrite contains_spec. split; [intros [(n & _ & Q)|(c & Q & H)]; [exfalso; exact (by_name_code n code i Q CO)|rewrite (code_one code c i CO Q); exact H]|intros H; right; exists code; auto]. }
      assert (KI : counting name_of assembly i <-> contains code ".discard.reachable" || contains code ".discard.unreachable" = true).
      { rewrite orb_true_iff, !contains_spec. split; [intros (c & Q & H); rewrite (code_one code c i CO Q); exact H|intros H; exists code; auto]. }
      split; [contradiction|].
      assert (TZ : forall k l, places (fun k v v' => match k with 0 => zeroed v v' | _ => v' = v end) (S k) l l) by (intros k l0; apply places_same; intros [|j] w J; [lia|reflexivity]).
      destruct (contains code "__bug_table") eqn:W.
      + split; [|split; [intros _ Q; exfalso; apply Q; apply WI; reflexivity|intros _ Q; exfalso; apply Q; apply WI; reflexivity]]. intros _ _.
        pose proof (null_arg_args i l _ 0 O) as A0. destruct (args_last _ _ _ _ A0) as (v0 & O0). pose proof (zero_arg_args _ _ v0 1 O0) as A1. pose proof (with_args_trans _ _ _ _ _ _ A0 A1) as A2.
        assert (T : forall k l, places (fun k v v' => match k with 0 => (counting name_of assembly i -> exists w, nulled (is_pointer i 0) v w /\ zeroed w v') /\ (~ counting name_of assembly i -> nulled (is_pointer i 0) v v') | 1 => zeroed v v' | _ => v' = v end) (S (S k)) l l) by (intros k l0; apply places_same; intros [|[|j]] w J; try lia; reflexivity).
        destruct (contains code ".discard.reachable" || contains code ".discard.unreachable") eqn:K.
        * destruct (args_last _ _ _ _ A2) as (v2 & O2). pose proof (zero_arg_args _ _ v2 0 O2) as A3. exists l, (zero_at 0 (zero_at 1 (null_at (is_pointer i 0) 0 l))). split; [exact (with_args_trans _ _ _ _ _ _ A2 A3)|].
          assert (KC : counting name_of assembly i) by (apply KI; reflexivity). clear -T KC. destruct l as [|a [|b l]]; cbn.
          -- constructor.
          -- destruct (is_pointer i 0) eqn:Q; [cbn; constructor; [split; [intros _; exists null; split; reflexivity|contradiction]|constructor]|].
             destruct a as [| | |[z|]]; cbn; (constructor; [split; [intros _; eexists; split; [reflexivity|reflexivity]|contradiction]|constructor]).
          -- destruct (is_pointer i 0) eqn:Q; [destruct b as [| | |[z|]]; cbn; (constructor; [split; [intros _; exists null; split; reflexivity|contradiction]|constructor; [reflexivity|apply T]])|].
             destruct b as [| | |[z|]]; destruct a as [| | |[y|]]; cbn; (constructor; [split; [intros _; eexists; split; [reflexivity|reflexivity]|contradiction]|constructor; [reflexivity|apply T]]).
        * assert (NC : ~ counting name_of assembly i) by (intros Q; apply KI in Q; discriminate). exists l, (zero_at 1 (null_at (is_pointer i 0) 0 l)). split; [exact A2|]. clear -T NC. destruct l as [|a [|b l]]; cbn.
          -- constructor.
          -- destruct (is_pointer i 0) eqn:Q; cbn; (constructor; [split; [contradiction|intros _; reflexivity]|constructor]).
          -- destruct (is_pointer i 0) eqn:Q; destruct b as [| | |[z|]]; cbn; (constructor; [split; [contradiction|intros _; reflexivity]|constructor; [reflexivity|apply T]]).
      + split; [intros Q; apply WI in Q; discriminate|]. destruct (contains code ".discard.reachable" || contains code ".discard.unreachable") eqn:K.
        * split; [|intros _ _ Q; exfalso; apply Q; apply KI; reflexivity]. intros _ _. exists l, (zero_at 0 l). split; [apply zero_arg_args with (VConst (CGlobal g)); exact O|].
          destruct l as [|a l]; cbn; [constructor|]. destruct a as [| | |[y|]]; cbn; (constructor; [reflexivity|apply TZ]).
        * split; [intros Q; apply KI in Q; discriminate|reflexivity].
  Qed.
End Names.

(** ** Runs *)
Section CallRuns.
  Variable name_of : string -> option string.
  Variable assembly : string -> option string.
  Variable is_pointer : inst -> nat -> bool.
  Notation printing' := (printing name_of). Notation warning' := (warning name_of assembly). Notation counting' := (counting name_of assembly).
  Lemma dec_name L i : (exists n, In n L /\ calls_by_name name_of n i) \/ ~ exists n, In n L /\ calls_by_name name_of n i.
  Proof.
    destruct (is_call i) eqn:C; [|right; intros (n & _ & Q & _); apply is_call_iff in Q; congruence].
    destruct (callee_name name_of i) as [n|] eqn:E; [|right; intros (n & _ & Q); apply named_iff in Q; [congruence|exact C]].
    apply named_iff in E as B; [|exact C]. destruct (in_dec string_dec n L) as [I|I]; [left; exists n; auto|right; intros (n' & I' & Q)]. rewrite <- (by_name_one _ _ _ _ B Q) in I'. contradiction.
  Qed.
  Lemma dec_code (P : string -> bool) i : (exists c, calls_code name_of assembly c i /\ P c = true) \/ ~ exists c, calls_code name_of assembly c i /\ P c = true.
  Proof.
    destruct (is_call i) eqn:C; [|right; intros (n & (Q & _) & _); apply is_call_iff in Q; congruence].
    destruct (callee_id i) as [g|] eqn:G.
    2:{ right. intros (c & (_ & ops & g & O & _) & _). assert (callee_id i = Some g) by (apply callee_some; exists ops; exact O). congruence. }
    apply callee_some in G as (l & O). assert (X : forall c, calls_code name_of assembly c i <-> name_of g = None /\ assembly g = Some c).
    { intros c. split; [intros (_ & ops & g' & O' & H); rewrite O in O'; apply app_inj_tail in O' as [_ O']; injection O' as ->; exact H|intros H; split; [apply is_call_iff; exact C|exists l, g; tauto]]. }
    destruct (name_of g) eqn:NN; [right; intros (c & Q & _); apply X in Q as [Q _]; discriminate|]. destruct (assembly g) as [c|] eqn:A; [|right; intros (c & Q & _); apply X in Q as [_ Q]; discriminate].
    destruct (P c) eqn:PC; [left; exists c; split; [apply X; auto|exact PC]|right; intros (c' & Q & H); apply X in Q as [_ Q]; congruence].
  Qed.
  Lemma cases i : printing' i \/ ~ printing' i /\ (warning' i \/ ~ warning' i /\ (counting' i \/ ~ counting' i)).
  Proof.
    destruct (dec_name ["_dev_info"; "dev_warn"; "dev_err"; "sprintf"; "printk"]%string i) as [P|P]; [left; exact P|right; split; [exact P|]].
    assert (W : warning' i \/ ~ warning' i).
    { destruct (dec_name ["warn_slowpath_null"; "warn_slowpath_fmt"; "__might_sleep"; "__might_fault"; "acpi_ut_predefined_warning"]%string i) as [W|W]; [left; left; exact W|].
      destruct (dec_code (fun c => contains c "__bug_table") i) as [(c & Q & H)|W2]; [left; right; exists c; split; [exact Q|apply contains_spec; exact H]|]. right. intros [Q|(c & Q & H)]; [exact (W Q)|]. apply W2. exists c. split; [exact Q|apply contains_spec; exact H]. }
    destruct W as [W|W]; [left; exact W|right; split; [exact W|]].
    destruct (dec_code (fun c => contains c ".discard.reachable" || contains c ".discard.unreachable") i) as [(c & Q & H)|K].
    - left. exists c. split; [exact Q|]. apply orb_true_iff in H. rewrite !contains_spec in H. exact H.
    - right. intros (c & Q & H). apply K. exists c. split; [exact Q|]. apply orb_true_iff. rewrite !contains_spec. exact H.
  Qed.
  Lemma places_eq (R : nat -> value -> value -> Prop) n k l l' : (forall j v v', n <= j -> R j v v' -> v' = v) -> n <= k -> places R k l l' -> l' = l.
  Proof. intros H L P. induction P as [k|k v v' l l' X P IH]; [reflexivity|]. f_equal; [apply (H k); assumption|apply IH; lia]. Qed.
  Variables (S : semantics) (cs : const -> V S) (args : nat -> V S).
  Lemma eval_eq e e' v : (forall r : nat, false = false -> e r = e' r) -> eval S cs args e v = eval S cs args e' v.
  Proof. intros H. destruct v; cbn; try reflexivity. apply H. reflexivity. Qed.
  Lemma same_matches i : matches S S cs cs args args eq eq eq (fun _ => false) i i.
  Proof.
    assert (M : forall e e' l, erel S S eq (fun _ => false) e e' -> map (eval S cs args e') l = map (eval S cs args e) l) by (intros e e' l E; apply map_ext; intros v; symmetry; apply eval_eq; exact E).
    constructor; try reflexivity.
    - intros _. induction (incoming i) as [|[v b] l IH]; constructor; [|exact IH]. split; [reflexivity|]. intros e e' E. apply eval_eq. exact E.
    - intros _ _ _ e e' m m' E <-. rewrite (M e e' _ E). destruct (exec S _ _ _ m) as [[v n]|]; auto.
    - intros _ e e' E. rewrite (M e e' _ E). destruct (code_eq_ret (i_code i)) as [C|C]; [left; auto|right; auto].
  Qed.
  Lemma args_matches i j l l' : i_code i = Call -> with_args i j l l' ->
    (forall e m, exec S Call (i_rest i) (map (eval S cs args e) (i_ops j)) m = exec S Call (i_rest i) (map (eval S cs args e) (i_ops i)) m) -> matches S S cs cs args args eq eq eq (fun _ => false) i j.
  Proof.
    intros C (E1 & E2 & E3 & v & O & O') X. constructor.
    - congruence.
    - unfold is_debug. rewrite E2. reflexivity.
    - unfold is_phi. rewrite E2. reflexivity.
    - unfold is_terminator. rewrite E2. reflexivity.
    - unfold is_phi. rewrite C. discriminate.
    - intros _ _ _ e e' m m' E <-. rewrite E2, E3, C. cbn [plain]. replace (map (eval S cs args e') (i_ops j)) with (map (eval S cs args e) (i_ops j)) by (apply map_ext; intros w; apply eval_eq; exact E).
      rewrite X. destruct (exec S _ _ _ m) as [[w n]|]; auto.
    - unfold is_terminator. rewrite C. discriminate.
  Qed.
  Lemma map_matches (RV RM RR : _ -> _ -> Prop) dead f h : (forall i, In i (insts f) -> matches S S cs cs args args RV RM RR dead i (h i)) ->
    Forall2 (fun a b => fst a = fst b /\ Forall2 (matches S S cs cs args args RV RM RR dead) (snd a) (snd b)) (f_blocks f) (f_blocks (map_insts h f)).
  Proof.
    intros H. unfold map_insts. cbn [f_blocks]. unfold insts in H. revert H. generalize (f_blocks f). induction l as [|[k b] bs IH]; intros H; [constructor|]. cbn [map]. constructor; [|apply IH; intros i I; apply H; cbn; apply in_or_app; right; exact I].
    split; [reflexivity|]. cbn [snd]. assert (Hb : forall i, In i b -> matches S S cs cs args args RV RM RR dead i (h i)) by (intros i I; apply H; cbn; apply in_or_app; left; exact I). clear -Hb. induction b as [|i b IH]; constructor; [apply Hb; left; reflexivity|apply IH; intros j J; apply Hb; right; exact J].
  Qed.
  Lemma outcomes_eq (a b : outcome (V S) (M S)) : outcomes eq eq a b -> b = a.
  Proof. destruct a, b; cbn; try contradiction; try reflexivity; [intros [-> ->]; reflexivity|intros ->; reflexivity]. Qed.
  Lemma called_val i l v e ops g : i_ops i = l ++ [v] -> i_ops i = ops ++ [VConst (CGlobal g)] -> called_by S cs i (eval S cs args e v).
  Proof. intros E F. exists ops, g. split; [exact F|]. rewrite E in F. apply app_inj_tail in F as [_ ->]. reflexivity. Qed.
  Lemma simplify_runs f n m : no_matter name_of assembly S cs f -> result S cs args (simplify_calls name_of assembly is_pointer f) n m = result S cs args f n m.
  Proof.
    intros (H1 & H2 & H3). apply outcomes_eq. apply (result_match S S cs cs args args eq eq eq (fun _ => false)); [|reflexivity|reflexivity]. apply map_matches. intros i I.
    pose proof (simplify_ok name_of assembly is_pointer i) as (P1 & P2 & P3 & P4). destruct (cases i) as [P|(NP & [W|(NW & [K|NK])])].
    - destruct (P1 P) as (l & A). assert (C : i_code i = Call) by (destruct P as (? & _ & P & _); exact P). assert (OG : exists ops g, i_ops i = ops ++ [VConst (CGlobal g)]) by (destruct P as (? & _ & _ & ops & g & O & _); eauto). destruct OG as (ops & g & OG). apply args_matches with l [VConst (CGlobal "null"); VConst (CGlobal "null")]; [exact C|exact A|]. intros e a. destruct A as (_ & _ & _ & v & O & O'). pose proof (called_val i _ v e _ _ O OG) as CV. rewrite O, O', !map_app. cbn [map]. apply (H1 i); assumption.
    - destruct (P2 W NP) as (l & l' & A & Q). assert (C : i_code i = Call) by (destruct W as [(? & _ & W & _)|(? & (W & _) & _)]; exact W). assert (OG : exists ops g, i_ops i = ops ++ [VConst (CGlobal g)]) by (destruct W as [(? & _ & _ & ops & g & O & _)|(? & (_ & ops & g & O & _) & _)]; eauto). destruct OG as (ops & g & OG). apply args_matches with l l'; [exact C|exact A|]. intros e a. destruct A as (_ & _ & _ & v & O & O'). pose proof (called_val i _ v e _ _ O OG) as CV. rewrite O, O', !map_app.
      inversion Q as [|? x x' r r' _ Q2]; subst; [reflexivity|]. inversion Q2 as [|? y y' t t' _ Q3]; subst; [cbn [map app]; apply (H3 i _ _ []); auto|].
      apply (places_eq _ 2) in Q3; [|intros [|[|j]] z z' J; try lia; auto|lia]. subst t'. cbn [map app]. apply (H2 i); assumption.
    - destruct (P3 K NW) as (l & l' & A & Q). assert (C : i_code i = Call) by (destruct K as (? & (K & _) & _); exact K). assert (OG : exists ops g, i_ops i = ops ++ [VConst (CGlobal g)]) by (destruct K as (? & (_ & ops & g & O & _) & _); eauto). destruct OG as (ops & g & OG). apply args_matches with l l'; [exact C|exact A|]. intros e a. destruct A as (_ & _ & _ & v & O & O'). pose proof (called_val i _ v e _ _ O OG) as CV. rewrite O, O', !map_app.
      inversion Q as [|? x x' r r' _ Q2]; subst; [reflexivity|]. apply (places_eq _ 1) in Q2; [|intros [|j] z z' J; try lia; auto|lia]. subst r'. cbn [map app]. apply (H3 i); auto.
    - rewrite (P4 NP NW NK). apply same_matches.
  Qed.

End CallRuns.

(** ** Copying *)
Section Copies.
  Variable name_of : string -> option string.
  Variable memcpy : string.
  Notation copies := (calls_named name_of "__memcpy").
  Definition copy (i : inst) : inst := if copies i then memcpy_call memcpy i else i.
  Lemma find_inst_iff f r i : NoDup (map i_reg (insts f)) -> find_inst f r = Some i <-> In i (insts f) /\ i_reg i = r.
  Proof.
    intros ND. unfold find_inst. split.
    - intros F. apply find_some in F as [I E]. apply Nat.eqb_eq in E. auto.
    - intros [I E]. induction (insts f) as [|h l IH]; [destruct I|]. cbn [map] in ND. apply NoDup_cons_iff in ND as [N1 N2]. cbn [find]. destruct I as [->|I]; [rewrite E, Nat.eqb_refl; reflexivity|].
      destruct (Nat.eqb_spec (i_reg h) r) as [Q|Q]; [exfalso; apply N1; rewrite Q, <- E; apply in_map; exact I|apply IH; assumption].
  Qed.
  Lemma map_insts_ext h k f : (forall i, In i (insts f) -> h i = k i) -> map_insts h f = map_insts k f.
  Proof.
    intros H. unfold map_insts, insts in *. f_equal. revert H. generalize (f_blocks f). induction l as [|[b x] l IH]; intros H; [reflexivity|]. cbn [map]. f_equal; [|apply IH; intros i I; apply H; cbn; apply in_or_app; right; exact I].
    f_equal. cbn [snd]. apply map_ext_in. intros i I. apply H. cbn. apply in_or_app. left. exact I.
  Qed.
  Lemma insts_map h f : insts (map_insts h f) = map h (insts f).
  Proof. unfold insts, map_insts. cbn [f_blocks]. induction (f_blocks f) as [|[k b] l IH]; [reflexivity|]. cbn. rewrite map_app, IH. reflexivity. Qed.
  Lemma copy_reg i : i_reg (copy i) = i_reg i. Proof. unfold copy. destruct (copies i); reflexivity. Qed.
  Lemma copy_ops i v : In v (i_ops (copy i)) -> In v (i_ops i) \/ v = VConst (CInt 0) \/ v = VConst (CGlobal memcpy).
  Proof.
    unfold copy. destruct (copies i) eqn:C; [|auto]. unfold memcpy_call. cbn [i_ops]. intros I. apply in_app_or in I as [I|[<-|[<-|[]]]]; auto. left. unfold call_args in I.
    assert (X : forall (A : Type) n (l : list A) x, In x (firstn n l) -> In x l) by (intros A n l x J; rewrite <- (firstn_skipn n l); apply in_or_app; left; exact J). apply X in I. clear -I. induction (i_ops i) as [|x [|y l] IH]; [destruct I|destruct I|]. destruct I as [<-|I]; [left; reflexivity|right; apply IH; exact I].
  Qed.
  Lemma unify_shape f : NoDup (map i_reg (insts f)) -> (forall i, In i (insts f) -> calls_by_name name_of "__memcpy" i -> unused f i) -> name_of memcpy <> Some "__memcpy"%string ->
    unify_memcpy name_of memcpy f = map_insts copy f.
  Proof.
    intros ND UN NM. unfold unify_memcpy.
    assert (G : forall todo done, map i_reg (insts f) = done ++ todo ->
      fold_left (unify_one name_of memcpy) todo (map_insts (fun i => if mem (i_reg i) done then copy i else i) f) = map_insts copy f).
    { induction todo as [|r todo IH]; intros done E.
      - cbn [fold_left]. apply map_insts_ext. intros i I. assert (M : mem (i_reg i) done = true) by (apply mem_In; rewrite app_nil_r in E; rewrite <- E; apply in_map; exact I). rewrite M. reflexivity.
      - cbn [fold_left]. set (g := map_insts _ f) at 1. assert (NG : map i_reg (insts g) = map i_reg (insts f)).
        { unfold g. rewrite insts_map, map_map. apply map_ext. intros i. destruct (mem (i_reg i) done); [apply copy_reg|reflexivity]. }
        assert (Ir : In r (map i_reg (insts f))) by (rewrite E; apply in_or_app; right; left; reflexivity). apply in_map_iff in Ir as (i & Er & Ii).
        assert (Nr : ~ In r done) by (rewrite E in ND; apply NoDup_remove_2 in ND; intros Q; apply ND; apply in_or_app; left; exact Q).
        assert (Md : mem r done = false) by (apply not_true_iff_false; rewrite mem_In; exact Nr).
        assert (F : find_inst g r = Some i).
        { apply find_inst_iff; [rewrite NG; exact ND|]. split; [|exact Er]. unfold g. rewrite insts_map. apply in_map_iff. exists i. rewrite Er, Md. auto. }
        replace (unify_one name_of memcpy g r) with (map_insts (fun i0 => if mem (i_reg i0) (done ++ [r]) then copy i0 else i0) f).
        { apply IH. rewrite <- app_assoc. exact E. }
        assert (MM : forall x, mem x (done ++ [r]) = mem x done || Nat.eqb x r).
        { intros x. apply eq_true_iff_eq. rewrite orb_true_iff, !mem_In, Nat.eqb_eq, in_app_iff. cbn. intuition. }
        assert (One : forall j, In j (insts f) -> i_reg j = r -> j = i) by (intros j J Q; assert (X : find_inst f r = Some j) by (apply find_inst_iff; auto); assert (Y : find_inst f r = Some i) by (apply find_inst_iff; auto); congruence).
        unfold unify_one. rewrite F. destruct (copies i) eqn:C.
        + unfold g. rewrite !map_insts_map. apply map_insts_ext. intros j J.
          assert (UI : unused f i) by (apply UN; [exact Ii|apply calls_named_iff; exact C]).
          assert (RG : forall k, i_reg (if mem (i_reg k) done then copy k else k) = i_reg k) by (intros k; destruct (mem (i_reg k) done); [apply copy_reg|reflexivity]).
          rewrite RG, MM. assert (RV0 : forall k, (forall v, In v (i_ops k) -> v <> VReg r) -> replace_value (VReg r) (op 1 i) k = k).
          { intros [kr kc krest ko] H. unfold replace_value. cbn [i_reg i_code i_rest i_ops] in *. f_equal. rewrite <- (map_id ko) at 2. apply map_ext_in. intros v V. destruct (PyBase.eqb_spec v (VReg r)) as [Q|Q]; [exfalso; exact (H v V Q)|reflexivity]. }
          assert (NJ : forall v, In v (i_ops j) -> v <> VReg r) by (intros v V ->; apply (UI j J); rewrite Er; exact V).
          assert (NCJ : forall v, In v (i_ops (copy j)) -> v <> VReg r) by (intros v V; apply copy_ops in V as [V|[->| ->]]; [apply NJ; exact V|discriminate|discriminate]).
          destruct (Nat.eqb_spec (i_reg j) r) as [Q|Q].
          * rewrite Q, Md. cbn [orb]. rewrite (One j J Q) in *. replace (copy i) with (memcpy_call memcpy i) in * by (unfold copy; rewrite C; reflexivity). symmetry. apply RV0. exact NCJ.
          * rewrite orb_false_r. destruct (mem (i_reg j) done); symmetry; apply RV0; assumption.
        + unfold g. apply map_insts_ext. intros j J. rewrite MM. destruct (Nat.eqb_spec (i_reg j) r) as [Q|Q]; [|rewrite orb_false_r; reflexivity]. rewrite Q, Md. cbn [orb]. rewrite (One j J Q). unfold copy. rewrite C. reflexivity. }
    rewrite <- (G (map i_reg (insts f)) []); [|reflexivity]. cbn [mem]. rewrite map_insts_id. reflexivity.
  Qed.
  Variables (S : semantics) (cs : const -> V S) (args : nat -> V S).
  Lemma copy_runs f n m : (forall i, In i (insts f) -> calls_by_name name_of "__memcpy" i -> unused f i /\ length (i_ops i) = 4) -> same_copy name_of S cs f memcpy ->
    outcomes eq eq (result S cs args f n m) (result S cs args (map_insts copy f) n m).
  Proof.
    intros H X. pose (dead := fun r => existsb (fun i => copies i && Nat.eqb (i_reg i) r) (insts f)).
    apply (result_match S S cs cs args args eq eq eq dead); [|reflexivity|reflexivity]. apply map_matches. intros i I.
    assert (EV : forall e e' v, erel S S eq dead e e' -> In v (i_ops i) -> eval S cs args e' v = eval S cs args e v).
    { intros e e' v E J. destruct v as [k|r|b|c]; cbn; try reflexivity. symmetry. apply E. unfold dead. apply not_true_iff_false. intros Q. apply existsb_exists in Q as (k & K & Q). apply andb_true_iff in Q as [Q1 Q2]. apply Nat.eqb_eq in Q2. apply calls_named_iff in Q1. destruct (H k K Q1) as [U _]. apply (U i I). rewrite Q2. exact J. }
    assert (EM : forall e e' l, erel S S eq dead e e' -> incl l (i_ops i) -> map (eval S cs args e') l = map (eval S cs args e) l) by (intros e e' l E J; apply map_ext_in; intros v V; apply EV; [exact E|apply J; exact V]).
    unfold copy. destruct (copies i) eqn:C.
    - apply calls_named_iff in C as B. destruct (H i I B) as [UI LE]. destruct B as (CC & ops & g & O & NG).
      destruct ops as [|a [|b [|c [|d ops]]]]; rewrite O in LE; cbn in LE; try lia; [|rewrite app_length in LE; cbn in LE; lia]. clear LE.
      assert (MC : memcpy_call memcpy i = mkInst (i_reg i) Call "" [a; b; c; VConst (CInt 0); VConst (CGlobal memcpy)]) by (unfold memcpy_call, call_args; rewrite O; reflexivity). rewrite MC.
      constructor; cbn [i_reg i_code i_rest i_ops]; try reflexivity.
      + unfold is_debug. rewrite CC. reflexivity.
      + unfold is_phi. rewrite CC. reflexivity.
      + unfold is_terminator. rewrite CC. reflexivity.
      + unfold is_phi. rewrite CC. discriminate.
      + intros _ _ _ e e' m1 m2 E <-. rewrite CC. cbn [plain].
        assert (A3 : map (eval S cs args e') [a; b; c] = map (eval S cs args e) [a; b; c]) by (apply EM; [exact E|rewrite O; intros v V; apply in_or_app; left; exact V]). injection A3 as A1 A2 A3.
        rewrite O. cbn [map app eval]. rewrite A1, A2, A3. pose proof (X i [a; b; c] g (eval S cs args e a) (eval S cs args e b) (eval S cs args e c) m1 I (proj1 (calls_named_iff _ _ _) C) O) as Q.
        assert (D : dead (i_reg i) = true) by (apply existsb_exists; exists i; rewrite C, Nat.eqb_refl; auto).
        destruct (exec S Call (i_rest i) _ m1) as [[v k]|], (exec S Call "" _ m1) as [[v' k']|]; cbn in Q; try discriminate; [|exact Logic.I]. injection Q as ->. split; [congruence|reflexivity].
      + unfold is_terminator. rewrite CC. discriminate.
    - constructor; try reflexivity.
      + intros P. unfold incoming in *. destruct (i_code i); try constructor. assert (IC : incl (i_ops i) (i_ops i)) by apply incl_refl. revert from IC. generalize (i_ops i) at 1 3 4. intros l. clear P. induction l as [|v l IH]; intros [|b0 from] IC; try constructor; [split; [reflexivity|]|].
        * intros e e' E. symmetry. apply EV; [exact E|apply IC; left; reflexivity].
        * apply IH. intros z Z. apply IC. right. exact Z.
      + intros _ _ _ e e' m1 m2 E <-. rewrite (EM e e' _ E (incl_refl _)). destruct (exec S _ _ _ m1) as [[v k]|]; auto.
      + intros _ e e' E. rewrite (EM e e' _ E (incl_refl _)). destruct (code_eq_ret (i_code i)) as [Q|Q]; [left; auto|right; auto].
  Qed.
  Lemma memcpy_runs f n m : NoDup (map i_reg (insts f)) -> (forall i, In i (insts f) -> calls_by_name name_of "__memcpy" i -> unused f i /\ length (i_ops i) = 4) -> name_of memcpy <> Some "__memcpy"%string ->
    same_copy name_of S cs f memcpy -> result S cs args (unify_memcpy name_of memcpy f) n m = result S cs args f n m.
  Proof. intros ND H NM X. rewrite unify_shape; [|exact ND|intros i I B; apply H; assumption|exact NM]. apply outcomes_eq. apply copy_runs; assumption. Qed.

  (** ** Lifetimes *)
  Lemma lives_iff i : lifetime name_of i = true <-> lives name_of i.
  Proof.
    unfold lifetime, lives. rewrite andb_true_iff. split.
    - intros [C E]. destruct (callee_name name_of i) as [n|] eqn:Q; [|discriminate]. exists n. split; [apply named_iff; assumption|]. apply orb_true_iff in E. rewrite !contains_spec in E. exact E.
    - intros (n & B & T). assert (C : is_call i = true) by (apply is_call_iff; apply B). split; [exact C|]. apply named_iff in B; [|exact C]. rewrite B. apply orb_true_iff. rewrite !contains_spec. exact T.
  Qed.
  Lemma lifetime_kept f : keeps_only (fun i => ~ lives name_of i) f (remove_lifetime name_of f).
  Proof.
    split; [reflexivity|]. split; [reflexivity|]. exists (fun i => negb (lifetime name_of i)). split; [|reflexivity]. intros i _. rewrite negb_true_iff, <- lives_iff. destruct (lifetime name_of i); split; intros; congruence.
  Qed.
  Lemma lifetime_runs f n m : (forall i, In i (insts f) -> lives name_of i -> unused f i) -> (forall i vs a, In i (insts f) -> lives name_of i -> exists v, exec S Call (i_rest i) vs a = Some (v, a)) ->
    result S cs args (remove_lifetime name_of f) n m = result S cs args f n m.
  Proof.
    intros H X. pose proof (slice_runs S cs args f (remove_lifetime name_of f) (fun i => ~ lives name_of i) eq (lifetime_kept f)) as Q.
    assert (same_outcome eq (result S cs args f n m) (result S cs args (remove_lifetime name_of f) n m)) as Z.
    { apply Q; [| | |reflexivity].
      - constructor.
        + intros i vs a a' _ _ _ <-. destruct (exec S _ _ vs a) as [[v k]|]; auto.
        + intros i vs a a' I L <-. assert (LL : lives name_of i) by (destruct (lifetime name_of i) eqn:E; [apply lives_iff; exact E|exfalso; apply L; rewrite <- lives_iff; congruence]). assert (C : i_code i = Call) by (destruct LL as (? & (C & _) & _); exact C).
          destruct (X i vs a I LL) as (v & E). exists v, a. rewrite C. cbn [plain]. auto.
      - intros i _ T (n0 & (C & _) & _). unfold is_terminator in T. rewrite C in T. discriminate.
      - intros i d I D _ U L. apply (H d D L i I). exact U. }
    destruct (result S cs args f n m), (result S cs args (remove_lifetime name_of f) n m); cbn in Z; try contradiction; try reflexivity; [destruct Z as [-> ->]; reflexivity|rewrite Z; reflexivity].
  Qed.
End Copies.
