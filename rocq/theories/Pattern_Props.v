(** * C111-C115: custom patterns of differences.
    C111: what is loaded from the module of a pattern; C112: value patterns; C113: what the
    match of one side means; C114: code that contains a pattern is matched; C115: what the match
    of both sides means for the comparison. *)
From Coq Require Import String Ascii ZArith Arith Bool Lia List.
From Verif Require Import PyBase Funcomp_Model Source_Model Pattern_Model Pattern_Spec Pattern_Frame Pattern_Find Pattern_Sides Pattern_Load.
Import ListNotations.
Open Scope list_scope.
Open Scope nat_scope.

(** ** C111: loading *)

(** The marks of the instructions are those that the module gives; the pattern ends where the
    module says so and, if it says nothing, at its outputs. *)
Theorem C111_marks f md i : NoDup (map i_reg (insts f)) -> In i (insts f) ->
  let has g := flag (l_meta (load_side f md)) g i = true in
  (has m_start <-> marked md i "pattern-start") /\
  (has m_group <-> marked md i "group-start") /\
  (has m_group_end <-> marked md i "group-end") /\
  (has m_noname <-> marked md i "disable-name-comparison") /\
  (has m_noinput <-> marked md i "not-an-input") /\
  (has m_novalue <-> marked md i "no-value-pattern-detection") /\
  (has m_end <-> marked md i "pattern-end" \/
     ((forall j, In j (insts f) -> ~ marked md j "pattern-end") /\ first_with (fun j => exists outs, gives_outputs j outs) (insts f) i)).
Proof.
  intros N I has. unfold has.
  assert (U : forall g n, unend g -> reads g n -> (flag (l_meta (load_side f md)) g i = true <-> marked md i n)).
  { intros g n Ug R. rewrite (load_side_flag f md N g i I Ug). apply isf_marked. exact R. }
  repeat split; try (apply (U _ _); [split; [intros []; reflexivity|reflexivity]|intros ops; reflexivity]).
  all: rewrite (load_side_end f md N i I), (isf_marked _ _ _ _ reads_end).
  - intros [H|[H F]]; [left; exact H|right]. split.
    + intros j Hj. apply (isf_unmarked _ _ _ _ reads_end). apply H. exact Hj.
    + apply (find_first is_output); [apply is_output_spec|exact F].
  - intros [H|[H F]]; [left; exact H|right]. split.
    + intros j Hj. apply (isf_unmarked _ _ _ _ reads_end). apply H. exact Hj.
    + apply (find_first is_output) in F; [exact F|apply is_output_spec].
Qed.
Print Assumptions C111_marks.

(** It starts at the first instruction marked so, or else at the first of the function. *)
Theorem C111_start f md : NoDup (map i_reg (insts f)) ->
  (forall i, first_with (fun j => marked md j "pattern-start") (insts f) i -> l_start (load_side f md) = Some (i_reg i)) /\
  ((forall j, In j (insts f) -> ~ marked md j "pattern-start") ->
   forall b i l bs, f_blocks f = (b, i :: l) :: bs -> l_start (load_side f md) = Some (i_reg i)).
Proof.
  intros N. rewrite (load_side_start f md N). split.
  - intros i F. apply (find_first (isf m_start md)) in F; [rewrite F; reflexivity|]. intros y. apply isf_marked. exact reads_start.
  - intros H b i l bs E. assert (Q : find (isf m_start md) (insts f) = None).
    { apply find_none_all. intros x Hx. apply (isf_unmarked _ _ _ _ reads_start). apply H. exact Hx. }
    rewrite Q. unfold entry. rewrite E. reflexivity.
Qed.
Print Assumptions C111_start.

(** The inputs are the arguments and what comes before the start, unless it is a terminator or
    marked as not an input. *)
Theorem C111_inputs f md v : NoDup (map i_reg (insts f)) ->
  (In v (l_inputs (load_side f md)) <->
   (exists k, v = VArg k /\ k < f_args f) \/
   exists a i b, insts f = a ++ i :: b /\ v = VReg (i_reg i) /\ is_terminator i = false /\ ~ marked md i "not-an-input" /\
     forall j, In j (a ++ [i]) -> ~ marked md j "pattern-start").
Proof.
  intros N. rewrite (load_side_inputs f md N). unfold arguments, input_at. rewrite in_map_iff. split.
  - intros [(k & <- & H)|(a & i & b & A & B & C & D & E)].
    + left. exists k. apply in_seq in H. split; [reflexivity|lia].
    + right. exists a, i, b. repeat split; auto; [apply (isf_unmarked _ _ _ _ reads_noinput); exact D|].
      intros j Hj. apply (isf_unmarked _ _ _ _ reads_start). apply E. exact Hj.
  - intros [(k & -> & H)|(a & i & b & A & B & C & D & E)].
    + left. exists k. split; [reflexivity|]. apply in_seq. lia.
    + right. exists a, i, b. repeat split; auto; [apply (isf_unmarked _ _ _ _ reads_noinput); exact D|].
      intros j Hj. apply (isf_unmarked _ _ _ _ reads_start). apply E. exact Hj.
Qed.
Print Assumptions C111_inputs.

(** The outputs of a function: the operands of the first instruction that gives outputs. *)
Definition outputs_of (f : func) (outs : list value) : Prop :=
  (exists o, first_with (fun i => exists x, gives_outputs i x) (insts f) o /\ gives_outputs o outs) \/
  ((forall o x, In o (insts f) -> ~ gives_outputs o x) /\ outs = []).
Lemma outputs_of_load f md outs : NoDup (map i_reg (insts f)) -> outputs_of f outs -> outputs (load_side f md) = outs.
Proof.
  intros N [(o & F & G)|[H ->]]; [eapply outputs_spec; eauto|apply no_outputs_spec; auto].
Qed.
(** A pattern is made of two functions when they have as many arguments and as many outputs, and
    all outputs are instructions; the arguments and the outputs are paired in their order. *)
Theorem C111_pattern name fl fr ml mr outl outr :
  NoDup (map i_reg (insts fl)) -> NoDup (map i_reg (insts fr)) -> entry fl <> [] -> entry fr <> [] ->
  outputs_of fl outl -> outputs_of fr outr ->
  ((exists p, load_ipattern name fl fr ml mr = Some p) <->
   f_args fl = f_args fr /\ length outl = length outr /\ forall v, In v outl \/ In v outr -> exists k, v = VReg k) /\
  (forall p, load_ipattern name fl fr ml mr = Some p ->
    ip_name p = name /\ ip_L p = fl /\ ip_R p = fr /\
    ip_metaL p = l_meta (load_side fl ml) /\ ip_metaR p = l_meta (load_side fr mr) /\
    ip_inL p = l_inputs (load_side fl ml) /\ ip_inR p = l_inputs (load_side fr mr) /\
    l_start (load_side fl ml) = Some (ip_startL p) /\ l_start (load_side fr mr) = Some (ip_startR p) /\
    (forall a b, In (a, b) (ip_args p) <-> exists k, k < f_args fl /\ a = VArg k /\ b = VArg k) /\
    (forall a b, dget (ip_out p) a = Some b -> exists k, nth_error outl k = Some (VReg a) /\ nth_error outr k = Some (VReg b)) /\
    (forall a, In (VReg a) outl -> exists b, dget (ip_out p) a = Some b) /\
    (NoDup outl -> forall k a b, nth_error outl k = Some (VReg a) -> nth_error outr k = Some (VReg b) -> dget (ip_out p) a = Some b)).
Proof.
  intros NL NR EL ER OL OR.
  assert (SL : exists s, l_start (load_side fl ml) = Some s).
  { rewrite (load_side_start fl ml NL). destruct (find (isf m_start ml) (insts fl)) as [i|]; [eauto|]. destruct (entry fl) as [|i l]; [congruence|eauto]. }
  assert (SR : exists s, l_start (load_side fr mr) = Some s).
  { rewrite (load_side_start fr mr NR). destruct (find (isf m_start mr) (insts fr)) as [i|]; [eauto|]. destruct (entry fr) as [|i l]; [congruence|eauto]. }
  destruct SL as [sl SL]. destruct SR as [sr SR].
  unfold load_ipattern. rewrite (outputs_of_load fl ml outl NL OL), (outputs_of_load fr mr outr NR OR), SL, SR.
  destruct (Nat.eqb_spec (f_args fl) (f_args fr)) as [EA|EA]; cbn [negb].
  2:{ split; [|discriminate]. split; [intros [p H]; discriminate|intros [H _]; contradiction]. }
  destruct (Nat.eqb_spec (length outl) (length outr)) as [EO|EO]; cbn [negb].
  2:{ split; [|discriminate]. split; [intros [p H]; discriminate|intros (_ & H & _); contradiction]. }
  destruct (map_outputs outl outr []) as [out|] eqn:MO.
  2:{ split; [|discriminate]. split; [intros [p H]; discriminate|]. intros (_ & _ & H).
      destruct (map_outputs_total outl outr [] H) as [r Hr]. congruence. }
  destruct (map_outputs_spec _ _ _ _ EO MO) as (P & Q & R & _). split; [split; eauto|].
  intros p H. injection H as <-. cbn.
  assert (CN : forall (A B : Type) (l : list A) (r : list B) x y, In (x, y) (combine l r) <-> exists k, nth_error l k = Some x /\ nth_error r k = Some y).
  { clear. intros A B l. induction l as [|u l IH]; intros r x y; cbn.
    - split; [tauto|]. intros ([|k] & H & _); discriminate.
    - destruct r as [|w r]; cbn.
      + split; [tauto|]. intros ([|k] & _ & H); discriminate.
      + rewrite IH. split.
        * intros [E|(k & E1 & E2)]; [injection E as <- <-; exists 0; auto|exists (S k); auto].
        * intros ([|k] & E1 & E2); cbn in E1, E2; [left; congruence|right; exists k; auto]. }
  repeat split; auto.
  - rewrite CN. unfold arguments. intros (k & A & B). rewrite <- EA in B. assert (L : k < f_args fl).
    { assert (X : nth_error (map VArg (seq 0 (f_args fl))) k <> None) by congruence. apply nth_error_Some in X. rewrite map_length, seq_length in X. exact X. }
    exists k. split; [exact L|]. rewrite (map_nth_error VArg k (seq 0 (f_args fl)) (d := k)) in A, B.
    + injection A as <-. injection B as <-. auto.
    + rewrite (nth_error_nth' _ 0) by (rewrite seq_length; exact L). rewrite seq_nth by exact L. reflexivity.
    + rewrite (nth_error_nth' _ 0) by (rewrite seq_length; exact L). rewrite seq_nth by exact L. reflexivity.
  - intros (k & L & -> & ->). rewrite CN. exists k. unfold arguments. rewrite <- EA.
    assert (X : nth_error (seq 0 (f_args fl)) k = Some k) by (rewrite (nth_error_nth' _ 0) by (rewrite seq_length; exact L); rewrite seq_nth by exact L; reflexivity).
    rewrite (map_nth_error VArg k _ X). auto.
  - intros a b H. apply Q in H. destruct H as [H|H]; [discriminate|]. apply CN in H. exact H.
  - intros a H. apply In_nth_error in H. destruct H as [k H]. destruct (nth_error outr k) as [w|] eqn:W.
    + destruct (P w (or_intror (nth_error_In _ _ W))) as [b ->].
      assert (M := R a b (proj2 (CN _ _ _ _ _ _) (ex_intro _ k (conj H W)))). unfold dmem in M. destruct (dget out a) as [c|]; [eauto|discriminate].
    + exfalso. apply nth_error_None in W. assert (X : nth_error outl k <> None) by congruence. apply nth_error_Some in X. lia.
  - intros ND k a b A B. assert (M := R a b (proj2 (CN _ _ _ _ _ _) (ex_intro _ k (conj A B)))). unfold dmem in M.
    destruct (dget out a) as [c|] eqn:G; [|discriminate]. destruct (Q a c G) as [X|X]; [discriminate|]. apply CN in X. destruct X as (j & J1 & J2).
    assert (j = k) as ->. { rewrite NoDup_nth_error in ND. apply ND; [apply nth_error_Some; congruence|congruence]. }
    congruence.
Qed.
Print Assumptions C111_pattern.

(** Which functions of the module are patterns, and of which kind. *)
Definition is_value_pair (l r : pside) : Prop :=
  exists fl fr i j, ps_func l = Some fl /\ ps_func r = Some fr /\ entry fl = [i] /\ entry fr = [j] /\
    ~ marked (ps_md l) i "no-value-pattern-detection" /\ ~ marked (ps_md r) j "no-value-pattern-detection".
Lemma is_value_pattern_spec fl fr ml mr : is_value_pattern fl fr ml mr = true <-> is_value_pair (mkSide (Some fl) ml) (mkSide (Some fr) mr).
Proof.
  unfold is_value_pattern, is_value_pair. cbn. change no_detection with (isf m_novalue). split.
  - intros H. destruct (entry fl) as [|i [|]] eqn:A; try discriminate. destruct (entry fr) as [|j [|]] eqn:B; try discriminate.
    apply andb_true_iff in H. destruct H as [H K]. apply negb_true_iff in H, K.
    exists fl, fr, i, j. repeat split; auto; apply (isf_unmarked _ _ _ _ reads_novalue); assumption.
  - intros (fl' & fr' & i & j & E1 & E2 & A & B & C & D). injection E1 as <-. injection E2 as <-. rewrite A, B.
    apply andb_true_iff. split; apply negb_true_iff; apply (isf_unmarked _ _ _ _ reads_novalue); assumption.
Qed.
Lemma drop_prefix x : drop 13 ("diffkemp.old." ++ x)%string = x.
Proof. reflexivity. Qed.
Lemma starts_old n : startswith n prefix_old = true <-> exists x, n = ("diffkemp.old." ++ x)%string.
Proof.
  apply startswith_spec.
Qed.
Theorem C111_functions ptr var (m : dict string pside) n s :
  (* one that is not the old side of a pair is left out *)
  ((ps_func s = None \/ forall x, n = ("diffkemp.old." ++ x)%string -> dget m ("diffkemp.new." ++ x)%string = None) <->
   load_function ptr var m (n, s) = Skipped_function) /\
  (forall x fl r fr, n = ("diffkemp.old." ++ x)%string -> ps_func s = Some fl -> dget m ("diffkemp.new." ++ x)%string = Some r -> ps_func r = Some fr ->
     (* of one instruction each: their first operands are the values *)
     (forall i j, is_value_pair s r -> entry fl = [i] -> entry fr = [j] -> forall a la b lb, i_ops i = a :: la -> i_ops j = b :: lb ->
        load_function ptr var m (n, s) =
        if (negb (ptr a) || global_variable var a) && (negb (ptr b) || global_variable var b) then Loaded_value (mkVPattern x a b) else Rejected) /\
     (* otherwise: a pattern of instructions *)
     (~ is_value_pair s r ->
        load_function ptr var m (n, s) = match load_ipattern x fl fr (ps_md s) (ps_md r) with Some p => Loaded_inst p | None => Rejected end)).
Proof.
  split.
  - unfold load_function. cbn [fst snd]. destruct (ps_func s) as [fl|] eqn:F; [|split; auto].
    destruct (startswith n prefix_old) eqn:S; cbn [negb].
    + apply starts_old in S. destruct S as [x ->]. change (String.length prefix_old) with 13. rewrite drop_prefix. change (prefix_new ++ x)%string with ("diffkemp.new." ++ x)%string.
      destruct (dget m ("diffkemp.new." ++ x)%string) as [r|] eqn:D.
      * split.
        -- intros [H|H]; [discriminate|]. rewrite (H x eq_refl) in D. discriminate.
        -- intros H. exfalso. destruct (ps_func r) as [fr|]; [|discriminate]. destruct (is_value_pattern fl fr (ps_md s) (ps_md r)).
           ++ unfold load_vpattern in H. destruct (entry fl) as [|i [|]]; try discriminate. destruct (entry fr) as [|j [|]]; try discriminate.
              destruct (i_ops i); try discriminate. destruct (i_ops j); try discriminate.
              destruct ((negb (ptr v) || global_variable var v) && (negb (ptr v0) || global_variable var v0)); discriminate.
           ++ destruct (load_ipattern x fl fr (ps_md s) (ps_md r)); discriminate.
      * split; [reflexivity|]. intros _. right. intros y E. assert (y = x) as ->; [|exact D].
        apply (f_equal (drop 13)) in E. rewrite !drop_prefix in E. auto.
    + split; [reflexivity|]. intros _. right. intros x ->. exfalso.
      assert (startswith ("diffkemp.old." ++ x)%string prefix_old = true) by (apply starts_old; eauto). congruence.
  - intros x fl r fr -> F D G. assert (E : load_function ptr var m (("diffkemp.old." ++ x)%string, s) =
      if is_value_pattern fl fr (ps_md s) (ps_md r) then load_vpattern ptr var x fl fr
      else match load_ipattern x fl fr (ps_md s) (ps_md r) with Some p => Loaded_inst p | None => Rejected end).
    { unfold load_function. cbn [fst snd]. rewrite F.
      assert (S : startswith ("diffkemp.old." ++ x)%string prefix_old = true) by (apply starts_old; eauto). rewrite S. cbn [negb].
      change (String.length prefix_old) with 13. rewrite drop_prefix. change (prefix_new ++ x)%string with ("diffkemp.new." ++ x)%string. rewrite D, G. reflexivity. }
    assert (V : is_value_pattern fl fr (ps_md s) (ps_md r) = true <-> is_value_pair s r).
    { rewrite is_value_pattern_spec. destruct s, r. cbn in *. subst. reflexivity. }
    rewrite E. split.
    + intros i j H EI EJ a la b lb A B. rewrite (proj2 V H). unfold load_vpattern. rewrite EI, EJ, A, B. reflexivity.
    + intros H. destruct (is_value_pattern fl fr (ps_md s) (ps_md r)); [exfalso; apply H; apply V; reflexivity|reflexivity].
Qed.
Print Assumptions C111_functions.

(** A module with a pattern: [pat] has an argument less in the new version, [val] is a value
    pattern, and a function that is not part of a pair. *)
Definition bin (o : string) (r : nat) (a b : value) : inst := mkInst r (Binop o) "" [a; b].
Definition ret (r : nat) (a : value) : inst := mkInst r Ret "" [a].
Definition ret_void (r : nat) : inst := mkInst r Ret "" [].
Definition jump (r b : nat) : inst := mkInst r Br "" [VBlock b].
Definition mapping (r : nat) (l : list value) : inst := mkInst r Call "" (l ++ [VConst (CGlobal "diffkemp.output_mapping")]).
Definition old_side : func :=
  mkFunc "" 2 [(0, [bin "add" 1 (VArg 0) (VArg 1); bin "mul" 2 (VReg 1) (VArg 0); bin "sub" 3 (VReg 2) (VReg 1); mapping 4 [VReg 3]; ret_void 5])].
Definition new_side : func :=
  mkFunc "" 2 [(0, [bin "xor" 1 (VArg 0) (VArg 1); ret 2 (VReg 1)])].
Definition old_md : dict nat (list mdop) := [(1, [MString "not-an-input"]); (3, [MString "group-start"; MString "pattern-start"])]%string.
Example C111_met : exists p,
  load_function (fun _ => false) (fun _ => false)
    [("diffkemp.old.p", mkSide (Some old_side) old_md); ("diffkemp.new.p", mkSide (Some new_side) [])]%string
    ("diffkemp.old.p"%string, mkSide (Some old_side) old_md) = Loaded_inst p /\
  ip_inL p = [VArg 0; VArg 1; VReg 2] /\ ip_startL p = 3 /\ ip_startR p = 1 /\ ip_out p = [(3, 1)] /\
  flag (ip_metaL p) m_end (mapping 4 [VReg 3]) = true /\ flag (ip_metaL p) m_end (ret_void 5) = false /\
  NoDup (map i_reg (insts old_side)) /\ outputs_of old_side [VReg 3].
Proof.
  eexists. split; [vm_compute; reflexivity|]. repeat split; [repeat constructor; cbn; intuition discriminate|].
  left. exists (mapping 4 [VReg 3]). split; [|right; split; reflexivity].
  exists [bin "add" 1 (VArg 0) (VArg 1); bin "mul" 2 (VReg 1) (VArg 0); bin "sub" 3 (VReg 2) (VReg 1)], [ret_void 5].
  split; [reflexivity|]. split; [exists [VReg 3]; right; split; reflexivity|].
  intros y [<-|[<-|[<-|[]]]] (x & [[H _]|[H _]]); discriminate.
Qed.

(** With one name that is not known the whole node is dropped: the other marks of the instruction
    do not count. *)
Theorem C111_unknown_refuted : exists f md i, NoDup (map i_reg (insts f)) /\ In i (insts f) /\
  (exists ops, dget md (i_reg i) = Some ops /\ In (MString "pattern-start") ops) /\
  flag (l_meta (load_side f md)) m_start i = false /\ l_start (load_side f md) <> Some (i_reg i).
Proof.
  exists old_side, [(3, [MString "pattern-start"; MString "group"])]%string, (bin "sub" 3 (VReg 2) (VReg 1)).
  split; [repeat constructor; cbn; intuition discriminate|]. split; [cbn; auto|]. split; [eexists; split; [reflexivity|left; reflexivity]|].
  split; [reflexivity|vm_compute; discriminate].
Qed.
Print Assumptions C111_unknown_refuted.
(** A new side that is only declared, and two sides that only return, are not rejected: the code
    reads an entry block, an operand, that do not exist. *)
Theorem C111_undefined_refuted ptr var x fl md r :
  load_function ptr var [("diffkemp.new." ++ x, mkSide None r)]%string ("diffkemp.old." ++ x, mkSide (Some fl) md)%string = Undefined /\
  load_function ptr var [("diffkemp.new." ++ x, mkSide (Some (mkFunc "" 0 [(0, [ret_void 1])])) [])]%string
    ("diffkemp.old." ++ x, mkSide (Some (mkFunc "" 0 [(0, [ret_void 1])])) [])%string = Undefined.
Proof.
  assert (S : startswith ("diffkemp.old." ++ x)%string prefix_old = true) by (apply starts_old; eauto).
  assert (G : forall (s : pside), dget [("diffkemp.new." ++ x, s)]%string (prefix_new ++ x)%string = Some s).
  { intros s. exact (dget_dset_same [] ("diffkemp.new." ++ x)%string s). }
  split; unfold load_function; cbn [fst snd ps_func]; rewrite S; cbn [negb]; change (String.length prefix_old) with 13; rewrite drop_prefix, G; reflexivity.
Qed.
Print Assumptions C111_undefined_refuted.

(** ** C112: value patterns *)

Section Values.
  Variables fl fr : func.
  Variable is_variable : string -> bool.
  Variable local_name : bool -> value -> string.
  Hypothesis NL : NoDup (map i_reg (insts fl)).
  Hypothesis NR : NoDup (map i_reg (insts fr)).
  Definition side_fun (left : bool) : func := if left then fl else fr.
  (** The name of a value: of a global, or of an argument or instruction. *)
  Definition name_of (left : bool) (v : value) : string :=
    match v with VConst (CGlobal n) => n | VConst (CInt _) => ""%string | _ => local_name left v end.
  Definition is_load (left : bool) (v : value) (i : inst) : Prop :=
    In i (insts (side_fun left)) /\ i_code i = Load /\ v = VReg (i_reg i).
  (** The value fits a side of a pattern: the same number, or a load from what has the name of the
      global variable of the pattern. *)
  Inductive value_fits (left : bool) : value -> value -> Prop :=
  | Fits_number z : value_fits left (VConst (CInt z)) (VConst (CInt z))
  | Fits_load v i n : is_load left v i -> is_variable n = true -> names_match (name_of left (op 0 i)) n left = true -> value_fits left v (VConst (CGlobal n)).
  Definition both_globals (v q : value) : Prop := exists a b, v = VConst (CGlobal a) /\ q = VConst (CGlobal b).

  Notation value_compare := (value_compare fl fr is_variable local_name).
  Lemma load_of_spec left v i : load_of fl fr left v = Some i <-> is_load left v i.
  Proof.
    unfold load_of, is_load. change (side_func fl fr left) with (side_fun left). split.
    - destruct (inst_of (side_fun left) v) as [j|] eqn:I; [|discriminate]. intros H. destruct (i_code j) eqn:C; try discriminate.
      injection H as <-. apply inst_of_In in I. tauto.
    - intros (I & C & ->). cbn. assert (F : find_inst (side_fun left) (i_reg i) = Some i).
      { assert (ND : NoDup (map i_reg (insts (side_fun left)))) by (destruct left; assumption).
        unfold find_inst. revert I ND. induction (insts (side_fun left)) as [|x l IH]; intros I ND; [destruct I|]. cbn.
        cbn in ND. apply NoDup_cons_iff in ND. destruct ND as [N R]. destruct I as [->|I]; [rewrite Nat.eqb_refl; reflexivity|].
        destruct (Nat.eqb_spec (i_reg x) (i_reg i)) as [E|_]; [exfalso; apply N; rewrite E; apply in_map; exact I|auto]. }
      rewrite F, C. reflexivity.
  Qed.
  Lemma load_of_none left v : load_of fl fr left v = None -> forall i, ~ is_load left v i.
  Proof. intros H i K. apply load_of_spec in K. congruence. Qed.
  Lemma value_compare_spec p left v : let q := pattern_side p left in
    (value_compare p left v = None <-> both_globals v q) /\ (value_compare p left v = Some true <-> value_fits left v q).
  Proof.
    cbn zeta. unfold Pattern_Model.value_compare. set (q := pattern_side p left). change (value_name local_name) with name_of.
    destruct (load_of fl fr left v) as [i|] eqn:L.
    - assert (K := proj1 (load_of_spec _ _ _) L). assert (V : v = VReg (i_reg i)) by apply K.
      destruct q as [| | |[z|n]].
      1,2,3,4: rewrite V; split; split; try discriminate; try (intros (a & b & E & _); discriminate); intros H; inversion H.
      destruct (is_variable n) eqn:Vn.
      + split; split; try discriminate.
        * intros (a & b & E & _). congruence.
        * intros H. injection H as H. econstructor; eauto.
        * intros H. inversion H as [|? j ? K' V' M]. subst. apply load_of_spec in K'. assert (i = j) as <- by congruence. rewrite M. reflexivity.
      + split; split; try discriminate.
        * intros (a & b & E & _). congruence.
        * intros H. inversion H. congruence.
    - assert (NOT : forall n, ~ (value_fits left v (VConst (CGlobal n)))).
      { intros n H. inversion H as [|? j ? K' V' M]. subst. eapply load_of_none; eauto. }
      destruct v as [| | |[x|x]], q as [| | |[y|y]]; cbn;
        try (split; split; try discriminate; try (intros (a & b & E1 & E2); discriminate); intros H; exfalso; (eapply NOT; exact H) || inversion H; fail).
      + split; split; try discriminate; try (intros (a & b & E1 & E2); discriminate).
        * intros H. injection H as H. apply Z.eqb_eq in H. subst. constructor.
        * intros H. inversion H. subst. rewrite Z.eqb_refl. reflexivity.
      + split; split; try discriminate; eauto.
        * intros _. unfold both_globals. eauto.
        * intros H. exfalso. eapply NOT. exact H.
  Qed.
  (** Two values that differ are taken as equal exactly if a pattern has the first on its old
      side and the second on its new side (and the comparison has paired them, if both are
      loads); nothing is asked of a value pattern about two globals. *)
  Theorem C112_values ps d l r :
    (forall p, In p ps -> ~ both_globals l (vp_L p) /\ ~ both_globals r (vp_R p)) ->
    (exists b, match_values fl fr is_variable local_name ps d l r = Some b) /\
    (match_values fl fr is_variable local_name ps d l r = Some true <->
     exists p, In p ps /\ value_fits true l (vp_L p) /\ value_fits false r (vp_R p) /\
       ((exists i j, is_load true l i /\ is_load false r j) ->
        exists k, dget (d_L d) (true, l) = Some k /\ dget (d_R d) (false, r) = Some k)).
  Proof.
    induction ps as [|p ps IH]; intros H; cbn [match_values].
    - split; [eauto|]. split; [discriminate|]. intros (p & [] & _).
    - destruct (H p (or_introl eq_refl)) as [G1 G2]. destruct (IH (fun q Hq => H q (or_intror Hq))) as [T E]. clear IH.
      destruct (value_compare_spec p true l) as [A1 A2]. destruct (value_compare_spec p false r) as [B1 B2]. cbn in A1, A2, B1, B2.
      assert (SKIP : ~ (value_fits true l (vp_L p) /\ value_fits false r (vp_R p) /\ ((exists i j, is_load true l i /\ is_load false r j) ->
        exists k, dget (d_L d) (true, l) = Some k /\ dget (d_R d) (false, r) = Some k)) ->
        (match_values fl fr is_variable local_name ps d l r = Some true <->
         exists q, In q (p :: ps) /\ value_fits true l (vp_L q) /\ value_fits false r (vp_R q) /\
           ((exists i j, is_load true l i /\ is_load false r j) ->
            exists k, dget (d_L d) (true, l) = Some k /\ dget (d_R d) (false, r) = Some k))).
      { intros N. rewrite E. split; [intros (q & I & Q); exists q; split; [right; exact I|exact Q]|].
        intros (q & [<-|I] & Q); [contradiction|exists q; auto]. }
      destruct (value_compare p true l) as [[|]|] eqn:VL; [| |exfalso; apply G1; apply A1; reflexivity].
      2:{ split; [exact T|]. apply SKIP. intros (Q & _). apply A2 in Q. discriminate. }
      destruct (value_compare p false r) as [[|]|] eqn:VR; [| |exfalso; apply G2; apply B1; reflexivity].
      2:{ split; [exact T|]. apply SKIP. intros (_ & Q & _). apply B2 in Q. discriminate. }
      assert (FL := proj1 A2 eq_refl). assert (FR := proj1 B2 eq_refl).
      assert (YES : forall b : Prop, b -> (Some true = Some true <-> b)) by (intros b Hb; split; auto).
      destruct (load_of fl fr true l) as [i|] eqn:LL; [destruct (load_of fl fr false r) as [j|] eqn:LR|].
      + apply load_of_spec in LL, LR. unfold mapped.
        destruct (dget (d_L d) (true, l)) as [x|] eqn:DL; [destruct (dget (d_R d) (false, r)) as [y|] eqn:DR; [destruct (Nat.eqb_spec x y) as [->|NE]|]|].
        * split; [eauto|]. apply YES. exists p. split; [left; reflexivity|]. repeat split; auto. intros _. exists y. auto.
        * split; [exact T|]. apply SKIP. intros (_ & _ & Q). destruct Q as (k & K1 & K2); [exists i, j; auto|]. congruence.
        * split; [exact T|]. apply SKIP. intros (_ & _ & Q). destruct Q as (k & K1 & K2); [exists i, j; auto|]. congruence.
        * split; [exact T|]. apply SKIP. intros (_ & _ & Q). destruct Q as (k & K1 & K2); [exists i, j; auto|]. congruence.
      + split; [eauto|]. apply YES. exists p. split; [left; reflexivity|]. repeat split; auto. intros (i' & j & _ & Q). exfalso. eapply load_of_none; eauto.
      + split; [eauto|]. apply YES. exists p. split; [left; reflexivity|]. repeat split; auto. intros (i' & j & Q & _). exfalso. eapply load_of_none; eauto.
  Qed.

  Definition load_fits (left : bool) (r : nat) (q : value) : Prop :=
    exists n, q = VConst (CGlobal n) /\ value_fits left (VReg r) q.
  Lemma match_load_spec p left r : match_load fl fr is_variable local_name p left r = true <-> load_fits left r (pattern_side p left).
  Proof.
    unfold match_load, load_fits. change (value_name local_name) with name_of. destruct (load_of fl fr left (VReg r)) as [i|] eqn:L.
    - destruct (pattern_side p left) as [| | |[z|n]].
      1,2,3,4: split; [discriminate|intros (k & E & _); discriminate].
      rewrite andb_true_iff. split.
      + intros [V M]. exists n. split; [reflexivity|]. econstructor; eauto. apply load_of_spec. exact L.
      + intros (k & _ & F). inversion F as [|? j ? K' V' M]. subst. apply load_of_spec in K'. assert (i = j) as <- by congruence. auto.
    - split; [discriminate|]. intros (n & -> & F). inversion F as [|? j ? K' V' M]. subst. exfalso. eapply load_of_none; eauto.
  Qed.
  (** Of a pair of instructions found different, the loads that a pattern describes are taken
      for matched: by the first pattern that describes one of them; if it describes both, they are
      noted as a pair. *)
  Theorem C112_loads ps l r m :
    (match_value fl fr is_variable local_name ps l r m = None <-> forall p, In p ps -> ~ load_fits true l (vp_L p) /\ ~ load_fits false r (vp_R p)) /\
    (forall p, first_with (fun q => load_fits true l (vp_L q) \/ load_fits false r (vp_R q)) ps p ->
      exists m', match_value fl fr is_variable local_name ps l r m = Some m' /\
        (forall k, In k (all_matches m') <-> In k (all_matches m) \/ (k = (true, VReg l) /\ load_fits true l (vp_L p)) \/ (k = (false, VReg r) /\ load_fits false r (vp_R p))) /\
        (load_fits true l (vp_L p) -> load_fits false r (vp_R p) -> mappings m' = [((true, VReg l), (false, VReg r))]) /\
        (~ (load_fits true l (vp_L p) /\ load_fits false r (vp_R p)) -> mappings m' = mappings m)).
  Proof.
    induction ps as [|p ps [IN IS]]; cbn [match_value].
    - split; [split; [intros _ p []|reflexivity]|]. intros p (a & b & E & _). destruct a; discriminate.
    - assert (A := match_load_spec p true l). assert (B := match_load_spec p false r). cbn in A, B.
      destruct (match_load fl fr is_variable local_name p true l) eqn:Ea; destruct (match_load fl fr is_variable local_name p false r) eqn:Eb; cbn [orb andb].
      4:{ assert (NA : ~ load_fits true l (vp_L p)) by (intros Q; apply A in Q; discriminate).
          assert (NB : ~ load_fits false r (vp_R p)) by (intros Q; apply B in Q; discriminate). split.
          - rewrite IN. split; [intros H q [<-|Hq]; auto|intros H q Hq; apply H; right; exact Hq].
          - intros q (a & b & E & P & N). destruct a as [|x a]; cbn in E; injection E as E1 E2.
            + subst q. tauto.
            + apply IS. exists a, b. split; [exact E2|]. split; [exact P|]. intros y Hy. apply N. right. exact Hy. }
      all: split; [split; [discriminate|]; intros H; exfalso; destruct (H p (or_introl eq_refl)) as [H1 H2]; tauto|].
      all: intros q (a & b & E & P & N); assert (q = p) as -> by
        (destruct a as [|x a]; cbn in E; injection E as E1 E2; [congruence|]; exfalso; apply (N x (or_introl eq_refl)); rewrite <- E1; tauto).
      all: eexists; split; [reflexivity|]; cbn [all_matches mappings]; split; [intros k; rewrite !in_app_iff; cbn; intuition congruence|].
      + split; [reflexivity|]. intros Q. exfalso. apply Q. tauto.
      + split; [|reflexivity]. intros _ Q. apply B in Q. discriminate.
      + split; [|reflexivity]. intros Q. apply A in Q. discriminate.
  Qed.
End Values.
Print Assumptions C112_values.
Print Assumptions C112_loads.
Definition load_from (r : nat) (v : value) : inst := mkInst r Load "" [v].
Definition vl : func := mkFunc "" 1 [(0, [load_from 1 (VConst (CGlobal "limit")); ret 2 (VReg 1)])].
Definition vr : func := mkFunc "" 1 [(0, [load_from 1 (VConst (CGlobal "max")); load_from 2 (VArg 0); ret 3 (VReg 1)])].
Definition no_name : bool -> value -> string := fun _ _ => ""%string.
Definition vp : vpattern := mkVPattern "limit" (VConst (CGlobal "limit")) (VConst (CInt 8)).
Definition vp2 : vpattern := mkVPattern "limit" (VConst (CGlobal "limit")) (VConst (CGlobal "max")).
Definition nothing : numbering := mkN [] [] [].
Definition nomatch : matches := mkMatches [] [].
Example C112_met :
  match_values vl vr (fun _ => true) no_name [vp2; vp] nothing (VReg 1) (VConst (CInt 8)) = Some true /\
  match_values vl vr (fun _ => true) no_name [vp2; vp] nothing (VReg 1) (VConst (CInt 9)) = Some false /\
  match_values vl vr (fun _ => true) no_name [vp2; vp] nothing (VConst (CInt 8)) (VReg 1) = Some false /\
  match_values vl vr (fun _ => true) no_name [vp2; vp] nothing (VReg 1) (VReg 1) = Some false /\
  match_values vl vr (fun _ => true) no_name [vp2; vp] (mkN [((true, VReg 1), 0)] [((false, VReg 1), 0)] []) (VReg 1) (VReg 1) = Some true /\
  match_value vl vr (fun _ => true) no_name [vp2; vp] 1 1 nomatch = Some (mkMatches [(true, VReg 1); (false, VReg 1)] [((true, VReg 1), (false, VReg 1))]) /\
  match_value vl vr (fun _ => true) no_name [vp; vp2] 1 1 nomatch = Some (mkMatches [(true, VReg 1)] []).
Proof. repeat split; reflexivity. Qed.
(** With a pattern for a global, two globals are compared through a null pointer. *)
Theorem C112_globals_refuted a b p ps d r : vp_L p = VConst (CGlobal b) ->
  match_values vl vr (fun _ => true) no_name (p :: ps) d (VConst (CGlobal a)) r = None.
Proof. intros E. cbn. unfold value_compare. cbn. rewrite E. reflexivity. Qed.
Print Assumptions C112_globals_refuted.
(** A load through an argument that has the name of the global is taken for a load of it. *)
Theorem C112_local_refuted : exists name,
  match_value vl vr (fun _ => true) name [mkVPattern "p" (VConst (CInt 1)) (VConst (CGlobal "max"))] 1 2 nomatch <> None /\
  op 0 (load_from 2 (VArg 0)) = VArg 0 /\ In (load_from 2 (VArg 0)) (insts vr).
Proof. exists (fun _ _ => "max"%string). split; [vm_compute; discriminate|]. split; [reflexivity|right; left; reflexivity]. Qed.
Print Assumptions C112_local_refuted.
(** One different load is taken for matched although the other instruction is not in the
    pattern. *)
Theorem C112_one_side_refuted : exists m', match_value vl vr (fun _ => true) no_name [vp] 1 2 nomatch = Some m' /\
  In (true, VReg 1) (all_matches m') /\ ~ load_fits vl vr (fun _ => true) no_name false 2 (vp_R vp).
Proof.
  eexists. split; [reflexivity|]. split; [left; reflexivity|]. intros (n & E & _). discriminate.
Qed.
Print Assumptions C112_one_side_refuted.

(** ** C113: what the match of one side means *)

(** Every matched instruction does what its counterpart in the pattern does, on values that stand
    for those of the pattern: constants for corresponding constants, and for each input of the
    pattern everywhere the same value.  So it is of every pair of matched sides, whatever the
    control flow. *)
Definition match_is_instance (same_rest : string -> string -> bool) (left : bool) (mf pf : func) (inputs : list value) (s : mstate) : Prop :=
  forall q r, matched s q r -> exists m p, In m (insts mf) /\ In p (insts pf) /\ i_reg m = r /\ i_reg p = q /\
    instance_of same_rest (stands_for left inputs (dget (pim s))) m p /\ stands_for left inputs (dget (pim s)) (VReg r) (VReg q).
Theorem C113_matched same_rest struct_gep fl fr mul mur pul pur p l r d sl sr :
  try_pattern same_rest struct_gep fl fr mul mur pul pur p l r d = Some (sl, sr) ->
  match_is_instance same_rest true fl (ip_L p) (ip_inL p) sl /\ match_is_instance same_rest false fr (ip_R p) (ip_inR p) sr.
Proof.
  intros H. destruct (try_pattern_Inv _ _ _ _ _ _ _ _ _ _ _ _ _ _ H) as [A B]. split; intros q x E.
  - exact (A q x E).
  - exact (B q x E).
Qed.
Print Assumptions C113_matched.

(** Where the place of an instruction is. *)
Lemma from_inst_split r a i b : i_reg i = r -> (forall x, In x a -> i_reg x <> r) -> from_inst r (a ++ i :: b) = Some (i :: b).
Proof.
  intros E. induction a as [|x a IH]; intros H; cbn.
  - rewrite E, Nat.eqb_refl. reflexivity.
  - destruct (Nat.eqb_spec (i_reg x) r) as [Q|_]; [exfalso; exact (H x (or_introl eq_refl) Q)|]. apply IH. intros y Hy. apply H. right. exact Hy.
Qed.
Lemma from_inst_none r a : (forall x, In x a -> i_reg x <> r) -> from_inst r a = None.
Proof.
  induction a as [|x a IH]; intros H; cbn; [reflexivity|].
  destruct (Nat.eqb_spec (i_reg x) r) as [Q|_]; [exfalso; exact (H x (or_introl eq_refl) Q)|]. apply IH. intros y Hy. apply H. right. exact Hy.
Qed.
Lemma locate_split (bs1 bs2 : list (nat * list inst)) b a i l : NoDup (map i_reg (flat_map snd (bs1 ++ (b, a ++ i :: l) :: bs2))) ->
  locate (i_reg i) (bs1 ++ (b, a ++ i :: l) :: bs2) = Some (b, i :: l).
Proof.
  intros N. assert (D : forall x, In x (flat_map snd bs1) \/ In x a -> i_reg x <> i_reg i).
  { rewrite flat_map_app in N. cbn [flat_map snd] in N. rewrite <- app_assoc in N. cbn in N. rewrite app_assoc, map_app in N. cbn in N.
    apply NoDup_remove_2 in N. intros x Hx E. apply N. apply in_app_iff. left. rewrite <- E. apply in_map. apply in_app_iff. exact Hx. }
  clear N. induction bs1 as [|[c k] bs1 IH]; cbn.
  - rewrite (from_inst_split (i_reg i) a i l eq_refl); [reflexivity|]. intros x Hx. apply D. right. exact Hx.
  - rewrite from_inst_none; [apply IH|].
    + intros x [Hx|Hx]; apply D; [left; cbn; apply in_app_iff; right; exact Hx|right; exact Hx].
    + intros x Hx. apply D. left. cbn. apply in_app_iff. left. exact Hx.
Qed.

(** All instructions of the pattern are matched, from its start up to where its block ends. *)
Theorem C113_covered same_rest struct_gep left mf pf md start s s' bs1 bs2 pb pre body rest :
  compare_side same_rest struct_gep left mf pf (l_meta (load_side pf md)) (l_inputs (load_side pf md))
    (match l_start (load_side pf md) with Some x => x | None => 0 end) start s = (true, s') ->
  NoDup (map i_reg (insts pf)) -> f_blocks pf = bs1 ++ (pb, pre ++ body ++ rest) :: bs2 ->
  (forall i l, body = i :: l -> l_start (load_side pf md) = Some (i_reg i)) ->
  (forall i, In i body -> is_terminator i = false /\ ~ marked md i "pattern-end" /\ forall outs, ~ gives_outputs i outs) ->
  forall i, In i body -> exists m, matched s' (i_reg i) m.
Proof.
  intros C N F ST U i Hi. destruct body as [|p0 body]; [destruct Hi|]. rewrite (ST p0 body eq_refl) in C.
  assert (L : locate (i_reg p0) (f_blocks pf) = Some (pb, p0 :: body ++ rest)).
  { rewrite F. apply locate_split. unfold insts in N. rewrite F in N. exact N. }
  assert (K := compare_side_cover _ _ _ _ _ _ _ _ _ _ _ _ _ C L i).
  assert (Q : In i (core (l_meta (load_side pf md)) (p0 :: body ++ rest))).
  { change (p0 :: body ++ rest) with ((p0 :: body) ++ rest). revert U Hi.
    assert (W : forall x, In x (p0 :: body) -> In x (insts pf)).
    { intros x Hx. unfold insts. rewrite F, flat_map_app. apply in_app_iff. right. cbn [flat_map snd]. apply in_app_iff. left. apply in_app_iff. right. apply in_app_iff. left. exact Hx. }
    revert W. generalize (p0 :: body). intros l. induction l as [|x l IH]; intros W U Hi; [destruct Hi|].
    cbn [core app]. destruct (U x (or_introl eq_refl)) as (T & E & O). rewrite T.
    assert (FE : flag (l_meta (load_side pf md)) m_end x = false).
    { destruct (flag (l_meta (load_side pf md)) m_end x) eqn:Fx; [|reflexivity]. exfalso.
      destruct (C111_marks pf md x N (W x (or_introl eq_refl))) as (_ & _ & _ & _ & _ & _ & G). apply G in Fx. destruct Fx as [Fx|(_ & a & b & _ & (outs & Q) & _)]; [exact (E Fx)|exact (O outs Q)]. }
    rewrite FE. cbn [orb]. destruct Hi as [->|Hi]; [left; reflexivity|]. right. apply IH; auto.
    - intros y Hy. apply W. right. exact Hy.
    - intros y Hy. apply U. right. exact Hy. }
  specialize (K Q). unfold matched. unfold dmem in K. destruct (dget (imm s') (i_reg i)) as [m|]; [eauto|discriminate].
Qed.
Print Assumptions C113_covered.

(** A pattern whose start is not marked: then all its values are inputs, and what is matched is,
    as a whole, the code of the pattern with its values renamed. *)
Definition renamed_values (left : bool) (s : mstate) (a b : value) : Prop :=
  match b with
  | VConst d => exists c, a = VConst c /\ consts_correspond left c d
  | VBlock _ => is_const a = false
  | _ => bound s b a
  end.
(** Operands are arguments, constants, blocks, or instructions that are not terminators. *)
Definition well_formed (f : func) : Prop :=
  forall i o, In i (insts f) -> In o (i_ops i) ->
    match o with
    | VArg k => k < f_args f
    | VReg r => exists j, In j (insts f) /\ i_reg j = r /\ is_terminator j = false
    | _ => True
    end.
Lemma instance_weaken same_rest (S T : value -> value -> Prop) m p : instance_of same_rest S m p ->
  (forall a b, In b (i_ops p) -> S a b -> T a b) -> (forall a, op 0 p = VConst (CInt 0) \/ In (op 0 p) (i_ops p) -> S a (op 0 p) -> T a (op 0 p)) -> instance_of same_rest T m p.
Proof.
  intros H W W0.
  assert (F : forall l r, (forall a b, In b r -> S a b -> T a b) -> Forall2 S l r -> Forall2 T l r).
  { intros l r K FF. induction FF as [|a b l r Hab _ IH]; constructor; [apply K; [left; reflexivity|exact Hab]|]. apply IH. intros x y Hy. apply K. right. exact Hy. }
  destruct H as [A B C D E|x y A B C D|x y A B C D|z A B C].
  - apply Instance_plain; auto.
  - eapply Instance_phi; eauto.
  - eapply Instance_gep; eauto.
  - eapply Instance_offset; eauto. apply W0; [|exact C]. unfold op. destruct (i_ops p) as [|v l]; [left; reflexivity|right; left; reflexivity].
Qed.
Theorem C113_whole same_rest struct_gep left mf pf md startp start s s' :
  NoDup (map i_reg (insts pf)) -> well_formed pf ->
  (forall j, In j (insts pf) -> ~ marked md j "pattern-start" /\ ~ marked md j "not-an-input") ->
  compare_side same_rest struct_gep left mf pf (l_meta (load_side pf md)) (l_inputs (load_side pf md)) startp start s = (true, s') ->
  forall q r, matched s' q r -> exists m p, In m (insts mf) /\ In p (insts pf) /\ i_reg m = r /\ i_reg p = q /\
    instance_of same_rest (renamed_values left s') m p /\ (is_terminator p = false -> bound s' (VReg q) (VReg r)).
Proof.
  intros N W NM C q r H. destruct (compare_side_Inv _ _ _ _ _ _ _ _ _ _ _ C q r H) as (m & p & A & B & D & E & F & G).
  exists m, p. repeat (split; [assumption|]).
  assert (IN : forall i, In i (insts pf) -> is_terminator i = false -> In (VReg (i_reg i)) (l_inputs (load_side pf md))).
  { intros i Hi T. apply C111_inputs; [exact N|]. right. apply in_split in Hi. destruct Hi as (a & b & Ei). exists a, i, b. split; [exact Ei|].
    split; [reflexivity|]. split; [exact T|]. split.
    - apply NM. rewrite Ei. apply in_app_iff. right. left. reflexivity.
    - intros j Hj. apply NM. rewrite Ei. apply in_app_iff in Hj. apply in_app_iff. destruct Hj as [Hj|[<-|[]]]; [left; exact Hj|right; left; reflexivity]. }
  assert (ST : forall a b, In b (i_ops p) -> stands_for left (l_inputs (load_side pf md)) (dget (pim s')) a b -> renamed_values left s' a b).
  { intros a b Hb S. assert (Wb := W p b B Hb). destruct S as [c d K|a b Ka Kb K].
    - cbn. eauto.
    - destruct b as [k|k|k|k]; cbn in Kb |- *; try discriminate; [| |exact Ka].
      + apply K. apply C111_inputs; [exact N|]. left. eauto.
      + destruct Wb as (j & Hj & <- & Tj). apply K. apply IN; assumption. }
  split.
  - apply (instance_weaken same_rest _ _ m p F ST). intros a [Q|Q] S; [|apply ST; assumption]. rewrite Q in *. inversion S as [c d K|? ? Ka Kb]; subst; [cbn; eauto|discriminate].
  - intros T. inversion G as [|? ? _ _ K]; subst. apply K. apply IN; assumption.
Qed.
Print Assumptions C113_whole.

(** Finding what the inputs stand for ends, also in code with loops: more rounds than the model
    gives it change nothing. *)
Theorem C113_inputs_terminate mf pf inputs m p s k :
  map_loop mf pf inputs (map_fuel mf + k) [(m, p)] [m] s = map_loop mf pf inputs (map_fuel mf) [(m, p)] [m] s.
Proof. apply map_loop_fuel. apply map_fuel_enough. Qed.
Print Assumptions C113_inputs_terminate.

(** ** C114: code that contains a pattern is matched *)

Lemma find_inst_self f i : NoDup (map i_reg (insts f)) -> In i (insts f) -> find_inst f (i_reg i) = Some i.
Proof.
  unfold find_inst. induction (insts f) as [|x l IH]; intros ND I; [destruct I|]. cbn.
  cbn in ND. apply NoDup_cons_iff in ND. destruct ND as [N R]. destruct I as [->|I]; [rewrite Nat.eqb_refl; reflexivity|].
  destruct (Nat.eqb_spec (i_reg x) (i_reg i)) as [E|_]; [exfalso; apply N; rewrite E; apply in_map; exact I|auto].
Qed.
Lemma contains_copies same_rest D phi ps ms : contains same_rest D phi ps ms -> forall p, In p ps -> exists m, In m ms /\ copy same_rest phi m p.
Proof.
  induction 1 as [|p ps m ms C _ IH|p ps m ms _ _ _ _ IH]; intros q Hq; [destruct Hq| |].
  - destruct Hq as [<-|Hq]; [exists m; split; [left; reflexivity|exact C]|]. destruct (IH q Hq) as (x & A & B). exists x. split; [right; exact A|exact B].
  - destruct (IH q Hq) as (x & A & B). exists x. split; [right; exact A|exact B].
Qed.
(** A pattern of one block, [pre] before its start, [p0 :: body] to be matched, [e] a return.  If
    from the instruction [m0] on the code contains [p0 :: body] with the values renamed, and also
    copies of the inputs in [pre], the side matches there; each instruction of the pattern is
    matched with its copy, and each input stands for what it is renamed to. *)
Theorem C114_found same_rest struct_gep left mf pf md phi pb mb pre p0 body e mpre m0 ms bs1 bs2 s :
  f_blocks pf = [(pb, pre ++ p0 :: body ++ [e])] -> NoDup (map i_reg (insts pf)) -> i_code e = Ret ->
  (forall i, In i (pre ++ p0 :: body) -> is_terminator i = false /\ forall outs, ~ gives_outputs i outs) ->
  (forall i, In i (insts pf) -> ~ marked md i "pattern-end" /\ ~ marked md i "group-start" /\ ~ marked md i "group-end") ->
  (pre = [] /\ (forall i, In i (insts pf) -> ~ marked md i "pattern-start")) \/ (marked md p0 "pattern-start" /\ forall i, In i pre -> ~ marked md i "pattern-start") ->
  in_order (p0 :: body) ->
  renames left (occurring pf pb) phi -> phi (VBlock pb) = VBlock mb ->
  f_blocks mf = bs1 ++ (mb, mpre ++ m0 :: ms) :: bs2 -> NoDup (map i_reg (insts mf)) ->
  (forall i, In i pre -> ~ marked md i "not-an-input" -> exists m, In m (insts mf) /\ copy same_rest phi m i) ->
  copy same_rest phi m0 p0 -> contains same_rest (occurring pf pb) phi body ms ->
  exists startp s', l_start (load_side pf md) = Some startp /\
    compare_side same_rest struct_gep left mf pf (l_meta (load_side pf md)) (l_inputs (load_side pf md)) startp (i_reg m0) s = (true, s') /\
    (forall p, In p (p0 :: body) -> exists m, matched s' (i_reg p) m /\ VReg m = phi (VReg (i_reg p))) /\
    (forall q m, matched s' q m -> VReg m = phi (VReg q)) /\
    (forall v x, bound s' v x -> x = phi v).
Proof.
  intros PF NP ER U MK ST OR REN BL MF NM PRE C0 CON.
  assert (IP : insts pf = pre ++ p0 :: body ++ [e]) by (unfold insts; rewrite PF; cbn; rewrite app_nil_r; reflexivity).
  assert (INB : forall i, In i (pre ++ p0 :: body) -> In i (insts pf)).
  { intros i Hi. rewrite IP. change (pre ++ p0 :: body ++ [e]) with (pre ++ (p0 :: body) ++ [e]). rewrite app_assoc. apply in_app_iff. left. exact Hi. }
  assert (INE : In e (insts pf)) by (rewrite IP; apply in_app_iff; right; right; apply in_app_iff; right; left; reflexivity).
  assert (SP : l_start (load_side pf md) = Some (i_reg p0)).
  { destruct (C111_start pf md NP) as [A B]. destruct ST as [[-> ST]|[M ST]].
    - eapply B; [exact ST|]. exact PF.
    - apply A. exists pre, (body ++ [e]). split; [exact IP|]. split; [exact M|exact ST]. }
  assert (LP : locate (i_reg p0) (f_blocks pf) = Some (pb, (p0 :: body) ++ [e])).
  { rewrite PF. apply (locate_split [] []). cbn. rewrite app_nil_r. rewrite <- IP. exact NP. }
  assert (LM : locate (i_reg m0) (f_blocks mf) = Some (mb, m0 :: ms)).
  { rewrite MF. apply locate_split. unfold insts in NM. rewrite MF in NM. exact NM. }
  assert (MSI : forall x, In x (m0 :: ms) -> In x (insts mf)).
  { intros x Hx. unfold insts. rewrite MF, flat_map_app. apply in_app_iff. right. cbn [flat_map snd]. apply in_app_iff. left. apply in_app_iff. right. exact Hx. }
  assert (TE : is_terminator e = true) by (unfold is_terminator; rewrite ER; reflexivity).
  assert (EE : flag (l_meta (load_side pf md)) m_end e = true).
  { apply (C111_marks pf md e NP INE). right. split; [intros j Hj; apply MK; exact Hj|].
    exists (pre ++ p0 :: body), []. split; [rewrite IP; change (pre ++ p0 :: body ++ [e]) with (pre ++ (p0 :: body) ++ [e]); rewrite app_assoc; reflexivity|].
    split; [exists (i_ops e); left; auto|]. intros y Hy (outs & Q). exact (proj2 (U y Hy) outs Q). }
  assert (IC : forall i, In i (insts pf) -> In (VReg (i_reg i)) (l_inputs (load_side pf md)) -> exists m, inst_of mf (phi (VReg (i_reg i))) = Some m /\ copy same_rest phi m i).
  { intros i Hi Q. apply C111_inputs in Q; [|exact NP]. destruct Q as [(k & Q & _)|(a & j & b & Ea & Eq & Tj & NI & _)]; [discriminate|].
    injection Eq as Eq.
    assert (i = j) as <-.
    { assert (Hj : In j (insts pf)) by (rewrite Ea; apply in_app_iff; right; left; reflexivity).
      assert (A := find_inst_self pf i NP Hi). assert (B := find_inst_self pf j NP Hj). rewrite Eq in A. congruence. }
    assert (X : exists m, In m (insts mf) /\ copy same_rest phi m i).
    { rewrite IP in Hi. apply in_app_iff in Hi. destruct Hi as [Hi|[<-|Hi]].
      - apply PRE; assumption.
      - exists m0. split; [apply MSI; left; reflexivity|exact C0].
      - apply in_app_iff in Hi. destruct Hi as [Hi|[<-|[]]]; [|congruence].
        destruct (contains_copies _ _ _ _ _ CON i Hi) as (m & A & B). exists m. split; [apply MSI; right; exact A|exact B]. }
    destruct X as (m & Im & Cm). exists m. split; [|exact Cm]. assert (Rm : VReg (i_reg m) = phi (VReg (i_reg i))) by apply Cm.
    rewrite <- Rm. cbn. apply find_inst_self; assumption. }
  assert (ID : forall v, In v (l_inputs (load_side pf md)) -> occurring pf pb v).
  { intros v Hv. apply C111_inputs in Hv; [|exact NP]. destruct Hv as [(k & -> & L)|(a & j & b & Ea & -> & _)].
    - right. left. unfold arguments. apply in_map. apply in_seq. lia.
    - right. right. exists j. split; [rewrite Ea; apply in_app_iff; right; left; reflexivity|left; reflexivity]. }
  assert (OD : forall i o, In i (insts pf) -> In o (i_ops i) -> occurring pf pb o).
  { intros i o Hi Ho. right. right. exists i. auto. }
  assert (US : forall p, In p (p0 :: body) -> is_terminator p = false /\ flag (l_meta (load_side pf md)) m_end p = false /\ flag (l_meta (load_side pf md)) m_group p = false /\ flag (l_meta (load_side pf md)) m_group_end p = false).
  { intros p Hp. assert (Hpp : In p (pre ++ p0 :: body)) by (apply in_app_iff; right; exact Hp). assert (Hpi := INB p Hpp).
    destruct (MK p Hpi) as (K1 & K2 & K3). destruct (C111_marks pf md p NP Hpi) as (_ & G1 & G2 & _ & _ & _ & G3).
    split; [apply (U p Hpp)|].
    assert (NB : forall b : bool, b <> true -> b = false) by (intros []; congruence).
    repeat split; apply NB; intros Q.
    - apply G3 in Q. destruct Q as [Q|(_ & a & b & _ & (outs & Q) & _)]; [exact (K1 Q)|exact (proj2 (U p Hpp) outs Q)].
    - apply G1 in Q. exact (K2 Q).
    - apply G2 in Q. exact (K3 Q). }
  destruct (compare_side_found same_rest struct_gep left mf pf (l_meta (load_side pf md)) (l_inputs (load_side pf md)) (occurring pf pb) phi REN IC ID OD
    pb mb pre (p0 :: body) e (i_reg p0) (i_reg m0) PF ER EE US OR (fun v => iff_refl _) BL p0 m0 body ms eq_refl LP LM C0 CON s) as (s' & E & A).
  exists (i_reg p0), s'. split; [exact SP|]. split; [exact E|].
  assert (IMM : forall q m, matched s' q m -> VReg m = phi (VReg q)) by (intros q m Q; exact (ag_imm _ _ _ _ A q m Q)).
  split; [|split; [exact IMM|intros v x Q; exact (ag_pim _ _ _ _ A v x Q)]].
  intros p Hp. assert (CV : exists m, matched s' (i_reg p) m).
  { assert (E' : compare_side same_rest struct_gep left mf pf (l_meta (load_side pf md)) (l_inputs (load_side pf md)) (match l_start (load_side pf md) with Some x => x | None => 0 end) (i_reg m0) s = (true, s')) by (rewrite SP; exact E).
    apply (C113_covered _ _ _ _ _ _ _ _ _ [] [] pb pre (p0 :: body) [e] E' NP PF); [|
      |exact Hp].
    - intros i l Q. injection Q as <- _. exact SP.
    - intros i Hi. assert (Hpp : In i (pre ++ p0 :: body)) by (apply in_app_iff; right; exact Hi). destruct (U i Hpp) as [U1 U2].
      split; [exact U1|]. split; [apply (MK i (INB i Hpp))|exact U2]. }
  destruct CV as [m CV]. exists m. split; [exact CV|apply IMM; exact CV].
Qed.
Print Assumptions C114_found.

(** The pattern (a + b) * c, and code that contains it. *)
Definition patf : func := mkFunc "" 3 [(0, [bin "add" 1 (VArg 0) (VArg 1); bin "mul" 2 (VReg 1) (VArg 2); ret 3 (VReg 2)])].
Definition pat_in (f : func) (start : nat) : bool * mstate :=
  compare_side String.eqb (fun _ => false) true f patf (l_meta (load_side patf [])) (l_inputs (load_side patf [])) 1 start mstart.
Definition phi0 (v : value) : value :=
  match v with VArg 0 => VArg 3 | VArg 1 => VArg 1 | VArg 2 => VArg 0 | VReg 1 => VReg 10 | VReg 2 => VReg 12 | VReg 3 => VReg 13 | VBlock _ => VBlock 5 | x => x end.
Definition code0 : func :=
  mkFunc "" 4 [(4, [bin "xor" 7 (VArg 0) (VArg 0); jump 8 5]);
               (5, [bin "sub" 9 (VArg 0) (VArg 1); bin "add" 10 (VArg 3) (VArg 1); bin "add" 11 (VReg 10) (VArg 2); bin "mul" 12 (VReg 10) (VArg 0); ret 13 (VReg 12)])].
Lemma pat_occurring v : occurring patf 0 v -> In v [VBlock 0; VArg 0; VArg 1; VArg 2; VReg 1; VReg 2; VReg 3].
Proof.
  intros [->|[H|(i & Hi & H)]]; [left; reflexivity|cbn in H; cbn; tauto|]. cbn in Hi.
  destruct Hi as [<-|[<-|[<-|[]]]]; cbn in H; (destruct H as [->|H]; [|repeat (destruct H as [H|H]; try contradiction; subst)]); cbn; tauto.
Qed.
Lemma pat_renames : renames true (occurring patf 0) phi0.
Proof.
  split.
  - intros a b A B E. apply pat_occurring in A, B. cbn in A, B.
    repeat (destruct A as [A|A]; try contradiction); repeat (destruct B as [B|B]; try contradiction); subst; cbn in E; congruence.
  - intros b B. apply pat_occurring in B. cbn in B. repeat (destruct B as [B|B]; try contradiction); subst; cbn; eauto.
Qed.
Lemma no_marks i n : ~ marked [] i n.
Proof. intros (ops & E & _). discriminate. Qed.
Example C114_met : exists startp s', l_start (load_side patf []) = Some startp /\
  compare_side String.eqb (fun _ => false) true code0 patf (l_meta (load_side patf [])) (l_inputs (load_side patf [])) startp 10 mstart = (true, s') /\
  (forall p, In p [bin "add" 1 (VArg 0) (VArg 1); bin "mul" 2 (VReg 1) (VArg 2)] -> exists m, matched s' (i_reg p) m /\ VReg m = phi0 (VReg (i_reg p))) /\
  (forall q m, matched s' q m -> VReg m = phi0 (VReg q)) /\ (forall v x, bound s' v x -> x = phi0 v).
Proof.
  apply (C114_found String.eqb (fun _ => false) true code0 patf [] phi0 0 5 [] (bin "add" 1 (VArg 0) (VArg 1)) [bin "mul" 2 (VReg 1) (VArg 2)] (ret 3 (VReg 2))
    [bin "sub" 9 (VArg 0) (VArg 1)] (bin "add" 10 (VArg 3) (VArg 1)) [bin "add" 11 (VReg 10) (VArg 2); bin "mul" 12 (VReg 10) (VArg 0); ret 13 (VReg 12)]
    [(4, [bin "xor" 7 (VArg 0) (VArg 0); jump 8 5])] [] mstart); try reflexivity.
  - repeat constructor; cbn; intuition discriminate.
  - intros i [<-|[<-|[]]]; (split; [reflexivity|intros outs [[H _]|[H _]]; discriminate]).
  - intros i _. repeat split; apply no_marks.
  - left. split; [reflexivity|intros i _; apply no_marks].
  - intros a p b E q Hq. destruct a as [|x [|y [|z a]]]; cbn in E; try discriminate; [destruct Hq|].
    injection E as <- <- _. destruct Hq as [<-|[]]. split; [cbn; congruence|cbn; intuition discriminate].
  - exact pat_renames.
  - repeat constructor; cbn; intuition discriminate.
  - intros i [].
  - repeat split.
  - apply Contains_other; [reflexivity|discriminate| |].
    + intros b B. apply pat_occurring in B. cbn in B. repeat (destruct B as [B|B]; try contradiction); subst; discriminate.
    + apply Contains_next; [repeat split|]. apply Contains_end.
Qed.
(** The match is one that C113 speaks of; the pattern is whole. *)
Example C113_met : fst (pat_in code0 10) = true /\ matched (snd (pat_in code0 10)) 2 12 /\ bound (snd (pat_in code0 10)) (VArg 2) (VArg 0) /\
  well_formed patf /\ NoDup (map i_reg (insts patf)) /\
  fst (pat_in (mkFunc "" 3 [(0, [bin "add" 10 (VArg 0) (VArg 1); bin "mul" 12 (VReg 10) (VArg 0); ret 13 (VReg 12)])]) 10) = false /\
  fst (pat_in (mkFunc "" 3 [(0, [bin "add" 10 (VArg 0) (VArg 1); bin "mul" 12 (VArg 2) (VReg 10); ret 13 (VReg 12)])]) 10) = false.
Proof.
  repeat split; try reflexivity.
  - intros i o Hi Ho. cbn in Hi. destruct Hi as [<-|[<-|[<-|[]]]]; cbn in Ho; repeat (destruct Ho as [<-|Ho]; try contradiction); cbn; try lia.
    + exists (bin "add" 1 (VArg 0) (VArg 1)). cbn. auto.
    + exists (bin "mul" 2 (VReg 1) (VArg 2)). cbn. auto.
  - repeat constructor; cbn; intuition discriminate.
Qed.

(** Wished: an instruction between those of the pattern that has nothing to do with it is passed
    over.  Not if it does what the awaited one does: its operands are then bound to the inputs. *)
Theorem C114_between_refuted : exists f m0 m1 m2 e phi,
  f_blocks f = [(0, [m0; m1; m2; e])] /\ renames true (occurring patf 0) phi /\
  copy String.eqb phi m0 (bin "add" 1 (VArg 0) (VArg 1)) /\ copy String.eqb phi m2 (bin "mul" 2 (VReg 1) (VArg 2)) /\
  (forall b, occurring patf 0 b -> phi b <> VReg (i_reg m1) /\ ~ In (phi b) (i_ops m1)) /\
  fst (pat_in f (i_reg m0)) = false.
Proof.
  exists (mkFunc "" 5 [(0, [bin "add" 10 (VArg 3) (VArg 1); bin "mul" 11 (VArg 4) (VArg 4); bin "mul" 12 (VReg 10) (VArg 0); ret 13 (VReg 12)])]),
    (bin "add" 10 (VArg 3) (VArg 1)), (bin "mul" 11 (VArg 4) (VArg 4)), (bin "mul" 12 (VReg 10) (VArg 0)), (ret 13 (VReg 12)), phi0.
  split; [reflexivity|]. split; [exact pat_renames|]. split; [repeat split|]. split; [repeat split|]. split; [|reflexivity].
  intros b B. apply pat_occurring in B. cbn in B. repeat (destruct B as [B|B]; try contradiction); subst; (split; [discriminate|cbn; intuition discriminate]).
Qed.
Print Assumptions C114_between_refuted.
(** Wished: nothing comes between the instructions of a group.  The rest of a block with one
    successor does. *)
Definition group_md : dict nat (list mdop) := [(1, [MString "group-start"]); (2, [MString "group-end"])]%string.
Definition group_in (f : func) (start : nat) : bool :=
  fst (compare_side String.eqb (fun _ => false) true f patf (l_meta (load_side patf group_md)) (l_inputs (load_side patf group_md)) 1 start mstart).
Theorem C114_group_refuted :
  group_in (mkFunc "" 4 [(0, [bin "add" 10 (VArg 0) (VArg 1); bin "sub" 11 (VArg 3) (VArg 3); bin "mul" 12 (VReg 10) (VArg 2); ret 13 (VReg 12)])]) 10 = false /\
  group_in (mkFunc "" 4 [(0, [bin "add" 10 (VArg 0) (VArg 1); bin "sub" 11 (VArg 3) (VArg 3); jump 9 1]); (1, [bin "mul" 12 (VReg 10) (VArg 2); ret 13 (VReg 12)])]) 10 = true.
Proof. split; reflexivity. Qed.
Print Assumptions C114_group_refuted.
(** Wished: a match contains the instruction where it was to start.  That one is passed over if
    the block has one successor. *)
Theorem C114_start_refuted :
  let f := mkFunc "" 4 [(0, [bin "xor" 9 (VArg 0) (VArg 1); jump 8 1]); (1, [bin "add" 10 (VArg 0) (VArg 1); bin "mul" 12 (VReg 10) (VArg 2); ret 13 (VReg 12)])] in
  fst (pat_in f 9) = true /\ forall q, ~ matched (snd (pat_in f 9)) q 9.
Proof.
  cbn zeta. split; [reflexivity|]. intros q. unfold matched.
  remember (imm (snd (pat_in (mkFunc "" 4 [(0, [bin "xor" 9 (VArg 0) (VArg 1); jump 8 1]); (1, [bin "add" 10 (VArg 0) (VArg 1); bin "mul" 12 (VReg 10) (VArg 2); ret 13 (VReg 12)])]) 9))) as d eqn:E.
  vm_compute in E. subst d. cbn. destruct (q =? 1)%nat; [discriminate|]. destruct (q =? 2)%nat; discriminate.
Qed.
Print Assumptions C114_start_refuted.
(** Wished: the pattern ends at the instruction marked as its end.  Not if the block of that one
    has one successor: what comes there must be matched, too. *)
Theorem C114_end_refuted :
  let p := mkFunc "" 2 [(0, [bin "add" 1 (VArg 0) (VArg 1); bin "mul" 2 (VArg 0) (VArg 1); jump 3 1]); (1, [bin "sub" 4 (VArg 0) (VArg 1); ret 5 (VReg 4)])] in
  let l := load_side p [(2, [MString "pattern-end"%string])] in
  let code := [bin "add" 10 (VArg 0) (VArg 1); ret 13 (VReg 10)] in
  flag (l_meta l) m_end (bin "mul" 2 (VArg 0) (VArg 1)) = true /\
  fst (compare_side String.eqb (fun _ => false) true (mkFunc "" 2 [(0, code)]) p (l_meta l) (l_inputs l) 1 10 mstart) = false /\
  fst (compare_side String.eqb (fun _ => false) true (mkFunc "" 2 [(0, code)]) (mkFunc "" 2 [(0, [bin "add" 1 (VArg 0) (VArg 1); bin "mul" 2 (VArg 0) (VArg 1); ret 3 (VReg 1)])]) (l_meta l) (l_inputs l) 1 10 mstart) = true.
Proof. repeat split; reflexivity. Qed.
Print Assumptions C114_end_refuted.

(** ** C115: what the match of both sides means for the comparison *)

Section Sides.
  Variable same_rest : string -> string -> bool.
  Variable struct_gep : inst -> bool.
  Variables fl fr : func.
  Variables mul mur : value -> list value.
  Variables pul pur : ipattern -> value -> list value.
  Notation try_pattern := (try_pattern same_rest struct_gep fl fr mul mur pul pur).
  Notation match_inst := (match_inst same_rest struct_gep fl fr mul mur pul pur).

  (** Both sides match, and what an argument of the pattern stands for on one side and what it
      stands for on the other are a pair of the comparison. *)
  Theorem C115_inputs p l r d sl sr : try_pattern p l r d = Some (sl, sr) ->
    exists sl0 sr0,
      compare_side same_rest struct_gep true fl (ip_L p) (ip_metaL p) (ip_inL p) (ip_startL p) l mstart = (true, sl0) /\
      compare_side same_rest struct_gep false fr (ip_R p) (ip_metaR p) (ip_inR p) (ip_startR p) r mstart = (true, sr0) /\
      (forall v x, bound sl0 v x -> bound sl v x) /\ (forall v x, bound sr0 v x -> bound sr v x) /\
      (forall q m, matched sl0 q m -> exists m', matched sl q m') /\ (forall q m, matched sr0 q m -> exists m', matched sr q m') /\
      forall a b, In (a, b) (ip_args p) -> (exists x, bound sl0 a x) \/ (exists y, bound sr0 b y) ->
        exists x y, bound sl a x /\ bound sr b y /\ paired d x y.
  Proof.
    intros H. destruct (try_pattern_parts _ _ _ _ _ _ _ _ _ _ _ _ _ _ H) as (sl0 & sr0 & A & B & SL & SR & P).
    exists sl0, sr0. split; [exact A|]. split; [exact B|]. split; [exact (proj1 SL)|]. split; [exact (proj1 SR)|].
    assert (G : forall s s', Pattern_Frame.grows s s' -> forall q m, matched s q m -> exists m', matched s' q m').
    { intros s s' G q m M. assert (Q : dmem (imm s') q = true) by (apply G; unfold dmem; unfold matched in M; rewrite M; reflexivity).
      unfold dmem in Q. unfold matched. destruct (dget (imm s') q); [eauto|discriminate]. }
    split; [apply G; apply SL|]. split; [apply G; apply SR|].
    intros a b I [[x X]|[y Y]]; apply (P a b I); [left|right]; unfold dmem, bound in *; [rewrite X|rewrite Y]; reflexivity.
  Qed.
  (** The patterns are tried in their order; what the first that matches has matched is noted;
      its outputs are noted as pairs. *)
  Theorem C115_first ps l r d m :
    (match_inst ps l r d m = None <-> forall p, In p ps -> try_pattern p l r d = None) /\
    forall m', match_inst ps l r d m = Some m' ->
      exists p sl sr, first_with (fun q => try_pattern q l r d <> None) ps p /\ try_pattern p l r d = Some (sl, sr) /\
        (forall k, In k (all_matches m') <-> In k (all_matches m) \/
            (exists q i, In (q, i) (imm sl) /\ k = (true, VReg i)) \/ (exists q i, In (q, i) (imm sr) /\ k = (false, VReg i))) /\
        (forall a b, In (a, b) (mappings m') -> exists q q' x y, In (q, x) (imm sl) /\ dget (ip_out p) q = Some q' /\ matched sr q' y /\ a = (false, VReg y) /\ b = (true, VReg x)).
  Proof.
    induction ps as [|p ps [IN IS]]; cbn [Pattern_Model.match_inst].
    - split; [split; [intros _ p []|reflexivity]|discriminate].
    - destruct (try_pattern p l r d) as [[sl sr]|] eqn:T.
      + split; [split; [discriminate|intros H; rewrite (H p (or_introl eq_refl)) in T; discriminate]|].
        intros m' E. injection E as <-. exists p, sl, sr. split; [exists [], ps; split; [reflexivity|]; split; [congruence|intros y []]|].
        split; [exact T|]. split.
        * intros k. cbn. rewrite !in_app_iff, !in_map_iff. split.
          -- intros [H|[([q i] & <- & H)|([q i] & <- & H)]]; [auto|right; left; exists q, i; auto|right; right; exists q, i; auto].
          -- intros [H|[(q & i & H & ->)|(q & i & H & ->)]]; [auto|right; left; exists (q, i); auto|right; right; exists (q, i); auto].
        * intros a b H. destruct (process_mappings _ _ _ _ _ _ H) as (x & q & y & z & A & B & C & D & E). exists x, q, z, y. auto.
      + split.
        * rewrite IN. split; [intros H q [<-|Hq]; auto|intros H q Hq; apply H; right; exact Hq].
        * intros m' E. destruct (IS m' E) as (q & sl & sr & (a & b & Eq & P & N) & R). exists q, sl, sr. split; [|exact R].
          exists (p :: a), b. split; [rewrite Eq; reflexivity|]. split; [exact P|]. intros y [<-|Hy]; [intros Q; congruence|apply N; exact Hy].
  Qed.

  Variable is_variable : string -> bool.
  Variable local_name : bool -> value -> string.
  Notation after_difference := (after_difference same_rest struct_gep fl fr mul mur pul pur is_variable local_name).
  (** Patterns of instructions come before value patterns; nothing matched is forgotten. *)
  Theorem C115_order is vs l r d m d' m' : after_difference is vs l r d m = Some (d', m') ->
    (match_inst is l r d m = Some m' \/ (match_inst is l r d m = None /\ match_value fl fr is_variable local_name vs l r m = Some m')) /\
    (forall k, part_of_pattern m k = true -> part_of_pattern m' k = true).
  Proof.
    unfold Pattern_Model.after_difference, match_any. intros H.
    assert (X : match_inst is l r d m = Some m' \/ (match_inst is l r d m = None /\ match_value fl fr is_variable local_name vs l r m = Some m')).
    { destruct (match_inst is l r d m) as [m1|]; [injection H as _ <-; auto|]. destruct (match_value fl fr is_variable local_name vs l r m) as [m1|]; [injection H as _ <-; auto|discriminate]. }
    split; [exact X|]. unfold part_of_pattern. intros k K. apply mem_In in K. apply mem_In. destruct X as [X|[_ X]].
    - destruct (proj2 (C115_first is l r d m) m' X) as (p & sl & sr & _ & _ & A & _). apply A. left. exact K.
    - revert X. clear H. induction vs as [|p vs' IH]; cbn [match_value]; [discriminate|]. intros H.
      destruct (match_load fl fr is_variable local_name p true l || match_load fl fr is_variable local_name p false r); [|exact (IH H)].
      injection H as <-. cbn. apply in_app_iff. left. exact K.
  Qed.
  (** The outputs of a matched pattern of instructions are not paired: no value of the old
      function gets a number among the old ones and none of the new function among the new ones
      (the maps are swapped), whatever the outputs are; only the numbers of the two instructions
      are taken back. *)
  Theorem C115_outputs is vs l r d m d' m' m1 : after_difference is vs l r d m = Some (d', m') -> match_inst is l r d m = Some m1 ->
    (forall v, v <> VReg l -> dget (d_L d') (true, v) = dget (d_L d) (true, v)) /\
    (forall v, v <> VReg r -> dget (d_R d') (false, v) = dget (d_R d) (false, v)) /\
    (NoDup (dkeys (d_L d)) -> dget (d_L d') (true, VReg l) = None) /\ (NoDup (dkeys (d_R d)) -> dget (d_R d') (false, VReg r) = None).
  Proof.
    unfold Pattern_Model.after_difference, match_any. intros H E. rewrite E in H. injection H as <- <-.
    assert (C : crossed m1).
    { revert E. clear. induction is as [|p is IH]; cbn [Pattern_Model.match_inst]; [discriminate|].
      destruct (try_pattern p l r d) as [[sl sr]|]; [intros E; injection E as <-; apply process_crossed|exact IH]. }
    destruct (create_mapping_crossed m1 (undo_last (true, VReg l) (false, VReg r) d) C) as [A B].
    repeat split; intros; rewrite ?A, ?B; cbn.
    - apply dget_ddel_other. congruence.
    - apply dget_ddel_other. congruence.
    - apply dget_ddel_same; assumption.
    - apply dget_ddel_same; assumption.
  Qed.
  (** Both maps grow by as many values: numbers given later still agree. *)
  Theorem C115_sizes m d : exists n, length (d_L (create_mapping m d)) = length (d_L d) + n /\ length (d_R (create_mapping m d)) = length (d_R d) + n.
  Proof. apply create_mapping_sizes. Qed.
  (** The two instructions themselves are part of the match - so that the comparison goes on
      after them - if their blocks have several successors or none and the patterns start with
      inputs. *)
  Theorem C115_start p l r d m m' bl ml pl il pbl ppl qbl mr pr ir pbr ppr :
    match_inst [p] l r d m = Some m' ->
    locate l (f_blocks fl) = Some (bl, ml :: pl) -> single_successor fl bl = None ->
    locate (ip_startL p) (f_blocks (ip_L p)) = Some (pbl, il :: ppl) ->
    flag (ip_metaL p) m_end il = false -> is_terminator il = false -> In (VReg (i_reg il)) (ip_inL p) ->
    locate r (f_blocks fr) = Some (qbl, mr :: pr) -> single_successor fr qbl = None ->
    locate (ip_startR p) (f_blocks (ip_R p)) = Some (pbr, ir :: ppr) ->
    flag (ip_metaR p) m_end ir = false -> is_terminator ir = false -> In (VReg (i_reg ir)) (ip_inR p) ->
    i_reg ml = l -> i_reg mr = r ->
    part_of_pattern m' (true, VReg l) = true /\ part_of_pattern m' (false, VReg r) = true.
  Proof.
    intros E LL SL PL FL TL IL LR SR PR FR TR IR <- <-.
    destruct (proj2 (C115_first [p] (i_reg ml) (i_reg mr) d m) m' E) as (p' & sl & sr & (a & b & Q & _) & T & A & _).
    assert (p' = p) as -> by (destruct a as [|x [|y a]]; cbn in Q; congruence).
    destruct (C113_matched _ _ _ _ _ _ _ _ _ _ _ _ _ _ T) as [IVL IVR].
    destruct (C115_inputs _ _ _ _ _ _ T) as (sl0 & sr0 & CL & CR & KL & KR & ML & MR & _).
    destruct (compare_side_first _ _ _ _ _ _ _ _ _ _ _ _ _ _ _ _ _ CL LL SL PL FL TL IL) as [BL DL].
    destruct (compare_side_first _ _ _ _ _ _ _ _ _ _ _ _ _ _ _ _ _ CR LR SR PR FR TR IR) as [BR DR].
    split; unfold part_of_pattern; apply mem_In; apply A.
    - right. left. unfold dmem in DL. destruct (dget (imm sl0) (i_reg il)) as [z|] eqn:Z; [|discriminate].
      destruct (ML _ _ Z) as [z' Z']. destruct (IVL _ _ Z') as (mm & pp & _ & _ & _ & _ & _ & S). inversion S as [|? ? _ _ K]; subst.
      assert (KK := K IL). unfold bound in KL. rewrite (KL _ _ BL) in KK. injection KK as <-. exists (i_reg il), (i_reg ml). split; [apply dget_In; exact Z'|reflexivity].
    - right. right. unfold dmem in DR. destruct (dget (imm sr0) (i_reg ir)) as [z|] eqn:Z; [|discriminate].
      destruct (MR _ _ Z) as [z' Z']. destruct (IVR _ _ Z') as (mm & pp & _ & _ & _ & _ & _ & S). inversion S as [|? ? _ _ K]; subst.
      assert (KK := K IR). unfold bound in KR. rewrite (KR _ _ BR) in KK. injection KK as <-. exists (i_reg ir), (i_reg mr). split; [apply dget_In; exact Z'|reflexivity].
  Qed.
End Sides.
Print Assumptions C115_inputs.
Print Assumptions C115_first.
Print Assumptions C115_order.
Print Assumptions C115_outputs.
Print Assumptions C115_sizes.
Print Assumptions C115_start.

(** A pattern with two outputs, old (a + b, a * b), new (a - b, a ^ b), and code with both. *)
Definition out_L : func := mkFunc "" 2 [(0, [bin "add" 1 (VArg 0) (VArg 1); bin "mul" 2 (VArg 0) (VArg 1); mapping 3 [VReg 1; VReg 2]; ret_void 4])].
Definition out_R : func := mkFunc "" 2 [(0, [bin "sub" 1 (VArg 0) (VArg 1); bin "xor" 2 (VArg 0) (VArg 1); mapping 3 [VReg 1; VReg 2]; ret_void 4])].
Definition code_L : func := mkFunc "" 2 [(0, [bin "add" 10 (VArg 0) (VArg 1); bin "mul" 11 (VArg 0) (VArg 1); bin "sub" 12 (VReg 10) (VReg 11); ret 13 (VReg 12)])].
Definition code_R : func := mkFunc "" 2 [(0, [bin "sub" 10 (VArg 0) (VArg 1); bin "xor" 11 (VArg 0) (VArg 1); bin "sub" 12 (VReg 11) (VReg 10); ret 13 (VReg 12)])].
Definition no_users : value -> list value := fun _ => [].
Definition after (fl fr : func) (is : list ipattern) (vs : list vpattern) (l r : nat) (d : numbering) (m : matches) : option (numbering * matches) :=
  after_difference String.eqb (fun _ => false) fl fr no_users no_users (fun _ => no_users) (fun _ => no_users) (fun _ => true) no_name is vs l r d m.
(** The arguments are numbered, and the pair that was found different. *)
Definition before : numbering :=
  mkN [((true, VArg 0), 0); ((true, VArg 1), 1); ((true, VReg 10), 2)] [((false, VArg 0), 0); ((false, VArg 1), 1); ((false, VReg 10), 2)]
      [(0, ((true, VArg 0), (false, VArg 0))); (1, ((true, VArg 1), (false, VArg 1))); (2, ((true, VReg 10), (false, VReg 10)))].
Definition loaded_pattern (n : string) (l r : func) : list ipattern := match load_ipattern n l r [] [] with Some p => [p] | None => [] end.
Example C115_met : exists d m,
  after code_L code_R (loaded_pattern "p" out_L out_R) [] 10 10 before nomatch = Some (d, m) /\
  part_of_pattern m (true, VReg 10) = true /\ part_of_pattern m (true, VReg 11) = true /\ part_of_pattern m (false, VReg 11) = true /\ part_of_pattern m (true, VReg 12) = false /\
  after code_L code_R (loaded_pattern "p" out_R out_L) [] 10 10 before nomatch = None /\
  after code_L code_R (loaded_pattern "p" out_L out_R) [] 10 10
    (mkN [((true, VArg 0), 0); ((true, VArg 1), 1)] [((false, VArg 0), 1); ((false, VArg 1), 0)] []) nomatch = None.
Proof. do 2 eexists. split; [vm_compute; reflexivity|]. repeat split; reflexivity. Qed.
(** Wished: each output of the old side is paired with its output of the new side, and with
    nothing else.  Afterwards the first output of the old function and the second of the new one
    get the same number if they are used next: a new function that uses the outputs in another
    order is taken for the same. *)
Theorem C115_outputs_refuted : exists d m,
  after code_L code_R (loaded_pattern "p" out_L out_R) [] 10 10 before nomatch = Some (d, m) /\
  (exists p, loaded_pattern "p" out_L out_R = [p] /\ ip_out p = [(1, 1); (2, 2)]) /\
  dget (d_L d) (true, VReg 10) = None /\ dget (d_R d) (false, VReg 10) = None /\
  numbered_equal d (true, VReg 10) (false, VReg 11) = true.
Proof. do 2 eexists. split; [vm_compute; reflexivity|]. split; [eexists; split; [reflexivity|reflexivity]|]. repeat split; reflexivity. Qed.
Print Assumptions C115_outputs_refuted.

(** Wished: the comparison goes on behind what was matched.  If the instruction at which the
    difference was found is passed over (C114_start_refuted), neither instruction of the pair is
    part of the match and the comparison is at the same pair again, in a state in which the same
    happens: it does not end. *)
Definition loop_L : func := mkFunc "" 3 [(0, [bin "xor" 9 (VArg 0) (VArg 1); jump 8 1]); (1, [bin "add" 10 (VArg 0) (VArg 1); bin "mul" 11 (VReg 10) (VArg 2); ret 13 (VReg 11)])].
Definition loop_R : func := mkFunc "" 3 [(0, [bin "or" 9 (VArg 0) (VArg 1); jump 8 1]); (1, [bin "add" 10 (VArg 0) (VArg 1); bin "add" 11 (VReg 10) (VArg 2); ret 13 (VReg 11)])].
Definition loop_new : func := mkFunc "" 3 [(0, [bin "add" 1 (VArg 0) (VArg 1); bin "add" 2 (VReg 1) (VArg 2); ret 3 (VReg 2)])].
(** The arguments are numbered. *)
Definition arguments_numbered (d : numbering) : Prop :=
  forall k, k < 3 -> dget (d_L d) (true, VArg k) = Some k /\ dget (d_R d) (false, VArg k) = Some k.
Inductive rounds : nat -> numbering -> matches -> Prop :=
| Rounds_0 d : arguments_numbered d -> rounds 0 d nomatch
| Rounds_S n d m d1 d2 m2 :
    rounds n d m -> part_of_pattern m (true, VReg 9) = false -> part_of_pattern m (false, VReg 9) = false ->
    (* the pair is compared again, which may number it *)
    (forall v, v <> VReg 9 -> dget (d_L d1) (true, v) = dget (d_L d) (true, v)) ->
    (forall v, v <> VReg 9 -> dget (d_R d1) (false, v) = dget (d_R d) (false, v)) ->
    after loop_L loop_R (loaded_pattern "p" patf loop_new) [] 9 9 d1 m = Some (d2, m2) -> rounds (S n) d2 m2.
Lemma inputs_valid_all same_rest struct_gep fl fr mul mur pul pur p d args sl sr :
  (forall a b, In (a, b) args -> exists x y, dget (pim sl) a = Some x /\ dget (pim sr) b = Some y /\ mapped d (true, x) (false, y) = true) ->
  inputs_valid same_rest struct_gep fl fr mul mur pul pur p d args sl sr = (true, sl, sr).
Proof.
  induction args as [|[a b] args IH]; intros H; cbn [inputs_valid]; [reflexivity|].
  destruct (H a b (or_introl eq_refl)) as (x & y & -> & -> & ->). apply IH. intros u v I. apply H. right. exact I.
Qed.
Lemma loop_round d m : arguments_numbered d -> part_of_pattern m (true, VReg 9) = false -> part_of_pattern m (false, VReg 9) = false ->
  exists d' m', after loop_L loop_R (loaded_pattern "p" patf loop_new) [] 9 9 d m = Some (d', m') /\
    arguments_numbered d' /\ part_of_pattern m' (true, VReg 9) = false /\ part_of_pattern m' (false, VReg 9) = false.
Proof.
  intros A PL PR.
  destruct (loaded_pattern "p" patf loop_new) as [|p [|]] eqn:LP; [vm_compute in LP; discriminate| |vm_compute in LP; discriminate].
  assert (P : p = hd p (loaded_pattern "p" patf loop_new)) by (rewrite LP; reflexivity).
  assert (M : exists m', match_inst String.eqb (fun _ => false) loop_L loop_R no_users no_users (fun _ => no_users) (fun _ => no_users) [p] 9 9 d m = Some m' /\
    all_matches m' = all_matches m ++ [(true, VReg 10); (true, VReg 11); (false, VReg 10); (false, VReg 11)]).
  { cbn [match_inst]. unfold try_pattern.
    destruct (side_compare String.eqb (fun _ => false) loop_L loop_R p true 9 mstart) as [okl sl] eqn:SL.
    destruct (side_compare String.eqb (fun _ => false) loop_L loop_R p false 9 mstart) as [okr sr] eqn:SR.
    assert (AR : ip_args p = [(VArg 0, VArg 0); (VArg 1, VArg 1); (VArg 2, VArg 2)]) by (rewrite P; reflexivity).
    clear LP. rewrite P in SL, SR. vm_compute in SL, SR. injection SL as <- <-. injection SR as <- <-. cbn [negb].
    rewrite AR. clear P AR.
    assert (MP : forall k, k < 3 -> mapped d (true, VArg k) (false, VArg k) = true).
    { intros k L. unfold mapped. destruct (A k L) as [-> ->]. apply Nat.eqb_refl. }
    rewrite inputs_valid_all; [eexists; split; [reflexivity|reflexivity]|].
    intros a b [E|[E|[E|[]]]]; injection E as <- <-; do 2 eexists; (split; [reflexivity|]); (split; [reflexivity|]); apply MP; lia. }
  destruct M as (m' & E & AM). unfold after, after_difference, match_any. rewrite E. do 2 eexists. split; [reflexivity|].
  assert (AF : after loop_L loop_R [p] [] 9 9 d m = Some (create_mapping m' (undo_last (true, VReg 9) (false, VReg 9) d), m')).
  { unfold after, after_difference, match_any. rewrite E. reflexivity. }
  destruct (C115_outputs _ _ _ _ _ _ _ _ _ _ _ _ _ _ _ _ _ _ _ AF E) as (OL & OR & _).
  split; [|split].
  - intros k L. destruct (A k L) as [A1 A2]. rewrite OL, OR by discriminate. auto.
  - unfold part_of_pattern in *. rewrite AM. match goal with |- ?x = false => destruct x eqn:Q end; [|reflexivity]. exfalso.
    apply mem_In in Q. apply in_app_iff in Q. destruct Q as [Q|Q]; [apply mem_In in Q; congruence|cbn in Q; intuition discriminate].
  - unfold part_of_pattern in *. rewrite AM. match goal with |- ?x = false => destruct x eqn:Q end; [|reflexivity]. exfalso.
    apply mem_In in Q. apply in_app_iff in Q. destruct Q as [Q|Q]; [apply mem_In in Q; congruence|cbn in Q; intuition discriminate].
Qed.
Theorem C115_endless_refuted n : exists d m, rounds n d m /\ part_of_pattern m (true, VReg 9) = false /\ part_of_pattern m (false, VReg 9) = false.
Proof.
  enough (G : exists d m, rounds n d m /\ arguments_numbered d /\ part_of_pattern m (true, VReg 9) = false /\ part_of_pattern m (false, VReg 9) = false).
  { destruct G as (d & m & A & _ & B). eauto. }
  induction n as [|n (d & m & R & A & PL & PR)].
  - set (d := mkN [((true, VArg 0), 0); ((true, VArg 1), 1); ((true, VArg 2), 2)] [((false, VArg 0), 0); ((false, VArg 1), 1); ((false, VArg 2), 2)] []).
    assert (A : arguments_numbered d) by (intros [|[|[|k]]] L; [split; reflexivity..|lia]).
    exists d, nomatch. split; [constructor; exact A|]. split; [exact A|]. split; reflexivity.
  - destruct (loop_round d m A PL PR) as (d' & m' & E & A' & PL' & PR'). exists d', m'. split; [|auto].
    eapply Rounds_S; [exact R|exact PL|exact PR| | |exact E]; reflexivity.
Qed.
Print Assumptions C115_endless_refuted.
