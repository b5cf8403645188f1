(** * Properties of the comparison of functions with their callees (C54, C90, C91) *)
From Coq Require Import String Ascii ZArith Arith Bool Lia List.
From Verif Require Import PyBase Source_Model Source_Spec Modcomp_Model Modcomp_Spec Modcomp_Proofs.
Import ListNotations.
Open Scope list_scope.

Section Properties.
  Context {W F C V X : Type} `{EqB F}.
  Notation env := (env W F C V X).
  Notation comp := (comp W F C V X).
  Notation state := (state W F C V X).
  Variable E : env.

  (** ** C54: functions without bodies and functions known from an earlier run *)

  (** A pair known from an earlier run is UNKNOWN; nothing else happens. *)
  Theorem C54_cached n l r (st : state) : e_cached E l r = true -> dget (s_compared st) (l, r) = None ->
    exists st', compare E (S n) l r st = Done st' /\ dget (s_compared st') (l, r) = Some (mkresult UNKNOWN [] [] []) /\
      (forall p, p <> (l, r) -> dget (s_compared st') p = dget (s_compared st) p) /\
      s_world st' = s_world st /\ s_inline st' = s_inline st /\ s_missing st' = s_missing st.
  Proof.
    intros CA N. cbn [compare]. rewrite (emplace_new _ _ N), CA. unfold update. cbn [s_compared with_compared]. rewrite dget_dset_same.
    eexists. split; [reflexivity|]. cbn [s_compared with_compared]. split; [apply dget_dset_same|]. split; [|auto].
    intros p NE. rewrite !dget_dset_other by exact NE. reflexivity.
  Qed.

  (** A pair with a function without a body gets ASSUMED_EQUAL if the names without suffixes are
      the same and NOT_EQUAL otherwise; no calls, no objects; the missing definition is reported;
      nothing else happens. *)
  Theorem C54_declarations n l r (st : state) : e_cached E l r = false ->
    e_declared E (s_world st) l = true \/ e_declared E (s_world st) r = true -> dget (s_compared st) (l, r) = None ->
    exists st' k m, compare E (S n) l r st = Done st' /\ dget (s_compared st') (l, r) = Some (mkresult k [] [] []) /\ Declared E l r k /\
      s_missing st' = s_missing st ++ m /\ Reports E (s_world st) l r m /\
      (forall p, p <> (l, r) -> dget (s_compared st') p = dget (s_compared st) p) /\
      s_world st' = s_world st /\ s_inline st' = s_inline st.
  Proof.
    intros CA DE N. cbn [compare]. rewrite (emplace_new _ _ N), CA. apply orb_true_iff in DE. cbn [s_world with_compared]. rewrite DE.
    unfold update. cbn [s_compared with_compared]. rewrite dget_dset_same. cbn [obind].
    eexists. exists (declaration_verdict E l r), (declaration_missing E (s_world st) l r). split; [reflexivity|]. cbn [s_compared s_missing s_world with_compared with_missing set_kind r_left r_right r_objects].
    split; [apply dget_dset_same|]. split; [apply declaration_ok|]. split; [reflexivity|]. split; [|split; [intros p NE; rewrite !dget_dset_other by exact NE; reflexivity|auto]].
    unfold declaration_missing. destruct (e_control_flow E) eqn:CF; [apply Reports_control_flow; exact CF|].
    destruct (e_declared E (s_world st) l) eqn:DL, (e_declared E (s_world st) r) eqn:DR; cbn [andb]; [apply Reports_both; assumption| | |discriminate];
      (destruct (String.eqb_spec (base_name (e_name E l)) (base_name (e_name E r))) as [Q|Q]; cbn [negb];
       [|eapply Reports_different; [apply plain_name_iff; reflexivity|apply plain_name_iff; reflexivity|exact Q]]).
    - eapply Reports_left; auto; apply plain_name_iff; [reflexivity|congruence].
    - eapply Reports_right; auto; apply plain_name_iff; [reflexivity|congruence].
  Qed.

  (** The verdict is determined by the names: exactly one of the two. *)
  Theorem C54_one_verdict l r : exists k, Declared E l r k /\ (forall k', Declared E l r k' -> k' = k) /\ (k = ASSUMED_EQUAL \/ k = NOT_EQUAL).
  Proof.
    exists (declaration_verdict E l r). split; [apply declaration_ok|]. split; [intros k' D; eapply declared_fun; [exact D|apply declaration_ok]|].
    unfold declaration_verdict. destruct (String.eqb _ _); auto.
  Qed.

  (** ** C90: the results without inlining *)

  Lemma dget_listed (st : state) p : dget (listed E st) p = if negb (e_intrinsic E (fst p)) && negb (e_abstraction E (fst p)) then dget (s_compared st) p else None.
  Proof.
    unfold listed. induction (s_compared st) as [|[q y] d IH]; [destruct (negb _ && negb _); reflexivity|]. cbn [filter fst].
    destruct (negb (e_intrinsic E (fst q)) && negb (e_abstraction E (fst q))) eqn:Q; cbn [dget].
    - destruct (eqb_spec p q) as [->|]; [rewrite Q; reflexivity|exact IH].
    - rewrite IH. destruct (eqb_spec p q) as [->|]; [rewrite Q; reflexivity|reflexivity].
  Qed.
  Lemma listed_single (st : state) : NoDup (dkeys (s_compared st)) -> NoDup (dkeys (listed E st)).
  Proof.
    unfold listed, dkeys. intros ND. induction (s_compared st) as [|e d IH]; [constructor|]. cbn [filter map] in *. inversion ND as [|? ? N1 N2]; subst.
    destruct (negb _ && negb _); [|auto]. cbn [map]. constructor; [|auto]. intros I. apply N1. apply in_map_iff in I. destruct I as (e' & Q & I). apply filter_In in I. apply in_map_iff. exists e'. tauto.
  Qed.

  (** If no call can be inlined, the results are exactly those of the pairs reached through calls
      from the two functions, each given by the two functions alone; all are taken to be equal if
      and only if none of them is NOT_EQUAL.  The comparison ends if the pairs are finitely many. *)
  Theorem C90_results w l r ps : no_inlining E w -> (forall p, Reached E w (l, r) p -> In p ps) ->
    forall n, length ps < n -> exists d same missing, compare_functions E n w l r = Done (d, same, missing) /\ NoDup (dkeys d) /\
      (forall p x, dget d p = Some x -> Reached E w (l, r) p /\ PairResult E w p x) /\
      (forall p, (exists x, dget d p = Some x) <-> Reached E w (l, r) p /\ e_intrinsic E (fst p) = false /\ e_abstraction E (fst p) = false) /\
      (same = true <-> forall p x, Reached E w (l, r) p -> PairResult E w p x -> r_kind x <> NOT_EQUAL).
  Proof.
    intros NI Rin n LT. pose proof (start_fixed E w NI l r ps Rin n) as Q. unfold compare_functions. destruct (compare E n l r (start w)) as [st| |] eqn:CQ; [|destruct Q|lia].
    destruct Q as (WW & A & B). cbn [obind]. exists (listed E st), (all_equal st), (s_missing st). split; [reflexivity|].
    assert (S : NoDup (dkeys (s_compared st))) by (apply (compare_single E n l r (start w) st CQ); constructor).
    split; [apply listed_single; exact S|]. split; [|split].
    - intros p x G. rewrite dget_listed in G. destruct (negb _ && negb _); [auto|discriminate].
    - intros p. rewrite dget_listed. split.
      + intros (x & G). destruct (e_intrinsic E (fst p)), (e_abstraction E (fst p)); cbn [negb andb] in G; try discriminate. split; [exact (proj1 (A _ _ G))|auto].
      + intros (RE & -> & ->). cbn [negb andb]. apply B. exact RE.
    - rewrite (all_equal_iff st S). split.
      + intros Q p x RE PR. destruct (B p RE) as (y & G). destruct (pair_kind_fun E w p x y PR (proj2 (A _ _ G))) as (-> & _). eapply Q. exact G.
      + intros Q p x G. destruct (A _ _ G) as (RE & PR). eapply Q; eassumption.
  Qed.

  (** It never ends in a crash. *)
  Theorem C90_no_crash w l r ps : no_inlining E w -> (forall p, Reached E w (l, r) p -> In p ps) -> forall n, compare_functions E n w l r <> Crash.
  Proof.
    intros NI Rin n. pose proof (start_fixed E w NI l r ps Rin n) as Q. unfold compare_functions. destruct (compare E n l r (start w)) as [st| |]; cbn [obind]; [discriminate|destruct Q|discriminate].
  Qed.

  (** The verdict of a pair is determined by the pair: every pair has one, and two comparisons
      that list it agree. *)
  Theorem C90_one_verdict w p : exists k, (exists x, PairResult E w p x /\ r_kind x = k) /\ forall x, PairResult E w p x -> r_kind x = k.
  Proof.
    assert (Q : exists x, PairResult E w p x).
    { destruct p as [l r]. destruct (e_cached E l r) eqn:CA; [eexists; apply Result_cached; exact CA|].
      destruct (e_declared E w l || e_declared E w r) eqn:DE.
      - eexists. eapply Result_declared; [exact CA|apply orb_true_iff; exact DE|apply declaration_ok].
      - apply orb_false_iff in DE. destruct (does_exists E w (e_body E w l r)) as (vs & os & b & D). eexists. eapply Result_compared; [split; [exact CA|exact DE]|exact D|apply record_first|apply record_first]. }
    destruct Q as (x & PR). exists (r_kind x). split; [eauto|]. intros y PR'. apply (pair_kind_fun E w p y x PR' PR).
  Qed.
  Theorem C90_same_verdict_everywhere w l r l' r' ps n n' d d' s s' m m' p x x' : no_inlining E w ->
    (forall p, Reached E w (l, r) p -> In p ps) -> (forall p, Reached E w (l', r') p -> In p ps) -> length ps < n -> length ps < n' ->
    compare_functions E n w l r = Done (d, s, m) -> compare_functions E n' w l' r' = Done (d', s', m') ->
    dget d p = Some x -> dget d' p = Some x' -> r_kind x = r_kind x' /\ r_objects x = r_objects x'.
  Proof.
    intros NI R1 R2 L1 L2 Q1 Q2 G1 G2. destruct (C90_results w l r ps NI R1 n L1) as (d1 & s1 & m1 & D1 & _ & A1 & _).
    destruct (C90_results w l' r' ps NI R2 n' L2) as (d2 & s2 & m2 & D2 & _ & A2 & _). rewrite Q1 in D1. injection D1 as <- <- <-. rewrite Q2 in D2. injection D2 as <- <- <-.
    apply (pair_kind_fun E w p); [apply A1; exact G1|apply A2; exact G2].
  Qed.

  (** ** C91: the results with inlining *)

  (** Every listed verdict has a reason: EQUAL and NOT_EQUAL were the answer of a comparison of
      the bodies as inlining and simplification had left them at some moment (or NOT_EQUAL stands
      for a function without body and with another name), ASSUMED_EQUAL stands for a function
      without body, UNKNOWN for a pair known from an earlier run. *)
  Theorem C91_justified n w l r d same missing : compare_functions E n w l r = Done (d, same, missing) ->
    forall p x, dget d p = Some x -> Justified E w p (r_kind x).
  Proof.
    unfold compare_functions. destruct (compare E n l r (start w)) as [st| |] eqn:CQ; cbn [obind]; try discriminate. intros [= <- _ _] p x G.
    rewrite dget_listed in G. destruct (negb _ && negb _); [|discriminate]. destruct (compare_sound E n l r (start w) st CQ) as (A & _ & B).
    destruct (eqb_spec (l, r) p) as [Q|NE].
    - destruct (A p (eq_sym Q)) as (y & G' & J). cbn [s_world start] in J. congruence.
    - destruct (B p x NE G) as [J|(y & G' & _)]; [exact J|discriminate].
  Qed.

  (** UNKNOWN is for the pairs known from an earlier run and for them only. *)
  Theorem C91_unknown n w l r d same missing : compare_functions E n w l r = Done (d, same, missing) ->
    forall p x, dget d p = Some x -> (r_kind x = UNKNOWN <-> e_cached E (fst p) (snd p) = true).
  Proof.
    intros Q p x G. pose proof (C91_justified n w l r d same missing Q p x G) as J. destruct x as [k cl cr os]. cbn [r_kind] in *.
    inversion J as [a b CA|a b w1 k' CA EV DE D|a b w1 c CA EV EN]; subst; cbn [fst snd]; rewrite CA; [tauto| |destruct c; split; discriminate].
    split; [|discriminate]. intros ->. inversion D.
  Qed.

  (** The two functions compared are among the results, each pair at most once. *)
  Theorem C91_main n w l r d same missing : compare_functions E n w l r = Done (d, same, missing) ->
    NoDup (dkeys d) /\ (e_intrinsic E l = false -> e_abstraction E l = false -> exists x, dget d (l, r) = Some x).
  Proof.
    unfold compare_functions. destruct (compare E n l r (start w)) as [st| |] eqn:CQ; cbn [obind]; try discriminate. intros [= <- _ _].
    assert (S : NoDup (dkeys (s_compared st))) by (apply (compare_single E n l r (start w) st CQ); constructor). split; [apply listed_single; exact S|].
    intros I A. rewrite dget_listed. cbn [fst]. rewrite I, A. cbn [negb andb]. destruct (compare_sound E n l r (start w) st CQ) as (Q & _). destruct (Q _ eq_refl) as (x & G & _). eauto.
  Qed.

  (** If all are said to be equal, no listed pair is NOT_EQUAL. *)
  Theorem C91_same n w l r d missing : compare_functions E n w l r = Done (d, true, missing) -> forall p x, dget d p = Some x -> r_kind x <> NOT_EQUAL.
  Proof.
    unfold compare_functions. destruct (compare E n l r (start w)) as [st| |] eqn:CQ; cbn [obind]; try discriminate. intros [= <- S _] p x G.
    rewrite dget_listed in G. destruct (negb _ && negb _); [|discriminate]. apply (proj1 (all_equal_iff st (compare_single E n l r (start w) st CQ ltac:(constructor))) S p x G).
  Qed.

  (** The suggestion left by a comparison that compares no other functions is the last one made
      and not taken back. *)
  Theorem C91_suggestion rec cur c hs b st b' st' : Hints c hs b -> run E rec cur c st = Done (b', st') ->
    b' = b /\ After (s_inline st) hs (s_inline st').
  Proof. intros K R. apply (hints_run E rec cur c hs b K [] st b' st' (s_inline st) [] R); [constructor|intros i []]. Qed.
End Properties.
Print Assumptions C91_suggestion.
Print Assumptions C54_cached.
Print Assumptions C54_declarations.
Print Assumptions C54_one_verdict.
Print Assumptions C90_results.
Print Assumptions C90_no_crash.
Print Assumptions C90_one_verdict.
Print Assumptions C90_same_verdict_everywhere.
Print Assumptions C91_justified.
Print Assumptions C91_unknown.
Print Assumptions C91_main.
Print Assumptions C91_same.

(** ** Programs *)

(** Functions are numbers; [body] may depend on whether the call was inlined. *)
Definition program (names : nat -> string) (declared : nat -> bool) (splits : bool) (caller : nat) (body : bool -> nat -> nat -> comp bool nat unit unit unit) : env bool nat unit unit unit := {|
  e_name := names; e_declared := fun _ => declared; e_cached := fun l r => (l =? 9) && (r =? 9); e_abstraction := fun _ => false; e_intrinsic := fun _ => false; e_asm := fun _ => None;
  e_present := fun w _ f => negb w && (f =? caller); e_callee := fun _ _ => Some 1; e_inline := fun _ _ => Some true; e_simplify := fun w _ => w;
  e_body := body; e_control_flow := false; e_splits := splits |}.
Definition number_name (n : nat) : string := match n with 0 => "h" | 1 => "g" | 2 => "f" | 9 => "known" | _ => "other" end.

Definition visit (f : nat) (k : comp bool nat unit unit unit) : comp bool nat unit unit unit := Globals f f 7%Z 8%Z (fun _ _ => k).
(** h calls g, f and a known function; g differs. *)
Definition plain_body (w : bool) (l r : nat) : comp bool nat unit unit unit :=
  match l with 0 => visit 1 (visit 2 (visit 9 (Answer true))) | 1 => Differs tt (Answer false) | 2 => visit 1 (Answer true) | _ => Answer true end.

(** C54: the hypotheses are met. *)
Example C54_example : let E := program number_name (fun f => f =? 3) true 2 plain_body in
  compare E 1 3 4 (start false) = Done (mkstate false [((3, 4), mkresult ASSUMED_EQUAL [] [] [])] (None, None) [(Some (VFun 3), None)]) /\
  compare E 1 3 1 (start false) = Done (mkstate false [((3, 1), mkresult NOT_EQUAL [] [] [])] (None, None) []) /\
  compare E 1 9 9 (start false) = Done (mkstate false [((9, 9), mkresult UNKNOWN [] [] [])] (None, None) []).
Proof. vm_compute. auto. Qed.

(** C90: a program with a recursion; nothing can be inlined. *)
Definition recursive_body (w : bool) (l r : nat) : comp bool nat unit unit unit :=
  match l with 0 => visit 1 (visit 2 (visit 1 (visit 9 (Answer true)))) | 1 => Differs tt (visit 0 (Answer false)) | 2 => visit 1 (Answer true) | _ => Answer true end.
Definition recursive := program number_name (fun _ => false) false 2 recursive_body.
Example C90_example_no_inlining : no_inlining recursive false.
Proof. intros c f _. exists 1. split; [reflexivity|]. right; right; right. split; reflexivity. Qed.
Lemma recursive_does w l r vs os b : Does recursive w (e_body recursive w l r) vs os b -> forall a c lines, In (a, c, lines) vs -> In (a, c) [(0, 0); (1, 1); (2, 2); (9, 9)].
Proof.
  intros D.
  assert (G : forall f k vs os b, Does recursive w (visit f k) vs os b -> In (f, f) [(0, 0); (1, 1); (2, 2); (9, 9)] ->
    (forall vs os b, Does recursive w k vs os b -> forall a c lines, In (a, c, lines) vs -> In (a, c) [(0, 0); (1, 1); (2, 2); (9, 9)]) ->
    forall a c lines, In (a, c, lines) vs -> In (a, c) [(0, 0); (1, 1); (2, 2); (9, 9)]).
  { clear. intros f k vs os b D IF K a c lines I. inversion D as [|? ? ? ? ? ? v vs' ? ? ? VI DK| | | | |]; subst. apply in_app_iff in I. destruct I as [I|I]; [|eapply K; eassumption].
    destruct VI as [(_ & ->)|(_ & ->)]; [|destruct I]. destruct I as [Q|[]]. injection Q as <- <- <-. exact IF. }
  assert (A : forall b vs os b', Does recursive w (Answer b) vs os b' -> forall a c lines, In (a, c, lines) vs -> In (a, c) [(0, 0); (1, 1); (2, 2); (9, 9)]).
  { clear. intros b vs os b' D a c lines I. inversion D; subst. destruct I. }
  assert (N : forall vs os b c, Does recursive w (visit 9 (Answer c)) vs os b -> forall a c lines, In (a, c, lines) vs -> In (a, c) [(0, 0); (1, 1); (2, 2); (9, 9)]).
  { intros vs' os' b' c D'. eapply G; [exact D'|cbn; tauto|]. intros. eapply A; eassumption. }
  destruct l as [|[|[|l]]]; cbn [e_body recursive program recursive_body] in D.
  - eapply G; [exact D|cbn; tauto|]. clear D. intros vs' os' b' D. eapply G; [exact D|cbn; tauto|]. clear D. intros vs1 os1 b1 D. eapply G; [exact D|cbn; tauto|]. clear D. intros vs2 os2 b2 D. eapply N; eassumption.
  - inversion D as [| |? ? ? ? ? DK| | | |]; subst. eapply G; [exact DK|cbn; tauto|]. apply A.
  - eapply G; [exact D|cbn; tauto|]. apply A.
  - eapply A; eassumption.
Qed.
Example C90_example_finite : forall p, Reached recursive false (0, 0) p -> In p [(0, 0); (1, 1); (2, 2); (9, 9)].
Proof. intros p RE. destruct RE as [|p l r lines vs os b RE CO D I]; [cbn; tauto|]. eapply recursive_does; eassumption. Qed.
Example C90_example : compare_functions recursive 5 false 0 0 = Done (
  [((0, 0), mkresult EQUAL [("g"%string, (7%Z, false)); ("f"%string, (7%Z, false)); ("known"%string, (7%Z, false))] [("g"%string, (8%Z, false)); ("f"%string, (8%Z, false)); ("known"%string, (8%Z, false))] []);
   ((1, 1), mkresult NOT_EQUAL [("h"%string, (7%Z, false))] [("h"%string, (8%Z, false))] [tt]);
   ((2, 2), mkresult EQUAL [("g"%string, (7%Z, false))] [("g"%string, (8%Z, false))] []);
   ((9, 9), mkresult UNKNOWN [] [] [])], false, []).
Proof. vm_compute. reflexivity. Qed.

(** ** C91: differences lost by inlining *)

(** g differs; f differs unless g is inlined in it; h calls both. *)
Definition inlining_body (order : list nat) (w : bool) (l r : nat) : comp bool nat unit unit unit :=
  match l with
  | 0 => fold_right visit (Answer true) order
  | 1 => Answer false
  | 2 => if w then Answer true else visit 1 (Suggest (Some tt, Some tt) (Answer false))
  | _ => Answer true
  end.
Definition inlining order := program number_name (fun _ => false) true 2 (inlining_body order).

(** The comparison of h with itself lists no difference and says that all is equal, although h
    calls g and g, compared with itself, differs. *)
Theorem C91_keeps_differences_refuted : exists (E : env bool nat unit unit unit) w d missing,
  compare_functions E 5 w 0 0 = Done (d, true, missing) /\
  Reached E w (0, 0) (1, 1) /\ dget d (1, 1) = None /\ (forall p x, dget d p = Some x -> r_kind x = EQUAL) /\
  exists d', compare_functions E 5 w 1 1 = Done (d', false, []) /\ exists x, dget d' (1, 1) = Some x /\ r_kind x = NOT_EQUAL.
Proof.
  exists (inlining [1; 2]), false, [((0, 0), mkresult EQUAL [("g"%string, (7%Z, false)); ("f"%string, (7%Z, false))] [("g"%string, (8%Z, false)); ("f"%string, (8%Z, false))] []);
    ((2, 2), mkresult EQUAL [("g"%string, (7%Z, true))] [("g"%string, (8%Z, true))] [])], [].
  split; [vm_compute; reflexivity|]. split; [|split; [reflexivity|split]].
  - destruct (does_exists (inlining [1; 2]) false (e_body (inlining [1; 2]) false 0 0)) as (vs & os & b & D). apply (Reached_call _ _ _ (0, 0) 1 1 (7%Z, 8%Z) vs os b); [constructor|repeat split|exact D|].
    cbn [e_body inlining program inlining_body fold_right] in D. inversion D as [|? ? ? ? ? ? v vs' ? ? VE VI DK| | | | |]; subst. apply in_app_iff. left. destruct VI as [(_ & ->)|(NC & _)]; [left; reflexivity|].
    exfalso. apply NC. apply callees_iff. reflexivity.
  - intros p x G. cbn [dget] in G. destruct (eqb p (0, 0)); [injection G as <-; reflexivity|]. destruct (eqb p (2, 2)); [injection G as <-; reflexivity|discriminate].
  - eexists. split; [vm_compute; reflexivity|]. eexists. split; reflexivity.
Qed.
Print Assumptions C91_keeps_differences_refuted.

(** Whether it is lost depends on the order of the calls in h. *)
Theorem C91_order_independent_refuted : exists (E1 E2 : env bool nat unit unit unit) w d1 d2 m1 m2,
  (forall w l r, (l = 0 /\ e_body E1 w l r = visit 1 (visit 2 (Answer true)) /\ e_body E2 w l r = visit 2 (visit 1 (Answer true))) \/ e_body E1 w l r = e_body E2 w l r) /\
  compare_functions E1 5 w 0 0 = Done (d1, true, m1) /\ compare_functions E2 5 w 0 0 = Done (d2, false, m2).
Proof.
  exists (inlining [1; 2]), (inlining [2; 1]), false. do 4 eexists. split; [|split; vm_compute; reflexivity].
  intros w l r. destruct l as [|l]; [left; auto|right; reflexivity].
Qed.
Print Assumptions C91_order_independent_refuted.

(** The comparison ends the process if the pair whose comparison is going on is forgotten: g calls
    f, and f is equal to itself if g is inlined in it. *)
Definition in_progress := program number_name (fun _ => false) true 2
  (fun w l r => match l with 1 => visit 2 (Answer true) | 2 => if w then Answer true else visit 1 (Suggest (Some tt, Some tt) (Answer false)) | _ => Answer true end).
Theorem C91_no_crash_refuted : exists (E : env bool nat unit unit unit) w l, forall n, 3 < n -> compare_functions E n w l l = Crash.
Proof. exists in_progress, false, 1. intros n LT. do 4 (destruct n as [|n]; [lia|]). reflexivity. Qed.
Print Assumptions C91_no_crash_refuted.

(** The comparison does not end if every inlining suggests another one: a function calling
    itself. *)
Definition endless : env bool nat unit unit unit := {|
  e_name := number_name; e_declared := fun _ _ => false; e_cached := fun _ _ => false; e_abstraction := fun _ => false; e_intrinsic := fun _ => false; e_asm := fun _ => None;
  e_present := fun _ _ _ => true; e_callee := fun _ _ => Some 1; e_inline := fun w _ => Some w; e_simplify := fun w _ => w;
  e_body := fun _ _ _ => visit 1 (Suggest (Some tt, Some tt) (Answer false)); e_control_flow := false; e_splits := true |}.
Theorem C91_ends_refuted : exists (E : env bool nat unit unit unit) w l, forall n, compare_functions E n w l l = OutOfFuel.
Proof.
  exists endless, false, 1. intros n. unfold compare_functions. destruct n as [|n]; [reflexivity|].
  assert (L : forall m rec inl (st : state bool nat unit unit unit) x, s_inline st = (Some tt, Some tt) -> dget (s_compared st) (1, 1) = Some x -> inline_loop endless m rec 1 1 inl st = OutOfFuel).
  { induction m as [|m IH]; intros rec inl st x SI G; [reflexivity|]. destruct st as [w cs si ms]. cbn [s_inline s_compared] in *. subst si.
    cbn [inline_loop s_inline s_world found called endless e_present e_callee try_to_inline e_splits e_abstraction e_declared e_name e_inline number_name is_simplified]. cbn - [update run inline_loop dset dget].
    erewrite (update_some _ (1, 1)) by exact G. cbn [obind]. unfold run. cbn [run_from visit]. unfold global_values. change (same_name endless 1 1) with true. change (excluded endless 1) with false.
    cbn [orb]. erewrite (update_some _ (1, 1)) by apply dget_dset_same. cbn [obind]. unfold dmem. cbn [s_compared with_compared]. rewrite dget_dset_same. cbn [obind e_asm endless fst snd].
    erewrite (update_some _ (1, 1)) by apply dget_dset_same. cbn [obind]. erewrite (update_some _ (1, 1)) by apply dget_dset_same. cbn [obind].
    eapply IH; [reflexivity|]. cbn [s_compared with_compared with_inline]. apply dget_dset_same. }
  cbn - [inline_loop]. erewrite L; [reflexivity|reflexivity|reflexivity].
Qed.
Print Assumptions C91_ends_refuted.

(** A suggestion that is taken back, and one that is kept. *)
Example C91_suggestion_example (E : env bool nat bool unit unit) rec cur st :
  let c := Suggest (Some true, None) (Save 0 (Suggest (Some false, Some false) (Restore 0 (Answer false)))) in
  Hints c [Suggests (Some true, None); Saves 0; Suggests (Some false, Some false); Restores 0] false /\
  exists st', run E rec cur c st = Done (false, st') /\ s_inline st' = (Some true, None).
Proof. split; [repeat constructor|]. eexists. split; reflexivity. Qed.
