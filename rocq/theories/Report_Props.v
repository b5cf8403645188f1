(** * Properties of the way of SimpLL's results to the tool (C136, C137) *)
From Coq Require Import String Ascii ZArith Arith Bool Lia Permutation Sorted List.
From Verif Require Import PyBase Result_Model Graph_Model Graph_Spec Source_Model Modcomp_Model Modcomp_Proofs Modcomp_Props Build_Props Report_Model Report_Spec Report_Proofs.
Import ListNotations.
Open Scope list_scope.

(** ** C136 *)
Section Arrival.
  Context {W F C V : Type} `{EqB F}.
  Variable E : Modcomp_Model.env W F C V nonfun.
  Variable file : F -> string.
  Variable line : F -> Z.
  Variable counts : F * F -> stats.
  Variable var_name : V -> string.
  Lemma text_of_verdict k : exists x, kind_from_string (verdict_text k) = Ok x /\ Same_verdict k x.
  Proof. destruct k; eexists; (split; [reflexivity|constructor]). Qed.
  Lemma write_ok l r x : both x -> yresult_ok (write_result E file line counts ((l, r), x)).
  Proof.
    intros B. unfold yresult_ok. cbn. split; [destruct (text_of_verdict (r_kind x)) as (k & K & _); eauto|]. split.
    - destruct (in_set_order (r_right x)) eqn:R; [|discriminate]. apply (proj1 (order_nil _)) in R. apply (proj2 B) in R. rewrite R. cbn. tauto.
    - intros o rest Q. destruct (r_objects x); [discriminate|]. injection Q as <- _. discriminate.
  Qed.
  Lemma arrives l r x v : both x -> represents (write_result E file line counts ((l, r), x)) v -> Arrived E file line counts l r x v.
  Proof.
    intros B (N & K & O & S & FI & L & ST & _). cbn [write_result yr_first yr_second yr_result yr_objects yr_stats write_info yi_fun yi_file yi_line] in N, K, O, FI, L, ST.
    assert (CL : ycalls (write_result E file line counts ((l, r), x)) LEFT = map (write_call (file l)) (in_set_order (r_left x)) /\
                 ycalls (write_result E file line counts ((l, r), x)) RIGHT = map (write_call (file r)) (in_set_order (r_right x))).
    { unfold ycalls. cbn. destruct (in_set_order (r_left x)) eqn:Q.
      - apply (proj1 (order_nil _)) in Q. apply (proj1 B) in Q. rewrite Q. split; reflexivity.
      - split; [reflexivity|]. destruct (in_set_order (r_right x)); reflexivity. }
    destruct CL as (CL & CR). rewrite CL, CR in S.
    constructor.
    - exact N.
    - destruct (text_of_verdict (r_kind x)) as (k & K' & SV). rewrite K' in K. injection K as <-. exact SV.
    - rewrite S. apply same_calls.
    - rewrite S. apply same_calls.
    - rewrite objects_read in O. congruence.
    - exact FI.
    - rewrite L. apply line_read.
    - rewrite L. apply line_read.
    - exact ST.
  Qed.
  Lemma stored_iff l r x k : stored_as (write_result E file line counts ((l, r), x)) k <-> Stored E l r k.
  Proof. reflexivity. Qed.
  Lemma stored_some l r : exists k, Stored E l r k.
  Proof.
    destruct (has_char "." (e_name E l)) eqn:D.
    - exists (e_name E l). left. split; [|reflexivity]. clear - D. induction (e_name E l) as [|c s IH]; [discriminate|]. cbn [has_char] in D. rewrite Ascii.eqb_sym in D. destruct (Ascii.eqb c ".") eqn:Q.
      + apply Ascii.eqb_eq in Q. subst c. exists ""%string, s. reflexivity.
      + destruct (IH D) as (a & b & ->). exists (String c a), b. reflexivity.
    - exists (e_name E r). right. split; [|reflexivity]. intros (a & b & Q). rewrite Q in D. clear Q. induction a as [|c a IH]; [discriminate|]. cbn [append has_char] in D. destruct (Ascii.eqb "." c); [discriminate|auto].
  Qed.
  Lemma missing_reported v : Reported E var_name v ((match (match v with Some (VFun f) => Some (e_name E f) | Some (VVar x) => Some (var_name x) | None => None end) with Some EmptyString => None | n => n end)).
  Proof.
    destruct v as [[f|x]|]; [| |constructor].
    - destruct (e_name E f) eqn:Q; [apply Rep_fun_unnamed; exact Q|]. rewrite <- Q. apply Rep_fun. congruence.
    - destruct (var_name x) eqn:Q; [apply Rep_var_unnamed; exact Q|]. rewrite <- Q. apply Rep_var. congruence.
  Qed.
  (** Whenever SimpLL finishes comparing two functions, the tool reads what is reported without an error; every entry of what it has
      read is the result of a pair of functions, with the verdict, the calls, the differing objects and the places of that result; every
      pair has an entry; the entry is its own unless another pair has the same key; and the values without definitions are those found. *)
  Theorem C136_results_arrive n w l r d same missing : compare_functions E n w l r = Done (d, same, missing) ->
    exists ys ms, report E file line counts var_name n w l r = Done (ys, ms) /\
      (forall h0 n0, exists h n1 g, built h0 n0 ys h n1 g /\
        (forall k v, dget (g_verts g) k = Some v -> exists a b x, dget d (a, b) = Some x /\ Stored E a b k /\ Arrived E file line counts a b x (h v)) /\
        (forall a b x, dget d (a, b) = Some x -> exists k v, Stored E a b k /\ dget (g_verts g) k = Some v) /\
        (forall a b x k, dget d (a, b) = Some x -> Stored E a b k ->
           (forall a' b', dget d (a', b') <> None -> Stored E a' b' k -> (a', b') = (a, b)) ->
           exists v, dget (g_verts g) k = Some v /\ Arrived E file line counts a b x (h v))) /\
      Forall2 (fun p q => Reported E var_name (fst p) (fst q) /\ Reported E var_name (snd p) (snd q)) missing ms.
  Proof.
    intros Q. pose proof (listed_both E n w l r d same missing Q) as LB.
    assert (ND : NoDup (dkeys d)).
    { clear LB. unfold compare_functions in Q. destruct (compare E n l r (start w)) as [st| |] eqn:CQ; cbn [Modcomp_Model.obind] in Q; try discriminate. injection Q as <- _ _.
      apply (listed_single E). apply (compare_single E n l r (start w) st CQ). constructor. }
    exists (map (write_result E file line counts) d), (map (write_missing E var_name) missing). split; [unfold report; rewrite Q; reflexivity|]. split.
    - intros h0 n0. destruct (C57_wellformed_output_accepted h0 n0 (map (write_result E file line counts) d)) as (h & n1 & g & BU).
      { apply Forall_forall. intros y I. apply in_map_iff in I as ([[a b] x] & <- & I). apply write_ok. eapply LB. exact I. }
      exists h, n1, g. split; [exact BU|]. destruct (C57_graph_represents_output _ _ _ _ _ _ BU) as (_ & G1 & G2 & _).
      assert (GET : forall k v, dget (g_verts g) k = Some v -> exists a b x, dget d (a, b) = Some x /\ Stored E a b k /\ Arrived E file line counts a b x (h v)).
      { intros k v D. destruct (G1 _ _ D) as (i & y & _ & I & S & RE & _). apply nth_error_In in I. apply in_map_iff in I as ([[a b] x] & <- & I).
        exists a, b, x. split; [apply dget_In_NoDup; assumption|]. split; [exact S|]. apply arrives; [eapply LB; exact I|exact RE]. }
      assert (KEY : forall a b x k, dget d (a, b) = Some x -> Stored E a b k -> exists v, dget (g_verts g) k = Some v).
      { intros a b x k D S. destruct (dget (g_verts g) k) as [v|] eqn:GV; [eauto|]. exfalso. refine (proj1 (G2 k) GV (write_result E file line counts ((a, b), x)) _ S). apply in_map. apply dget_In. exact D. }
      split; [exact GET|]. split.
      + intros a b x D. destruct (stored_some a b) as (k & S). destruct (KEY _ _ _ _ D S) as (v & GV). eauto.
      + intros a b x k D S U. destruct (KEY _ _ _ _ D S) as (v & GV). exists v. split; [exact GV|]. destruct (GET _ _ GV) as (a' & b' & x' & D' & S' & AR).
        assert (P : (a', b') = (a, b)) by (apply U; [congruence|exact S']). injection P as -> ->. rewrite D in D'. injection D' as <-. exact AR.
    - clear Q. induction missing as [|p missing IH]; cbn [map]; constructor; [|exact IH]. destruct p as [a b]. split; cbn [fst snd write_missing]; [pose proof (missing_reported a) as M; destruct a as [[?|?]|]|pose proof (missing_reported b) as M; destruct b as [[?|?]|]]; try (destruct (e_name E _); exact M); try (destruct (var_name _); exact M); exact M.
  Qed.
End Arrival.
Print Assumptions C136_results_arrive.

(** It would not be so if only one of the functions had calls: with calls of the first one only, reading fails; with calls of the second
    one only, they are lost. *)
Definition one_sided (first second : bool) : @Modcomp_Model.result nonfun :=
  mkresult Modcomp_Model.EQUAL (if first then [("g"%string, (3%Z, false))] else []) (if second then [("g"%string, (3%Z, false))] else []) [].
Definition two_functions (body : nat -> comp bool nat unit unit nonfun) : Modcomp_Model.env bool nat unit unit nonfun := {|
  e_name := fun n => match n with 0 => "f" | 1 => "g" | 2 => "h" | _ => "k" end%string; e_declared := fun _ f => f =? 3; e_cached := fun _ _ => false; e_abstraction := fun _ => false;
  e_intrinsic := fun _ => false; e_asm := fun _ => None; e_present := fun _ _ _ => false; e_callee := fun _ _ => None; e_inline := fun _ _ => None; e_simplify := fun w _ => w;
  e_body := fun _ l _ => body l; e_control_flow := false; e_splits := false |}.
Theorem C136_one_sided_calls_refuted :
  let write x := [write_result (two_functions (fun _ => Answer true)) (fun _ => "a.c"%string) (fun _ => 1%Z) (fun _ => no_stats) ((0, 0), x)] in
  fold_res add_result (start_heap, 0, empty_graph) (write (one_sided true false)) = Err KeyError /\
  exists h n g v, built start_heap 0 (write (one_sided false true)) h n g /\ dget (g_verts g) "f"%string = Some v /\ snd (v_succ (h v)) = [] /\ r_right (one_sided false true) <> [].
Proof. split; [reflexivity|]. eexists _, _, _, _. split; [reflexivity|]. split; [reflexivity|]. split; [reflexivity|discriminate]. Qed.
Print Assumptions C136_one_sided_calls_refuted.

(** f calls h and g, g has a differing type, and a definition is missing. *)
Definition reported_program := two_functions (fun f => match f with
  | 0 => Globals 2 2 5%Z 6%Z (fun _ _ => Globals 1 1 7%Z 8%Z (fun _ _ => Globals 3 4 9%Z 9%Z (fun _ _ => Answer true)))
  | 1 => Differs (TypeDiff "struct s" "g" ([], []) ("a.h", "a.h")%string (1%Z, 2%Z)) (Answer false)
  | _ => Answer true end).
Example C136_example : exists d same missing, compare_functions reported_program 5 false 0 0 = Done (d, same, missing) /\ length d = 4 /\ length missing = 1 /\
  report reported_program (fun f => if f =? 0 then "a.c"%string else "b.c"%string) (fun f => Z.of_nat f) (fun _ => no_stats) (fun _ => ""%string) 5 false 0 0 = Done (
    [mkYResult "equal" (mkYInfo "f" (Some "a.c") None (Some [mkYCall "g" "a.c" 7 false; mkYCall "h" "a.c" 5 false; mkYCall "k" "a.c" 9 false]))
                       (mkYInfo "f" (Some "a.c") None (Some [mkYCall "g" "a.c" 8 false; mkYCall "h" "a.c" 6 false; mkYCall "k" "a.c" 9 false])) no_stats [];
     mkYResult "equal" (mkYInfo "h" (Some "b.c") (Some 2%Z) None) (mkYInfo "h" (Some "b.c") (Some 2%Z) None) no_stats [];
     mkYResult "not-equal" (mkYInfo "g" (Some "b.c") (Some 1%Z) None) (mkYInfo "g" (Some "b.c") (Some 1%Z) None) no_stats [YNonfun (TypeDiff "struct s" "g" ([], []) ("a.h", "a.h") (1%Z, 2%Z))];
     mkYResult "assumed-equal" (mkYInfo "k" (Some "b.c") (Some 3%Z) None) (mkYInfo "k" (Some "b.c") (Some 4%Z) None) no_stats []]%string, [(Some "k"%string, None)]).
Proof. eexists _, _, _. split; [vm_compute; reflexivity|]. split; [reflexivity|]. split; [reflexivity|]. vm_compute. reflexivity. Qed.

(** ** C137 *)
(** A text shorter than 1000000 bytes is read as it was written, and no other memory changes. *)
Theorem C137_short_text m buffer text : No_zero text -> (Z.of_nat (String.length text) < 1000000)%Z ->
  snd (hand_over m buffer text) = text /\ forall a, (a < buffer \/ buffer + 1000000 <= a)%Z -> fst (hand_over m buffer text) a = m a.
Proof.
  intros N L. cbn [hand_over fst snd]. split.
  - apply read_back; [exact N|unfold buffer_size; lia|]. intros i I. rewrite strcpy_at by exact N. destruct (Z.ltb_spec i buffer); [lia|].
    destruct (String.get (Z.to_nat (i - buffer)) text) eqn:G; [reflexivity|]. assert (G' : String.length text <= Z.to_nat (i - buffer)).
    { clear - G. revert G. generalize (Z.to_nat (i - buffer)). induction text as [|c s IH]; intros k G; [cbn; lia|]. destruct k; [discriminate|]. cbn in *. apply IH in G. lia. }
    destruct (Z.eqb_spec i (buffer + Z.of_nat (String.length text))); [reflexivity|lia].
  - intros a A. rewrite strcpy_at by exact N. destruct (Z.ltb_spec a buffer); [reflexivity|].
    destruct (String.get (Z.to_nat (a - buffer)) text) eqn:G.
    + exfalso. assert (G' : Z.to_nat (a - buffer) < String.length text).
      { clear - G. revert G. generalize (Z.to_nat (a - buffer)). induction text as [|c s IH]; intros k G; [destruct k; discriminate|]. destruct k; cbn in *; [lia|]. apply IH in G. lia. }
      lia.
    + destruct (Z.eqb_spec a (buffer + Z.of_nat (String.length text))); [lia|reflexivity].
Qed.
Print Assumptions C137_short_text.
(** The bytes of a longer text are written behind the buffer, whatever is there, and the text is not read as it was. *)
Theorem C137_long_text m buffer text : No_zero text -> (1000000 <= Z.of_nat (String.length text))%Z ->
  (forall i c, String.get i text = Some c -> fst (hand_over m buffer text) (buffer + Z.of_nat i)%Z = c) /\
  fst (hand_over m buffer text) (buffer + Z.of_nat (String.length text))%Z = "000"%char /\
  (String.length (snd (hand_over m buffer text)) <= Z.to_nat 1000000).
Proof.
  intros N L. cbn [hand_over fst snd]. split; [|split].
  - intros i c G. rewrite strcpy_at by exact N. destruct (Z.ltb_spec (buffer + Z.of_nat i) buffer); [lia|]. replace (Z.to_nat (buffer + Z.of_nat i - buffer)) with i by lia. rewrite G. reflexivity.
  - rewrite strcpy_at by exact N. destruct (Z.ltb_spec (buffer + Z.of_nat (String.length text)) buffer); [lia|].
    destruct (String.get _ text) eqn:G.
    + exfalso. assert (G' : Z.to_nat (buffer + Z.of_nat (String.length text) - buffer) < String.length text).
      { clear - G. revert G. generalize (Z.to_nat (buffer + Z.of_nat (String.length text) - buffer)). induction text as [|d s IH]; intros k G; [destruct k; discriminate|]. destruct k; cbn in *; [lia|]. apply IH in G. lia. }
      lia.
    + rewrite Z.eqb_refl. reflexivity.
  - change buffer_size with 1000000%Z. generalize (Z.to_nat 1000000). intros k. generalize (strcpy m buffer text). clear. intros m. revert buffer. induction k as [|k IH]; intros a; cbn [ffi_string]; [cbn; lia|].
    destruct (Ascii.eqb (m a) "000"); [cbn; lia|]. cbn [String.length]. specialize (IH (a + 1)%Z). lia.
Qed.
Print Assumptions C137_long_text.
Fixpoint repeated (n : nat) : string := match n with O => EmptyString | S k => String "x" (repeated k) end.
Lemma repeated_length n : String.length (repeated n) = n.
Proof. induction n; cbn; congruence. Qed.
Lemma repeated_no_zero n : No_zero (repeated n).
Proof.
  induction n as [|n IH]; intros a c b Q; [destruct a; discriminate|]. cbn [repeated] in Q. destruct a as [|d a]; cbn in Q; injection Q as Q Q'; [rewrite <- Q; discriminate|]. apply (IH a c b Q').
Qed.
(** So the results of a large comparison damage other memory of the tool. *)
Theorem C137_memory_kept_refuted : exists m buffer text a, No_zero text /\ (buffer + 1000000 <= a)%Z /\ fst (hand_over m buffer text) a <> m a.
Proof.
  exists (fun _ => "x"%char), 0%Z, (repeated (Z.to_nat 1000000)), 1000000%Z. split; [apply repeated_no_zero|]. split; [lia|].
  assert (LE : Z.of_nat (String.length (repeated (Z.to_nat 1000000))) = 1000000%Z) by (rewrite repeated_length; apply Z2Nat.id; lia).
  pose proof (C137_long_text (fun _ => "x"%char) 0%Z (repeated (Z.to_nat 1000000)) (repeated_no_zero _) ltac:(rewrite LE; lia)) as (_ & Q & _). rewrite LE in Q. rewrite Z.add_0_l in Q. rewrite Q. discriminate.
Qed.
Print Assumptions C137_memory_kept_refuted.
Example C137_example : No_zero "function-results: []" /\ (Z.of_nat (String.length "function-results: []") < 1000000)%Z.
Proof.
  split; [|reflexivity]. intros a c b Q -> . assert (H : forall s a b, s = (a ++ String "000" b)%string -> has_char "000" s = true).
  { clear. intros s a b ->. induction a as [|d a IH]; [reflexivity|]. cbn [append has_char]. rewrite IH. apply orb_true_r. }
  apply H in Q. discriminate Q.
Qed.
