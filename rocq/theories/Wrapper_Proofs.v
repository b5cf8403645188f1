(** * Lemmas about building with the compiler wrapper *)
From Coq Require Import String Ascii ZArith Arith Bool Lia List.
From Verif Require Import PyBase Path_Model Syndiff_Model Syndiff_Spec Syndiff_Proofs Wrapper_Model Wrapper_Spec.
From Verif Require Config_Model Config_Proofs Compare_Model Compare_Spec Compare_Proofs Output_Proofs.
Import ListNotations.
Open Scope list_scope.
Local Arguments Ascii.eqb : simpl never.

(** ** Suffixes *)
Lemma ends_in_iff a l : ends_in a l <-> existsb (endswith a) l = true.
Proof.
  rewrite existsb_exists. split.
  - intros (s & b & I & E). exists s. split; [exact I|]. apply endswith_spec. eauto.
  - intros (s & I & E). apply endswith_spec in E as (b & E). exists s, b. auto.
Qed.
Lemma object_iff a : is_object_file a = true <-> object a.
Proof. unfold object. rewrite ends_in_iff. unfold is_object_file. cbn. rewrite orb_false_r, orb_assoc. reflexivity. Qed.
Lemma source_iff a : is_source_file a = true <-> source a.
Proof. unfold source. rewrite ends_in_iff. unfold is_source_file. cbn. rewrite orb_false_r. reflexivity. Qed.
Lemma ir_iff a : endswith a ".ll" || endswith a ".llw" = true <-> ir_file a.
Proof. unfold ir_file. rewrite ends_in_iff. cbn. rewrite orb_false_r. reflexivity. Qed.
Lemma object_dot a : object a -> has_char "." a = true.
Proof.
  intros (s & b & I & ->). assert (E : has_char "." s = true) by (destruct I as [<-|[<-|[<-|[]]]]; reflexivity).
  induction b as [|c b IH]; [exact E|]. cbn. rewrite IH, orb_true_r. reflexivity.
Qed.
Lemma to_ll_spec a : object a -> ll_name a (to_ll a).
Proof.
  intros O. unfold to_ll. pose proof (Config_Proofs.rsplit_spec "." a) as S. destruct (Config_Model.rsplit "." a) as [[b e]|].
  - destruct S as [-> H]. exists b, e. auto.
  - apply object_dot in O. congruence.
Qed.
Lemma snoc_char_inj a b x y : (a ++ String x "")%string = (b ++ String y "")%string -> a = b /\ x = y.
Proof.
  revert b. induction a as [|c a IH]; intros [|d b]; cbn; intros E.
  - injection E as ->. auto.
  - injection E as -> E. destruct b; discriminate.
  - injection E as <- E. destruct a; discriminate.
  - injection E as -> E. apply IH in E as [-> ->]. auto.
Qed.
Lemma to_ll_ends a : endswith (to_ll a) ".ll" = true.
Proof. apply endswith_spec. unfold to_ll. eauto. Qed.
Lemma llw_not_ll a : endswith (a ++ ".llw") ".ll" = false.
Proof.
  destruct (endswith (a ++ ".llw") ".ll") eqn:E; [|reflexivity]. apply endswith_spec in E as (b & E).
  change (a ++ ".llw")%string with (a ++ (".ll" ++ String "w" ""))%string in E. rewrite <- app_assoc_s in E.
  change (b ++ ".ll")%string with (b ++ (".l" ++ String "l" ""))%string in E. rewrite <- (app_assoc_s b) in E.
  apply snoc_char_inj in E as [_ E]. discriminate.
Qed.

(** ** The arguments *)
Fixpoint keep (drop : list string) (prev : option string) (args : list string) : list (option string * string) :=
  match args with
  | [] => []
  | a :: l => if mem a drop then keep drop (Some a) l else (prev, a) :: keep drop (Some a) l
  end.
Lemma keep_iff drop args : forall prev ks, Kept_args drop prev args ks <-> ks = keep drop prev args.
Proof.
  induction args as [|a l IH]; intros prev ks; cbn [keep].
  - split; [intros H; inversion H; reflexivity|intros ->; constructor].
  - destruct (mem a drop) eqn:M.
    + apply mem_In in M. split.
      * intros H. inversion H; subst; [apply IH; assumption|contradiction].
      * intros ->. apply ka_drop; [exact M|apply IH; reflexivity].
    + assert (N : ~ In a drop) by (intros X; apply mem_In in X; congruence). split.
      * intros H. inversion H; subst; [contradiction|]. f_equal. apply IH. assumption.
      * intros ->. apply ka_keep; [exact N|apply IH; reflexivity].
Qed.
Lemma kept_In drop args : forall prev ks k, Kept_args drop prev args ks -> In k ks -> In (snd k) args /\ ~ In (snd k) drop.
Proof.
  intros prev ks k H. induction H as [p|p a l ks I H IH|p a l ks N H IH]; cbn; [tauto|tauto|].
  intros [<-|J]; [cbn; auto|]. destruct (IH J). auto.
Qed.

Definition outb (k : option string * string) : bool := opt_eqb (fst k) (Some "-o"%string).
Lemma outb_iff k : outb k = true <-> is_output k.
Proof. unfold outb, is_output. destruct (opt_eqb_spec (fst k) (Some "-o"%string)); split; congruence. Qed.
Lemma outb_false k : outb k = false <-> is_input k.
Proof. unfold is_input. rewrite <- outb_iff. destruct (outb k); split; congruence. Qed.

Definition tr (linking : bool) (k : option string * string) : string :=
  if outb k then
    if is_object_file (snd k) then (if linking then snd k else to_ll (snd k))
    else (if linking then (snd k ++ ".llw")%string else snd k)
  else if is_object_file (snd k) && linking then to_ll (snd k) else snd k.
Lemma tr_compile k b : b = tr false k -> compile_arg k b.
Proof.
  intros ->. unfold tr, compile_arg. destruct (outb k) eqn:O.
  - apply outb_iff in O. destruct (is_object_file (snd k)) eqn:F.
    + apply object_iff in F. left. auto using to_ll_spec.
    + right. split; [|reflexivity]. intros [_ X]. apply object_iff in X. congruence.
  - apply outb_false in O. unfold is_input in O. rewrite andb_false_r. right. split; [|reflexivity]. tauto.
Qed.
Lemma tr_link k b : b = tr true k -> link_arg k b.
Proof.
  intros ->. unfold tr, link_arg. destruct (outb k) eqn:O.
  - apply outb_iff in O. destruct (is_object_file (snd k)) eqn:F.
    + apply object_iff in F. left. auto.
    + right. left. split; [exact O|]. split; [|reflexivity]. intros X. apply object_iff in X. congruence.
  - apply outb_false in O. rewrite andb_true_r. destruct (is_object_file (snd k)) eqn:F.
    + apply object_iff in F. right. right. left. auto using to_ll_spec.
    + right. right. right. split; [exact O|]. split; [|reflexivity]. intros X. apply object_iff in X. congruence.
Qed.
Lemma has_char_mid c s e : has_char c (s ++ String c e) = true.
Proof. induction s as [|x s IH]; cbn; [rewrite Ascii.eqb_refl; reflexivity|rewrite IH, orb_true_r; reflexivity]. Qed.
Lemma ll_name_fun a b c : ll_name a b -> ll_name a c -> b = c.
Proof.
  intros (s & e & -> & N & ->) (s' & e' & E & N' & ->). f_equal.
  revert s' E. induction s as [|x s IH]; intros [|y s'] E; cbn in E.
  - reflexivity.
  - injection E as <- E. subst e. rewrite (has_char_mid "." s' e') in N. discriminate.
  - injection E as -> E. subst e'. rewrite (has_char_mid "." s e) in N'. discriminate.
  - injection E as -> E. f_equal. apply IH, E.
Qed.
Lemma compile_fun k b c : compile_arg k b -> compile_arg k c -> b = c.
Proof.
  unfold compile_arg. intros [(A & B & L)|(A & ->)] [(A' & B' & L')|(A' & ->)]; try tauto. eapply ll_name_fun; eassumption.
Qed.
Lemma link_fun k b c : link_arg k b -> link_arg k c -> b = c.
Proof.
  unfold link_arg, is_input. intros [(A & B & ->)|[(A & B & ->)|[(A & B & L)|(A & B & ->)]]]
    [(A' & B' & L')|[(A' & B' & L')|[(A' & B' & L')|(A' & B' & L')]]]; try tauto; try congruence. eapply ll_name_fun; eassumption.
Qed.
Definition R (linking : bool) := if linking then link_arg else compile_arg.
Lemma R_iff linking k b : R linking k b <-> b = tr linking k.
Proof.
  destruct linking; cbn; split.
  - intros H. eapply link_fun; [exact H|apply tr_link; reflexivity].
  - apply tr_link.
  - intros H. eapply compile_fun; [exact H|apply tr_compile; reflexivity].
  - apply tr_compile.
Qed.

Fixpoint last_output (linking : bool) (ks : list (option string * string)) (acc : option string) : option string :=
  match ks with
  | [] => acc
  | k :: ks' => last_output linking ks' (if outb k then Some (tr linking k) else acc)
  end.
Lemma last_output_acc linking ks : forall acc f, last_output linking ks acc = Some f <->
  (output_is (R linking) ks f \/ (no_output ks /\ acc = Some f)).
Proof.
  induction ks as [|k ks IH]; intros acc f; cbn [last_output].
  - split; [intros ->; right; split; [constructor|reflexivity]|]. intros [(pre & k & post & E & _)|[_ E]]; [destruct pre; discriminate|exact E].
  - rewrite IH. clear IH. split.
    + intros [(pre & k' & post & -> & O & F & X)|(N & E)].
      * left. exists (k :: pre), k', post. auto.
      * destruct (outb k) eqn:O.
        -- injection E as <-. left. exists [], k, ks. split; [reflexivity|]. split; [apply outb_iff, O|]. split; [exact N|]. apply R_iff. reflexivity.
        -- right. split; [|exact E]. constructor; [apply outb_false, O|exact N].
    + intros [(pre & k' & post & E & O & F & X)|(N & E)].
      * destruct pre as [|p pre]; cbn in E; injection E as -> ->.
        -- right. split; [exact F|]. apply outb_iff in O. rewrite O. f_equal. symmetry. apply R_iff, X.
        -- left. exists pre, k', post. auto.
      * inversion N as [|? ? Nk Nl]; subst. right. split; [exact Nl|]. apply outb_false in Nk. rewrite Nk. reflexivity.
Qed.
Lemma last_output_Some linking ks f : last_output linking ks None = Some f <-> output_is (R linking) ks f.
Proof. rewrite last_output_acc. split; [intros [H|[_ H]]; [exact H|discriminate]|auto]. Qed.
Lemma last_output_None linking ks : last_output linking ks None = None <-> no_output ks.
Proof.
  split.
  - intros E. apply Forall_forall. intros k I. apply outb_false. destruct (outb k) eqn:O; [|reflexivity]. exfalso.
    assert (G : forall acc, exists f, last_output linking ks acc = Some f).
    { clear E. induction ks as [|x ks IH]; [destruct I|]. intros acc. cbn [last_output]. destruct I as [->|I]; [|apply IH, I].
      rewrite O. clear. generalize (tr linking k). induction ks as [|y ks IH]; intros t; cbn [last_output]; [eauto|].
      destruct (outb y); apply IH. }
    destruct (G None) as [f X]. congruence.
  - intros N. destruct (last_output linking ks None) as [f|] eqn:E; [|reflexivity]. exfalso.
    apply last_output_Some in E as (pre & k & post & -> & O & _). apply Forall_app in N as [_ N]. inversion N; contradiction.
Qed.

Definition in_object (k : option string * string) : bool := negb (outb k) && is_object_file (snd k).
Definition in_source (k : option string * string) : bool := negb (outb k) && is_source_file (snd k).
Lemma not_both a : is_object_file a = true -> is_source_file a = true -> False.
Proof.
  intros O S. apply endswith_spec in S as (b & ->). apply object_iff in O as (s & c & I & E).
  change ".c"%string with ("." ++ String "c" "")%string in E. rewrite <- app_assoc_s in E.
  destruct I as [<-|[<-|[<-|[]]]].
  - change ".o"%string with ("." ++ String "o" "")%string in E. rewrite <- (app_assoc_s c) in E. apply snoc_char_inj in E as [_ E]. discriminate.
  - change ".lo"%string with (".l" ++ String "o" "")%string in E. rewrite <- (app_assoc_s c) in E. apply snoc_char_inj in E as [_ E]. discriminate.
  - change ".ko"%string with (".k" ++ String "o" "")%string in E. rewrite <- (app_assoc_s c) in E. apply snoc_char_inj in E as [_ E]. discriminate.
Qed.
Lemma phase1_loop_eq link drop linking args : forall prev st,
  phase1_loop link drop linking prev args st =
  let ks := keep drop prev args in
  mkPhase1 (p_argv st ++ map (tr linking) ks)
           (if linking && existsb in_object ks then link else p_clang st)
           (p_sources st || linking && existsb in_source ks)
           (last_output linking ks (p_output st)).
Proof.
  induction args as [|a l IH]; intros prev st; cbn [phase1_loop keep].
  - cbn. rewrite app_nil_r, !andb_false_r, orb_false_r. destruct st; reflexivity.
  - rewrite IH. unfold phase1_step. destruct (mem a drop); [reflexivity|]. cbn [map existsb last_output].
    unfold tr, in_object, in_source, outb. cbn [fst snd].
    destruct (opt_eqb prev (Some "-o"%string)); cbn [negb andb orb p_argv p_clang p_sources p_output].
    + rewrite <- app_assoc. cbn [app]. destruct (is_object_file a), linking; reflexivity.
    + destruct (is_object_file a) eqn:O; cbn [andb].
      * destruct linking; cbn [andb p_argv p_clang p_sources p_output]; rewrite <- ?app_assoc; cbn [app orb].
        -- destruct (is_source_file a) eqn:S; [exfalso; eauto using not_both|].
           cbn [orb]. destruct (existsb _ (keep drop (Some a) l)); reflexivity.
        -- rewrite ?andb_false_r. cbn [p_argv p_clang p_sources p_output]. rewrite <- ?app_assoc. reflexivity.
      * destruct (is_source_file a); destruct linking; cbn [andb p_argv p_clang p_sources p_output]; rewrite <- ?app_assoc; cbn [app orb];
          rewrite ?orb_true_r, ?andb_false_r; cbn [p_argv p_clang p_sources p_output]; rewrite <- ?app_assoc; reflexivity.
Qed.

Lemma analyse_eq clang link drop args : ~ In "gcc"%string drop ->
  analyse clang link drop args =
  let linking := negb (mem "-c"%string args) in
  let ks := keep drop None args in
  let hybrid := linking && existsb in_source ks &&
                String.eqb (if linking && existsb in_object ks then link else clang) link in
  mkPhase1 (if hybrid then filter (fun a => negb (endswith a ".ll")) ("gcc"%string :: map (tr linking) ks)
            else "gcc"%string :: map (tr linking) ks)
           (if hybrid then clang else if linking && existsb in_object ks then link else clang)
           (linking && existsb in_source ks)
           (last_output linking ks None).
Proof.
  intros N. unfold analyse. assert (M : mem "gcc"%string drop = false) by (destruct (mem "gcc"%string drop) eqn:M; [apply mem_In in M; contradiction|reflexivity]).
  set (linking := negb (mem "-c"%string ("gcc"%string :: args))). change (negb (mem "-c"%string args)) with linking.
  set (st0 := phase1_step link drop linking None (mkPhase1 [] clang false None) "gcc").
  assert (E0 : st0 = mkPhase1 ["gcc"%string] clang false None) by (unfold st0, phase1_step; rewrite M; destruct linking; reflexivity).
  assert (E : match args with [] => st0 | a :: rest => phase1_loop link drop linking (Some a) rest (phase1_step link drop linking None st0 a) end
              = phase1_loop link drop linking None args st0) by (destruct args; reflexivity).
  cbv zeta. rewrite E, phase1_loop_eq, E0. cbv zeta. cbn [p_argv p_clang p_sources p_output app orb].
  destruct (linking && existsb in_source (keep drop None args)); cbn [andb]; [|reflexivity].
  destruct (String.eqb _ link); reflexivity.
Qed.

Lemma links_objects_iff ks : existsb in_object ks = true <-> links_objects ks.
Proof.
  rewrite existsb_exists. unfold in_object, links_objects. split; intros (k & I & H); exists k.
  - apply andb_true_iff in H as [H1 H2]. apply negb_true_iff, outb_false in H1. apply object_iff in H2. auto.
  - destruct H as [H1 H2]. apply outb_false in H1. apply object_iff in H2. rewrite H1, H2. auto.
Qed.
Lemma compiles_sources_iff ks : existsb in_source ks = true <-> compiles_sources ks.
Proof.
  rewrite existsb_exists. unfold in_source, compiles_sources. split; intros (k & I & H); exists k.
  - apply andb_true_iff in H as [H1 H2]. apply negb_true_iff, outb_false in H1. apply source_iff in H2. auto.
  - destruct H as [H1 H2]. apply outb_false in H1. apply source_iff in H2. rewrite H1, H2. auto.
Qed.
Lemma skipped_iff linking args ks : skipped args (last_output linking ks None) = true <-> not_repeated (R linking) args ks.
Proof.
  unfold skipped, not_repeated. rewrite orb_true_iff. change (mem "conftest.c"%string ("gcc"%string :: args)) with (mem "conftest.c"%string args).
  rewrite mem_In. apply or_iff_compat_r. destruct (last_output linking ks None) as [f|] eqn:E.
  - pose proof E as E'. apply last_output_Some in E'. rewrite orb_true_iff, mem_In. rewrite <- negb_orb, negb_true_iff.
    assert (X : (endswith f ".ll" || endswith f ".llw" = false) <-> ~ ir_file f).
    { rewrite <- ir_iff. destruct (endswith f ".ll" || endswith f ".llw"); split; congruence. }
    rewrite X. split.
    + intros H. exists f. split; [exact E'|]. cbn in H. intuition.
    + intros (f' & O & H). apply last_output_Some in O. rewrite E in O. injection O as <-. cbn. intuition.
  - split; [discriminate|]. intros (f & O & _). apply last_output_Some in O. congruence.
Qed.

(** ** The command of llvm-link *)
Section Linking.
  Variables (ex : string -> bool) (link : string) (drop : list string).
  Let P (a : string) : bool := String.eqb a link || endswith a ".ll" || endswith a ".llw" || String.eqb a "-o".
  Lemma P_iff a : P a = true <-> (a = link \/ ir_file a \/ a = "-o"%string).
  Proof.
    unfold P. rewrite <- ir_iff, !orb_true_iff, !String.eqb_eq. tauto.
  Qed.
  Lemma dash_not_ir : ~ ir_file "-o"%string.
  Proof. intros H. apply ir_iff in H. discriminate. Qed.
  Lemma link_cmd args : forall prev,
    ~ In link args -> ~ In "-o"%string drop ->
    (forall a post, prev = Some "-o"%string -> args = a :: post -> ~ In a drop /\ a <> "-o"%string /\ ~ object a) ->
    (forall pre a post, args = pre ++ "-o"%string :: a :: post -> ~ In a drop /\ a <> "-o"%string /\ ~ object a) ->
    let ks := keep drop prev args in
    Link_args ex (combine ks (map (tr true) ks))
      (keep_existing ex (opt_eqb prev (Some "-o"%string)) (filter P (map (tr true) ks))).
  Proof.
    induction args as [|a args IH]; intros prev NL ND H1 H2; cbn [keep map filter combine]; [constructor|].
    assert (NL' : ~ In link args) by (intros X; apply NL; right; exact X).
    assert (IH' : let ks := keep drop (Some a) args in Link_args ex (combine ks (map (tr true) ks))
      (keep_existing ex (opt_eqb (Some a) (Some "-o"%string)) (filter P (map (tr true) ks)))).
    { apply IH; [exact NL'|exact ND| |].
      - intros b post E ->. injection E as ->. apply (H2 [] b post). reflexivity.
      - intros pre b post ->. apply (H2 (a :: pre) b post). reflexivity. }
    clear IH. cbv zeta in IH'. destruct (mem a drop) eqn:M.
    - apply mem_In in M.
      assert (A : a <> "-o"%string) by (intros ->; contradiction).
      assert (PO : prev <> Some "-o"%string) by (intros E; destruct (H1 a args E eq_refl) as [X _]; contradiction).
      assert (E1 : opt_eqb prev (Some "-o"%string) = false) by (destruct (opt_eqb_spec prev (Some "-o"%string)); [contradiction|reflexivity]).
      assert (E2 : opt_eqb (Some a) (Some "-o"%string) = false) by (destruct (opt_eqb_spec (Some a) (Some "-o"%string)) as [X|X]; [congruence|reflexivity]).
      rewrite E1. rewrite E2 in IH'. exact IH'.
    - cbn [map combine]. set (k := (prev, a)). assert (EO : opt_eqb prev (Some "-o"%string) = outb k) by reflexivity. rewrite EO.
      change (opt_eqb (Some a) (Some "-o"%string)) with (String.eqb a "-o") in IH'.
      destruct (outb k) eqn:O.
      + (* the output *)
        pose proof O as O'. apply outb_iff in O'. destruct (H1 a args O' eq_refl) as (_ & A & B).
        assert (T : tr true k = (a ++ ".llw")%string).
        { unfold tr. rewrite O. cbn [snd k]. destruct (is_object_file a) eqn:F; [|reflexivity]. apply object_iff in F. contradiction. }
        assert (I : ir_file (a ++ ".llw")%string) by (exists ".llw"%string, a; cbn; auto).
        cbn [filter]. rewrite T. assert (PT : P (a ++ ".llw") = true) by (apply P_iff; auto). rewrite PT. cbn [keep_existing orb].
        apply la_output; [left; exact O'|].
        assert (D : String.eqb (a ++ ".llw") "-o" = false) by (apply String.eqb_neq; intros X; rewrite X in I; exact (dash_not_ir I)).
        rewrite D. apply String.eqb_neq in A. rewrite A in IH'. exact IH'.
      + pose proof O as O'. apply outb_false in O'. destruct (String.eqb_spec a "-o") as [->|A].
        * (* -o itself *)
          assert (T : tr true k = "-o"%string) by (unfold tr; rewrite O; reflexivity).
          cbn [filter]. rewrite T. assert (PT : P "-o" = true) by (apply P_iff; auto). rewrite PT. cbn [keep_existing]. rewrite String.eqb_refl, orb_true_r.
          apply la_output; [right; reflexivity|exact IH'].
        * assert (TD : tr true k <> "-o"%string).
          { unfold tr. rewrite O. cbn [snd k]. destruct (is_object_file a && true); [|exact A]. intros X. pose proof (to_ll_ends a) as Y. rewrite X in Y. discriminate. }
          cbn [filter]. destruct (P (tr true k)) eqn:PT.
          -- assert (I : ir_file (tr true k)).
             { apply P_iff in PT as [X|[X|X]]; [|exact X|contradiction]. revert X. unfold tr. rewrite O. cbn [snd k].
               destruct (is_object_file a && true); [intros _; apply ir_iff; rewrite to_ll_ends; reflexivity|].
               intros ->. exfalso. apply NL. left. reflexivity. }
             cbn [keep_existing orb]. apply String.eqb_neq in TD. rewrite TD, orb_false_r. apply String.eqb_neq in TD.
             destruct (ex (tr true k)) eqn:E; [apply la_file; assumption|]. apply la_other; try assumption. intros [_ X]. congruence.
          -- apply la_other; try assumption. intros [X _]. assert (Y : P (tr true k) = true) by (apply P_iff; auto). congruence.
  Qed.
End Linking.

(** ** The database *)
Lemma concat_cons s l : String.concat "" (s :: l) = (s ++ String.concat "" l)%string.
Proof. destruct l as [|t l]; cbn; [rewrite app_nil_r_s; reflexivity|reflexivity]. Qed.
Lemma has_char_app c a b : has_char c (a ++ b) = has_char c a || has_char c b.
Proof. induction a as [|x a IH]; cbn; [reflexivity|]. rewrite IH, orb_assoc. reflexivity. Qed.
Lemma db_text_lines lines : Forall (fun l => has_char nl l = false /\ has_char cr l = false) lines ->
  readlines (universal (db_text lines)) = map (fun l => (l ++ String nl "")%string) lines.
Proof.
  intros F. unfold db_text. rewrite universal_id.
  - induction F as [|l ls [Hn _] F IH]; [reflexivity|]. cbn [map]. rewrite concat_cons, app_assoc_s. cbn [append].
    rewrite (readlines_full l _ Hn), IH. reflexivity.
  - induction F as [|l ls [_ Hc] F IH]; [reflexivity|]. cbn [map]. rewrite concat_cons, !has_char_app, IH, Hc. reflexivity.
Qed.
Lemma rstrip_ends p : (forall q c, p = (q ++ String c "")%string -> is_space c = false) -> rstrip p = p.
Proof.
  induction p as [|c p IH]; intros H; [reflexivity|]. cbn [rstrip]. destruct p as [|d p].
  - cbn. rewrite (H ""%string c eq_refl). reflexivity.
  - rewrite IH; [reflexivity|]. intros q x E. apply (H (String c q) x). cbn. rewrite E. reflexivity.
Qed.
Definition entry_of (kind p : string) : string := (kind ++ ":" ++ p)%string.
Lemma read_db_entries l : Forall (fun kp => (fst kp = "o" \/ fst kp = "f")%string /\ recordable (snd kp)) l ->
  read_db (db_text (map (fun kp => entry_of (fst kp) (snd kp)) l)) =
  Ok (map snd (filter (fun kp => String.eqb (fst kp) "o") l)).
Proof.
  intros F. unfold read_db. rewrite db_text_lines.
  2:{ apply Forall_map. eapply Forall_impl; [|exact F]. intros [k p] [K (_ & Hn & Hc & _)]. cbn [fst snd] in *. unfold entry_of.
      rewrite !has_char_app, Hn, Hc. destruct K as [-> | ->]; split; reflexivity. }
  induction F as [|[k p] l [K (Cp & Hn & Hc & W)] F IH]; [reflexivity|]. cbn [fst snd map] in *.
  destruct K as [-> | ->].
  - change (entry_of "o" p ++ String nl "")%string with (String "o" (String ":" (p ++ String nl "")))%string.
    cbn [filter]. replace (startswith (String "o" (String ":" (p ++ String nl "")))%string "o:") with true by reflexivity.
    cbn [map_res]. unfold second_part at 1.
    change (String "o" (String ":" (p ++ String nl "")))%string with ("o" ++ String ":" (p ++ String nl ""))%string.
    rewrite (split_char_app ":" "o" _ eq_refl).
    assert (Cq : has_char ":" (p ++ String nl "") = false) by (rewrite has_char_app, Cp; reflexivity).
    rewrite (split_char_no ":" _ Cq). cbn [bind]. rewrite IH. cbn [bind].
    rewrite rstrip_app by reflexivity. rewrite (rstrip_ends p W). reflexivity.
  - change (entry_of "f" p ++ String nl "")%string with (String "f" (String ":" (p ++ String nl "")))%string.
    cbn [filter]. replace (startswith (String "f" (String ":" (p ++ String nl "")))%string "o:") with false by reflexivity. exact IH.
Qed.
Lemma existing_entry ex kind p : has_char ":" kind = false -> has_char ":" p = false ->
  existing_entries ex [entry_of kind p] = Ok (if ex p then [entry_of kind p] else []).
Proof.
  intros K C. unfold existing_entries. cbn [fold_res]. unfold second_part, entry_of. cbn [append].
  rewrite (split_char_app ":" kind p K), (split_char_no ":" p C). cbn [bind]. destruct (ex p); reflexivity.
Qed.

(** ** Definitions in LLVM IR *)
Lemma take_word_spec s : forall w r, take_word s = (w, r) ->
  s = (w ++ r)%string /\ all_chars word_char w = true /\ (forall c r', r = String c r' -> word_char c = false).
Proof.
  induction s as [|c s IH]; intros w r E; cbn in E.
  - injection E as <- <-. split; [reflexivity|]. split; [reflexivity|]. discriminate.
  - destruct (word_char c) eqn:W.
    + destruct (take_word s) as [a b]. injection E as <- <-. destruct (IH a b eq_refl) as (-> & A & B). cbn. rewrite W, A. auto.
    + injection E as <- <-. split; [reflexivity|]. split; [reflexivity|]. intros d r' X. injection X as <- _. exact W.
Qed.
Lemma take_word_app w r : all_chars word_char w = true -> (forall c r', r = String c r' -> word_char c = false) -> take_word (w ++ r) = (w, r).
Proof.
  induction w as [|c w IH]; cbn; intros A B.
  - destruct r as [|c r]; [reflexivity|]. cbn. rewrite (B c r eq_refl). reflexivity.
  - apply andb_true_iff in A as [A1 A2]. rewrite A1, (IH A2 B). reflexivity.
Qed.
Lemma startswith_app s p : startswith s p = true <-> exists r, s = (p ++ r)%string.
Proof.
  revert s. induction p as [|c p IH]; intros s; cbn.
  - split; [eauto|reflexivity].
  - destruct s as [|d s]; [split; [discriminate|intros (r & E); discriminate]|]. rewrite andb_true_iff, IH. split.
    + intros [E (r & ->)]. apply Ascii.eqb_eq in E. subst d. exists r. reflexivity.
    + intros (r & E). injection E as -> ->. rewrite Ascii.eqb_refl. eauto.
Qed.
Lemma word_paren_spec s w : word_paren s = Some w <-> exists r, s = (w ++ "(" ++ r)%string /\ word w.
Proof.
  unfold word_paren, word. destruct (take_word s) as [a b] eqn:T. split.
  - destruct (String.eqb_spec a "") as [->|N]; [discriminate|]. destruct (startswith b "(") eqn:S; [|discriminate].
    intros E. injection E as ->. apply startswith_app in S as (r & ->). destruct (take_word_spec _ _ _ T) as (-> & A & _). exists r. auto.
  - intros (r & -> & N & A). rewrite take_word_app in T; [|exact A|intros c r' E; injection E as <- _; reflexivity].
    injection T as <- <-. apply String.eqb_neq in N. rewrite N. reflexivity.
Qed.
Lemma last_ref_None s : last_ref s = None <-> forall a m b, s = (a ++ "@" ++ m ++ "(" ++ b)%string -> ~ word m.
Proof.
  induction s as [|c s IH]; cbn [last_ref].
  - split; [|reflexivity]. intros _ a m b E. destruct a; discriminate.
  - destruct (last_ref s) as [w|] eqn:L.
    + split; [discriminate|]. intros H. exfalso. assert (X : Some w = None) by (apply IH; intros a m b ->; apply (H (String c a) m b); reflexivity). discriminate.
    + assert (IH' := proj1 IH eq_refl). clear IH. destruct (Ascii.eqb_spec c "@") as [->|N].
      * split.
        -- intros W a m b E Wm. destruct a as [|x a]; cbn in E.
           ++ injection E as E. assert (X : word_paren s = Some m) by (apply word_paren_spec; exists b; auto). congruence.
           ++ injection E as <- E. exact (IH' a m b E Wm).
        -- intros H. destruct (word_paren s) as [w|] eqn:W; [|reflexivity]. apply word_paren_spec in W as (r & -> & Ww).
           exfalso. apply (H ""%string w r); [reflexivity|exact Ww].
      * split; [|reflexivity]. intros _ a m b E Wm. destruct a as [|x a]; cbn in E; injection E as -> E; [congruence|]. exact (IH' a m b E Wm).
Qed.
Lemma last_ref_Some s : forall n, last_ref s = Some n <->
  exists a b, s = (a ++ "@" ++ n ++ "(" ++ b)%string /\ word n /\
    (forall a' m b', (n ++ "(" ++ b)%string = (a' ++ "@" ++ m ++ "(" ++ b')%string -> ~ word m).
Proof.
  induction s as [|c s IH]; intros n; cbn [last_ref].
  - split; [discriminate|]. intros (a & b & E & _). destruct a; discriminate.
  - destruct (last_ref s) as [w|] eqn:L.
    + split.
      * intros E. injection E as ->. destruct (proj1 (IH n) eq_refl) as (a & b & -> & W & H).
        exists (String c a), b. auto.
      * intros (a & b & E & W & H). apply IH. destruct a as [|x a]; cbn in E.
        -- injection E as -> E. exfalso. destruct (proj1 (IH w) eq_refl) as (a' & b' & E' & W' & _). rewrite E' in E. symmetry in E.
           exact (H a' w b' E W').
        -- injection E as -> ->. exists a, b. auto.
    + pose proof (proj1 (last_ref_None s) L) as NS. destruct (Ascii.eqb_spec c "@") as [->|N].
      * rewrite word_paren_spec. split.
        -- intros (r & -> & W). exists ""%string, r. split; [reflexivity|]. split; [exact W|]. intros a' m b' E. apply (NS a' m b' E).
        -- intros (a & b & E & W & H). destruct a as [|x a]; cbn in E.
           ++ injection E as E. exists b. auto.
           ++ injection E as <- E. exfalso. exact (NS a n b E W).
      * split; [discriminate|]. intros (a & b & E & W & H). destruct a as [|x a]; cbn in E; injection E as -> E; [congruence|]. exfalso. exact (NS a n b E W).
Qed.

Lemma expect_Some p s t : expect p s = Some t <-> s = (p ++ t)%string.
Proof.
  unfold expect. destruct (startswith s p) eqn:S.
  - apply startswith_app in S as (r & ->). rewrite drop_app. split; [congruence|]. intros E. f_equal.
    clear -E. induction p as [|c p IH]; cbn in E; [exact E|]. injection E as E. exact (IH E).
  - split; [discriminate|]. intros ->. assert (X : startswith (p ++ t) p = true) by (apply startswith_app; eauto). congruence.
Qed.
Lemma line_function_spec line n : line_function line = Some n <-> defines_line line n.
Proof.
  unfold line_function, defines_line. destruct (expect "define" line) as [s|] eqn:E.
  - apply expect_Some in E as ->. rewrite last_ref_Some. split; intros (a & b & X & H); exists a, b; (split; [|exact H]).
    + rewrite X. reflexivity.
    + cbn in X. injection X as X. exact X.
  - split; [discriminate|]. intros (a & b & -> & _). assert (X : expect "define" ("define" ++ a ++ "@" ++ n ++ "(" ++ b) = Some (a ++ "@" ++ n ++ "(" ++ b)%string) by (apply expect_Some; reflexivity). congruence.
Qed.
Lemma functions_in_spec text n : In n (functions_in text) <-> defines text n.
Proof.
  unfold functions_in, defines. rewrite in_flat_map. split; intros (l & I & H); exists l; split; try exact I.
  - destruct (line_function l) as [m|] eqn:E; cbn in H; [|tauto]. destruct H as [->|[]]. apply line_function_spec, E.
  - apply line_function_spec in H. rewrite H. left. reflexivity.
Qed.
Lemma defines_word text n : defines text n -> word n.
Proof. intros (l & _ & a & b & _ & W & _). exact W. Qed.

Lemma add_functions_get file ns : forall (d : dict string string) k,
  dget (fold_left (fun d n => dset d n file) ns d) k = if mem k ns then Some file else dget d k.
Proof.
  induction ns as [|n ns IH]; intros d k; cbn [fold_left]; [reflexivity|]. rewrite IH. destruct (mem k ns) eqn:M.
  - replace (mem k (n :: ns)) with true; [reflexivity|]. symmetry. apply mem_In. right. apply mem_In, M.
  - destruct (String.eqb_spec k n) as [->|N].
    + rewrite dget_dset_same. replace (mem n (n :: ns)) with true; [reflexivity|]. symmetry. apply mem_In. left. reflexivity.
    + rewrite dget_dset_other by exact N. destruct (mem k (n :: ns)) eqn:M2; [|reflexivity]. apply mem_In in M2 as [X|X]; [congruence|].
      apply mem_In in X. congruence.
Qed.
Lemma add_functions_NoDup file ns : forall d : dict string string, NoDup (dkeys d) -> NoDup (dkeys (fold_left (fun d n => dset d n file) ns d)).
Proof. induction ns as [|n ns IH]; intros d N; cbn [fold_left]; [exact N|]. apply IH, dset_NoDup, N. Qed.

Definition functions_step (f : string -> option string) (d : dict string string) (file : string) : res (dict string string) :=
  match f file with
  | None => Err AttributeError
  | Some text => Ok (fold_left (fun d n => dset d n file) (functions_in text) d)
  end.
Lemma functions_fold f files : forall d0,
  match fold_res (functions_step f) d0 files with
  | Ok d =>
      (forall file, In file files -> f file <> None) /\
      (NoDup (dkeys d0) -> NoDup (dkeys d)) /\
      forall n file, dget d n = Some file <->
        ((exists pre post text, files = pre ++ file :: post /\ f file = Some text /\ defines text n /\
           forall file' text', In file' post -> f file' = Some text' -> ~ defines text' n) \/
         ((forall file' text', In file' files -> f file' = Some text' -> ~ defines text' n) /\ dget d0 n = Some file))
  | Err e => e = AttributeError /\ exists file, In file files /\ f file = None
  end.
Proof.
  induction files as [|x files IH]; intros d0; cbn [fold_res].
  - split; [intros file []|]. split; [auto|]. intros n file. split.
    + intros E. right. split; [intros ? ? []|exact E].
    + intros [(pre & post & t & E & _)|[_ E]]; [destruct pre; discriminate|exact E].
  - unfold functions_step at 1. destruct (f x) as [text|] eqn:FX; cbn [bind]; [|split; [reflexivity|exists x; cbn; auto]].
    specialize (IH (fold_left (fun d n => dset d n x) (functions_in text) d0)).
    destruct (fold_res (functions_step f) _ files) as [d|e] eqn:E.
    + destruct IH as (A & B & C). split; [intros file [<-|I]; [congruence|apply A, I]|].
      split; [intros N; apply B, add_functions_NoDup, N|].
      intros n file. rewrite C, add_functions_get. clear C. split.
      * intros [(pre & post & t & -> & Ft & D & NX)|[NX G]].
        -- left. exists (x :: pre), post, t. auto.
        -- destruct (mem n (functions_in text)) eqn:M.
           ++ injection G as <-. apply mem_In, functions_in_spec in M. left. exists [], files, text. auto.
           ++ right. split; [|exact G]. intros file' t' [<-|I] Ft D; [|exact (NX _ _ I Ft D)].
              rewrite FX in Ft. injection Ft as <-. apply functions_in_spec, mem_In in D. congruence.
      * intros [(pre & post & t & E2 & Ft & D & NX)|[NX G]].
        -- destruct pre as [|p pre]; cbn in E2; injection E2 as -> ->.
           ++ right. split; [exact NX|]. rewrite FX in Ft. injection Ft as ->. apply functions_in_spec, mem_In in D. rewrite D. reflexivity.
           ++ left. exists pre, post, t. auto.
        -- right. split; [intros file' t' I; apply NX; right; exact I|].
           destruct (mem n (functions_in text)) eqn:M; [|exact G]. exfalso. apply mem_In, functions_in_spec in M. exact (NX x text (or_introl eq_refl) FX M).
    + destruct IH as [-> (y & I & H)]. split; [reflexivity|]. exists y. cbn. auto.
Qed.
Lemma functions_from_fold f files : functions_from f files = fold_res (functions_step f) [] files.
Proof. reflexivity. Qed.

(** ** The list of functions *)
Definition names_text (ns : list string) : string := String.concat "" (map (fun n => (n ++ String nl "")%string) ns).
Lemma word_first n : word n -> exists c s, n = String c s /\ word_char c = true.
Proof. destruct n as [|c s]; intros [N A]; [congruence|]. cbn in A. apply andb_true_iff in A as [A _]. eauto. Qed.
Lemma word_char_facts c : word_char c = true -> is_space c = false /\ Ascii.eqb c nl = false /\ Ascii.eqb c cr = false.
Proof. destruct c as [[] [] [] [] [] [] [] []]; vm_compute; intros; try discriminate; auto. Qed.
Lemma word_no_char c n : word_char c = false -> all_chars word_char n = true -> has_char c n = false.
Proof.
  intros W. induction n as [|x n IH]; cbn; [reflexivity|]. intros A. apply andb_true_iff in A as [A1 A2]. rewrite (IH A2), orb_false_r.
  destruct (Ascii.eqb_spec c x) as [->|]; [congruence|reflexivity].
Qed.
Lemma word_char_space c : word_char c = true -> Compare_Model.is_space c = false.
Proof. destruct c as [[] [] [] [] [] [] [] []]; vm_compute; intros; try discriminate; reflexivity. Qed.
Lemma word_rstrip n : all_chars word_char n = true -> Compare_Model.rstrip n = n.
Proof.
  induction n as [|c n IH]; [reflexivity|]. cbn [all_chars]. intros A. apply andb_true_iff in A as [A1 A2]. cbn [Compare_Model.rstrip].
  rewrite (IH A2), (word_char_space c A1). destruct n; reflexivity.
Qed.
Lemma word_strip n : word n -> Compare_Model.strip n = n.
Proof.
  intros W. destruct (word_first n W) as (c & s & -> & Wc). unfold Compare_Model.strip. cbn [Compare_Model.lstrip].
  rewrite (word_char_space c Wc). apply word_rstrip, W.
Qed.
Definition begins_with_digit (n : string) : bool := match n with String c _ => is_digit c | EmptyString => false end.
Lemma word_symbol n : word n -> Compare_Model.symbol_of_line n = if begins_with_digit n then [] else [n].
Proof.
  intros W. unfold Compare_Model.symbol_of_line. cbv zeta. rewrite (word_strip n W). destruct (word_first n W) as (c & s & -> & Wc).
  assert (X : Compare_Model.is_alpha c || Ascii.eqb c "_" = negb (is_digit c)).
  { revert Wc. clear. destruct c as [[] [] [] [] [] [] [] []]; vm_compute; intros; try discriminate; reflexivity. }
  cbn [begins_with_digit]. rewrite X. destruct (is_digit c); reflexivity.
Qed.
Lemma un_no_cr s : has_char cr s = false -> Compare_Model.universal_newlines false s = s.
Proof.
  induction s as [|c s IH]; cbn [has_char Compare_Model.universal_newlines]; [reflexivity|]. intros H. apply orb_false_iff in H as [H1 H2].
  assert (X : Ascii.eqb c Compare_Model.cr = false) by (rewrite Ascii.eqb_sym; exact H1). rewrite X, andb_false_r, (IH H2). reflexivity.
Qed.
Lemma names_lines ns : Forall word ns -> split_char nl (names_text ns) = ns ++ [""%string].
Proof.
  induction 1 as [|n ns W F IH]; [reflexivity|]. unfold names_text in *. cbn [map]. rewrite concat_cons, app_assoc_s. cbn [append].
  rewrite split_char_app, IH; [reflexivity|]. apply word_no_char; [reflexivity|apply W].
Qed.
Lemma names_no_cr ns : Forall word ns -> has_char cr (names_text ns) = false.
Proof.
  induction 1 as [|n ns W F IH]; [reflexivity|]. unfold names_text in *. cbn [map]. rewrite concat_cons, !has_char_app, IH, (word_no_char cr n eq_refl (proj2 W)). reflexivity.
Qed.
Lemma read_names ns : Forall word ns -> Compare_Model.read_symbol_list (names_text ns) = filter (fun n => negb (begins_with_digit n)) ns.
Proof.
  intros F. unfold Compare_Model.read_symbol_list. rewrite un_no_cr by (apply names_no_cr, F).
  change Compare_Model.newline with nl. rewrite (names_lines ns F), flat_map_app.
  replace (flat_map Compare_Model.symbol_of_line [""%string]) with (@nil string) by reflexivity. rewrite app_nil_r.
  induction F as [|n ns W F IH]; [reflexivity|]. cbn [flat_map filter]. rewrite (word_symbol n W), IH. destruct (begins_with_digit n); reflexivity.
Qed.

(** ** The environment *)
Lemma environ_get (os : dict string string) : forall (e : dict string string) k, NoDup (dkeys os) ->
  dget (fold_left (fun a kv => dset a (fst kv) (snd kv)) os e) k = match dget os k with Some v => Some v | None => dget e k end.
Proof.
  induction os as [|[a v] os IH]; intros e k N; cbn [fold_left fst snd]; [reflexivity|]. unfold dkeys in N. cbn in N. inversion N as [|? ? N1 N2]; subst.
  rewrite (IH _ _ N2). cbn [dget]. destruct (String.eqb_spec k a) as [->|D].
  - assert (X : dget os a = None) by (apply dget_None; exact N1). rewrite X, dget_dset_same. cbn. rewrite String.eqb_refl. reflexivity.
  - rewrite dget_dset_other by exact D. cbn. apply String.eqb_neq in D. rewrite D. reflexivity.
Qed.

(** ** config.log *)
Lemma split_once_Some sep s a b : sep <> ""%string -> split_once sep s = Some (a, b) <->
  (s = (a ++ sep ++ b)%string /\ forall a' b', s = (a' ++ sep ++ b')%string -> String.length a <= String.length a').
Proof.
  intros NE. revert a b. induction s as [|c s IH]; intros a b.
  - cbn [split_once]. destruct sep as [|x sep]; [congruence|]. cbn. split; [discriminate|]. intros [E _]. destruct a; discriminate.
  - cbn [split_once]. destruct (startswith (String c s) sep) eqn:S.
    + apply startswith_app in S as (r & E). rewrite E, drop_app. split.
      * intros H. injection H as <- <-. split; [reflexivity|]. intros. cbn. lia.
      * intros [E1 M]. specialize (M ""%string r eq_refl). cbn in M. destruct a as [|y a]; [|cbn in M; lia]. cbn in E1. f_equal. f_equal.
        clear -E1. induction sep as [|z sep IH]; cbn in E1; [exact E1|]. injection E1 as E1. exact (IH E1).
    + assert (NS : forall r, String c s <> (sep ++ r)%string) by (intros r E; assert (X : startswith (String c s) sep = true) by (apply startswith_app; eauto); congruence).
      destruct (split_once sep s) as [[p q]|] eqn:SO.
      * destruct (proj1 (IH p q) eq_refl) as [E M]. split.
        -- intros H. injection H as <- <-. split; [cbn; rewrite E; reflexivity|]. intros [|y a'] b' E'; [exfalso; exact (NS _ E')|].
           cbn in E'. injection E' as _ E'. specialize (M a' b' E'). cbn. lia.
        -- intros [E1 M1]. destruct a as [|y a]; [exfalso; exact (NS _ E1)|]. cbn in E1. injection E1 as -> E1.
           assert (X : Some (p, q) = Some (a, b)) by (apply IH; split; [exact E1|]; intros a' b' E'; specialize (M1 (String y a') b'); cbn in M1; rewrite E' in M1; specialize (M1 eq_refl); lia).
           injection X as -> ->. reflexivity.
      * split; [discriminate|]. intros [E1 M1]. destruct a as [|y a]; [exfalso; exact (NS _ E1)|]. cbn in E1. injection E1 as -> E1.
        assert (X : None = Some (a, b)) by (apply IH; split; [exact E1|]; intros a' b' E'; specialize (M1 (String y a') b'); cbn in M1; rewrite E' in M1; specialize (M1 eq_refl); lia).
        discriminate.
Qed.
Lemma split_once_None sep s : sep <> ""%string -> split_once sep s = None <-> contains s sep = false.
Proof.
  intros NE. split.
  - intros N. destruct (contains s sep) eqn:C; [|reflexivity]. exfalso. revert N C. induction s as [|c s IH]; cbn [split_once contains].
    + destruct sep; [congruence|]. cbn. discriminate.
    + destruct (startswith (String c s) sep); [discriminate|]. cbn [orb]. destruct (split_once sep s) as [[p q]|]; [discriminate|]. intros _. apply IH. reflexivity.
  - intros C. destruct (split_once sep s) as [[a b]|] eqn:E; [|reflexivity]. apply split_once_Some in E as [E _]; [|exact NE].
    assert (X : contains s sep = true) by (apply contains_spec; eauto). congruence.
Qed.
Lemma find_dollar_Some lines cmd : find_dollar lines = Some cmd <->
  exists pre l post, lines = pre ++ l :: post /\ Forall (fun x => has_char dollar x = false) pre /\ has_char dollar l = true /\ cmd = strip l.
Proof.
  induction lines as [|l ls IH]; cbn [find_dollar].
  - split; [discriminate|]. intros (pre & l & post & E & _). destruct pre; discriminate.
  - destruct (has_char dollar l) eqn:D.
    + split.
      * intros E. injection E as <-. exists [], l, ls. auto.
      * intros (pre & l' & post & E & F & D' & ->). destruct pre as [|p pre]; cbn in E; injection E as -> ->; [reflexivity|]. inversion F; congruence.
    + rewrite IH. split; intros (pre & l' & post & E & F & D' & ->).
      * exists (l :: pre), l', post. rewrite E. auto.
      * destruct pre as [|p pre]; cbn in E; injection E as -> ->; [congruence|]. inversion F; subst. exists pre, l', post. auto.
Qed.
Lemma find_dollar_None lines : find_dollar lines = None <-> Forall (fun x => has_char dollar x = false) lines.
Proof.
  induction lines as [|l ls IH]; cbn [find_dollar]; [split; [constructor|reflexivity]|]. destruct (has_char dollar l) eqn:D.
  - split; [discriminate|]. intros F. inversion F; congruence.
  - rewrite IH. split; [intros F; constructor; assumption|intros F; inversion F; assumption].
Qed.

(** ** The wrapper as a whole *)
Lemma entries_ok ex cwd link args st : exists lines, existing_entries ex (entries cwd link args st) = Ok lines.
Proof.
  assert (G : forall l acc, (forall e, In e l -> exists p, second_part ":" e = Ok p) -> exists lines,
    fold_res (fun acc e => do p <- second_part ":" e; Ok (if ex p then acc ++ [e] else acc)) acc l = Ok lines).
  { induction l as [|e l IH]; intros acc H; cbn [fold_res]; [eauto|]. destruct (H e (or_introl eq_refl)) as [p ->]. cbn [bind].
    apply IH. intros e' I. apply H. right. exact I. }
  apply G. intros e I.
  assert (X : exists k p, e = (k ++ String ":" p)%string /\ has_char ":" k = false).
  { unfold entries in I. destruct (p_output st) as [f|].
    - destruct I as [<-|[]]. destruct (String.eqb (p_clang st) link); [exists "f"%string|exists "o"%string]; exists (path_join cwd f); split; reflexivity.
    - destruct (mem "-c"%string ("gcc"%string :: args)); [|destruct I]. apply in_map_iff in I as (a & <- & _). exists "o"%string, (path_join cwd (to_ll a)). split; reflexivity. }
  destruct X as (k & p & -> & K). unfold second_part. rewrite (split_char_app ":" k p K).
  destruct (split_char ":" p) as [|x l] eqn:E; [exfalso; eapply split_char_nonempty; exact E|eauto].
Qed.
Lemma wrapper_provided o env db clang link append drop args : provided env db clang link append drop ->
  wrapper o env args =
  let native := Run "gcc" ("gcc"%string :: args) in
  if negb (o_run o [] "gcc" ("gcc"%string :: args) =? 0)%Z then ([native], Ok 1%Z)
  else
    let st := analyse clang link drop args in
    if skipped args (p_output st) then ([native], Ok 0%Z)
    else
      match clang_command (o_exists o [native]) link append st with
      | Err e => ([native], Err e)
      | Ok argv =>
          let ir := Run (p_clang st) argv in
          if negb (o_run o [native] (p_clang st) argv =? 0)%Z then ([native; ir], Ok 0%Z)
          else
            match existing_entries (o_exists o [ir; native]) (entries (o_cwd o) link args st) with
            | Err e => ([native; ir], Err e)
            | Ok lines => ([native; ir; Append db lines], Ok 0%Z)
            end
      end.
Proof.
  intros (D & C & L & (a & A & ->) & (d & Dr & ->)). unfold wrapper. rewrite D, C, L, A, Dr. reflexivity.
Qed.

Lemma analyse_nil clang link drop args : p_argv (analyse clang link drop args) = [] -> In "gcc"%string drop.
Proof.
  intros E. destruct (mem "gcc"%string drop) eqn:M; [apply mem_In, M|]. exfalso.
  assert (N : ~ In "gcc"%string drop) by (intros X; apply mem_In in X; congruence).
  rewrite (analyse_eq _ _ _ _ N) in E. cbv zeta in E. cbn [p_argv] in E.
  destruct (negb (mem "-c"%string args) && existsb in_source (keep drop None args) && _); discriminate.
Qed.
