(** * Lemmas about the reports *)
From Coq Require Import String Ascii ZArith Arith Bool Lia Permutation Sorted List.
From Verif Require Import PyBase Path_Model Result_Model Graph_Model Syndiff_Model Output_Model Output_Spec.
From Verif Require Compare_Model Compare_Proofs.
Import ListNotations.
Open Scope list_scope.
Local Arguments Ascii.eqb : simpl never.

Lemma Ok_inj {A} (a b : A) : Ok a = Ok b -> a = b.
Proof. intros H. injection H. auto. Qed.
Lemma bind_Ok {A B} (m : res A) (k : A -> res B) y : bind m k = Ok y -> exists x, m = Ok x /\ k x = Ok y.
Proof. destruct m as [a|e]; cbn; [eauto|discriminate]. Qed.

(** ** Sorting by name *)
Definition item_le {V} (a b : string * V) : Prop := name_le (fst a) (fst b).
Lemma name_le_trans a b c : name_le a b -> name_le b c -> name_le a c.
Proof.
  unfold name_le, String.leb. intros H1 H2.
  destruct (String.compare a b) eqn:E1; [|clear H1|discriminate].
  - apply String.compare_eq_iff in E1. subst b. exact H2.
  - destruct (String.compare b c) eqn:E2; [| |discriminate].
    + apply String.compare_eq_iff in E2. subst c. rewrite E1. reflexivity.
    + rewrite (Compare_Proofs.compare_lt_trans _ _ _ E1 E2). reflexivity.
Qed.
Lemma name_le_total a b : String.leb a b = false -> name_le b a.
Proof. unfold name_le, String.leb. rewrite (String.compare_antisym b a). destruct (String.compare a b); simpl; congruence. Qed.
Lemma insert_le {V} (x : string * V) l : StronglySorted item_le l -> StronglySorted item_le (Compare_Model.insert_item x l).
Proof.
  intros S. induction S as [|y l S IH F]; cbn [Compare_Model.insert_item]; [constructor; constructor|].
  destruct (String.leb (fst x) (fst y)) eqn:E.
  - constructor; [constructor; assumption|]. constructor; [exact E|].
    eapply Forall_impl; [|exact F]. intros z Z. eapply name_le_trans; [exact E|exact Z].
  - constructor; [exact IH|]. apply Forall_forall. intros z I.
    apply (Permutation_in _ (Permutation_sym (Compare_Proofs.insert_perm x l))) in I as [<-|I].
    + apply name_le_total, E.
    + eapply Forall_forall in F; eauto.
Qed.
Lemma sort_le {V} (l : list (string * V)) : StronglySorted item_le (Compare_Model.sort_items l).
Proof. induction l as [|x l IH]; cbn [Compare_Model.sort_items]; [constructor|]. apply insert_le, IH. Qed.

Lemma by_name_perm {G} (rs : list (result G)) : Permutation rs (by_name rs).
Proof.
  unfold by_name. rewrite <- Compare_Proofs.sort_perm. rewrite map_map. cbn. rewrite map_id. reflexivity.
Qed.
Lemma by_name_sorted {G} (rs : list (result G)) : StronglySorted name_le (map (fun r => en_name (r_first r)) (by_name rs)).
Proof.
  unfold by_name.
  assert (F : Forall (fun x => fst x = en_name (r_first (snd x)))
               (Compare_Model.sort_items (map (fun r : result G => (en_name (r_first r), r)) rs))).
  { eapply Permutation_Forall; [apply Compare_Proofs.sort_perm|]. apply Forall_forall. intros x I.
    apply in_map_iff in I as (r & <- & _). reflexivity. }
  pose proof (sort_le (map (fun r : result G => (en_name (r_first r), r)) rs)) as S.
  revert F. induction S as [|x l S IH FF]; cbn [map]; intros F; [constructor|].
  inversion F as [|? ? Ex Fl]; subst. constructor; [auto|].
  apply Forall_forall. intros n I. apply in_map_iff in I as (r & <- & I). apply in_map_iff in I as (y & <- & I).
  eapply Forall_forall in FF; [|exact I]. eapply Forall_forall in Fl; [|exact I]. unfold item_le in FF.
  rewrite Ex, Fl in FF. exact FF.
Qed.

(** ** Listed differences *)
Lemma unlisted_listed r : unlisted r = false <-> listed r.
Proof.
  unfold unlisted, listed, diff_is_empty. rewrite andb_false_iff.
  destruct (opt_eqb_spec (r_diff r) (Some ""%string)) as [E|E].
  - rewrite E. intuition congruence.
  - intuition congruence.
Qed.
Lemma unlisted_dec r : listed r \/ ~ listed r.
Proof. destruct (unlisted r) eqn:E; [right|left]; rewrite <- unlisted_listed; congruence. Qed.
Lemma filter_selection (l : list (result graph)) : selection listed l (filter (fun r => negb (unlisted r)) l).
Proof.
  exists (filter unlisted l). split; [|split].
  - induction l as [|x l IH]; cbn [filter]; [constructor|]. destruct (unlisted x); cbn [negb].
    + rewrite <- Permutation_middle. constructor. exact IH.
    + cbn [app]. constructor. exact IH.
  - apply Forall_forall. intros x I. apply filter_In in I as [_ E]. apply unlisted_listed.
    destruct (unlisted x); [discriminate|reflexivity].
  - apply Forall_forall. intros x I. apply filter_In in I as [_ E]. rewrite <- unlisted_listed. congruence.
Qed.
Lemma selection_perm {A} (P : A -> Prop) a b l : Permutation a b -> selection P a l -> selection P b l.
Proof. intros E (r & Q & F1 & F2). exists r. split; [|auto]. rewrite <- E. exact Q. Qed.

(** ** Call stacks *)
Lemma calls_below_yaml dir cs : dir <> ""%string -> calls_below dir cs (callstack_rel_yaml dir cs).
Proof.
  intros D. induction cs as [|c cs IH]; cbn; [constructor|]. constructor; [|exact IH].
  cbn. repeat split. apply replace_Replaced, D.
Qed.
Lemma describes_ydiff old_dir new_dir r : old_dir <> ""%string -> new_dir <> ""%string ->
  describes old_dir new_dir r (ydiff_of old_dir new_dir r).
Proof.
  intros O N. unfold describes, ydiff_of. cbn. split; [reflexivity|]. split.
  - destruct (en_callstack (r_first r)); cbn; [apply calls_below_yaml, O|reflexivity].
  - destruct (en_callstack (r_second r)); cbn; [apply calls_below_yaml, N|reflexivity].
Qed.

(** ** Loops *)
Lemma fold_res_app {A S} (f : S -> A -> res S) l1 : forall l2 s,
  fold_res f s (l1 ++ l2) = bind (fold_res f s l1) (fun s' => fold_res f s' l2).
Proof. induction l1 as [|x l1 IH]; intros l2 s; cbn; [reflexivity|]. destruct (f s x); [apply IH|reflexivity]. Qed.
Lemma fold_res_Ok_iff {A S} (f : S -> A -> res S) (P : A -> Prop) :
  (forall s x, (exists s', f s x = Ok s') <-> P x) ->
  forall l s, (exists s', fold_res f s l = Ok s') <-> Forall P l.
Proof.
  intros H. induction l as [|x l IH]; intros s; cbn; [split; [constructor|eauto]|].
  split.
  - intros [s' E]. destruct (f s x) as [s1|] eqn:F; [|discriminate]. constructor.
    + apply (H s). eauto.
    + apply (IH s1). eauto.
  - intros F. inversion F as [|? ? Px Fl]; subst. apply (H s) in Px as [s1 E1]. rewrite E1.
    apply IH, Fl.
Qed.

(** Sets *)
Lemma set_update_In {K} `{EqB K} (l : list K) : forall acc y, In y (set_update acc l) <-> In y acc \/ In y l.
Proof.
  unfold set_update. induction l as [|x l IH]; intros acc y; cbn [fold_left In]; [tauto|].
  rewrite IH, set_add_In. intuition.
Qed.

(** ** Symbols of a call stack *)
Definition sub_funs (n : string) (s : symbol_names) : Prop := In n (s_funs s).
Lemma split_space_two s a b : split_char " " s = [a; b] <-> (s = (a ++ " " ++ b)%string /\ no_space a /\ no_space b).
Proof.
  split.
  - revert a b. induction s as [|c s IH]; intros a b; cbn [split_char].
    + discriminate.
    + destruct (Ascii.eqb_spec c " ") as [->|N].
      * intros E. injection E as Ea E2. subst a.
        pose proof (join_split_char " " s) as J. rewrite E2 in J. cbn in J. subst b. cbn. split; [reflexivity|].
        split; [reflexivity|]. unfold no_space.
        destruct (has_char " " s) eqn:H; [|reflexivity]. exfalso. clear - E2 H.
        assert (L : length (split_char " " s) >= 2).
        { clear E2. induction s as [|x s IH]; [discriminate|]. cbn [has_char split_char] in *.
          destruct (Ascii.eqb_spec x " ") as [->|N].
          - cbn. pose proof (split_char_nonempty " " s). destruct (split_char " " s); [congruence|cbn; lia].
          - rewrite Ascii.eqb_sym in H. destruct (Ascii.eqb_spec x " "); [contradiction|].
            specialize (IH H). destruct (split_char " " s); cbn in *; lia. }
        rewrite E2 in L. cbn in L. lia.
      * destruct (split_char " " s) as [|w ws] eqn:E; [discriminate|].
        intros X. injection X as Ea Ew. subst a ws. destruct (IH w b eq_refl) as (E1 & E2 & E3). subst s.
        split; [reflexivity|]. split; [|exact E3]. unfold no_space in *. cbn [has_char].
        rewrite Ascii.eqb_sym. destruct (Ascii.eqb_spec c " "); [contradiction|exact E2].
  - intros (-> & Ha & Hb). cbn [append]. rewrite split_char_app by exact Ha. rewrite split_char_no by exact Hb. reflexivity.
Qed.
Lemma split_two_fun s n : no_space n -> s = (n ++ " function")%string -> split_char " " s = [n; "function"%string].
Proof. intros H ->. apply split_space_two. repeat split. exact H. Qed.
Lemma split_two_type s n : no_space n -> s = (n ++ " (type)")%string -> split_char " " s = [n; "(type)"%string].
Proof. intros H ->. apply split_space_two. repeat split. exact H. Qed.
Lemma has_space_mid a b : has_char " " (a ++ " " ++ b) = true.
Proof. rewrite has_char_app. cbn. apply orb_true_r. Qed.

(** One step of the symbol collection. *)
Definition readable_b (c : call) : bool :=
  negb (has_char " " (c_name c)) || Nat.eqb (length (split_char " " (c_name c))) 2.
Lemma readable_iff c : readable c <-> (has_char " " (c_name c) = false \/ exists a b, split_char " " (c_name c) = [a; b]).
Proof.
  unfold readable, no_space. split.
  - intros [H|(n & k & E)]; [auto|]. right. exists n, k. apply split_space_two. exact E.
  - intros [H|(a & b & E)]; [auto|]. right. apply split_space_two in E. eauto.
Qed.

Definition sym_step (prev : string) (c : call) (acc : symbol_names) : symbol_names :=
  if has_char " " (c_name c) then
    match split_char " " (c_name c) with [n; k] => add_symbol acc prev n k | _ => acc end
  else add_symbol acc prev (c_name c) "function".
Lemma get_symbols_cons prev c cs acc : get_symbol_names_from prev (c :: cs) acc =
  if readable_b c then get_symbol_names_from (c_name c) cs (sym_step prev c acc) else Err ValueError.
Proof.
  cbn [get_symbol_names_from]. unfold readable_b, sym_step.
  destruct (has_char " " (c_name c)) eqn:E; cbn [negb orb]; [|reflexivity].
  destruct (split_char " " (c_name c)) as [|a [|b [|x l]]]; reflexivity.
Qed.
Lemma readable_b_iff c : readable_b c = true <-> readable c.
Proof.
  rewrite readable_iff. unfold readable_b. rewrite orb_true_iff, negb_true_iff, Nat.eqb_eq. split.
  - intros [H|H]; [auto|]. right. destruct (split_char " " (c_name c)) as [|a [|b [|x l]]]; try discriminate H. eauto.
  - intros [H|(a & b & H)]; [auto|]. right. rewrite H. reflexivity.
Qed.

Lemma sym_step_funs prev c acc n : In n (s_funs (sym_step prev c acc)) <-> In n (s_funs acc) \/ names_function c n.
Proof.
  unfold sym_step, names_function. destruct (has_char " " (c_name c)) eqn:E.
  - destruct (split_char " " (c_name c)) as [|a [|b [|x l]]] eqn:S.
    1,2,4: split; [auto|intros [I|[H [C|C]]]; [auto| |]]; exfalso;
      [unfold no_space in H; congruence
      |assert (S2 : split_char " " (c_name c) = [n; "function"%string]) by (apply split_two_fun; assumption); congruence].
    apply split_space_two in S as (S & Ha & Hb).
    unfold add_symbol. destruct (String.eqb_spec b "function") as [->|Nb]; cbn [s_funs].
    + rewrite set_add_In. split.
      * intros [->|I]; [right; auto|auto].
      * intros [I|[H [C|C]]]; [auto| |].
        -- unfold no_space in H. congruence.
        -- left. assert (X : split_char " " (c_name c) = [n; "function"%string]) by (apply split_two_fun; assumption).
           assert (Y : split_char " " (c_name c) = [a; "function"%string]) by (apply split_space_two; auto). congruence.
    + assert (NO : ~ (no_space n /\ (c_name c = n \/ c_name c = (n ++ " function")%string))).
      { intros [H [C|C]]; [unfold no_space in H; congruence|].
        assert (X : split_char " " (c_name c) = [n; "function"%string]) by (apply split_two_fun; assumption).
        assert (Y : split_char " " (c_name c) = [a; b]) by (apply split_space_two; auto). congruence. }
      destruct (String.eqb b "(macro)"); [|destruct (String.eqb b "(type)")]; cbn [s_funs]; tauto.
  - unfold add_symbol. change (String.eqb "function" "function") with true. cbv iota. cbn [s_funs]. rewrite set_add_In. split.
    + intros [->|I]; [right; split; [exact E|auto]|auto].
    + intros [I|[H [C|C]]]; [auto|auto|]. exfalso. rewrite C in E. rewrite has_char_app in E.
      apply orb_false_iff in E as [_ E]. discriminate E.
Qed.
Lemma sym_step_types prev c acc n p : In (n, p) (s_types (sym_step prev c acc)) <->
  In (n, p) (s_types acc) \/ (names_type c n /\ p = prev).
Proof.
  unfold sym_step, names_type. destruct (has_char " " (c_name c)) eqn:E.
  - destruct (split_char " " (c_name c)) as [|a [|b [|x l]]] eqn:S.
    1,2,4: split; [auto|intros [I|[[H C] _]]; [auto|]].
    1-3: exfalso; assert (S2 : split_char " " (c_name c) = [n; "(type)"%string]) by (apply split_two_type; assumption); congruence.
    apply split_space_two in S as (S & Ha & Hb).
    unfold add_symbol. destruct (String.eqb_spec b "function") as [->|Nb]; [|destruct (String.eqb_spec b "(macro)") as [->|Nm]; [|destruct (String.eqb_spec b "(type)") as [->|Nt]]]; cbn [s_types].
    3: { rewrite set_add_In. split.
         - intros [X|I]; [injection X as -> ->; right; auto|auto].
         - intros [I|[[H C] ->]]; [auto|]. left.
           assert (X : split_char " " (c_name c) = [n; "(type)"%string]) by (apply split_two_type; assumption).
           assert (Y : split_char " " (c_name c) = [a; "(type)"%string]) by (apply split_space_two; auto). congruence. }
    all: split; [auto|intros [I|[[H C] _]]; [auto|]]; exfalso;
      assert (X : split_char " " (c_name c) = [n; "(type)"%string]) by (apply split_two_type; assumption);
      match type of S with _ = (_ ++ " " ++ ?k)%string =>
        assert (Y : split_char " " (c_name c) = [a; k]) by (apply split_space_two; auto) end; congruence.
  - unfold add_symbol. change (String.eqb "function" "function") with true. cbv iota. cbn [s_types]. split; [auto|].
    intros [I|[[H C] _]]; [auto|]. exfalso. rewrite C, has_char_app in E. apply orb_false_iff in E as [_ E]. discriminate E.
Qed.

Lemma get_symbols_ok cs : forall prev acc, (exists s, get_symbol_names_from prev cs acc = Ok s) <-> Forall readable cs.
Proof.
  induction cs as [|c cs IH]; intros prev acc; [cbn; split; [constructor|eauto]|].
  rewrite get_symbols_cons. destruct (readable_b c) eqn:R.
  - rewrite IH. apply readable_b_iff in R. split; [auto|intros F; inversion F; auto].
  - split; [intros [s E]; discriminate|]. intros F. inversion F as [|? ? X]; subst. apply readable_b_iff in X. congruence.
Qed.
Lemma get_symbols_funs cs : forall prev acc s, get_symbol_names_from prev cs acc = Ok s ->
  forall n, In n (s_funs s) <-> In n (s_funs acc) \/ exists c, In c cs /\ names_function c n.
Proof.
  induction cs as [|c cs IH]; intros prev acc s.
  - cbn. intros E. apply Ok_inj in E. subst s. intros n. split; [auto|]. intros [I|(c & [] & _)]. exact I.
  - rewrite get_symbols_cons. destruct (readable_b c); [|discriminate]. intros E n.
    rewrite (IH _ _ _ E), sym_step_funs. split.
    + intros [[I|I]|(d & I & H)]; [auto|right; exists c; cbn; auto|right; exists d; cbn; auto].
    + intros [I|(d & [<-|I] & H)]; [auto|auto|right; eauto].
Qed.
Definition before (prev : string) (pre : list call) : string := match rev pre with b :: _ => c_name b | [] => prev end.
Lemma before_cons prev c pre : before prev (c :: pre) = before (c_name c) pre.
Proof.
  unfold before. cbn [rev]. destruct (rev pre); reflexivity.
Qed.
Lemma get_symbols_types cs : forall prev acc s, get_symbol_names_from prev cs acc = Ok s ->
  forall n p, In (n, p) (s_types s) <-> In (n, p) (s_types acc) \/
    exists pre c post, cs = pre ++ c :: post /\ names_type c n /\ p = before prev pre.
Proof.
  induction cs as [|c cs IH]; intros prev acc s.
  - cbn. intros E. apply Ok_inj in E. subst s. intros n p. split; [auto|].
    intros [I|(pre & c & post & E & _)]; [exact I|]. destruct pre; discriminate.
  - rewrite get_symbols_cons. destruct (readable_b c); [|discriminate]. intros E n p.
    rewrite (IH _ _ _ E), sym_step_types. split.
    + intros [[I|[I ->]]|(pre & d & post & -> & H & ->)]; [auto| |].
      * right. exists [], c, cs. auto.
      * right. exists (c :: pre), d, post. rewrite before_cons. auto.
    + intros [I|(pre & d & post & X & H & ->)]; [auto|]. destruct pre as [|b pre]; cbn [app] in X; injection X as <- ->.
      * left. right. auto.
      * right. exists pre, d, post. rewrite before_cons. auto.
Qed.

(** ** Results *)
Section Yaml.
  Variable cwd : string.
  Variable end_line : string -> option Z -> string -> res Z.
  Variable h : heap.
  Variable order_funs : list string -> list string.
  Variable order_types : list (string * string) -> list (string * string).
  Variables old_dir new_dir : string.

  Definition on_fun (rs : list (result graph)) (n : string) : Prop :=
    exists x cs c, In x rs /\ listed x /\ en_callstack (r_first x) = Some cs /\ In c cs /\ names_function c n.
  Definition on_type (name : string) (rs : list (result graph)) (n p : string) : Prop :=
    exists x pre c post, In x rs /\ listed x /\ en_callstack (r_first x) = Some (pre ++ c :: post) /\
      names_type c n /\ p = before name pre.
  Definition readable_stack (x : result graph) : Prop :=
    listed x -> forall cs, en_callstack (r_first x) = Some cs -> Forall readable cs.

  Lemma create_diff_ok name st x : (exists st', create_diff old_dir new_dir name st x = Ok st') <-> readable_stack x.
  Proof.
    unfold create_diff, readable_stack. destruct (unlisted x) eqn:H.
    - split; [|eauto]. intros _ L. apply unlisted_listed in L. congruence.
    - apply unlisted_listed in H. destruct (en_callstack (r_first x)) as [cs|].
      + unfold get_symbol_names. split.
        * intros [st' E] _ cs' [= <-]. apply bind_Ok in E as (s & E & _). eapply get_symbols_ok. eauto.
        * intros F. specialize (F H cs eq_refl). apply (get_symbols_ok cs name (mkSym [] [] [])) in F as [s E].
          rewrite E. cbn. eauto.
      + split; [intros _ _ cs; discriminate|eauto].
  Qed.

  Lemma on_fun_cons x rs n : on_fun (x :: rs) n <->
    (listed x /\ exists cs c, en_callstack (r_first x) = Some cs /\ In c cs /\ names_function c n) \/ on_fun rs n.
  Proof.
    unfold on_fun. split.
    - intros (y & cs & c & [<-|I] & L & E & Ic & H); [left; eauto 10|right; eauto 10].
    - intros [(L & cs & c & E & Ic & H)|(y & cs & c & I & R)]; [exists x, cs, c; cbn; auto|exists y, cs, c; cbn; tauto].
  Qed.
  Lemma on_type_cons name x rs n p : on_type name (x :: rs) n p <->
    (listed x /\ exists pre c post, en_callstack (r_first x) = Some (pre ++ c :: post) /\ names_type c n /\ p = before name pre)
    \/ on_type name rs n p.
  Proof.
    unfold on_type. split.
    - intros (y & pre & c & post & [<-|I] & L & E & H); [left; eauto 10|right; exists y, pre, c, post; auto].
    - intros [(L & pre & c & post & E & H)|(y & pre & c & post & I & R)]; [exists x, pre, c, post; cbn; auto|exists y, pre, c, post; cbn; tauto].
  Qed.

  Lemma create_diff_fold name rs : forall st st', fold_res (create_diff old_dir new_dir name) st rs = Ok st' ->
    fst st' = fst st ++ map (ydiff_of old_dir new_dir) (filter (fun r => negb (unlisted r)) rs) /\
    (forall n, In n (s_funs (snd st')) <-> In n (s_funs (snd st)) \/ on_fun rs n) /\
    (forall n p, In (n, p) (s_types (snd st')) <-> In (n, p) (s_types (snd st)) \/ on_type name rs n p).
  Proof.
    induction rs as [|x rs IH]; intros st st' E.
    - cbn in E. apply Ok_inj in E. subst st'. cbn. rewrite app_nil_r. split; [reflexivity|].
      split; intros; split; auto; intros [I|(y & ? & ? & ? & R)]; auto; try (destruct R as [[] _]); destruct H as [].
    - cbn [fold_res] in E. destruct (create_diff old_dir new_dir name st x) as [st1|] eqn:E1; [|discriminate].
      specialize (IH _ _ E) as (A & B & C). unfold create_diff in E1.
      destruct (unlisted x) eqn:H; cbn [filter negb].
      + apply Ok_inj in E1. subst st1. rewrite H. cbn [negb]. split; [exact A|].
        assert (L : ~ listed x) by (rewrite <- unlisted_listed; congruence). split.
        * intros n. rewrite B, on_fun_cons. tauto.
        * intros n p. rewrite C, on_type_cons. tauto.
      + rewrite H. cbn [negb map]. apply unlisted_listed in H. destruct (en_callstack (r_first x)) as [cs|] eqn:EC.
        * apply bind_Ok in E1 as (s & Es & E1). apply Ok_inj in E1. subst st1. cbn [fst snd] in *.
          unfold get_symbol_names in Es. split; [rewrite A, <- app_assoc; reflexivity|]. split.
          -- intros n. rewrite B, on_fun_cons. unfold add_symbols. cbn [s_funs]. rewrite set_update_In.
             rewrite (get_symbols_funs _ _ _ _ Es n). cbn [s_funs In]. split.
             ++ intros [[I|[[]|(c & I & N)]]|O]; [auto| |auto]. right. left. split; [exact H|]. exists cs, c. auto.
             ++ intros [I|[(_ & cs' & c & X & I & N)|O]]; [auto| |auto]. rewrite EC in X. injection X as <-. left. right. right. eauto.
          -- intros n p. rewrite C, on_type_cons. unfold add_symbols. cbn [s_types]. rewrite set_update_In.
             rewrite (get_symbols_types _ _ _ _ Es n p). cbn [s_types In]. split.
             ++ intros [[I|[[]|(pre & c & post & -> & N)]]|O]; [auto| |auto]. right. left. split; [exact H|]. exists pre, c, post. auto.
             ++ intros [I|[(_ & pre & c & post & X & N)|O]]; [auto| |auto]. rewrite EC in X. injection X as ->. left. right. right.
                exists pre, c, post. auto.
        * apply Ok_inj in E1. subst st1. cbn [fst snd] in *. split; [rewrite A, <- app_assoc; reflexivity|]. split.
          -- intros n. rewrite B, on_fun_cons. split; [tauto|]. intros [I|[(_ & cs & c & X & _)|O]]; [auto|congruence|auto].
          -- intros n p. rewrite C, on_type_cons. split; [tauto|]. intros [I|[(_ & pre & c & post & X & _)|O]]; [auto|congruence|auto].
  Qed.

  Lemma on_fun_perm a b n : Permutation a b -> on_fun a n <-> on_fun b n.
  Proof.
    intros P. unfold on_fun. split; intros (x & cs & c & I & R); exists x, cs, c; (split; [|exact R]);
      eapply Permutation_in; try exact I; [exact P|apply Permutation_sym, P].
  Qed.
  Lemma on_type_perm name a b n p : Permutation a b -> on_type name a n p <-> on_type name b n p.
  Proof.
    intros P. unfold on_type. split; intros (x & pre & c & post & I & R); exists x, pre, c, post; (split; [|exact R]);
      eapply Permutation_in; try exact I; [exact P|apply Permutation_sym, P].
  Qed.

  (** *** The outer loop *)
  Definition is_ne (fr : string * result graph) : Prop := r_kind (snd fr) = NOT_EQUAL.
  Definition readable_result (fr : string * result graph) : Prop :=
    is_ne fr -> Forall readable_stack (dvals (r_inner (snd fr))).
  Lemma create_result_ok st fr : (exists st', create_result old_dir new_dir st fr = Ok st') <-> readable_result fr.
  Proof.
    destruct fr as [name r]. unfold create_result, readable_result, is_ne. cbn [snd].
    destruct (kind_eqb_spec (r_kind r) NOT_EQUAL) as [E|E]; cbn [negb].
    - pose proof (fold_res_Ok_iff (create_diff old_dir new_dir name) readable_stack
                    (fun s x => create_diff_ok name s x) (by_name (dvals (r_inner r)))
                    ([], mkSym (set_add name (s_funs (snd st))) (s_macros (snd st)) (s_types (snd st)))) as Q.
      split.
      + intros [st' X] _. apply bind_Ok in X as (y & X & _).
        eapply Permutation_Forall; [apply Permutation_sym, by_name_perm|]. apply Q. eauto.
      + intros F. specialize (F E). eapply Permutation_Forall in F; [|apply by_name_perm]. apply Q in F as [y Y].
        rewrite Y. cbn. eauto.
    - split; [intros _ C; contradiction|eauto].
  Qed.

  Definition entry (fr : string * result graph) : yresult :=
    mkYresult (fst fr) (map (ydiff_of old_dir new_dir) (filter (fun r => negb (unlisted r)) (by_name (dvals (r_inner (snd fr)))))).
  Definition funs_of (l : list (string * result graph)) (n : string) : Prop :=
    exists fr, In fr l /\ is_ne fr /\ (fst fr = n \/ on_fun (dvals (r_inner (snd fr))) n).
  Definition types_of (l : list (string * result graph)) (n p : string) : Prop :=
    exists fr, In fr l /\ is_ne fr /\ on_type (fst fr) (dvals (r_inner (snd fr))) n p.

  Lemma create_results_fold l : forall st st', fold_res (create_result old_dir new_dir) st l = Ok st' ->
    fst st' = fst st ++ map entry (filter (fun fr => kind_eqb (r_kind (snd fr)) NOT_EQUAL) l) /\
    (forall n, In n (s_funs (snd st')) <-> In n (s_funs (snd st)) \/ funs_of l n) /\
    (forall n p, In (n, p) (s_types (snd st')) <-> In (n, p) (s_types (snd st)) \/ types_of l n p).
  Proof.
    induction l as [|[name r] l IH]; intros st st' E.
    - cbn in E. apply Ok_inj in E. subst st'. cbn. rewrite app_nil_r. split; [reflexivity|].
      split; intros; split; auto; intros [I|(y & [] & _)]; auto.
    - cbn [fold_res] in E. destruct (create_result old_dir new_dir st (name, r)) as [st1|] eqn:E1; [|discriminate].
      specialize (IH _ _ E) as (A & B & C). unfold create_result in E1. cbn [filter snd].
      destruct (kind_eqb_spec (r_kind r) NOT_EQUAL) as [K|K]; cbn [negb map] in *.
      + apply bind_Ok in E1 as (y & Y & E1). apply Ok_inj in E1. subst st1. cbn [fst snd] in *.
        apply create_diff_fold in Y as (Y1 & Y2 & Y3). cbn [fst snd s_funs s_types] in *. cbn [app] in Y1.
        split; [|split].
        * rewrite A, <- app_assoc. cbn [app]. unfold entry at 2. cbn [fst snd]. rewrite Y1. reflexivity.
        * intros n. rewrite B, Y2, set_add_In. rewrite <- (on_fun_perm _ _ n (by_name_perm (dvals (r_inner r)))).
          split.
          -- intros [[[->|I]|O]|(fr & I & R)]; [|auto| |right; exists fr; cbn; tauto];
               right; exists (name, r); cbn; unfold is_ne; cbn; auto 6.
          -- intros [I|(fr & [<-|I] & N & R)]; [auto| |right; exists fr; auto]. cbn [fst snd] in R. left.
             destruct R as [<-|O]; auto.
        * intros n p. rewrite C, Y3. rewrite <- (on_type_perm name _ _ n p (by_name_perm (dvals (r_inner r)))). split.
          -- intros [[I|O]|(fr & I & R)]; [auto| |right; exists fr; cbn; tauto].
             right. exists (name, r). unfold is_ne. cbn. auto.
          -- intros [I|(fr & [<-|I] & N & R)]; [auto|auto|right; exists fr; auto].
      + apply Ok_inj in E1. subst st1. split; [exact A|]. split.
        * intros n. rewrite B. split; intros [I|(fr & I & N & R)]; [auto|right; exists fr; cbn; tauto|auto|].
          destruct I as [<-|I]; [contradiction|right; exists fr; auto].
        * intros n p. rewrite C. split; intros [I|(fr & I & N & R)]; [auto|right; exists fr; cbn; tauto|auto|].
          destruct I as [<-|I]; [contradiction|right; exists fr; auto].
  Qed.

  (** *** Definitions *)
  Lemma place_info line file dir kind i : create_def_info cwd end_line line file dir kind = Ok i ->
    place cwd end_line line file dir kind i /\ yi_name i = None.
  Proof.
    unfold create_def_info, place. destruct file as [f|]; [|discriminate]. intros E.
    apply bind_Ok in E as (p & Ep & E). destruct (end_line f line kind) as [e|e] eqn:L.
    - apply Ok_inj in E. subst i. cbn. split; [|reflexivity]. split; [reflexivity|]. exists f. auto.
    - destruct e; try discriminate; apply Ok_inj in E; subst i; cbn; (split; [|reflexivity]); (split; [reflexivity|]); exists f; auto.
  Qed.
  Lemma has_place_info line file dir kind : (exists i, create_def_info cwd end_line line file dir kind = Ok i) <->
    has_place end_line line file kind.
  Proof.
    unfold create_def_info, has_place. destruct file as [f|].
    - unfold relpath. destruct (String.eqb_spec f "") as [->|N].
      + cbn. split; [intros [i E]; discriminate|]. intros (g & [= <-] & N & _). congruence.
      + assert (R : exists p, relpath cwd f dir = Ok p).
        { unfold relpath. apply String.eqb_neq in N. rewrite N. cbv zeta. destruct (repeat _ _ ++ _); eauto. }
        unfold relpath in R. apply String.eqb_neq in N. rewrite N in R. destruct R as [p R]. rewrite R. cbn [bind].
        apply String.eqb_neq in N. split.
        * intros [i E]. exists f. split; [reflexivity|]. split; [exact N|]. intros e L. rewrite L in E. destruct e; try discriminate; auto.
        * intros (g & [= <-] & _ & L). destruct (end_line f line kind) as [e|e]; [eauto|].
          destruct (L e eq_refl) as [-> | ->]; eauto.
    - split; [intros [i E]; discriminate|]. intros (g & X & _). discriminate.
  Qed.

  Lemma function_def_ok v d : function_def cwd end_line old_dir new_dir v = Ok d ->
    function_definition cwd end_line old_dir new_dir v d.
  Proof.
    unfold function_def, function_definition. intros E.
    apply bind_Ok in E as (o & Eo & E). apply bind_Ok in E as (n & En & E). apply Ok_inj in E. subst d. cbn.
    apply place_info in Eo as [Po No]. apply place_info in En as [Pn Nn].
    split; [reflexivity|]. split; [exact Po|].
    destruct (String.eqb_spec (snd (v_names v)) (fst (v_names v))) as [X|X].
    - split; [exact Pn|]. split; [exact No|]. split; [auto|congruence].
    - split; [exact Pn|]. split; [exact No|]. split; [congruence|auto].
  Qed.
  Lemma function_def_total v : (exists d, function_def cwd end_line old_dir new_dir v = Ok d) <-> function_placed end_line v.
  Proof.
    unfold function_def, function_placed. rewrite <- (has_place_info _ _ old_dir), <- (has_place_info _ _ new_dir). split.
    - intros [d E]. apply bind_Ok in E as (o & Eo & E). apply bind_Ok in E as (n & En & E).
      split; [exists o; exact Eo|]. exists n. exact En.
    - intros [[o Eo] [n En]]. rewrite Eo. cbn [bind]. rewrite En. cbn [bind]. eauto.
  Qed.
  Lemma find_type_first l n : forall t, find_type l n = Some t <->
    exists pre p st post, l = pre ++ TypeDiff n p st (fst t) (snd t) :: post /\ Forall (fun d => ~ is_type_diff n d) pre.
  Proof.
    induction l as [|d l IH]; intros [file line]; cbn [find_type].
    - split; [discriminate|]. intros (pre & ? & ? & ? & E & _). destruct pre; discriminate.
    - cbn [fst snd] in *. destruct d as [m p st b|m p st fi li].
      + rewrite IH. cbn [fst snd]. split.
        * intros (pre & q & s & post & -> & F). exists (SyntaxDiff m p st b :: pre), q, s, post. split; [reflexivity|].
          constructor; [|exact F]. intros (? & ? & ? & ? & X). discriminate.
        * intros (pre & q & s & post & E & F). destruct pre as [|x pre]; [discriminate|]. injection E as <- ->.
          inversion F; subst. eauto 8.
      + destruct (String.eqb_spec m n) as [->|N].
        * split.
          -- intros [= -> ->]. exists [], p, st, l. split; [reflexivity|constructor].
          -- intros (pre & q & s & post & E & F). destruct pre as [|x pre].
             ++ injection E. intros. subst. reflexivity.
             ++ injection E as <- _. inversion F as [|? ? X]; subst. exfalso. apply X. do 4 eexists. reflexivity.
        * rewrite IH. cbn [fst snd]. split.
          -- intros (pre & q & s & post & -> & F). exists (TypeDiff m p st fi li :: pre), q, s, post. split; [reflexivity|].
             constructor; [|exact F]. intros (? & ? & ? & ? & X). injection X as X. congruence.
          -- intros (pre & q & s & post & E & F). destruct pre as [|x pre].
             ++ injection E as E. congruence.
             ++ injection E as <- ->. inversion F; subst. eauto 8.
  Qed.
  Lemma type_def_ok v n t d : find_type (v_nonfun v) n = Some t -> type_def cwd end_line old_dir new_dir t = Ok d ->
    type_definition cwd end_line old_dir new_dir v n d.
  Proof.
    intros F E. destruct t as [file line]. unfold type_def in E.
    apply bind_Ok in E as (o & Eo & E). apply bind_Ok in E as (m & Em & E). apply Ok_inj in E. subst d.
    apply place_info in Eo as [Po No]. apply place_info in Em as [Pm Nm].
    split; [reflexivity|]. split; [exact No|]. split; [exact Nm|]. exists file, line. split; [|auto].
    apply find_type_first in F. exact F.
  Qed.
  Lemma type_def_total t : (exists d, type_def cwd end_line old_dir new_dir t = Ok d) <->
    has_place end_line (Some (fst (snd t))) (Some (fst (fst t))) "type" /\
    has_place end_line (Some (snd (snd t))) (Some (snd (fst t))) "type".
  Proof.
    rewrite <- (has_place_info _ _ old_dir), <- (has_place_info _ _ new_dir). destruct t as [file line]. unfold type_def. cbn [fst snd]. split.
    - intros [d E]. apply bind_Ok in E as (o & Eo & E). apply bind_Ok in E as (n & En & E). split; eauto.
    - intros [[o Eo] [n En]]. rewrite Eo. cbn [bind]. rewrite En. cbn [bind]. eauto.
  Qed.

  Lemma function_defs_fold g l : forall defs defs', fold_res (add_function_def cwd end_line h old_dir new_dir g) defs l = Ok defs' ->
    NoDup (dkeys defs) ->
    NoDup (dkeys defs') /\
    forall n,
    (In n l -> forall v, dget (g_verts g) n = Some v -> exists d, function_def cwd end_line old_dir new_dir (h v) = Ok d /\ dget defs' n = Some d) /\
    (~ In n l \/ dget (g_verts g) n = None -> dget defs' n = dget defs n).
  Proof.
    induction l as [|x l IH]; intros defs defs' E N.
    - cbn in E. apply Ok_inj in E. subst defs'. split; [exact N|]. intros n. split; [intros []|reflexivity].
    - cbn [fold_res] in E. destruct (add_function_def cwd end_line h old_dir new_dir g defs x) as [d1|] eqn:E1; [|discriminate].
      unfold add_function_def in E1. destruct (dget (g_verts g) x) as [vx|] eqn:Vx.
      + apply bind_Ok in E1 as (d & Ed & E1). apply Ok_inj in E1. subst d1.
        specialize (IH _ _ E (dset_NoDup _ _ _ N)) as [N' IH]. split; [exact N'|]. intros n. destruct (IH n) as [A B]. split.
        * intros I v V. destruct (in_dec string_dec n l) as [J|J]; [auto|]. destruct I as [->|I]; [|contradiction].
          rewrite (B (or_introl J)), dget_dset_same. assert (v = vx) by congruence. subst v. eauto.
        * intros C. rewrite B by (cbn in C; tauto). apply dget_dset_other. intros ->. cbn in C. destruct C as [C|C]; [tauto|congruence].
      + apply Ok_inj in E1. subst d1. specialize (IH _ _ E N) as [N' IH]. split; [exact N'|]. intros n. destruct (IH n) as [A B]. split.
        * intros I v V. destruct I as [->|I]; [congruence|auto].
        * intros C. apply B. cbn in C. tauto.
  Qed.
  Lemma function_defs_total g l : forall defs, (exists defs', fold_res (add_function_def cwd end_line h old_dir new_dir g) defs l = Ok defs') <->
    Forall (fun n => forall v, dget (g_verts g) n = Some v -> function_placed end_line (h v)) l.
  Proof.
    intros defs. apply fold_res_Ok_iff. intros s n. unfold add_function_def.
    destruct (dget (g_verts g) n) as [v|]; [|split; [discriminate|eauto]].
    split.
    - intros [s' E] w [= <-]. apply bind_Ok in E as (d & E & _). apply function_def_total. eauto.
    - intros H. specialize (H v eq_refl). apply function_def_total in H as [d E]. rewrite E. cbn. eauto.
  Qed.

  Definition type_here (g : graph) (n p : string) (t : string * string * (Z * Z)) : Prop :=
    exists v, dget (g_verts g) p = Some v /\ find_type (v_nonfun (h v)) n = Some t.
  Lemma type_defs_fold g l : forall defs defs', fold_res (add_type_def cwd end_line h old_dir new_dir g) defs l = Ok defs' ->
    NoDup (dkeys defs) ->
    NoDup (dkeys defs') /\
    forall n,
    ((exists p t, In (n, p) l /\ type_here g n p t) ->
     exists p t d, In (n, p) l /\ type_here g n p t /\ type_def cwd end_line old_dir new_dir t = Ok d /\ dget defs' n = Some d) /\
    (~ (exists p t, In (n, p) l /\ type_here g n p t) -> dget defs' n = dget defs n).
  Proof.
    induction l as [|[x px] l IH]; intros defs defs' E N.
    - cbn in E. apply Ok_inj in E. subst defs'. split; [exact N|]. intros n. split; [intros (p & t & [] & _)|reflexivity].
    - cbn [fold_res] in E. destruct (add_type_def cwd end_line h old_dir new_dir g defs (x, px)) as [d1|] eqn:E1; [|discriminate].
      unfold add_type_def in E1.
      assert (SKIP : d1 = defs -> (forall t, ~ type_here g x px t) ->
        NoDup (dkeys defs') /\ forall n,
        ((exists p t, In (n, p) ((x, px) :: l) /\ type_here g n p t) ->
         exists p t d, In (n, p) ((x, px) :: l) /\ type_here g n p t /\ type_def cwd end_line old_dir new_dir t = Ok d /\ dget defs' n = Some d) /\
        (~ (exists p t, In (n, p) ((x, px) :: l) /\ type_here g n p t) -> dget defs' n = dget defs n)).
      { intros -> NT. specialize (IH _ _ E N) as [N' IH]. split; [exact N'|]. intros n. destruct (IH n) as [A B]. split.
        - intros (p & t & [X|I] & T); [injection X as -> ->; destruct (NT t T)|].
          destruct A as (p' & t' & d & I' & R); [eauto|]. exists p', t', d. cbn. tauto.
        - intros C. apply B. intros (p & t & I & T). apply C. exists p, t. cbn. auto. }
      destruct (dget (g_verts g) px) as [v|] eqn:V.
      2:{ apply Ok_inj in E1. apply SKIP; [auto|]. intros t (w & W & _). congruence. }
      destruct (find_type (v_nonfun (h v)) x) as [tx|] eqn:T.
      2:{ apply Ok_inj in E1. apply SKIP; [auto|]. intros t (w & W & F). congruence. }
      apply bind_Ok in E1 as (d & Ed & E1). apply Ok_inj in E1. subst d1. clear SKIP.
      specialize (IH _ _ E (dset_NoDup _ _ _ N)) as [N' IH]. split; [exact N'|]. intros n. destruct (IH n) as [A B]. split.
      + intros _X. destruct _X as (p & t & I & TH).
        assert (D : (exists p t, In (n, p) l /\ type_here g n p t) \/ ~ (exists p t, In (n, p) l /\ type_here g n p t)).
        { clear. induction l as [|[a b] l IH]; [right; intros (p & t & [] & _)|].
          destruct IH as [(p & t & I & T)|IH]; [left; exists p, t; cbn; auto|].
          destruct (string_dec a n) as [->|Na].
          - destruct (dget (g_verts g) b) as [w|] eqn:W.
            + destruct (find_type (v_nonfun (h w)) n) as [t|] eqn:F.
              * left. exists b, t. split; [left; reflexivity|]. exists w. auto.
              * right. intros (p & t & [X|I] & (w' & W' & F')); [injection X as <-; congruence|]. apply IH. exists p, t. split; [exact I|]. exists w'. auto.
            + right. intros (p & t & [X|I] & (w' & W' & F')); [injection X as <-; congruence|]. apply IH. exists p, t. split; [exact I|]. exists w'. auto.
          - right. intros (p & t & [X|I] & T); [injection X as X _; congruence|]. apply IH. eauto. }
        destruct D as [D|D].
        * destruct (A D) as (p' & t' & d' & I' & R). exists p', t', d'. cbn. tauto.
        * destruct I as [X|I]; [|exfalso; eauto]. injection X as -> ->.
          destruct TH as (w & W & F). assert (w = v) by congruence. subst w. assert (t = tx) by congruence. subst t.
          exists p, tx, d. split; [left; reflexivity|]. split; [exists v; auto|]. split; [exact Ed|].
          rewrite (B D). apply dget_dset_same.
      + intros C. rewrite B; [|intros (p & t & I & TH); apply C; exists p, t; cbn; auto].
        apply dget_dset_other. intros ->. apply C. exists px, tx. split; [left; reflexivity|]. exists v. auto.
  Qed.
  Lemma type_defs_total g l : forall defs, (exists defs', fold_res (add_type_def cwd end_line h old_dir new_dir g) defs l = Ok defs') <->
    Forall (fun np => forall v, dget (g_verts g) (snd np) = Some v -> type_placed end_line (h v) (fst np)) l.
  Proof.
    intros defs. apply fold_res_Ok_iff. intros s [n p]. cbn [fst snd]. unfold add_type_def.
    destruct (dget (g_verts g) p) as [v|]; [|split; [discriminate|eauto]].
    assert (Q : forall t, find_type (v_nonfun (h v)) n = Some t <-> first_type_diff (h v) n (fst t) (snd t)) by (intros t; apply find_type_first).
    destruct (find_type (v_nonfun (h v)) n) as [t|] eqn:F.
    - split.
      + intros [s' E] w [= <-] file line T. apply bind_Ok in E as (d & E & _).
        apply (proj2 (Q (file, line))) in T. injection T as ->. apply (proj1 (type_def_total (file, line))). eauto.
      + intros H. specialize (H v eq_refl (fst t) (snd t) (proj1 (Q t) eq_refl)). apply type_def_total in H as [d E]. rewrite E. cbn. eauto.
    - split; [|eauto]. intros _ w [= <-] file line T. apply (proj2 (Q (file, line))) in T. discriminate.
  Qed.

  Lemma dict_update_get e : forall d n, NoDup (dkeys e) ->
    dget (dict_update d e) n = match dget e n with Some x => Some x | None => dget d n end.
  Proof.
    unfold dict_update. induction e as [|[k x] e IH]; intros d n N; [reflexivity|].
    cbn [fold_left fst snd]. cbn [dkeys map fst] in N. inversion N as [|? ? Nk Ne]; subst.
    rewrite IH by exact Ne. cbn [dget]. rewrite dget_dset. destruct (eqb_spec n k) as [->|NE]; [|reflexivity].
    apply dget_None in Nk. unfold dkeys in Nk. rewrite Nk. reflexivity.
  Qed.
End Yaml.

(** ** Lines *)
Lemma plain_empty : plain "".
Proof. intros c _. reflexivity. Qed.
Lemma plain_cons c s : c <> cr -> line_boundary c = false -> plain s -> plain (String c s).
Proof.
  intros N B P d D. cbn [has_char]. rewrite (P d D), orb_false_r. destruct (Ascii.eqb_spec d c) as [->|]; [|reflexivity].
  destruct D as [D|D]; congruence.
Qed.
Lemma text_lines_cons c s ls : c <> cr -> line_boundary c = false -> text_lines s ls ->
  text_lines (String c s) (match ls with [] => [String c ""] | l :: ls' => String c l :: ls' end).
Proof.
  intros N B T. inversion T as [|s' P NE|s' e rest ls' P LE NC R]; subst.
  - apply tl_last; [apply plain_cons; auto using plain_empty|discriminate].
  - apply tl_last; [apply plain_cons; auto|discriminate].
  - change (text_lines (String c s' ++ e ++ rest) ((String c s' ++ e)%string :: ls')).
    apply tl_line; auto. apply plain_cons; auto.
Qed.
Lemma splitlines_lines s : text_lines s (splitlines s).
Proof.
  remember (String.length s) as n eqn:En. revert s En. induction n as [n IH] using lt_wf_ind. intros s ->.
  destruct s as [|c s]; [constructor|]. cbn [splitlines].
  destruct (Ascii.eqb_spec c cr) as [->|N].
  - destruct s as [|d s].
    + apply (tl_line "" (String cr "") "" []); [apply plain_empty| | |constructor].
      * right. exists cr. auto.
      * intros [_ [t X]]. discriminate.
    + destruct (Ascii.eqb_spec d nl) as [->|Nd].
      * apply (tl_line "" (String cr (String nl "")) s); [apply plain_empty|left; reflexivity| |].
        -- intros [X _]. discriminate.
        -- apply (IH (String.length s)); [cbn; lia|reflexivity].
      * apply (tl_line "" (String cr "") (String d s)); [apply plain_empty| | |].
        -- right. exists cr. auto.
        -- intros [_ [t X]]. injection X as X. contradiction.
        -- apply (IH (String.length (String d s))); [cbn; lia|reflexivity].
  - destruct (line_boundary c) eqn:B.
    + apply (tl_line "" (String c "") s); [apply plain_empty| | |].
      * right. exists c. auto.
      * intros [X _]. injection X as X. contradiction.
      * apply (IH (String.length s)); [cbn; lia|reflexivity].
    + apply text_lines_cons; [exact N|exact B|]. apply (IH (String.length s)); [cbn; lia|reflexivity].
Qed.
Lemma text_indent_indented w s : indented w s (text_indent s w).
Proof. exists (splitlines s). split; [apply splitlines_lines|reflexivity]. Qed.

(** ** Paths *)
From Verif Require Import Cache_Spec Cache_Proofs.
Lemma norm_comps_app a : forall acc b, norm_comps acc (a ++ b) = norm_comps (rev (norm_comps acc a)) b.
Proof.
  induction a as [|c a IH]; intros acc b; cbn [norm_comps app]; [rewrite rev_involutive; reflexivity|].
  destruct (String.eqb c "" || String.eqb c "."); [apply IH|]. destruct (String.eqb c ".."); apply IH.
Qed.
Lemma norm_ordinary cs : forall acc, Forall (fun c => has_char "/" c = false) cs -> Forall ordinary acc ->
  Forall ordinary (norm_comps acc cs).
Proof.
  induction cs as [|c cs IH]; intros acc F A; cbn [norm_comps].
  - apply Forall_rev, A.
  - inversion F as [|? ? Hc Fc]; subst. destruct (String.eqb_spec c "") as [->|N1]; cbn [orb]; [auto|].
    destruct (String.eqb_spec c ".") as [->|N2]; [auto|]. destruct (String.eqb_spec c "..") as [->|N3].
    + apply IH; [exact Fc|]. destruct acc; [constructor|inversion A; auto].
    + apply IH; [exact Fc|]. constructor; [|exact A]. repeat split; auto.
Qed.
Lemma split_no_char c s : Forall (fun w => has_char c w = false) (split_char c s).
Proof.
  induction s as [|x s IH]; cbn [split_char]; [repeat constructor|].
  destruct (Ascii.eqb_spec x c) as [->|N]; [constructor; [reflexivity|exact IH]|].
  destruct (split_char c s) as [|w ws]; [repeat constructor; cbn; rewrite Ascii.eqb_sym; destruct (Ascii.eqb_spec x c); auto; contradiction|].
  inversion IH; subst. constructor; [|assumption]. cbn. rewrite Ascii.eqb_sym.
  destruct (Ascii.eqb_spec x c); [contradiction|assumption].
Qed.
Lemma abs_comps_ordinary cwd p : Forall ordinary (abs_comps cwd p).
Proof. unfold abs_comps. apply norm_ordinary; [apply split_no_char|constructor]. Qed.
Lemma norm_push cs : forall acc, Forall ordinary cs -> norm_comps acc cs = rev acc ++ cs.
Proof.
  induction cs as [|c cs IH]; intros acc F; cbn [norm_comps]; [rewrite app_nil_r; reflexivity|].
  inversion F as [|? ? (N1 & N2 & N3 & _) Fc]; subst.
  apply String.eqb_neq in N1, N2, N3. rewrite N1, N2, N3. cbn [orb]. rewrite IH by exact Fc. cbn [rev]. rewrite <- app_assoc. reflexivity.
Qed.
Lemma norm_pop k : forall acc cs, norm_comps acc (repeat ".."%string k ++ cs) = norm_comps (skipn k acc) cs.
Proof.
  induction k as [|k IH]; intros acc cs; [reflexivity|]. cbn [repeat app norm_comps].
  change (String.eqb ".." "") with false. change (String.eqb ".." ".") with false. change (String.eqb ".." "..") with true.
  cbn [orb]. rewrite IH. destruct acc; [destruct k; reflexivity|reflexivity].
Qed.
Lemma split_slash_app a b : split_char slash (a ++ String slash b) = split_char slash a ++ split_char slash b.
Proof.
  induction a as [|c a IH]; cbn [append split_char].
  - rewrite Ascii.eqb_refl. reflexivity.
  - destruct (Ascii.eqb c slash); [rewrite IH; reflexivity|]. rewrite IH.
    pose proof (split_char_nonempty slash a). destruct (split_char slash a); [congruence|reflexivity].
Qed.
Lemma split_join_comps rel : rel <> [] -> Forall (fun c => has_char "/" c = false) rel -> split_char slash (join "/" rel) = rel.
Proof.
  intros N F. induction rel as [|c rel IH]; [congruence|]. inversion F as [|? ? Hc Fr]; subst.
  destruct rel as [|d rel].
  - cbn. apply split_char_no. exact Hc.
  - change (join "/" (c :: d :: rel)) with (c ++ String slash (join "/" (d :: rel)))%string.
    rewrite split_char_app by exact Hc. rewrite IH; [reflexivity|discriminate|exact Fr].
Qed.
Lemma endswith_slash_split a : endswith a "/" = true -> exists a', a = (a' ++ "/")%string.
Proof. intros E. apply endswith_spec in E. exact E. Qed.
Lemma abs_comps_join cwd dir rel : isabs dir = true -> isabs rel = false ->
  abs_comps cwd (path_join dir rel) = norm_comps (rev (abs_comps cwd dir)) (split_char slash rel).
Proof.
  intros A R. unfold path_join. rewrite R.
  assert (NE : String.eqb dir "" = false) by (destruct dir; [discriminate|reflexivity]). rewrite NE. cbn [orb].
  unfold abs_comps at 2. rewrite A.
  destruct (endswith dir "/") eqn:E.
  - apply endswith_slash_split in E as [a ->]. unfold abs_comps.
    assert (I : isabs ((a ++ "/") ++ rel) = true).
    { unfold isabs in *. apply startswith_spec in A as [t A]. apply startswith_spec. exists (t ++ rel)%string. rewrite A, app_assoc_s. reflexivity. }
    rewrite I. rewrite app_assoc_s. change ("/" ++ rel)%string with (String slash rel). rewrite split_slash_app, norm_comps_app.
    change (a ++ "/")%string with (a ++ String slash "")%string. rewrite split_slash_app. rewrite norm_comps_app. cbn [split_char norm_comps].
    change (String.eqb "" "") with true. cbn [orb norm_comps]. rewrite rev_involutive. reflexivity.
  - unfold abs_comps.
    assert (I : isabs (dir ++ "/" ++ rel) = true).
    { unfold isabs in *. apply startswith_spec in A as [t A]. apply startswith_spec. exists (t ++ "/" ++ rel)%string. rewrite A, app_assoc_s. reflexivity. }
    rewrite I. change ("/" ++ rel)%string with (String slash rel). rewrite split_slash_app, norm_comps_app. reflexivity.
Qed.
Lemma common_len_firstn a : forall b, firstn (common_len a b) a = firstn (common_len a b) b.
Proof.
  induction a as [|x a IH]; intros [|y b]; cbn [common_len firstn]; try reflexivity.
  destruct (String.eqb_spec x y) as [->|]; cbn [firstn]; [rewrite IH|]; reflexivity.
Qed.
Lemma skipn_rev_firstn {A} (l : list A) i : i <= length l -> skipn (length l - i) (rev l) = rev (firstn i l).
Proof.
  intros L. rewrite skipn_rev. f_equal. f_equal. lia.
Qed.
Lemma ordinary_isabs c rest : ordinary c \/ c = ".."%string -> isabs (join "/" (c :: rest)) = false.
Proof.
  intros H. assert (X : c <> ""%string /\ has_char "/" c = false) by (destruct H as [(A & _ & _ & B)| ->]; [auto|split; [discriminate|reflexivity]]).
  destruct X as [N S]. destruct c as [|x c]; [congruence|]. unfold isabs.
  assert (J : exists t, join "/" (String x c :: rest) = String x t).
  { destruct rest; cbn; eauto. }
  destruct J as [t ->]. cbn. cbn [has_char] in S. apply orb_false_iff in S as [S _].
  change ("/"%char) with slash in *. rewrite S. reflexivity.
Qed.

(** The path in the report, read from the snapshot directory, is the original file. *)
Lemma relpath_join cwd dir f p : isabs dir = true -> relpath cwd f dir = Ok p ->
  isabs p = false /\ abs_comps cwd (path_join dir p) = abs_comps cwd f.
Proof.
  intros A. unfold relpath. destruct (String.eqb f ""); [discriminate|]. cbv zeta.
  set (sl := abs_comps cwd dir). set (pl := abs_comps cwd f). set (i := common_len sl pl).
  intros E.
  assert (O : Forall ordinary pl) by apply abs_comps_ordinary.
  assert (Li : i <= length sl) by (unfold i; pose proof (common_len_le sl pl); lia).
  assert (R : isabs p = false /\ norm_comps (rev sl) (split_char slash p) = norm_comps (rev sl) (repeat ".."%string (length sl - i) ++ skipn i pl)).
  { destruct (repeat ".."%string (length sl - i) ++ skipn i pl) as [|c rel] eqn:ER.
    - apply Ok_inj in E. subst p. split; reflexivity.
    - apply Ok_inj in E. subst p.
      assert (F : Forall (fun c => ordinary c \/ c = ".."%string) (c :: rel)).
      { rewrite <- ER. apply Forall_app. split.
        - apply Forall_forall. intros x I. apply repeat_spec in I. auto.
        - eapply Forall_impl; [|apply Forall_skipn, O]. auto. }
      split.
      + inversion F; subst. apply ordinary_isabs. assumption.
      + rewrite split_join_comps; [reflexivity|discriminate|].
        eapply Forall_impl; [|exact F]. intros x [(_ & _ & _ & S)| ->]; [exact S|reflexivity]. }
  destruct R as [R1 R2]. split; [exact R1|].
  rewrite abs_comps_join by assumption. fold sl. rewrite R2, norm_pop, skipn_rev_firstn by exact Li.
  rewrite norm_push by (apply Forall_skipn, O). rewrite rev_involutive. unfold i. rewrite common_len_firstn. apply firstn_skipn.
Qed.

(** ** Printing *)
Lemma map_res_Forall2 {A B} (f : A -> res B) l : forall l', map_res f l = Ok l' -> Forall2 (fun x y => f x = Ok y) l l'.
Proof.
  induction l as [|x l IH]; cbn [map_res]; intros l' E.
  - apply Ok_inj in E. subst l'. constructor.
  - destruct (f x) as [y|] eqn:F; [|discriminate]. destruct (map_res f l) as [ys|]; [|discriminate].
    apply Ok_inj in E. subst l'. constructor; auto.
Qed.
Lemma map_res_total {A B} (f : A -> res B) l : (exists l', map_res f l = Ok l') <-> Forall (fun x => exists y, f x = Ok y) l.
Proof.
  induction l as [|x l IH]; cbn [map_res]; [split; [constructor|eauto]|]. split.
  - intros [l' E]. destruct (f x) as [y|] eqn:F; [|discriminate]. destruct (map_res f l) as [ys|]; [|discriminate].
    constructor; [eauto|]. apply IH. eauto.
  - intros F. inversion F as [|? ? [y Y] Fl]; subst. apply IH in Fl as [ys Ys]. rewrite Y, Ys. eauto.
Qed.
Lemma path_join_empty_ne p : path_join (String "/" p) "" <> ""%string.
Proof.
  unfold path_join. change (isabs "") with false. cbv iota. change (String.eqb (String "/" p) "") with false. cbn [orb].
  destruct (endswith (String "/" p) "/"); cbn [append]; discriminate.
Qed.
Lemma dir_prefix_ne cwd p : dir_prefix cwd p <> ""%string.
Proof. unfold dir_prefix, abspath. apply path_join_empty_ne. Qed.
Lemma print_called_block cwd d1 d2 tf show ind r b : print_called cwd d1 d2 tf show ind r = Ok b ->
  if unlisted r then b = [] else printed_block cwd d1 d2 ind show r b.
Proof.
  unfold print_called. destruct (unlisted r); intros E; [apply Ok_inj in E; auto|].
  apply bind_Ok in E as (d & D & E). apply Ok_inj in E. subst b. unfold printed_block.
  do 2 eexists. split; [reflexivity|]. split; [apply text_indent_indented|]. split; [|split].
  - intros cs C. unfold print_stack. rewrite C. do 2 eexists. split; [apply replace_Replaced, dir_prefix_ne|].
    split; [apply text_indent_indented|]. rewrite !in_app_iff. right. left. right. left. reflexivity.
  - intros cs C. unfold print_stack. rewrite C. do 2 eexists. split; [apply replace_Replaced, dir_prefix_ne|].
    split; [apply text_indent_indented|]. rewrite !in_app_iff. right. right. left. right. left. reflexivity.
  - intros ->. destruct (r_diff r) as [t|]; [|discriminate]. apply Ok_inj in D. subst d. do 2 eexists. split; [reflexivity|].
    split; [apply text_indent_indented|]. rewrite !in_app_iff. right. right. right. left. right. left. reflexivity.
Qed.
Lemma print_called_total cwd d1 d2 tf show ind r : (exists b, print_called cwd d1 d2 tf show ind r = Ok b) <->
  (listed r -> show = true -> r_diff r <> None).
Proof.
  unfold print_called. destruct (unlisted r) eqn:U.
  - split; [|eauto]. intros _ L. apply unlisted_listed in L. congruence.
  - apply unlisted_listed in U. destruct show; [|cbn; split; [discriminate|eauto]].
    destruct (r_diff r); cbn; [split; [discriminate|eauto]|]. split; [intros [b E]; discriminate|]. intros H. exfalso. apply H; auto.
Qed.
Lemma blocks_of cwd d1 d2 tf show ind rs bs : Forall2 (fun x y => print_called cwd d1 d2 tf show ind x = Ok y) rs bs ->
  exists blocks, concat bs = concat blocks /\ Forall2 (printed_block cwd d1 d2 ind show) (filter (fun r => negb (unlisted r)) rs) blocks.
Proof.
  induction 1 as [|r b rs bs E F (blocks & C & IH)].
  - exists []. split; [reflexivity|constructor].
  - apply print_called_block in E. cbn [filter concat]. destruct (unlisted r); cbn [negb].
    + subst b. exists blocks. auto.
    + exists (b :: blocks). cbn [concat]. rewrite C. auto.
Qed.
Lemma print_cases cwd d1 d2 fn r tag od show full ind out :
  print_syntax_diff cwd d1 d2 fn r tag od show full ind = Ok (Some out) ->
  is_printed full r = true /\
  let tf := match od with Some d => negb (String.eqb d "") | None => false end in
  let width := if tf then ind + 2 else ind + 4 in
  (fst out = match od with Some d => if String.eqb d "" then None else Some (path_join d (fn ++ ".diff")) | None => None end) /\
  exists header blocks, snd out = header :: concat blocks /\
    Forall2 (printed_block cwd d1 d2 width show) (filter (fun x => negb (unlisted x)) (by_name (dvals (r_inner r)))) blocks.
Proof.
  unfold print_syntax_diff. destruct (is_printed full r); cbn [negb]; [|discriminate]. intros E. split; [reflexivity|].
  assert (S : forall (dest : option string) (header : string) (tf : bool) (width : nat) (X : option string * list string),
    (do bs <- map_res (print_called cwd d1 d2 tf show width) (by_name (dvals (r_inner r))); Ok (Some (dest, header :: concat bs))) = Ok (Some X) ->
    fst X = dest /\ exists header blocks, snd X = header :: concat blocks /\
      Forall2 (printed_block cwd d1 d2 width show) (filter (fun x => negb (unlisted x)) (by_name (dvals (r_inner r)))) blocks).
  { intros dest header tf width X H. apply bind_Ok in H as (bs & B & H). apply Ok_inj in H. injection H as H. subst X.
    split; [reflexivity|]. apply map_res_Forall2, blocks_of in B as (blocks & C & F). exists header, blocks.
    cbn [snd]. rewrite C. auto. }
  destruct od as [d|]; [destruct (String.eqb d "")|]; cbv zeta beta iota in E |- *; cbn [negb]; apply S in E; exact E.
Qed.

(** ** Preparation of the viewer *)
Lemma blank_iff d : (isspace d || String.eqb d "") = true <-> blank d.
Proof.
  unfold isspace, blank. destruct (String.eqb_spec d "") as [->|N]; cbn [negb andb orb].
  - split; reflexivity.
  - rewrite orb_false_r. reflexivity.
Qed.
Lemma last_app_ne {A} (l l' : list A) d : l' <> [] -> List.last (l ++ l') d = List.last l' d.
Proof.
  intros N. induction l as [|x l IH]; [reflexivity|]. cbn [app List.last].
  destruct (l ++ l') eqn:E; [apply app_eq_nil in E as [_ ?]; contradiction|]. exact IH.
Qed.
Lemma basename_join dir f : isabs f = false -> basename (path_join dir f) = basename f.
Proof.
  intros A. unfold basename, path_join. rewrite A. destruct (String.eqb_spec dir "") as [->|N]; cbn [orb]; [reflexivity|].
  destruct (endswith dir "/") eqn:E.
  - apply endswith_slash_split in E as [a ->]. rewrite app_assoc_s. change ("/" ++ f)%string with (String slash f).
    rewrite split_slash_app. apply last_app_ne, split_char_nonempty.
  - change ("/" ++ f)%string with (String slash f). rewrite split_slash_app. apply last_app_ne, split_char_nonempty.
Qed.
Lemma strip_slashes_split s : exists n, s = (strip_slashes s ++ string_of_list_ascii (repeat slash n))%string.
Proof.
  induction s as [|c s [n IH]]; [exists 0; reflexivity|]. cbn [strip_slashes].
  destruct (strip_slashes s) as [|x r] eqn:E.
  - cbn [append] in IH. destruct (Ascii.eqb_spec c slash) as [->|N].
    + exists (S n). cbn. congruence.
    + exists n. cbn. congruence.
  - exists n. cbn [append]. f_equal. exact IH.
Qed.
Lemma norm_comps_blanks n : forall acc, norm_comps acc (repeat ""%string n) = rev acc.
Proof. induction n as [|n IH]; intros acc; [reflexivity|]. cbn [repeat norm_comps]. change (String.eqb "" "") with true. cbn [orb]. apply IH. Qed.
Lemma split_slashes n : split_char slash (string_of_list_ascii (repeat slash n)) = repeat ""%string (S n).
Proof. induction n as [|n IH]; [reflexivity|]. cbn [repeat string_of_list_ascii split_char]. rewrite Ascii.eqb_refl, IH. reflexivity. Qed.
Lemma norm_strip s : norm_comps [] (split_char slash (strip_slashes s)) = norm_comps [] (split_char slash s).
Proof.
  destruct (strip_slashes_split s) as [n E]. rewrite E at 2.
  destruct n as [|n]; [cbn; rewrite app_nil_r_s; reflexivity|].
  change (string_of_list_ascii (repeat slash (S n))) with (String slash (string_of_list_ascii (repeat slash n))).
  rewrite split_slash_app, norm_comps_app, split_slashes, norm_comps_blanks, rev_involutive. reflexivity.
Qed.
Lemma strip_slashes_first c s : strip_slashes (String c s) <> ""%string -> exists t, strip_slashes (String c s) = String c t.
Proof.
  cbn [strip_slashes]. destruct (strip_slashes s); [|eauto]. destruct (Ascii.eqb c slash); [congruence|eauto].
Qed.
Lemma strip_slashes_ne s : all_chars (Ascii.eqb slash) s = false -> strip_slashes s <> ""%string.
Proof.
  induction s as [|c s IH]; cbn [all_chars strip_slashes]; [discriminate|].
  rewrite andb_false_iff. intros [N|N].
  - destruct (strip_slashes s); [|discriminate]. rewrite Ascii.eqb_sym in N. rewrite N. discriminate.
  - specialize (IH N). destruct (strip_slashes s); [congruence|discriminate].
Qed.
Lemma split_last p hs b : split_char slash p = hs ++ [b] -> hs <> [] -> p = (join "/" hs ++ "/" ++ b)%string.
Proof.
  intros E N. rewrite <- (join_split_char slash p), E. clear E. change (String slash "") with "/"%string.
  induction hs as [|h hs IH]; [congruence|]. destruct hs as [|h2 hs]; [reflexivity|].
  change (join "/" ((h :: h2 :: hs) ++ [b])) with (h ++ "/" ++ join "/" ((h2 :: hs) ++ [b]))%string.
  change (join "/" (h :: h2 :: hs)) with (h ++ "/" ++ join "/" (h2 :: hs))%string.
  rewrite IH by discriminate. rewrite !app_assoc_s. reflexivity.
Qed.
(** The directory of an absolute path, and the last name in it, denote the path. *)
Lemma dirname_basename cwd p hs b : isabs p = true -> split_char slash p = hs ++ [b] -> b <> ""%string ->
  isabs b = false /\ abs_comps cwd (path_join (dirname p) b) = abs_comps cwd p.
Proof.
  intros A E NB.
  assert (NS : has_char "/" b = false).
  { pose proof (split_no_char slash p) as F. rewrite E in F. apply Forall_app in F as [_ F]. inversion F; subst. assumption. }
  assert (Ab : isabs b = false).
  { unfold isabs. destruct b as [|x b]; [congruence|]. cbn. cbn [has_char] in NS. apply orb_false_iff in NS as [NS _]. rewrite NS. reflexivity. }
  split; [exact Ab|].
  assert (NH : hs <> []).
  { intros ->. cbn [app] in E. pose proof (join_split_char slash p) as J. rewrite E in J. cbn in J. subst b. congruence. }
  pose proof (split_last p hs b E NH) as P.
  unfold dirname. rewrite E, removelast_last. destruct hs as [|h0 hs0] eqn:EH; [congruence|]. rewrite <- EH in *. cbv zeta.
  set (head := (join "/" hs ++ "/")%string).
  assert (AH : isabs head = true).
  { unfold isabs, head in *. destruct (join "/" hs) as [|x j] eqn:EJ; [reflexivity|]. rewrite P in A. cbn in *. exact A. }
  assert (NORM : abs_comps cwd (path_join head b) = abs_comps cwd p).
  { unfold path_join. rewrite Ab. assert (X : (String.eqb head "" || endswith head "/") = true).
    { apply orb_true_iff. right. apply endswith_spec. exists (join "/" hs). reflexivity. }
    rewrite X. unfold head. rewrite app_assoc_s, <- P. reflexivity. }
  destruct (all_chars (Ascii.eqb slash) head) eqn:AC; [exact NORM|].
  pose proof (strip_slashes_ne _ AC) as NE.
  assert (AS : isabs (strip_slashes head) = true).
  { destruct head as [|x t]; [discriminate|]. destruct (strip_slashes_first x t NE) as [t' ->]. unfold isabs in *. cbn in *. exact AH. }
  rewrite abs_comps_join by assumption. rewrite abs_comps_join in NORM by assumption. rewrite <- NORM. f_equal. f_equal.
  unfold abs_comps. rewrite AS, AH. apply norm_strip.
Qed.

Section ViewP.
  Variable dt : difftool.
  Variable f : fs.
  Variable copyable : string -> res unit.
  Variables source_directory diff_directory old_snapshot new_snapshot : string.
  Notation step := (view_definition dt f copyable source_directory diff_directory old_snapshot new_snapshot).
  Definition copy_of (p : string) : string * string :=
    (path_join old_snapshot p, path_join (dirname (path_join source_directory p)) (basename (path_join old_snapshot p))).
  (** The difference shown for a definition: None if the viewer shows none. *)
  Definition diff_of (d : ydef) : res (option string) :=
    match yi_end (yf_old d), yi_end (yf_new d), yi_line (yf_old d), yi_line (yf_new d) with
    | Some e1, Some e2, Some l1, Some l2 =>
        do t <- unified_syntax_diff dt f (path_join old_snapshot (yi_file (yf_old d)))
                     (path_join new_snapshot (yi_file (yf_new d))) l1 l2 e1 e2;
        Ok (if isspace t || String.eqb t "" then None else Some t)
    | Some _, Some _, _, _ => Err TypeError
    | _, _, _, _ => Ok None
    end.
  Definition diff_file (n : string) : string := path_join diff_directory (n ++ ".diff").

  Lemma view_step st n d st' : step st (n, d) = Ok st' ->
    vs_processed st' = set_add (yi_file (yf_old d)) (vs_processed st) /\
    (vs_copies st = map copy_of (vs_processed st) -> vs_copies st' = map copy_of (vs_processed st')) /\
    (mem (yi_file (yf_old d)) (vs_processed st) = false -> copyable (path_join old_snapshot (yi_file (yf_old d))) = Ok tt) /\
    exists o, diff_of d = Ok o /\
      vs_flags st' = dset (vs_flags st) n (match o with Some _ => true | None => false end) /\
      vs_diffs st' = match o with Some t => dset (vs_diffs st) (diff_file n) t | None => vs_diffs st end.
  Proof.
    unfold view_definition. cbn [fst snd]. intros E. apply bind_Ok in E as (s1 & C & V).
    assert (CP : vs_processed s1 = set_add (yi_file (yf_old d)) (vs_processed st) /\ vs_flags s1 = vs_flags st /\ vs_diffs s1 = vs_diffs st /\
      (vs_copies st = map copy_of (vs_processed st) -> vs_copies s1 = map copy_of (vs_processed s1)) /\
      (mem (yi_file (yf_old d)) (vs_processed st) = false -> copyable (path_join old_snapshot (yi_file (yf_old d))) = Ok tt)).
    { unfold view_copy in C. destruct (mem (yi_file (yf_old d)) (vs_processed st)) eqn:M.
      - apply Ok_inj in C. subst s1. unfold set_add. rewrite M. repeat split; auto. discriminate.
      - apply bind_Ok in C as (u & U & C). apply Ok_inj in C. subst s1. cbn. repeat split; auto.
        + intros ->. unfold set_add. rewrite M, map_app. reflexivity.
        + intros _. destruct u. exact U. }
    destruct CP as (P & F & D & CC & OK). unfold view_diff in V. unfold diff_of.
    destruct (yi_end (yf_old d)) as [e1|]; [destruct (yi_end (yf_new d)) as [e2|]|].
    - destruct (yi_line (yf_old d)) as [l1|]; [|discriminate]. destruct (yi_line (yf_new d)) as [l2|]; [|discriminate].
      apply bind_Ok in V as (t & T & V). rewrite T. cbn [bind].
      destruct (isspace t || String.eqb t "") eqn:B; apply Ok_inj in V; subst st'; cbn;
        (split; [exact P|]); (split; [exact CC|]); (split; [exact OK|]); eexists; (split; [reflexivity|]); rewrite F, D; auto.
    - apply Ok_inj in V. subst st'. cbn. split; [exact P|]. split; [exact CC|]. split; [exact OK|]. exists None. rewrite F, D. auto.
    - apply Ok_inj in V. subst st'. cbn. split; [exact P|]. split; [exact CC|]. split; [exact OK|]. exists None. rewrite F, D.
      destruct (yi_line (yf_old d)); auto.
  Qed.

  Lemma diff_file_inj a b : has_char "/" a = false -> has_char "/" b = false -> diff_file a = diff_file b -> a = b.
  Proof.
    intros A B. unfold diff_file, path_join.
    assert (R : forall x, has_char "/" x = false -> isabs (x ++ ".diff") = false).
    { intros x H. unfold isabs. destruct x as [|c x]; [reflexivity|]. cbn. cbn [has_char] in H. apply orb_false_iff in H as [H _]. rewrite H. reflexivity. }
    rewrite (R a A), (R b B).
    assert (I : forall x y z, (x ++ y = x ++ z)%string -> y = z) by (induction x; cbn; intros y z E; [exact E|injection E; auto]).
    assert (J : forall x y z, (x ++ z = y ++ z)%string -> x = y).
    { intros x y z E. assert (L : String.length x = String.length y).
      { apply (f_equal String.length) in E. rewrite !length_app_s in E. lia. }
      clear - E L. revert y E L. induction x as [|c x IHx]; intros [|d y] E L; cbn in *; try lia; [reflexivity|].
      injection E as -> E. f_equal. apply IHx; [exact E|lia]. }
    destruct (String.eqb diff_directory "" || endswith diff_directory "/"); intros E.
    - apply I in E. apply J in E. exact E.
    - apply I in E. injection E as E. apply J in E. exact E.
  Qed.

  Lemma view_fold defs : forall st st', fold_res step st defs = Ok st' ->
    NoDup (dkeys defs) -> Forall (fun n => has_char "/" n = false) (dkeys defs) ->
    (forall n, In n (dkeys defs) -> dget (vs_diffs st) (diff_file n) = None) ->
    vs_processed st' = set_update (vs_processed st) (map (fun nd => yi_file (yf_old (snd nd))) defs) /\
    (vs_copies st = map copy_of (vs_processed st) -> vs_copies st' = map copy_of (vs_processed st')) /\
    (forall n, ~ In n (dkeys defs) -> dget (vs_flags st') n = dget (vs_flags st) n) /\
    (forall q, ~ In q (map diff_file (dkeys defs)) -> dget (vs_diffs st') q = dget (vs_diffs st) q) /\
    (forall n d, In (n, d) defs -> exists o, diff_of d = Ok o /\
       dget (vs_flags st') n = Some (match o with Some _ => true | None => false end) /\
       dget (vs_diffs st') (diff_file n) = o).
  Proof.
    induction defs as [|[n d] defs IH]; intros st st' E N NS FR.
    - cbn in E. apply Ok_inj in E. subst st'. cbn. repeat split; auto. intros n d [].
    - cbn [fold_res] in E. destruct (step st (n, d)) as [s1|] eqn:S; [|discriminate].
      apply view_step in S as (P & C & OK & o & Do & Fl & Df).
      cbn [dkeys map fst] in N, NS. inversion N as [|? ? Nn Nd]; subst. inversion NS as [|? ? Sn Sd]; subst.
      assert (DF : forall m, In m (dkeys defs) -> diff_file m <> diff_file n).
      { intros m I X. apply diff_file_inj in X; [subst m; contradiction| |exact Sn]. rewrite Forall_forall in Sd. apply Sd, I. }
      assert (OTHER : forall q, q <> diff_file n -> dget (vs_diffs s1) q = dget (vs_diffs st) q).
      { intros q Q. rewrite Df. destruct o; [apply dget_dset_other, Q|reflexivity]. }
      destruct (IH _ _ E Nd Sd) as (P' & C' & F' & D' & R').
      { intros m I. rewrite OTHER by (apply DF, I). apply FR. cbn. auto. }
      split; [|split; [|split; [|split]]].
      + rewrite P', P. reflexivity.
      + auto.
      + intros m NI. cbn [dkeys map fst In] in NI. rewrite F' by tauto. rewrite Fl. apply dget_dset_other. intros ->. tauto.
      + intros q NI. cbn [dkeys map fst In] in NI. rewrite D' by tauto. apply OTHER. intros ->. tauto.
      + intros m e [X|I].
        * injection X as <- <-. exists o. split; [exact Do|]. split.
          -- rewrite F' by exact Nn. rewrite Fl. apply dget_dset_same.
          -- rewrite D'.
             ++ rewrite Df. destruct o; [apply dget_dset_same|apply FR; left; reflexivity].
             ++ intros I. apply in_map_iff in I as (m & X & I). exact (DF m I X).
        * apply R', I.
  Qed.
End ViewP.

(** The path relative to a directory above the file stays below it. *)
Lemma relpath_below cwd dir p r : below cwd dir p -> relpath cwd p dir = Ok r -> stays_below r.
Proof.
  intros (c & rest & E). unfold relpath. destruct (String.eqb p ""); [discriminate|]. cbv zeta. rewrite E.
  assert (CL : forall a b, common_len a (a ++ b) = length a).
  { induction a as [|x a IH]; intros b; [reflexivity|]. cbn. rewrite String.eqb_refl, IH. reflexivity. }
  rewrite CL, Nat.sub_diag. cbn [repeat app]. rewrite skipn_app, skipn_all, Nat.sub_diag. cbn [skipn app].
  assert (O : Forall ordinary (c :: rest)).
  { pose proof (abs_comps_ordinary cwd p) as O. rewrite E in O. apply Forall_app in O as [_ O]. exact O. }
  intros X. apply Ok_inj in X. subst r. split.
  - inversion O as [|? ? (N & _) _]; subst. destruct c; [congruence|]. destruct rest; discriminate.
  - rewrite split_join_comps; [|discriminate|eapply Forall_impl; [|exact O]; intros x (_ & _ & _ & S); exact S].
    eapply Forall_impl; [|exact O]. intros x (A & B & C & _). auto.
Qed.
Lemma stays_below_file p : stays_below p -> names_file p.
Proof.
  intros (N & F). destruct (exists_last (split_char_nonempty slash p)) as (dirs & name & E).
  split.
  - unfold isabs. destruct p as [|x p]; [congruence|]. cbn. change "/"%char with slash. destruct (Ascii.eqb_spec slash x) as [<-|]; [|reflexivity].
    exfalso. cbn [split_char] in F. rewrite Ascii.eqb_refl in F. inversion F as [|? ? (A & _)]; congruence.
  - exists dirs, name. split; [exact E|]. rewrite E in F. apply Forall_app in F as [_ F]. inversion F; auto.
Qed.
Lemma copy_place cwd src old p : isabs src = true -> names_file p ->
  abs_comps cwd (snd (copy_of src old p)) = abs_comps cwd (path_join src p).
Proof.
  intros A (R & dirs & name & E & N1 & N2 & N3). unfold copy_of. cbn [snd].
  assert (B : basename (path_join old p) = name).
  { rewrite basename_join by exact R. unfold basename. rewrite E, last_app_ne by discriminate. reflexivity. }
  rewrite B.
  assert (X : exists hs, split_char slash (path_join src p) = hs ++ [name]).
  { unfold path_join. rewrite R. destruct (String.eqb_spec src "") as [->|NE]; [discriminate|]. cbn [orb].
    destruct (endswith src "/") eqn:ES.
    - apply endswith_slash_split in ES as [a ->]. rewrite app_assoc_s. change ("/" ++ p)%string with (String slash p).
      rewrite split_slash_app, E, app_assoc. eauto.
    - change ("/" ++ p)%string with (String slash p). rewrite split_slash_app, E, app_assoc. eauto. }
  destruct X as [hs X]. apply (dirname_basename cwd (path_join src p) hs name); [|exact X|exact N1].
  unfold path_join. rewrite R. destruct (String.eqb_spec src "") as [->|NE]; [discriminate|]. cbn [orb].
  destruct (endswith src "/"); unfold isabs in *; apply startswith_spec in A as [t ->]; reflexivity.
Qed.
Lemma join_below cwd src p : isabs src = true -> stays_below p ->
  abs_comps cwd (path_join src p) = abs_comps cwd src ++ split_char slash p.
Proof.
  intros A S. pose proof (stays_below_file p S) as (R & _). rewrite abs_comps_join by assumption.
  destruct S as (_ & F). rewrite norm_push.
  - rewrite rev_involutive. reflexivity.
  - pose proof (split_no_char slash p) as G. rewrite Forall_forall in *. intros x I. specialize (F x I) as (B & C & D). specialize (G x I).
    repeat split; auto.
Qed.

(** ** The viewer's index *)
Section ViewerP.
  Variable leb : string -> string -> bool.
  Context {A : Type} (name : A -> string).
  Definition name_before (x y : A) : Prop := leb (name x) (name y) = true.
  Lemma insert_by_perm x l : Permutation (insert_by leb name x l) (x :: l).
  Proof.
    induction l as [|y l IH]; cbn; [reflexivity|]. destruct (leb (name x) (name y)); [reflexivity|].
    rewrite IH. apply perm_swap.
  Qed.
  Lemma sort_by_perm l : Permutation (sort_by leb name l) l.
  Proof. induction l as [|x l IH]; cbn; [reflexivity|]. rewrite insert_by_perm, IH. reflexivity. Qed.
  Lemma insert_by_sorted x l : total_order leb -> StronglySorted name_before l -> StronglySorted name_before (insert_by leb name x l).
  Proof.
    intros (T & R) S. induction S as [|y l S IH F]; cbn; [repeat constructor|].
    destruct (leb (name x) (name y)) eqn:E.
    - constructor; [constructor; assumption|]. constructor; [exact E|].
      eapply Forall_impl; [|exact F]. intros z H. unfold name_before in *. eapply R; eassumption.
    - constructor; [exact IH|]. rewrite insert_by_perm. constructor; [|exact F].
      unfold name_before. destruct (T (name x) (name y)); congruence.
  Qed.
  Lemma sort_by_sorted l : total_order leb -> StronglySorted name_before (sort_by leb name l).
  Proof. intros T. induction l as [|x l IH]; cbn; [constructor|]. apply insert_by_sorted; assumption. Qed.
End ViewerP.
Lemma sorted_names {A} leb (name : A -> string) l : StronglySorted (name_before leb name) l ->
  StronglySorted (fun a b => leb a b = true) (map name l).
Proof.
  intros S. induction S as [|x l S IH F]; cbn; constructor; [exact IH|].
  apply Forall_forall. intros y I. apply in_map_iff in I as (z & <- & I). rewrite Forall_forall in F. exact (F z I).
Qed.

Lemma dset_end {V} (d : dict string V) k v : ~ In k (dkeys d) -> dset d k v = d ++ [(k, v)].
Proof.
  induction d as [|[k' v'] d IH]; cbn; [reflexivity|]. intros N. apply Decidable.not_or in N as [N1 N2].
  change (eqb k k') with (String.eqb k k'). destruct (String.eqb_spec k k') as [E|_]; [congruence|]. rewrite IH by exact N2. reflexivity.
Qed.
Definition has_diff (f : string) (y : yresult) : bool := existsb (fun d => String.eqb f (yd_function d)) (yr_diffs y).
Definition having (f : string) (ys : list yresult) : list string := map yr_function (filter (has_diff f) ys).
Lemma has_diff_iff f y : has_diff f y = true <-> exists d, In d (yr_diffs y) /\ yd_function d = f.
Proof.
  unfold has_diff. rewrite existsb_exists. split; intros (d & I & E); exists d; (split; [exact I|]).
  - apply String.eqb_eq in E. auto.
  - subst f. apply String.eqb_refl.
Qed.
Definition pushed (dfs : dict string (list string)) (f c : string) : option (list string) :=
  match dget dfs f with Some l => Some (l ++ [c]) | None => Some [c] end.

Lemma index_diff_fold c ds : forall m dfs,
  NoDup (map yd_function ds) -> (forall d, In d ds -> ~ In (yd_function d) (dkeys m)) ->
  let st := fold_left (index_diff c) ds (m, dfs) in
  fst st = m ++ map (fun d => (yd_function d, d)) ds /\
  (forall f, dget (snd st) f = if existsb (fun d => String.eqb f (yd_function d)) ds then pushed dfs f c else dget dfs f) /\
  (NoDup (dkeys dfs) -> NoDup (dkeys (snd st))).
Proof.
  induction ds as [|d ds IH]; intros m dfs N F; cbn [fold_left].
  - cbn. rewrite app_nil_r. auto.
  - cbn [map] in N. inversion N as [|? ? Nd Nn]; subst.
    set (dfs' := match dget dfs (yd_function d) with Some l => dset dfs (yd_function d) (l ++ [c]) | None => dset dfs (yd_function d) [c] end).
    assert (D' : forall f, dget dfs' f = if String.eqb f (yd_function d) then pushed dfs f c else dget dfs f).
    { intros f. unfold dfs', pushed. destruct (String.eqb_spec f (yd_function d)) as [E|E].
      - rewrite <- E. destruct (dget dfs f); apply dget_dset_same.
      - destruct (dget dfs (yd_function d)); apply dget_dset_other, E. }
    assert (M' : dset m (yd_function d) d = m ++ [(yd_function d, d)]).
    { apply dset_end, F. left. reflexivity. }
    assert (E0 : index_diff c (m, dfs) d = (m ++ [(yd_function d, d)], dfs')) by (unfold index_diff; cbn [fst snd]; rewrite M'; reflexivity).
    cbv zeta. rewrite E0. destruct (IH (m ++ [(yd_function d, d)]) dfs' Nn) as (I1 & I2 & I3).
    { intros e I X. unfold dkeys in X. rewrite map_app in X. apply in_app_iff in X as [X|[X|[]]].
      - apply (F e (or_intror I) X).
      - apply Nd. cbn in X. rewrite X. apply in_map, I. }
    split; [|split].
    + etransitivity; [exact I1|]. rewrite <- app_assoc. reflexivity.
    + intros f. etransitivity; [exact (I2 f)|]. cbn [existsb]. rewrite D'. unfold pushed. rewrite D'.
      destruct (String.eqb_spec f (yd_function d)) as [->|E]; cbn [orb]; [|reflexivity].
      destruct (existsb (fun d0 => String.eqb (yd_function d) (yd_function d0)) ds) eqn:X; [|reflexivity].
      exfalso. apply existsb_exists in X as (e & I & X). apply String.eqb_eq in X. apply Nd. rewrite X. apply in_map, I.
    + intros K. apply I3. unfold dfs'. destruct (dget dfs (yd_function d)); apply dset_NoDup, K.
Qed.

Lemma index_fold ys : forall ix, distinct_report ys -> (forall y, In y ys -> ~ In (yr_function y) (dkeys (ix_comp ix))) ->
  let ix' := fold_left index_result ys ix in
  ix_comp ix' = ix_comp ix ++ map (fun y => (yr_function y, map (fun d => (yd_function d, d)) (yr_diffs y))) ys /\
  (forall f, dget (ix_diff ix') f = match having f ys with [] => dget (ix_diff ix) f
     | l => match dget (ix_diff ix) f with Some l0 => Some (l0 ++ l) | None => Some l end end) /\
  (NoDup (dkeys (ix_diff ix)) -> NoDup (dkeys (ix_diff ix'))).
Proof.
  induction ys as [|y ys IH]; intros ix (N & D) F; cbn [fold_left].
  - cbn. rewrite app_nil_r. auto.
  - cbn [map] in N. inversion N as [|? ? Ny Nn]; subst. inversion D as [|? ? Dy Dn]; subst.
    cbv zeta. pose proof (index_diff_fold (yr_function y) (yr_diffs y) [] (ix_diff ix) Dy (fun _ _ x => x)) as IDF. cbv zeta in IDF.
    match type of IDF with context[fold_left ?f ?l ?a] => destruct (fold_left f l a) as [m dfs] eqn:EF end.
    cbn [fst snd app] in IDF. destruct IDF as (I1 & I2 & I3). subst m.
    assert (M' : dset (ix_comp ix) (yr_function y) (map (fun d => (yd_function d, d)) (yr_diffs y)) =
                 ix_comp ix ++ [(yr_function y, map (fun d => (yd_function d, d)) (yr_diffs y))]).
    { apply dset_end, F. left. reflexivity. }
    assert (E0 : index_result ix y = mkIndex (ix_comp ix ++ [(yr_function y, map (fun d => (yd_function d, d)) (yr_diffs y))]) dfs)
      by (unfold index_result; match goal with |- context[fold_left ?f ?l ?a] => replace (fold_left f l a) with (map (fun d => (yd_function d, d)) (yr_diffs y), dfs) by (symmetry; exact EF) end; f_equal; exact M').
    rewrite E0. destruct (IH (mkIndex (ix_comp ix ++ [(yr_function y, map (fun d => (yd_function d, d)) (yr_diffs y))]) dfs)) as (J1 & J2 & J3).
    { split; assumption. }
    { cbn. intros e I X. unfold dkeys in X. rewrite map_app in X. apply in_app_iff in X as [X|[X|[]]].
      - apply (F e (or_intror I) X).
      - apply Ny. cbn in X. rewrite X. apply in_map, I. }
    cbn [ix_comp ix_diff] in J1, J2, J3. split; [|split].
    + etransitivity; [exact J1|]. rewrite <- app_assoc. reflexivity.
    + intros f. etransitivity; [exact (J2 f)|]. rewrite I2. unfold having. cbn [filter map]. fold (has_diff f y). unfold pushed.
      destruct (has_diff f y) eqn:H; [|reflexivity]. cbn [map].
      destruct (map yr_function (filter (has_diff f) ys)); destruct (dget (ix_diff ix) f); try rewrite <- app_assoc; reflexivity.
    + intros K. apply J3, I3, K.
Qed.

Definition sorted_results leb (ys : list yresult) : list yresult :=
  map (fun r => mkYresult (yr_function r) (sort_by leb yd_function (yr_diffs r))) (sort_by leb yr_function ys).
Lemma sorted_distinct leb ys : distinct_report ys -> distinct_report (sorted_results leb ys).
Proof.
  intros (N & D). unfold sorted_results. split.
  - rewrite map_map. cbn. eapply Permutation_NoDup; [|exact N]. symmetry. apply Permutation_map, sort_by_perm.
  - apply Forall_forall. intros y I. apply in_map_iff in I as (z & <- & I). cbn.
    rewrite sort_by_perm in I. rewrite Forall_forall in D. eapply Permutation_NoDup; [|exact (D z I)].
    symmetry. apply Permutation_map, sort_by_perm.
Qed.
Lemma sorted_lists leb ys c f d : lists_diff (sorted_results leb ys) c f d <-> lists_diff ys c f d.
Proof.
  unfold lists_diff, sorted_results. split.
  - intros (y & I & <- & J & <-). apply in_map_iff in I as (z & <- & I). cbn in *. rewrite sort_by_perm in I, J. eauto 6.
  - intros (y & I & <- & J & <-). eexists. split; [apply in_map_iff; exists y; split; [reflexivity|rewrite sort_by_perm; exact I]|].
    cbn. rewrite sort_by_perm. auto.
Qed.
Lemma dget_map_unique {V} (g : yresult -> V) ys c : NoDup (map yr_function ys) ->
  forall v, dget (map (fun y => (yr_function y, g y)) ys) c = Some v <-> exists y, In y ys /\ yr_function y = c /\ g y = v.
Proof.
  intros N v. split.
  - intros G. apply dget_In in G. apply in_map_iff in G as (y & E & I). injection E as E1 E2. eauto.
  - intros (y & I & <- & <-). apply dget_In_NoDup; [unfold dkeys; rewrite map_map; exact N|].
    apply in_map_iff. eauto.
Qed.

Lemma dget_perm {V} (d d' : dict string V) k : Permutation d d' -> NoDup (dkeys d) -> dget d k = dget d' k.
Proof.
  intros P N. assert (N' : NoDup (dkeys d')) by (eapply Permutation_NoDup; [apply Permutation_map, P|exact N]).
  destruct (dget d k) eqn:E.
  - apply dget_In in E. symmetry. apply dget_In_NoDup; [exact N'|]. rewrite <- P. exact E.
  - symmetry. apply dget_None. apply dget_None in E. intros I. apply E. unfold dkeys in *. rewrite P. exact I.
Qed.

Section IndexP.
  Variable leb : string -> string -> bool.
  Variable ys : list yresult.
  Hypothesis D : distinct_report ys.
  Notation ss := (sorted_results leb ys).
  Notation ix := (make_index leb ys).

  Lemma ix_comp_eq : ix_comp ix = map (fun y => (yr_function y, map (fun d => (yd_function d, d)) (yr_diffs y))) ss.
  Proof.
    destruct (index_fold ss (mkIndex [] []) (sorted_distinct leb ys D)) as (H & _); [intros ? ? []|]. exact H.
  Qed.
  Lemma ix_diff_get f : comp_funs_of ix f = match having f ss with [] => None | l => Some l end.
  Proof.
    destruct (index_fold ss (mkIndex [] []) (sorted_distinct leb ys D)) as (_ & H & K); [intros ? ? []|].
    cbn [ix_diff dkeys map] in H, K. unfold comp_funs_of, make_index. cbn [ix_diff].
    rewrite (dget_perm _ _ f (sort_by_perm leb fst _)).
    - fold (sorted_results leb ys). rewrite H. reflexivity.
    - eapply Permutation_NoDup; [apply Permutation_map; symmetry; apply sort_by_perm|]. apply K. constructor.
  Qed.
  Lemma ix_diff_NoDup : NoDup (diff_funs ix).
  Proof.
    destruct (index_fold ss (mkIndex [] []) (sorted_distinct leb ys D)) as (_ & _ & K); [intros ? ? []|].
    unfold diff_funs, make_index. cbn [ix_diff]. eapply Permutation_NoDup; [apply Permutation_map; symmetry; apply sort_by_perm|].
    apply K. constructor.
  Qed.
  Lemma comp_funs_eq : comp_funs ix = map yr_function (sort_by leb yr_function ys).
  Proof. unfold comp_funs, dkeys. rewrite ix_comp_eq, map_map. cbn. unfold sorted_results. rewrite map_map. reflexivity. Qed.
  Lemma ss_NoDup : NoDup (map yr_function ss).
  Proof. exact (proj1 (sorted_distinct leb ys D)). Qed.
  Lemma ix_comp_get c m : dget (ix_comp ix) c = Some m <->
    exists y, In y ys /\ yr_function y = c /\ m = map (fun d => (yd_function d, d)) (sort_by leb yd_function (yr_diffs y)).
  Proof.
    rewrite ix_comp_eq, (dget_map_unique _ ss c ss_NoDup). unfold sorted_results. split.
    - intros (y & I & <- & <-). apply in_map_iff in I as (z & <- & I). rewrite sort_by_perm in I. cbn. eauto.
    - intros (y & I & <- & ->). eexists. split; [apply in_map_iff; exists y; split; [reflexivity|rewrite sort_by_perm; exact I]|]. cbn. auto.
  Qed.
  Lemma ix_comp_In c : In c (comp_funs ix) <-> exists y, In y ys /\ yr_function y = c.
  Proof.
    rewrite comp_funs_eq, in_map_iff. split; intros (y & H); exists y; rewrite sort_by_perm in *; tauto.
  Qed.
  Lemma diff_funs_of_Ok c l : diff_funs_of ix c = Ok l <->
    exists y, In y ys /\ yr_function y = c /\ l = map yd_function (sort_by leb yd_function (yr_diffs y)).
  Proof.
    unfold diff_funs_of. split.
    - destruct (dget (ix_comp ix) c) as [m|] eqn:E; [|discriminate]. intros X. apply Ok_inj in X. subst l.
      apply ix_comp_get in E as (y & I & N & ->). exists y. unfold dkeys. rewrite map_map. auto.
    - intros (y & I & N & ->). assert (E : dget (ix_comp ix) c = Some (map (fun d => (yd_function d, d)) (sort_by leb yd_function (yr_diffs y))))
        by (apply ix_comp_get; eauto). rewrite E. unfold dkeys. rewrite map_map. reflexivity.
  Qed.
  Lemma get_diff_Ok c f d : get_diff ix c f = Ok (Some d) <-> lists_diff ys c f d.
  Proof.
    unfold get_diff, lists_diff. split.
    - destruct (dget (ix_comp ix) c) as [m|] eqn:E; [|discriminate]. intros X. apply Ok_inj in X.
      apply ix_comp_get in E as (y & I & N & ->). apply dget_In in X. apply in_map_iff in X as (e & X & J).
      injection X as X1 X2. subst e. rewrite sort_by_perm in J. eauto 6.
    - intros (y & I & N & J & F). assert (E : dget (ix_comp ix) c = Some (map (fun d => (yd_function d, d)) (sort_by leb yd_function (yr_diffs y))))
        by (apply ix_comp_get; eauto). rewrite E. f_equal. apply dget_In_NoDup.
      + unfold dkeys. rewrite map_map. cbn. destruct D as (_ & Dy). rewrite Forall_forall in Dy.
        eapply Permutation_NoDup; [|exact (Dy y I)]. symmetry. apply Permutation_map, sort_by_perm.
      + apply in_map_iff. exists d. rewrite sort_by_perm. subst f. auto.
  Qed.
  Lemma having_In c f : In c (having f ss) <-> exists d, lists_diff ys c f d.
  Proof.
    unfold having. rewrite in_map_iff. split.
    - intros (y & <- & I). apply filter_In in I as (I & H). apply has_diff_iff in H as (d & J & F). exists d.
      apply (sorted_lists leb). exists y. auto.
    - intros (d & L). apply (sorted_lists leb) in L as (y & I & N & J & F). exists y. split; [exact N|].
      apply filter_In. split; [exact I|]. apply has_diff_iff. eauto.
  Qed.
  Lemma having_NoDup f : NoDup (having f ss).
  Proof.
    unfold having. pose proof ss_NoDup as N. induction ss as [|y l IH]; cbn; [constructor|].
    cbn in N. inversion N as [|? ? Ny Nl]; subst. destruct (has_diff f y); [|auto]. cbn. constructor; [|auto].
    intros I. apply Ny. apply in_map_iff in I as (z & E & I). apply filter_In in I as [I _]. rewrite <- E. apply in_map, I.
  Qed.
  Lemma having_sorted f : total_order leb -> StronglySorted (fun a b => leb a b = true) (having f ss).
  Proof.
    intros T. assert (S : StronglySorted (fun a b => leb a b = true) (map yr_function ss)).
    { unfold sorted_results. rewrite map_map. cbn. apply sorted_names, sort_by_sorted, T. }
    unfold having. induction ss as [|y l IH]; cbn; [constructor|]. cbn in S. inversion S as [|? ? Sl F]; subst.
    destruct (has_diff f y); [|auto]. cbn. constructor; [auto|]. apply Forall_forall. intros c I.
    apply in_map_iff in I as (z & <- & I). apply filter_In in I as [I _]. rewrite Forall_forall in F. apply F, in_map, I.
  Qed.
  Lemma comp_funs_of_spec f l : comp_funs_of ix f = Some l <-> (l = having f ss /\ exists c d, lists_diff ys c f d).
  Proof.
    rewrite ix_diff_get. split.
    - destruct (having f ss) as [|c h] eqn:E; [discriminate|]. intros X. injection X as <-. split; [reflexivity|].
      assert (I : In c (having f ss)) by (rewrite E; left; reflexivity). apply having_In in I as [d I]. eauto.
    - intros (-> & c & d & L). assert (I : In c (having f ss)) by (apply having_In; eauto). destruct (having f ss); [destruct I|reflexivity].
  Qed.
  Lemma diff_funs_In f : In f (diff_funs ix) <-> exists c d, lists_diff ys c f d.
  Proof.
    unfold diff_funs. split.
    - intros I. apply dkeys_dget in I as [l G]. apply (proj1 (comp_funs_of_spec f l)) in G. apply G.
    - intros L. assert (G : comp_funs_of ix f = Some (having f ss)) by (apply comp_funs_of_spec; auto).
      eapply dget_Some_key, G.
  Qed.
  Lemma diff_funs_sorted : total_order leb -> StronglySorted (fun a b => leb a b = true) (diff_funs ix).
  Proof. intros T. unfold diff_funs, make_index. cbn [ix_diff]. apply (sorted_names leb fst), sort_by_sorted, T. Qed.
End IndexP.

(** ** Navigation *)
Lemma index_of_Some x l i : index_of x l = Some i -> nth_error l i = Some x.
Proof.
  revert i. induction l as [|y l IH]; intros i; cbn; [discriminate|].
  destruct (String.eqb_spec y x) as [->|N]; [intros X; injection X as <-; reflexivity|].
  destruct (index_of x l); [|discriminate]. intros X. injection X as <-. cbn. apply IH. reflexivity.
Qed.
Lemma index_of_None x l : index_of x l = None <-> ~ In x l.
Proof.
  induction l as [|y l IH]; cbn; [tauto|]. destruct (String.eqb_spec y x) as [->|N]; [split; [discriminate|tauto]|].
  destruct (index_of x l); split; try discriminate; try tauto. intros H. exfalso. apply H. right.
  destruct IH as [_ IH]. destruct (in_dec string_dec x l) as [I|NI]; [exact I|]. discriminate (IH NI).
Qed.
Lemma index_of_nth x l i : NoDup l -> nth_error l i = Some x -> index_of x l = Some i.
Proof.
  intros N E. destruct (index_of x l) as [j|] eqn:J.
  - apply index_of_Some in J. f_equal. apply (proj1 (NoDup_nth_error l) N).
    + apply nth_error_Some. rewrite J. discriminate.
    + rewrite J, E. reflexivity.
  - apply index_of_None in J. exfalso. apply J. eapply nth_error_In, E.
Qed.
Lemma next_in_iff l x y : NoDup l -> In x l -> (next_in l x = Some y <-> exists a b, l = a ++ x :: y :: b).
Proof.
  intros N I. destruct (index_of x l) as [i|] eqn:E; [|apply index_of_None in E; contradiction].
  unfold next_in. rewrite E. split.
  - intros H. apply index_of_Some in E. apply nth_error_split in E as (a & b & -> & <-).
    rewrite nth_error_app2 in H by lia. replace (S (length a) - length a) with 1 in H by lia. cbn in H.
    destruct b as [|z b]; [discriminate|]. injection H as <-. eauto.
  - intros (a & b & ->). assert (E' : index_of x (a ++ x :: y :: b) = Some (length a)).
    { apply index_of_nth; [exact N|]. rewrite nth_error_app2 by lia. rewrite Nat.sub_diag. reflexivity. }
    rewrite E' in E. injection E as <-. rewrite nth_error_app2 by lia. replace (S (length a) - length a) with 1 by lia. reflexivity.
Qed.
Lemma prev_in_iff l x y : NoDup l -> (prev_in l x = Some y <-> exists a b, l = a ++ y :: x :: b).
Proof.
  intros N. unfold prev_in. split.
  - destruct (index_of x l) as [[|i]|] eqn:E; try discriminate. intros H. apply index_of_Some in E.
    apply nth_error_split in H as (a & b & -> & <-). rewrite nth_error_app2 in E by lia.
    replace (S (length a) - length a) with 1 in E by lia. cbn in E. destruct b as [|z b]; [discriminate|]. injection E as ->. eauto.
  - intros (a & b & ->). assert (E' : index_of x (a ++ y :: x :: b) = Some (S (length a))).
    { apply index_of_nth; [exact N|]. rewrite nth_error_app2 by lia. replace (S (length a) - length a) with 1 by lia. reflexivity. }
    rewrite E', nth_error_app2 by lia. rewrite Nat.sub_diag. reflexivity.
Qed.
Lemma is_first_iff l x : NoDup l -> In x l -> (is_first_in l x = true <-> prev_in l x = None).
Proof.
  intros N I. unfold is_first_in. destruct (index_of x l) as [i|] eqn:E; [|apply index_of_None in E; contradiction].
  unfold prev_in. rewrite E. pose proof (index_of_Some _ _ _ E) as G. split.
  - intros H. assert (G0 : nth_error l 0 = Some x).
    { destruct (nth_error l 0) as [z|]; cbn in H; [|discriminate]. apply String.eqb_eq in H. congruence. }
    rewrite (index_of_nth _ _ _ N G0) in E. injection E as <-. reflexivity.
  - destruct i as [|i]; [rewrite G; cbn; rewrite String.eqb_refl; reflexivity|]. intros H. apply nth_error_None in H.
    assert (S i < length l) by (apply nth_error_Some; congruence). lia.
Qed.
Lemma is_last_iff l x : NoDup l -> In x l -> (is_last_in l x = true <-> next_in l x = None).
Proof.
  intros N I. unfold is_last_in. destruct (index_of x l) as [i|] eqn:E; [|apply index_of_None in E; contradiction].
  unfold next_in. rewrite E. pose proof (index_of_Some _ _ _ E) as G.
  assert (L : i < length l) by (apply nth_error_Some; congruence). split.
  - intros H. assert (G0 : nth_error l (length l - 1) = Some x).
    { destruct (nth_error l (length l - 1)) as [z|]; cbn in H; [|discriminate]. apply String.eqb_eq in H. congruence. }
    rewrite (index_of_nth _ _ _ N G0) in E. injection E as <-. apply nth_error_None. lia.
  - intros H. apply nth_error_None in H. replace (length l - 1) with i by lia. rewrite G. cbn. apply String.eqb_refl.
Qed.
Lemma Permutation_in_iff {A} (l l' : list A) x : Permutation l l' -> In x l <-> In x l'.
Proof. intros P. rewrite P. reflexivity. Qed.
