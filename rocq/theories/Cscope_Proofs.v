(** * Proofs about the index of kernel sources *)
From Coq Require Import String Arith Bool Lia List.
From Verif Require Import PyBase Cscope_Model Cscope_Spec.
Import ListNotations.
Open Scope list_scope.

Lemma wanted_iff source_dir e : wanted_file source_dir e = true <-> in_index source_dir e.
Proof.
  unfold wanted_file, in_index, part_of, ends_in. fold (root source_dir e). cbv zeta. fold (root source_dir e).
  rewrite !andb_true_iff, !negb_true_iff, !orb_false_iff.
  assert (C : forall s p, contains s p = false <-> ~ exists a b, s = (a ++ p ++ b)%string).
  { intros s p. rewrite <- contains_spec. destruct (contains s p); split; congruence. }
  rewrite !C. unfold root in *. cbn [existsb]. rewrite !orb_true_iff, !endswith_spec. intuition discriminate.
Qed.

Section Index.
  Variable sources : Type.
  Variable files_of : sources -> list entry.
  Variable data : Type.
  Variable index : sources -> list string -> data.
  Variable query : data -> string -> bool -> option (list (string * string)).
  Variable source_dir : string.
  Notation step := (step sources files_of data index query source_dir).
  Notation run := (run sources files_of data index query source_dir).
  Notation answers := (answers sources files_of data index query source_dir).
  Notation c_lines := (c_lines data query).
  Notation state := (state sources data).

  Definition Inv (d : option data) (s : state) : Prop :=
    database _ _ s = d /\ (cscope_files _ _ s = None <-> d = None) /\
    (forall sy de r, cached (cache _ _ s) sy de = Some r -> exists x, d = Some x /\ r = c_lines x sy de).

  Lemma run_answers : forall es s d, (forall e, In e es -> ~ killed sources e) -> Inv d s -> run s es = answers (now _ _ s) d es.
  Proof.
    induction es as [|e es IH]; intros s d K I; [reflexivity|].
    assert (K' : forall e, In e es -> ~ killed sources e) by (intros x H; apply K; right; exact H).
    destruct I as (D & F & C). destruct e as [sy de ok| |k|x]; cbn [Cscope_Model.run Cscope_Model.step Cscope_Spec.answers].
    - unfold search. destruct (cached (cache _ _ s) sy de) as [r|] eqn:E.
      + destruct (C sy de r E) as (x & -> & ->). f_equal. apply IH; [exact K'|]. split; [exact D|]. split; [exact F|exact C].
      + unfold build. destruct (cscope_files _ _ s) as [fs|] eqn:FE.
        * destruct d as [d|]; [|destruct F as [_ F]; specialize (F eq_refl); discriminate].
          rewrite D. unfold Cscope_Spec.c_lines. destruct (query d sy de) as [ls|] eqn:Q.
          -- f_equal. match goal with |- Cscope_Model.run _ _ _ _ _ _ ?S _ = _ => apply (IH S) end; [exact K'|]. split; [first [exact D|reflexivity]|]. split; [cbn; rewrite ?FE; split; discriminate|].
             cbn. intros sy' de' r. destruct (String.eqb_spec sy sy') as [<-|N]; cbn [andb].
             ++ destruct (Bool.eqb de de') eqn:B.
                ** apply eqb_prop in B. subst de'. intros [= <-]. exists d. split; [reflexivity|]. unfold Cscope_Spec.c_lines. rewrite Q. reflexivity.
                ** intros H. apply (C _ _ _ H).
             ++ intros H. apply (C _ _ _ H).
          -- f_equal. apply IH; [exact K'|]. split; [exact D|]. split; [rewrite FE; split; discriminate|exact C].
        * destruct d as [d|]; [destruct F as [F _]; specialize (F eq_refl); discriminate|].
          destruct ok.
          -- cbn [database now]. unfold Cscope_Spec.c_lines. destruct (query _ sy de) as [ls|] eqn:Q.
             ++ f_equal. match goal with |- Cscope_Model.run _ _ _ _ _ _ ?S _ = _ => apply (IH S) end; [exact K'|].
                split; [reflexivity|]. split; [cbn; split; discriminate|]. cbn. intros sy' de' r.
                destruct (String.eqb_spec sy sy') as [<-|N]; cbn [andb].
                ** destruct (Bool.eqb de de') eqn:B.
                   --- apply eqb_prop in B. subst de'. intros [= <-]. eexists. split; [reflexivity|]. unfold Cscope_Spec.c_lines. rewrite Q. reflexivity.
                   --- intros H. destruct (C _ _ _ H) as (x & X & _). discriminate.
                ** intros H. destruct (C _ _ _ H) as (x & X & _). discriminate.
             ++ f_equal. match goal with |- Cscope_Model.run _ _ _ _ _ _ ?S _ = _ => apply (IH S) end; [exact K'|].
                split; [reflexivity|]. split; [cbn; split; discriminate|]. cbn. intros sy' de' r H.
                destruct (C _ _ _ H) as (x & X & _). discriminate.
          -- f_equal. match goal with |- Cscope_Model.run _ _ _ _ _ _ ?S _ = _ => apply (IH S) end; [exact K'|].
             split; [exact D|]. split; [cbn; tauto|exact C].
    - apply (IH (mkState _ _ _ _ _ _)); [exact K'|]. split; [exact D|]. split; [exact F|]. cbn. discriminate.
    - exfalso. apply (K (Killed k)); [left; reflexivity|]. exists k. reflexivity.
    - apply (IH (mkState _ _ x _ _ _)); [exact K'|]. split; [exact D|]. split; [exact F|exact C].
  Qed.

  (** Lines of a list, but no database. *)
  Lemma dead : forall es s, cscope_files _ _ s <> None -> database _ _ s = None -> cache _ _ s = [] ->
    forall a, In a (run s es) -> a = Found [].
  Proof.
    induction es as [|e es IH]; intros s F D C a; [intros []|].
    destruct e as [sy de ok| |k|x]; cbn [Cscope_Model.run Cscope_Model.step].
    - unfold search. rewrite C. cbn [cached]. unfold build. destruct (cscope_files _ _ s) as [fs|] eqn:FE; [|congruence].
      rewrite D. intros [<-|H]; [reflexivity|]. apply (IH s); auto. congruence.
    - intros H. apply (IH _) in H; auto.
    - destruct (cscope_files _ _ s) as [fs|] eqn:FE; [|congruence]. intros H. apply (IH _) in H; auto; cbn; discriminate.
    - intros H. apply (IH _) in H; auto.
  Qed.
  Lemma run_app : forall es es' s, exists s', run s (es ++ es') = run s es ++ run s' es' /\
    (cscope_files _ _ s = None /\ database _ _ s = None /\ cache _ _ s = [] /\ no_index_made sources es /\ (forall e, In e es -> ~ killed sources e) ->
     cscope_files _ _ s' = None /\ database _ _ s' = None /\ cache _ _ s' = []).
  Proof.
    induction es as [|e es IH]; intros es' s.
    - exists s. split; [reflexivity|tauto].
    - cbn [app Cscope_Model.run]. destruct (step s e) as [a s1] eqn:E.
      destruct (IH es' s1) as (s' & R & P). exists s'. split; [destruct a; rewrite R; reflexivity|].
      intros (F & D & C & N & K). apply P.
      assert (N' : no_index_made sources es) by (intros sy de H; apply (N sy de); right; exact H).
      assert (K' : forall e, In e es -> ~ killed sources e) by (intros x H; apply K; right; exact H).
      destruct e as [sy de ok| |k|x]; cbn [Cscope_Model.step] in E.
      + unfold search, build in E. rewrite C, F in E. cbn [cached] in E. destruct ok; [exfalso; apply (N sy de); left; reflexivity|].
        injection E as _ <-. cbn. auto.
      + injection E as _ <-. cbn. auto.
      + exfalso. apply (K (Killed k)); [left; reflexivity|exists k; reflexivity].
      + injection E as _ <-. cbn. auto.
  Qed.
End Index.
