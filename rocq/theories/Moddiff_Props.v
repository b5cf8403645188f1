(** * Properties of the comparison of all modules that use a global variable (C164) *)
From Coq Require Import String Arith Bool Lia List.
From Verif Require Import PyBase Result_Model Result_Spec Result_Proofs Moddiff_Model Moddiff_Spec Moddiff_Proof.
Import ListNotations.
Open Scope list_scope.

Section Props.
  Context {G M : Type}.

  (** Variables with different names are not equal; nothing is compared. *)
  Theorem C164_names (w : world G M) g1 g2 :
    g1 <> g2 -> exists r, diff_all w g1 g2 = Ok r /\ r_kind r = NOT_EQUAL /\ r_inner r = [].
  Proof.
    intros H. unfold diff_all. apply String.eqb_neq in H. rewrite H. simpl. eexists. repeat split.
  Qed.

  (** The verdict is the most severe of the verdicts about parts, NONE when there is no part. *)
  Theorem C164_verdict (w : world G M) g r :
    proper w g -> diff_all w g g = Ok r ->
    (forall n k, part w g n k -> at_most k (r_kind r)) /\
    ((exists n, part w g n (r_kind r)) \/ r_kind r = NONE).
  Proof.
    intros Hp. unfold diff_all. rewrite String.eqb_refl. simpl. intros E.
    destruct (all_spec w g Hp _ _ _ (fun s Hs => Hs) E) as (rs & Er & Hparts).
    destruct (add_inners_kind _ _ _ Er) as [Hmax Hin]. split.
    - intros n k Hk. apply part_of_part in Hk. apply Hparts in Hk. destruct Hk as (x & Hx & _ & <-).
      apply Hmax. right. apply in_map. auto.
    - destruct Hin as [Hin|Hin]; [right; auto|]. left. apply in_map_iff in Hin. destruct Hin as (x & Ek & Hx).
      exists (en_name (r_first x)). apply part_of_part. apply Hparts. exists x. auto.
  Qed.

  (** Equal is said only if each source of the first version is one of the second, was built, and each
      compared function is equal. *)
  Theorem C164_equal (w : world G M) g r :
    proper w g -> diff_all w g g = Ok r -> r_kind r = EQUAL ->
    (forall src, In src (srcs1 w g) -> In src (srcs2 w g) /\ ~ not_built w g src) /\
    (forall src m1 m2 f, both w g src m1 m2 -> compared w g m1 m2 f ->
       exists x, fdiff w m1 m2 f = Ok x /\ at_most (r_kind x) EQUAL).
  Proof.
    intros Hp E Hk. destruct (C164_verdict w g r Hp E) as [Hmax _]. rewrite Hk in Hmax.
    assert (Hsrc : forall src, In src (srcs1 w g) -> In src (srcs2 w g) /\ ~ not_built w g src).
    { intros src Hs. split.
      - destruct (in_dec string_dec src (srcs2 w g)) as [|Hn]; auto. exfalso.
        assert (H : at_most NOT_EQUAL EQUAL) by (eapply Hmax; apply only_first; eauto).
        apply at_most_int in H. simpl in H. lia.
      - intros Hb. assert (H : at_most ERROR EQUAL) by (eapply Hmax; apply no_build; eauto).
        apply at_most_int in H. simpl in H. lia. }
    split; auto. intros src m1 m2 f Hb Hc.
    destruct (Hsrc src (proj1 Hb)) as [Hs2 Hnb]. destruct (fdiff w m1 m2 f) as [x|e] eqn:Ef.
    - exists x. split; auto. eapply Hmax. eapply pair; eauto.
    - exfalso. revert E. unfold diff_all. rewrite String.eqb_refl. simpl. intros E.
      assert (Hone : exists r1 r2, diff_one w g (srcs2 w g) r1 src = Ok r2).
      { assert (Hi : In src (srcs1 w g)) by (apply Hb). clear Hsrc. revert E Hi. generalize (new_result NONE g g : result G).
        induction (srcs1 w g) as [|s l IH]; simpl; [intros ? ? []|]. intros r0 E Hi.
        destruct (diff_one w g (srcs2 w g) r0 s) as [r1|] eqn:E1; [|discriminate].
        destruct Hi as [Hs|Hi]; [subst s; eauto | exact (IH _ E Hi)]. }
      destruct Hone as (r1 & r2 & Hone). unfold diff_one in Hone.
      rewrite (proj2 (mem_In src (srcs2 w g)) Hs2) in Hone. simpl in Hone.
      pose proof (source_spec w g src r1 Hp (proj1 Hb) Hs2) as HS.
      destruct (diff_source w g src r1) as [r3|e'] eqn:Eds.
      + revert Eds. unfold diff_source. destruct Hb as (_ & _ & B1 & B2 & G1 & G2). rewrite B1, B2. simpl. rewrite G1, G2. simpl.
        unfold modules_diff. simpl.
        pose proof (loop_spec w m1 m2 (users w m2 g) (fun f r => proj2 Hp m1 m2 f r) (users w m1 g)
                      (new_result NONE (mod_name w m1) (mod_name w m2)) (proj1 Hp m1) ltac:(intros ? ? [])) as HL.
        destruct (map_res (fdiff w m1 m2) (scan w m1 m2 (users w m1 g) (users w m2 g))) as [rs|e2] eqn:Emap.
        * intros _. apply compared_scan in Hc. destruct (proj1 (map_res_ok _ _ _ Emap) f Hc) as (y & Hy & _). congruence.
        * rewrite HL. discriminate.
      + destruct e'; try discriminate. contradiction.
  Qed.

  (** What is shown inside: under each name the last verdict about a part of that name. *)
  Theorem C164_inside (w : world G M) g r n x :
    proper w g -> diff_all w g g = Ok r -> In (n, x) (r_inner r) -> part w g n (r_kind x).
  Proof.
    intros Hp. unfold diff_all. rewrite String.eqb_refl. simpl. intros E Hi.
    destruct (all_spec w g Hp _ _ _ (fun s Hs => Hs) E) as (rs & Er & Hparts).
    assert (Hd : NoDup (dkeys (r_inner r))) by (eapply add_inners_inner_NoDup; [exact Er | constructor]).
    assert (Hg : dget (r_inner r) n = Some x) by (apply dget_In_NoDup; auto).
    rewrite (add_inners_get _ _ _ n Er) in Hg. simpl in Hg.
    assert (Hl : forall l y, last_named (fun x : result G => en_name (r_first x)) n l = Some y -> In y l /\ en_name (r_first y) = n).
    { induction l as [|z l IH]; simpl; [discriminate|]. intros y.
      destruct (last_named (fun x : result G => en_name (r_first x)) n l) as [y'|] eqn:El.
      - intros [= <-]. destruct (IH y' eq_refl). auto.
      - destruct (String.eqb_spec (en_name (r_first z)) n); [|discriminate]. intros [= <-]. auto. }
    destruct (last_named (fun x : result G => en_name (r_first x)) n rs) as [y|] eqn:El; [|discriminate].
    injection Hg as <-. destruct (Hl _ _ El) as [Hy Hn].
    apply part_of_part. apply Hparts. exists y. auto.
  Qed.

  Theorem C164_all_inside (w : world G M) g r n k :
    proper w g -> diff_all w g g = Ok r -> part w g n k -> exists x, In (n, x) (r_inner r).
  Proof.
    intros Hp. unfold diff_all. rewrite String.eqb_refl. simpl. intros E Hk.
    destruct (all_spec w g Hp _ _ _ (fun s Hs => Hs) E) as (rs & Er & Hparts).
    apply part_of_part in Hk. apply Hparts in Hk. destruct Hk as (x & Hx & Hn & _).
    assert (Hl : forall l, In x l -> exists y, last_named (fun x : result G => en_name (r_first x)) n l = Some y).
    { induction l as [|z l IH]; simpl; [intros []|]. intros [->|Hi].
      - destruct (last_named (fun x : result G => en_name (r_first x)) n l); [eauto|].
        rewrite Hn, String.eqb_refl. eauto.
      - destruct (IH Hi) as [y ->]. eauto. }
    destruct (Hl rs Hx) as [y Hy]. exists y. apply dget_In. rewrite (add_inners_get _ _ _ n Er), Hy. reflexivity.
  Qed.

  (** One function: it is compared if both modules define it, else the verdict is ERROR. *)
  Theorem C164_function (w : world G M) m1 m2 gv f :
    f <> ""%string ->
    (has_function w m1 f = true -> has_function w m2 f = true -> forall x, fdiff w m1 m2 f = Ok x ->
     exists r, modules_diff w m1 m2 gv (Some f) = Ok r /\ r_kind r = r_kind x /\ dvals (r_inner r) = [x]) /\
    (has_function w m1 f = false \/ has_function w m2 f = false ->
     exists r, modules_diff w m1 m2 gv (Some f) = Ok r /\ r_kind r = ERROR /\ r_inner r = []).
  Proof.
    intros Hf. unfold modules_diff. assert (Eg : given (Some f) = Some f) by (destruct f; [congruence | reflexivity]).
    rewrite Eg. simpl. rewrite String.eqb_refl. simpl. split.
    - intros -> -> x Ex. simpl. rewrite Ex. simpl.
      destruct (add_inner_ok (new_result NONE (mod_name w m1) (mod_name w m2)) x) as (r & Er & Ek & _ & Ei & _).
      rewrite Er. simpl. exists r. split; auto. simpl in *. rewrite Ek, Ei. auto.
    - intros [->| H]; simpl; [eexists; repeat split|]. rewrite H, orb_true_r. eexists; repeat split.
  Qed.
End Props.

(** A world for the findings: modules are numbers (the version), one source or two. *)
Definition res_of (k : kind) (f : string) : result unit := new_result k f f.
Definition small (s1 s2 : list string) (u1 u2 : list string) (defined : nat -> string -> bool)
    (b : string -> nat) (d : nat -> string -> kind) : world unit nat :=
  @mkWorld unit nat (fun _ => s1) (fun _ => s2) (fun s => Ok (b s)) (fun s => Ok (10 + b s)) (fun _ _ => true)
          (fun m _ => if m <? 10 then u1 else u2) defined (fun m _ f => Ok (res_of (d m f) f)) (fun _ => "m"%string).

Lemma small_proper s1 s2 u1 u2 df b d g : NoDup u1 -> NoDup u2 -> proper (small s1 s2 u1 u2 df b d) g.
Proof.
  intros H1 H2. split; simpl.
  - intros m. destruct (m <? 10); auto.
  - intros m1 m2 f r [= <-]. reflexivity.
Qed.

(** Wish refuted: a source that uses the variable only in the second version is reported. *)
Theorem C164_second_refuted :
  exists (w : world unit nat) r, proper w "v" /\ srcs2 w "v" = ["a.c"]%string /\ srcs1 w "v" = [] /\
    diff_all w "v" "v" = Ok r /\ r_kind r = NONE.
Proof.
  exists (small [] ["a.c"]%string [] [] (fun _ _ => true) (fun _ => 1) (fun _ _ => EQUAL)). eexists.
  split; [apply small_proper; constructor|]. split; [reflexivity|]. split; [reflexivity|]. split; vm_compute; reflexivity.
Qed.

(** Wish refuted: a function that uses the variable in one version only is reported. *)
Theorem C164_use_refuted :
  exists (w : world unit nat) r, proper w "v" /\ users w 1 "v" = ["f"; "h"]%string /\ users w 11 "v" = ["f"]%string /\
    both w "v" "a.c" 1 11 /\ diff_all w "v" "v" = Ok r /\ r_kind r = EQUAL.
Proof.
  exists (small ["a.c"]%string ["a.c"]%string ["f"; "h"]%string ["f"]%string (fun _ _ => true) (fun _ => 1) (fun _ _ => EQUAL)).
  eexists. split; [apply small_proper; repeat constructor; simpl; intuition discriminate|].
  split; [reflexivity|]. split; [reflexivity|]. split; [repeat split; simpl; auto|]. split; vm_compute; reflexivity.
Qed.

(** Wish refuted: an error in the comparison of two modules is an error of the whole comparison.  A function
    without a definition makes the verdict about the modules ERROR, but only what is inside is passed on, and
    functions after it are not compared. *)
Theorem C164_error_refuted :
  exists (w : world unit nat) r rm, proper w "v" /\ both w "v" "a.c" 1 11 /\
    modules_diff w 1 11 (Some "v"%string) None = Ok rm /\ r_kind rm = ERROR /\
    fdiff w 1 11 "h" = Ok (res_of NOT_EQUAL "h") /\ In "h"%string (users w 1 "v") /\ In "h"%string (users w 11 "v") /\
    diff_all w "v" "v" = Ok r /\ r_kind r = EQUAL.
Proof.
  exists (small ["a.c"]%string ["a.c"]%string ["f"; "d"; "h"]%string ["f"; "d"; "h"]%string (fun _ f => negb (String.eqb f "d"))
            (fun _ => 1) (fun _ f => if String.eqb f "h" then NOT_EQUAL else EQUAL)).
  eexists. eexists. split; [apply small_proper; repeat constructor; simpl; intuition discriminate|].
  split; [repeat split; simpl; auto|]. split; [vm_compute; reflexivity|]. split; [vm_compute; reflexivity|].
  split; [vm_compute; reflexivity|]. split; [simpl; auto|]. split; [simpl; auto|]. split; vm_compute; reflexivity.
Qed.

(** Wish refuted: every verdict is shown.  Functions of the same name in two sources share a place. *)
Theorem C164_shown_refuted :
  exists (w : world unit nat) r, proper w "v" /\ diff_all w "v" "v" = Ok r /\ r_kind r = NOT_EQUAL /\
    map (fun x => r_kind (snd x)) (r_inner r) = [EQUAL].
Proof.
  exists (small ["a.c"; "b.c"]%string ["a.c"; "b.c"]%string ["f"]%string ["f"]%string (fun _ _ => true)
            (fun s => if String.eqb s "a.c" then 1 else 2) (fun m _ => if m =? 1 then NOT_EQUAL else EQUAL)).
  eexists. split; [apply small_proper; repeat constructor; simpl; intuition discriminate|].
  split; [vm_compute; reflexivity|]. split; vm_compute; reflexivity.
Qed.

(** A world with a source of the first version only, one that is not built, and one with two functions. *)
Definition mixed : world unit nat :=
  @mkWorld unit nat (fun _ => ["a.c"; "b.c"; "c.c"]%string) (fun _ => ["c.c"; "b.c"]%string) (fun _ => Ok 1)
          (fun s => if String.eqb s "b.c" then Err BuildException else Ok 11) (fun _ _ => true)
          (fun _ _ => ["f"; "h"]%string) (fun _ _ => true)
          (fun _ _ f => Ok (res_of (if String.eqb f "h" then UNKNOWN else EQUAL) f)) (fun _ => "m"%string).
Example C164_example :
  proper mixed "v" /\
  match diff_all mixed "v" "v" with
  | Ok r => (r_kind r, map (fun x => (fst x, r_kind (snd x))) (r_inner r))
            = (ERROR, [("a.c"%string, NOT_EQUAL); ("b.c"%string, ERROR); ("f"%string, EQUAL); ("h"%string, UNKNOWN)])
  | Err _ => False
  end.
Proof.
  split; [|vm_compute; reflexivity]. split; simpl.
  - intros _. repeat constructor; simpl; intuition discriminate.
  - intros m1 m2 f r [= <-]. reflexivity.
Qed.

Print Assumptions C164_names.
Print Assumptions C164_verdict.
Print Assumptions C164_equal.
Print Assumptions C164_inside.
Print Assumptions C164_all_inside.
Print Assumptions C164_function.
Print Assumptions C164_second_refuted.
Print Assumptions C164_use_refuted.
Print Assumptions C164_error_refuted.
Print Assumptions C164_shown_refuted.
