(** Proofs about constants that come from macros (C119). *)
From Coq Require Import String Ascii ZArith Arith Bool Lia List.
From Verif Require Import PyBase Layout_Model Layout_Spec.
Import ListNotations.
Open Scope list_scope.
Open Scope Z_scope.

Section Macros.
  Variable show : Z -> string.
  Variables uf us : list (list (string * string)).
  Variable begin : list constant_of -> option constant_of.
  Hypothesis begin_in : forall l, (l = [] /\ begin l = None) \/ exists c, begin l = Some c /\ In c l.

  Lemma defines_concat u name value : defines u name value <-> In (name, value) (concat u).
  Proof. unfold defines. rewrite in_concat. split; intros (x & A & B); eauto. Qed.

  Lemma use_In d name c name' c' :
    (exists l, dget (use d name c) name' = Some l /\ In c' l) <-> (name' = name /\ c' = c) \/ (exists l, dget d name' = Some l /\ In c' l).
  Proof.
    unfold use. rewrite dget_dset. destruct (eqb_spec name' name) as [->|N].
    - split.
      + intros (l & [= <-] & I). apply set_add_In in I. destruct I as [->|I]; [auto|]. right. destruct (dget d name) as [l|]; [eauto|destruct I].
      + intros H. exists (set_add c match dget d name with Some l => l | None => [] end). split; [reflexivity|]. apply set_add_In.
        destruct H as [(_ & ->)|(l & E & I)]; [auto|]. rewrite E. auto.
    - split; [auto|]. intros [(E & _)|H]; [contradiction|exact H].
  Qed.
  Lemma collect_In c d : forall name' c',
    (exists l, dget (collect show uf d c) name' = Some l /\ In c' l) <->
    (c' = c /\ as_string show c <> ""%string /\ defines uf name' (as_string show c)) \/ (exists l, dget d name' = Some l /\ In c' l).
  Proof.
    intros name' c'. unfold collect. destruct (String.eqb_spec (as_string show c) "") as [E|E].
    { split; [auto|]. intros [(_ & N & _)|H]; [contradiction|exact H]. }
    rewrite defines_concat. revert d. induction (concat uf) as [|[n v] l IH]; intros d; cbn [fold_left fst snd].
    { split; [auto|]. intros [(_ & _ & [])|H]. exact H. }
    rewrite IH. destruct (String.eqb_spec v (as_string show c)) as [->|N].
    - rewrite use_In. split.
      + intros [(-> & N & I)|[(-> & ->)|H]]; [left; repeat split; auto; right; exact I|left; repeat split; auto; left; reflexivity|auto].
      + intros [(-> & N & [I|I])|H]; [injection I as ->; auto|left; auto|auto].
    - split; [intros [(-> & M & I)|H]; [left; repeat split; auto; right; exact I|auto]|].
      intros [(-> & M & [I|I])|H]; [congruence|left; auto|auto].
  Qed.
  Lemma collect_all cs : forall d name' c',
    (exists l, dget (fold_left (collect show uf) cs d) name' = Some l /\ In c' l) <->
    (In c' cs /\ as_string show c' <> ""%string /\ defines uf name' (as_string show c')) \/ (exists l, dget d name' = Some l /\ In c' l).
  Proof.
    induction cs as [|c cs IH]; intros d name' c'; cbn [fold_left].
    - split; [auto|]. intros [([] & _)|H]. exact H.
    - rewrite IH, collect_In. split.
      + intros [(I & N & D)|[(-> & N & D)|H]]; [left; repeat split; auto; right; exact I|left; repeat split; auto; left; reflexivity|auto].
      + intros [([->|I] & N & D)|H]; [right; left; auto|left; auto|auto].
  Qed.
  Lemma used_spec first second called c : In c (used first second called) <-> constant_used first second called c.
  Proof.
    unfold used, constant_used. rewrite in_flat_map. split.
    - intros ([f l] & I & H). cbn [fst snd] in H. destruct (mem f second && mem f called) eqn:E; [|destruct H].
      apply andb_true_iff in E. rewrite !mem_In in E. exists f, l. tauto.
    - intros (f & l & I & S & C & H). exists (f, l). split; [exact I|]. cbn [fst snd]. apply mem_In in S, C. rewrite S, C. exact H.
  Qed.
  Lemma emplace_get d c v c' : dget (emplace d c v) c' = if eqb c' c then Some (match dget d c with Some x => x | None => v end) else dget d c'.
  Proof.
    unfold emplace, dmem. destruct (eqb_spec c' c) as [->|N].
    - destruct (dget d c) as [x|] eqn:E; [exact E|apply dget_dset_same].
    - destruct (dget d c) as [x|] eqn:E; [reflexivity|apply dget_dset_other, N].
  Qed.
  Lemma emplace_all cs v : forall d c',
    dget (fold_left (fun d c => emplace d c v) cs d) c' =
    match dget d c' with Some x => Some x | None => if mem c' cs then Some v else None end.
  Proof.
    induction cs as [|c cs IH]; intros d c'; cbn [fold_left mem].
    - destruct (dget d c'); reflexivity.
    - rewrite IH, emplace_get. destruct (eqb_spec c' c) as [->|N]; cbn [orb]; [destruct (dget d c); reflexivity|reflexivity].
  Qed.

  Section Map.
    Variable first : dict string (list constant_of).
    Variables second called : list string.
    Let usage := fold_left (collect show uf) (used first second called) [].
    Lemma usage_spec name c : (exists l, dget usage name = Some l /\ In c l) <->
      constant_used first second called c /\ as_string show c <> ""%string /\ defines uf name (as_string show c).
    Proof.
      unfold usage. rewrite collect_all, used_spec. split; [intros [H|(l & C & _)]; [exact H|discriminate]|auto].
    Qed.
    Lemma add_sound l : forall d c v, dget (fold_left (add_alignment show begin usage) l d) c = Some v ->
      dget d c = Some v \/
      exists name c0, In (name, v) l /\ constant_used first second called c /\ as_string show c <> ""%string /\ defines uf name (as_string show c)
        /\ constant_used first second called c0 /\ defines uf name (as_string show c0) /\ as_string show c0 <> v.
    Proof.
      induction l as [|[n w] l IH]; intros d c v; cbn [fold_left]; [auto|]. intros H. apply IH in H.
      destruct H as [H|(name & c0 & I & R)]; [|right; exists name, c0; split; [right; exact I|exact R]].
      unfold add_alignment in H. cbn [fst snd] in H. destruct (dget usage n) as [cs|] eqn:U; [|auto].
      destruct (begin_in cs) as [(_ & B)|(c0 & B & I0)]; rewrite B in H; [auto|].
      destruct (String.eqb_spec (as_string show c0) w) as [E|E]; [auto|]. rewrite emplace_all in H.
      destruct (dget d c) as [x|] eqn:D; [auto|]. destruct (mem c cs) eqn:M; [|discriminate]. injection H as <-. apply mem_In in M.
      right. exists n, c0. destruct (proj1 (usage_spec n c) (ex_intro _ cs (conj U M))) as (A1 & A2 & A3).
      destruct (proj1 (usage_spec n c0) (ex_intro _ cs (conj U I0))) as (B1 & B2 & B3). repeat split; auto. left. reflexivity.
    Qed.
    Lemma add_mono l : forall d c v, dget d c = Some v -> dget (fold_left (add_alignment show begin usage) l d) c = Some v.
    Proof.
      induction l as [|[n w] l IH]; intros d c v D; cbn [fold_left]; [exact D|]. apply IH. unfold add_alignment. cbn [fst snd].
      destruct (dget usage n) as [cs|]; [|exact D]. destruct (begin cs) as [c0|]; [|exact D]. destruct (String.eqb (as_string show c0) w); [exact D|].
      rewrite emplace_all, D. reflexivity.
    Qed.
    Lemma add_complete l : forall d c v name, In (name, v) l -> constant_used first second called c -> as_string show c <> ""%string ->
      defines uf name (as_string show c) -> (forall x, defines uf name x -> x = as_string show c) -> v <> as_string show c ->
      exists v', dget (fold_left (add_alignment show begin usage) l d) c = Some v'.
    Proof.
      induction l as [|[n w] l IH]; intros d c v name I U NE D Un N; [destruct I|]. cbn [fold_left].
      destruct I as [E|I]; [|eapply IH; eassumption]. injection E as -> ->.
      destruct (proj2 (usage_spec name c) (conj U (conj NE D))) as (cs & E & Ic).
      destruct (begin_in cs) as [(-> & _)|(c0 & B & I0)]; [destruct Ic|].
      destruct (proj1 (usage_spec name c0) (ex_intro _ cs (conj E I0))) as (_ & _ & D0). apply Un in D0.
      assert (X : exists v', dget (add_alignment show begin usage d (name, v)) c = Some v').
      { unfold add_alignment. cbn [fst snd]. rewrite E, B. destruct (String.eqb_spec (as_string show c0) v) as [C|_]; [congruence|].
        rewrite emplace_all. apply mem_In in Ic. rewrite Ic. destruct (dget d c) as [x|]; eauto. }
      destruct X as (v' & X). exists v'. apply add_mono, X.
    Qed.
    Theorem macro_sound c v : dget (macro_map show uf us begin true first second called) c = Some v ->
      exists name c0, defines us name v /\ constant_used first second called c /\ as_string show c <> ""%string /\ defines uf name (as_string show c)
        /\ constant_used first second called c0 /\ defines uf name (as_string show c0) /\ as_string show c0 <> v.
    Proof.
      unfold macro_map. cbn [negb]. intros H. apply add_sound in H. destruct H as [H|(name & c0 & I & R)]; [discriminate|].
      exists name, c0. split; [apply defines_concat, I|exact R].
    Qed.
    Theorem macro_complete c name v : constant_used first second called c -> as_string show c <> ""%string ->
      defines uf name (as_string show c) -> (forall x, defines uf name x -> x = as_string show c) ->
      defines us name v -> v <> as_string show c ->
      exists v', dget (macro_map show uf us begin true first second called) c = Some v'.
    Proof.
      intros U NE D Un D2 N. unfold macro_map. cbn [negb]. apply defines_concat in D2. eapply add_complete; eassumption.
    Qed.
  End Map.
End Macros.
