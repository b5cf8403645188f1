(** * Theorems about LLVM module objects and source trees (C45, C46, C62) *)
From Coq Require Import String Ascii ZArith Arith Bool Lia List.
From Verif Require Import PyBase Path_Model Module_Model.
Import ListNotations.
Open Scope list_scope.

(** ** C45 *)

(** Any sequence of attempts to link further modules, with any outcomes of the tools. *)
Definition attempt := (link_outcome * list mid)%type.
Fixpoint link_all (files : mid -> string) (d : disk) (m : lmod) (ops : list attempt) : disk * lmod :=
  match ops with
  | [] => (d, m)
  | (o, mods) :: ops' => let '(d', m', _) := link_modules o files d m mods in link_all files d' m' ops'
  end.

Lemma linked_name_fix n : contains (linked_name n) "-linked" = true.
Proof.
  unfold linked_name. destruct (contains n "-linked") eqn:E; [exact E|].
  apply contains_spec. exists (chop 3 n), ".ll"%string. reflexivity.
Qed.
Lemma linked_name_other n : contains n "-linked" = false -> linked_name n <> n.
Proof. intros H E. pose proof (linked_name_fix n) as X. rewrite E in X. congruence. Qed.
Lemma set_adds_In l : forall acc y, In y (fold_left (fun l x => set_add x l) l acc) <-> In y acc \/ In y (l : list mid).
Proof.
  induction l as [|x l IH]; intros acc y; simpl; [tauto|]. rewrite IH, set_add_In. intuition congruence.
Qed.
Lemma set_adds_NoDup l : forall acc, NoDup acc -> NoDup (fold_left (fun l x => set_add x l) (l : list mid) acc).
Proof. induction l as [|x l IH]; intros acc N; simpl; [exact N|apply IH, set_add_NoDup, N]. Qed.

(** Reachable module states of a module whose file is [f]. *)
Definition state_of (f : string) (m : lmod) : Prop :=
  (m_llvm m = f /\ m_unlinked m = None /\ m_linked m = []) \/
  (m_llvm m = linked_name f /\ m_unlinked m = Some f /\ m_linked m <> []).

Lemma linked_twice f : linked_name (linked_name f) = linked_name f.
Proof. unfold linked_name at 1. rewrite linked_name_fix. reflexivity. Qed.
Lemma link_state files f o d m mods d' m' b : state_of f m ->
  link_modules o files d m mods = (d', m', b) ->
  state_of f m' /\
  (forall n, n <> linked_name f -> dget d' n = dget d n) /\
  (NoDup (m_linked m) -> NoDup (m_linked m')) /\
  (b = true <-> exists x, In x mods /\ ~ In x (m_linked m) /\ In x (m_linked m')) /\
  (forall x, In x (m_linked m') -> In x (m_linked m) \/ In x mods) /\
  (forall x, In x (m_linked m) -> In x (m_linked m')) /\
  (b = false -> m' = m).
Proof.
  intros S. unfold link_modules. set (new := filter _ mods).
  assert (HN : forall x, In x new <-> In x mods /\ ~ In x (m_linked m)).
  { intros x. unfold new. rewrite filter_In, negb_true_iff, mem_not_In. reflexivity. }
  assert (T : linked_name (m_llvm m) = linked_name f).
  { destruct S as [(-> & _)|(-> & _)]; [reflexivity|apply linked_twice]. }
  assert (Same : forall n c, n <> linked_name f -> dget (dset d (linked_name (m_llvm m)) c) n = dget d n).
  { intros n c Nn. apply dget_dset_other. rewrite T. exact Nn. }
  assert (NB : false = true <-> exists x, In x mods /\ ~ In x (m_linked m) /\ In x (m_linked m)).
  { split; [discriminate|intros (x & _ & A & B); contradiction]. }
  destruct new as [|x0 new'] eqn:E.
  - intros H; injection H as <- <- <-. repeat split; auto; try apply NB; intros (x & A & B & C); contradiction.
  - destruct o as [| |parses]; intros H; injection H as <- <- <-.
    + repeat split; auto; try discriminate; intros (x & A & B & C); contradiction.
    + repeat split; auto; try discriminate; intros (x & A & B & C); contradiction.
    + cbn [m_linked m_llvm m_unlinked].
      assert (I0 : In x0 (fold_left (fun l x => set_add x l) (x0 :: new') (m_linked m)))
        by (apply set_adds_In; right; left; reflexivity).
      repeat split.
      * right. cbn [m_linked m_llvm m_unlinked]. split; [exact T|]. split.
        -- destruct S as [(-> & -> & _)|(_ & -> & _)]; reflexivity.
        -- intros X. cbn [fold_left] in I0, X. rewrite X in I0. destruct I0.
      * intros n Nn. apply Same, Nn.
      * intros N. apply (set_adds_NoDup (x0 :: new')), N.
      * intros _. exists x0. destruct (proj1 (HN x0) (or_introl eq_refl)). auto.
      * intros x I. apply (set_adds_In (x0 :: new')) in I as [I|I]; [auto|right; apply HN, I].
      * intros x I. apply (set_adds_In (x0 :: new')). auto.
      * discriminate.
Qed.

Lemma link_all_state files f ops : forall d m, state_of f m ->
  state_of f (snd (link_all files d m ops)) /\
  (forall n, n <> linked_name f -> dget (fst (link_all files d m ops)) n = dget d n) /\
  (NoDup (m_linked m) -> NoDup (m_linked (snd (link_all files d m ops)))).
Proof.
  induction ops as [|[o mods] ops IH]; intros d m S; simpl; [auto|].
  destruct (link_modules o files d m mods) as [[d1 m1] b] eqn:E.
  destruct (link_state _ _ _ _ _ _ _ _ _ S E) as (S1 & D1 & N1 & _).
  destruct (IH d1 m1 S1) as (S2 & D2 & N2). split; [exact S2|]. split; [|auto].
  intros n Nn. rewrite D2, D1; auto.
Qed.

(** After any attempts, restoring brings back the original file name, no linked modules and no
    pending restore; no file but the "-linked" one was touched, so in particular the original
    file is as before unless its path contains "-linked". *)
Theorem C45_restore_after_any_links : forall files d f ops,
  let '(d', m') := link_all files d (new_mod f) ops in
  m_llvm (restore_unlinked m') = f /\ m_unlinked (restore_unlinked m') = None /\
  m_linked (restore_unlinked m') = [] /\
  (forall n, n <> linked_name f -> dget d' n = dget d n) /\
  (contains f "-linked" = false -> dget d' f = dget d f).
Proof.
  intros files d f ops.
  assert (S0 : state_of f (new_mod f)) by (left; auto).
  destruct (link_all_state files f ops d (new_mod f) S0) as (S & D & _).
  destruct (link_all files d (new_mod f) ops) as [d' m']. cbn [fst snd] in *.
  unfold restore_unlinked. destruct S as [(E1 & E2 & E3)|(E1 & E2 & E3)]; rewrite E2; cbn; rewrite ?E1, ?E3;
    repeat split; auto; intros H; apply D; intros X; apply (linked_name_other f H); auto.
Qed.
Print Assumptions C45_restore_after_any_links.

(** A module is never linked twice, the answer of a link attempt says whether a module was
    added, and a failed attempt changes nothing in the module object. *)
Theorem C45_linked_at_most_once : forall files d f ops o mods,
  let '(d1, m1) := link_all files d (new_mod f) ops in
  let '(d2, m2, answer) := link_modules o files d1 m1 mods in
  NoDup (m_linked m2) /\
  (answer = true <-> exists x, In x mods /\ ~ In x (m_linked m1) /\ In x (m_linked m2)) /\
  (answer = false -> m2 = m1) /\
  ((forall x, In x mods -> In x (m_linked m1)) -> answer = false /\ d2 = d1) /\
  (forall x, In x (m_linked m1) -> In x (m_linked m2)).
Proof.
  intros files d f ops o mods.
  assert (S0 : state_of f (new_mod f)) by (left; auto).
  destruct (link_all_state files f ops d (new_mod f) S0) as (S & D & N).
  destruct (link_all files d (new_mod f) ops) as [d1 m1]. cbn [fst snd] in *.
  destruct (link_modules o files d1 m1 mods) as [[d2 m2] b] eqn:E.
  destruct (link_state _ _ _ _ _ _ _ _ _ S E) as (S1 & D1 & N1 & B & _ & K & F).
  split; [apply N1, N; constructor|]. split; [exact B|]. split; [exact F|]. split; [|exact K].
  intros A. assert (X : filter (fun x => negb (mem x (m_linked m1))) mods = []).
  { clear - A. induction mods as [|x mods IH]; [reflexivity|]. simpl.
    rewrite (proj2 (mem_In x (m_linked m1)) (A x (or_introl eq_refl))). apply IH. intros y I. apply A. right. exact I. }
  unfold link_modules in E. rewrite X in E. injection E as <- <- <-. auto.
Qed.
Print Assumptions C45_linked_at_most_once.

(** The first successful link of a module whose path contains "-linked" (even in a directory
    name) adds the linked definitions to the original file, and restoring does not undo it. *)
Theorem C45_original_overwritten : forall files d f p x,
  contains f "-linked" = true -> file_of d (files x) <> [] ->
  let '(d', m', _) := link_modules (LinkOk p) files d (new_mod f) [x] in
  m_llvm (restore_unlinked m') = f /\ file_of d' f = file_of d f ++ file_of d (files x) /\
  file_of d' f <> file_of d f.
Proof.
  intros files d f p x C N. unfold link_modules. cbn [new_mod m_linked mem existsb filter negb].
  change (mem x []) with false. cbn [negb m_llvm new_mod m_unlinked].
  unfold linked_name. rewrite C. cbn [restore_unlinked m_unlinked m_llvm]. split; [reflexivity|].
  assert (E : file_of (dset d f (file_of d f ++ concat (map (fun y => file_of d (files y)) [x]))) f
              = file_of d f ++ file_of d (files x)).
  { unfold file_of at 1. rewrite dget_dset_same. cbn [map concat]. rewrite app_nil_r. reflexivity. }
  split; [exact E|]. rewrite E. intros X. apply N.
  rewrite <- app_nil_r in X. apply app_inv_head in X. exact X.
Qed.
Print Assumptions C45_original_overwritten.

Example C45_example :
  let files := fun x => match x with 0 => "/s/lib.ll" | _ => "/s/b.ll" end%string in
  let d := [("/s/a.ll", ["a"]); ("/s/lib.ll", ["lib"]); ("/s/b.ll", ["b"])]%string in
  let '(d', m') := link_all files d (new_mod "/s/a.ll")
                            [(LinkFails, [0]); (LinkOk true, [0]); (OptFails, [1]); (LinkOk true, [0; 1])] in
  m_llvm m' = "/s/a-linked.ll"%string /\ m_linked m' = [0; 1] /\
  dget d' "/s/a-linked.ll"%string = Some ["a"; "lib"; "b"; "b"]%string /\
  dget d' "/s/a.ll"%string = Some ["a"]%string.
Proof. vm_compute. auto. Qed.

(** ** C46 *)

(** One request: the state of the file system, the finder's answer, the symbol and the time
    limit may all be different each time. *)
Record request := mkReq {
  rq_stat : string -> fstat; rq_finder : option (string -> option string);
  rq_symbol : string; rq_limit : option Z }.
(** The answers of a source tree to a sequence of requests. *)
Fixpoint answers (t : tree) (rs : list request) : list (option (string * mid)) :=
  match rs with
  | [] => []
  | r :: rs' =>
      match get_module_for_symbol (rq_stat r) (rq_finder r) t (rq_symbol r) (rq_limit r) with
      | Err _ => None :: answers t rs'
      | Ok (t', m) =>
          (* the source path is the one the module object was created for *)
          match rq_finder r with
          | Some find => match find (rq_symbol r) with
                         | Some src => Some (make_abs t src, m) :: answers t' rs'
                         | None => None :: answers t' rs'
                         end
          | None => None :: answers t' rs'
          end
      end
  end.
Definition fresh_tree (dir : string) : tree := mkTree dir [] 0.

Definition tree_ok (t : tree) : Prop :=
  (forall s m, dget (t_modules t) s = Some m -> (m < t_next t)%nat) /\
  (forall s1 s2 m, dget (t_modules t) s1 = Some m -> dget (t_modules t) s2 = Some m -> s1 = s2).

Lemma module_from_source_ok t s t' m : tree_ok t -> module_from_source t s = (t', m) ->
  tree_ok t' /\ t_dir t' = t_dir t /\ dget (t_modules t') s = Some m /\
  (forall s2 m2, dget (t_modules t) s2 = Some m2 -> dget (t_modules t') s2 = Some m2).
Proof.
  intros [B I]. unfold module_from_source. destruct (dget (t_modules t) s) as [m0|] eqn:D.
  - intros E; injection E as <- <-. repeat split; auto.
  - intros E; injection E as <- <-. cbn. repeat split.
    + intros s2 m2. cbn. rewrite dget_dset. destruct (eqb_spec s2 s); [intros E; injection E as <-; lia|].
      intros X. apply B in X. lia.
    + cbn. intros s1 s2 m. rewrite !dget_dset.
      destruct (eqb_spec s1 s) as [->|N1], (eqb_spec s2 s) as [->|N2]; auto.
      * intros E X; injection E as <-. apply B in X. lia.
      * intros X E; injection E as <-. apply B in X. lia.
      * apply I.
    + apply dget_dset_same.
    + intros s2 m2 X. rewrite dget_dset_other; [exact X|]. intros ->. congruence.
Qed.

Lemma get_module_ok stat finder t sym limit t' m : tree_ok t ->
  get_module_for_symbol stat finder t sym limit = Ok (t', m) ->
  exists find src, finder = Some find /\ find sym = Some src /\
    let path := if String.eqb src "" then src else make_abs t src in
    stat path <> NoFile /\
    (forall l tm, limit = Some l -> l <> 0%Z -> stat path = FileTime tm -> (tm <= l)%Z) /\
    module_from_source t path = (t', m).
Proof.
  intros T. unfold get_module_for_symbol. destruct finder as [find|]; [|discriminate].
  destruct (find sym) as [src|] eqn:F; [|discriminate].
  set (path := if String.eqb src "" then src else make_abs t src).
  destruct (isfile (stat path)) eqn:IF; [|discriminate]. cbn [negb].
  destruct (match limit with Some _ => _ | None => _ end) eqn:TN; [discriminate|].
  intros E. injection E as E. exists find, src. split; [reflexivity|]. split; [exact F|].
  fold path. split; [|split; [|exact E]].
  - intros X. rewrite X in IF. discriminate.
  - intros l tm -> N X. rewrite X in TN. apply andb_false_iff in TN as [TN|TN].
    + apply negb_false_iff, Z.eqb_eq in TN. contradiction.
    + apply Z.ltb_ge in TN. exact TN.
Qed.

Lemma answers_ok rs : (forall r find, In r rs -> rq_finder r = Some find -> rq_stat r "" = NoFile) ->
  forall t, tree_ok t ->
  (forall src m, In (Some (src, m)) (answers t rs) ->
     (forall m', dget (t_modules t) src = Some m' -> m = m') /\
     (forall src', dget (t_modules t) src' = Some m -> src = src')) /\
  (forall src m1 m2, In (Some (src, m1)) (answers t rs) -> In (Some (src, m2)) (answers t rs) -> m1 = m2) /\
  (forall src1 src2 m, In (Some (src1, m)) (answers t rs) -> In (Some (src2, m)) (answers t rs) -> src1 = src2).
Proof.
  induction rs as [|r rs IH]; intros NE t T; simpl; [repeat split; intros; contradiction|].
  assert (NE' : forall r' find, In r' rs -> rq_finder r' = Some find -> rq_stat r' "" = NoFile)
    by (intros r' find I; apply NE; right; exact I).
  destruct (get_module_for_symbol _ _ t _ _) as [[t' m]|e] eqn:G.
  2: { destruct (IH NE' t T) as (A & B & C). repeat split.
       - intros m' D. destruct H as [H|H]; [discriminate|]. eapply A; eauto.
       - intros s' D. destruct H as [H|H]; [discriminate|]. eapply A; eauto.
       - intros src m1 m2 [H1|H1] [H2|H2]; try discriminate. eauto.
       - intros s1 s2 m [H1|H1] [H2|H2]; try discriminate. eauto. }
  destruct (get_module_ok _ _ _ _ _ _ _ T G) as (find & src & F & S & NF & _ & M).
  rewrite F, S. destruct (String.eqb_spec src "") as [->|Ns].
  { exfalso. apply NF. eapply NE; [left; reflexivity|exact F]. }
  destruct (module_from_source_ok _ _ _ _ T M) as (T' & _ & D & K).
  destruct (IH NE' t' T') as (A & B & C). destruct T as [TB TI]. repeat split.
  - intros m' Dm. destruct H as [H|H].
    + injection H as <- <-. apply K in Dm. congruence.
    + eapply A; eauto.
  - intros s' Dm. destruct H as [H|H].
    + injection H as <- <-. apply K in Dm. destruct T' as [_ TI']. eapply TI'; eauto.
    + eapply A; eauto.
  - intros s m1 m2 [H1|H1] [H2|H2].
    + congruence.
    + injection H1 as <- <-. symmetry. apply (proj1 (A _ _ H2)). exact D.
    + injection H2 as <- <-. apply (proj1 (A _ _ H1)). exact D.
    + eauto.
  - intros s1 s2 mm [H1|H1] [H2|H2].
    + congruence.
    + injection H1 as <- <-. symmetry. apply (proj2 (A _ _ H2)). exact D.
    + injection H2 as <- <-. apply (proj2 (A _ _ H1)). exact D.
    + eauto.
Qed.

(** Over the whole run, one source path always yields the same module object and different
    paths different objects ("" is never a file). *)
Theorem C46_modules_shared_per_source : forall dir rs,
  (forall r find, In r rs -> rq_finder r = Some find -> rq_stat r "" = NoFile) ->
  forall src1 m1 src2 m2,
  In (Some (src1, m1)) (answers (fresh_tree dir) rs) -> In (Some (src2, m2)) (answers (fresh_tree dir) rs) ->
  (src1 = src2 <-> m1 = m2).
Proof.
  intros dir rs NE src1 m1 src2 m2 H1 H2.
  assert (T : tree_ok (fresh_tree dir)) by (split; intros; discriminate).
  destruct (answers_ok rs NE _ T) as (_ & B & C). split; intros ->; eauto.
Qed.
Print Assumptions C46_modules_shared_per_source.

(** A module is returned only if its file exists and, when a (non-zero) time limit is given and
    the modification time can be read, is not newer than the limit.  Conversely it is returned
    whenever the finder knows the symbol and these conditions hold. *)
Theorem C46_only_existing_and_not_newer : forall stat finder t symbol limit,
  stat ""%string = NoFile ->
  (exists t' m, get_module_for_symbol stat finder t symbol limit = Ok (t', m)) <->
  (exists find src, finder = Some find /\ find symbol = Some src /\ src <> ""%string /\
     stat (make_abs t src) <> NoFile /\
     (forall l tm, limit = Some l -> l <> 0%Z -> stat (make_abs t src) = FileTime tm -> (tm <= l)%Z)).
Proof.
  intros stat finder t sym limit NE. split.
  - intros (t' & m & G). unfold get_module_for_symbol in G.
    destruct finder as [find|]; [|discriminate]. destruct (find sym) as [src|] eqn:F; [|discriminate].
    exists find, src. split; [reflexivity|]. split; [exact F|].
    destruct (String.eqb_spec src "") as [->|N]; [rewrite NE in G; discriminate|].
    split; [exact N|]. destruct (isfile (stat (make_abs t src))) eqn:I; [|discriminate]. cbn [negb] in G.
    split; [intros X; rewrite X in I; discriminate|].
    intros l tm -> Nl X. rewrite X in G. apply Z.eqb_neq in Nl. rewrite Nl in G. cbn [negb andb] in G.
    destruct (l <? tm)%Z eqn:L; [discriminate|]. apply Z.ltb_ge in L. exact L.
  - intros (find & src & -> & F & N & NF & L). unfold get_module_for_symbol. rewrite F.
    apply String.eqb_neq in N. rewrite N.
    assert (I : isfile (stat (make_abs t src)) = true) by (destruct (stat (make_abs t src)); [congruence|reflexivity|reflexivity]).
    rewrite I. cbn [negb].
    destruct limit as [l|]; [|destruct (module_from_source t _); eauto].
    destruct (stat (make_abs t src)) as [| |tm]; [congruence|destruct (module_from_source t _); eauto|].
    destruct (Z.eqb_spec l 0) as [->|Nl]; cbn [negb andb]; [destruct (module_from_source t _); eauto|].
    specialize (L l tm eq_refl Nl eq_refl). apply Z.ltb_ge in L. rewrite L.
    destruct (module_from_source t _); eauto.
Qed.
Print Assumptions C46_only_existing_and_not_newer.

Example C46_example :
  let stat := fun p => if String.eqb p "/s/a.ll" then FileTime 5 else if String.eqb p "/s/b.ll" then FileTime 9 else NoFile in
  let find := Some (fun s => if String.eqb s "f" then Some "a.ll" else if String.eqb s "g" then Some "/s/a.ll" else Some "b.ll")%string in
  answers (fresh_tree "/s")
          [mkReq stat find "f" (Some 7%Z); mkReq stat find "h" (Some 7%Z); mkReq stat find "h" (Some 9%Z);
           mkReq stat find "g" None]
  = [Some ("/s/a.ll", 0); None; Some ("/s/b.ll", 1); Some ("/s/a.ll", 0)]%string.
Proof. reflexivity. Qed.

(** ** C62 *)

Lemma chars_single s x : In x (chars s) -> String.length x = 1%nat.
Proof. induction s as [|c s IH]; simpl; [tauto|]. intros [<-|I]; [reflexivity|auto]. Qed.
Lemma modules_for_none stat ss : forall t,
  (forall s, In s ss -> stat (make_abs t s) = NoFile) -> modules_for stat t ss = (t, []).
Proof.
  induction ss as [|s ss IH]; intros t H; [reflexivity|]. simpl.
  rewrite (H s (or_introl eq_refl)). simpl. apply IH. intros s' I. apply H. right. exact I.
Qed.

(** For projects built as a single LLVM file or with the compiler wrapper, looking for the
    modules that use a symbol never finds any, unless the source directory contains a file with
    a one-character name (or "/" is a file). *)
Theorem C62_symbol_users_never_found : forall stat t answer,
  (forall c, stat (make_abs t (String c "")) = NoFile) ->
  get_modules_using_symbol_str stat t answer
  = match answer with Some _ => Ok (t, []) | None => Err TypeError end.
Proof.
  intros stat t [s|] H; [|reflexivity]. unfold get_modules_using_symbol_str. f_equal.
  apply modules_for_none. intros x I. apply chars_single in I.
  destruct x as [|c [|d x]]; try discriminate. apply H.
Qed.
Print Assumptions C62_symbol_users_never_found.

(** The wish that an existing file named by the finder is among the modules fails. *)
Theorem C62_symbol_users_found_refuted : exists stat t file,
  stat (make_abs t file) = FileNoTime /\
  get_modules_using_symbol_str stat t (Some file) = Ok (t, []).
Proof.
  exists (fun p => if String.eqb p "/s/project.ll" then FileNoTime else NoFile), (fresh_tree "/s"), "/s/project.ll"%string.
  split; reflexivity.
Qed.
Print Assumptions C62_symbol_users_found_refuted.
