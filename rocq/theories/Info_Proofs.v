(** * Proofs about structures of a module *)
From Coq Require Import String Ascii ZArith Arith Bool Lia List.
From Verif Require Import PyBase Info_Model Info_Spec.
Import ListNotations.
Open Scope list_scope.

(** ** The search in debug info *)
Section Search.
  Variable g : dinfo.
  Lemma next_Part a t b : dget g a = Some t -> (In b (next t) <-> Part g a b).
  Proof.
    intros G. split.
    - intros I. destruct t as [[c|]|s n l|l|]; cbn in I; try contradiction.
      + destruct I as [<-|[]]. apply Part_base. exact G.
      + eapply Part_elem; eassumption.
    - intros P. inversion P as [x y H|x s n l y H J]; subst; rewrite G in H; injection H as ->; cbn; auto.
  Qed.

  Record Inv (roots stack seen : list nat) : Prop := {
    inv_reached : forall x, In x stack \/ In x seen -> Reached g roots x;
    inv_roots : forall x, In x roots -> In x stack \/ In x seen;
    inv_closed : forall x y, In x seen -> Part g x y -> In y stack \/ In y seen }.
  (** What is added to the result *)
  Definition Adds (seen : list nat) (res0 res : found) : Prop :=
    (forall name id, dget res name = Some id -> dget res0 name = Some id \/ (In id seen /\ Structure g id name)) /\
    (forall name, dget res0 name <> None -> dget res name <> None) /\
    (forall id name, In id seen -> Structure g id name -> dget res name <> None).

  Lemma note_get t id res name : dget (note t id res) name =
    match t with Composite true n _ => if String.eqb n "" then dget res name else if String.eqb name n then Some id else dget res name | _ => dget res name end.
  Proof.
    destruct t as [b|[|] n l|l|]; try reflexivity. cbn. destruct (String.eqb n ""); [reflexivity|]. rewrite dget_dset. reflexivity.
  Qed.
  Lemma adds_note t id seen res0 res : dget g id = Some t -> Adds seen res0 res -> Adds (id :: seen) res0 (note t id res).
  Proof.
    intros G (A & B & C). split; [|split].
    - intros name x E. rewrite note_get in E.
      assert (O : dget res name = Some x -> dget res0 name = Some x \/ (In x (id :: seen) /\ Structure g x name)).
      { intros E'. destruct (A _ _ E') as [E''|[I S]]; [left; exact E''|right; split; [right; exact I|exact S]]. }
      destruct t as [b|[|] n l|l|]; auto. destruct (String.eqb_spec n "") as [->|N]; auto. destruct (String.eqb_spec name n) as [->|N']; auto.
      injection E as <-. right. split; [left; reflexivity|]. split; [exact N|]. eauto.
    - intros name H. specialize (B name H). rewrite note_get. destruct t as [b|[|] n l|l|]; auto. destruct (String.eqb n ""); auto. destruct (String.eqb name n); [discriminate|auto].
    - intros x name [<-|I] S.
      + destruct S as (N & l & E). rewrite G in E. injection E as ->. rewrite note_get. apply String.eqb_neq in N. rewrite N, String.eqb_refl. discriminate.
      + specialize (C x name I S). rewrite note_get. destruct t as [b|[|] n l|l|]; auto. destruct (String.eqb n ""); auto. destruct (String.eqb name n); [discriminate|auto].
  Qed.
  Lemma adds_none id seen res0 res : dget g id = None -> Adds seen res0 res -> Adds (id :: seen) res0 res.
  Proof.
    intros G (A & B & C). split; [|split]; auto.
    - intros name x E. destruct (A _ _ E) as [E'|[I S]]; [left; exact E'|right; split; [right; exact I|exact S]].
    - intros x name [<-|I] S; [|eauto]. destruct S as (_ & l & E). congruence.
  Qed.

  Lemma search_spec roots res0 : forall n stack seen res out, Inv roots stack seen -> Adds seen res0 res ->
    search n g stack seen res = Some out ->
    (forall name id, dget out name = Some id -> dget res0 name = Some id \/ (Reached g roots id /\ Structure g id name)) /\
    (forall name, dget res0 name <> None -> dget out name <> None) /\
    (forall id name, Reached g roots id -> Structure g id name -> dget out name <> None).
  Proof.
    induction n as [|n IH]; intros stack seen res out I A E; [discriminate E|]. cbn [search] in E.
    destruct stack as [|id stack].
    - injection E as <-. destruct I as [R1 R2 R3], A as (A & B & C).
      assert (X : forall x, Reached g roots x -> In x seen).
      { induction 1 as [a H|a b H IHa P]; [destruct (R2 a H) as [[]|J]; exact J|]. destruct (R3 a b IHa P) as [[]|J]. exact J. }
      split; [|split].
      + intros name id G. destruct (A _ _ G) as [G'|[J S]]; [left; exact G'|right; split; [apply R1; right; exact J|exact S]].
      + exact B.
      + intros id name R S. apply (C id name); auto.
    - destruct (mem id seen) eqn:M.
      + apply mem_In in M. apply (IH stack seen res out); auto. destruct I as [R1 R2 R3]. split.
        * intros x [J|J]; apply R1; [left; right; exact J|right; exact J].
        * intros x J. destruct (R2 x J) as [[<-|K]|K]; auto.
        * intros x y J P. destruct (R3 x y J P) as [[<-|K]|K]; auto.
      + destruct (dget g id) as [t|] eqn:G.
        * apply (IH (rev (next t) ++ stack) (id :: seen) (note t id res) out); [|apply adds_note; assumption|exact E].
          destruct I as [R1 R2 R3]. assert (RI : Reached g roots id) by (apply R1; left; left; reflexivity). split.
          -- intros x [J|[<-|J]].
             ++ apply in_app_iff in J as [J|J]; [|apply R1; left; right; exact J]. apply in_rev in J. apply (next_Part id t x G) in J. eapply Reached_part; eassumption.
             ++ exact RI.
             ++ apply R1. right. exact J.
          -- intros x J. destruct (R2 x J) as [[<-|K]|K]; [right; left; reflexivity|left; apply in_app_iff; auto|right; right; exact K].
          -- intros x y [<-|J] P.
             ++ left. apply in_app_iff. left. apply -> in_rev. apply (next_Part id t y G). exact P.
             ++ destruct (R3 x y J P) as [[<-|K]|K]; [right; left; reflexivity|left; apply in_app_iff; auto|right; right; exact K].
        * apply (IH stack (id :: seen) res out); [|apply adds_none; assumption|exact E].
          destruct I as [R1 R2 R3]. split.
          -- intros x [J|[<-|J]]; apply R1; [left; right; exact J|left; left; reflexivity|right; exact J].
          -- intros x J. destruct (R2 x J) as [[<-|K]|K]; [right; left; reflexivity|left; exact K|right; right; exact K].
          -- intros x y [<-|J] P.
             ++ inversion P; congruence.
             ++ destruct (R3 x y J P) as [[<-|K]|K]; [right; left; reflexivity|left; exact K|right; right; exact K].
  Qed.
  Lemma search_unit n u res out : search n g (rev (u_retained u ++ u_globals u)) [] res = Some out ->
    (forall name id, dget out name = Some id -> dget res name = Some id \/ (Reached g (u_retained u ++ u_globals u) id /\ Structure g id name)) /\
    (forall name, dget res name <> None -> dget out name <> None) /\
    (forall id name, Reached g (u_retained u ++ u_globals u) id -> Structure g id name -> dget out name <> None).
  Proof.
    apply search_spec.
    - split; [intros x [I|[]]; apply Reached_root; apply in_rev; exact I|intros x I; left; apply -> in_rev; exact I|intros x y []].
    - split; [auto|]. split; [auto|]. intros id name [].
  Qed.

  (** It ends *)
  Definition weight (seen : list nat) (d : dinfo) : nat := list_sum (map (fun e => if mem (fst e) seen then 0 else length (next (snd e))) d).
  Lemma weight_less id seen d : (weight (id :: seen) d <= weight seen d)%nat.
  Proof.
    unfold weight. induction d as [|[k t] d IH]; [cbn; lia|]. cbn [map list_sum fold_right fst snd]. change (list_sum (?a :: ?b)) with (a + list_sum b).
    unfold list_sum in *. cbn [fold_right]. destruct (mem k (id :: seen)) eqn:A, (mem k seen) eqn:B; try lia.
    apply mem_In in B. assert (mem k (id :: seen) = true) by (apply mem_In; right; exact B). congruence.
  Qed.
  Lemma weight_step id seen t : forall d, mem id seen = false -> dget d id = Some t -> (weight (id :: seen) d + length (next t) <= weight seen d)%nat.
  Proof.
    induction d as [|[k u] d IH]; intros M G; [discriminate G|]. unfold weight, list_sum in *. cbn [map fold_right fst snd dget] in *.
    change (eqb id k) with (Nat.eqb id k) in G.
    destruct (Nat.eqb_spec id k) as [<-|N].
    - injection G as ->. assert (X : mem id (id :: seen) = true) by (apply mem_In; left; reflexivity). rewrite X, M.
      pose proof (weight_less id seen d) as W. unfold weight, list_sum in W. lia.
    - specialize (IH M G). destruct (mem k (id :: seen)) eqn:A, (mem k seen) eqn:B; try lia.
      apply mem_In in B. assert (mem k (id :: seen) = true) by (apply mem_In; right; exact B). congruence.
  Qed.
  Lemma search_ends : forall n stack seen res, (weight seen g + length stack < n)%nat -> exists out, search n g stack seen res = Some out.
  Proof.
    induction n as [|n IH]; intros stack seen res L; [lia|]. cbn [search]. destruct stack as [|id stack]; [eauto|].
    destruct (mem id seen) eqn:M; [apply IH; cbn in L; lia|]. destruct (dget g id) as [t|] eqn:G.
    - apply IH. rewrite app_length, rev_length. pose proof (weight_step id seen t g M G). cbn in L. lia.
    - apply IH. pose proof (weight_less id seen g). cbn in L. lia.
  Qed.
  Lemma search_more : forall n stack seen res out, search n g stack seen res = Some out -> forall k, (n <= k)%nat -> search k g stack seen res = Some out.
  Proof.
    induction n as [|n IH]; intros stack seen res out E k L; [discriminate E|]. destruct k as [|k]; [lia|]. cbn [search] in *.
    destruct stack as [|id stack]; [exact E|]. destruct (mem id seen); [apply IH; [exact E|lia]|]. destruct (dget g id); apply IH; try exact E; lia.
  Qed.
End Search.

(** ** Sizes *)
Lemma sizes_get structs : forall m z n,
  (exists l, dget (fold_left add_size structs m) z = Some l /\ In n l) <-> (exists l, dget m z = Some l /\ In n l) \/ In (n, Some z) structs.
Proof.
  induction structs as [|[a [y|]] structs IH]; intros m z n; cbn [fold_left].
  - cbn. tauto.
  - rewrite IH. unfold add_size. cbn [fst snd]. rewrite dget_dset. destruct (eqb_spec z y) as [->|N].
    + destruct (dget m y) as [l|] eqn:G; split.
      * intros [(l' & E & I)|I]; [|right; right; exact I]. injection E as <-. apply in_app_iff in I as [I|[<-|[]]]; [left; eauto|right; left; reflexivity].
      * intros [(l' & E & I)|[E|I]]; [injection E as <-|injection E as ->|right; exact I]; left; eexists; (split; [reflexivity|]); apply in_app_iff; [left; exact I|right; left; reflexivity].
      * intros [(l' & E & I)|I]; [|right; right; exact I]. injection E as <-. destruct I as [<-|[]]. right. left. reflexivity.
      * intros [(l' & E & I)|[E|I]]; [discriminate E|injection E as ->|right; exact I]. left. eexists. split; [reflexivity|left; reflexivity].
    + split; intros [H|I]; auto; [right; right; exact I|]. destruct I as [E|I]; [injection E as -> ->; congruence|auto].
  - rewrite IH. unfold add_size. cbn [snd]. split; intros [H|I]; auto; [right; right; exact I|]. destruct I as [E|I]; [discriminate E|auto].
Qed.

(** ** Names *)
Lemma anonymous_spec n : anonymous n = true <-> Anonymous n.
Proof. unfold anonymous, Anonymous, Begins. rewrite orb_true_iff, !startswith_spec. tauto. Qed.
Lemma name_of_called ns id : name_of ns id = called ns id.
Proof. reflexivity. Qed.
Lemma concat_cons (a : string) l : String.concat "" (a :: l) = (a ++ String.concat "" l)%string.
Proof. assert (E : forall x : string, (x ++ "" = x)%string) by (induction x as [|c x IH]; cbn; [reflexivity|rewrite IH; reflexivity]). destruct l; cbn; [symmetry; apply E|reflexivity]. Qed.
Lemma declaration_declared ns s : declaration ns s = declared ns s.
Proof.
  unfold declaration, declared. induction (s_pieces s) as [|[t|id] l IH]; [reflexivity| |]; cbn [map]; rewrite concat_cons, IH; reflexivity.
Qed.
Section Names.
  Variable hash : string -> string.
  Variable fresh : list string -> string -> string.
  Hypothesis FR : Renamer fresh.
  Notation rename := (rename hash fresh).
  Notation hash_structs := (hash_structs hash fresh).
  Lemma name_of_dset ns id n k : name_of (dset ns id n) k = if Nat.eqb k id then n else name_of ns k.
  Proof. unfold name_of. rewrite dget_dset. change (eqb k id) with (Nat.eqb k id). destruct (Nat.eqb k id); reflexivity. Qed.
  Lemma set_name_other ns id n k : k <> id -> name_of (set_name fresh ns id n) k = name_of ns k.
  Proof.
    intros N. unfold set_name. destruct (String.eqb n (name_of ns id)); [reflexivity|]. rewrite name_of_dset. apply Nat.eqb_neq in N. rewrite N. reflexivity.
  Qed.
  Lemma set_name_same ns id n : Named (name_of (set_name fresh ns id n) id) n.
  Proof.
    unfold set_name. destruct (String.eqb_spec n (name_of ns id)) as [->|N]; [left; reflexivity|]. rewrite name_of_dset, Nat.eqb_refl.
    destruct (mem n (dvals ns)); [|left; reflexivity]. right. apply (FR (dvals ns) n).
  Qed.
  Lemma Anonymous_kind p : Anonymous ((if p : bool then "union.anon." else "struct.anon.") ++ "")%string.
  Proof. destruct p; [left|right]; eexists; reflexivity. Qed.
  Lemma Named_anonymous n b : Anonymous b -> Named n b -> Anonymous n.
  Proof.
    assert (X : forall p q k, Begins p q -> Begins (p ++ k)%string q).
    { intros p q k (r & ->). exists (r ++ k)%string. induction q; cbn; [reflexivity|]. f_equal. assumption. }
    intros A [->|(k & ->)]; [exact A|]. destruct A as [A|A]; [left|right]; apply X; exact A.
  Qed.
  Lemma new_name_anonymous ns s : Anonymous (new_name hash ns s).
  Proof. unfold new_name. destruct (startswith _ _); [left|right]; eexists; reflexivity. Qed.
  Lemma rename_anonymous ns s k : Anonymous (name_of (rename ns s) k) <-> Anonymous (name_of ns k).
  Proof.
    unfold Info_Model.rename. destruct (anonymous (name_of ns (s_id s)) && negb (s_opaque s)) eqn:A; [|tauto].
    apply andb_true_iff in A as [A _]. destruct (Nat.eq_dec k (s_id s)) as [->|N]; [|rewrite set_name_other by exact N; tauto].
    split; intros _; [apply anonymous_spec; exact A|]. eapply Named_anonymous; [|apply set_name_same]. apply new_name_anonymous.
  Qed.
  Lemma rename_other ns s k : k <> s_id s \/ ~ Anonymous (name_of ns k) -> name_of (rename ns s) k = name_of ns k.
  Proof.
    intros H. unfold Info_Model.rename. destruct (anonymous (name_of ns (s_id s)) && negb (s_opaque s)) eqn:A; [|reflexivity].
    apply andb_true_iff in A as [A _]. apply set_name_other. destruct H as [H|H]; [exact H|]. intros ->. apply H. apply anonymous_spec. exact A.
  Qed.
  Lemma structs_other structs : forall ns k, ~ Anonymous (name_of ns k) \/ ~ In k (map s_id structs) -> name_of (hash_structs structs ns) k = name_of ns k.
  Proof.
    induction structs as [|s structs IH]; intros ns k H; [reflexivity|]. unfold Info_Model.hash_structs. cbn [fold_left]. change (fold_left rename structs ?x) with (hash_structs structs x).
    assert (E : name_of (rename ns s) k = name_of ns k).
    { apply rename_other. destruct H as [H|H]; [right; exact H|left]. intros ->. apply H. left. reflexivity. }
    rewrite IH; [exact E|]. destruct H as [H|H]; [left; rewrite E; exact H|right; intros I; apply H; right; exact I].
  Qed.
  Lemma structs_opaque structs : forall ns k, (forall s, In s structs -> s_id s = k -> s_opaque s = true) -> name_of (hash_structs structs ns) k = name_of ns k.
  Proof.
    induction structs as [|s structs IH]; intros ns k H; [reflexivity|]. unfold Info_Model.hash_structs. cbn [fold_left]. change (fold_left rename structs ?x) with (hash_structs structs x).
    rewrite IH by (intros s' I; apply H; right; exact I). destruct (Nat.eq_dec k (s_id s)) as [->|N]; [|apply rename_other; left; exact N].
    unfold Info_Model.rename. rewrite (H s (or_introl eq_refl) eq_refl), andb_false_r. reflexivity.
  Qed.
  Lemma declaration_same ns ns' s : Simple ns s -> (forall k, ~ Anonymous (name_of ns k) -> name_of ns' k = name_of ns k) -> declaration ns' s = declaration ns s.
  Proof.
    intros P H. unfold declaration. f_equal. apply map_ext_in. intros [t|id] I; [reflexivity|]. cbn. rewrite H; [reflexivity|]. apply P. exact I.
  Qed.
  Lemma structs_name structs : forall ns s, NoDup (map s_id structs) -> In s structs -> s_opaque s = false -> Anonymous (name_of ns (s_id s)) -> Simple ns s ->
    Named (name_of (hash_structs structs ns) (s_id s)) (kind_of (name_of ns (s_id s)) ++ hash (declaration ns s)).
  Proof.
    induction structs as [|s0 structs IH]; intros ns s ND I O A P; [destruct I|]. cbn in ND. inversion ND as [|? ? NI ND']; subst.
    unfold Info_Model.hash_structs. cbn [fold_left]. change (fold_left rename structs ?x) with (hash_structs structs x).
    destruct I as [->|I].
    - rewrite structs_other by (right; exact NI). unfold Info_Model.rename. rewrite (proj2 (anonymous_spec _) A), O. cbn [andb negb].
      apply (set_name_same ns (s_id s) (new_name hash ns s)).
    - assert (N : s_id s <> s_id s0) by (intros E; apply NI; rewrite <- E; apply in_map; exact I).
      assert (E : name_of (rename ns s0) (s_id s) = name_of ns (s_id s)) by (apply rename_other; left; exact N).
      specialize (IH (rename ns s0) s ND' I O). rewrite E in IH.
      rewrite (declaration_same ns (rename ns s0) s P) in IH by (intros k K; apply rename_other; right; exact K).
      apply IH; [exact A|]. intros id J K. apply (P id J). apply rename_anonymous in K. exact K.
  Qed.
  (** All names stay different *)
  Lemma rename_distinct ns s : NoDup (dkeys ns) -> In (s_id s) (dkeys ns) -> NoDup (dvals ns) -> NoDup (dvals (rename ns s)) /\ dkeys (rename ns s) = dkeys ns.
  Proof.
    intros K I N. unfold Info_Model.rename. destruct (_ && _); [|auto]. unfold set_name. destruct (String.eqb _ _); [auto|].
    set (v := if mem (new_name hash ns s) (dvals ns) then fresh (dvals ns) (new_name hash ns s) else new_name hash ns s).
    assert (V : ~ In v (dvals ns)).
    { unfold v. destruct (mem (new_name hash ns s) (dvals ns)) eqn:M; [apply FR|]. intros J. apply mem_In in J. congruence. }
    split.
    - clear K I. revert V. generalize (s_id s) as id. generalize v. intros w id V. unfold dvals in *. induction ns as [|[k x] ns IH]; cbn in *.
      + constructor; [intros []|constructor].
      + inversion N as [|? ? NI N']; subst. destruct (Nat.eqb id k); cbn.
        * constructor; [intros J; apply V; right; exact J|exact N'].
        * constructor; [|apply IH; [exact N'|intros J; apply V; right; exact J]]. intros J. apply in_map_iff in J as ([k' x'] & E & J). cbn in E. subst x'.
          apply dset_In in J as [J|J]; [injection J as _ ->; apply V; left; reflexivity|]. apply NI. apply in_map_iff. exists (k', x). auto.
    - rewrite dkeys_dset. destruct (mem (s_id s) (dkeys ns)) eqn:M; [reflexivity|]. apply mem_In in I. congruence.
  Qed.
  Lemma structs_distinct structs : forall ns, NoDup (dkeys ns) -> (forall s, In s structs -> In (s_id s) (dkeys ns)) -> NoDup (dvals ns) ->
    NoDup (dvals (hash_structs structs ns)).
  Proof.
    induction structs as [|s structs IH]; intros ns K I N; [exact N|]. unfold Info_Model.hash_structs. cbn [fold_left]. change (fold_left rename structs ?x) with (hash_structs structs x).
    destruct (rename_distinct ns s K (I s (or_introl eq_refl)) N) as [N' K']. apply IH; rewrite ?K'; auto. intros s' J. apply I. right. exact J.
  Qed.

  (** ** Different declarations *)
  Lemma sapp_assoc (a b c : string) : ((a ++ b) ++ c = a ++ (b ++ c))%string.
  Proof. induction a as [|x a IH]; cbn; [reflexivity|rewrite IH; reflexivity]. Qed.
  Lemma sapp_inv (a b c : string) : (a ++ b = a ++ c -> b = c)%string.
  Proof. induction a as [|x a IH]; cbn; [auto|]. intros E. apply IH. congruence. Qed.
  Lemma has_char_app c a b : has_char c (a ++ b) = has_char c a || has_char c b.
  Proof. induction a as [|x a IH]; cbn; [reflexivity|]. rewrite IH, orb_assoc. reflexivity. Qed.
  Lemma kind_of_cases n : kind_of n = "union.anon."%string \/ kind_of n = "struct.anon."%string.
  Proof. unfold kind_of. destruct (startswith _ _); auto. Qed.
  Lemma kinds_differ (a b : string) : ("union.anon." ++ a <> "struct.anon." ++ b)%string.
  Proof. discriminate. Qed.
  Lemma named_inj n p q h h' : (p = "union.anon." \/ p = "struct.anon.")%string -> (q = "union.anon." \/ q = "struct.anon.")%string ->
    Dotless h -> Dotless h' -> Named n (p ++ h) -> Named n (q ++ h') -> p = q /\ h = h'.
  Proof.
    intros P Q D D' N N'.
    assert (S : exists r r', n = (p ++ (h ++ r))%string /\ n = (q ++ (h' ++ r'))%string /\ (r = "" \/ exists k, r = "." ++ k)%string /\ (r' = "" \/ exists k, r' = "." ++ k)%string).
    { assert (E0 : forall x : string, (x ++ "" = x)%string) by (induction x as [|c x IH]; cbn; [reflexivity|rewrite IH; reflexivity]).
      destruct N as [->|(k & ->)], N' as [E'|(k' & E')].
      - exists ""%string, ""%string. rewrite !E0. auto.
      - exists ""%string, ("." ++ k')%string. rewrite E0, E', sapp_assoc. repeat split; auto. right. eauto.
      - exists ("." ++ k)%string, ""%string. rewrite E0, sapp_assoc in *. repeat split; auto. right. eauto.
      - exists ("." ++ k)%string, ("." ++ k')%string. rewrite sapp_assoc in *. rewrite sapp_assoc in E'. repeat split; auto; right; eauto. }
    destruct S as (r & r' & E1 & E2 & R & R'). rewrite E1 in E2. assert (PQ : p = q).
    { destruct P as [->| ->], Q as [->| ->]; try reflexivity; discriminate E2. }
    split; [exact PQ|]. subst q. apply sapp_inv in E2. clear - D D' R R' E2. unfold Dotless in *. revert h' D' E2.
    induction h as [|c h IH]; intros [|c' h'] D' E; cbn in *; auto.
    - destruct R as [->|(k & ->)]; [discriminate E|]. injection E as <- E. discriminate D'.
    - destruct R' as [->|(k & ->)]; [discriminate E|]. injection E as -> E. discriminate D.
    - injection E as <- E. apply orb_false_iff in D as [_ D], D' as [_ D']. f_equal. apply IH; assumption.
  Qed.

  (** ** Exact names *)
  Definition base (ns : names) (s : struct) : string := (kind_of (name_of ns (s_id s)) ++ hash (declaration ns s))%string.
  Lemma set_name_vals ns id n x : In x (dvals (set_name fresh ns id n)) -> In x (dvals ns) \/ x = n \/ In n (dvals ns).
  Proof.
    unfold set_name. destruct (String.eqb n (name_of ns id)); [auto|]. destruct (mem n (dvals ns)) eqn:M.
    - intros _. right. right. apply mem_In. exact M.
    - intros I. unfold dvals in I. apply in_map_iff in I as ([k y] & E & I). cbn in E. subst y. apply dset_In in I as [I|I]; [injection I as _ ->; auto|].
      left. apply in_map_iff. exists (k, x). auto.
  Qed.
  Lemma structs_exact structs : forall ns s, NoDup (map s_id structs) ->
    (forall s', In s' structs -> s_opaque s' = false -> Anonymous (name_of ns (s_id s')) -> Simple ns s' /\ ~ In (base ns s') (dvals ns)) ->
    (forall a b, In a structs -> In b structs -> s_opaque a = false -> s_opaque b = false -> Anonymous (name_of ns (s_id a)) -> Anonymous (name_of ns (s_id b)) -> base ns a = base ns b -> a = b) ->
    In s structs -> s_opaque s = false -> Anonymous (name_of ns (s_id s)) ->
    name_of (hash_structs structs ns) (s_id s) = base ns s.
  Proof.
    induction structs as [|s0 structs IH]; intros ns s ND H1 H2 I O A; [destruct I|]. cbn in ND. inversion ND as [|? ? NI ND']; subst.
    unfold Info_Model.hash_structs. cbn [fold_left]. change (fold_left rename structs ?x) with (hash_structs structs x).
    destruct I as [->|I].
    - rewrite structs_other by (right; exact NI). unfold Info_Model.rename. rewrite (proj2 (anonymous_spec _) A), O. cbn [andb negb].
      destruct (H1 s (or_introl eq_refl) O A) as [_ F]. unfold set_name. change (new_name hash ns s) with (base ns s).
      destruct (String.eqb_spec (base ns s) (name_of ns (s_id s))) as [E|N]; [congruence|]. rewrite name_of_dset, Nat.eqb_refl.
      destruct (mem (base ns s) (dvals ns)) eqn:M; [apply mem_In in M; contradiction|reflexivity].
    - assert (E : forall s', In s' structs -> name_of (rename ns s0) (s_id s') = name_of ns (s_id s')).
      { intros s' J. apply rename_other. left. intros X. apply NI. rewrite <- X. apply in_map. exact J. }
      assert (B : forall s', In s' structs -> Simple ns s' -> base (rename ns s0) s' = base ns s').
      { intros s' J P. unfold base. rewrite (E s' J). f_equal. f_equal. apply declaration_same; [exact P|]. intros k K. apply rename_other. right. exact K. }
      assert (X : forall s', In s' structs -> s_opaque s' = false -> Anonymous (name_of ns (s_id s')) -> Simple ns s' /\ ~ In (base ns s') (dvals ns)) by (intros s' J; apply H1; right; exact J).
      rewrite (IH (rename ns s0) s ND').
      + apply B; [exact I|]. apply X; assumption.
      + intros s' J O' A'. rewrite (E s' J) in A'. destruct (X s' J O' A') as [P F]. split; [intros id K L; apply (P id K); apply rename_anonymous in L; exact L|].
        rewrite (B s' J P). unfold Info_Model.rename. destruct (anonymous (name_of ns (s_id s0)) && negb (s_opaque s0)) eqn:A0; [|exact F].
        apply andb_true_iff in A0 as [A0 O0]. apply anonymous_spec in A0. apply negb_true_iff in O0.
        destruct (H1 s0 (or_introl eq_refl) O0 A0) as [_ F0]. intros K. apply set_name_vals in K as [K|[K|K]]; [contradiction| |exact (F0 K)].
        assert (s' = s0) by (apply H2; [right; exact J|left; reflexivity|exact O'|exact O0|exact A'|exact A0|exact K]). subst s'. apply NI. apply in_map. exact J.
      + intros a b Ja Jb Oa Ob Aa Ab EB. rewrite (E a Ja) in Aa. rewrite (E b Jb) in Ab.
        destruct (X a Ja Oa Aa) as [Pa _], (X b Jb Ob Ab) as [Pb _]. rewrite (B a Ja Pa), (B b Jb Pb) in EB.
        apply H2; auto; right; assumption.
      + exact I.
      + exact O.
      + rewrite (E s I). exact A.
  Qed.
End Names.
