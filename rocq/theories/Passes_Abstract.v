(** Proofs about abstractions (for Passes_Props). *)
From Coq Require Import String Ascii ZArith Arith Bool Lia Permutation List.
From Verif Require Import PyBase Source_Model Source_Spec Source_Proofs Compare_Model Compare_Proofs Funcomp_Model Funcomp_Spec Passes_Model Passes_Spec Passes_Sim.
Import ListNotations.
Open Scope list_scope.
Open Scope nat_scope.

Lemma callee_some i g : callee_id i = Some g <-> exists ops, i_ops i = ops ++ [VConst (CGlobal g)].
Proof.
  unfold callee_id. split.
  - destruct (rev (i_ops i)) as [|v l] eqn:E; [discriminate|]. assert (Q : i_ops i = rev l ++ [v]) by (rewrite <- (rev_involutive (i_ops i)), E; reflexivity).
    destruct v as [| | |[]]; try discriminate. intros [= ->]. exists (rev l). exact Q.
  - intros (ops & ->). rewrite rev_app_distr. reflexivity.
Qed.
Lemma is_call_iff i : is_call i = true <-> i_code i = Call.
Proof. unfold is_call. destruct (i_code i); split; congruence. Qed.

Section Abs.
  Variable type_name : ftype -> string.
  Variable call_type : inst -> ftype.
  Variable assembly : string -> option (string * string).
  Variable known : string -> bool.
  Variable pointer : string.
  Notation hash := (fun_hash type_name call_type assembly).
  Notation asm := (asm_of assembly).
  Notation needs := (needs_abstraction known).
  Lemma needs_iff i : needs i = true <-> indirect known i.
  Proof.
    unfold needs_abstraction, indirect. rewrite andb_true_iff, is_call_iff. destruct (callee_id i) as [g|] eqn:E.
    - apply callee_some in E as E2. destruct E2 as [ops E2]. split; intros [A B]; (split; [exact A|]).
      + intros ops' g' Q. assert (callee_id i = Some g') by (apply callee_some; eauto). assert (g' = g) by congruence. subst g'. apply negb_true_iff. exact B.
      + apply negb_true_iff. apply (B ops). exact E2.
    - split; intros [A B]; (split; [exact A|]); [|reflexivity]. intros ops g Q. assert (callee_id i = Some g) by (apply callee_some; eauto). congruence.
  Qed.
  Lemma asm_iff i a : calls_asm assembly i a <-> asm i = a.
  Proof.
    unfold calls_asm, asm_of. destruct (callee_id i) as [g|] eqn:E.
    - apply callee_some in E as E2. destruct E2 as [ops E2]. split.
      + intros [(ops' & g' & Q & A & N)|[-> N]]; [|exact (N ops g E2)]. assert (callee_id i = Some g') by (apply callee_some; eauto). congruence.
      + intros A. destruct a as [a|]; [left; exists ops, g; split; [exact E2|split; [exact A|discriminate]]|]. right. split; [reflexivity|]. intros ops' g' Q. assert (callee_id i = Some g') by (apply callee_some; eauto). congruence.
    - split.
      + intros [(ops' & g' & Q & A & N)|[-> N]]; [|reflexivity]. assert (callee_id i = Some g') by (apply callee_some; eauto). congruence.
      + intros <-. right. split; [reflexivity|]. intros ops' g' Q. assert (callee_id i = Some g') by (apply callee_some; eauto). congruence.
  Qed.
  Lemma abstract_call_ok i f : i_code i = Call -> abstracted assembly f i (abstract_call assembly i f).
  Proof.
    intros C. unfold abstracted, abstract_call. cbn [i_reg i_code i_rest i_ops]. repeat (split; [reflexivity|]). destruct (asm i) as [a|] eqn:A.
    - right; left. apply asm_iff in A as A2. assert (Q : exists ops g, i_ops i = ops ++ [VConst (CGlobal g)]) by (destruct A2 as [(ops & g & Q & _)|[Q _]]; [eauto|discriminate]). destruct Q as (ops & g & Q).
      exists a, ops, (VConst (CGlobal g)). split; [exact A2|]. split; [exact Q|]. unfold call_args. rewrite Q, removelast_last. reflexivity.
    - destruct (i_ops i) as [|v0 l0] eqn:E; [right; right; split; reflexivity|left]. destruct (exists_last (l := i_ops i)) as (ops & v & Q); [rewrite E; discriminate|]. rewrite <- E. exists ops, v. split; [apply asm_iff; exact A|]. split; [exact Q|].
      rewrite Q, <- app_assoc. reflexivity.
  Qed.

  Definition decl (i : inst) (n : string) : gfun :=
    mkGfun n n (mkType (t_ret (call_type i)) (t_params (call_type i) ++ match asm i with Some _ => [] | None => [pointer] end) false) (asm i) None.
  Lemma str_app_inj p a b : (p ++ a)%string = (p ++ b)%string -> a = b.
  Proof. induction p as [|c p IH]; cbn; [auto|]. intros [= E]. apply IH. exact E. Qed.
  Lemma prefix_inj i j a b : (prefix_for assembly i ++ dec a)%string = (prefix_for assembly j ++ dec b)%string -> a = b.
  Proof.
    unfold prefix_for. destruct (asm i), (asm j); intros E; try (cbn in E; discriminate E); apply str_app_inj in E; apply dec_inj; exact E.
  Qed.
  Section Src.
    Variable src : inst -> Prop.
    Record good (s : astate) : Prop := mkGood {
      good_keys : NoDup (dkeys (a_map s));
      good_length : length (a_map s) = length (a_new s);
      good_entry : forall k h n, nth_error (a_map s) k = Some (h, n) ->
        exists j, src j /\ needs j = true /\ h = hash j /\ n = (prefix_for assembly j ++ dec k)%string /\ nth_error (a_new s) k = Some (decl j n) }.
    Definition ext (s s' : astate) : Prop := exists l, a_map s' = a_map s ++ l.
    Lemma ext_refl s : ext s s. Proof. exists []. rewrite app_nil_r. reflexivity. Qed.
    Lemma ext_trans a b c : ext a b -> ext b c -> ext a c.
    Proof. intros [l E] [k F]. exists (l ++ k). rewrite F, E, app_assoc. reflexivity. Qed.
    Lemma ext_get s s' h n : ext s s' -> dget (a_map s) h = Some n -> dget (a_map s') h = Some n.
    Proof. intros [l ->] E. revert E. induction (a_map s) as [|[k v] d IH]; [discriminate|]. cbn [app dget]. destruct (eqb h k); auto. Qed.
    Lemma dset_absent {V} (d : dict string V) k v : ~ In k (dkeys d) -> dset d k v = d ++ [(k, v)].
    Proof.
      induction d as [|[k' v'] d IH]; intros N; [reflexivity|]. cbn [dset app]. destruct (eqb_spec k k') as [->|E]; [exfalso; apply N; left; reflexivity|]. f_equal. apply IH. intros I. apply N. right. exact I.
    Qed.
    Definition abs (s : astate) (i : inst) : string := match dget (a_map s) (hash i) with Some n => n | None => ""%string end.
    Definition fin (s : astate) (i : inst) : inst := if needs i then abstract_call assembly i (abs s i) else i.
    Definition cov (s : astate) (i : inst) : Prop := needs i = true -> In (hash i) (dkeys (a_map s)).
    Lemma cov_ext s s' i : ext s s' -> cov s i -> cov s' i.
    Proof. intros [l E] C N. rewrite E. unfold dkeys. rewrite map_app. apply in_app_iff. left. apply C. exact N. Qed.
    Lemma inst_ok i s i' s1 : src i -> good s -> abstract_inst type_name call_type assembly known pointer i s = (i', s1) -> good s1 /\ ext s s1 /\ cov s1 i /\ forall s2, ext s1 s2 -> i' = fin s2 i.
    Proof.
      intros Q G E. unfold abstract_inst in E. unfold fin, cov. destruct (needs i) eqn:N; [|injection E as <- <-; split; [exact G|]; split; [apply ext_refl|]; split; [discriminate|reflexivity]].
      unfold abstraction in E. destruct (dget (a_map s) (hash i)) as [f|] eqn:D.
      - injection E as <- <-. split; [exact G|]. split; [apply ext_refl|]. split; [intros _; apply (dget_Some_key _ _ _ D)|]. intros s2 X. unfold abs. rewrite (ext_get _ _ _ _ X D). reflexivity.
      - cbv zeta in E. injection E as <- <-. apply dget_None in D as D2. set (name := (prefix_for assembly i ++ dec (length (a_new s)))%string).
        assert (A : ext s (mkA (dset (a_map s) (hash i) name) (a_new s ++ [decl i name]))) by (exists [(hash i, name)]; cbn [a_map]; apply dset_absent; exact D2).
        split; [|split; [exact A|split]].
        + constructor; cbn [a_map a_new].
          * apply dset_NoDup. apply good_keys. exact G.
          * rewrite dset_absent by exact D2. rewrite !app_length, (good_length s G). reflexivity.
          * intros k h n Z. rewrite dset_absent in Z by exact D2. destruct (Nat.lt_ge_cases k (length (a_map s))) as [L|L].
            -- rewrite nth_error_app1 in Z by exact L. destruct (good_entry s G k h n Z) as (j & J). exists j. rewrite nth_error_app1 by (rewrite <- (good_length s G); exact L). exact J.
            -- rewrite nth_error_app2 in Z by exact L. destruct (k - length (a_map s)) as [|x] eqn:K; [|destruct x; discriminate]. injection Z as <- <-. exists i.
               assert (k = length (a_new s)) by (rewrite <- (good_length s G); lia). subst k. rewrite nth_error_app2 by lia. rewrite Nat.sub_diag. cbn. tauto.
        + intros _. cbn [a_map]. apply dkeys_dset_In. left. reflexivity.
        + intros s2 X. unfold abs. rewrite (ext_get _ s2 (hash i) name X); [reflexivity|]. cbn [a_map]. apply dget_dset_same.
    Qed.
    Lemma all_ok {A} (Q : A -> Prop) (C : astate -> A -> Prop) (F : astate -> A -> A) (step : A -> astate -> A * astate) :
      (forall s s' x, ext s s' -> C s x -> C s' x) ->
      (forall x s y s1, Q x -> good s -> step x s = (y, s1) -> good s1 /\ ext s s1 /\ C s1 x /\ forall s2, ext s1 s2 -> y = F s2 x) ->
      forall l s ys s1, Forall Q l -> good s -> abstract_all step l s = (ys, s1) -> good s1 /\ ext s s1 /\ Forall (C s1) l /\ forall s2, ext s1 s2 -> ys = map (F s2) l.
    Proof.
      intros MC H. induction l as [|x l IH]; intros s ys s1 QL G E; cbn [abstract_all] in E.
      - injection E as <- <-. split; [exact G|]. split; [apply ext_refl|]. split; [constructor|reflexivity].
      - destruct (step x s) as [y sa] eqn:EX. destruct (abstract_all step l sa) as [zs sb] eqn:EL. injection E as <- <-. inversion QL as [|? ? Qx Ql]; subst.
        destruct (H _ _ _ _ Qx G EX) as (G1 & X1 & C1 & F1), (IH _ _ _ Ql G1 EL) as (G2 & X2 & C2 & F2). split; [exact G2|]. split; [apply (ext_trans _ sa); assumption|]. split.
        + constructor; [apply (MC _ _ _ X2 C1)|exact C2].
        + intros s2 X. cbn [map]. f_equal; [apply F1; apply (ext_trans _ sb); assumption|apply F2; exact X].
    Qed.
    Definition fin_block (s : astate) (kb : nat * list inst) : nat * list inst := (fst kb, map (fin s) (snd kb)).
    Lemma block_ok kb s kb' s1 : Forall src (snd kb) -> good s -> abstract_block type_name call_type assembly known pointer kb s = (kb', s1) ->
      good s1 /\ ext s s1 /\ Forall (cov s1) (snd kb) /\ forall s2, ext s1 s2 -> kb' = fin_block s2 kb.
    Proof.
      intros Q G E. unfold abstract_block in E. destruct (abstract_all _ (snd kb) s) as [l sa] eqn:EL. injection E as <- <-.
      destruct (all_ok src cov fin _ cov_ext inst_ok _ _ _ _ Q G EL) as (G1 & X1 & C1 & F1). split; [exact G1|]. split; [exact X1|]. split; [exact C1|]. intros s2 X. unfold fin_block. rewrite <- (F1 s2 X). reflexivity.
    Qed.
    Variable called : list string.
    Definition fin_fun (s : astate) (g : gfun) : gfun :=
      match g_body g with
      | Some f => if mem (g_id g) called then with_body (Some (mkFunc (f_sig f) (f_args f) (map (fin_block s) (f_blocks f)))) g else g
      | None => g
      end.
    Definition fun_src (g : gfun) : Prop := forall f i, g_body g = Some f -> In (g_id g) called -> In i (insts f) -> src i.
    Definition fun_cov (s : astate) (g : gfun) : Prop := forall f i, g_body g = Some f -> In (g_id g) called -> In i (insts f) -> cov s i.
    Lemma fun_ok g s g' s1 : fun_src g -> good s -> abstract_fun type_name call_type assembly known pointer called g s = (g', s1) ->
      good s1 /\ ext s s1 /\ fun_cov s1 g /\ forall s2, ext s1 s2 -> g' = fin_fun s2 g.
    Proof.
      intros Q G E. unfold abstract_fun in E. unfold fin_fun, fun_cov. destruct (g_body g) as [f|] eqn:B.
      - destruct (mem (g_id g) called) eqn:M.
        + destruct (abstract_all _ (f_blocks f) s) as [bs sa] eqn:EL. injection E as <- <-. apply mem_In in M.
          assert (SB : Forall (fun kb => Forall src (snd kb)) (f_blocks f)). { apply Forall_forall. intros kb I. apply Forall_forall. intros i J. apply (Q f i B M). unfold insts. apply in_flat_map. eauto. }
          destruct (all_ok (fun kb => Forall src (snd kb)) (fun s kb => Forall (cov s) (snd kb)) fin_block _ (fun s s' kb X => Forall_impl _ (fun i => cov_ext s s' i X) (l := snd kb)) block_ok _ _ _ _ SB G EL) as (G1 & X1 & C1 & F1).
          split; [exact G1|]. split; [exact X1|]. split.
          * intros f' i [= <-] _ I. unfold insts in I. apply in_flat_map in I. destruct I as (kb & Ik & Ii). rewrite Forall_forall in C1. specialize (C1 kb Ik). rewrite Forall_forall in C1. apply C1. exact Ii.
          * intros s2 X. rewrite <- (F1 s2 X). reflexivity.
        + injection E as <- <-. split; [exact G|]. split; [apply ext_refl|]. split; [|reflexivity]. intros f' i _ I. apply mem_In in I. congruence.
      - injection E as <- <-. split; [exact G|]. split; [apply ext_refl|]. split; [|reflexivity]. intros f' i [=].
    Qed.
    Lemma fun_cov_ext s s' g : ext s s' -> fun_cov s g -> fun_cov s' g.
    Proof. intros X C f i B M I. apply (cov_ext s s' i X). apply (C f i B M I). Qed.
  End Src.
  Lemma whole called m m' d : abstractions type_name call_type assembly known pointer called m = (m', d) ->
    exists s, good (occurs m called) s /\ m' = map (fin_fun called s) m ++ a_new s /\ forall i, occurs m called i -> cov s i.
  Proof.
    unfold abstractions. destruct (abstract_all _ m (mkA [] [])) as [m1 s] eqn:E. intros [= <- <-]. exists s.
    destruct (all_ok (occurs m called) (fun_src (occurs m called) called) (fun_cov called) (fin_fun called) _ (fun_cov_ext called) (fun_ok (occurs m called) called) m (mkA [] []) m1 s) as (G & X & C & F).
    - apply Forall_forall. intros g I f i B M J. exists g, f. tauto.
    - constructor; [constructor|reflexivity|]. intros k h n Z. destruct k; discriminate.
    - exact E.
    - split; [exact G|]. split; [rewrite (F s (ext_refl s)); reflexivity|]. intros i (g & f & I & M & B & J). rewrite Forall_forall in C. apply (C g I f i B M J).
  Qed.
  Lemma abs_get src s i : good src s -> cov s i -> needs i = true -> exists k j, nth_error (a_map s) k = Some (hash i, abs s i) /\ src j /\ needs j = true /\ hash j = hash i /\ abs s i = (prefix_for assembly j ++ dec k)%string /\ nth_error (a_new s) k = Some (decl j (abs s i)).
  Proof.
    intros G C N. destruct (dkeys_dget _ _ (C N)) as [n E]. unfold abs. rewrite E. apply dget_In in E. destruct (In_nth_error _ _ E) as [k K]. destruct (good_entry _ _ G k _ _ K) as (j & A & B & D & F & H). exists k, j. rewrite D at 1. repeat split; try assumption; congruence.
  Qed.
  Lemma abs_inj src s i j : good src s -> cov s i -> cov s j -> needs i = true -> needs j = true -> (abs s i = abs s j <-> hash i = hash j).
  Proof.
    intros G Ci Cj Ni Nj. split.
    - intros E. destruct (abs_get src s i G Ci Ni) as (k & x & K & _ & _ & _ & P & _), (abs_get src s j G Cj Nj) as (k' & x' & K' & _ & _ & _ & P' & _).
      assert (k = k') by (apply (prefix_inj x x'); congruence). subst k'. congruence.
    - intros E. unfold abs. rewrite E. reflexivity.
  Qed.
  Lemma dec_nonempty n : dec n <> ""%string.
  Proof. unfold dec. destruct (Nat.to_uint n); discriminate. Qed.
  Lemma decl_ok i k : declares call_type assembly pointer i (decl i (prefix_for assembly i ++ dec k)).
  Proof.
    exists (asm i). split; [apply asm_iff; reflexivity|]. unfold decl. cbn. repeat (split; [reflexivity|]). exists (dec k). split; [unfold prefix_for; destruct (asm i); reflexivity|apply dec_nonempty].
  Qed.
  Lemma fin_func src s f : good src s -> abstracted_func assembly known (abs s) f (mkFunc (f_sig f) (f_args f) (map (fin_block s) (f_blocks f))).
  Proof.
    intros G. split; [reflexivity|]. split; [reflexivity|]. cbn [f_blocks]. induction (f_blocks f) as [|[k l] bs IH]; [constructor|]. cbn [map]. constructor; [|exact IH]. split; [reflexivity|]. cbn [snd fin_block].
    induction l as [|i l IHl]; [constructor|]. cbn [map]. constructor; [|exact IHl]. unfold fin. destruct (needs i) eqn:N.
    - apply needs_iff in N. left. split; [exact N|]. apply abstract_call_ok. apply N.
    - right. split; [|reflexivity]. intros Q. apply needs_iff in Q. congruence.
  Qed.
  (** ** Hashes *)
  Lemma app_dollar a b a' b' : no_dollar a -> no_dollar a' -> (a ++ "$" ++ b)%string = (a' ++ "$" ++ b')%string -> a = a' /\ b = b'.
  Proof.
    revert a'. induction a as [|c a IH]; intros [|c' a'] N N' E; cbn in E.
    - injection E as ->. split; reflexivity.
    - injection E as <- E. exfalso. apply (N' ""%string a'). reflexivity.
    - injection E as -> E. exfalso. apply (N ""%string a). reflexivity.
    - injection E as -> E. destruct (IH a') as [-> ->]; [intros x y Q; apply (N (String c' x) y); cbn; rewrite Q; reflexivity|intros x y Q; apply (N' (String c' x) y); cbn; rewrite Q; reflexivity|exact E|]. split; reflexivity.
  Qed.
  Lemma app_dollar_r a b a' b' : no_dollar b -> no_dollar b' -> (a ++ "$" ++ b)%string = (a' ++ "$" ++ b')%string -> a = a' /\ b = b'.
  Proof.
    revert a'. induction a as [|c a IH]; intros [|c' a'] N N' E; cbn in E.
    - injection E as ->. split; reflexivity.
    - injection E as <- E. exfalso. apply (N a' b'). exact E.
    - injection E as -> E. exfalso. apply (N' a b). symmetry. exact E.
    - injection E as -> E. destruct (IH a' N N' E) as [-> ->]. split; reflexivity.
  Qed.
  Lemma hash_iff i j : plain_types call_type assembly type_name -> (hash i = hash j <-> same_call call_type assembly i j).
  Proof.
    intros (INJ & ND & NK). unfold fun_hash, same_call. split.
    - intros E. assert (Q : call_type i = call_type j /\ asm i = asm j).
      { destruct (asm i) as [[c k]|] eqn:A, (asm j) as [[c' k']|] eqn:B.
        - destruct (app_dollar _ _ _ _ (ND _) (ND _) E) as [E1 E2].
          assert (K1 : no_dollar k) by (unfold asm_of in A; destruct (callee_id i); [apply (NK _ _ _ A)|discriminate]). assert (K2 : no_dollar k') by (unfold asm_of in B; destruct (callee_id j); [apply (NK _ _ _ B)|discriminate]).
          destruct (app_dollar_r _ _ _ _ K1 K2 E2) as [-> ->]. split; [apply INJ; exact E1|reflexivity].
        - exfalso. apply (ND j (type_name (call_type i)) (c ++ "$" ++ k)%string). symmetry. exact E.
        - exfalso. apply (ND i (type_name (call_type j)) (c' ++ "$" ++ k')%string). exact E.
        - split; [apply INJ; exact E|reflexivity]. }
      destruct Q as [Q1 Q2]. split; [exact Q1|]. intros a. rewrite !asm_iff, Q2. reflexivity.
    - intros [E Q]. assert (A : asm i = asm j) by (symmetry; apply asm_iff, Q, asm_iff; reflexivity). rewrite A, E. reflexivity.
  Qed.
End Abs.
