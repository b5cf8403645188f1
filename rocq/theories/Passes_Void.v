(** Proofs about unused results (for Passes_Props). *)
From Coq Require Import String Ascii ZArith Arith Bool Lia Permutation List.
From Verif Require Import PyBase Source_Model Source_Spec Source_Proofs Funcomp_Model Funcomp_Spec Passes_Model Passes_Spec Passes_Sim Passes_Merge Passes_Runs Passes_Abstract.
Import ListNotations.
Open Scope list_scope.
Open Scope nat_scope.

Lemma users_nil f v : users f v = [] <-> forall u, In u (insts f) -> ~ In v (i_ops u).
Proof.
  unfold users. split.
  - intros E u I J. assert (In u []) as []. rewrite <- E. apply filter_In. split; [exact I|apply mem_In; exact J].
  - intros H. induction (insts f) as [|u l IH]; [reflexivity|]. cbn. destruct (mem v (i_ops u)) eqn:M; [apply mem_In in M; exfalso; apply (H u); [left; reflexivity|exact M]|]. apply IH. intros w I. apply H. right. exact I.
Qed.
Lemma unused_call_iff id f i : unused_call id f i = true <-> calls_function id i /\ unused f i.
Proof.
  unfold unused_call, calls_function, unused. rewrite !andb_true_iff, is_call_iff. split.
  - intros [[C E] U]. destruct (opt_eqb_spec (callee_id i) (Some id)) as [Q|Q]; [|discriminate]. apply callee_some in Q. split; [tauto|]. apply users_nil. destruct (users f (VReg (i_reg i))); [reflexivity|discriminate].
  - intros [[C Q] U]. apply callee_some in Q. apply users_nil in U. rewrite U. split; [split; [exact C|]|reflexivity]. destruct (opt_eqb_spec (callee_id i) (Some id)); [reflexivity|contradiction].
Qed.
Lemma body_set_name u x n m id : body_of (set_name u x n m) id = body_of m id.
Proof. unfold set_name. cbv zeta. match goal with |- context [with_name ?w] => generalize w end. intros w. induction m as [|g m IH]; [reflexivity|]. cbn [map body_of]. destruct (String.eqb (g_id g) x); cbn [with_name g_id g_body]; destruct (String.eqb (g_id g) id); auto. Qed.
Lemma ids_set_name u x n m : map g_id (set_name u x n m) = map g_id m.
Proof. unfold set_name. cbv zeta. rewrite map_map. apply map_ext. intros g. destruct (String.eqb (g_id g) x); reflexivity. Qed.
Lemma body_app m m' id : body_of (m ++ m') id = if mem id (map g_id m) then body_of m id else body_of m' id.
Proof.
  induction m as [|g m IH]; [reflexivity|]. cbn [app body_of map]. change (mem id (g_id g :: map g_id m)) with (String.eqb id (g_id g) || mem id (map g_id m)). rewrite (String.eqb_sym id). destruct (String.eqb (g_id g) id); [reflexivity|exact IH].
Qed.
Lemma block_insts f b i : In i (block f b) -> In i (insts f).
Proof. unfold block. destruct (dget (f_blocks f) b) as [l|] eqn:E; [|contradiction]. apply dget_In in E. intros I. unfold insts. apply in_flat_map. exists (b, l). tauto. Qed.

Lemma code_eq_ret c : c = Ret \/ c <> Ret.
Proof. destruct c; (left; reflexivity) || (right; discriminate). Qed.

(** ** One function *)
Section Step.
  Variables (S : semantics) (consts : const -> V S) (target : V S -> option string) (void_rest : string -> string).
  Variables (fresh : list string -> string -> string) (clean : string -> M S -> Prop).
  Hypothesis N : nothing_new S consts target void_rest fresh clean.
  Variables (u : list string -> string -> string) (m : gmodule) (id : string) (g : gfun).
  Hypothesis ids : NoDup (map g_id m).
  Hypothesis Hg : by_id m id = Some g.
  Hypothesis some : existsb (fun h => match g_body h with Some f => existsb (unused_call id f) (insts f) | None => false end) m = true.
  Hypothesis stray : no_stray fresh m.
  Notation m' := (make_void u void_rest fresh m id).
  Notation vid := (fresh (map g_id m) id).
  Definition old (v : V S) : Prop := target v <> Some vid.
  Definition RV (v v' : V S) : Prop := v = v' /\ old v.
  Definition RM (a b : M S) : Prop := a = b /\ clean vid a.
  Lemma vid_new : ~ In vid (map g_id m). Proof. apply (new_fresh _ _ _ _ _ _ N). Qed.
  Lemma g_in : In g m /\ g_id g = id.
  Proof. unfold by_id in Hg. apply find_some in Hg. destruct Hg as [I E]. apply String.eqb_eq in E. tauto. Qed.
  Lemma id_vid : id <> vid.
  Proof. intros E. apply vid_new. rewrite <- E. destruct g_in as [I <-]. apply in_map. exact I. Qed.
  Lemma ids_first : map g_id (map (fun h => if String.eqb (g_id h) id then h else with_body (option_map (void_calls void_rest id vid) (g_body h)) h) m) = map g_id m.
  Proof. rewrite map_map. apply map_ext. intros h. destruct (String.eqb (g_id h) id); reflexivity. Qed.
  Lemma m'_ids : map g_id m' = map g_id m ++ [vid].
  Proof. unfold make_void. rewrite Hg, some. cbv zeta. rewrite ids_set_name, map_app, ids_set_name, ids_first. reflexivity. Qed.
  Lemma body_id : body_of m id = g_body g.
  Proof. destruct g_in as [I <-]. apply body_of_id; assumption. Qed.
  Lemma m'_body x : body_of m' x = if String.eqb x vid then option_map (fun f => map_insts void_ret (void_calls void_rest id vid f)) (body_of m id)
    else if String.eqb x id then body_of m id else option_map (void_calls void_rest id vid) (body_of m x).
  Proof.
    unfold make_void. rewrite Hg, some. cbv zeta. rewrite body_set_name, body_app, ids_set_name, ids_first. destruct (String.eqb_spec x vid) as [->|E].
    - destruct (mem vid (map g_id m)) eqn:Q; [apply mem_In in Q; exfalso; exact (vid_new Q)|]. cbn [body_of g_id g_body]. rewrite String.eqb_refl, body_id. reflexivity.
    - rewrite body_set_name. assert (A : forall l, body_of (map (fun h => if String.eqb (g_id h) id then h else with_body (option_map (void_calls void_rest id vid) (g_body h)) h) l) x =
        if String.eqb x id then body_of l id else option_map (void_calls void_rest id vid) (body_of l x)).
      { induction l as [|h l IH]; [destruct (String.eqb x id); reflexivity|]. cbn [map body_of]. destruct (String.eqb_spec (g_id h) id) as [Q|Q].
        - rewrite IH. destruct (String.eqb_spec (g_id h) x) as [W|W]; [rewrite <- W, Q, String.eqb_refl; reflexivity|]. destruct (String.eqb_spec x id) as [Z|Z]; [congruence|reflexivity].
        - cbn [with_body g_id g_body]. destruct (String.eqb_spec (g_id h) x) as [W|W]; [rewrite <- W; rewrite (proj2 (String.eqb_neq _ _) Q); reflexivity|]. exact IH. }
      destruct (mem x (map g_id m)) eqn:Q; [apply A|]. cbn [body_of g_id]. rewrite (proj2 (String.eqb_neq _ _) (not_eq_sym E)).
      assert (X : body_of m x = None) by (apply body_of_none; intros h I W; assert (mem x (map g_id m) = true) by (apply mem_In; rewrite <- W; apply in_map; exact I); congruence).
      destruct (String.eqb_spec x id) as [->|W]; [exact (eq_sym X)|rewrite X; reflexivity].
  Qed.
  Lemma vid_none : body_of m vid = None.
  Proof. apply body_of_none. intros h I E. apply vid_new. rewrite <- E. apply in_map. exact I. Qed.

  (** The two modules in the calls of a function. *)
  Section Calls.
    Variable n : nat.
    Notation e1 := (exec_in S consts target m n).
    Notation e2 := (exec_in S consts target m' n).
    Hypothesis A : forall c rest vs mem, (forall v, In v vs -> old v) -> clean vid mem -> e2 c rest vs mem = e1 c rest vs mem /\ forall v mem', e1 c rest vs mem = Some (v, mem') -> old v /\ clean vid mem'.
    Hypothesis B : forall rest vs mem, (forall v, In v vs -> old v) -> clean vid mem ->
      option_map snd (e2 Call (void_rest rest) (vs ++ [consts (CGlobal vid)]) mem) = option_map snd (e1 Call rest (vs ++ [consts (CGlobal id)]) mem).
    Variable f : func.
    Hypothesis Hf : forall i, In i (insts f) -> ~ In (VConst (CGlobal vid)) (i_ops i).
    Variable args : nat -> V S.
    Hypothesis Hargs : forall k, old (args k).
    (** [keep]: nothing is replaced.  [drop]: nothing is returned. *)
    Variables keep drop : bool.
    Definition dead (r : nat) : bool := negb keep && existsb (fun i => unused_call id f i && Nat.eqb (i_reg i) r) (insts f).
    Definition RR (a b : list (V S)) : Prop := if drop then b = [] else a = b /\ forall v, In v a -> old v.
    Definition change (i : inst) : inst :=
      let j := if keep then i else if unused_call id f i then void_call void_rest vid i else i in if drop then void_ret j else j.
    Notation S1 := (sem_with S e1). Notation S2 := (sem_with S e2).
    Lemma eval_old env env' v : (forall r, dead r = false -> RV (env r) (env' r)) -> (exists i, In i (insts f) /\ In v (i_ops i)) -> RV (eval S1 consts args env v) (eval S2 consts args env' v).
    Proof.
      intros E (i & I & J). destruct v as [k|r|b|c]; cbn.
      - split; [reflexivity|apply Hargs].
      - apply E. unfold dead. destruct keep; [reflexivity|]. cbn [negb andb]. destruct (existsb _ (insts f)) eqn:Q; [|reflexivity]. apply existsb_exists in Q. destruct Q as (w & _ & Q). apply andb_true_iff in Q. destruct Q as [Q1 Q2].
        apply Nat.eqb_eq in Q2. subst r. apply unused_call_iff in Q1. exfalso. exact (proj2 Q1 i I J).
      - split; [reflexivity|]. unfold old. rewrite (new_undef _ _ _ _ _ _ N). discriminate.
      - split; [reflexivity|]. unfold old. destruct c as [z|x]; [rewrite (new_int _ _ _ _ _ _ N); discriminate|]. rewrite (new_address _ _ _ _ _ _ N). intros [= ->]. exact (Hf i I J).
    Qed.
    Lemma evals_old env env' i ops : (forall r, dead r = false -> RV (env r) (env' r)) -> In i (insts f) -> incl ops (i_ops i) ->
      map (eval S2 consts args env') ops = map (eval S1 consts args env) ops /\ forall v, In v (map (eval S1 consts args env) ops) -> old v.
    Proof.
      intros E I J. induction ops as [|v ops IH]; [split; [reflexivity|intros v []]|]. destruct IH as [IH1 IH2]; [intros w W; apply J; right; exact W|].
      destruct (eval_old env env' v E) as [Q1 Q2]; [exists i; split; [exact I|apply J; left; reflexivity]|]. split; [cbn [map]; rewrite IH1, Q1; reflexivity|]. intros w [<-|W]; [exact Q2|apply IH2; exact W].
    Qed.
    Lemma change_code i : i_code (change i) = i_code i.
    Proof.
      unfold change, void_ret. destruct keep; [destruct drop; [destruct (i_code i) eqn:C; cbn; congruence|reflexivity]|]. destruct (unused_call id f i) eqn:U.
      - apply unused_call_iff in U. destruct U as [[U _] _]. destruct drop; cbn; congruence.
      - destruct drop; [destruct (i_code i) eqn:C; cbn; congruence|reflexivity].
    Qed.
    Lemma change_reg i : i_reg (change i) = i_reg i.
    Proof. unfold change, void_ret. destruct keep; [|destruct (unused_call id f i)]; (destruct drop; [|reflexivity]); try (destruct (i_code i); reflexivity); reflexivity. Qed.
    Lemma change_other i : unused_call id f i = false \/ keep = true -> i_code i <> Ret -> change i = i.
    Proof. intros U R. unfold change, void_ret. destruct keep; [|destruct U as [->|?]; [|discriminate]]; (destruct drop; [destruct (i_code i) eqn:C; congruence|reflexivity]). Qed.
    Lemma pairs (x y : option (V S * M S)) r : dead r = true -> option_map snd y = option_map snd x -> (forall v k, x = Some (v, k) -> old v /\ clean vid k) ->
      match x, y with Some (v, k), Some (v', k') => (dead r = false -> RV v v') /\ RM k k' | None, None => True | _, _ => False end.
    Proof.
      intros D E H. destruct x as [[v k]|], y as [[v' k']|]; cbn in E; try discriminate E; [|exact I]. injection E as E. split; [rewrite D; discriminate|]. split; [symmetry; exact E|]. apply (H v k eq_refl).
    Qed.
    Lemma change_matches i : In i (insts f) -> matches S1 S2 consts consts args args RV RM RR dead i (change i).
    Proof.
      intros I. constructor.
      - symmetry. apply change_reg.
      - unfold is_debug. rewrite change_code. reflexivity.
      - unfold is_phi. rewrite change_code. reflexivity.
      - unfold is_terminator. rewrite change_code. reflexivity.
      - intros P. rewrite change_other; [| |intros R; unfold is_phi in P; rewrite R in P; discriminate].
        + unfold incoming. destruct (i_code i) eqn:C; try (constructor; fail). assert (H : incl (i_ops i) (i_ops i)) by apply incl_refl. revert from C P H. generalize (i_ops i) at 1 3 4. induction l as [|v l IH]; intros [|b from] C P H; try (constructor; fail).
          cbn [combine]. constructor; [|clear P C; revert H; clear -IH I Hargs N Hf A B; intros H].
          * split; [reflexivity|]. intros e e' E. cbn [fst]. apply eval_old; [exact E|]. exists i. split; [exact I|apply H; left; reflexivity].
          * assert (IH2 : forall from, incl l (i_ops i) -> Forall2 (fun a b0 : value * nat => snd a = snd b0 /\ (forall e e', erel S1 S2 RV dead e e' -> RV (eval S1 consts args e (fst a)) (eval S2 consts args e' (fst b0)))) (combine l from) (combine l from)).
            { clear IH H. induction l as [|w l IH]; intros [|c fr] H; try (constructor; fail). cbn [combine]. constructor; [|apply IH; intros y Y; apply H; right; exact Y]. split; [reflexivity|]. intros e e' E. cbn [fst]. apply eval_old; [exact E|]. exists i. split; [exact I|apply H; left; reflexivity]. }
            apply IH2. intros y Y. apply H. right. exact Y.
        + left. apply not_true_iff_false. intros U. apply unused_call_iff in U. destruct U as [[U _] _]. unfold is_phi in P. rewrite U in P. discriminate.
      - intros D P T e e' a a' E [<- Q].
        destruct (evals_old e e' i (i_ops i) E I (incl_refl _)) as [E1 E2].
        destruct (negb keep && unused_call id f i) eqn:U.
        + apply andb_true_iff in U. destruct U as [K U]. apply negb_true_iff in K. apply unused_call_iff in U as W. destruct W as [[C (ops & O)] UU].
          assert (CH : change i = mkInst (i_reg i) Call (void_rest (i_rest i)) (ops ++ [VConst (CGlobal vid)])).
          { unfold change. rewrite K, U. unfold void_call, call_args. rewrite O, removelast_last. destruct drop; reflexivity. }
          rewrite CH. cbn [i_code i_rest i_ops i_reg]. rewrite C. cbn [plain exec sem_with]. rewrite O. rewrite !map_app. cbn [map eval].
          destruct (evals_old e e' i ops E I) as [F1 F2]; [rewrite O; intros y Y; apply in_app_iff; left; exact Y|]. rewrite F1.
          pose proof (B (i_rest i) (map (eval S1 consts args e) ops) a F2 Q) as BB.
          assert (LA : forall v, In v (map (eval S1 consts args e) ops ++ [consts (CGlobal id)]) -> old v).
          { intros v V. apply in_app_iff in V. destruct V as [V|[<-|[]]]; [apply F2; exact V|]. unfold old. rewrite (new_address _ _ _ _ _ _ N). intros [= ZZ]. exact (id_vid ZZ). }
          destruct (A Call (i_rest i) _ a LA Q) as [_ A2].
          refine (pairs _ _ (i_reg i) _ BB A2). unfold dead. rewrite K. cbn [negb andb].
          apply existsb_exists. exists i. split; [exact I|]. rewrite U, Nat.eqb_refl. reflexivity.
        + rewrite change_other.
          * cbn [exec sem_with]. rewrite E1. destruct (A (plain (i_code i)) (i_rest i) _ a E2 Q) as [A1 A2]. rewrite A1. destruct (e1 _ _ _ a) as [[v x]|]; [|exact Logic.I]. destruct (A2 v x eq_refl). split; [intros _; split; [reflexivity|assumption]|split; [reflexivity|assumption]].
          * destruct keep; [right; reflexivity|left; exact U].
          * intros R. unfold is_terminator in T. rewrite R in T. discriminate.
      - intros T e e' E. rewrite change_code. destruct (evals_old e e' i (i_ops i) E I (incl_refl _)) as [E1 E2].
        assert (U : unused_call id f i = false) by (apply not_true_iff_false; intros U; apply unused_call_iff in U; destruct U as [[U _] _]; unfold is_terminator in T; rewrite U in T; discriminate).
        destruct (code_eq_ret (i_code i)) as [R|R].
        + left. split; [exact R|]. split; [exact R|]. unfold RR, change, void_ret. rewrite U. destruct keep; (destruct drop; [rewrite R; reflexivity|split; [symmetry; exact E1|exact E2]]).
        + right. split; [exact R|]. split; [exact R|]. rewrite change_other by (try assumption; left; exact U). rewrite E1. split; reflexivity.
    Qed.
    Lemma change_runs k mem : clean vid mem -> outcomes RR RM (result S1 consts args f k mem) (result S2 consts args (map_insts change f) k mem).
    Proof.
      intros Q. apply (result_match S1 S2 consts consts args args RV RM RR dead).
      - unfold map_insts. cbn [f_blocks]. assert (H : forall kb i, In kb (f_blocks f) -> In i (snd kb) -> In i (insts f)) by (intros kb i X Y; unfold insts; apply in_flat_map; eauto).
        revert H. generalize (f_blocks f). intros bs H. assert (K : forall l, (forall i, In i l -> In i (insts f)) -> Forall2 (matches S1 S2 consts consts args args RV RM RR dead) l (map change l)).
        { induction l as [|i l IH]; intros HL; [constructor|]. cbn [map]. constructor; [apply change_matches; apply HL; left; reflexivity|apply IH; intros j J; apply HL; right; exact J]. }
        induction bs as [|kb bs IH]; [constructor|]. cbn [map]. constructor; [|apply IH; intros kb' i X Y; apply (H kb'); [right; exact X|exact Y]]. split; [reflexivity|]. cbn [snd]. apply K. intros i X. apply (H kb); [left; reflexivity|exact X].
      - split; [reflexivity|]. change (target (undef S) <> Some vid). rewrite (new_undef _ _ _ _ _ _ N). discriminate.
      - split; [reflexivity|exact Q].
    Qed.
  End Calls.

  Lemma map_insts_id f : map_insts (fun i => i) f = f.
  Proof. unfold map_insts. destruct f as [sg ar bs]. cbn. f_equal. induction bs as [|[k l] bs IH]; [reflexivity|]. cbn. rewrite map_id, IH. reflexivity. Qed.
  Lemma map_insts_map h k f : map_insts h (map_insts k f) = map_insts (fun i => h (k i)) f.
  Proof. unfold map_insts. cbn. f_equal. rewrite map_map. apply map_ext. intros [a l]. cbn. rewrite map_map. reflexivity. Qed.
  Lemma no_vid x f : body_of m x = Some f -> forall i, In i (insts f) -> ~ In (VConst (CGlobal vid)) (i_ops i).
  Proof. intros E i I J. apply body_of_in in E as (h & Ih & _ & Eh). apply vid_new. apply (stray _ _ h f i); assumption. Qed.
  Lemma nth_old (vs : list (V S)) k : (forall v, In v vs -> old v) -> old (nth k (removelast vs) (undef S)).
  Proof.
    intros H. destruct (nth_in_or_default k (removelast vs) (undef S)) as [I| ->].
    - apply H. clear -I. revert I. generalize (nth k (removelast vs) (undef S)). intros v. induction vs as [|x [|y l] IH]; [intros []|intros []|]. intros [<-|I]; [left; reflexivity|right; apply IH; exact I].
    - unfold old. rewrite (new_undef _ _ _ _ _ _ N). discriminate.
  Qed.
  Lemma last_old (vs : list (V S)) : (forall v, In v vs -> old v) -> old (last vs (undef S)).
  Proof.
    intros H. destruct vs as [|v vs]; [unfold old; cbn [last]; rewrite (new_undef _ _ _ _ _ _ N); discriminate|]. apply H. clear. revert v. induction vs as [|w vs IH]; intros v; [left; reflexivity|]. right. apply IH.
  Qed.
  Lemma step_exec n :
    (forall c rest vs mem, (forall v, In v vs -> old v) -> clean vid mem -> exec_in S consts target m' n c rest vs mem = exec_in S consts target m n c rest vs mem /\
       forall v mem', exec_in S consts target m n c rest vs mem = Some (v, mem') -> old v /\ clean vid mem') /\
    (forall rest vs mem, (forall v, In v vs -> old v) -> clean vid mem ->
       option_map snd (exec_in S consts target m' n Call (void_rest rest) (vs ++ [consts (CGlobal vid)]) mem) = option_map snd (exec_in S consts target m n Call rest (vs ++ [consts (CGlobal id)]) mem)).
  Proof.
    induction n as [|n [IA IB]].
    - split.
      + intros c rest vs mem H Q. assert (X : forall v mem', exec S c rest vs mem = Some (v, mem') -> old v /\ clean vid mem') by (intros v mem' E; apply (new_exec _ _ _ _ _ _ N vid _ _ c rest vs mem v mem' eq_refl H Q E)).
        destruct c; try (split; [reflexivity|exact X]). cbn [exec_in].
        destruct (target (last vs (undef S))) as [x|] eqn:T; [|split; [reflexivity|exact X]].
        assert (NV : x <> vid) by (intros ->; apply (last_old vs H); exact T).
        rewrite m'_body. rewrite (proj2 (String.eqb_neq _ _) NV). destruct (String.eqb_spec x id) as [->|_]; [|]; destruct (body_of m _); cbn [option_map]; split; try reflexivity; try exact X; intros; discriminate.
      + intros rest vs mem H Q. cbn [exec_in]. rewrite !last_last, !(new_address _ _ _ _ _ _ N), m'_body, String.eqb_refl. destruct (body_of m id); cbn [option_map]; [reflexivity|]. apply (new_void _ _ _ _ _ _ N).
    - split.
      + intros c rest vs mem H Q. assert (X : forall v mem', exec S c rest vs mem = Some (v, mem') -> old v /\ clean vid mem') by (intros v mem' E; apply (new_exec _ _ _ _ _ _ N vid _ _ c rest vs mem v mem' eq_refl H Q E)).
        destruct c; try (split; [reflexivity|exact X]). cbn [exec_in].
        destruct (target (last vs (undef S))) as [x|] eqn:T; [|split; [reflexivity|exact X]].
        assert (NV : x <> vid) by (intros ->; apply (last_old vs H); exact T).
        rewrite m'_body, (proj2 (String.eqb_neq _ _) NV).
        destruct (body_of m x) as [f|] eqn:Bx.
        2:{ destruct (String.eqb_spec x id) as [->|_]; [rewrite Bx|]; cbn [option_map]; (split; [reflexivity|exact X]). }
        pose (keep := String.eqb x id).
        assert (Y : (if String.eqb x id then body_of m id else option_map (void_calls void_rest id vid) (Some f)) = Some (map_insts (change f keep false) f)).
        { unfold keep. destruct (String.eqb_spec x id) as [->|_]; [rewrite Bx; f_equal; symmetry; apply map_insts_id|reflexivity]. }
        rewrite Y. pose proof (change_runs n IA IB f (no_vid x f Bx) (fun k => nth k (removelast vs) (undef S)) (fun k => nth_old vs k H) keep false n mem Q) as Z.
        destruct (result (sem_with S (exec_in S consts target m n)) consts _ f n mem) as [rs a| |a], (result (sem_with S (exec_in S consts target m' n)) consts _ _ n mem) as [rs' a'| |a']; cbn in Z; try contradiction; try (split; [reflexivity|intros; discriminate]).
        destruct Z as [[Z0 ZF] [Z1 Z2]]. unfold RM in *. subst a'. rewrite <- Z0. split; [reflexivity|]. intros v mem' [= <- <-]. split; [|exact Z2].
        destruct rs as [|r rs]; cbn [hd]; [unfold old; rewrite (new_undef _ _ _ _ _ _ N); discriminate|]. apply ZF. left. reflexivity.
      + intros rest vs mem H Q. cbn [exec_in]. rewrite !last_last, !(new_address _ _ _ _ _ _ N), m'_body, String.eqb_refl, !removelast_last.
        destruct (body_of m id) as [f|] eqn:Bx; cbn [option_map]; [|apply (new_void _ _ _ _ _ _ N)].
        assert (Ha : forall k, old (nth k vs (undef S))).
        { intros k. destruct (nth_in_or_default k vs (undef S)) as [I| ->]; [apply H; exact I|]. unfold old. rewrite (new_undef _ _ _ _ _ _ N). discriminate. }
        pose proof (change_runs n IA IB f (no_vid id f Bx) (fun k => nth k vs (undef S)) Ha false true n mem Q) as Z.
        replace (map_insts void_ret (void_calls void_rest id vid f)) with (map_insts (change f false true) f) by (unfold void_calls; rewrite map_insts_map; reflexivity).
        destruct (result (sem_with S (exec_in S consts target m n)) consts _ f n mem) as [rs a| |a], (result (sem_with S (exec_in S consts target m' n)) consts _ _ n mem) as [rs' a'| |a']; cbn in Z; try contradiction; try reflexivity.
        destruct Z as [_ [Z1 _]]. cbn. congruence.
  Qed.
  Lemma step_does n x args mem : In x (map g_id m) -> (forall k, old (args k)) -> clean vid mem -> does S consts target m' n x args mem = does S consts target m n x args mem.
  Proof.
    intros I Ha Q. assert (NV : x <> vid) by (intros ->; exact (vid_new I)). unfold does. rewrite m'_body, (proj2 (String.eqb_neq _ _) NV).
    destruct (body_of m x) as [f|] eqn:Bx; [|destruct (String.eqb_spec x id) as [->|_]; [rewrite Bx|]; reflexivity].
    pose (keep := String.eqb x id).
    assert (Y : (if String.eqb x id then body_of m id else option_map (void_calls void_rest id vid) (Some f)) = Some (map_insts (change f keep false) f)).
    { unfold keep. destruct (String.eqb_spec x id) as [->|_]; [rewrite Bx; f_equal; symmetry; apply map_insts_id|reflexivity]. }
    rewrite Y. f_equal. destruct (step_exec n) as [IA IB]. pose proof (change_runs n IA IB f (no_vid x f Bx) args Ha keep false n mem Q) as Z.
    destruct (result (sem_with S (exec_in S consts target m n)) consts _ f n mem) as [rs a| |a], (result (sem_with S (exec_in S consts target m' n)) consts _ _ n mem) as [rs' a'| |a']; cbn in Z; try contradiction; [|reflexivity|].
    - destruct Z as [[Z0 _] [Z1 _]]. rewrite Z0, Z1. reflexivity.
    - destruct Z as [Z1 _]. rewrite Z1. reflexivity.
  Qed.
End Step.

(** ** The whole pass *)
Lemma NoDup_app_remove_l_in {A} (l l' : list A) x : NoDup (l ++ l') -> In x l -> ~ In x l'.
Proof. intros N I J. apply in_split in I as (a & b & ->). rewrite <- app_assoc in N. cbn [app] in N. apply NoDup_remove_2 in N. apply N. apply in_or_app. right. apply in_or_app. right. exact J. Qed.
Lemma starts_iff p s : startswith s p = true <-> exists rest, s = (p ++ rest)%string.
Proof. apply startswith_spec. Qed.
Lemma may_iff other called g : NoDup (map g_name other) -> may_be_void other called g = true <-> void_elsewhere other called g.
Proof.
  intros ND. unfold may_be_void, void_elsewhere, intrinsic_name, is_abstraction. rewrite !andb_true_iff, !negb_true_iff, !orb_true_iff, String.eqb_neq. split.
  - intros [[A B] C]. split; [exact B|]. split; [intros r E; assert (startswith (g_name g) "llvm." = true) by (apply starts_iff; exists r; exact E); congruence|].
    destruct C as [[C|C]|C]; [left; apply starts_iff in C as (r & C); exists "simpll__indirect."%string, r; split; [left; reflexivity|exact C]|left; apply starts_iff in C as (r & C); exists "simpll__inlineasm."%string, r; split; [right; left; reflexivity|exact C]|].
    right. unfold by_name in C. destruct (find _ other) as [o|] eqn:F; [|discriminate]. apply andb_true_iff in C as [C1 C2]. apply find_some in F as [I F]. apply String.eqb_eq in F, C1. split; [apply mem_In; exact C2|]. exists o. auto.
  - intros (A & B & C). split; [split; [|exact A]|].
    + apply not_true_iff_false. intros E. apply starts_iff in E as (r & E). exact (B r E).
    + destruct C as [(p & r & P & E)|(I & o & O & E & T)].
      * left. destruct P as [<-|[<-|[]]]; [left|right]; apply starts_iff; exists r; exact E.
      * right. assert (F : by_name other (g_name g) = Some o).
        { unfold by_name. clear -ND O E. induction other as [|x l IH]; [destruct O|]. cbn [map] in ND. apply NoDup_cons_iff in ND as [N1 N2]. cbn [find]. destruct O as [->|O]; [rewrite E, String.eqb_refl; reflexivity|].
          destruct (String.eqb_spec (g_name x) (g_name g)) as [Q|Q]; [exfalso; apply N1; rewrite Q, <- E; apply in_map; exact O|apply IH; assumption]. }
        rewrite F, T. apply mem_In in I. rewrite I. reflexivity.
Qed.
Lemma map_block_insts h f j : In j (insts (map_insts h f)) <-> exists i, In i (insts f) /\ j = h i.
Proof.
  unfold insts, map_insts. cbn [f_blocks]. rewrite in_flat_map. split.
  - intros ([k l] & I & J). apply in_map_iff in I as ([k' l'] & E & I). injection E as <- <-. cbn [snd] in J. apply in_map_iff in J as (i & <- & J). exists i. split; [apply in_flat_map; exists (k', l'); auto|reflexivity].
  - intros (i & I & ->). apply in_flat_map in I as ([k l] & I & J). exists (k, map h l). split; [apply in_map_iff; exists (k, l); auto|apply in_map; exact J].
Qed.

Section Pass.
  Variables (void_rest : string -> string) (u fresh : list string -> string -> string).
  Hypothesis fresh_new : forall ids id, ~ In (fresh ids id) ids.
  Notation make := (make_void u void_rest fresh).
  Notation somewhere id m := (existsb (fun h => match g_body h with Some f => existsb (unused_call id f) (insts f) | None => false end) m).
  Lemma make_cases m id : make m id = m \/ exists g, by_id m id = Some g /\ somewhere id m = true.
  Proof. unfold make_void. destruct (by_id m id) as [g|] eqn:E; [|left; reflexivity]. destruct (somewhere id m) eqn:Q; [|left; reflexivity]. right. exists g. auto. Qed.
  Definition renamed (u : list string -> string -> string) (id : string) (h h' : gfun) : Prop := h' = h \/ g_id h = id /\ exists n, h' = with_name n h.
  Lemma set_name_renamed id n m : Forall2 (renamed u id) m (set_name u id n m).
  Proof.
    unfold set_name. cbv zeta. match goal with |- context [with_name ?w] => generalize w end. intros w. induction m as [|h m IH]; [constructor|]. cbn [map]. constructor; [|exact IH]. destruct (String.eqb_spec (g_id h) id) as [E|E]; [right; split; [exact E|exists w; reflexivity]|left; reflexivity].
  Qed.
  (** What becomes of the module. *)
  Lemma make_shape m id g : by_id m id = Some g -> somewhere id m = true -> ~ In (fresh (map g_id m) id) (map g_id m) ->
    exists m1 b, make m id = m1 ++ [b] /\
      Forall2 (fun h h' => g_id h' = g_id h /\ g_type h' = g_type h /\ g_asm h' = g_asm h /\ (g_id h <> id -> g_name h' = g_name h) /\
                 g_body h' = if String.eqb (g_id h) id then g_body h else option_map (void_calls void_rest id (fresh (map g_id m) id)) (g_body h)) m m1 /\
      g_id b = fresh (map g_id m) id /\ g_type b = mkType "void" (t_params (g_type g)) (t_variadic (g_type g)) /\ g_asm b = g_asm g /\
      g_body b = option_map (fun f => map_insts void_ret (void_calls void_rest id (fresh (map g_id m) id) f)) (g_body g).
  Proof.
    intros E Q F. unfold make_void. rewrite E, Q. cbv zeta. set (vid := fresh (map g_id m) id) in *.
    set (m0 := map _ m). set (n0 := mkGfun _ _ _ _ _). pose proof (set_name_renamed id (base_name (g_name g)) m0) as R0.
    set (m1 := set_name u id (base_name (g_name g)) m0) in *. pose proof (set_name_renamed vid (base_name (g_name g) ++ ".void")%string (m1 ++ [n0])) as R1.
    apply Forall2_app_inv_l in R1 as (x & y & R1 & R2 & ->). inversion R2 as [|? b ? y' B Z]; subst. inversion Z; subst. exists x, b. split; [reflexivity|]. split.
    - assert (R3 : Forall2 (fun h h' => h' = h \/ exists n, g_id h = id /\ h' = with_name n h) m0 x).
      { assert (ND : forall h, In h m1 -> g_id h <> vid). { intros h I W. apply F. rewrite <- W. assert (map g_id m1 = map g_id m) as <-; [|apply in_map; exact I]. unfold m1, m0. rewrite ids_set_name, map_map. apply map_ext. intros k. destruct (String.eqb (g_id k) id); reflexivity. }
        clear -R0 R1 ND. revert x R1 ND. induction R0 as [|h h' l l' H R0 IH]; intros x R1 ND; inversion R1 as [|? k ? x' K R1']; subst; [constructor|]. constructor; [|apply IH; [exact R1'|intros z Z; apply ND; right; exact Z]].
        destruct K as [->|[K _]]; [|exfalso; apply (ND h'); [left; reflexivity|exact K]]. destruct H as [->|[H (n & ->)]]; [left; reflexivity|right; exists n; auto]. }
      unfold m0 in R3. clear -R3. clearbody vid. revert x R3. induction m as [|h m IH]; intros x R3; inversion R3 as [|? k ? x' K R4]; subst; [constructor|]. constructor; [|apply IH; exact R4].
      destruct (String.eqb_spec (g_id h) id) as [W|W]; destruct K as [->|(n & Y & ->)]; cbn [with_name with_body g_id g_type g_asm g_name g_body] in *; repeat split; try congruence; intros; try reflexivity; try contradiction.
    - destruct B as [->|[_ (n & ->)]]; cbn; repeat split; reflexivity.
  Qed.
  (** *** What the functions are like *)
  Definition proper (e : inst -> inst) : Prop := (forall i, i_code (e i) = i_code i) /\ (forall i, i_reg (e i) = i_reg i) /\ (forall i, i_code i <> Ret -> e i = i) /\ forall i, incl (i_ops (e i)) (i_ops i).
  Lemma proper_id : proper (fun i => i). Proof. repeat split; auto. intros i. apply incl_refl. Qed.
  Lemma proper_no : proper no_result.
  Proof. repeat split; intros i; unfold no_result; destruct (i_code i) eqn:C; cbn; try congruence; try apply incl_refl; try reflexivity. intros x []. Qed.
  Lemma calls_void_more l l' e f i i' : incl l l' -> calls_void void_rest l e f i i' -> calls_void void_rest l' e f i i'.
  Proof. intros H (id & vid & ops & I & R). exists id, vid, ops. split; [apply H; exact I|exact R]. Qed.
  Lemma blocks_map (P Q : inst -> inst -> Prop) h (bs bs' : list (nat * list inst)) : (forall i i', In i (flat_map snd bs) -> P i i' -> Q i (h i')) ->
    Forall2 (fun kb kb' => fst kb' = fst kb /\ Forall2 P (snd kb) (snd kb')) bs bs' ->
    Forall2 (fun kb kb' => fst kb' = fst kb /\ Forall2 Q (snd kb) (snd kb')) bs (map (fun kb => (fst kb, map h (snd kb))) bs').
  Proof.
    intros H F. induction F as [|[k l] [k' l'] bs bs' [E L] F IH]; [constructor|]. cbn [map]. constructor; [|apply IH; intros i i' I; apply H; cbn; apply in_or_app; right; exact I].
    split; [exact E|]. cbn [fst snd] in *. assert (HL : forall i i', In i l -> P i i' -> Q i (h i')) by (intros i i' I; apply H; cbn; apply in_or_app; left; exact I). clear -L HL.
    induction L as [|i i' l l' X L IH]; [constructor|]. cbn [map]. constructor; [apply HL; [left; reflexivity|exact X]|apply IH; intros j j' J; apply HL; right; exact J].
  Qed.
  Lemma blocks_in (P : inst -> inst -> Prop) (bs bs' : list (nat * list inst)) i : Forall2 (fun kb kb' => fst kb' = fst kb /\ Forall2 P (snd kb) (snd kb')) bs bs' ->
    In i (flat_map snd bs) -> exists i', In i' (flat_map snd bs') /\ P i i'.
  Proof.
    intros F I. induction F as [|[k l] [k' l'] bs bs' [E L] F IH]; [destruct I|]. cbn [flat_map snd] in *. apply in_app_or in I as [I|I].
    - assert (exists i', In i' l' /\ P i i') as (i' & J & X); [|exists i'; split; [apply in_or_app; left; exact J|exact X]]. clear -L I. induction L as [|x y l l' X L IH]; [destruct I|]. destruct I as [<-|I]; [exists y; split; [left; reflexivity|exact X]|]. destruct (IH I) as (j & J & Y). exists j. split; [right; exact J|exact Y].
    - destruct (IH I) as (i' & J & X). exists i'. split; [apply in_or_app; right; exact J|exact X].
  Qed.
  Definition becomes l e f i i' := i' = e i \/ calls_void void_rest l e f i i'.
  Lemma voids_users l e f f' r : proper e -> voids void_rest l e f f' -> (forall w, In w (insts f') -> ~ In (VReg r) (i_ops w)) -> forall w, In w (insts f) -> ~ In (VReg r) (i_ops (e w)).
  Proof.
    intros (_ & _ & P3 & _) (_ & _ & F) H w I J. destruct (blocks_in _ _ _ w F I) as (w' & I' & [->|(id & vid & ops & _ & _ & C & O & ->)]); [apply (H _ I' J)|].
    apply (H _ I'). cbn [i_ops]. rewrite P3 in J by congruence. rewrite O in J. apply in_app_or in J as [J|[J|[]]]; [apply in_or_app; left; exact J|discriminate].
  Qed.
  Lemma voids_step l e f f' id vid : proper e -> (forall p, In p l -> snd p <> id) -> voids void_rest l e f f' -> voids void_rest (l ++ [(id, vid)]) e f (void_calls void_rest id vid f').
  Proof.
    intros P NI V. pose proof V as (V1 & V2 & F). split; [exact V1|]. split; [exact V2|]. unfold void_calls, map_insts. cbn [f_blocks]. eapply blocks_map; [|exact F]. cbn beta. intros i i' I [->|B].
    - destruct (unused_call id f' (e i)) eqn:W; [|left; reflexivity]. right. apply unused_call_iff in W as [[C (ops & O)] UU]. destruct P as (P1 & P2 & P3 & P4). assert (EI : e i = i) by (apply P3; rewrite <- P1; congruence). rewrite EI in *.
      exists id, vid, ops. split; [apply in_or_app; right; left; reflexivity|]. split; [apply (voids_users l e f f'); [repeat split; assumption|exact V|exact UU]|]. split; [exact C|]. split; [exact O|]. unfold void_call, call_args. rewrite O, removelast_last. reflexivity.
    - right. destruct (unused_call id f' i') eqn:W; [|apply calls_void_more with l; [intros x X; apply in_or_app; left; exact X|exact B]].
      exfalso. apply unused_call_iff in W as [[_ (ops & O)] _]. destruct B as (id0 & vid0 & ops0 & IL & _ & _ & _ & ->). cbn [i_ops] in O. apply app_inj_tail in O as [_ O]. injection O as O. apply (NI _ IL). exact O.
  Qed.
  Lemma voids_more l l' e f f' : incl l l' -> voids void_rest l e f f' -> voids void_rest l' e f f'.
  Proof.
    intros H (V1 & V2 & F). split; [exact V1|]. split; [exact V2|]. replace (f_blocks f') with (map (fun kb => (fst kb, map (fun i => i) (snd kb))) (f_blocks f')).
    - eapply blocks_map; [|exact F]. cbn beta. intros i i' _ [->|B]; [left; reflexivity|right; apply calls_void_more with l; assumption].
    - induction (f_blocks f') as [|[k b] bs IH] in |- *; [reflexivity|]. cbn. rewrite map_id, IH. reflexivity.
  Qed.
  Lemma voids_no_result l f f' : voids void_rest l (fun i => i) f f' -> voids void_rest l no_result f (map_insts void_ret f').
  Proof.
    intros (V1 & V2 & F). split; [exact V1|]. split; [exact V2|]. unfold map_insts. cbn [f_blocks]. eapply blocks_map; [|exact F]. cbn beta. intros i i' _ [->|(id & vid & ops & I & UU & C & O & ->)]; [left; reflexivity|].
    right. exists id, vid, ops. split; [exact I|]. split; [|split; [exact C|split; [exact O|reflexivity]]]. intros w W J. apply (UU w W). apply (proj2 (proj2 (proj2 proper_no))). exact J.
  Qed.
  Lemma voids_refl e f : voids void_rest [] e f (map_insts e f).
  Proof. split; [reflexivity|]. split; [reflexivity|]. unfold map_insts. cbn [f_blocks]. induction (f_blocks f) as [|[k b] bs IH]; [constructor|]. cbn [map]. constructor; [|exact IH]. split; [reflexivity|]. cbn. clear. induction b as [|i b IH]; [constructor|]. constructor; [left; reflexivity|exact IH]. Qed.

  (** *** The functions one after the other *)
  Variables (other m : gmodule) (called : list string).
  Hypothesis names : NoDup (map g_name other).
  Hypothesis ids : NoDup (map g_id m).
  Definition new_of (l l' : list (string * string)) (B : gmodule) : Prop :=
    Forall2 (fun p b => exists g, In g m /\ void_elsewhere other called g /\ g_id g = fst p /\ g_id b = snd p /\ without_result void_rest l' g b) l B.
  Record inv (done : gmodule) (cur : gmodule) (l : list (string * string)) (A B : gmodule) : Prop := mkInv {
    inv_cur : cur = A ++ B;
    inv_ids : NoDup (map g_id cur);
    inv_still : Forall2 (still void_rest l) m A;
    inv_new : new_of l l B;
    inv_first : incl (map fst l) (map g_id done);
    inv_done : forall g h f i, In g done -> void_elsewhere other called g -> In h A -> g_id h <> g_id g -> g_body h = Some f -> In i (insts f) -> calls_function (g_id g) i -> ~ unused f i }.
  Lemma still_ids l A : Forall2 (still void_rest l) m A -> map g_id A = map g_id m.
  Proof. intros F. clear -F. induction F as [|g g' x y H F IH]; [reflexivity|]. cbn [map]. rewrite IH. f_equal. apply H. Qed.
  Lemma new_ids l l' B : new_of l l' B -> map g_id B = map snd l.
  Proof. intros F. clear -F. unfold new_of in F. induction F as [|p b x y (g & _ & _ & _ & H & _) F IH]; [reflexivity|]. cbn [map]. rewrite IH, H. reflexivity. Qed.
  Lemma F2_in {A B} (P : A -> B -> Prop) l l' y : Forall2 P l l' -> In y l' -> exists x, In x l /\ P x y.
  Proof. intros F. induction F as [|a b l l' H F IH]; [intros []|]. intros [<-|I]; [exists a; split; [left; reflexivity|exact H]|]. destruct (IH I) as (x & J & X). exists x. split; [right; exact J|exact X]. Qed.
  Lemma F2_compose {A B C} (P : A -> B -> Prop) (Q : B -> C -> Prop) (R : A -> C -> Prop) l l' l'' : (forall a b c, In a l -> In b l' -> P a b -> Q b c -> R a c) -> Forall2 P l l' -> Forall2 Q l' l'' -> Forall2 R l l''.
  Proof.
    intros H F. revert l'' H. induction F as [|a b l l' X F IH]; intros l'' H G; inversion G as [|? c ? l3 Y G']; subst; constructor.
    - apply (H a b c); [left; reflexivity|left; reflexivity|exact X|exact Y].
    - apply IH; [|exact G']. intros a' b' c' I J. apply H; right; assumption.
  Qed.
  Lemma by_id_iff (l : gmodule) id g : NoDup (map g_id l) -> by_id l id = Some g <-> In g l /\ g_id g = id.
  Proof.
    intros N. unfold by_id. split.
    - intros F. apply find_some in F as [I E]. apply String.eqb_eq in E. auto.
    - intros [I E]. induction l as [|h l IH]; [destruct I|]. cbn [map] in N. apply NoDup_cons_iff in N as [N1 N2]. cbn [find]. destruct I as [->|I]; [rewrite E, String.eqb_refl; reflexivity|].
      destruct (String.eqb_spec (g_id h) id) as [Q|Q]; [exfalso; apply N1; rewrite Q, <- E; apply in_map; exact I|apply IH; assumption].
  Qed.
  Lemma void_calls_code id vid f i : i_code (if unused_call id f i then void_call void_rest vid i else i) = i_code i.
  Proof. destruct (unused_call id f i) eqn:E; [|reflexivity]. apply unused_call_iff in E as [[C _] _]. cbn. congruence. Qed.
  Lemma unused_back id vid f i : unused (void_calls void_rest id vid f) (if unused_call id f i then void_call void_rest vid i else i) -> unused f i.
  Proof.
    intros H w I J. assert (W : In (if unused_call id f w then void_call void_rest vid w else w) (insts (void_calls void_rest id vid f))) by (apply map_block_insts; exists w; auto).
    apply (H _ W). replace (i_reg (if unused_call id f i then void_call void_rest vid i else i)) with (i_reg i) by (destruct (unused_call id f i); reflexivity).
    destruct (unused_call id f w) eqn:Q; [|exact J]. apply unused_call_iff in Q as [[_ (ops & O)] _]. unfold void_call, call_args. cbn [i_ops]. rewrite O in J |- *. rewrite removelast_last. apply in_app_or in J as [J|[J|[]]]; [apply in_or_app; left; exact J|discriminate].
  Qed.
  Lemma inv_step done cur l A B g : In g m -> ~ In g done -> incl done m -> inv done cur l A B ->
    exists cur' l' A' B', cur' = (if may_be_void other called g then make cur (g_id g) else cur) /\ inv (done ++ [g]) cur' l' A' B'.
  Proof.
    intros Ig ND Inc [E1 E2 E3 E4 E5 E6].
    assert (FST : incl (map fst l) (map g_id (done ++ [g]))) by (rewrite map_app; intros x X; apply in_or_app; left; apply E5; exact X).
    destruct (may_be_void other called g) eqn:MV.
    2:{ exists cur, l, A, B. split; [reflexivity|]. constructor; try assumption. intros g0 h f i G0 VE. apply in_app_or in G0 as [G0|[<-|[]]]; [apply E6; assumption|]. apply may_iff in VE; [|exact names]. congruence. }
    apply may_iff in MV as VE; [|exact names].
    assert (DI : forall g0, In g0 done -> g_id g0 <> g_id g).
    { intros g0 I0 Q. apply ND. assert (g0 = g) as <-; [|exact I0]. apply Inc in I0. clear -ids I0 Ig Q. induction m as [|h t IH]; [destruct Ig|]. cbn [map] in ids. apply NoDup_cons_iff in ids as [N1 N2]. destruct I0 as [->|I0], Ig as [->|Ig]; [reflexivity| | |apply IH; assumption]; exfalso; apply N1; [rewrite Q|rewrite <- Q]; apply in_map; assumption. }
    assert (NL : ~ In (g_id g) (map fst l)). { intros X. apply E5 in X. apply in_map_iff in X as (g0 & Q & X). apply (DI g0 X Q). }
    assert (SN : forall p, In p l -> snd p <> g_id g).
    { intros p I Q. rewrite E1, map_app, (new_ids _ _ _ E4), (still_ids _ _ E3) in E2. apply NoDup_app_remove_l_in with (x := g_id g) in E2; [|apply in_map; exact Ig]. apply E2. rewrite <- Q. apply in_map. exact I. }
    destruct (make_cases cur (g_id g)) as [K|(g' & K & W)].
    - destruct (somewhere (g_id g) cur) eqn:SW.
      + exfalso. unfold make_void in K. destruct (by_id cur (g_id g)) as [g'|] eqn:BI.
        * rewrite SW in K. assert (X : length (make cur (g_id g)) = length cur) by (unfold make_void; rewrite BI, SW; f_equal; exact K). unfold make_void in X. rewrite BI, SW in X. cbv zeta in X. unfold set_name in X. cbv zeta in X. rewrite map_length, app_length, !map_length in X. cbn in X. lia.
        * assert (In (g_id g) (map g_id cur)) as X by (rewrite E1, map_app, (still_ids _ _ E3); apply in_or_app; left; apply in_map; exact Ig). apply in_map_iff in X as (h & Q & X). unfold by_id in BI. pose proof (find_none _ _ BI h X) as Z. cbn beta in Z. rewrite Q, String.eqb_refl in Z. discriminate.
      + exists cur, l, A, B. split; [symmetry; exact K|]. constructor; try assumption. intros g0 h f i G0 VE0 Ih NI Bf Ii Ci UU. apply in_app_or in G0 as [G0|[<-|[]]]; [exact (E6 g0 h f i G0 VE0 Ih NI Bf Ii Ci UU)|].
        assert (somewhere (g_id g) cur = true); [|congruence]. apply existsb_exists. exists h. split; [rewrite E1; apply in_or_app; left; exact Ih|]. rewrite Bf. apply existsb_exists. exists i. split; [exact Ii|]. apply unused_call_iff. auto.
    - set (vid := fresh (map g_id cur) (g_id g)) in *. destruct (make_shape cur (g_id g) g' K W (fresh_new _ _)) as (m1 & b & E & F & B1 & B2 & B3 & B4).
      apply by_id_iff in K as [Ig' Idg']; [|exact E2].
      fold vid in F, B1, B4. rewrite E1 in F. apply Forall2_app_inv_l in F as (A' & B' & FA & FB & Em1). subst m1.
      assert (IA : In g' A).
      { rewrite E1 in Ig'. apply in_app_or in Ig' as [X|X]; [exact X|]. exfalso. assert (Y : In (g_id g') (map snd l)) by (rewrite <- (new_ids _ _ _ E4); apply in_map; exact X). apply in_map_iff in Y as (p & Q & Y). apply (SN p Y). congruence. }
      destruct (F2_in _ _ _ _ E3 IA) as (g0 & I0 & (S1 & S2 & S3 & S4 & S5)).
      assert (g0 = g) as ->.
      { clear -ids I0 Ig S1 Idg'. assert (Q : g_id g0 = g_id g) by congruence. clear S1 Idg'. induction m as [|h t IH]; [destruct Ig|]. cbn [map] in ids. apply NoDup_cons_iff in ids as [N1 N2]. destruct I0 as [->|I0], Ig as [->|Ig]; [reflexivity| | |apply IH; assumption]; exfalso; apply N1; [rewrite Q|rewrite <- Q]; apply in_map; assumption. }
      set (l' := l ++ [(g_id g, vid)]). assert (LL : incl l l') by (intros x X; apply in_or_app; left; exact X).
      assert (NEWV : forall e f f', proper e -> voids void_rest l e f f' -> voids void_rest l' e f (void_calls void_rest (g_id g) vid f')) by (intros e f f' P V; apply voids_step; assumption).
      exists (make cur (g_id g)), l', A', (B' ++ [b]). split; [reflexivity|]. constructor.
      + rewrite E, <- app_assoc. reflexivity.
      + rewrite E, map_app. assert (X : map g_id (A' ++ B') = map g_id cur).
        { rewrite E1, !map_app. f_equal; [clear -FA; induction FA as [|? ? ? ? H ? IH]; [reflexivity|]; cbn; rewrite IH; f_equal; apply H|clear -FB; induction FB as [|? ? ? ? H ? IH]; [reflexivity|]; cbn; rewrite IH; f_equal; apply H]. }
        rewrite X. cbn [map]. rewrite B1. apply NoDup_app_intro; [exact E2|repeat constructor; intros []|]. intros x Y [<-|[]]. exact (fresh_new _ _ Y).
      + eapply F2_compose; [|exact E3|exact FA]. cbn beta. intros h h' h'' Ih _ (T1 & T2 & T3 & T4 & T5) (U1 & U2 & U3 & U4 & U5). split; [congruence|]. split; [congruence|]. split; [congruence|]. split.
        * intros NI. rewrite U4; [apply T4; intros X; apply NI; unfold l'; rewrite map_app; apply in_or_app; left; exact X|]. intros Q. apply NI. unfold l'. rewrite map_app. apply in_or_app. right. left. cbn. congruence.
        * rewrite U5. unfold both in *. destruct (String.eqb (g_id h') (g_id g)); destruct (g_body h), (g_body h'); cbn [option_map]; try contradiction; auto; [apply voids_more with l; assumption|apply NEWV; [apply proper_id|exact T5]].
      + unfold new_of, l'. apply Forall2_app.
        * eapply F2_compose; [|exact E4|exact FB]. cbn beta. intros p h' h'' Ip Ih' (g0 & J0 & J1 & J2 & J3 & (J4 & J5 & J6)) (U1 & U2 & U3 & _ & U5). exists g0. split; [exact J0|]. split; [exact J1|]. split; [exact J2|]. split; [congruence|]. split; [congruence|]. split; [congruence|].
          rewrite U5. assert (X : String.eqb (g_id h') (g_id g) = false) by (apply String.eqb_neq; rewrite J3; apply SN; exact Ip). rewrite X. unfold both in *. destruct (g_body g0), (g_body h'); cbn [option_map]; try contradiction; auto. apply NEWV; [apply proper_no|exact J6].
        * constructor; [|constructor]. exists g. split; [exact Ig|]. split; [exact VE|]. split; [reflexivity|]. split; [exact B1|]. split; [rewrite B2; congruence|]. split; [congruence|]. rewrite B4. unfold both in *. destruct (g_body g), (g_body g'); cbn [option_map]; try contradiction; auto.
          apply voids_no_result. apply NEWV; [apply proper_id|exact S5].
      + unfold l'. rewrite !map_app. apply incl_app; [intros x X; apply in_or_app; left; apply E5; exact X|]. intros x [<-|[]]. apply in_or_app. right. left. reflexivity.
      + intros g0 h f i G0 VE0 Ih NI Bf Ii Ci UU. destruct (F2_in _ _ _ _ FA Ih) as (h0 & Ih0 & (U1 & U2 & U3 & U4 & U5)). rewrite Bf in U5.
        destruct (String.eqb_spec (g_id h0) (g_id g)) as [Q|Q].
        * (* the function itself *) apply in_app_or in G0 as [G0|[<-|[]]]; [|apply NI; congruence]. apply (E6 g0 h0 f i); try assumption; [congruence|symmetry; exact U5].
        * destruct (g_body h0) as [f0|] eqn:Bh; [|discriminate]. cbn [option_map] in U5. injection U5 as ->. unfold void_calls in Ii. apply map_block_insts in Ii as (i0 & I0' & ->).
          pose proof (unused_back _ _ _ _ UU) as UB. apply in_app_or in G0 as [G0|[<-|[]]].
          -- apply (E6 g0 h0 f0 i0); try assumption; [congruence|]. destruct Ci as [C (ops & O)]. destruct (unused_call (g_id g) f0 i0) eqn:QQ; [|split; [exact C|exists ops; exact O]].
             exfalso. cbn [void_call i_ops] in O. apply app_inj_tail in O as [_ O]. injection O as O. apply (fresh_new (map g_id cur) (g_id g)). fold vid. rewrite O. rewrite E1, map_app, (still_ids _ _ E3). apply in_or_app. left. apply in_map. apply Inc. exact G0.
          -- destruct (unused_call (g_id g) f0 i0) eqn:QQ.
             ++ destruct Ci as [C (ops & O)]. cbn [void_call i_ops] in O. apply app_inj_tail in O as [_ O]. injection O as O. apply (fresh_new (map g_id cur) (g_id g)). fold vid. rewrite O. rewrite <- Idg'. apply in_map. rewrite E1 in *. exact Ig'.
             ++ assert (unused_call (g_id g) f0 i0 = true); [|congruence]. apply unused_call_iff. split; [exact Ci|exact UB].
  Qed.
  Lemma inv_fold todo : forall done cur l A B, m = done ++ todo -> inv done cur l A B ->
    exists l' A' B', inv m (fold_left (fun m' g => if may_be_void other called g then make m' (g_id g) else m') todo cur) l' A' B'.
  Proof.
    induction todo as [|g todo IH]; intros done cur l A B E I.
    - exists l, A, B. cbn [fold_left]. rewrite app_nil_r in E. rewrite E at 1. exact I.
    - cbn [fold_left]. destruct (inv_step done cur l A B g) as (cur' & l' & A' & B' & -> & I'); [rewrite E; apply in_or_app; right; left; reflexivity| |rewrite E; apply incl_appl, incl_refl|exact I|].
      + intros X. pose proof ids as Z. rewrite E, map_app in Z. cbn [map] in Z. apply NoDup_remove_2 in Z. apply Z. apply in_or_app. left. apply in_map. exact X.
      + apply (IH (done ++ [g]) _ l' A' B'); [rewrite <- app_assoc; exact E|exact I'].
  Qed.
  Lemma pass_shape : exists l A B, inv m (remove_unused u void_rest fresh other called m) l A B.
  Proof.
    unfold remove_unused. apply (inv_fold m [] m [] m []); [reflexivity|]. constructor.
    - rewrite app_nil_r. reflexivity.
    - exact ids.
    - clear. induction m as [|g t IH]; [constructor|]. constructor; [|exact IH]. repeat split; try reflexivity. unfold both. destruct (g_body g) as [f|]; [|exact I]. pose proof (voids_refl (fun i => i) f) as X. rewrite map_insts_id in X. exact X.
    - constructor.
    - intros x [].
    - intros g h f i [].
  Qed.
End Pass.

Section PassRuns.
  Variables (S : semantics) (consts : const -> V S) (target : V S -> option string) (void_rest : string -> string).
  Variables (u fresh : list string -> string -> string) (clean : string -> M S -> Prop).
  Hypothesis N : nothing_new S consts target void_rest fresh clean.
  Notation make := (make_void u void_rest fresh).
  Lemma make_ids m id g : by_id m id = Some g ->
    existsb (fun h => match g_body h with Some f => existsb (unused_call id f) (insts f) | None => false end) m = true -> map g_id (make m id) = map g_id m ++ [fresh (map g_id m) id].
  Proof.
    intros E Q. destruct (make_shape void_rest u fresh m id g E Q (new_fresh _ _ _ _ _ _ N _ _)) as (m1 & b & -> & F & B & _). rewrite map_app. cbn [map]. rewrite B. f_equal.
    clear -F. induction F as [|? ? ? ? H ? IH]; [reflexivity|]. cbn. rewrite IH. f_equal. apply H.
  Qed.
  Lemma ops_void id vid f i x : In (VConst (CGlobal x)) (i_ops (if unused_call id f i then void_call void_rest vid i else i)) -> x = vid \/ In (VConst (CGlobal x)) (i_ops i).
  Proof.
    destruct (unused_call id f i) eqn:E; [|auto]. apply unused_call_iff in E as [[_ (ops & O)] _]. unfold void_call, call_args. cbn [i_ops]. rewrite O, removelast_last. intros J. apply in_app_or in J as [J|[J|[]]]; [right; apply in_or_app; left; exact J|left; congruence].
  Qed.
  Lemma make_stray m id : no_stray fresh m -> no_stray fresh (make m id).
  Proof.
    intros H. destruct (make_cases void_rest u fresh m id) as [->|(g & E & Q)]; [exact H|]. intros ids0 id0 h f i Ih Bh Ii J. rewrite (make_ids m id g E Q). apply in_or_app.
    destruct (make_shape void_rest u fresh m id g E Q (new_fresh _ _ _ _ _ _ N _ _)) as (m1 & b & E1 & F & _ & _ & _ & B). set (vid := fresh (map g_id m) id) in *.
    rewrite E1 in Ih. apply in_app_or in Ih as [Ih|[<-|[]]].
    - destruct (F2_in _ _ _ _ F Ih) as (h0 & I0 & (_ & _ & _ & _ & U)). rewrite Bh in U. destruct (String.eqb (g_id h0) id); [left; apply (H ids0 id0 h0 f i); [exact I0|symmetry; exact U|exact Ii|exact J]|].
      destruct (g_body h0) as [f0|] eqn:B0; [|discriminate]. injection U as ->. unfold void_calls in Ii. apply map_block_insts in Ii as (i0 & I1 & ->). apply ops_void in J as [->|J]; [right; left; reflexivity|left; apply (H ids0 id0 h0 f0 i0); assumption].
    - rewrite Bh in B. destruct (g_body g) as [f0|] eqn:B0; [|discriminate]. injection B as ->. apply map_block_insts in Ii as (i1 & I1 & ->). assert (J' : In (VConst (CGlobal (fresh ids0 id0))) (i_ops i1)) by (unfold void_ret in J; destruct (i_code i1); try exact J; destruct J).
      unfold void_calls in I1. apply map_block_insts in I1 as (i0 & I0 & ->). apply ops_void in J' as [->|J']; [right; left; reflexivity|left; apply (H ids0 id0 g f0 i0); try assumption]. unfold by_id in E. apply find_some in E. apply E.
  Qed.
  Lemma make_nodup m id : NoDup (map g_id m) -> NoDup (map g_id (make m id)).
  Proof.
    intros H. destruct (make_cases void_rest u fresh m id) as [->|(g & E & Q)]; [exact H|]. rewrite (make_ids m id g E Q). apply NoDup_app_intro; [exact H|repeat constructor; intros []|]. intros x Y [<-|[]]. exact (new_fresh _ _ _ _ _ _ N _ _ Y).
  Qed.
  Lemma make_incl m id : incl (map g_id m) (map g_id (make m id)).
  Proof. destruct (make_cases void_rest u fresh m id) as [->|(g & E & Q)]; [apply incl_refl|]. rewrite (make_ids m id g E Q). apply incl_appl, incl_refl. Qed.
  Variables (args : nat -> V S) (mem : M S).
  Hypothesis A : forall ids id k, target (args k) <> Some (fresh ids id).
  Hypothesis C : forall ids id, clean (fresh ids id) mem.
  Lemma pass_does (p : gfun -> bool) todo : forall m n x, NoDup (map g_id m) -> no_stray fresh m -> In x (map g_id m) ->
    does S consts target (fold_left (fun (m' : gmodule) g => if p g then make m' (g_id g) else m') todo m) n x args mem = does S consts target m n x args mem.
  Proof.
    induction todo as [|g todo IH]; intros m n x D T I; [reflexivity|]. cbn [fold_left]. destruct (p g); [|apply IH; assumption].
    rewrite IH; [|apply make_nodup; exact D|apply make_stray; exact T|apply make_incl; exact I].
    destruct (make_cases void_rest u fresh m (g_id g)) as [->|(h & E & Q)]; [reflexivity|]. apply (step_does S consts target void_rest fresh clean N u m (g_id g) h); try assumption; [intros k; apply A|apply C].
  Qed.
End PassRuns.
