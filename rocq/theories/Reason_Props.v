(** * Properties of the search for reasons (C141, C142) *)
From Coq Require Import String Ascii ZArith Arith Bool Lia List DecimalString DecimalNat.
From Verif Require Import PyBase Source_Model Source_Spec Source_Proofs Reason_Model Reason_Spec Reason_Proofs.
Import ListNotations.
Open Scope list_scope.

(** ** C141: types *)
(** The start of an access is found. *)
Theorem C141_start f rank n o : Ordered f rank -> (forall r, S (rank r) < n) ->
  (forall g, access_start n f o = Some (Some g) <-> Starts f o g) /\ (access_start n f o = Some None <-> forall g, ~ Leads f o g).
Proof.
  intros O L. destruct (start_iff f rank n o O) as (A & B & _); [destruct o as [r| |]; cbn; [apply L|specialize (L 0); lia|specialize (L 0); lia]|]. auto.
Qed.
Print Assumptions C141_start.
(** The types taken are those of instructions of the access; and if no result is continued twice, all of them up to the end of its block. *)
Theorem C141_sources f g : (forall t, In t (source_types f g) -> exists i, Part_of f g i /\ From_type i t) /\
  (forall t, From_type g t -> In t (source_types f g)) /\
  (NoDup (map i_id (concat (f_blocks f))) -> forall a b last, In (a ++ g :: b ++ [last]) (f_blocks f) -> Unbranched b ->
   forall j t, Ahead (i_id g) b j -> From_type j t -> In t (source_types f g)).
Proof.
  split; [intros t; apply source_types_sound|]. split; [intros t T; apply in_app_iff; left; apply types_of_iff; exact T|].
  intros N a b last I U j t A T. unfold source_types. rewrite (behind_in_found f g a (b ++ [last]) N I). rewrite removelast_last. apply in_app_iff. right. eapply walk_complete; eassumption.
Qed.
Print Assumptions C141_sources.
(** What is recorded about types: exactly the structures of the same name that differ and stand at the same place in both accesses, at
    the instructions, at those before, or where loads of different types load from. *)
Theorem C141_types differ info_l info_r fl fr rank_l rank_r n i j :
  NoDup (map i_id (concat (f_blocks fl))) -> NoDup (map i_id (concat (f_blocks fr))) -> Ordered fl rank_l -> Ordered fr rank_r ->
  (forall r, S (rank_l r) < n) -> (forall r, S (rank_r r) < n) -> In i (concat (f_blocks fl)) -> In j (concat (f_blocks fr)) ->
  f_debug fl <> None -> f_debug fr <> None ->
  exists os, type_reasons differ info_l info_r n fl fr i j = Some os /\ forall o, In o os <->
    exists gl gr k tl tr,
      ((Access_at fl i gl /\ Access_at fr j gr) \/
       (Starts fl (i_op i) gl /\ Starts fr (i_op j) gr /\ exists t u, i_kind i = Load t /\ i_kind j = Load u /\ differ t u = true)) /\
      nth_error (source_types fl gl) k = Some tl /\ nth_error (source_types fr gr) k = Some tr /\ Recorded differ info_l info_r fl fr tl tr o.
Proof.
  intros Nl Nr Ol Or Ll Lr I J Dl Dr.
  destruct (access_iff fl rank_l n i Nl Ol Ll I) as ((x & X) & A). destruct (access_iff fr rank_r n j Nr Or Lr J) as ((y & Y) & B).
  assert (G : forall p q, exists os, types_between differ info_l info_r fl fr (Some p) (Some q) = Some os /\ forall o, In o os <-> exists gl gr k tl tr, (p = Some gl /\ q = Some gr) /\ nth_error (source_types fl gl) k = Some tl /\ nth_error (source_types fr gr) k = Some tr /\ Recorded differ info_l info_r fl fr tl tr o).
  { intros [gl|] [gr|]; cbn [types_between]; try (eexists; split; [reflexivity|]; intros o; split; [intros []|intros (? & ? & ? & ? & ? & (H1 & H2) & _); congruence]).
    destruct (type_differences differ info_l info_r fl fr (source_types fl gl) (source_types fr gr)) as [os|] eqn:E; [|destruct (types_known differ info_l info_r fl fr (conj Dl Dr) _ _ E)].
    exists os. split; [reflexivity|]. intros o. rewrite (types_iff differ info_l info_r fl fr _ _ os E). split.
    - intros (k & tl & tr & H). exists gl, gr, k, tl, tr. split; [auto|exact H].
    - intros (gl' & gr' & k & tl & tr & (E1 & E2) & H). injection E1 as <-. injection E2 as <-. eauto. }
  unfold type_reasons. rewrite X, Y. destruct (G x y) as (os & E & H). rewrite E.
  assert (H' : forall o, In o os <-> exists gl gr k tl tr, (Access_at fl i gl /\ Access_at fr j gr) /\ nth_error (source_types fl gl) k = Some tl /\ nth_error (source_types fr gr) k = Some tr /\ Recorded differ info_l info_r fl fr tl tr o).
  { intros o. rewrite H. split; intros (gl & gr & k & tl & tr & (H1 & H2) & H3); exists gl, gr, k, tl, tr; (split; [|exact H3]).
    - split; [apply A; congruence|apply B; congruence].
    - apply A in H1. apply B in H2. split; congruence. }
  clear H. rename H' into H.
  assert (NL : forall os', os' = os -> ~ (exists t u, i_kind i = Load t /\ i_kind j = Load u /\ differ t u = true) -> exists os0, Some os' = Some os0 /\ forall o, In o os0 <-> exists gl gr k tl tr,
      ((Access_at fl i gl /\ Access_at fr j gr) \/ (Starts fl (i_op i) gl /\ Starts fr (i_op j) gr /\ exists t u, i_kind i = Load t /\ i_kind j = Load u /\ differ t u = true)) /\
      nth_error (source_types fl gl) k = Some tl /\ nth_error (source_types fr gr) k = Some tr /\ Recorded differ info_l info_r fl fr tl tr o).
  { intros os' -> NX. exists os. split; [reflexivity|]. intros o. rewrite H. split.
    - intros (gl & gr & k & tl & tr & P & Q). exists gl, gr, k, tl, tr. split; [left; exact P|exact Q].
    - intros (gl & gr & k & tl & tr & [P|(_ & _ & P)] & Q); [exists gl, gr, k, tl, tr; auto|contradiction]. }
  destruct (i_kind i) as [?|?|t|? ? ?|] eqn:Ki; try (apply NL; [reflexivity|intros (? & ? & Q & _); discriminate]).
  destruct (i_kind j) as [?|?|u|? ? ?|] eqn:Kj; try (apply NL; [reflexivity|intros (? & ? & _ & Q & _); discriminate]).
  destruct (differ t u) eqn:D; [|apply NL; [reflexivity|intros (? & ? & Q1 & Q2 & Q3); congruence]].
  pose proof (start_iff fl rank_l n (i_op i) Ol) as S1. pose proof (start_iff fr rank_r n (i_op j) Or) as S2.
  destruct S1 as (S1 & _ & S1'); [destruct (i_op i) as [r| |]; cbn; [apply Ll|specialize (Ll 0); lia|specialize (Ll 0); lia]|]. destruct S2 as (S2 & _ & S2'); [destruct (i_op j) as [r| |]; cbn; [apply Lr|specialize (Lr 0); lia|specialize (Lr 0); lia]|].
  destruct (access_start n fl (i_op i)) as [p|] eqn:P; [|contradiction]. destruct (access_start n fr (i_op j)) as [q|] eqn:Q; [|contradiction].
  destruct (G p q) as (os' & E' & H'). rewrite E'. eexists. split; [reflexivity|]. intros o. rewrite in_app_iff, H, H'. split.
  - intros [(gl & gr & k & tl & tr & P1 & P2)|(gl & gr & k & tl & tr & (P1 & P1') & P2)]; exists gl, gr, k, tl, tr; (split; [|exact P2]); [left; exact P1|]. right. split; [apply S1; congruence|]. split; [apply S2; congruence|]. exists t, u. auto.
  - intros (gl & gr & k & tl & tr & [P1|(P1 & P1' & _)] & P2); [left; exists gl, gr, k, tl, tr; auto|]. right. exists gl, gr, k, tl, tr. split; [|exact P2]. apply S1 in P1. apply S2 in P1'. split; congruence.
Qed.
Print Assumptions C141_types.

(** A function with a GEP from a structure and a load from it *)
Definition at_line (id : nat) (k : kind) (o : operand) : inst := mkInst id k o "" [] "a.c" 7.
Definition reading (s : ty) (result : nat) : func :=
  mkFunc "f" (Some ("a.c"%string, 5%Z)) [[at_line 1 (Gep s) Rest; at_line 2 (Load (Basic result)) (Reg 1); at_line 3 Other Rest]].
Definition by_id (a b : ty) : bool := match a, b with Struct _ x, Struct _ y | Basic x, Basic y => negb (Nat.eqb x y) | _, _ => true end.
Definition info_s : dict string (string * string * Z) := [("s", ("/src", "a.h", 12%Z))]%string.
Lemma reading_ordered s x : Ordered (reading s x) (fun r => r).
Proof. intros r i q F. destruct r as [|[|[|[|r]]]]; cbn in F; try discriminate; injection F as <-; cbn; intros H; try discriminate. injection H as <-. lia. Qed.
Definition recorded_s : object := Type_differs "s" "f" "/src/a.h" "/src/a.h" 11 11 [("s (type)", "a.c", 5%Z)]%string [("s (type)", "a.c", 5%Z)]%string.
Example C141_example : type_reasons by_id info_s info_s 9 (reading (Struct (Some "struct.s"%string) 1) 4) (reading (Struct (Some "struct.s.7"%string) 2) 4)
    (at_line 2 (Load (Basic 4)) (Reg 1)) (at_line 2 (Load (Basic 4)) (Reg 1)) = Some [recorded_s] /\
  Ordered (reading (Struct (Some "struct.s"%string) 1) 4) (fun r => r) /\ NoDup (map i_id (concat (f_blocks (reading (Struct (Some "struct.s"%string) 1) 4)))).
Proof. split; [vm_compute; reflexivity|]. split; [apply reading_ordered|]. cbn. repeat constructor; cbn; intuition lia. Qed.
(** A structure with a number behind its name in the first module is not recorded, though it differs and both have debug info.
    The same holds for unions, whose debug info is not collected. *)
Theorem C141_number_refuted : exists l r, l = Struct (Some "struct.s.7"%string) 1 /\ r = Struct (Some "struct.s"%string) 2 /\ Same_name "struct.s.7" "struct.s" /\ by_id l r = true /\
  type_reasons by_id info_s info_s 9 (reading l 4) (reading r 4) (at_line 1 (Gep l) Rest) (at_line 1 (Gep r) Rest) = Some [].
Proof.
  eexists _, _. split; [reflexivity|]. split; [reflexivity|]. split; [exists "struct.s"%string; split; apply base_of_iff; reflexivity|]. split; vm_compute; reflexivity.
Qed.
Print Assumptions C141_number_refuted.
(** A type is recorded twice if a load is right behind its GEP and loads a value of another type. *)
Theorem C141_once_refuted : type_reasons by_id info_s info_s 9 (reading (Struct (Some "struct.s"%string) 1) 4) (reading (Struct (Some "struct.s"%string) 2) 6)
    (at_line 2 (Load (Basic 4)) (Reg 1)) (at_line 2 (Load (Basic 6)) (Reg 1)) = Some [recorded_s; recorded_s].
Proof. vm_compute. reflexivity. Qed.
Print Assumptions C141_once_refuted.
(** Two accesses with the same start: for the second, the types of the first are taken. *)
Definition branching (s t : ty) : func :=
  mkFunc "f" (Some ("a.c"%string, 5%Z)) [[at_line 1 (Gep (Basic 0)) Rest; at_line 2 (Gep (Struct None 0)) (Reg 1); at_line 3 (Gep s) (Reg 1); at_line 4 Other Rest]].
Theorem C141_branch_refuted : let s := Struct (Some "struct.s"%string) in
  Starts (branching (s 1) (s 1)) (Reg 3) (at_line 1 (Gep (Basic 0)) Rest) /\ by_id (s 1) (s 2) = true /\
  type_reasons by_id info_s info_s 9 (branching (s 1) (s 1)) (branching (s 2) (s 2)) (at_line 3 (Gep (s 1)) (Reg 1)) (at_line 3 (Gep (s 2)) (Reg 1)) = Some [].
Proof.
  split; [|split; [reflexivity|vm_compute; reflexivity]]. split; [eapply Leads_gep; [reflexivity|reflexivity|]; eapply Leads_here; reflexivity|]. intros h H. destruct (leads_reg _ _ _ H) as (r & E). discriminate.
Qed.
Print Assumptions C141_branch_refuted.
(** A GEP that uses itself (in code that is never reached) is searched for ever. *)
Theorem C141_ends_refuted : exists f, forall n, access_start n f (Reg 1) = None.
Proof. exists (mkFunc "f" None [[at_line 1 (Gep (Basic 0)) (Reg 1)]]). induction n as [|n IH]; [reflexivity|]. cbn [access_start find_inst find f_blocks concat app i_id at_line Nat.eqb i_kind i_op]. rewrite IH. reflexivity. Qed.
Print Assumptions C141_ends_refuted.
(** Structures with debug info in a function without it: a null pointer is followed. *)
Theorem C141_debug_refuted : let f t := mkFunc "f" None [[at_line 1 (Gep t) Rest; at_line 2 Other Rest]] in let s := Struct (Some "struct.s"%string) in
  type_reasons by_id info_s info_s 9 (f (s 1)) (f (s 2)) (at_line 1 (Gep (s 1)) Rest) (at_line 1 (Gep (s 2)) Rest) = None.
Proof. vm_compute. reflexivity. Qed.
Print Assumptions C141_debug_refuted.

(** ** C142: calls, macros and assembly *)
(** Everything that is recorded, in its order, and the calls that are to be inlined *)
Theorem C142_reasons n differ info_l info_r print_asm fl fr l r macros s s' :
  ~ In ""%string (i_macros l) -> ~ In ""%string (i_macros r) -> find_difference n differ info_l info_r print_asm fl fr l r macros s = Some s' ->
  exists asms funs types before, objects s' = objects s ++ macros ++ asms ++ funs ++ types /\
    (print_asm = true /\ Asm_differs l r -> counter s' = S (counter s) /\ exists o, asms = [o] /\ Asm_reason fl fr l r (counter s') o) /\
    (~ (print_asm = true /\ Asm_differs l r) -> counter s' = counter s /\ asms = []) /\
    Proposed l r (inline s) before /\ Macro_reason fl l r before funs (inline s') /\
    type_reasons differ info_l info_r n fl fr l r = Some types.
Proof.
  intros Xl Xr E. unfold find_difference in E. destruct (call_reasons print_asm fl fr l r (mkState (objects s ++ macros) (inline s) (counter s))) as [s1|] eqn:C; [|discriminate].
  destruct (type_reasons differ info_l info_r n fl fr l r) as [ts|] eqn:T; [|discriminate]. injection E as <-. cbn [objects inline counter].
  enough (H : exists asms funs before, objects s1 = (objects s ++ macros) ++ asms ++ funs /\
    (print_asm = true /\ Asm_differs l r -> counter s1 = S (counter s) /\ exists o, asms = [o] /\ Asm_reason fl fr l r (counter s1) o) /\
    (~ (print_asm = true /\ Asm_differs l r) -> counter s1 = counter s /\ asms = []) /\
    Proposed l r (inline s) before /\ Macro_reason fl l r before funs (inline s1)).
  { destruct H as (asms & funs & before & O & H1 & H2 & H3 & H4). exists asms, funs, ts, before. split; [rewrite O, <- !app_assoc; reflexivity|]. auto. }
  unfold call_reasons in C.
  assert (One : (forall a b, Calls l a -> Calls r b -> False) ->
     match macro_function fl l r (inline s) with Some (ms, i) => Some (mkState ((objects s ++ macros) ++ ms) i (counter s)) | None => None end = Some s1 ->
     exists asms funs before, objects s1 = (objects s ++ macros) ++ asms ++ funs /\
    (print_asm = true /\ Asm_differs l r -> counter s1 = S (counter s) /\ exists o, asms = [o] /\ Asm_reason fl fr l r (counter s1) o) /\
    (~ (print_asm = true /\ Asm_differs l r) -> counter s1 = counter s /\ asms = []) /\
    Proposed l r (inline s) before /\ Macro_reason fl l r before funs (inline s1)).
  { intros D Q. destruct (macro_function fl l r (inline s)) as [[ms i]|] eqn:M; [|discriminate]. injection Q as <-. cbn [objects inline counter].
    apply (macro_spec fl l r (inline s) ms i Xl Xr) in M as (_ & _ & M). exists [], ms, (inline s). split; [reflexivity|].
    split; [intros (_ & tl & al & tr & ar & (nl & A) & (nr & B) & _); destruct (D _ _ (ex_intro _ _ (ex_intro _ _ A)) (ex_intro _ _ (ex_intro _ _ B)))|]. split; [auto|].
    split; [|exact M]. split; [intros (a & b & A & B & _); destruct (D _ _ A B)|auto]. }
  assert (Zero : ~ (exists a, Calls l a) -> ~ (exists a, Calls r a) -> Some (mkState (objects s ++ macros) (inline s) (counter s)) = Some s1 ->
     exists asms funs before, objects s1 = (objects s ++ macros) ++ asms ++ funs /\
    (print_asm = true /\ Asm_differs l r -> counter s1 = S (counter s) /\ exists o, asms = [o] /\ Asm_reason fl fr l r (counter s1) o) /\
    (~ (print_asm = true /\ Asm_differs l r) -> counter s1 = counter s /\ asms = []) /\
    Proposed l r (inline s) before /\ Macro_reason fl l r before funs (inline s1)).
  { intros NL NR Q. injection Q as <-. cbn [objects inline counter]. exists [], [], (inline s). split; [rewrite !app_nil_r; reflexivity|].
    split; [intros (_ & tl & al & tr & ar & (nl & A) & _); destruct NL; eexists; eexists; eexists; exact A|]. split; [auto|]. split; [split; [intros (a & b & A & _); destruct NL; eauto|auto]|].
    apply No_macro. intros (_ & m & [(A & _)|(A & _)]); [apply NL; eauto|apply NR; eauto]. }
  cbn [objects inline counter] in C.
  destruct (i_kind l) as [tl|tl|tl|cl al argl|] eqn:Kl; destruct (i_kind r) as [tr|tr|tr|cr ar argr|] eqn:Kr;
    try (apply Zero; [intros (x & a & b & Q); congruence|intros (x & a & b & Q); congruence|exact C]);
    try (apply One; [intros x y (a & b & Q) (a' & b' & Q'); congruence|exact C]).
  destruct (if print_asm then asm_difference fl fr l r (counter s) else Some ([], counter s)) as [[os c]|] eqn:A; [|discriminate].
  destruct cl as [nl|]; [|discriminate]. destruct cr as [nr|]; [|discriminate].
  set (now := if negb (abstraction nl) && negb (abstraction nr) then Some (Some (i_id l), Some (i_id r)) else inline s) in *.
  destruct (macro_function fl l r now) as [[ms i]|] eqn:M; [|discriminate]. injection C as <-. cbn [objects inline counter].
  apply (macro_spec fl l r now ms i Xl Xr) in M as (_ & _ & M). exists os, ms, now. split; [reflexivity|].
  assert (P : Proposed l r (inline s) now).
  { unfold now. destruct (abstraction nl) eqn:Gl; cbn [negb andb].
    { split; [intros (a & b & (x & y & Q) & _ & N & _); rewrite Kl in Q; injection Q as <- <- <-; destruct N; apply abstraction_iff; exact Gl|auto]. }
    destruct (abstraction nr) eqn:Gr; cbn [negb].
    { split; [intros (a & b & _ & (x & y & Q) & _ & N); rewrite Kr in Q; injection Q as <- <- <-; destruct N; apply abstraction_iff; exact Gr|auto]. }
    split; [auto|]. intros H. destruct H. exists nl, nr. split; [exists al, argl; exact Kl|]. split; [exists ar, argr; exact Kr|]. split; intros Q; apply abstraction_iff in Q; congruence. }
  destruct print_asm.
  - destruct (asm_spec _ _ _ _ _ _ _ A) as (A1 & A2). split; [intros (_ & D); exact (A1 D)|]. split; [intros D; apply A2; intros Q; apply D; auto|]. auto.
  - injection A as <- <-. split; [intros (Q & _); discriminate|]. split; [auto|]. auto.
Qed.
Print Assumptions C142_reasons.
(** When it crashes: a call of an unknown function (in a call of both or of one), assembly code that differs in functions without debug
    info, and what C141 says about types *)
Theorem C142_crash n differ info_l info_r print_asm fl fr l r macros s : find_difference n differ info_l info_r print_asm fl fr l r macros s = None <->
  (Unknown l \/ Unknown r \/ (print_asm = true /\ Asm_differs l r /\ (f_debug fl = None \/ f_debug fr = None)) \/ type_reasons differ info_l info_r n fl fr l r = None).
Proof.
  unfold find_difference. set (s0 := mkState (objects s ++ macros) (inline s) (counter s)).
  enough (H : call_reasons print_asm fl fr l r s0 = None <-> Unknown l \/ Unknown r \/ (print_asm = true /\ Asm_differs l r /\ (f_debug fl = None \/ f_debug fr = None))).
  { destruct (call_reasons print_asm fl fr l r s0) as [s1|].
    - destruct (type_reasons differ info_l info_r n fl fr l r) as [ts|]; [|tauto]. split; [discriminate|]. intros [Q|[Q|[Q|Q]]]; try discriminate; assert (Some s1 = None) by (apply H; auto); discriminate.
    - split; [intros _|reflexivity]. destruct (proj1 H eq_refl) as [Q|[Q|Q]]; auto. }
  unfold call_reasons.
  assert (One : forall i, match macro_function fl l r i with Some (ms, i) => Some (mkState (objects s0 ++ ms) i (counter s0)) | None => None end = None <-> Unknown l \/ Unknown r).
  { intros i. rewrite <- (macro_none fl l r i). destruct (macro_function fl l r i) as [[]|]; split; intros; try discriminate; reflexivity. }
  assert (NA : (forall a b, Calls l a -> Calls r b -> False) -> ~ Asm_differs l r).
  { intros D (tl & al & tr & ar & (nl & A) & (nr & B) & _). exact (D _ _ (ex_intro _ _ (ex_intro _ _ A)) (ex_intro _ _ (ex_intro _ _ B))). }
  destruct (i_kind l) as [tl|tl|tl|cl al argl|] eqn:Kl; destruct (i_kind r) as [tr|tr|tr|cr ar argr|] eqn:Kr;
    try (rewrite One; assert (~ Asm_differs l r) by (apply NA; intros x y (a & b & Q) (a' & b' & Q'); congruence); tauto);
    try (split; [discriminate|]; intros [(a & b & Q)|[(a & b & Q)|(_ & (? & ? & ? & ? & (? & Q) & _) & _)]]; congruence).
  assert (Ul : Unknown l <-> cl = None) by (split; [intros (a & b & Q); congruence|intros ->; exists al, argl; exact Kl]).
  assert (Ur : Unknown r <-> cr = None) by (split; [intros (a & b & Q); congruence|intros ->; exists ar, argr; exact Kr]).
  destruct (if print_asm then asm_difference fl fr l r (counter s0) else Some ([], counter s0)) as [[os c]|] eqn:A.
  - assert (NX : ~ (print_asm = true /\ Asm_differs l r /\ (f_debug fl = None \/ f_debug fr = None))).
    { intros (-> & Q). assert (asm_difference fl fr l r (counter s0) = None) by (apply asm_none; exact Q). congruence. }
    destruct cl as [nl|]; [|split; [intros _; left; apply Ul; reflexivity|reflexivity]]. destruct cr as [nr|]; [|split; [intros _; right; left; apply Ur; reflexivity|reflexivity]].
    match goal with |- match macro_function fl l r ?i with _ => _ end = None <-> _ => pose proof (macro_none fl l r i) as MN; destruct (macro_function fl l r i) as [[]|] end; [|tauto].
    split; [discriminate|]. intros [Q|[Q|Q]]; [apply Ul in Q; discriminate|apply Ur in Q; discriminate|contradiction].
  - split; [intros _|reflexivity]. destruct print_asm; [|discriminate]. apply asm_none in A. auto.
Qed.
Print Assumptions C142_crash.
(** What was recorded stays, in front; all that is added (but by macros) is in the first function. *)
Theorem C142_kept n differ info_l info_r print_asm fl fr l r macros s s' :
  ~ In ""%string (i_macros l) -> ~ In ""%string (i_macros r) -> find_difference n differ info_l info_r print_asm fl fr l r macros s = Some s' ->
  exists new, objects s' = objects s ++ macros ++ new /\ forall o, In o new -> In_function o (f_name fl).
Proof.
  intros Xl Xr E. destruct (C142_reasons _ _ _ _ _ _ _ _ _ _ _ _ Xl Xr E) as (asms & funs & types & before & O & A1 & A2 & P & M & T). exists (asms ++ funs ++ types). split; [exact O|].
  intros o I. apply in_app_iff in I as [I|I]; [|apply in_app_iff in I as [I|I]].
  - destruct (asms) as [|x xs]; [destruct I|].
    assert (N : print_asm = true /\ Asm_differs l r).
    { unfold find_difference, call_reasons in E. destruct print_asm; [|destruct A2 as (_ & Q); [intros (Q & _); discriminate|discriminate]].
      split; [reflexivity|]. clear E. destruct (asm_difference fl fr l r 0) as [[os c]|] eqn:AA.
      - destruct (asm_spec _ _ _ _ _ _ _ AA) as (B1 & B2). unfold asm_difference in AA.
        destruct (i_kind l) as [?|?|?|[nl|] al argl|] eqn:Kl; try (destruct A2 as (_ & Q); [intros (_ & ? & ? & ? & ? & (? & A) & _); congruence|discriminate]).
        destruct (i_kind r) as [?|?|?|[nr|] ar argr|] eqn:Kr; try (destruct A2 as (_ & Q); [intros (_ & ? & ? & ? & ? & _ & (? & A) & _); congruence|discriminate]).
        destruct (startswith nl asm_prefix) eqn:Pl; cbn [andb] in AA; [|destruct A2 as (_ & Q); [intros (_ & ? & ? & ? & ? & A & _); apply asm_iff in A as (? & A & B); rewrite Kl in A; injection A as <- <- <-; congruence|discriminate]].
        destruct (startswith nr asm_prefix) eqn:Pr; cbn [andb] in AA; [|destruct A2 as (_ & Q); [intros (_ & ? & ? & ? & ? & _ & A & _); apply asm_iff in A as (? & A & B); rewrite Kr in A; injection A as <- <- <-; congruence|discriminate]].
        destruct (String.eqb_spec al ar) as [Z|Z]; [destruct A2 as (_ & Q); [intros (_ & ? & ? & ? & ? & A & B & D); apply asm_iff in A as (? & A & _); apply asm_iff in B as (? & B & _); congruence|discriminate]|].
        exists al, argl, ar, argr. split; [|split]; [apply asm_iff; eauto|apply asm_iff; eauto|exact Z].
      - apply asm_none in AA. tauto. }
    destruct (A1 N) as (_ & y & Y & (tl & al & tr & ar & nl & nr & d & sl & sr & _ & _ & _ & _ & _ & _ & _ & _ & W)). injection Y as -> ->. destruct I as [<-|[]]. rewrite W. reflexivity.
  - destruct M; cbn in I; destruct I as [<-|[]] || destruct I; reflexivity.
  - unfold type_reasons in T.
    assert (G : forall a b os, types_between differ info_l info_r fl fr a b = Some os -> In o os -> In_function o (f_name fl)).
    { intros [[a|]|] [[b|]|] os Q J; cbn [types_between] in Q; try discriminate; try (injection Q as <-; destruct J).
      apply (types_iff differ info_l info_r fl fr _ _ os Q) in J as (k & tl & tr & _ & _ & (? & ? & ? & ? & ? & ? & ? & ? & ? & ? & ? & ? & ? & ? & ? & ? & ? & _ & _ & _ & _ & _ & _ & _ & _ & _ & _ & _ & ->)). reflexivity. }
    destruct (types_between differ info_l info_r fl fr (access_of n fl l) (access_of n fr r)) as [a|] eqn:Q; [|discriminate].
    assert (Plain : Some a = Some types -> In_function o (f_name fl)) by (intros Z; injection Z as <-; eapply G; eassumption).
    destruct (i_kind l) as [?|?|t|? ? ?|]; try (apply Plain; exact T). destruct (i_kind r) as [?|?|u|? ? ?|]; try (apply Plain; exact T). destruct (differ t u); [|apply Plain; exact T].
    destruct (types_between differ info_l info_r fl fr (access_start n fl (i_op l)) (access_start n fr (i_op r))) as [b|] eqn:Q'; [|discriminate]. injection T as <-. apply in_app_iff in I as [I|I]; [exact (G _ _ _ Q I)|exact (G _ _ _ Q' I)].
Qed.
Print Assumptions C142_kept.
(** Differences of assembly code get different names, in the comparison of all functions. *)
Lemma counter_step n differ info_l info_r print_asm fl fr l r macros s s' : find_difference n differ info_l info_r print_asm fl fr l r macros s = Some s' -> counter s <= counter s'.
Proof.
  unfold find_difference. destruct (call_reasons print_asm fl fr l r (mkState (objects s ++ macros) (inline s) (counter s))) as [s1|] eqn:C; [|discriminate].
  destruct (type_reasons differ info_l info_r n fl fr l r); [|discriminate]. intros E. injection E as <-. cbn [counter].
  unfold call_reasons in C. cbn [objects inline counter] in C.
  destruct (i_kind l) as [tl|tl|tl|cl al argl|] eqn:Kl; destruct (i_kind r) as [tr|tr|tr|cr ar argr|] eqn:Kr; try (injection C as <-; apply le_n);
    try (destruct (macro_function fl l r (inline s)) as [[ms i]|]; [|discriminate]; injection C as <-; apply le_n).
  destruct (if print_asm then asm_difference fl fr l r (counter s) else Some ([], counter s)) as [[os c]|] eqn:A; [|discriminate].
  destruct cl as [nl|]; [|discriminate]. destruct cr as [nr|]; [|discriminate]. match type of C with match ?m with _ => _ end = _ => destruct m as [[ms i]|]; [|discriminate] end. injection C as <-. cbn [counter].
  destruct print_asm; [|injection A as <- <-; apply le_n]. unfold asm_difference in A. rewrite Kl, Kr in A. destruct (_ && _ && _); [|injection A as <- <-; apply le_n].
  destruct (f_debug fl) as [[]|]; [|discriminate]. destruct (f_debug fr) as [[]|]; [|discriminate]. injection A as <- <-. lia.
Qed.
Lemma counter_later s s' : Later s s' -> counter s <= counter s'.
Proof. induction 1 as [s|n differ il ir pa fl fr l r m s s1 s2 E _ IH|s os s2 _ IH]; [apply le_n|apply counter_step in E; lia|exact IH]. Qed.
Theorem C142_names n differ info_l info_r print_asm fl fr l r macros s s1 s2 n' differ' info_l' info_r' print_asm' fl' fr' l' r' macros' s3 o o' name name' :
  find_difference n differ info_l info_r print_asm fl fr l r macros s = Some s1 -> Later s1 s2 ->
  find_difference n' differ' info_l' info_r' print_asm' fl' fr' l' r' macros' s2 = Some s3 -> counter s2 < counter s3 ->
  Asm_reason fl fr l r (counter s1) o -> Asm_reason fl' fr' l' r' (counter s3) o' -> Name_of o name -> Name_of o' name' -> name <> name'.
Proof.
  intros E1 L E2 C (? & ? & ? & ? & ? & ? & d & ? & ? & _ & _ & _ & _ & _ & N & _ & _ & ->) (? & ? & ? & ? & ? & ? & d' & ? & ? & _ & _ & _ & _ & _ & N' & _ & _ & ->) X Y Z. cbn in X, Y. subst name name'. cbn in Z.
  injection Z as Z. subst d'. pose proof (number_fun _ _ _ N N') as Q. apply counter_later in L. lia.
Qed.
Print Assumptions C142_names.

Definition call (id : nat) (f asm : string) (args macros : list string) : inst := mkInst id (Call (Some f) asm args) Rest "x = get(y);" macros "a.c" 7.
Definition caller : func := mkFunc "f" (Some ("a.c"%string, 5%Z)) [].
Definition empty : state := mkState [] None 4.
(** A function of the first version is a macro in the second; and assembly code that differs *)
Example C142_example :
  find_difference 9 by_id [] [] true caller caller (call 1 "get" "" [] []) (call 2 "load" "" [] ["get"%string]) [] empty =
    Some (mkState [Syntax "get" "f" "[macro function difference]" "[macro function difference]" [("get", "a.c", 7%Z)]%string [("get (macro)", "a.c", 7%Z)]%string] (Some (Some 1, None)) 4) /\
  find_difference 9 by_id [] [] true caller caller (call 1 "simpll__inlineasm.1" "nop" ["a"; "b"]%string []) (call 2 "simpll__inlineasm.2" "pause" ["a"%string] []) [] empty =
    Some (mkState [Syntax "assembly code 5" "f" "nop (args: a, b)" "pause (args: a)" [("(generated assembly code)", "a.c", 5%Z)]%string [("(generated assembly code)", "a.c", 5%Z)]%string] None 5).
Proof. split; vm_compute; reflexivity. Qed.
(** Not recorded: assembly code that differs in its arguments only; and the second of two functions that are macros on the other side. *)
Theorem C142_arguments_refuted : find_difference 9 by_id [] [] true caller caller (call 1 "simpll__inlineasm.1" "nop" ["a"%string] []) (call 2 "simpll__inlineasm.2" "nop" ["b"%string] []) [] empty = Some empty.
Proof. vm_compute. reflexivity. Qed.
Print Assumptions C142_arguments_refuted.
Theorem C142_both_refuted : let l := call 1 "get" "" [] ["load"%string] in let r := call 2 "load" "" [] ["get"%string] in Macro_in r l "load" /\
  exists s', find_difference 9 by_id [] [] true caller caller l r [] empty = Some s' /\ forall o, In o (objects s') -> ~ Name_of o "load".
Proof.
  cbn zeta. split; [split; [exists ""%string, []; reflexivity|split; cbn; [intros [Q|[]]; discriminate|auto]]|]. eexists. split; [vm_compute; reflexivity|].
  cbn. intros o [<-|[]]. cbn. discriminate.
Qed.
Print Assumptions C142_both_refuted.
