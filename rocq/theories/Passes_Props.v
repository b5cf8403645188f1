(** * Passes before the comparison: C106, C107, C108, C109, C110 *)
From Coq Require Import String Ascii ZArith Arith Bool Lia List Permutation.
From Verif Require Import PyBase Funcomp_Model Funcomp_Spec Source_Model Source_Spec Source_Proofs Passes_Model Passes_Spec Passes_Sim Passes_Merge Passes_Runs Passes_Called Passes_Abstract Passes_Void Slice_Spec Passes_Calls Passes_Asserts.
Import ListNotations.
Open Scope list_scope.
Open Scope nat_scope.

(** ** A meaning of the IR, for the examples: numbers and addresses of functions; memory is the list
    of the calls of functions without body that were made, with their arguments. *)
Inductive val := Num (z : Z) | Addr (f : string) | Undef.
Definition val_of (c : const) : val := match c with CInt z => Num z | CGlobal g => Addr g end.
Definition points (v : val) : option string := match v with Addr f => Some f | _ => None end.
Definition plus (a b : val) : val := match a, b with Num x, Num y => Num (x + y) | _, _ => Undef end.
Definition machine : semantics := mkSem val (list (list val)) Undef val_of val_of
  (fun c _ vs m => match c with Call => Some (Num 0, m ++ [removelast vs]) | Binop _ => Some (fold_right plus (Num 0) vs, m) | _ => Some (Undef, m) end)
  (fun _ _ vs => match vs with Num 0 :: _ => Some 1 | _ => Some 0 end).
Definition call r n args := mkInst r Call "" (args ++ [VConst (CGlobal n)]).
Definition int z := VConst (CInt z).
Definition ret r vs := mkInst r Ret "" vs.
Definition add r a b := mkInst r (Binop "add") "" [a; b].
Definition code_of (l : list inst) : option func := Some (mkFunc "" 1 [(0, l)]).
Definition i32 : ftype := mkType "i32" ["i32"%string] false.
Definition fn id name l : gfun := mkGfun id name i32 None (code_of l).
Definition declared id name t : gfun := mkGfun id name t None None.
Definition on (m : gmodule) (id : string) : option (outcome val (list (list val))) := does machine val_of points m 9 id (fun _ => Num 5) [].

(** ** C106: functions with numbered names *)

Section C106.
  Variable unique : list string -> string -> string.
  Variable order : dict string (list gfun) -> list (string * list gfun).
  Hypothesis orders : forall d, Permutation (order d) d.
  Theorem C106_kept m : NoDup (map g_id m) -> exists sub, merging m sub /\
    Forall2 (but_name sub) (filter (fun g => String.eqb (sub (g_id g)) (g_id g)) m) (merge_numbered unique order m).
  Proof. intros ND. apply merge_kept; [exact ND|apply orders]. Qed.
  Theorem C106_names m g' : NoDup (map g_id m) -> names_agree m -> In g' (merge_numbered unique order m) ->
    exists g, In g m /\ g_id g = g_id g' /\
      ((exists base, shares m base g /\ g_name g' = base) \/ (forall base, ~ shares m base g) /\ g_name g' = g_name g).
  Proof. intros ND A I. apply (merge_names m ND (order (groups m)) (orders _) unique A g' I). Qed.
  Theorem C106_same_runs m : NoDup (map g_id m) -> exists sub, merging m sub /\
    forall S consts target RV RM, copies_only S consts target m sub RV RM ->
    forall n id args args' mem mem', (forall k, RV (args k) (args' k)) -> RM mem mem' ->
    both (outcomes (Forall2 RV) RM) (does S consts target m n id args mem) (does S consts target (merge_numbered unique order m) n (sub id) args' mem').
  Proof.
    intros ND. destruct (C106_kept m ND) as (sub & M & F). exists sub. split; [exact M|]. intros S consts target RV RM C n id args args' mem mem' A R.
    apply (merged_runs S consts target m _ sub RV RM ND M F C); assumption.
  Qed.
End C106.
Print Assumptions C106_kept.
Print Assumptions C106_names.
Print Assumptions C106_same_runs.

Definition suffixed (others : list string) (n : string) : string := (n ++ ".7")%string.
Definition merge := merge_numbered suffixed (fun d => d).
(** Two copies of a function, which the main function calls and to which it passes pointers. *)
Definition numbered_module : gmodule :=
  [fn "main" "main" [call 0 "f1" [VArg 0]; call 1 "f2" [VReg 0]; call 2 "log" [VConst (CGlobal "f2"); VReg 1]; ret 3 [VReg 1]];
   fn "f1" "f.1" [add 0 (VArg 0) (int 1); call 1 "log" [VArg 0]; ret 2 [VReg 0]];
   fn "f2" "f.2" [add 0 (VArg 0) (int 1); call 1 "log" [VArg 0]; ret 2 [VReg 0]];
   declared "log" "log" i32].
Definition only_first (x : string) : string := if String.eqb x "f2" then "f1"%string else x.
Definition readdress (v : val) : val := match v with Addr f => Addr (only_first f) | v => v end.
Lemma base_name_spec n : base_of n (base_name n).
Proof. apply base_of_iff. reflexivity. Qed.
Lemma base_of_unique n a b : base_of n a -> base_of n b -> a = b.
Proof. intros A B. apply base_of_iff in A, B. congruence. Qed.
Lemma numbered_merged b a : merged numbered_module b a -> g_id b = "f2"%string /\ g_id a = "f1"%string.
Proof.
  intros (I & N & _ & base & B & (m1 & m2 & E & X & B2 & F) & _).
  assert (BB : base = base_name (g_name b)) by (apply (base_of_unique (g_name b)); [exact B|apply base_name_spec]).
  assert (BA : base = base_name (g_name a)) by (apply (base_of_unique (g_name a)); [exact B2|apply base_name_spec]).
  assert (Ia : In a numbered_module) by (rewrite E; apply in_or_app; right; left; reflexivity).
  assert (EB : base_name (g_name b) = base_name (g_name a)) by congruence.
  cbn in I, Ia. destruct I as [<-|[<-|[<-|[<-|[]]]]], Ia as [<-|[<-|[<-|[<-|[]]]]]; vm_compute in EB; try discriminate; try (exfalso; apply N; reflexivity); auto.
  exfalso. unfold numbered_module in E. destruct m1 as [|x1 [|x2 m1]]; cbn [app] in E; [discriminate E|discriminate E|]. injection E as E1 E2 E3. apply (F (fn "f1" "f.1" [add 0 (VArg 0) (int 1); call 1 "log" [VArg 0]; ret 2 [VReg 0]])).
  - right. left. symmetry. exact E2.
  - apply mergeable_iff. reflexivity.
  - rewrite BB. apply base_name_spec.
Qed.
Lemma numbered_first : first_named numbered_module "f" (fn "f1" "f.1" [add 0 (VArg 0) (int 1); call 1 "log" [VArg 0]; ret 2 [VReg 0]]).
Proof.
  eexists [_], [_; _]. split; [reflexivity|]. split; [apply mergeable_iff; reflexivity|]. split; [apply (base_name_spec "f.1")|]. intros h [<-|[]] _ B.
  assert (X := base_of_unique "main" _ _ B (base_name_spec "main")). vm_compute in X. discriminate.
Qed.
Lemma numbered_pair : exists b a, merged numbered_module b a /\ g_id b = "f2"%string /\ g_id a = "f1"%string.
Proof.
  do 2 eexists. split; [|split; [|]]; [split; [right; right; left; reflexivity|]|reflexivity| ].
  2:{ instantiate (1 := fn "f1" "f.1" [add 0 (VArg 0) (int 1); call 1 "log" [VArg 0]; ret 2 [VReg 0]]). reflexivity. }
  split; [discriminate|]. split; [apply mergeable_iff; reflexivity|]. exists "f"%string. split; [apply (base_name_spec "f.2")|]. split; [apply numbered_first|reflexivity].
Qed.
Example C106_merging_met : merging numbered_module only_first.
Proof.
  split.
  - intros b a H. destruct (numbered_merged b a H) as [-> ->]. reflexivity.
  - intros x H. unfold only_first. destruct (String.eqb_spec x "f2") as [->|N]; [|reflexivity]. destruct numbered_pair as (b & a & P & Q & _). exfalso. exact (H b a P Q).
Qed.
Lemma readdress_list vs vs' : Forall2 (fun v v' => v' = readdress v) vs vs' -> vs' = map readdress vs.
Proof. intros H. induction H; cbn; congruence. Qed.
Example C106_copies_met : copies_only machine val_of points numbered_module only_first (fun v v' => v' = readdress v) (fun m m' => m' = map (map readdress) m).
Proof.
  constructor.
  - reflexivity.
  - intros []; reflexivity.
  - intros v v' ->. destruct v; reflexivity.
  - intros c rest vs vs' H. destruct H as [|v v' vs vs' -> H]; [reflexivity|]. destruct v as [[]| |]; reflexivity.
  - intros c rest vs vs' mem mem' H -> _. apply readdress_list in H as ->. assert (P : fold_right plus (Num 0) (map readdress vs) = readdress (fold_right plus (Num 0) vs)).
    { induction vs as [|v vs IH]; [reflexivity|]. cbn [fold_right map]. rewrite IH. destruct v, (fold_right plus (Num 0) vs); reflexivity. }
    destruct c; cbn; auto. split; [reflexivity|]. rewrite map_app. cbn [map]. do 2 f_equal. clear. induction vs as [|v [|w vs] IH]; [reflexivity|reflexivity|]. cbn [map removelast] in *. rewrite IH. reflexivity.
  - intros b a H. destruct (numbered_merged b a H) as [-> ->]. cbn. reflexivity.
Qed.
Example C106_runs_met : on numbered_module "main" = Some (Returned [Num 7] [[Num 5]; [Num 6]; [Addr "f2"; Num 7]]) /\
  on (merge numbered_module) "main" = Some (Returned [Num 7] [[Num 5]; [Num 6]; [Addr "f1"; Num 7]]) /\ map g_name (merge numbered_module) = ["main"; "f"; "log"]%string.
Proof. repeat split; vm_compute; reflexivity. Qed.
Example C106_names_met : names_agree numbered_module.
Proof.
  intros g h I J _ B. assert (X := base_of_unique _ _ _ B (base_name_spec (g_name g))). cbn in I, J. destruct I as [<-|[<-|[<-|[<-|[]]]]], J as [<-|[<-|[<-|[<-|[]]]]]; vm_compute in X; try discriminate;
    (split; [apply mergeable_iff; reflexivity|split; [|reflexivity]]); [exact (base_name_spec "main")|exact (base_name_spec "log")].
Qed.
(** What merged functions do is not compared: if it differs, runs differ. *)
Definition different_bodies : gmodule :=
  [fn "main" "main" [call 0 "f2" [VArg 0]; ret 1 [VReg 0]]; fn "f1" "f.1" [ret 0 [int 1]]; fn "f2" "f.2" [ret 0 [int 2]]].
Theorem C106_bodies_refuted : on different_bodies "main" = Some (Returned [Num 2] []) /\ on (merge different_bodies) "main" = Some (Returned [Num 1] []).
Proof. split; vm_compute; reflexivity. Qed.
Print Assumptions C106_bodies_refuted.
(** If the first one is a declaration, the definitions are lost. *)
Definition first_declared : gmodule := [declared "f" "f" i32; fn "f1" "f.1" [ret 0 [int 2]]].
Theorem C106_definition_refuted : merge first_declared = [declared "f" "f" i32].
Proof. vm_compute. reflexivity. Qed.
Print Assumptions C106_definition_refuted.
(** A function keeps the suffix if it is the only one with it, or gets another one if a function of
    another type has the name. *)
Theorem C106_suffix_refuted :
  map g_name (merge [fn "f1" "f.1" []]) = ["f.1"%string] /\
  map g_name (merge [fn "f1" "f.1" []; fn "f2" "f.2" []; declared "f" "f" (mkType "void" [] false)]) = ["f.7"; "f"]%string.
Proof. split; vm_compute; reflexivity. Qed.
Print Assumptions C106_suffix_refuted.

(** ** C107: the functions that may be called *)

Theorem C107_called m main n l : callees_operands m -> called_functions m n main = Some l -> NoDup l /\ forall f, In f l <-> may_call m main f.
Proof. intros C E. exact (called_iff m C n main l E). Qed.
Print Assumptions C107_called.
Theorem C107_terminates m main : exists n, forall k, n <= k -> exists l, called_functions m k main = Some l.
Proof. apply called_ends. Qed.
Print Assumptions C107_terminates.
(** The main function reads a constant table with the address of [handler], which calls the main
    function and takes the address of another one by an alias; it writes to a variable whose first
    value is [lost]. *)
Definition tables : kmodule :=
  mkK [("main", [(None, [KVar "table"]); (None, [KVar "state"])]); ("handler", [(Some (KFun "main"), [KFun "main"]); (None, [KAlias (KCast (KFun "other"))])]); ("other", []); ("lost", [])]%string
      [("table", (true, Some (KOther [KPlain 0; KCast (KFun "handler")]))); ("state", (false, Some (KFun "lost")))]%string.
Example C107_met : callees_operands tables /\ called_functions tables 20 "main" = Some ["other"; "handler"; "main"]%string /\ ~ may_call tables "main" "lost".
Proof.
  assert (C : callees_operands tables).
  { intros g l i c I J E. cbn in I. destruct I as [I|[I|[I|[I|[]]]]]; injection I as <- <-; cbn in J; try contradiction; destruct J as [<-|[<-|[]]]; cbn in E; try discriminate. injection E as <-. left. reflexivity. }
  assert (R : called_functions tables 20 "main" = Some ["other"; "handler"; "main"]%string) by (vm_compute; reflexivity).
  split; [exact C|]. split; [exact R|]. intros H. apply (proj2 (C107_called tables _ _ _ C R)) in H. cbn in H. repeat destruct H as [H|H]; try discriminate. contradiction.
Qed.

(** ** C108: abstractions of indirect calls and of inline assembly *)

Theorem C108_abstractions type_name call_type assembly known pointer called m m' d :
  abstractions type_name call_type assembly known pointer called m = (m', d) ->
  exists abs A N, m' = A ++ N /\
    Forall2 (fun g g' => g_id g' = g_id g /\ g_name g' = g_name g /\ g_type g' = g_type g /\ g_asm g' = g_asm g /\
      (In (g_id g) called -> both (abstracted_func assembly known abs) (g_body g) (g_body g')) /\ (~ In (g_id g) called -> g' = g)) m A /\
    NoDup (map g_name N) /\
    (forall e, In e N -> exists i, occurs m called i /\ indirect known i /\ abs i = g_id e /\ declares call_type assembly pointer i e) /\
    (forall i, occurs m called i -> indirect known i -> exists e, In e N /\ g_id e = abs i) /\
    (plain_types call_type assembly type_name -> forall i j, occurs m called i -> occurs m called j -> indirect known i -> indirect known j -> (abs i = abs j <-> same_call call_type assembly i j)).
Proof.
  intros E. destruct (whole _ _ _ _ _ _ _ _ _ E) as (s & G & -> & C). exists (abs type_name call_type assembly s), (map (fin_fun type_name call_type assembly known called s) m), (a_new s).
  split; [reflexivity|]. split; [|split; [|split; [|split]]].
  - assert (G2 : good type_name call_type assembly known pointer (fun _ => True) s).
    { destruct G as [G1 G2 G3]. constructor; [exact G1|exact G2|]. intros k h n K. destruct (G3 k h n K) as (j & J). exists j. tauto. }
    clear -G2. induction m as [|h m IH]; cbn [map]; constructor; [|exact IH]. unfold fin_fun. destruct (g_body h) as [f|] eqn:B; [destruct (mem (g_id h) called) eqn:M|].
    + repeat (split; [reflexivity|]). cbn [g_body with_body]. split; [intros _; apply (fin_func _ _ _ _ _ _ _ _ G2)|]. intros N. apply mem_In in M. contradiction.
    + repeat (split; [reflexivity|]). split; [intros I; apply mem_In in I; congruence|reflexivity].
    + repeat (split; [reflexivity|]). rewrite B. split; [intros _; exact I|reflexivity].
  - destruct G as [_ GL GE]. assert (NM : forall k e, nth_error (a_new s) k = Some e -> exists j, g_name e = (prefix_for assembly j ++ Compare_Model.dec k)%string).
    { intros k e K. assert (L : k < length (a_map s)) by (rewrite GL; apply nth_error_Some; congruence). destruct (nth_error (a_map s) k) as [[h n]|] eqn:Q; [|apply nth_error_None in Q; lia].
      destruct (GE k h n Q) as (j & _ & _ & _ & -> & D). rewrite K in D. injection D as ->. exists j. reflexivity. }
    apply NoDup_nth_error. intros a b L Q. rewrite map_length in L. rewrite !nth_error_map in Q.
    destruct (nth_error (a_new s) a) as [x|] eqn:Ea; [|apply nth_error_None in Ea; lia]. destruct (nth_error (a_new s) b) as [y|] eqn:Eb; [|discriminate]. cbn in Q. injection Q as Q.
    destruct (NM a x Ea) as [j Nj], (NM b y Eb) as [k Nk]. apply (prefix_inj assembly j k). congruence.
  - intros e I. apply In_nth_error in I as [k K]. pose proof G as [GK GL GE]. assert (L : k < length (a_map s)) by (rewrite GL; apply nth_error_Some; congruence). destruct (nth_error (a_map s) k) as [[h n]|] eqn:Q; [|apply nth_error_None in Q; lia].
    destruct (GE k h n Q) as (j & O & ND & -> & -> & D). rewrite K in D. injection D as ->. exists j. split; [exact O|]. split; [apply needs_iff; exact ND|]. split; [|apply decl_ok].
    unfold abs. rewrite (dget_In_NoDup _ _ _ GK (nth_error_In _ _ Q)). reflexivity.
  - intros i O X. apply needs_iff in X. destruct (abs_get _ _ _ _ _ _ _ _ G (C i O) X) as (k & j & _ & _ & _ & _ & _ & K). eexists. split; [apply (nth_error_In _ _ K)|reflexivity].
  - intros P i j Oi Oj Xi Xj. apply needs_iff in Xi, Xj. rewrite (abs_inj _ _ _ _ _ _ _ _ _ G (C i Oi) (C j Oj) Xi Xj). apply hash_iff. exact P.
Qed.
Print Assumptions C108_abstractions.

(** The main function calls a pointer twice, with one type, and two pieces of assembly. *)
Definition some_type (i : inst) : ftype := if String.eqb (i_rest i) "void" then mkType "void" ["i32"%string] false else i32.
Definition type_text (t : ftype) : string := (t_ret t ++ "(i32)")%string.
Definition some_asm (g : string) : option (string * string) :=
  if String.eqb g "P" then Some ("nop", "r")%string else if String.eqb g "Q" then Some ("hlt", "r")%string else None.
Definition pointers : gmodule :=
  [fn "main" "main" [mkInst 0 Call "" [int 1; VArg 0]; mkInst 1 Call "" [VReg 0; VArg 0]; mkInst 2 Call "void" [int 1; VArg 0]; call 3 "P" [VReg 1]; call 4 "Q" [VReg 1]; call 5 "main" [VReg 4]; ret 6 [VReg 5]];
   fn "other" "other" [mkInst 0 Call "" [int 1; VArg 0]; ret 1 [VReg 0]]].
Definition abstracted_module := abstractions type_text some_type some_asm (fun g => mem g ["main"; "other"]%string) "ptr" ["main"%string] pointers.
Example C108_met : plain_types some_type some_asm type_text /\
  map g_name (fst abstracted_module) = ["main"; "other"; "simpll__indirect.0"; "simpll__indirect.1"; "simpll__inlineasm.2"; "simpll__inlineasm.3"]%string /\
  map (fun g => option_map (fun f => map i_ops (insts f)) (g_body g)) (fst abstracted_module) =
    [Some [[int 1; VArg 0; VConst (CGlobal "simpll__indirect.0")]; [VReg 0; VArg 0; VConst (CGlobal "simpll__indirect.0")]; [int 1; VArg 0; VConst (CGlobal "simpll__indirect.1")];
           [VReg 1; VConst (CGlobal "simpll__inlineasm.2")]; [VReg 1; VConst (CGlobal "simpll__inlineasm.3")]; [VReg 4; VConst (CGlobal "main")]; [VReg 5]];
     Some [[int 1; VArg 0]; [VReg 0]]; None; None; None; None].
Proof.
  split; [|split; vm_compute; reflexivity]. unfold some_type. split; [|split].
  - intros i j. destruct (String.eqb (i_rest i) "void"), (String.eqb (i_rest j) "void"); vm_compute; congruence.
  - intros i a b E. assert (X : contains (type_text (if String.eqb (i_rest i) "void" then mkType "void" ["i32"%string] false else i32)) "$" = true) by (apply contains_spec; exists a, b; exact E).
    destruct (String.eqb (i_rest i) "void"); vm_compute in X; discriminate.
  - intros g c k E a b K. assert (X : contains k "$" = true) by (apply contains_spec; exists a, b; exact K). unfold some_asm in E. destruct (String.eqb g "P"); [|destruct (String.eqb g "Q"); [|discriminate]]; injection E as _ <-; vm_compute in X; discriminate.
Qed.
(** Different assembly gets one abstraction if dollar signs are in the code and in the constraints. *)
Definition dollars (g : string) : option (string * string) :=
  if String.eqb g "P" then Some ("a$b", "c")%string else if String.eqb g "Q" then Some ("a", "b$c")%string else None.
Theorem C108_dollar_refuted :
  let m := [fn "main" "main" [call 0 "P" [int 1]; call 1 "Q" [int 1]; ret 2 []]] in
  ~ same_call some_type dollars (call 0 "P" [int 1]) (call 1 "Q" [int 1]) /\
  map (fun g => option_map (fun f => map i_ops (insts f)) (g_body g)) (fst (abstractions type_text some_type dollars (fun g => mem g ["main"]%string) "ptr" ["main"%string] m)) =
    [Some [[int 1; VConst (CGlobal "simpll__inlineasm.0")]; [int 1; VConst (CGlobal "simpll__inlineasm.0")]; []]; None].
Proof.
  split; [|vm_compute; reflexivity]. intros [_ H]. assert (X : calls_asm dollars (call 0 "P" [int 1]) (Some ("a$b", "c")%string)) by (left; exists [int 1], "P"%string; repeat split; discriminate).
  apply H in X. destruct X as [(ops & g & E & A & _)|[X _]]; [|discriminate]. cbn in E. change ([int 1; VConst (CGlobal "Q")]) with ([int 1] ++ [VConst (CGlobal "Q")]) in E. apply app_inj_tail in E as [_ E]. injection E as <-. discriminate.
Qed.
Print Assumptions C108_dollar_refuted.
(** Abstractions of assembly are the same for the comparison only if the assembly is. *)
Theorem C108_compared l r a b : g_name l = ("simpll__inlineasm." ++ a)%string -> g_name r = ("simpll__inlineasm." ++ b)%string -> same_functions l r = true ->
  exists code constraints, g_asm l = Some (code, constraints) /\ g_asm r = Some (code, constraints).
Proof.
  intros El Er. unfold same_functions. assert (S : forall g x, g_name g = ("simpll__inlineasm." ++ x)%string -> startswith (g_name g) "simpll__inlineasm." = true) by (intros g x E; apply startswith_spec; exists x; exact E).
  rewrite (S l a El), (S r b Er). cbn [andb]. destruct (_ || _); [|discriminate]. unfold same_asm. destruct (g_asm l) as [[x y]|], (g_asm r) as [[z w]|]; try discriminate. intros H. apply andb_true_iff in H as [H1 H2]. apply String.eqb_eq in H1, H2. subst. eauto.
Qed.
Print Assumptions C108_compared.
Example C108_compared_met : same_functions (mkGfun "a" "simpll__inlineasm.2" i32 (some_asm "P") None) (mkGfun "b" "simpll__inlineasm.5" i32 (some_asm "P") None) = true /\
  same_functions (mkGfun "a" "simpll__inlineasm.2" i32 (some_asm "P") None) (mkGfun "b" "simpll__inlineasm.2" i32 (some_asm "Q") None) = false.
Proof. split; vm_compute; reflexivity. Qed.

(** ** C109: results that are not used *)

Section C109.
  Variable unique : list string -> string -> string.
  Variable void_rest : string -> string.
  Variable fresh : list string -> string -> string.
  Theorem C109_changes other called m : (forall ids id, ~ In (fresh ids id) ids) -> NoDup (map g_name other) -> NoDup (map g_id m) ->
    exists l A B, remove_unused unique void_rest fresh other called m = A ++ B /\ NoDup (map g_id (A ++ B)) /\
      Forall2 (still void_rest l) m A /\
      Forall2 (fun p b => exists g, In g m /\ void_elsewhere other called g /\ g_id g = fst p /\ g_id b = snd p /\ without_result void_rest l g b) l B /\
      (forall g h f i, In g m -> void_elsewhere other called g -> In h A -> g_id h <> g_id g -> g_body h = Some f -> In i (insts f) -> calls_function (g_id g) i -> ~ unused f i).
  Proof.
    intros FR NO ND. destruct (pass_shape void_rest unique fresh FR other m called NO ND) as (l & A & B & [I1 I2 I3 I4 _ I5]). exists l, A, B. rewrite I1 in I2. auto.
  Qed.
  Theorem C109_same_runs S consts target clean other called m n x args mem : nothing_new S consts target void_rest fresh clean ->
    (forall ids id k, target (args k) <> Some (fresh ids id)) -> (forall ids id, clean (fresh ids id) mem) -> NoDup (map g_id m) -> no_stray fresh m -> In x (map g_id m) ->
    does S consts target (remove_unused unique void_rest fresh other called m) n x args mem = does S consts target m n x args mem.
  Proof. intros N A C ND NS I. unfold remove_unused. apply (pass_does S consts target void_rest unique fresh clean N args mem A C); assumption. Qed.
End C109.
Print Assumptions C109_changes.
Print Assumptions C109_same_runs.

Definition newest (ids : list string) (_ : string) : string := ("~" ++ fold_right String.append "" ids)%string.
Definition no_rest (_ : string) : string := "void"%string.
Definition drop := remove_unused suffixed no_rest newest.
Lemma newest_fresh ids id : ~ In (newest ids id) ids.
Proof.
  assert (L : forall a b, String.length (a ++ b)%string = String.length a + String.length b) by (induction a as [|c a IH]; intros b; cbn; [reflexivity|rewrite IH; reflexivity]).
  assert (H : forall x, In x ids -> String.length x <= String.length (fold_right String.append "" ids)%string).
  { induction ids as [|y l IH]; [intros x []|]. intros x [->|I]; cbn [fold_right]; rewrite L; [lia|]. specialize (IH x I). lia. }
  intros I. apply H in I. unfold newest in I. cbn in I. lia.
Qed.
Definition unmentioned (x : string) (m : list (list val)) : Prop := forall vs, In vs m -> ~ In (Addr x) vs.
Example C109_machine_met : nothing_new machine val_of points no_rest newest unmentioned.
Proof.
  constructor.
  - apply newest_fresh.
  - reflexivity.
  - reflexivity.
  - reflexivity.
  - intros x ids id c rest vs mem v mem' _ H C E.
    assert (P : forall l, points (fold_right plus (Num 0) l) = None) by (intros [|y l]; [reflexivity|]; cbn; destruct y, (fold_right plus (Num 0) l); reflexivity).
    destruct c; cbn in E; injection E as <- <-; (split; [rewrite ?P; discriminate|]); try exact C. intros l I. apply in_app_or in I as [I|[<-|[]]]; [apply C; exact I|]. intros Q.
    assert (R : In (Addr x) vs) by (clear -Q; induction vs as [|y [|z vs] IH]; [destruct Q|destruct Q|]; destruct Q as [->|Q]; [left; reflexivity|right; apply IH; exact Q]). apply (H _ R). reflexivity.
  - intros ids id rest vs mem. cbn. rewrite !removelast_last. reflexivity.
Qed.
(** One result of [g] is used, one is not; in the other module [g] has no result. *)
Definition half_used : gmodule :=
  [fn "main" "main" [call 0 "g" [int 1]; call 1 "g" [int 2]; ret 2 [VReg 1]]; fn "g" "g" [call 0 "log" [VArg 0]; ret 1 [VArg 0]]; declared "log" "log" i32].
Definition elsewhere : gmodule := [declared "g" "g" (mkType "void" ["i32"%string] false)].
Example C109_met : no_stray newest half_used /\ drop elsewhere ["g"%string] half_used =
  [fn "main" "main" [mkInst 0 Call "void" [int 1; VConst (CGlobal "~mainglog")]; call 1 "g" [int 2]; ret 2 [VReg 1]]; fn "g" "g" [call 0 "log" [VArg 0]; ret 1 [VArg 0]]; declared "log" "log" i32;
   mkGfun "~mainglog" "g.void" (mkType "void" ["i32"%string] false) None (code_of [call 0 "log" [VArg 0]; mkInst 1 Ret "void" []])] /\
  on (drop elsewhere ["g"%string] half_used) "main" = Some (Returned [Num 2] [[Num 1]; [Num 2]]).
Proof.
  split; [|split; vm_compute; reflexivity]. intros ids id g f i I B J K. exfalso. cbn in I. destruct I as [<-|[<-|[<-|[]]]]; cbn in B; try discriminate; injection B as <-; cbn in J;
    repeat (destruct J as [<-|J]); try contradiction; cbn in K; repeat (destruct K as [K|K]); try contradiction; discriminate.
Qed.
(** The function whose clone has no result loses the number of its name.  Abstractions are then not
    recognised as such: different assembly is the same for the comparison. *)
Definition side (second : string) : gmodule :=
  drop [] [] (fst (abstractions type_text some_type some_asm (fun g => mem g ["main"]%string) "ptr" ["main"%string] [fn "main" "main" [call 0 "P" [int 1]; call 1 second [int 1]; ret 2 [VReg 1]]])).
Definition second_callee (m : gmodule) : option gfun :=
  match by_id m "main" with Some g => match g_body g with Some f => match find_inst f 1 with Some i => match callee_id i with Some c => by_id m c | None => None end | None => None end | None => None end | None => None end.
Theorem C109_asm_refuted : exists l r, second_callee (side "P") = Some l /\ second_callee (side "Q") = Some r /\ g_asm l = Some ("nop", "r")%string /\ g_asm r = Some ("hlt", "r")%string /\ same_functions l r = true.
Proof. do 2 eexists. repeat split; vm_compute; reflexivity. Qed.
Print Assumptions C109_asm_refuted.

(** ** C110: calls of functions known by their names *)

Section C110.
  Variable name_of : string -> option string.
  Variable assembly : string -> option string.
  Variable is_pointer : inst -> nat -> bool.
  Theorem C110_simplified f : f_sig (simplify_calls name_of assembly is_pointer f) = f_sig f /\ f_args (simplify_calls name_of assembly is_pointer f) = f_args f /\
    Forall2 (fun kb kb' => fst kb' = fst kb /\ Forall2 (simplified name_of assembly is_pointer) (snd kb) (snd kb')) (f_blocks f) (f_blocks (simplify_calls name_of assembly is_pointer f)).
  Proof.
    split; [reflexivity|]. split; [reflexivity|]. cbn. induction (f_blocks f) as [|[k l] bs IH]; cbn [map]; constructor; [|exact IH]. split; [reflexivity|]. cbn [snd]. induction l as [|i l IHl]; cbn [map]; constructor; [apply simplify_ok|exact IHl].
  Qed.
  Theorem C110_simplified_runs S cs args f n m : no_matter name_of assembly S cs f -> result S cs args (simplify_calls name_of assembly is_pointer f) n m = result S cs args f n m.
  Proof. apply simplify_runs. Qed.
  Theorem C110_memcpy memcpy f : NoDup (map i_reg (insts f)) -> (forall i, In i (insts f) -> calls_by_name name_of "__memcpy" i -> unused f i /\ length (i_ops i) = 4) -> name_of memcpy <> Some "__memcpy"%string ->
    Forall2 (fun i i' => (calls_by_name name_of "__memcpy" i -> exists a b c v, i_ops i = [a; b; c; v] /\ i' = mkInst (i_reg i) Call "" [a; b; c; VConst (CInt 0); VConst (CGlobal memcpy)]) /\
        (~ calls_by_name name_of "__memcpy" i -> i' = i)) (insts f) (insts (unify_memcpy name_of memcpy f)) /\
    forall S cs args n m, same_copy name_of S cs f memcpy -> result S cs args (unify_memcpy name_of memcpy f) n m = result S cs args f n m.
  Proof.
    intros ND H NM. split.
    - rewrite (unify_shape name_of memcpy f ND (fun i I B => proj1 (H i I B)) NM), insts_map. assert (G : forall l, incl l (insts f) -> Forall2 (fun i i' => (calls_by_name name_of "__memcpy" i -> exists a b c v, i_ops i = [a; b; c; v] /\ i' = mkInst (i_reg i) Call "" [a; b; c; VConst (CInt 0); VConst (CGlobal memcpy)]) /\ (~ calls_by_name name_of "__memcpy" i -> i' = i)) l (map (copy name_of memcpy) l)).
      { induction l as [|i l IH]; intros L; cbn [map]; constructor; [|apply IH; intros z Z; apply L; right; exact Z]. unfold copy. split.
        - intros B. rewrite (proj2 (calls_named_iff _ _ _) B). destruct (H i (L i (or_introl eq_refl)) B) as [_ LE]. unfold memcpy_call, call_args. destruct (i_ops i) as [|a [|b [|c [|d [|e o]]]]]; cbn in LE; try lia. exists a, b, c, d. auto.
        - intros B. destruct (calls_named name_of "__memcpy" i) eqn:Q; [|reflexivity]. apply calls_named_iff in Q. contradiction. }
      apply G. apply incl_refl.
    - intros S cs args n m X. apply memcpy_runs; assumption.
  Qed.
  Theorem C110_lifetime f : keeps_only (fun i => ~ lives name_of i) f (remove_lifetime name_of f) /\
    forall S cs args n m, (forall i, In i (insts f) -> lives name_of i -> unused f i) -> (forall i vs a, In i (insts f) -> lives name_of i -> exists v, exec S Call (i_rest i) vs a = Some (v, a)) ->
      result S cs args (remove_lifetime name_of f) n m = result S cs args f n m.
  Proof. split; [apply lifetime_kept|]. intros S cs args n m. apply lifetime_runs. Qed.
End C110.
Print Assumptions C110_simplified.
Print Assumptions C110_simplified_runs.
Print Assumptions C110_memcpy.
Print Assumptions C110_lifetime.
Theorem C110_asserts m : NoDup (map g_id m) -> NoDup (map g_name m) ->
  ((forall g, In g m -> ~ asserting g) -> unify_asserts m = m) /\
  forall o, the_assert m o ->
    exists sub, (forall g, In g m -> asserting g -> sub (g_id g) = g_id o) /\ (forall x, (forall g, In g m -> asserting g -> g_id g <> x) -> sub x = x) /\
      Forall2 (fun g g' => but_name sub g g' /\ g_name g' = (if String.eqb (g_id g) (g_id o) then "__compiletime_assert" else g_name g)%string) m (unify_asserts m).
Proof. intros ND NN. split; [apply unify_none; exact ND|]. intros o T. apply unify_whole; assumption. Qed.
Print Assumptions C110_asserts.

(** Globals have their identities as names; [asm] calls assembly with a table of bugs. *)
Definition names (g : string) : option string := if String.eqb g "asm" then None else Some g.
Definition bug_code (g : string) : option string := if String.eqb g "asm" then Some ".section __bug_table"%string else None.
Definition first_pointer (i : inst) (k : nat) : bool := Nat.eqb k 0.
(** Calls of [printk] and [asm] do nothing, those of [log] are noted, those of [sprintf] note what
    they write, and copying notes what it copies and returns the destination. *)
Definition quiet : semantics := mkSem val (list (list val)) Undef val_of val_of
  (fun c _ vs m =>
     match c with
     | Call =>
       match last vs Undef with
       | Addr f => if mem f ["printk"; "asm"; "llvm.lifetime.start.p0"]%string then Some (Num 0, m) else if mem f ["__memcpy"; "llvm.memcpy"]%string then Some (hd Undef vs, m ++ [firstn 3 vs]) else Some (Num 0, m ++ [vs])
       | _ => Some (Num 0, m ++ [vs])
       end
     | _ => Some (Undef, m)
     end)
  (fun _ _ _ => Some 0).
Definition one_block (l : list inst) : func := mkFunc "" 1 [(0, l)].
Definition quietly (f : func) : outcome val (list (list val)) := result quiet val_of (fun _ => Num 5) f 9 [].
Definition messages : func := one_block [call 0 "printk" [int 1; int 2; VArg 0]; call 1 "asm" [VArg 0; int 77; int 3]; call 2 "__might_sleep" [VArg 0; int 5]; call 3 "log" [VArg 0; int 77]; ret 4 []].
Definition messages2 : func := one_block [call 0 "printk" [int 1; int 2; VArg 0]; call 1 "asm" [VArg 0; int 77; int 3]; call 2 "log" [VArg 0; int 77]; ret 3 []].
Lemma names_printing n args r : mem n ["_dev_info"; "dev_warn"; "dev_err"; "sprintf"; "printk"]%string = false -> ~ printing names (call r n args).
Proof.
  intros H (k & I & _ & ops & g & O & E). cbn in O. apply app_inj_tail in O as [_ O]. injection O as <-. unfold names in E. destruct (String.eqb n "asm"); [discriminate|]. injection E as <-. apply mem_In in I. congruence.
Qed.
Example C110_simplified_met : simplify_calls names bug_code first_pointer messages =
    one_block [mkInst 0 Call "" [null; null; VConst (CGlobal "printk")]; call 1 "asm" [null; int 0; int 3]; call 2 "__might_sleep" [null; int 0]; call 3 "log" [VArg 0; int 77]; ret 4 []] /\
  no_matter names bug_code quiet val_of messages2 /\ printing names (call 0 "printk" [int 1; int 2; VArg 0]) /\ warning names bug_code (call 1 "asm" [VArg 0; int 77; int 3]) /\
  quietly messages2 = Returned [] [[Num 5; Num 77; Addr "log"]].
Proof.
  split; [vm_compute; reflexivity|]. split; [|split; [exists "printk"%string; split; [cbn; tauto|split; [reflexivity|]]; exists [int 1; int 2; VArg 0], "printk"%string; split; reflexivity|split; [|vm_compute; reflexivity]]].
  2:{ right. exists ".section __bug_table"%string. split; [|exists ".section "%string, ""%string; reflexivity]. split; [reflexivity|]. exists [VArg 0; int 77; int 3], "asm"%string. repeat split; reflexivity. }
  assert (LOG : forall w, called_by quiet val_of (call 2 "log" [VArg 0; int 77]) w -> ~ warning names bug_code (call 2 "log" [VArg 0; int 77]) /\ ~ counting names bug_code (call 2 "log" [VArg 0; int 77]) /\ ~ printing names (call 2 "log" [VArg 0; int 77])).
  { intros _ _. assert (C : forall n, calls_by_name names n (call 2 "log" [VArg 0; int 77]) -> n = "log"%string) by (intros n (_ & ops & g & O & E); cbn in O; change [VArg 0; int 77; VConst (CGlobal "log")] with ([VArg 0; int 77] ++ [VConst (CGlobal "log")]) in O; apply app_inj_tail in O as [_ O]; injection O as <-; injection E as <-; reflexivity).
    assert (D : forall c, ~ calls_code names bug_code c (call 2 "log" [VArg 0; int 77])) by (intros c (_ & ops & g & O & E & _); cbn in O; change [VArg 0; int 77; VConst (CGlobal "log")] with ([VArg 0; int 77] ++ [VConst (CGlobal "log")]) in O; apply app_inj_tail in O as [_ O]; injection O as <-; discriminate).
    split; [|split].
    - intros [(n & I & B)|(c & B & _)]; [|exact (D c B)]. apply C in B as ->. cbn in I. repeat (destruct I as [I|I]; [discriminate|]). exact I.
    - intros (c & B & _). exact (D c B).
    - intros (n & I & B). apply C in B as ->. cbn in I. repeat (destruct I as [I|I]; [discriminate|]). exact I. }
  assert (VAL : forall i n args w, i_ops i = args ++ [VConst (CGlobal n)] -> called_by quiet val_of i w -> w = Addr n) by (intros i n args w O (ops & g & O' & ->); rewrite O in O'; apply app_inj_tail in O' as [_ O']; injection O' as <-; reflexivity).
  assert (NOTHING : forall vs w m rest, w = Addr "printk" \/ w = Addr "asm" -> exec quiet Call rest (vs ++ [w]) m = Some (Num 0, m)) by (intros vs w m rest [->| ->]; cbn; rewrite last_last; reflexivity).
  assert (IN : forall i w, In i (insts messages2) -> called_by quiet val_of i w -> (w = Addr "printk" \/ w = Addr "asm") \/ i = call 2 "log" [VArg 0; int 77] \/ i = ret 3 []).
  { intros i w I B. cbn in I. destruct I as [<-|[<-|[<-|[<-|[]]]]]; [left; left; apply (VAL (call 0 "printk" [int 1; int 2; VArg 0]) "printk"%string [int 1; int 2; VArg 0] w eq_refl B)|left; right; apply (VAL (call 1 "asm" [VArg 0; int 77; int 3]) "asm"%string [VArg 0; int 77; int 3] w eq_refl B)|right; left; reflexivity|right; right; reflexivity]. }
  assert (RET : forall w, ~ called_by quiet val_of (ret 3 []) w) by (intros w (ops & g & O & _); cbn in O; destruct ops; discriminate).
  split; [|split].
  - intros i vs vs' w m I B P. destruct (IN i w I B) as [W|[->| ->]]; [rewrite !NOTHING by exact W; reflexivity|exfalso; destruct (LOG w B) as (L1 & L2 & L3); auto|exfalso; exact (RET w B)].
  - intros i a a' b b' vs w m I B P. destruct (IN i w I B) as [W|[->| ->]]; [|exfalso; destruct (LOG w B) as (L1 & L2 & L3); auto|exfalso; exact (RET w B)]. rewrite (NOTHING (a :: b :: vs) w m _ W : exec quiet Call (i_rest i) (a :: b :: vs ++ [w]) m = _), (NOTHING (a' :: b' :: vs) w m _ W : exec quiet Call (i_rest i) (a' :: b' :: vs ++ [w]) m = _). reflexivity.
  - intros i a a' vs w m I B P. destruct (IN i w I B) as [W|[->| ->]]; [|exfalso; destruct (LOG w B) as (L1 & L2 & _); destruct P as [P|P]; [exact (L2 P)|exact (L1 P)]|exfalso; exact (RET w B)]. rewrite (NOTHING (a :: vs) w m _ W : exec quiet Call (i_rest i) (a :: vs ++ [w]) m = _), (NOTHING (a' :: vs) w m _ W : exec quiet Call (i_rest i) (a' :: vs ++ [w]) m = _). reflexivity.
Qed.
(** What [sprintf] writes is not only for people to read: without its arguments, runs differ. *)
Theorem C110_sprintf_refuted : let f := one_block [call 0 "sprintf" [VArg 0; int 1]; ret 1 []] in
  quietly f = Returned [] [[Num 5; Num 1; Addr "sprintf"]] /\ quietly (simplify_calls names bug_code first_pointer f) = Returned [] [[Addr "null"; Addr "null"; Addr "sprintf"]].
Proof. split; vm_compute; reflexivity. Qed.
Print Assumptions C110_sprintf_refuted.
Definition copying : func := one_block [call 0 "__memcpy" [VArg 0; VConst (CGlobal "x"); int 8]; ret 1 [VArg 0]].
Example C110_memcpy_met : same_copy names quiet val_of copying "llvm.memcpy" /\ calls_by_name names "__memcpy" (call 0 "__memcpy" [VArg 0; VConst (CGlobal "x"); int 8]) /\
  unused copying (call 0 "__memcpy" [VArg 0; VConst (CGlobal "x"); int 8]) /\
  unify_memcpy names "llvm.memcpy" copying = one_block [call 0 "llvm.memcpy" [VArg 0; VConst (CGlobal "x"); int 8; int 0]; ret 1 [VArg 0]].
Proof.
  split; [|split; [|split]].
  - intros i ops g a b c m _ (_ & ops' & g' & O' & N) O. rewrite O in O'. apply app_inj_tail in O' as [_ O']. injection O' as <-. unfold names in N. destruct (String.eqb g "asm"); [discriminate|]. injection N as ->. reflexivity.
  - split; [reflexivity|]. exists [VArg 0; VConst (CGlobal "x"); int 8], "__memcpy"%string. split; reflexivity.
  - intros u I Q. cbn in I. repeat (destruct I as [<-|I]); try contradiction; cbn in Q; repeat (destruct Q as [Q|Q]); try contradiction; discriminate.
  - vm_compute. reflexivity.
Qed.
(** The result of the copying function is its destination, its uses become those of the source. *)
Theorem C110_memcpy_result_refuted : let f := one_block [call 0 "__memcpy" [VArg 0; VConst (CGlobal "x"); int 8]; ret 1 [VReg 0]] in
  quietly f = Returned [Num 5] [[Num 5; Addr "x"; Num 8]] /\ quietly (unify_memcpy names "llvm.memcpy" f) = Returned [Addr "x"] [[Num 5; Addr "x"; Num 8]].
Proof. split; vm_compute; reflexivity. Qed.
Print Assumptions C110_memcpy_result_refuted.
Definition scoped : func := one_block [call 0 "llvm.lifetime.start.p0" [int 8; VArg 0]; call 1 "log" [VArg 0]; ret 2 [VReg 1]].
Example C110_lifetime_met : lives names (call 0 "llvm.lifetime.start.p0" [int 8; VArg 0]) /\ remove_lifetime names scoped = one_block [call 1 "log" [VArg 0]; ret 2 [VReg 1]] /\
  quietly scoped = Returned [Num 0] [[Num 5; Addr "log"]] /\ quietly (remove_lifetime names scoped) = quietly scoped.
Proof.
  split; [|repeat split; vm_compute; reflexivity]. exists "llvm.lifetime.start.p0"%string. split; [split; [reflexivity|]; exists [int 8; VArg 0], "llvm.lifetime.start.p0"%string; split; reflexivity|left; exists ""%string, ".p0"%string; reflexivity].
Qed.
(** Any function with the name in its name is taken for an assertion, whatever it does. *)
Definition asserts : gmodule :=
  [fn "main" "main" [call 0 "b" [int 1]; call 1 "a" [int 1]; ret 2 [VReg 0]]; fn "a" "__compiletime_assert_12" [ret 0 [int 1]]; fn "b" "my__compiletime_assert_check" [ret 0 [int 2]]].
Example C110_asserts_met : the_assert asserts (fn "a" "__compiletime_assert_12" [ret 0 [int 1]]) /\ map g_name (unify_asserts asserts) = ["main"; "__compiletime_assert"; "my__compiletime_assert_check"]%string.
Proof.
  split; [|vm_compute; reflexivity]. right. split; [intros g I; cbn in I; destruct I as [<-|[<-|[<-|[]]]]; discriminate|]. eexists [_], [_]. split; [reflexivity|]. split; [exists ""%string, "_12"%string; reflexivity|].
  intros g [<-|[]] A. apply contains_spec in A. vm_compute in A. discriminate.
Qed.
Theorem C110_asserts_refuted : on asserts "main" = Some (Returned [Num 2] []) /\ on (unify_asserts asserts) "main" = Some (Returned [Num 1] []).
Proof. split; vm_compute; reflexivity. Qed.
Print Assumptions C110_asserts_refuted.
