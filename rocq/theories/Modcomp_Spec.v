(** * What the comparison of functions with their callees is expected to give (C54, C90, C91) *)
From Coq Require Import String Ascii ZArith Arith Bool List.
From Verif Require Import PyBase Source_Model Source_Spec Modcomp_Model.
Import ListNotations.
Open Scope list_scope.

Section Spec.
  Context {W F C V X : Type} `{EqB F}.
  Notation env := (env W F C V X).
  Notation comp := (comp W F C V X).
  Notation state := (state W F C V X).
  Variable E : env.

  (** The name of a function without the suffix passes add: ".void" or a number after a name. *)
  Definition plain_name (f : F) (n : string) : Prop := base_of (e_name E f) n.
  Definition print_name (n : string) : Prop := In n ["_dev_info"; "dev_warn"; "dev_err"; "sprintf"; "printk"]%string.
  (** Two functions taken for each other by their names. *)
  Definition taken_equal (l r : F) : Prop :=
    exists a b, plain_name l a /\ plain_name r b /\ (a = b \/ (print_name a /\ print_name b)).
  (** Functions that are never compared. *)
  Definition skipped (f : F) : Prop := e_abstraction E f = true \/ print_name (e_name E f) \/ e_intrinsic E f = true.
  (** Functions used as values are equal if they are taken for each other and, if they stand for
      inline assembly, the assembly is the same. *)
  Definition values_equal (l r : F) : Prop :=
    taken_equal l r /\ forall a b, e_asm E l = Some a -> e_asm E r = Some b -> a = b.

  (** The functions of such a pair are to be compared, too. *)
  Definition callees (l r : F) : Prop := taken_equal l r /\ ~ skipped l /\ ~ skipped r.
  Definition Visits (l r : F) (lines : Z * Z) (v : list (F * F * (Z * Z))) : Prop :=
    (callees l r /\ v = [(l, r, lines)]) \/ (~ callees l r /\ v = []).

  (** What a comparison of bodies does if the bodies stay as they are: the pairs of functions to
      compare, with lines, the differing objects, the answer. *)
  Inductive Does (w : W) : comp -> list (F * F * (Z * Z)) -> list X -> bool -> Prop :=
  | Does_answer b : Does w (Answer b) [] [] b
  | Does_globals l r ll lr k a v vs os b : (a = true <-> values_equal l r) -> Visits l r (ll, lr) v -> Does w (k w a) vs os b ->
      Does w (Globals l r ll lr k) (v ++ vs) os b
  | Does_differs o k vs os b : Does w k vs os b -> Does w (Differs o k) vs (o :: os) b
  | Does_undefined l r k vs os b : Does w k vs os b -> Does w (Undefined l r k) vs os b
  | Does_suggest p k vs os b : Does w k vs os b -> Does w (Suggest p k) vs os b
  | Does_save i k vs os b : Does w k vs os b -> Does w (Save i k) vs os b
  | Does_restore i k vs os b : Does w k vs os b -> Does w (Restore i k) vs os b.

  (** Both functions have bodies and the pair is not known from an earlier run. *)
  Definition compared (w : W) (p : F * F) : Prop :=
    e_cached E (fst p) (snd p) = false /\ e_declared E w (fst p) = false /\ e_declared E w (snd p) = false.
  (** The pairs reached from a pair through calls. *)
  Inductive Reached (w : W) (p0 : F * F) : F * F -> Prop :=
  | Reached_start : Reached w p0 p0
  | Reached_call p l r lines vs os b : Reached w p0 p -> compared w p -> Does w (e_body E w (fst p) (snd p)) vs os b ->
      In (l, r, lines) vs -> Reached w p0 (l, r).

  (** The recorded calls of a side: every name once, with the line of the first call, not weak. *)
  Definition first_calls (side : F * F * (Z * Z) -> F * Z) (vs : list (F * F * (Z * Z))) (d : dict string (Z * bool)) : Prop :=
    forall n line weak, dget d n = Some (line, weak) <->
      weak = false /\ exists a v b, vs = a ++ v :: b /\ e_name E (fst (side v)) = n /\ snd (side v) = line /\
        forall u, In u a -> e_name E (fst (side u)) <> n.
  Definition left_side (v : F * F * (Z * Z)) := (fst (fst v), fst (snd v)).
  Definition right_side (v : F * F * (Z * Z)) := (snd (fst v), snd (snd v)).

  (** The verdict on two functions one of which has no body. *)
  Inductive Declared : F -> F -> verdict -> Prop :=
  | Declared_same l r a : plain_name l a -> plain_name r a -> Declared l r ASSUMED_EQUAL
  | Declared_other l r a b : plain_name l a -> plain_name r b -> a <> b -> Declared l r NOT_EQUAL.

  (** The result for a pair of functions. *)
  Inductive PairResult (w : W) : F * F -> result -> Prop :=
  | Result_cached l r : e_cached E l r = true -> PairResult w (l, r) (mkresult UNKNOWN [] [] [])
  | Result_declared l r k : e_cached E l r = false -> e_declared E w l = true \/ e_declared E w r = true -> Declared l r k ->
      PairResult w (l, r) (mkresult k [] [] [])
  | Result_compared l r vs os b cl cr : compared w (l, r) -> Does w (e_body E w l r) vs os b ->
      first_calls left_side vs cl -> first_calls right_side vs cr ->
      PairResult w (l, r) (mkresult (if b then EQUAL else NOT_EQUAL) cl cr os).

  (** Functions that are never inlined. *)
  Definition never_inlined : list string :=
    ["_dev_info"; "dev_warn"; "dev_err"; "sprintf"; "printk"; "warn_slowpath_null"; "warn_slowpath_fmt"; "__might_sleep"; "__might_fault"; "acpi_ut_predefined_warning"]%string.
  (** No call in any function can be inlined. *)
  Definition no_inlining (w : W) : Prop :=
    forall c f, e_present E w c f = true -> exists g, e_callee E w c = Some g /\
      (e_inline E w c = None \/ e_declared E w g = true \/ In (e_name E g) never_inlined \/
       (e_splits E = false /\ e_abstraction E g = false)).

  (** The definitions reported as missing for two functions one of which has no body: those of
      the side without the body, if the names are the same and more than control flow matters. *)
  Inductive Reports (w : W) (l r : F) : list (option (@value F V) * option (@value F V)) -> Prop :=
  | Reports_control_flow : e_control_flow E = true -> Reports w l r []
  | Reports_both : e_declared E w l = true -> e_declared E w r = true -> Reports w l r []
  | Reports_different a b : plain_name l a -> plain_name r b -> a <> b -> Reports w l r []
  | Reports_left a : e_control_flow E = false -> e_declared E w l = true -> e_declared E w r = false ->
      plain_name l a -> plain_name r a -> Reports w l r [(Some (VFun l), None)]
  | Reports_right a : e_control_flow E = false -> e_declared E w l = false -> e_declared E w r = true ->
      plain_name l a -> plain_name r a -> Reports w l r [(None, Some (VFun r))].

  (** ** Suggestions of calls to inline *)

  (** What a comparison that compares no other functions does with its suggestion. *)
  Inductive hint := Suggests (p : option C * option C) | Saves (slot : nat) | Restores (slot : nat).
  Inductive Hints : comp -> list hint -> bool -> Prop :=
  | Hints_answer b : Hints (Answer b) [] b
  | Hints_differs o k hs b : Hints k hs b -> Hints (Differs o k) hs b
  | Hints_undefined l r k hs b : Hints k hs b -> Hints (Undefined l r k) hs b
  | Hints_suggest p k hs b : Hints k hs b -> Hints (Suggest p k) (Suggests p :: hs) b
  | Hints_save i k hs b : Hints k hs b -> Hints (Save i k) (Saves i :: hs) b
  | Hints_restore i k hs b : Hints k hs b -> Hints (Restore i k) (Restores i :: hs) b.
  (** The suggestion after that, if it was [p] before: the last one made, where restoring takes
      back what was made since the slot was last saved. *)
  Inductive After (p : option C * option C) : list hint -> option C * option C -> Prop :=
  | After_nothing : After p [] p
  | After_suggest hs q : After p (hs ++ [Suggests q]) q
  | After_save hs i q : After p hs q -> After p (hs ++ [Saves i]) q
  | After_restore a b i q : After p a q -> ~ In (Saves i) b -> After p (a ++ Saves i :: b ++ [Restores i]) q
  | After_unsaved hs i : ~ In (Saves i) hs -> After p (hs ++ [Restores i]) (None, None).

  (** ** With inlining *)
  (** The bodies change only by inlining of calls to functions with bodies and by simplification
      of functions. *)
  Inductive Evolves : W -> W -> Prop :=
  | Evolves_refl w : Evolves w w
  | Evolves_inline w c g w1 w2 : e_callee E w c = Some g -> e_declared E w g = false -> e_inline E w c = Some w1 -> Evolves w1 w2 -> Evolves w w2
  | Evolves_simplify w f w2 : Evolves (e_simplify E w f) w2 -> Evolves w w2.

  (** A comparison of bodies ends with an answer; while it compares callees the bodies may change. *)
  Inductive Ends : W -> comp -> bool -> Prop :=
  | Ends_answer w b : Ends w (Answer b) b
  | Ends_globals w w1 l r ll lr k a b : (a = true <-> values_equal l r) -> Evolves w w1 -> Ends w1 (k w1 a) b -> Ends w (Globals l r ll lr k) b
  | Ends_differs w o k b : Ends w k b -> Ends w (Differs o k) b
  | Ends_undefined w l r k b : Ends w k b -> Ends w (Undefined l r k) b
  | Ends_suggest w p k b : Ends w k b -> Ends w (Suggest p k) b
  | Ends_save w i k b : Ends w k b -> Ends w (Save i k) b
  | Ends_restore w i k b : Ends w k b -> Ends w (Restore i k) b.

  (** Why a pair of functions gets its verdict: the bodies were found equal or different, as they
      were at some moment; or one had no body; or the pair is known from an earlier run. *)
  Inductive Justified (w : W) : F * F -> verdict -> Prop :=
  | Justified_cached l r : e_cached E l r = true -> Justified w (l, r) UNKNOWN
  | Justified_declared l r w1 k : e_cached E l r = false -> Evolves w w1 -> e_declared E w1 l = true \/ e_declared E w1 r = true ->
      Declared l r k -> Justified w (l, r) k
  | Justified_compared l r w1 b : e_cached E l r = false -> Evolves w w1 -> Ends w1 (e_body E w1 l r) b ->
      Justified w (l, r) (if b then EQUAL else NOT_EQUAL).
End Spec.
Arguments result {X}.
