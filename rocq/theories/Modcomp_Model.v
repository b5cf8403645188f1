(** * Model of the comparison of functions with their callees
    (diffkemp/simpll/ModuleComparator.cpp, the calls to it in DifferentialFunctionComparator.cpp,
    diffkemp/simpll/ModuleAnalysis.cpp) *)
From Coq Require Import String Ascii ZArith Arith Bool List.
From Verif Require Import PyBase Source_Model.
Import ListNotations.
Open Scope list_scope.

(** Result.h:149-155 *)
Inductive verdict := EQUAL | NOT_EQUAL | ASSUMED_EQUAL | UNKNOWN.

(** SimplifyKernelFunctionCallsPass.cpp:132-137 *)
Definition is_print (name : string) : bool := mem name ["_dev_info"; "dev_warn"; "dev_err"; "sprintf"; "printk"]%string.
(** SimplifyKernelFunctionCallsPass.cpp:140-153 *)
Definition is_simplified (name : string) : bool :=
  is_print name || mem name ["warn_slowpath_null"; "warn_slowpath_fmt"; "__might_sleep"; "__might_fault"; "acpi_ut_predefined_warning"]%string.

(** The run of the C++ code: it may also end the process (an exception of std::map::at, a null
    pointer) or go on for ever; the latter shows as running out of any fuel. *)
Inductive outcome (A : Type) := Done (a : A) | Crash | OutOfFuel.
Arguments Done {A}. Arguments Crash {A}. Arguments OutOfFuel {A}.
Definition obind {A B} (x : outcome A) (f : A -> outcome B) : outcome B :=
  match x with Done a => f a | Crash => Crash | OutOfFuel => OutOfFuel end.

Section Comparator.
  (** [W]: the bodies of the functions of both modules, [F]: functions, [C]: call instructions,
      [V]: global variables, [X]: differing objects other than functions. *)
  Context {W F C V X : Type} `{EqB F}.

  (** What a comparison of two bodies does as far as the comparison of other functions depends on
      it (DifferentialFunctionComparator::compare): it answers; it compares two functions as
      global values and goes on with the answer, in the bodies as they are then; it records a
      differing object (lines 461, 1426, 1880, 1892) or two variables without definitions (1327);
      it suggests calls to inline (259, 438, 442, 1829, 1831), or keeps the suggestion in a slot
      or restores it from there (53, 1986, 2016, 2031). *)
  Inductive comp :=
  | Answer (equal : bool)
  | Globals (l r : F) (line_l line_r : Z) (k : W -> bool -> comp)
  | Differs (o : X) (k : comp)
  | Undefined (l r : V) (k : comp)
  | Suggest (p : option C * option C) (k : comp)
  | Save (slot : nat) (k : comp)
  | Restore (slot : nat) (k : comp).

  Record env := {
    e_name : F -> string;
    e_declared : W -> F -> bool; (* isDeclaration *)
    e_cached : F -> F -> bool; (* ResultsCache::isFunctionPairCached *)
    e_abstraction : F -> bool; (* isSimpllAbstraction *)
    e_intrinsic : F -> bool;
    e_asm : F -> option (string * string); (* code and constraints of an assembly abstraction *)
    e_present : W -> C -> F -> bool; (* findCallInst: the instruction is in the body *)
    e_callee : W -> C -> option F; (* getCalledFunction *)
    e_inline : W -> C -> option W; (* inlineCall *)
    e_simplify : W -> F -> W; (* simplifyFunction *)
    e_body : W -> F -> F -> comp; (* DifferentialFunctionComparator::compare *)
    e_control_flow : bool; (* Patterns.ControlFlowOnly *)
    e_splits : bool (* Patterns.FunctionSplits *)
  }.
  Variable E : env.

  (** Result.h:149-170; the calls of a side are a set ordered by the name only; the rest of the
      result (locations, statistics) is left out. *)
  Record result := mkresult { r_kind : verdict; r_left : dict string (Z * bool); r_right : dict string (Z * bool); r_objects : list X }.
  Inductive value := VFun (f : F) | VVar (v : V).
  (** ModuleComparator.h: ComparedFuns, tryInline, MissingDefs, and the modules themselves *)
  Record state := mkstate {
    s_world : W;
    s_compared : dict (F * F) result;
    s_inline : option C * option C;
    s_missing : list (option value * option value)
  }.
  Definition with_world w st := mkstate w (s_compared st) (s_inline st) (s_missing st).
  Definition with_compared d st := mkstate (s_world st) d (s_inline st) (s_missing st).
  Definition with_inline p st := mkstate (s_world st) (s_compared st) p (s_missing st).
  Definition with_missing m st := mkstate (s_world st) (s_compared st) (s_inline st) m.

  (** ComparedFuns.at(...): std::out_of_range if there is no such pair. *)
  Definition update (st : state) (p : F * F) (f : result -> result) : outcome state :=
    match dget (s_compared st) p with
    | Some x => Done (with_compared (dset (s_compared st) p (f x)) st)
    | None => Crash
    end.
  Definition set_kind (k : verdict) (x : result) : result := mkresult k (r_left x) (r_right x) (r_objects x).
  (** Result.h:74-79 [addCall]: std::set::insert keeps an element that is there *)
  Definition add_call (name : string) (line : Z) (d : dict string (Z * bool)) : dict string (Z * bool) :=
    if dmem d name then d else dset d name (line, false).
  Definition add_calls (l r : F) (ll lr : Z) (x : result) : result :=
    mkresult (r_kind x) (add_call (e_name E l) ll (r_left x)) (add_call (e_name E r) lr (r_right x)) (r_objects x).
  Definition add_object (o : X) (x : result) : result := mkresult (r_kind x) (r_left x) (r_right x) (r_objects x ++ [o]).
  (** ModuleComparator.cpp:180-193 *)
  Definition mark_weak (f : option F) (d : dict string (Z * bool)) : dict string (Z * bool) :=
    match f with
    | None => d
    | Some f => map (fun c => if String.eqb (fst c) (e_name E f) then (fst c, (fst (snd c), true)) else c) d
    end.
  Definition mark_calls (fl fr : option F) (x : result) : result :=
    mkresult (r_kind x) (mark_weak fl (r_left x)) (mark_weak fr (r_right x)) (r_objects x).
  (** ComparedFuns.emplace(...): an entry that is there is kept. *)
  Definition emplace (p : F * F) (st : state) : state :=
    if dmem (s_compared st) p then st else with_compared (dset (s_compared st) p (mkresult UNKNOWN [] [] [])) st.
  (** ComparedFuns.erase(...) *)
  Definition erase (p : F * F) (st : state) : state :=
    with_compared (filter (fun e => negb (eqb (fst e) p)) (s_compared st)) st.

  (** DifferentialFunctionComparator.cpp:1285-1288 *)
  Definition excluded (f : F) : bool := e_abstraction E f || is_print (e_name E f) || e_intrinsic E f.
  (** DifferentialFunctionComparator.cpp:1247-1335 [cmpGlobalValues] for two functions (they have
      names) met in the comparison of the pair [cur]; [rec] is compareFunctions. *)
  Definition same_name (l r : F) : bool :=
    let nl := base_name (e_name E l) in let nr := base_name (e_name E r) in
    String.eqb nl nr || (is_print nl && is_print nr).
  Definition global_values (rec : F -> F -> state -> outcome state) (cur : F * F) (l r : F) (ll lr : Z) (st : state)
    : outcome (bool * state) :=
    if same_name l r then
      obind (if excluded l || excluded r then Done st
             else obind (update st cur (add_calls l r ll lr)) (fun st =>
                  if dmem (s_compared st) (l, r) then Done st else rec l r st))
        (fun st => match e_asm E l, e_asm E r with
                   | Some (al, cl), Some (ar, cr) => Done (String.eqb al ar && String.eqb cl cr, st)
                   | _, _ => Done (true, st)
                   end)
    else Done (false, st).
  (** DifferentialFunctionComparator::compare; [saved] are the slots. *)
  Fixpoint run_from (rec : F -> F -> state -> outcome state) (cur : F * F) (c : comp) (saved : dict nat (option C * option C)) (st : state)
    : outcome (bool * state) :=
    match c with
    | Answer b => Done (b, st)
    | Globals l r ll lr k =>
        obind (global_values rec cur l r ll lr st) (fun a => run_from rec cur (k (s_world (snd a)) (fst a)) saved (snd a))
    | Differs o k => obind (update st cur (add_object o)) (run_from rec cur k saved)
    | Undefined l r k => run_from rec cur k saved (with_missing (s_missing st ++ [(Some (VVar l), Some (VVar r))]) st)
    | Suggest p k => run_from rec cur k saved (with_inline p st)
    | Save slot k => run_from rec cur k (dset saved slot (s_inline st)) st
    | Restore slot k => run_from rec cur k saved (with_inline (match dget saved slot with Some p => p | None => (None, None) end) st)
    end.
  Definition run (rec : F -> F -> state -> outcome state) (cur : F * F) (c : comp) (st : state) : outcome (bool * state) :=
    run_from rec cur c [] st.

  (** ModuleComparator.cpp:225-248 [tryToInline]; [None]: the called function is not known *)
  Inductive inlining := NotInlined | Inlined | MissingDef.
  Definition try_to_inline (w : W) (c : option C) : option (inlining * W) :=
    match c with
    | None => Some (NotInlined, w)
    | Some c =>
        match e_callee E w c with
        | None => None
        | Some f =>
            if negb (e_splits E) && negb (e_abstraction E f) then Some (NotInlined, w)
            else if e_declared E w f then
              Some (if negb (e_intrinsic E f) && negb (e_abstraction E f) then MissingDef else NotInlined, w)
            else if negb (is_simplified (e_name E f)) then
              match e_inline E w c with Some w => Some (Inlined, w) | None => Some (NotInlined, w) end
            else Some (NotInlined, w)
        end
    end.
  Definition found (w : W) (c : option C) (f : F) : option C :=
    match c with Some c => if e_present E w c f then Some c else None | None => None end.
  Definition called (w : W) (c : option C) : option F := match c with Some c => e_callee E w c | None => None end.
  Definition is_missing (r : inlining) : bool := match r with MissingDef => true | _ => false end.
  Definition is_inlined (r : inlining) : bool := match r with Inlined => true | _ => false end.
  (** Only pairs of two functions can be keys. *)
  Definition key (p : option F * option F) : list (F * F) :=
    match p with (Some a, Some b) => [(a, b)] | _ => [] end.

  (** ModuleComparator.cpp:135-213: the loop; [fuel] bounds its iterations *)
  Fixpoint inline_loop (fuel : nat) (rec : F -> F -> state -> outcome state) (l r : F) (inlined : list (F * F)) (st : state)
    : outcome state :=
    match fuel with
    | O => OutOfFuel
    | S n =>
        match s_inline st with
        | (None, None) => Done st
        | (a, b) =>
            let w := s_world st in
            let ca := found w a l in let cb := found w b r in
            let fa := called w ca in let fb := called w cb in
            match try_to_inline w ca with
            | None => Crash
            | Some (ra, w) =>
                match try_to_inline w cb with
                | None => Crash
                | Some (rb, w) =>
                    let st := with_world w st in
                    let st := if is_missing ra || is_missing rb
                              then with_missing (s_missing st ++ [(option_map VFun fa, option_map VFun fb)]) st else st in
                    if negb (is_inlined ra) && negb (is_inlined rb) then Done st
                    else
                      let inlined := key (fa, fb) ++ inlined in
                      let st := with_world (e_simplify E (e_simplify E w l) r) st in
                      obind (update st (l, r) (set_kind UNKNOWN)) (fun st =>
                      obind (run rec (l, r) (e_body E (s_world st) l r) st) (fun a =>
                      let st := snd a in
                      obind (update st (l, r) (fun x => x)) (fun st => (* updateStats *)
                      if fst a then
                        obind (update st (l, r) (mark_calls fa fb)) (fun st =>
                        let st := fold_left (fun st p => erase p st) inlined st in
                        obind (update st (l, r) (set_kind EQUAL)) (inline_loop n rec l r inlined))
                      else obind (update st (l, r) (set_kind NOT_EQUAL)) (inline_loop n rec l r inlined))))
                end
            end
        end
    end.

  (** ModuleComparator.cpp:62-95 *)
  Definition declaration_verdict (l r : F) : verdict :=
    if String.eqb (base_name (e_name E l)) (base_name (e_name E r)) then ASSUMED_EQUAL else NOT_EQUAL.
  Definition declaration_missing (w : W) (l r : F) : list (option value * option value) :=
    if e_control_flow E then []
    else if e_declared E w l && e_declared E w r then []
    else if negb (String.eqb (base_name (e_name E l)) (base_name (e_name E r))) then []
    else if e_declared E w l then [(Some (VFun l), None)] else [(None, Some (VFun r))].

  (** ModuleComparator.cpp:41-215 [compareFunctions]; [fuel] bounds the depth of the recursion and
      the iterations of each loop. *)
  Fixpoint compare (fuel : nat) (l r : F) (st : state) : outcome state :=
    match fuel with
    | O => OutOfFuel
    | S n =>
        let st := emplace (l, r) st in
        if e_cached E l r then update st (l, r) (set_kind UNKNOWN)
        else if e_declared E (s_world st) l || e_declared E (s_world st) r then
          obind (update st (l, r) (set_kind (declaration_verdict l r)))
            (fun st => Done (with_missing (s_missing st ++ declaration_missing (s_world st) l r) st))
        else
          obind (run (compare n) (l, r) (e_body E (s_world st) l r) st) (fun a =>
          let st := snd a in
          obind (update st (l, r) (fun x => x)) (fun st => (* updateStats *)
          if fst a then update st (l, r) (set_kind EQUAL)
          else obind (update st (l, r) (set_kind NOT_EQUAL)) (inline_loop n (compare n) l r [])))
    end.

  (** ModuleAnalysis.cpp:195-221: the comparison of two functions: the results listed, and
      whether the bodies are deleted since all pairs are equal.  The order of the results follows
      addresses; here it is the order of insertion. *)
  Definition start (w : W) : state := mkstate w [] (None, None) [].
  Definition listed (st : state) : dict (F * F) result :=
    filter (fun e => negb (e_intrinsic E (fst (fst e))) && negb (e_abstraction E (fst (fst e)))) (s_compared st).
  Definition all_equal (st : state) : bool :=
    forallb (fun e => match r_kind (snd e) with NOT_EQUAL => false | _ => true end) (s_compared st).
  Definition compare_functions (fuel : nat) (w : W) (l r : F) : outcome (dict (F * F) result * bool * list (option value * option value)) :=
    obind (compare fuel l r (start w)) (fun st => Done (listed st, all_equal st, s_missing st)).
  (** ModuleAnalysis.cpp:222-229: without functions to compare; [pairs] are the functions of the
      first module with those of the same name.  No results are listed. *)
  Definition compare_modules (fuel : nat) (w : W) (pairs : list (F * F)) : outcome (list (option value * option value)) :=
    obind (fold_left (fun o p => obind o (compare fuel (fst p) (snd p))) pairs (Done (start w)))
      (fun st => Done (s_missing st)).
End Comparator.
Arguments comp : clear implicits.
Arguments env : clear implicits.
Arguments state : clear implicits.
