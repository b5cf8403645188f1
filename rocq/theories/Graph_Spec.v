(** * Specification vocabulary for the comparison graph

    Everything here is stated with plain relations (no reference to the traversal code). *)
From Coq Require Import String Ascii ZArith Arith List Permutation.
From Verif Require Import PyBase Result_Model Graph_Model.
Import ListNotations.
Open Scope list_scope.

(** A file name with a given extension. *)
Definition has_ext (f ext : string) : Prop := exists p, f = (p ++ ext)%string.

(** Function [u] has, on side [s], a recorded call edge [e] whose target is the function [t]
    of the graph. *)
Definition calls (h : heap) (g : graph) (s : side) (u : vid) (e : edge) (t : vid) : Prop :=
  In e (sel s (v_succ (h u))) /\ dget (g_verts g) (e_target e) = Some t.

(** The comparison boundary: a function lying in a .c file may be entered only when that is the
    file of the start function. *)
Definition enterable (h : heap) (s : side) (start t : vid) : Prop :=
  exists f, sel s (v_files (h t)) = Some f /\
            (has_ext f ".c" -> sel s (v_files (h start)) = Some f).

(** [chain h g s start u path t]: the calls in [path] (caller, call edge) lead from [u] to [t],
    every call being made by the function called just before and never leaving the boundary. *)
Inductive chain (h : heap) (g : graph) (s : side) (start : vid)
  : vid -> list (vid * edge) -> vid -> Prop :=
| chain_nil u : chain h g s start u [] u
| chain_cons u e w path t :
    calls h g s u e w -> enterable h s start w ->
    chain h g s start w path t ->
    chain h g s start u ((u, e) :: path) t.

(** Reachability from the start function. *)
Definition reachable (h : heap) (g : graph) (s : side) (start v : vid) : Prop :=
  exists path, chain h g s start start path v.

(** Reachability by strong calls only. *)
Definition strongly_reachable (h : heap) (g : graph) (s : side) (start v : vid) : Prop :=
  exists path, chain h g s start start path v /\
               Forall (fun pe => e_kind (snd pe) = STRONG) path.

(** Every function of the graph has a source file on side [s]. *)
Definition all_files (h : heap) (g : graph) (s : side) : Prop :=
  forall n v, dget (g_verts g) n = Some v -> sel s (v_files (h v)) <> None.

(** A Python loop modelled with fuel terminates with outcome [r]: some amount of fuel yields
    [r] and any larger amount yields the same. *)
Definition terminates_with {A} (f : nat -> option A) (r : A) : Prop :=
  exists n, forall m, (n <= m)%nat -> f m = Some r.
Definition terminates {A} (f : nat -> option A) : Prop := exists r, terminates_with f r.

(** ** Object lists *)

(** An undecided or equal result, not reported without --full-diff. *)
Definition hidden (full_diff : bool) (k : kind) : Prop :=
  k = ASSUMED_EQUAL \/ (k = EQUAL /\ full_diff = false).

(** Object [o] reports function [v]: names, places and verdict are the recorded ones. *)
Definition reports_function (h : heap) (v : vid) (o : cobject) : Prop :=
  en_kind (o_first o) = DFunction /\ en_kind (o_second o) = DFunction /\
  (en_name (o_first o), en_name (o_second o)) = v_names (h v) /\
  (en_file (o_first o), en_file (o_second o)) = v_files (h v) /\
  (en_line (o_first o), en_line (o_second o)) = v_lines (h v) /\
  o_kind o = v_result (h v) /\
  en_covered (o_first o) = en_covered (o_second o) /\
  (en_covered (o_first o) = true <-> v_nonfun (h v) <> []).

(** Entity [e] shows side [s] of the non-function difference [d]: a macro or inline assembly
    difference is syntactic and has no place of its own, a type difference has the recorded
    file and line of that side. *)
Definition shows_nonfun (s : side) (d : nonfun) (e : entity) : Prop :=
  en_name e = nf_name d /\
  match d with
  | SyntaxDiff _ _ _ _ => en_kind e = DSyntactic /\ en_file e = None /\ en_line e = None
  | TypeDiff _ _ _ file line =>
      en_kind e = DType /\ en_file e = Some (sel s file) /\ en_line e = Some (sel s line)
  end.
(** Object [o] reports the non-function difference [d]. *)
Definition reports_nonfun (d : nonfun) (o : cobject) : Prop :=
  shows_nonfun LEFT d (o_first o) /\ shows_nonfun RIGHT d (o_second o) /\ o_kind o = NOT_EQUAL.

(** ** Merging *)

(** What the merged graph knows about a name: [stronger old new] says that the new vertex
    replaces the old one. *)
Definition more_calls (x y : vertex) : Prop :=
  (length (fst (v_succ x)) < length (fst (v_succ y)))%nat \/
  (length (snd (v_succ x)) < length (snd (v_succ y)))%nat.
Definition replaces (old new : vertex) : Prop :=
  v_result old = ASSUMED_EQUAL \/ v_result old = UNKNOWN \/
  (fst (v_files old) <> snd (v_files old) /\ v_result old = NOT_EQUAL /\ v_result new = EQUAL) \/
  more_calls old new.

(** Two states of one function record that differ at most in the "cachable" mark. *)
Definition same_but_cachable (x y : vertex) : Prop :=
  v_names x = v_names y /\ v_result x = v_result y /\ v_nonfun x = v_nonfun y /\
  v_succ x = v_succ y /\ v_files x = v_files y /\ v_lines x = v_lines y /\
  v_stats x = v_stats y /\ v_prevents x = v_prevents y /\ v_pred x = v_pred y.
(** Two states that differ at most in the predecessor lists. *)
Definition same_but_pred (x y : vertex) : Prop :=
  v_names x = v_names y /\ v_result x = v_result y /\ v_nonfun x = v_nonfun y /\
  v_succ x = v_succ y /\ v_files x = v_files y /\ v_lines x = v_lines y /\
  v_stats x = v_stats y /\ v_cachable x = v_cachable y /\ v_prevents x = v_prevents y.
(** Two states that differ at most in the caching marks. *)
Definition same_but_marks (x y : vertex) : Prop :=
  v_names x = v_names y /\ v_result x = v_result y /\ v_nonfun x = v_nonfun y /\
  v_succ x = v_succ y /\ v_files x = v_files y /\ v_lines x = v_lines y /\
  v_stats x = v_stats y /\ v_pred x = v_pred y.

(** ** Caching marks *)

(** [p] calls [v] through header functions only: [header_caller h p v] holds when there are
    predecessors from [v] up to [p] which all lie in .h files. *)
Inductive header_caller (h : heap) (v : vid) : vid -> Prop :=
| hc_direct p f : In p (fst (v_pred (h v))) -> fst (v_files (h p)) = Some f -> has_ext f ".h" ->
                  header_caller h v p
| hc_step q p f : header_caller h v q -> In p (fst (v_pred (h q))) ->
                  fst (v_files (h p)) = Some f -> has_ext f ".h" ->
                  header_caller h v p.
Definition assumed_outside_header (h : heap) (v : vid) : Prop :=
  v_result (h v) = ASSUMED_EQUAL /\
  exists f, fst (v_files (h v)) = Some f /\ ~ has_ext f ".h".

(** The same in terms of the recorded calls of a graph's functions. *)
Inductive called_through_headers (h : heap) (g : graph) (v : vid) : vid -> Prop :=
| ch_direct k p e f : dget (g_verts g) k = Some p -> calls h g LEFT p e v ->
                      fst (v_files (h p)) = Some f -> has_ext f ".h" ->
                      called_through_headers h g v p
| ch_step q k p e f : called_through_headers h g v q ->
                      dget (g_verts g) k = Some p -> calls h g LEFT p e q ->
                      fst (v_files (h p)) = Some f -> has_ext f ".h" ->
                      called_through_headers h g v p.

(** ** Call stacks of reported objects *)
Definition calls_along (path : list (vid * edge)) : callstack :=
  map (fun pe => mkCall (e_target (snd pe)) (e_file (snd pe)) (e_line (snd pe))) path.
(** The call stack of a reported function: absent for the compared function itself, otherwise
    the calls along some chain from the compared function. *)
Definition function_stack h g s start (base : string) (v : vid) (cs : option callstack) : Prop :=
  (sel s (v_names (h v)) = base /\ cs = None) \/
  (sel s (v_names (h v)) <> base /\
   exists path, chain h g s start start path v /\ cs = Some (calls_along path)).
(** The call stack of a non-function difference found in [v]: a chain to [v] (dropped when the
    difference is in the compared function) followed by the stack recorded by SimpLL. *)
Definition nonfun_stack h g s start (base : string) (v : vid) (d : nonfun) (cs : option callstack) : Prop :=
  exists path, (nf_parent d = base /\ path = [] \/
                nf_parent d <> base /\ chain h g s start start path v) /\
               cs = Some (calls_along path ++ sel s (nf_stack d)).

(** ** Variant functions *)

(** SimpLL's void-returning variant of a function. *)
Definition variant (n : string) : string := (n ++ ".void")%string.
Definition is_variant (n : string) : Prop := exists p, n = variant p.
Definition is_double_variant (n : string) : Prop := exists p, n = variant (variant p).
(** [m] is [n] without the variant suffix. *)
Definition stripped (n m : string) : Prop := n = variant m \/ (~ is_variant n /\ m = n).

(** How normalisation changes a call edge of function [v]: the target loses the suffix; the
    call becomes weak iff it was or [v] calls, on either side, the variant of the (stripped)
    target and that variant was found EQUAL. *)
Definition edge_normalized (h : heap) (g : graph) (v : vid) (e e' : edge) : Prop :=
  stripped (e_target e) (e_target e') /\ e_file e' = e_file e /\ e_line e' = e_line e /\
  (e_kind e' = WEAK <->
   e_kind e = WEAK \/
   exists s e2 tv, calls h g s v e2 tv /\ e_target e2 = variant (e_target e') /\
                   v_result (h tv) = EQUAL).

(** Unchanged by normalisation, apart from names, result and successors. *)
Definition same_rest (x y : vertex) : Prop :=
  v_nonfun x = v_nonfun y /\ v_files x = v_files y /\ v_lines x = v_lines y /\ v_stats x = v_stats y /\
  v_cachable x = v_cachable y /\ v_prevents x = v_prevents y /\ v_pred x = v_pred y.

(** The keys of a Python dictionary are distinct. *)
Definition dictionary_keys_distinct (g : graph) : Prop := NoDup (dkeys (g_verts g)).

(** A graph freshly built from a SimpLL output: [ys] are SimpLL's results, the vertices got the
    ids from [n0] on. *)
Definition built (h0 : heap) (n0 : nat) (ys : list yresult) (h : heap) (n : nat) (g : graph) : Prop :=
  fold_res add_result (h0, n0, empty_graph) ys = Ok (h, n, g).
(** The names occurring in a SimpLL output. *)
Definition names_in (y : yresult) : list string :=
  [yi_fun (yr_first y); yi_fun (yr_second y)] ++
  map yc_fun (match yi_calls (yr_first y) with Some l => l | None => [] end) ++
  map yc_fun (match yi_calls (yr_second y) with Some l => l | None => [] end).
Definition no_double_variants (ys : list yresult) : Prop :=
  forall y n, In y ys -> In n (names_in y) -> ~ is_double_variant n.

(** What one SimpLL result must become: a vertex with exactly the reported names, verdict,
    places, statistics, calls and non-function differences.  The calls of the second function
    are only read when the first one has a "calls" entry. *)
Definition calls_list (o : option (list ycall)) : list ycall := match o with Some l => l | None => [] end.

(** The calls that end up in the graph: the right side is only read when the left side has a
    "calls" entry. *)
Definition ycalls (y : yresult) (s : side) : list ycall :=
  match yi_calls (yr_first y) with
  | None => []
  | Some l => match s with LEFT => l | RIGHT => calls_list (yi_calls (yr_second y)) end
  end.
Definition represents (y : yresult) (x : vertex) : Prop :=
  v_names x = (yi_fun (yr_first y), yi_fun (yr_second y)) /\
  kind_from_string (yr_result y) = Ok (v_result x) /\
  nonfuns_from_yaml None (yr_objects y) = Ok (v_nonfun x) /\
  v_succ x = (map edge_from_yaml (ycalls y LEFT), map edge_from_yaml (ycalls y RIGHT)) /\
  v_files x = (yi_file (yr_first y), yi_file (yr_second y)) /\
  v_lines x = (yi_line (yr_first y), yi_line (yr_second y)) /\
  v_stats x = yr_stats y /\ v_cachable x = true /\ v_prevents x = [] /\ v_pred x = ([], []).


(** The name under which a result is stored: its first function's name when that contains a
    dot, its second function's name otherwise. *)
Definition dotted (n : string) : Prop := exists a b, n = (a ++ "." ++ b)%string.
Definition stored_as (y : yresult) (k : string) : Prop :=
  (dotted (yi_fun (yr_first y)) /\ k = yi_fun (yr_first y)) \/
  (~ dotted (yi_fun (yr_first y)) /\ k = yi_fun (yr_second y)).

(** A well-formed SimpLL result: a known verdict, "calls" on the second side whenever on the
    first, and a first non-function difference of a known form. *)
Definition yresult_ok (y : yresult) : Prop :=
  (exists k, kind_from_string (yr_result y) = Ok k) /\
  (yi_calls (yr_first y) <> None -> yi_calls (yr_second y) <> None) /\
  (forall o rest, yr_objects y = o :: rest -> o <> YOther).


(** Every called variant function has its own result. *)
Definition variants_closed (ys : list yresult) : Prop :=
  forall y s c, In y ys -> In c (ycalls y s) -> is_variant (yc_fun c) ->
    exists y', In y' ys /\ stored_as y' (yc_fun c).
(** No two results of variant functions share a key. *)
Definition variants_distinct (ys : list yresult) : Prop :=
  forall i j y y' k, nth_error ys i = Some y -> nth_error ys j = Some y' ->
    is_variant k -> stored_as y k -> stored_as y' k -> i = j.
