(** * Model of the comparison of one function pair
    (diffkemp/semdiff/function_diff.py:17-47, 160-318) *)
From Coq Require Import String Ascii ZArith Arith Bool Lia List.
From Verif Require Import PyBase Path_Model Result_Model Graph_Model Cache_Model Module_Model.
Import ListNotations.
Open Scope list_scope.

(** Externally visible actions, newest first in the log. *)
Inductive event :=
| ERunSimpll (left right : string)         (* run_simpll on the two LLVM files *)
| EFind (s : side) (symbol : string)       (* get_module_for_symbol in the snapshot's trees *)
| ELink (s : side) (m : mid)               (* link_modules *)
| ECacheUpdate
| ESyntaxDiff (o : cobject)
| ESemdiff (o : cobject).

(** Entries of SimpLL's "missing-defs": the keys "first" and "second" are both optional. *)
Definition missing := (option string * option string)%type.

(** Everything outside the modelled code, as arbitrary functions.  The first argument is the
    log of all earlier actions, so that answers may depend on the whole history.
    - [w_simpll]: run_simpll (simpll.py:24-211): a heap with the new vertices, the new graph and
      the missing definitions, or an exception;
    - [w_find]: the module object found in the snapshot tree or, failing that, in the source
      tree (_link_symbol_def, function_diff.py:32-41);
    - [w_link]: outcome of the linking tools;
    - [w_syntax_diff], [w_semdiff]: syntax_diff and functions_semdiff;
    - [w_order]: iteration order of a set of vertices. *)
Record world := mkWorld {
  w_simpll : list event -> heap -> string -> string -> res (heap * graph * list missing);
  w_find : list event -> side -> string -> option mid;
  w_link : list event -> side -> mid -> link_outcome;
  w_files : mid -> string;
  w_syntax_diff : list event -> cobject -> res string;
  w_semdiff : list event -> cobject -> res kind;
  w_order : list vid -> list vid }.

(** The parts of the configuration used here. *)
Record dconfig := mkDConfig { full_diff : bool; semdiff_tool : bool }.

(** State of one comparison; [s_first] and [s_second] are the two compared modules,
    [s_prev] the object prev_result_graph, [s_curr] the variable curr_result_graph. *)
Record dst := mkDst {
  s_log : list event; s_heap : heap; s_disk : disk; s_first : lmod; s_second : lmod;
  s_cache : option cache; s_prev : option graph; s_curr : option graph }.

Definition log (e : event) (st : dst) : dst :=
  mkDst (e :: s_log st) (s_heap st) (s_disk st) (s_first st) (s_second st) (s_cache st) (s_prev st) (s_curr st).
Definition module_of (s : side) (st : dst) : lmod := match s with LEFT => s_first st | RIGHT => s_second st end.
Definition set_module (s : side) (m : lmod) (st : dst) : dst :=
  match s with
  | LEFT => mkDst (s_log st) (s_heap st) (s_disk st) m (s_second st) (s_cache st) (s_prev st) (s_curr st)
  | RIGHT => mkDst (s_log st) (s_heap st) (s_disk st) (s_first st) m (s_cache st) (s_prev st) (s_curr st)
  end.
Definition set_disk (d : disk) (st : dst) : dst :=
  mkDst (s_log st) (s_heap st) d (s_first st) (s_second st) (s_cache st) (s_prev st) (s_curr st).
Definition set_curr (h : heap) (c : option graph) (st : dst) : dst :=
  mkDst (s_log st) h (s_disk st) (s_first st) (s_second st) (s_cache st) (s_prev st) c.
Definition set_graphs (h : heap) (p c : option graph) (st : dst) : dst :=
  mkDst (s_log st) h (s_disk st) (s_first st) (s_second st) (s_cache st) p c.
Definition set_cache (c : option cache) (st : dst) : dst :=
  mkDst (s_log st) (s_heap st) (s_disk st) (s_first st) (s_second st) c (s_prev st) (s_curr st).

Section Driver.
  Variable w : world.
  Variables cwd directory : string.   (* for the cache, see Cache_Model *)
  Variable cfg : dconfig.

  (** function_diff.py:17-47 [_link_symbol_def].  [new_mod.clean_module()] acts on the linked
      module, whose parsed form is never created here; it is left out. *)
  Definition link_symbol_def (s : side) (symbol : string) (st : dst) : dst * bool :=
    let st1 := log (EFind s symbol) st in
    match w_find w (s_log st) s symbol with
    | None => (st1, false)
    | Some m =>
        let st2 := log (ELink s m) st1 in
        let '(d, mod', answer) :=
          link_modules (w_link w (s_log st1) s m) (w_files w) (s_disk st2) (module_of s st2) [m] in
        (set_disk d (set_module s mod' st2), answer)
    end.

  (** function_diff.py:223-238 the loop over the missing definitions; the answer is the new
      value of [simplify]. *)
  Definition link_side (s : side) (sym : option string) (sb : dst * bool) : dst * bool :=
    match sym with
    | None => sb
    | Some x => let '(st', b) := link_symbol_def s x (fst sb) in (st', snd sb || b)
    end.
  Definition link_pair (sb : dst * bool) (p : missing) : dst * bool :=
    link_side RIGHT (snd p) (link_side LEFT (fst p) sb).
  Definition link_missing (st : dst) (ms : list missing) : dst * bool :=
    fold_left link_pair ms (st, false).

  (** function_diff.py:203-207 the result known from earlier comparisons is used. *)
  Definition reusable (st : dst) (fun_first : string) : bool :=
    match s_prev st with
    | None => false
    | Some g => match dget (g_verts g) fun_first with
                | None => false
                | Some v => negb (kind_eqb (v_result (s_heap st v)) ASSUMED_EQUAL) && same_file (s_heap st v)
                end
    end.

  (** function_diff.py:239-254 merging into the previous graph and updating the cache. *)
  Definition merge_results (st : dst) (g : graph) : dst * res unit :=
    match s_prev st with
    | None => (st, Ok tt)
    | Some p =>
        let '(h', p') := absorb_graph (s_heap st) p g in
        let st1 := set_graphs h' (Some p') (Some p') st in
        match s_cache st with
        | None => (st1, Ok tt)
        | Some c =>
            let st2 := log ECacheUpdate st1 in
            match update_from_graph cwd directory c h' p' with
            | Ok c' => (set_cache (Some c') st2, Ok tt)
            | Err e => (st2, Err e)   (* simplification: files written before the exception are not tracked *)
            end
        end
    end.

  (** function_diff.py:200-254 the [while simplify] loop.  The answer tells whether the known
      result was reused (then first_simpl is ""). *)
  Fixpoint simplify_loop (fuel : nat) (fun_first : string) (st : dst) : option (dst * res bool) :=
    match fuel with
    | O => None
    | S fuel' =>
        if reusable st fun_first
        then Some (set_curr (s_heap st) (s_prev st) st, Ok true)
        else
          let l := m_llvm (s_first st) in
          let r := m_llvm (s_second st) in
          let st1 := log (ERunSimpll l r) st in
          match w_simpll w (s_log st) (s_heap st) l r with
          | Err e => Some (st1, Err e)
          | Ok (h', g, ms) =>
              let st2 := set_curr h' (Some g) st1 in
              let '(st3, again) := link_missing st2 ms in
              if again then simplify_loop fuel' fun_first st3
              else match merge_results st3 g with
                   | (st4, Ok _) => Some (st4, Ok false)
                   | (st4, Err e) => Some (st4, Err e)
                   end
          end
    end.

  (** function_diff.py:270-279 the verdict of one object. *)
  Definition is_function (o : cobject) : bool :=
    match en_kind (o_first o) with DFunction => true | _ => false end.
  Definition object_kind (reused : bool) (st : dst) (o : cobject) : dst * res kind :=
    if negb (is_function o) && semdiff_tool cfg then
      let st1 := log (ESemdiff o) st in
      (* with reused results first_simpl is "" and has no methods *)
      (st1, if reused then Err AttributeError else w_semdiff w (s_log st) o)
    else (st, Ok (o_kind o)).

  (** function_diff.py:282-303 the text of the difference. *)
  Definition object_diff (p : pair_list) (st : dst) (o : cobject) (k : kind) : dst * res (option string) :=
    if kind_eqb k NOT_EQUAL || full_diff cfg then
      match en_kind (o_first o) with
      | DSyntactic =>
          (st, match dget (p_bodies_left p) (en_name (o_first o)), dget (p_bodies_right p) (en_name (o_second o)) with
               | Some l, Some r => Ok (Some ("  " ++ l ++ String "010" (String "010" ("  " ++ r ++ String "010" "")))%string)
               | _, _ => Err KeyError
               end)
      | _ =>
          (log (ESyntaxDiff o) st,
           match w_syntax_diff w (s_log st) o with Ok d => Ok (Some d) | Err e => Err e end)
      end
    else (st, Ok None).

  (** function_diff.py:304-308 *)
  Definition object_skipped (k : kind) (d : option string) : bool :=
    negb (kind_eqb k NOT_EQUAL) && match d with Some s => String.eqb s "" | None => false end.

  (** function_diff.py:269-309 the loop over the objects; [r] is the result so far (kept when
      an exception leaves the loop). *)
  Fixpoint process_objects (reused : bool) (p : pair_list) (os : list cobject) (st : dst) (r : result graph)
    : dst * result graph * res unit :=
    match os with
    | [] => (st, r, Ok tt)
    | o :: os' =>
        match object_kind reused st o with
        | (st1, Err e) => (st1, r, Err e)
        | (st1, Ok k) =>
            match object_diff p st1 o k with
            | (st2, Err e) => (st2, r, Err e)
            | (st2, Ok d) =>
                if object_skipped k d then process_objects reused p os' st2 r
                else match add_inner r (mkResult k (o_first o) (o_second o) d None []) with
                     | Err e => (st2, r, Err e)
                     | Ok r' => process_objects reused p os' st2 r'
                     end
            end
        end
    end.

  Definition with_kind (r : result graph) (k : kind) : result graph :=
    mkResult k (r_first r) (r_second r) (r_diff r) (r_graph r) (r_inner r).
  Definition with_graph (r : result graph) (g : option graph) : result graph :=
    mkResult (r_kind r) (r_first r) (r_second r) (r_diff r) g (r_inner r).

  (** function_diff.py:310-318 the exception handlers and the graph of the result. *)
  Definition finish (st : dst) (r : result graph) (out : res unit) : dst * res (result graph) :=
    let g := match s_curr st with Some c => Some c | None => s_prev st end in
    match out with
    | Ok _ => (st, Ok (with_graph r g))
    | Err ValueError => (st, Ok (with_graph (with_kind r ERROR) g))
    | Err UnicodeDecodeError => (st, Ok (with_graph (with_kind r ERROR) g)) (* a subclass of ValueError *)
    | Err UnicodeEncodeError => (st, Ok (with_graph (with_kind r ERROR) g)) (* likewise *)
    | Err SimpLLException => (st, Ok (with_graph (with_kind r ERROR) g))
    | Err e => (st, Err e)
    end.

  (** function_diff.py:261-262 *)
  Definition restore_modules (st : dst) : dst :=
    set_module LEFT (restore_unlinked (s_first st)) (set_module RIGHT (restore_unlinked (s_second st)) st).

  (** function_diff.py:160-318 [functions_diff].  [curr_result_graph] starts as None. *)
  Definition functions_diff (fuel : nat) (f1 f2 : string) (st : dst) : option (dst * res (result graph)) :=
    let r0 : result graph := new_result NONE f1 f2 in
    let st0 := set_curr (s_heap st) None st in
    match simplify_loop fuel f1 st0 with
    | None => None
    | Some (st1, Err e) => Some (finish st1 r0 (Err e))
    | Some (st1, Ok reused) =>
        match s_curr st1 with
        | None => Some (finish st1 r0 (Err AttributeError))   (* unreachable *)
        | Some g =>
            match graph_to_fun_pair_list (w_order w) fuel (s_heap st1) g f1 f2 (full_diff cfg) with
            | None => None
            | Some (Err e) => Some (finish st1 r0 (Err e))
            | Some (Ok p) =>
                let st2 := restore_modules st1 in
                match p_objects p with
                | [] => Some (finish st2 (with_kind r0 EQUAL) (Ok tt))
                | os =>
                    let '(st3, r, out) := process_objects reused p os st2 r0 in
                    Some (finish st3 r out)
                end
            end
        end
    end.
End Driver.

(** function_diff.py:50-118 [_run_llreve_z3] after the processes ended: the stripped output
    lines of z3, its exit code, and whether the timer was still alive. *)
Definition z3_line (k : kind) (line : string) : kind :=
  if String.eqb line "sat" then NOT_EQUAL
  else if String.eqb line "unsat" then EQUAL
  else if String.eqb line "unknown" then UNKNOWN else k.
Definition llreve_verdict (lines : list string) (returncode : Z) (timer_alive : bool) : kind :=
  let k := fold_left z3_line lines ERROR in
  let k1 := if Z.eqb returncode 0 then k else ERROR in
  if timer_alive then k1 else TIMEOUT.
