(** * Model of ComparisonGraph (diffkemp/semdiff/caching.py:16-570) and of the graph
    construction in diffkemp/simpll/simpll.py:181-211 *)
From Coq Require Import String Ascii ZArith Arith Bool Lia List.
From Verif Require Import PyBase Result_Model.
Import ListNotations.
Open Scope list_scope.

(** caching.py:21-24 [Side]; Python iterates over it as LEFT, RIGHT. *)
Inductive side := LEFT | RIGHT.
Definition sel {A} (s : side) (p : A * A) : A := match s with LEFT => fst p | RIGHT => snd p end.
Definition upd {A} (s : side) (p : A * A) (x : A) : A * A :=
  match s with LEFT => (x, snd p) | RIGHT => (fst p, x) end.

Definition side_eqb (a b : side) : bool :=
  match a, b with LEFT, LEFT | RIGHT, RIGHT => true | _, _ => false end.
Lemma side_eqb_spec a b : reflect (a = b) (side_eqb a b).
Proof. destruct a, b; simpl; constructor; congruence. Qed.
Lemma side_eqb_refl a : side_eqb a a = true.
Proof. destruct a; reflexivity. Qed.
#[export] Instance EqB_side : EqB side := {| eqb := side_eqb; eqb_spec := side_eqb_spec |}.

(** caching.py:26-45 [DependencyKind] *)
Inductive dep := WEAK | STRONG.
Definition dep_from_yaml (weak : bool) : dep := if weak then WEAK else STRONG.
Definition dep_eqb (a b : dep) : bool :=
  match a, b with WEAK, WEAK | STRONG, STRONG => true | _, _ => false end.

(** Identity of a Vertex object (Python compares and hashes Vertex objects by identity:
    the class defines neither [__eq__] nor [__hash__]). *)
Notation vid := nat (only parsing).

(** caching.py:172-184 [Edge].  [parent_vertex] is the vertex in whose successor list the edge
    is stored (set together in [add_successor], 142-145), so it is not a field here. *)
Record edge := mkEdge { e_target : string; e_file : string; e_line : Z; e_kind : dep }.

(** caching.py:198-253 [SyntaxDiff] and [TypeDiff] *)
Inductive nonfun :=
| SyntaxDiff (name parent_fun : string) (stack : callstack * callstack) (body : string * string)
| TypeDiff (name parent_fun : string) (stack : callstack * callstack)
           (file : string * string) (line : Z * Z).
Definition nf_name (d : nonfun) := match d with SyntaxDiff n _ _ _ => n | TypeDiff n _ _ _ _ => n end.
Definition nf_parent (d : nonfun) := match d with SyntaxDiff _ p _ _ => p | TypeDiff _ p _ _ _ => p end.
Definition nf_stack (d : nonfun) := match d with SyntaxDiff _ _ s _ => s | TypeDiff _ _ s _ _ => s end.

(** caching.py:47-63 [FunctionStats]: (inst-cnt, inst-equal-cnt, lines-cnt) for both sides. *)
Record stats := mkStats { inst_cnt : Z * Z; inst_equal_cnt : Z * Z; lines_cnt : Z * Z }.
Definition no_stats := mkStats (0, 0)%Z (0, 0)%Z (0, 0)%Z.
Definition compared_inst_cnt (s : stats) : Z := (fst (inst_cnt s) + snd (inst_cnt s))%Z.
Definition compared_inst_equal_cnt (s : stats) : Z := (fst (inst_equal_cnt s) + snd (inst_equal_cnt s))%Z.
Definition compared_lines_cnt (s : stats) : Z := (fst (lines_cnt s) + snd (lines_cnt s))%Z.

(** caching.py:65-93 [Vertex] *)
Record vertex := mkVertex {
  v_names : string * string;
  v_result : kind;
  v_nonfun : list nonfun;
  v_succ : list edge * list edge;
  v_files : option string * option string;
  v_lines : option Z * option Z;
  v_stats : stats;
  v_cachable : bool;
  v_prevents : list vid;
  v_pred : list vid * list vid }.

(** caching.py:76-93 the constructor *)
Definition new_vertex names result files lines st : vertex :=
  mkVertex names result [] ([], []) files lines st true [] ([], []).

Definition with_names v x := mkVertex x (v_result v) (v_nonfun v) (v_succ v) (v_files v) (v_lines v) (v_stats v) (v_cachable v) (v_prevents v) (v_pred v).
Definition with_result v x := mkVertex (v_names v) x (v_nonfun v) (v_succ v) (v_files v) (v_lines v) (v_stats v) (v_cachable v) (v_prevents v) (v_pred v).
Definition with_nonfun v x := mkVertex (v_names v) (v_result v) x (v_succ v) (v_files v) (v_lines v) (v_stats v) (v_cachable v) (v_prevents v) (v_pred v).
Definition with_succ v x := mkVertex (v_names v) (v_result v) (v_nonfun v) x (v_files v) (v_lines v) (v_stats v) (v_cachable v) (v_prevents v) (v_pred v).
Definition with_cachable v x := mkVertex (v_names v) (v_result v) (v_nonfun v) (v_succ v) (v_files v) (v_lines v) (v_stats v) x (v_prevents v) (v_pred v).
Definition with_prevents v x := mkVertex (v_names v) (v_result v) (v_nonfun v) (v_succ v) (v_files v) (v_lines v) (v_stats v) (v_cachable v) x (v_pred v).
Definition with_pred v x := mkVertex (v_names v) (v_result v) (v_nonfun v) (v_succ v) (v_files v) (v_lines v) (v_stats v) (v_cachable v) (v_prevents v) x.

(** The heap of Vertex objects.  It is a total function: a Python reference is never dangling. *)
Definition heap := vid -> vertex.
Definition hset (h : heap) (v : vid) (x : vertex) : heap := fun w => if Nat.eqb w v then x else h w.

(** An Edge object is identified by its vertex, side and position (edges are only ever
    appended to successor lists, 144). *)
Definition eref := (vid * side * nat)%type.

(** caching.py:255-266 [ComparisonGraph] *)
Record graph := mkGraph {
  g_verts : dict string vid;
  g_equal : list string;      (* a set *)
  g_ecache : list eref;
  g_wcache : list vid }.
Definition empty_graph : graph := mkGraph [] [] [] [].

(** caching.py:268-269 [__getitem__] *)
Definition getitem (g : graph) (name : string) : res vid :=
  match dget (g_verts g) name with Some v => Ok v | None => Err KeyError end.

(** caching.py:271-276 [__setitem__] *)
Definition setitem (h : heap) (g : graph) (name : string) (v : vid) : graph :=
  mkGraph (dset (g_verts g) name v)
          (if kind_eqb (v_result (h v)) EQUAL then set_add (fst (v_names (h v))) (g_equal g)
           else g_equal g)
          (g_ecache g)
          (if endswith name ".void" then g_wcache g ++ [v] else g_wcache g).

(** caching.py:142-145 [Vertex.add_successor] *)
Definition add_successor (x : vertex) (s : side) (e : edge) : vertex :=
  with_succ x (upd s (v_succ x) (sel s (v_succ x) ++ [e])).

(** caching.py:283-296 [add_edge] *)
Definition add_edge (h : heap) (g : graph) (v : vid) (s : side) (e : edge) : heap * graph :=
  (hset h v (add_successor (h v) s e),
   mkGraph (g_verts g) (g_equal g)
           (if endswith (e_target e) ".void"
            then g_ecache g ++ [(v, s, length (sel s (v_succ (h v))))] else g_ecache g)
           (g_wcache g)).

(** caching.py:151-152 [same_file] *)
Definition same_file (x : vertex) : bool := opt_eqb (fst (v_files x)) (snd (v_files x)).

(** caching.py:154-170 [compare_vertex_priority] *)
Definition compare_vertex_priority (x other : vertex) : bool :=
  if mem (v_result x) [ASSUMED_EQUAL; UNKNOWN] then true
  else if negb (same_file x) && kind_eqb (v_result x) NOT_EQUAL && kind_eqb (v_result other) EQUAL
  then true
  else existsb (fun s => (length (sel s (v_succ x)) <? length (sel s (v_succ other)))%nat)
               [LEFT; RIGHT].

(** The breadth-first skeleton shared by [reachable_from] (317-341) and
    [mark_uncachable_from_assumed_equal] (449-460): the oldest queue element is popped, added
    to [visited], and [body visited current acc] says which vertices to enqueue.
    The head of [queue] is the oldest element ([deque.pop()] after [appendleft]).
    [None] means that the fuel ran out (the Python loop is still running). *)
Section Bfs.
  Context {A : Type}.
  Variable body : list vid -> vid -> A -> res (list vid * A).
  Fixpoint bfs (fuel : nat) (queue visited : list vid) (acc : A) : option (res A) :=
    match fuel with
    | O => None
    | S fuel' =>
        match queue with
        | [] => Some (Ok acc)
        | c :: q =>
            let visited' := set_add c visited in
            match body visited' c acc with
            | Err e => Some (Err e)
            | Ok (pushed, acc') => bfs fuel' (q ++ pushed) visited' acc'
            end
        end
    end.
End Bfs.

(** What [reachable_from] accumulates: the result list and the backtracking map
    (vertex -> edge together with the edge's parent vertex). *)
Record racc := mkRacc { ra_result : list vid; ra_back : dict vid (vid * edge) }.

(** caching.py:320-341 the [for edge in current.successors[side]] loop. *)
Fixpoint scan_edges (h : heap) (g : graph) (s : side) (start : vid) (visited : list vid)
         (current : vid) (es : list edge) (acc : racc) : res (list vid * racc) :=
  match es with
  | [] => Ok ([], acc)
  | e :: es' =>
      match dget (g_verts g) (e_target e) with
      | None => scan_edges h g s start visited current es' acc
      | Some t =>
          if mem t visited then scan_edges h g s start visited current es' acc
          else match sel s (v_files (h t)) with
               | None => Err AttributeError   (* None.endswith *)
               | Some f =>
                   if endswith f ".c" && negb (opt_eqb (sel s (v_files (h start))) (Some f))
                   then scan_edges h g s start visited current es' acc
                   else
                     let back := if dmem (ra_back acc) t then ra_back acc
                                 else ra_back acc ++ [(t, (current, e))] in
                     let result := if dep_eqb (e_kind e) WEAK then ra_result acc
                                   else ra_result acc ++ [t] in
                     match scan_edges h g s start visited current es' (mkRacc result back) with
                     | Ok (pushed, acc') => Ok (t :: pushed, acc')
                     | Err x => Err x
                     end
               end
      end
  end.

(** caching.py:298-342 [reachable_from].  The original reads [original_source_files] once
    (310); vertices do not change during the loop. *)
Definition reachable_from (fuel : nat) (h : heap) (g : graph) (s : side) (start_name : string)
  : option (res racc) :=
  match getitem g start_name with
  | Err e => Some (Err e)
  | Ok start =>
      bfs (fun visited current acc =>
             scan_edges h g s start visited current (sel s (v_succ (h current))) acc)
          fuel [start] [] (mkRacc [start] [])
  end.

(** caching.py:563-570 [_get_callstack], as the list of (parent, edge) from the start to the
    end.  [back_from] walks from the last edge backwards, accumulating in front. *)
Fixpoint back_from (fuel : nat) (back : dict vid (vid * edge)) (start : vid)
         (acc : list (vid * edge)) (last_parent : vid) : option (res (list (vid * edge))) :=
  if Nat.eqb last_parent start then Some (Ok acc)
  else match fuel with
       | O => None
       | S fuel' =>
           match dget back last_parent with
           | None => Some (Err KeyError)
           | Some (p, e) => back_from fuel' back start ((p, e) :: acc) p
           end
       end.
Definition get_callstack (fuel : nat) (back : dict vid (vid * edge)) (start end_ : vid)
  : option (res (list (vid * edge))) :=
  if Nat.eqb start end_ then Some (Ok [])
  else match dget back end_ with
       | None => Some (Err KeyError)
       | Some (p, e) => back_from fuel back start [(p, e)] p
       end.

(** result.py:53-59 [Callstack.from_edge_objects] *)
Definition callstack_of_edges (es : list (vid * edge)) : callstack :=
  map (fun pe => mkCall (e_target (snd pe)) (e_file (snd pe)) (e_line (snd pe))) es.

(** caching.py:344-363 [absorb_graph]: one iteration of the loop over the absorbed
    dictionary.  The heap is shared, so resetting [cachable] affects the objects themselves. *)
Definition reset_cachable (h : heap) (vs : list vid) : heap :=
  fold_left (fun h' w => hset h' w (with_cachable (h' w) true)) vs h.
Definition absorb_step (st : heap * graph) (nv : string * vid) : heap * graph :=
  let '(h, g) := st in
  let '(name, v) := nv in
  match dget (g_verts g) name with
  | None => (h, setitem h g name v)
  | Some old =>
      if compare_vertex_priority (h old) (h v) then
        let h' := if kind_eqb (v_result (h old)) ASSUMED_EQUAL &&
                     negb (kind_eqb (v_result (h v)) ASSUMED_EQUAL)
                  then reset_cachable h (v_prevents (h old)) else h in
        (h', setitem h' g name v)
      else (h, g)
  end.
Definition absorb_graph (h : heap) (self other : graph) : heap * graph :=
  fold_left absorb_step (g_verts other) (h, self).

(** Update of the i-th element of a list. *)
Fixpoint upd_nth {A} (i : nat) (f : A -> A) (l : list A) : list A :=
  match l, i with
  | [], _ => []
  | x :: l', O => f x :: l'
  | x :: l', S i' => x :: upd_nth i' f l'
  end.
Definition set_kind (k : dep) (e : edge) : edge := mkEdge (e_target e) (e_file e) (e_line e) k.
Definition set_target (t : string) (e : edge) : edge := mkEdge t (e_file e) (e_line e) (e_kind e).

(** caching.py:388-392 weaken the parent's edges whose target is the undotted name. *)
Definition weaken_named (n : string) (es : list edge) : list edge :=
  map (fun e => if String.eqb (e_target e) n then set_kind WEAK e else e) es.

(** caching.py:377-395 one iteration of the first loop of [normalize].  A missing list
    position cannot occur (edges are never removed); it is mapped to IndexError. *)
Definition norm_edge (g : graph) (h : heap) (r : eref) : res heap :=
  let '(v, s, i) := r in
  match nth_error (sel s (v_succ (h v))) i with
  | None => Err IndexError
  | Some e =>
      let unpointed := chop 5 (e_target e) in
      match getitem g (e_target e) with
      | Err x => Err x
      | Ok tv =>
          let succ := v_succ (h v) in
          let succ1 :=
            if kind_eqb (v_result (h tv)) EQUAL then
              let succ0 := upd s succ (upd_nth i (set_kind WEAK) (sel s succ)) in
              (weaken_named unpointed (fst succ0), weaken_named unpointed (snd succ0))
            else succ in
          let succ2 := upd s succ1 (upd_nth i (set_target unpointed) (sel s succ1)) in
          Ok (hset h v (with_succ (h v) succ2))
      end
  end.

(** caching.py:399-402 the name of the variant function of a weak vertex. *)
Definition pointed_name (x : vertex) : string :=
  if endswith (fst (v_names x)) ".void" then fst (v_names x) else snd (v_names x).

(** caching.py:398-413 one iteration of the second loop of [normalize]. *)
Definition norm_weak (st : heap * graph) (w : vid) : res (heap * graph) :=
  let '(h, g) := st in
  let pointed := pointed_name (h w) in
  let np := chop 5 pointed in
  if dmem (g_verts g) pointed then
    let g1 := mkGraph (ddel (g_verts g) pointed) (g_equal g) (g_ecache g) (g_wcache g) in
    if dmem (g_verts g1) np then Ok (h, g1)
    else
      let x1 := with_names (h w) (np, np) in
      let x2 := if kind_eqb (v_result x1) EQUAL then with_result x1 ASSUMED_EQUAL else x1 in
      let h' := hset h w x2 in
      Ok (h', setitem h' g1 np w)
  else Err KeyError.

(** caching.py:398-413 the whole second loop.  The loop iterates over [_weak_vertex_cache],
    which grows during the iteration when a strengthened name still ends in .void; entries
    appended during one round are processed in the next. *)
Fixpoint norm_rounds (fuel : nat) (st : heap * graph) (ws : list vid) : option (res (heap * graph)) :=
  match ws with
  | [] => Some (Ok st)
  | _ =>
      match fuel with
      | O => None
      | S fuel' =>
          match fold_res norm_weak st ws with
          | Err e => Some (Err e)
          | Ok st' =>
              norm_rounds fuel' st' (skipn (length (g_wcache (snd st))) (g_wcache (snd st')))
          end
      end
  end.

(** caching.py:365-413 [normalize] *)
Definition normalize (fuel : nat) (h : heap) (g : graph) : option (res (heap * graph)) :=
  match fold_res (norm_edge g) h (g_ecache g) with
  | Err e => Some (Err e)
  | Ok h' => norm_rounds fuel (h', g) (g_wcache g)
  end.

(** caching.py:415-424 [populate_predecessor_lists] *)
Definition add_pred (g : graph) (v : vid) (s : side) (h : heap) (e : edge) : heap :=
  match dget (g_verts g) (e_target e) with
  | None => h
  | Some t => hset h t (with_pred (h t) (upd s (v_pred (h t)) (sel s (v_pred (h t)) ++ [v])))
  end.
Definition populate_vertex (g : graph) (h : heap) (v : vid) : heap :=
  let h1 := fold_left (add_pred g v LEFT) (sel LEFT (v_succ (h v))) h in
  fold_left (add_pred g v RIGHT) (sel RIGHT (v_succ (h1 v))) h1.
Definition populate_predecessor_lists (h : heap) (g : graph) : heap :=
  fold_left (populate_vertex g) (dvals (g_verts g)) h.

(** caching.py:452-460 the inner loop of [mark_uncachable_from_assumed_equal]; [acc] is the
    list of predecessors marked so far.  The assignments to [cachable] and
    [prevents_caching_of] are applied after the loop: the loop reads neither. *)
Fixpoint scan_preds (h : heap) (visited : list vid) (ps : list vid) (acc : list vid)
  : res (list vid * list vid) :=
  match ps with
  | [] => Ok ([], acc)
  | p :: ps' =>
      if mem p visited then scan_preds h visited ps' acc
      else match fst (v_files (h p)) with
           | None => Err AttributeError
           | Some f =>
               if negb (endswith f ".h") then scan_preds h visited ps' acc
               else match scan_preds h visited ps' (acc ++ [p]) with
                    | Ok (pushed, acc') => Ok (p :: pushed, acc')
                    | Err x => Err x
                    end
           end
  end.
Definition marked_from (fuel : nat) (h : heap) (v : vid) : option (res (list vid)) :=
  bfs (fun visited current acc => scan_preds h visited (fst (v_pred (h current))) acc)
      fuel [v] [] [].

(** caching.py:459-460 *)
Definition apply_marks (h : heap) (v : vid) (marked : list vid) : heap :=
  let h1 := fold_left (fun h' p => hset h' p (with_cachable (h' p) false)) marked h in
  hset h1 v (with_prevents (h1 v) (v_prevents (h1 v) ++ marked)).

(** caching.py:440-445 which vertices start a marking. *)
Definition is_mark_source (h : heap) (v : vid) : res bool :=
  if kind_eqb (v_result (h v)) ASSUMED_EQUAL then
    match fst (v_files (h v)) with
    | None => Err AttributeError
    | Some f => Ok (negb (endswith f ".h"))
    end
  else Ok false.

(** caching.py:426-460 [mark_uncachable_from_assumed_equal] *)
Fixpoint mark_all (fuel : nat) (h : heap) (vs : list vid) : option (res heap) :=
  match vs with
  | [] => Some (Ok h)
  | v :: vs' =>
      match is_mark_source h v with
      | Err e => Some (Err e)
      | Ok false => mark_all fuel h vs'
      | Ok true =>
          match marked_from fuel h v with
          | None => None
          | Some (Err e) => Some (Err e)
          | Some (Ok marked) => mark_all fuel (apply_marks h v marked) vs'
          end
      end
  end.
Definition mark_uncachable (fuel : nat) (h : heap) (g : graph) : option (res heap) :=
  mark_all fuel h (dvals (g_verts g)).

(** ** [graph_to_fun_pair_list] (caching.py:462-560) *)

(** An element of [objects_to_compare]. *)
Record cobject := mkObject { o_first : entity; o_second : entity; o_kind : kind }.

Definition obind {A B} (x : option (res A)) (f : A -> option (res B)) : option (res B) :=
  match x with
  | None => None
  | Some (Err e) => Some (Err e)
  | Some (Ok a) => f a
  end.

(** caching.py:486-509 one side of a function difference. *)
Definition fun_entity (fuel : nat) (h : heap) (g : graph) (s : side) (fun_name : string)
           (back : dict vid (vid * edge)) (v : vid) : option (res entity) :=
  let mk cs := Some (Ok (mkEntity (sel s (v_names (h v))) (sel s (v_files (h v)))
                                  (sel s (v_lines (h v))) cs DFunction
                                  (negb (Nat.eqb (length (v_nonfun (h v))) 0)))) in
  if String.eqb fun_name (sel s (v_names (h v))) then mk None
  else
    match getitem g fun_name with
    | Err e => Some (Err e)
    | Ok start => obind (get_callstack fuel back start v)
                        (fun es => mk (Some (callstack_of_edges es)))
    end.

(** caching.py:516-556 one side of a non-function difference. *)
Definition nonfun_entity (fuel : nat) (g : graph) (s : side) (fun_name : string)
           (back : dict vid (vid * edge)) (v : vid) (d : nonfun) : option (res entity) :=
  let calls := sel s (nf_stack d) in
  obind (if String.eqb (nf_parent d) fun_name then Some (Ok calls)
         else match getitem g fun_name with
              | Err e => Some (Err e)
              | Ok start => obind (get_callstack fuel back start v)
                                  (fun es => Some (Ok (callstack_add (callstack_of_edges es) calls)))
              end)
        (fun cs => Some (Ok (match d with
                             | SyntaxDiff n _ _ _ => mkEntity n None None (Some cs) DSyntactic false
                             | TypeDiff n _ _ file line =>
                                 mkEntity n (Some (sel s file)) (Some (sel s line)) (Some cs) DType false
                             end))).

(** caching.py:513-559 the non-function differences of one vertex. *)
Fixpoint nonfun_objects (fuel : nat) (g : graph) (f1 f2 : string)
         (bl br : dict vid (vid * edge)) (v : vid) (ds : list nonfun) : option (res (list cobject)) :=
  match ds with
  | [] => Some (Ok [])
  | d :: ds' =>
      obind (nonfun_entity fuel g LEFT f1 bl v d) (fun e1 =>
      obind (nonfun_entity fuel g RIGHT f2 br v d) (fun e2 =>
      obind (nonfun_objects fuel g f1 f2 bl br v ds') (fun os =>
      Some (Ok (mkObject e1 e2 NOT_EQUAL :: os)))))
  end.

(** caching.py:480-483 the functions left out. *)
Definition skip_vertex (full_diff : bool) (x : vertex) : bool :=
  (kind_eqb (v_result x) EQUAL && negb full_diff) || kind_eqb (v_result x) ASSUMED_EQUAL.

(** caching.py:479-559 the main loop over [vertices_to_compare]. *)
Fixpoint objects_of (fuel : nat) (h : heap) (g : graph) (f1 f2 : string) (full_diff : bool)
         (bl br : dict vid (vid * edge)) (vs : list vid) : option (res (list cobject)) :=
  match vs with
  | [] => Some (Ok [])
  | v :: vs' =>
      if skip_vertex full_diff (h v) then objects_of fuel h g f1 f2 full_diff bl br vs'
      else
        obind (fun_entity fuel h g LEFT f1 bl v) (fun e1 =>
        obind (fun_entity fuel h g RIGHT f2 br v) (fun e2 =>
        obind (nonfun_objects fuel g f1 f2 bl br v (v_nonfun (h v))) (fun ns =>
        obind (objects_of fuel h g f1 f2 full_diff bl br vs') (fun os =>
        Some (Ok (mkObject e1 e2 (v_result (h v)) :: ns ++ os))))))
  end.

(** caching.py:546-547 bodies of syntax differences by name; later entries overwrite. *)
Definition add_body (s : side) (acc : dict string string) (d : nonfun) : dict string string :=
  match d with
  | SyntaxDiff n _ _ body => dset acc n (sel s body)
  | TypeDiff _ _ _ _ _ => acc
  end.
Definition bodies_of (s : side) (h : heap) (full_diff : bool) (vs : list vid) : dict string string :=
  fold_left (fun acc v => if skip_vertex full_diff (h v) then acc
                          else fold_left (add_body s) (v_nonfun (h v)) acc) vs [].

(** caching.py:462-560 [graph_to_fun_pair_list].  [list(set(a).intersection(set(b)))] has an
    unspecified order (sets of objects hashed by identity): [order] is an arbitrary
    rearrangement chosen by the Python run time. *)
Record pair_list := mkPairs {
  p_objects : list cobject; p_bodies_left : dict string string; p_bodies_right : dict string string }.
Definition common (l r : list vid) : list vid := filter (fun v => mem v r) (dedup l).
Definition graph_to_fun_pair_list (order : list vid -> list vid) (fuel : nat) (h : heap) (g : graph)
           (f1 f2 : string) (full_diff : bool) : option (res pair_list) :=
  obind (reachable_from fuel h g LEFT f1) (fun l =>
  obind (reachable_from fuel h g RIGHT f2) (fun r =>
  let vs := order (common (ra_result l) (ra_result r)) in
  obind (objects_of fuel h g f1 f2 full_diff (ra_back l) (ra_back r) vs) (fun os =>
  Some (Ok (mkPairs os (bodies_of LEFT h full_diff vs) (bodies_of RIGHT h full_diff vs)))))).

(** ** Building the graph from SimpLL's YAML (caching.py:101-140, simpll.py:181-205) *)
Record ycall := mkYCall { yc_fun : string; yc_file : string; yc_line : Z; yc_weak : bool }.
Record yinfo := mkYInfo {
  yi_fun : string; yi_file : option string; yi_line : option Z;
  yi_calls : option (list ycall) }.
(** A "differing-objects" entry; [YOther] has neither body-first nor file-first. *)
Inductive ynonfun := YNonfun (d : nonfun) | YOther.
Record yresult := mkYResult {
  yr_result : string; yr_first : yinfo; yr_second : yinfo; yr_stats : stats;
  yr_objects : list ynonfun }.

(** caching.py:191-196 [Edge.from_yaml] *)
Definition edge_from_yaml (c : ycall) : edge :=
  mkEdge (yc_fun c) (yc_file c) (yc_line c) (dep_from_yaml (yc_weak c)).

Definition add_calls (s : side) (v : vid) (st : heap * graph) (cs : list ycall) : heap * graph :=
  fold_left (fun st' c => add_edge (fst st') (snd st') v s (edge_from_yaml c)) cs st.

(** caching.py:129-139: [diff_obj] keeps its previous value for an entry of neither form. *)
Fixpoint nonfuns_from_yaml (prev : option nonfun) (ys : list ynonfun) : res (list nonfun) :=
  match ys with
  | [] => Ok []
  | y :: ys' =>
      match (match y with YNonfun d => Some d | YOther => prev end) with
      | None => Err NameError
      | Some d => match nonfuns_from_yaml (Some d) ys' with
                  | Ok ds => Ok (d :: ds) | Err e => Err e end
      end
  end.

(** Building state: heap, number of allocated vertices, graph. *)
Definition bstate := (heap * nat * graph)%type.

(** caching.py:101-140 [Vertex.from_yaml] with a parent graph; returns the new vertex id. *)
Definition vertex_from_yaml (st : bstate) (y : yresult) : res (bstate * vid) :=
  let '(h, n, g) := st in
  match kind_from_string (yr_result y) with
  | Err e => Err e
  | Ok k =>
      let x := new_vertex (yi_fun (yr_first y), yi_fun (yr_second y)) k
                          (yi_file (yr_first y), yi_file (yr_second y))
                          (yi_line (yr_first y), yi_line (yr_second y)) (yr_stats y) in
      let h0 := hset h n x in
      match (match yi_calls (yr_first y) with
             | None => Ok (h0, g)
             | Some cl => match yi_calls (yr_second y) with
                          | None => Err KeyError
                          | Some cr => Ok (add_calls RIGHT n (add_calls LEFT n (h0, g) cl) cr)
                          end
             end) with
      | Err e => Err e
      | Ok (h1, g1) =>
          match nonfuns_from_yaml None (yr_objects y) with
          | Err e => Err e
          | Ok ds => Ok ((hset h1 n (with_nonfun (h1 n) ds), S n, g1), n)
          end
      end
  end.

(** simpll.py:197-202 the dictionary key of a result. *)
Definition key_of (names : string * string) : string :=
  if has_char "." (fst names) then fst names else snd names.

(** simpll.py:187-202 *)
Definition add_result (st : bstate) (y : yresult) : res bstate :=
  match vertex_from_yaml st y with
  | Err e => Err e
  | Ok ((h, n, g), v) => Ok (h, n, setitem h g (key_of (v_names (h v))) v)
  end.

(** simpll.py:183-205: the whole construction; [h] and [n] are the heap before the run. *)
Definition build_graph (fuel : nat) (h : heap) (n : nat) (ys : list yresult)
  : option (res (heap * nat * graph)) :=
  match fold_res add_result (h, n, empty_graph) ys with
  | Err e => Some (Err e)
  | Ok (h1, n1, g1) =>
      obind (normalize fuel h1 g1) (fun hg =>
      let '(h2, g2) := hg in
      let h3 := populate_predecessor_lists h2 g2 in
      obind (mark_uncachable fuel h3 g2) (fun h4 => Some (Ok (h4, n1, g2))))
  end.
