(** * Model of the custom patterns of differences:
    diffkemp/simpll/CustomPatternSet.cpp (loading), diffkemp/simpll/InstPatternComparator.cpp
    and diffkemp/simpll/ValuePatternComparator.cpp (matching of one side),
    diffkemp/simpll/CustomPatternComparator.cpp (matching of both sides), createPatternMapping,
    cmpValuesByMapping, getMappedValue and undoLastInstCompare of
    diffkemp/simpll/DifferentialFunctionComparator.cpp.
    The LLVM IR is that of Funcomp_Model; every instruction, also one without a result, has its
    own [i_reg], which is its identity; the called value is the last operand of a call.
    Simplified: constants are numbers, all of one type, and globals, all in one address space (no
    constant expressions, no inline assembly);
    a reference of a function to itself is compared by its name.  Not modelled: the YAML
    configuration and the reading of files. *)
From Coq Require Import String Ascii ZArith Arith Bool List.
From Verif Require Import PyBase Funcomp_Model Source_Model.
Import ListNotations.
Open Scope list_scope.
Open Scope nat_scope.

(** ** Loading *)

(** CustomPatternSet.h:36-53 CustomPatternMetadata *)
Record meta := mkMeta { m_start : bool; m_end : bool; m_group : bool; m_group_end : bool; m_noname : bool; m_noinput : bool; m_novalue : bool }.
Definition no_meta : meta := mkMeta false false false false false false false.
(** An operand of a metadata node. *)
Inductive mdop := MString (s : string) | MOther.
(** CustomPatternSet.cpp:104-129: what one operand sets; [None]: an unknown name. *)
Definition set_meta (n : string) (m : meta) : option meta :=
  let 'mkMeta a b c d e f g := m in
  if String.eqb n "pattern-start" then Some (mkMeta true b c d e f g)
  else if String.eqb n "pattern-end" then Some (mkMeta a true c d e f g)
  else if String.eqb n "group-start" then Some (mkMeta a b true d e f g)
  else if String.eqb n "group-end" then Some (mkMeta a b c true e f g)
  else if String.eqb n "disable-name-comparison" then Some (mkMeta a b c d true f g)
  else if String.eqb n "not-an-input" then Some (mkMeta a b c d e true g)
  else if String.eqb n "no-value-pattern-detection" then Some (mkMeta a b c d e f true)
  else None.
(** CustomPatternSet.cpp:88-139 getPatternMetadata: the operands of the node (all operand counts
    are 0, so that the next operand is the next name). *)
Fixpoint parse_meta (l : list mdop) (m : meta) : option meta :=
  match l with
  | [] => Some m
  | MString n :: l' => match set_meta n m with Some m' => parse_meta l' m' | None => None end
  | MOther :: _ => None
  end.

(** A function of a pattern module: its body (none: a declaration) and the nodes
    !diffkemp.pattern of its instructions. *)
Record pside := mkSide { ps_func : option func; ps_md : dict nat (list mdop) }.
Definition metadata (md : dict nat (list mdop)) (i : inst) : option meta :=
  match dget md (i_reg i) with Some l => parse_meta l no_meta | None => None end.
(** CustomPatternSet.cpp:66-68 *)
Definition output_mapping_name : string := "diffkemp.output_mapping".
(** CustomPatternSet.cpp:346-353: a return or a call of the function for the mapping of
    outputs. *)
Definition is_output (i : inst) : bool :=
  match i_code i with
  | Ret => true
  | Call => match rev (i_ops i) with VConst (CGlobal n) :: _ => String.eqb n output_mapping_name | _ => false end
  | _ => false
  end.
(** What is known of a side of an instruction pattern: its inputs, where it starts, its metadata,
    the instruction with the outputs. *)
Record loaded := mkLoaded { l_inputs : list value; l_start : option nat; l_meta : dict nat meta; l_end : bool; l_output : option inst }.
(** CustomPatternSet.cpp:318-355: one instruction. *)
Definition load_inst (md : dict nat (list mdop)) (a : loaded) (i : inst) : loaded :=
  let m := metadata md i in
  let meta' := match m with Some x => dset (l_meta a) (i_reg i) x | None => l_meta a end in
  let start := match l_start a, m with
               | None, Some x => if m_start x then Some (i_reg i) else None
               | s, _ => s
               end in
  let ending := l_end a || match m with Some x => m_end x | None => false end in
  let input := match start with Some _ => false | None => true end && negb (is_terminator i)
               && match m with Some x => negb (m_noinput x) | None => true end in
  let output := match l_output a with Some o => Some o | None => if is_output i then Some i else None end in
  mkLoaded (if input then set_add (VReg (i_reg i)) (l_inputs a) else l_inputs a) start meta' ending output.
Definition arguments (f : func) : list value := map VArg (seq 0 (f_args f)).
(** CustomPatternSet.cpp:296-388 initializeInstPatternSide *)
Definition load_insts (f : func) (md : dict nat (list mdop)) : loaded :=
  fold_left (load_inst md) (insts f) (mkLoaded (arguments f) None [] false None).
Definition with_end (m : meta) : meta :=
  let 'mkMeta a b c d e f g := m in mkMeta a true c d e f g.
Definition load_side (f : func) (md : dict nat (list mdop)) : loaded :=
  let a := load_insts f md in
  let start := match l_start a with
               | Some r => Some r
               | None => match f_blocks f with (_, i :: _) :: _ => Some (i_reg i) | _ => None end
               end in
  let meta' := match l_output a with
               | Some o => if l_end a then l_meta a
                           else dset (l_meta a) (i_reg o) (with_end (match dget (l_meta a) (i_reg o) with Some m => m | None => no_meta end))
               | None => l_meta a
               end in
  mkLoaded (l_inputs a) start meta' (l_end a) (l_output a).
(** CustomPatternSet.cpp:378-384: the operands that are outputs (without the called
    function). *)
Definition outputs (a : loaded) : list value :=
  match l_output a with
  | Some o => match i_code o with Call => removelast (i_ops o) | _ => i_ops o end
  | None => []
  end.

(** CustomPatternSet.h:90-111 InstPattern *)
Record ipattern := mkIPattern {
  ip_name : string; ip_L : func; ip_R : func; ip_metaL : dict nat meta; ip_metaR : dict nat meta;
  ip_inL : list value; ip_inR : list value; ip_args : list (value * value); ip_out : dict nat nat;
  ip_startL : nat; ip_startR : nat }.
(** CustomPatternSet.h:115-125 ValuePattern *)
Record vpattern := mkVPattern { vp_name : string; vp_L : value; vp_R : value }.

(** CustomPatternSet.cpp:275-289: the mapping of outputs; [None]: an output is not an
    instruction. *)
Fixpoint map_outputs (ls rs : list value) (d : dict nat nat) : option (dict nat nat) :=
  match ls, rs with
  | VReg a :: ls', VReg b :: rs' => map_outputs ls' rs' (dset d a b)
  | [], _ | _, [] => Some d
  | _, _ => None
  end.
(** CustomPatternSet.cpp:250-292 initializeInstPattern *)
Definition load_ipattern (name : string) (fl fr : func) (ml mr : dict nat (list mdop)) : option ipattern :=
  let a := load_side fl ml in
  let b := load_side fr mr in
  if negb (Nat.eqb (f_args fl) (f_args fr)) then None
  else if negb (Nat.eqb (length (outputs a)) (length (outputs b))) then None
  else
    match map_outputs (outputs a) (outputs b) [], l_start a, l_start b with
    | Some out, Some sl, Some sr =>
      Some (mkIPattern name fl fr (l_meta a) (l_meta b) (l_inputs a) (l_inputs b)
              (combine (arguments fl) (arguments fr)) out sl sr)
    | _, _, _ => None
    end.
(** CustomPatternSet.cpp:228-243 getPatternType: whether it is a value pattern. *)
Definition entry (f : func) : list inst := match f_blocks f with (_, l) :: _ => l | [] => [] end.
Definition no_detection (md : dict nat (list mdop)) (i : inst) : bool :=
  match metadata md i with Some m => m_novalue m | None => false end.
Definition is_value_pattern (fl fr : func) (ml mr : dict nat (list mdop)) : bool :=
  match entry fl, entry fr with
  | [i], [j] => negb (no_detection ml i) && negb (no_detection mr j)
  | _, _ => false
  end.

(** What happens to a function of the module of a pattern; [Undefined]: the code reads the entry
    block of a declaration, or the first operand of an instruction that has none. *)
Inductive outcome := Skipped_function | Loaded_inst (p : ipattern) | Loaded_value (p : vpattern) | Rejected | Undefined.
Section Load.
  (** Whether a value is a pointer, and whether the global of this name is a variable. *)
  Variable is_pointer : value -> bool.
  Variable is_variable : string -> bool.
  Definition global_variable (v : value) : bool := match v with VConst (CGlobal n) => is_variable n | _ => false end.
  (** CustomPatternSet.cpp:392-414 initializeValuePattern *)
  Definition load_vpattern (name : string) (fl fr : func) : outcome :=
    match entry fl, entry fr with
    | [i], [j] =>
      match i_ops i, i_ops j with
      | a :: _, b :: _ =>
        if (negb (is_pointer a) || global_variable a) && (negb (is_pointer b) || global_variable b)
        then Loaded_value (mkVPattern name a b) else Rejected
      | _, _ => Undefined
      end
    | _, _ => Undefined
    end.
  Definition prefix_old : string := "diffkemp.old.".
  Definition prefix_new : string := "diffkemp.new.".
  (** CustomPatternSet.cpp:183-225 addPatternFromModule: one function. *)
  Definition load_function (m : dict string pside) (nf : string * pside) : outcome :=
    match ps_func (snd nf) with
    | None => Skipped_function
    | Some fl =>
      if negb (startswith (fst nf) prefix_old) then Skipped_function
      else
        let name := drop (String.length prefix_old) (fst nf) in
        match dget m (prefix_new ++ name)%string with
        | None => Skipped_function
        | Some r =>
          match ps_func r with
          | None => Undefined
          | Some fr =>
            if is_value_pattern fl fr (ps_md (snd nf)) (ps_md r) then load_vpattern name fl fr
            else match load_ipattern name fl fr (ps_md (snd nf)) (ps_md r) with Some p => Loaded_inst p | None => Rejected end
          end
        end
    end.
  Definition load_module (m : dict string pside) : list outcome := map (load_function m) m.
End Load.

(** ** Matching of one side of an instruction pattern *)

(** Constants: FunctionComparator::cmpConstants and InstPatternComparator.cpp:327-341
    cmpGlobalValues. *)
Definition const_match (left : bool) (a b : const) : bool :=
  match a, b with
  | CInt x, CInt y => Z.eqb x y
  | CGlobal x, CGlobal y => names_match x y left
  | _, _ => false
  end.

(** InstPatternComparator.h:33-46,104-120; [nL] numbers the values of the module, [nR] those of
    the pattern. *)
Record mstate := mkM {
  nL : dict value nat; nR : dict value nat;
  newL : list value; newR : list value;       (* NewlyMappedModValues, NewlyMappedPatValues *)
  newML : list value; newPR : list value;     (* NewlyMappedModInput, NewlyMappedPatInput *)
  pim : dict value value; mim : dict value value;   (* PatInputMatchMap, ModInputMatchMap *)
  imm : dict nat nat;                         (* InstMatchMap: of the pattern -> of the module *)
  depth : Z }.
Definition mstart : mstate := mkM [] [] [] [] [] [] [] [] [] 0%Z.
Definition set_numbers (s : mstate) (l r : dict value nat) : mstate :=
  mkM l r (newL s) (newR s) (newML s) (newPR s) (pim s) (mim s) (imm s) (depth s).
Definition set_new (s : mstate) (l r : list value) : mstate :=
  mkM (nL s) (nR s) l r (newML s) (newPR s) (pim s) (mim s) (imm s) (depth s).
Definition set_inputs (s : mstate) (a b : list value) (p m : dict value value) : mstate :=
  mkM (nL s) (nR s) (newL s) (newR s) a b p m (imm s) (depth s).
Definition set_matched (s : mstate) (d : dict nat nat) : mstate :=
  mkM (nL s) (nR s) (newL s) (newR s) (newML s) (newPR s) (pim s) (mim s) d (depth s).
Definition set_depth (s : mstate) (d : Z) : mstate :=
  mkM (nL s) (nR s) (newL s) (newR s) (newML s) (newPR s) (pim s) (mim s) (imm s) d.

(** DenseMap::operator[]: an absent value gets the number 0. *)
Definition touch (d : dict value nat) (v : value) : nat * dict value nat :=
  match dget d v with Some k => (k, d) | None => (0, dset d v 0) end.

Section Match.
  Variable same_rest : string -> string -> bool.
  (** The source type of a GEP is a structure. *)
  Variable struct_gep : inst -> bool.
  Variable left : bool.                       (* IsLeftSide *)
  Variables mf pf : func.                     (* the function of the module and of the pattern *)
  Variable pmeta : dict nat meta.             (* MetadataMap *)
  Variable inputs : list value.               (* InputL or InputR *)
  Variable startp : nat.                      (* StartPositionL or StartPositionR *)
  (** The users of a value, in the order of its use list. *)
  Variables musers pusers : value -> list value.

  (** FunctionComparator.cpp:755-795 cmpValues *)
  Definition base_cmp (a b : value) (s : mstate) : bool * mstate :=
    match a, b with
    | VConst x, VConst y => (const_match left x y, s)
    | VConst _, _ | _, VConst _ => (false, s)
    | _, _ =>
      let '(i, l) := number (nL s) a in
      let '(j, r) := number (nR s) b in
      (Nat.eqb i j, set_numbers s l r)
    end.

  (** InstPatternComparator.cpp:592-629: the values still to be mapped, with the set ModVisited;
      out of fuel: [false] (see [C113_inputs_terminate]). *)
  Definition ops_of (f : func) (v : value) : option (list value) :=
    match inst_of f v with Some i => Some (i_ops i) | None => None end.
  Fixpoint push_ops (ms ps : list value) (p : dict value value) (visited : list value) (work : list (value * value)) : list value * list (value * value) :=
    match ms, ps with
    | m :: ms', q :: ps' =>
      if dmem p q then push_ops ms' ps' p visited work
      else if mem m visited then push_ops ms' ps' p visited work
      else push_ops ms' ps' p (m :: visited) ((m, q) :: work)
    | _, _ => (visited, work)
    end.
  Fixpoint map_loop (n : nat) (work : list (value * value)) (visited : list value) (s : mstate) : bool * mstate :=
    match n, work with
    | _, [] => (true, s)
    | O, _ => (false, s)
    | S n', (m, p) :: work' =>
      if negb (mem p inputs) then map_loop n' work' visited s
      else
        let s1 := set_inputs s (set_add m (newML s)) (set_add p (newPR s)) (dset (pim s) p m) (dset (mim s) m p) in
        match ops_of mf m, ops_of pf p with
        | Some ms, Some ps =>
          if negb (Nat.eqb (length ms) (length ps)) then (false, s1)
          else let '(visited', work'') := push_ops ms ps (pim s1) visited work' in map_loop n' work'' visited' s1
        | _, _ => map_loop n' work' visited s1
        end
    end.
  Definition map_fuel : nat := S (S (length (flat_map i_ops (insts mf)))).
  (** InstPatternComparator.cpp:570-631 mapInputValues *)
  Definition map_inputs (m p : value) (s : mstate) : bool * mstate :=
    match dget (pim s) p with
    | Some m' => (eqb m' m, s)
    | None => map_loop map_fuel [(m, p)] [m] s
    end.

  (** InstPatternComparator.cpp:344-361 cmpValues; both operands of == are taken from left to
      right. *)
  Definition cmp_values (a b : value) (s : mstate) : bool * mstate :=
    let '(ok, s1) := base_cmp a b s in
    if negb ok then (false, s1)
    else
      let '(i, l) := touch (nL s1) a in
      let '(j, r) := touch (nR s1) b in
      let s2 := set_new (set_numbers s1 l r)
                  (if Nat.eqb i (length l - 1) then set_add a (newL s1) else newL s1)
                  (if Nat.eqb j (length r - 1) then set_add b (newR s1) else newR s1) in
      map_inputs a b s2.
  Fixpoint cmp_list (ms ps : list value) (s : mstate) : bool * mstate :=
    match ms, ps with
    | m :: ms', p :: ps' => let '(ok, s1) := cmp_values m p s in if ok then cmp_list ms' ps' s1 else (false, s1)
    | _, _ => (true, s)
    end.

  Definition meta_of (i : inst) : option meta := dget pmeta (i_reg i).
  Definition flag (f : meta -> bool) (i : inst) : bool := match meta_of i with Some m => f m | None => false end.
  (** InstPatternComparator.cpp:176-218 cmpGEPs: structures by their names, anything else as in
      FunctionComparator::cmpGEPs. *)
  Definition cmp_geps (m p : inst) (x y : option Z) (s : mstate) : bool * mstate :=
    let by_operands :=
      if same_rest (i_rest m) (i_rest p) && Nat.eqb (length (i_ops m)) (length (i_ops p)) then cmp_list (i_ops m) (i_ops p) s
      else (false, s) in
    if struct_gep m && struct_gep p && negb (flag m_noname p) then by_operands
    else match x, y with Some a, Some b => (Z.eqb a b, s) | _, _ => by_operands end.
  Definition cmp_rest (m p : inst) : bool :=
    Nat.eqb (length (i_ops m)) (length (i_ops p)) && same_rest (i_rest m) (i_rest p) && same_kinds (i_ops m) (i_ops p).
  (** FunctionComparator.cpp:521-694 cmpOperations, then InstPatternComparator.cpp:236-249. *)
  Definition cmp_operation (m p : inst) (s : mstate) : bool * mstate :=
    let '(ok, s1) := cmp_values (VReg (i_reg m)) (VReg (i_reg p)) s in
    if negb ok then (false, s1)
    else
      match i_code m, i_code p with
      | Gep x, Gep y =>
        let '(ok2, s2) := cmp_values (op 0 m) (op 0 p) s1 in
        if negb ok2 then (false, s2) else cmp_geps m p x y s2
      | Phi x, Phi y =>
        if negb (cmp_rest m p) then (false, s1)
        else
          let '(ok2, s2) := cmp_list (map VBlock x) (map VBlock y) s1 in
          if negb ok2 then (false, s2) else cmp_list (i_ops m) (i_ops p) s2
      | a, b => if same_code a b && cmp_rest m p then cmp_list (i_ops m) (i_ops p) s1 else (false, s1)
      end.
  (** InstPatternComparator.cpp:225-253 cmpOperationsWithOperands *)
  Definition cmp_inst (m p : inst) (s : mstate) : bool * mstate :=
    let s0 := set_inputs (set_new s [] []) [] [] (pim s) (mim s) in
    let '(ok, s1) := cmp_operation m p s0 in
    if ok then (true, set_matched s1 (dset (imm s1) (i_reg p) (i_reg m))) else (false, s1).
  (** InstPatternComparator.cpp:481-494 eraseNewlyMapped *)
  Definition erase_all {V} (l : list value) (d : dict value V) : dict value V := fold_left (fun d v => ddel d v) l d.
  Definition erase_new (s : mstate) : mstate :=
    mkM (erase_all (newL s) (nL s)) (erase_all (newR s) (nR s)) (newL s) (newR s) (newML s) (newPR s)
      (erase_all (newPR s) (pim s)) (erase_all (newML s) (mim s)) (imm s) (depth s).
  (** InstPatternComparator.cpp:643-651 updateGroupDepth *)
  Definition update_depth (p : inst) (s : mstate) : mstate :=
    set_depth s (depth s + (if flag m_group p then 1 else 0) - (if flag m_group_end p then 1 else 0))%Z.

  (** InstPatternComparator.cpp:256-323 cmpBasicBlocks: the instructions from the positions on;
      [first]: the instruction of the module is the first one.  The answer has the positions
      where it ended. *)
  Fixpoint cmp_block (first : bool) (ml pl : list inst) (s : mstate) : bool * mstate * list inst * list inst :=
    match ml, pl with
    | m :: ml', p :: pl' =>
      if flag m_end p then (true, s, ml, pl)
      else if is_terminator m && negb (is_terminator p) && Nat.eqb (length (successors m)) 1 then (false, s, ml, pl)
      else if negb (is_terminator m) && is_terminator p then
        if Nat.eqb (length (successors p)) 1 then (true, s, ml, pl)
        else
          match rev ml with
          | t :: _ =>
            let '(ok, s1) := cmp_inst t p s in
            if ok then (match pl' with [] => true | _ => false end, update_depth p s1, [t], pl)
            else (false, erase_new s1, [t], pl)
          | [] => (false, s, ml, pl)
          end
      else
        let '(ok, s1) := cmp_inst m p s in
        if ok then
          let s2 := update_depth p s1 in
          match ml', pl' with
          | [], [] => (true, s2, ml, pl)
          | [], _ :: _ | _ :: _, [] => (false, s2, ml, pl)
          | _, _ => cmp_block false ml' pl' s2
          end
        else
          let s2 := erase_new s1 in
          if (0 <? depth s2)%Z || first then (false, s2, ml, pl)
          else match ml' with [] => (false, s2, ml, pl) | _ => cmp_block false ml' pl s2 end
    | _, _ => (match ml, pl with [], [] => true | _, _ => false end, s, ml, pl)
    end.

  (** BasicBlock::getSingleSuccessor *)
  Definition successors_of (f : func) (b : nat) : list nat :=
    match terminator (block f b) with Some t => successors t | None => [] end.
  Definition single_successor (f : func) (b : nat) : option nat := match successors_of f b with [c] => Some c | _ => None end.
  Definition ends_at_terminator (b : nat) : bool := match terminator (block pf b) with Some t => flag m_end t | None => false end.
  (** InstPatternComparator.cpp:407-445: blocks connected without a condition; [None]: the
      comparison failed (or ran out of fuel). *)
  Fixpoint cmp_group (n : nat) (mb pb : nat) (ml pl : list inst) (mvis pvis : list nat) (s : mstate) : option (nat * nat * list nat * list nat * mstate) :=
    match n with
    | O => None
    | S n' =>
      let '(ok, s1, ml', pl') := cmp_block true ml pl s in
      if ok then
        match single_successor pf pb with
        | Some ps =>
          if mem ps pvis then Some (mb, pb, mvis, pvis, s1)
          else if ends_at_terminator pb then Some (mb, pb, mvis, ps :: pvis, s1)
          else cmp_group n' mb ps ml' (block pf ps) mvis (ps :: pvis) s1
        | None => Some (mb, pb, mvis, pvis, s1)
        end
      else
        match single_successor mf mb with
        | Some ms => if mem ms mvis then None else cmp_group n' ms pb (block mf ms) pl' (ms :: mvis) pvis s1
        | None => None
        end
    end.
  (** InstPatternComparator.cpp:449-453 *)
  Fixpoint run_on (n : nat) (mb : nat) (mvis : list nat) : nat * list nat :=
    match n with
    | O => (mb, mvis)
    | S n' =>
      match single_successor mf mb with
      | None => (mb, mvis)
      | Some ms => if mem ms mvis then (ms, mvis) else run_on n' ms (ms :: mvis)
      end
    end.
  (** InstPatternComparator.cpp:464-473 *)
  Fixpoint queue (ms ps : list nat) (mvis pvis : list nat) (work : list (nat * nat)) : list nat * list nat * list (nat * nat) :=
    match ms, ps with
    | m :: ms', p :: ps' =>
      if mem m mvis then queue ms' ps' mvis pvis work
      else if mem p pvis then queue ms' ps' (m :: mvis) pvis work
      else queue ms' ps' (m :: mvis) (p :: pvis) ((m, p) :: work)
    | _, _ => (mvis, pvis, work)
    end.
  Definition group_fuel : nat := S (length (f_blocks mf) + length (f_blocks pf)).
  (** InstPatternComparator.cpp:397-474; the positions are the starting instructions at first,
      then the beginnings of the blocks. *)
  Fixpoint match_loop (n : nat) (at_start : option (list inst * list inst)) (work : list (nat * nat)) (mvis pvis : list nat) (s : mstate) : bool * mstate :=
    match n, work with
    | _, [] => (true, s)
    | O, _ => (false, s)
    | S n', (mb, pb) :: work' =>
      let '(ok, s1) := cmp_values (VBlock mb) (VBlock pb) s in
      if negb ok then (false, s1)
      else
        let '(ml, pl) := match at_start with Some p => p | None => (block mf mb, block pf pb) end in
        match cmp_group group_fuel mb pb ml pl mvis pvis (set_depth s1 0%Z) with
        | None => (false, s1)
        | Some (mb1, pb1, mvis1, pvis1, s2) =>
          let '(mb2, mvis2) := run_on group_fuel mb1 mvis1 in
          if ends_at_terminator pb1 || Nat.eqb (length (successors_of pf pb1)) 0 then match_loop n' None work' mvis2 pvis1 s2
          else
            let '(mvis3, pvis3, work'') := queue (successors_of mf mb2) (successors_of pf pb1) mvis2 pvis1 work' in
            match_loop n' None work'' mvis3 pvis3 s2
        end
    end.
  (** The block of an instruction and the instructions from it on (getParent, jumpToInst). *)
  Fixpoint from_inst (r : nat) (l : list inst) : option (list inst) :=
    match l with [] => None | i :: l' => if Nat.eqb (i_reg i) r then Some l else from_inst r l' end.
  Fixpoint locate (r : nat) (bs : list (nat * list inst)) : option (nat * list inst) :=
    match bs with
    | [] => None
    | (b, l) :: bs' => match from_inst r l with Some l' => Some (b, l') | None => locate r bs' end
    end.
  (** InstPatternComparator.cpp:371-477 matchPattern from the instruction [start] of the
      module *)
  Definition match_pattern (start : nat) (s : mstate) : bool * mstate :=
    match locate start (f_blocks mf), locate startp (f_blocks pf) with
    | Some (mb, ml), Some (pb, pl) => match_loop group_fuel (Some (ml, pl)) [(mb, pb)] [mb] [pb] s
    | _, _ => (false, s)
    end.

  (** InstPatternComparator.cpp:498-565 checkInputMapping *)
  Fixpoint check_args (l : list value) (s : mstate) : bool * mstate :=
    match l with
    | [] => (true, s)
    | a :: l' =>
      match dget (pim s) a with
      | Some v => let '(ok, s1) := cmp_values v a s in if ok then check_args l' s1 else (false, s1)
      | None => check_args l' s
      end
    end.
  (** The third component: an instruction marked as the start was found. *)
  Fixpoint check_insts (l : list inst) (s : mstate) : bool * mstate * bool :=
    match l with
    | [] => (true, s, false)
    | p :: l' =>
      if flag m_start p then (true, s, true)
      else if flag m_noinput p then check_insts l' s
      else
        match dget (pim s) (VReg (i_reg p)) with
        | None => check_insts l' s
        | Some v =>
          let '(ok, s1) := match inst_of mf v with
                           | Some m => cmp_inst m p s
                           | None => cmp_values v (VReg (i_reg p)) s
                           end in
          if ok then check_insts l' s1 else (false, s1, false)
        end
    end.
  Fixpoint queue_blocks (l : list nat) (visited work : list nat) : list nat * list nat :=
    match l with
    | [] => (visited, work)
    | b :: l' => if mem b visited then queue_blocks l' visited work else queue_blocks l' (b :: visited) (b :: work)
    end.
  Fixpoint check_blocks (n : nat) (work visited : list nat) (s : mstate) : bool * mstate :=
    match n, work with
    | _, [] => (true, s)
    | O, _ => (false, s)
    | S n', b :: work' =>
      let '(ok, s1, found) := check_insts (block pf b) s in
      if negb ok then (false, s1)
      else if found then check_blocks n' work' visited s1
      else let '(visited', work'') := queue_blocks (successors_of pf b) visited work' in check_blocks n' work'' visited' s1
    end.
  Definition check_inputs (s : mstate) : bool * mstate :=
    let '(ok, s1) := check_args (arguments pf) s in
    if negb ok then (false, s1)
    else match f_blocks pf with
         | (b, _) :: _ => check_blocks group_fuel [b] [b] s1
         | [] => (true, s1)
         end.
  (** InstPatternComparator.cpp:21-41 compare; beginCompare clears the numbers. *)
  Definition compare_side (start : nat) (s : mstate) : bool * mstate :=
    let s0 := mkM [] [] (newL s) (newR s) (newML s) (newPR s) [] [] [] (depth s) in
    let '(ok, s1) := match_pattern start s0 in
    if negb ok then (false, s1) else check_inputs (set_numbers s1 [] []).

  (** InstPatternComparator.cpp:82-145: the users of a pair of values; [None]: the comparison
      fails.  [all]: all users of the value of the module; the answer has the users of the
      pattern that remain. *)
  Definition inst_value (f : func) (v : value) : bool := match inst_of f v with Some _ => true | None => false end.
  Fixpoint cmp_users (n : nat) (ms ps all : list value) (visited : list value) (work : list (value * value)) (s : mstate) : option (list value * list value * list (value * value) * mstate) :=
    match n with
    | O => None
    | S n' =>
      match ms, ps with
      | m :: ms', p :: ps' =>
        if match inst_of pf p with Some i => flag m_noinput i | None => false end then cmp_users n' ms ps' all visited work s
        else
          match inst_of mf m, inst_of pf p with
          | None, _ => cmp_users n' ms' ps all visited work s
          | Some _, None => None
          | Some mi, Some pi =>
            let matched (s1 : mstate) :=
              if mem m visited then cmp_users n' ms' ps' all visited work s1
              else cmp_users n' ms' ps' all (m :: visited) ((m, p) :: work) s1 in
            match dget (mim s) m with
            | Some p' => if eqb p' p then matched s else cmp_users n' ms' ps all visited work s
            | None =>
              match dget (pim s) p with
              | Some m' => if mem m' all then cmp_users n' ms ps' all visited work s else Some (ps, visited, work, s)
              | None =>
                let '(ok, s1) := cmp_inst mi pi s in
                if ok then matched s1 else cmp_users n' ms' ps all visited work (erase_new s1)
              end
            end
          end
      | _, _ => Some (ps, visited, work, s)
      end
    end.
  (** InstPatternComparator.cpp:73-158 *)
  Fixpoint input_loop (n : nat) (mv pv : value) (work : list (value * value)) (visited : list value) (s : mstate) : bool * mstate :=
    match n, work with
    | _, [] => (true, s)
    | O, _ => (false, s)
    | S n', (m, p) :: work' =>
      let s1 := set_inputs s (newML s) (newPR s) (dset (pim s) pv mv) (dset (mim s) mv pv) in
      let visited1 := set_add mv visited in
      match cmp_users (S (length (musers m) + length (pusers p))) (musers m) (pusers p) (musers m) visited1 work' s1 with
      | None => (false, s1)
      | Some (rest, visited2, work2, s2) =>
        if forallb (fun p => match dget (pim s2) p with Some m' => mem m' (musers m) | None => false end) rest
        then input_loop n' mv pv work2 visited2 s2 else (false, s2)
      end
    end.
  (** InstPatternComparator.cpp:45-159 cmpInputValues; [None] is a null pointer. *)
  Definition cmp_input_values (m : option value) (p : value) (s : mstate) : bool * mstate :=
    match m with
    | None => (false, s)
    | Some mv =>
      match dget (pim s) p with
      | Some v => (eqb v mv, s)
      | None => input_loop (S (length (insts mf))) mv p [(mv, p)] [] (set_numbers s [] [])
      end
    end.
End Match.

(** ** Matching of both sides *)

#[export] Instance EqB_bool : EqB bool := {| eqb := Bool.eqb; eqb_spec := Bool.eqb_spec |}.
(** A value of one of the compared functions; [true]: of the first (old) one. *)
Definition key := (bool * value)%type.
(** DifferentialFunctionComparator: sn_mapL, sn_mapR and mappedValuesBySn. *)
Record numbering := mkN { d_L : dict key nat; d_R : dict key nat; d_by : dict nat (key * key) }.
(** CustomPatternComparator.h:49-55: AllInstMatches and InstMappings. *)
Record matches := mkMatches { all_matches : list key; mappings : dict key key }.

(** DifferentialFunctionComparator.cpp:69-78 cmpValuesByMapping: whether they are mapped to each
    other. *)
Definition mapped (d : numbering) (l r : key) : bool :=
  match dget (d_L d) l, dget (d_R d) r with Some i, Some j => Nat.eqb i j | _, _ => false end.
(** DifferentialFunctionComparator.cpp:1950-1970 getMappedValue; [None]: a null pointer (also
    what mappedValuesBySn has for a number that is not there). *)
Definition get_mapped (d : numbering) (v : key) (from_left : bool) : option key :=
  match dget (if from_left then d_L d else d_R d) v with
  | None => None
  | Some i => match dget (d_by d) i with Some (a, b) => Some (if from_left then b else a) | None => None end
  end.
(** DifferentialFunctionComparator.cpp:787-799 createPatternMapping *)
Definition create_mapping (m : matches) (d : numbering) : numbering :=
  fold_left (fun d ab =>
    if dmem (d_L d) (fst ab) || dmem (d_R d) (snd ab) then d
    else mkN (dset (d_L d) (fst ab) (length (d_L d))) (dset (d_R d) (snd ab) (length (d_R d)))
             (dset (d_by d) (length (d_L d)) ab)) (mappings m) d.
(** DifferentialFunctionComparator.cpp:811-820 undoLastInstCompare *)
Definition undo_last (l r : key) (d : numbering) : numbering :=
  let dl := ddel (d_L d) l in
  mkN dl (ddel (d_R d) r) (ddel (d_by d) (length dl)).
(** FunctionComparator.cpp:791-794 with the numbers of the comparison of the functions. *)
Definition numbered_equal (d : numbering) (l r : key) : bool :=
  Nat.eqb (match dget (d_L d) l with Some i => i | None => length (d_L d) end)
          (match dget (d_R d) r with Some j => j | None => length (d_R d) end).

Section Both.
  Variable same_rest : string -> string -> bool.
  Variable struct_gep : inst -> bool.
  Variables fl fr : func.
  Variables musersL musersR : value -> list value.
  Variables pusersL pusersR : ipattern -> value -> list value.

  Definition side_compare (p : ipattern) (left : bool) : nat -> mstate -> bool * mstate :=
    if left then compare_side same_rest struct_gep true fl (ip_L p) (ip_metaL p) (ip_inL p) (ip_startL p)
    else compare_side same_rest struct_gep false fr (ip_R p) (ip_metaR p) (ip_inR p) (ip_startR p).
  Definition side_inputs (p : ipattern) (left : bool) : option value -> value -> mstate -> bool * mstate :=
    if left then cmp_input_values same_rest struct_gep true fl (ip_L p) (ip_metaL p) (ip_inL p) musersL (pusersL p)
    else cmp_input_values same_rest struct_gep false fr (ip_R p) (ip_metaR p) (ip_inR p) musersR (pusersR p).

  (** CustomPatternComparator.cpp:162-214 inputMappingValid; a value of a function as a key of
      the numbering. *)
  Fixpoint inputs_valid (p : ipattern) (d : numbering) (args : list (value * value)) (sl sr : mstate) : bool * mstate * mstate :=
    match args with
    | [] => (true, sl, sr)
    | (a, b) :: args' =>
      match dget (pim sl) a, dget (pim sr) b with
      | Some x, Some y => if mapped d (true, x) (false, y) then inputs_valid p d args' sl sr else (false, sl, sr)
      | Some x, None =>
        let '(ok, sr1) := side_inputs p false (option_map snd (get_mapped d (true, x) true)) b sr in
        if ok then inputs_valid p d args' sl sr1 else (false, sl, sr1)
      | None, Some y =>
        let '(ok, sl1) := side_inputs p true (option_map snd (get_mapped d (false, y) false)) a sl in
        if ok then inputs_valid p d args' sl1 sr else (false, sl1, sr)
      | None, None => inputs_valid p d args' sl sr
      end
    end.
  (** CustomPatternComparator.cpp:218-238 processPatternMatch; InstMatchMap[MappedInstR] may be
      absent: then the key is a null pointer, which is left out here. *)
  Definition process (p : ipattern) (sl sr : mstate) (m : matches) : matches :=
    mkMatches
      (all_matches m ++ map (fun x => (true, VReg (snd x))) (imm sl) ++ map (fun x => (false, VReg (snd x))) (imm sr))
      (fold_left (fun d x =>
        match dget (ip_out p) (fst x) with
        | Some q => match dget (imm sr) q with Some r => dset d (false, VReg r) (true, VReg (snd x)) | None => d end
        | None => d
        end) (imm sl) []).
  (** CustomPatternComparator.cpp:62-91 matchInstPattern; the states of the comparators are
      cleared at each comparison ([mstart]). *)
  Definition try_pattern (p : ipattern) (l r : nat) (d : numbering) : option (mstate * mstate) :=
    let '(okl, sl) := side_compare p true l mstart in
    if negb okl then None
    else
      let '(okr, sr) := side_compare p false r mstart in
      if negb okr then None
      else let '(ok, sl1, sr1) := inputs_valid p d (ip_args p) sl sr in if ok then Some (sl1, sr1) else None.
  Fixpoint match_inst (ps : list ipattern) (l r : nat) (d : numbering) (m : matches) : option matches :=
    match ps with
    | [] => None
    | p :: ps' =>
      match try_pattern p l r d with
      | Some (sl, sr) => Some (process p sl sr m)
      | None => match_inst ps' l r d m
      end
    end.

  (** *** Value patterns *)
  Variable is_variable : string -> bool.
  (** The names of arguments and instructions (often empty). *)
  Variable local_name : bool -> value -> string.
  Definition value_name (left : bool) (v : value) : string :=
    match v with VConst (CGlobal n) => n | VConst (CInt _) => ""%string | _ => local_name left v end.
  Definition side_func (left : bool) : func := if left then fl else fr.
  Definition load_of (left : bool) (v : value) : option inst :=
    match inst_of (side_func left) v with Some i => match i_code i with Load => Some i | _ => None end | None => None end.
  Definition pattern_side (p : vpattern) (left : bool) : value := if left then vp_L p else vp_R p.
  (** ValuePatternComparator.cpp:20-34 compare and 40-80 cmpValues; [None]: two globals are
      compared, by their numbers in a GlobalNumberState that is a null pointer
      (FunctionComparator.cpp:412-416, ValuePatternComparator.h:41). *)
  Definition value_compare (p : vpattern) (left : bool) (v : value) : option bool :=
    let q := pattern_side p left in
    match load_of left v, q with
    | Some i, VConst (CGlobal n) =>
      if is_variable n then Some (names_match (value_name left (op 0 i)) n left) else Some false
    | _, _ =>
      match v, q with
      | VConst (CInt x), VConst (CInt y) => Some (Z.eqb x y)
      | VConst (CGlobal _), VConst (CGlobal _) => None
      | _, _ => Some false
      end
    end.
  (** CustomPatternComparator.cpp:34-58 matchValues *)
  Fixpoint match_values (ps : list vpattern) (d : numbering) (l r : value) : option bool :=
    match ps with
    | [] => Some false
    | p :: ps' =>
      match value_compare p true l with
      | None => None
      | Some false => match_values ps' d l r
      | Some true =>
        match value_compare p false r with
        | None => None
        | Some false => match_values ps' d l r
        | Some true =>
          match load_of true l, load_of false r with
          | Some _, Some _ => if mapped d (true, l) (false, r) then Some true else match_values ps' d l r
          | _, _ => Some true
          end
        end
      end
    end.
  (** CustomPatternComparator.cpp:138-157 matchLoadInst *)
  Definition match_load (p : vpattern) (left : bool) (r : nat) : bool :=
    match load_of left (VReg r), pattern_side p left with
    | Some i, VConst (CGlobal n) => is_variable n && names_match (value_name left (op 0 i)) n left
    | _, _ => false
    end.
  (** CustomPatternComparator.cpp:95-134 matchValuePattern *)
  Fixpoint match_value (ps : list vpattern) (l r : nat) (m : matches) : option matches :=
    match ps with
    | [] => None
    | p :: ps' =>
      let a := match_load p true l in
      let b := match_load p false r in
      if a || b then
        Some (mkMatches (all_matches m ++ (if a then [(true, VReg l)] else []) ++ (if b then [(false, VReg r)] else []))
                        (if a && b then [((true, VReg l), (false, VReg r))] else mappings m))
      else match_value ps' l r m
    end.
  (** CustomPatternComparator.cpp:27-30 matchPattern *)
  Definition match_any (is : list ipattern) (vs : list vpattern) (l r : nat) (d : numbering) (m : matches) : option matches :=
    match match_inst is l r d m with Some m' => Some m' | None => match_value vs l r m end.
  (** DifferentialFunctionComparator.cpp:1105-1113: a pair of instructions found different; the
      answer is what the comparison goes on with, from the same pair. *)
  Definition after_difference (is : list ipattern) (vs : list vpattern) (l r : nat) (d : numbering) (m : matches) : option (numbering * matches) :=
    match match_any is vs l r d m with
    | None => None
    | Some m' => Some (create_mapping m' (undo_last (true, VReg l) (false, VReg r) d), m')
    end.
  (** DifferentialFunctionComparator.cpp:803-807 isPartOfPattern *)
  Definition part_of_pattern (m : matches) (k : key) : bool := mem k (all_matches m).
End Both.
