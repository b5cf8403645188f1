(** * What functions do, and what LLVM requires of them (for Funcomp_Props).
    None of this is in the code; only the IR of Funcomp_Model is used. *)
From Coq Require Import String Ascii ZArith Arith Bool List.
From Verif Require Import PyBase Funcomp_Model.
Import ListNotations.
Open Scope list_scope.
Open Scope nat_scope.

(** ** Running a function *)

(** The meaning of the instructions: any values and memories (a memory may hold all that can be
    observed, such as what was output), any meaning of the operations on the values of the
    operands; [None]: the run ends there, such as by a trap.  [choose] gives the target of a
    branch by its position.  The constants and globals of the two versions have their own
    values. *)
Record semantics := mkSem {
  V : Type; M : Type; undef : V;
  constL : const -> V; constR : const -> V;
  exec : code -> string -> list V -> M -> option (V * M);
  choose : code -> string -> list V -> option nat }.

Inductive outcome (V M : Type) := Returned (vs : list V) (m : M) | Stuck | Running (m : M).
Arguments Returned {V M}. Arguments Stuck {V M}. Arguments Running {V M}.

(** The offset of a GEP is a consequence of its operands. *)
Definition plain (c : code) : code := match c with Gep _ => Gep None | c => c end.

Section Run.
  Variable S : semantics.
  Variable consts : const -> V S.
  Variable args : nat -> V S.
  Variable f : func.

  Definition eval (env : nat -> V S) (v : value) : V S :=
    match v with VArg n => args n | VReg r => env r | VBlock _ => undef S | VConst c => consts c end.
  Definition upd (env : nat -> V S) (r : nat) (v : V S) : nat -> V S := fun x => if Nat.eqb x r then v else env x.
  (** All PHI nodes of a block get their values at once, by the block the run comes from. *)
  Definition enter (env : nat -> V S) (prev : nat) (l : list inst) : nat -> V S := fun r =>
    match find (fun p => is_phi p && Nat.eqb (i_reg p) r) l with
    | Some p => match find (fun e => Nat.eqb (snd e) prev) (incoming p) with Some (v, _) => eval env v | None => undef S end
    | None => env r
    end.
  Fixpoint body (l : list inst) (env : nat -> V S) (m : M S) : option ((nat -> V S) * M S * inst) :=
    match l with
    | [] => None
    | i :: l' =>
      if is_debug i || is_phi i then body l' env m
      else if is_terminator i then Some (env, m, i)
      else match exec S (plain (i_code i)) (i_rest i) (map (eval env) (i_ops i)) m with
           | None => None
           | Some (v, m') => body l' (upd env (i_reg i) v) m'
           end
    end.
  (** [n] blocks from block [b] on, coming from [prev]. *)
  Fixpoint run (n : nat) (env : nat -> V S) (m : M S) (prev : option nat) (b : nat) : outcome (V S) (M S) :=
    match n with
    | O => Running m
    | Datatypes.S n' =>
      match body (block f b) (match prev with Some p => enter env p (block f b) | None => env end) m with
      | None => Stuck
      | Some (env', m', t) =>
        let vs := map (eval env') (i_ops t) in
        match i_code t with
        | Ret => Returned vs m'
        | c =>
          match choose S c (i_rest t) vs with
          | None => Stuck
          | Some k => match nth_error (successors t) k with None => Stuck | Some b' => run n' env' m' (Some b) b' end
          end
        end
      end
    end.
  Definition result (n : nat) (m : M S) : outcome (V S) (M S) := run n (fun _ => undef S) m None (entry f).
End Run.

(** A GEP all of whose indices are zero. *)
Definition by_zeros (i : inst) : Prop := (exists o, i_code i = Gep o) /\ forall v, In v (tl (i_ops i)) -> v = VConst (CInt 0).

(** What is taken to be the same means the same; a constant offset is the offset of the GEP; a
    bit cast that may be looked through and a GEP by zeros leave the pointer or value as it is. *)
Record lawful (w : world) (S : semantics) (fl fr : func) : Prop := mkLawful {
  law_exec : forall c r r' vs m, same_rest w r r' = true -> exec S c r vs m = exec S c r' vs m;
  law_choose : forall c r r' vs, same_rest w r r' = true -> choose S c r vs = choose S c r' vs;
  law_const : forall a b, same_const w a b = true -> constL S a = constR S b;
  law_offset : exists add : V S -> Z -> V S,
      forall cs f, cs = constL S /\ f = fl \/ cs = constR S /\ f = fr ->
      forall args env m i z, In i (insts f) -> i_code i = Gep (Some z) ->
      exec S (Gep None) (i_rest i) (map (eval S cs args env) (i_ops i)) m = Some (add (eval S cs args env (op 0 i)) z, m);
  law_cast : forall cs f, cs = constL S /\ f = fl \/ cs = constR S /\ f = fr ->
      forall args env m i, In i (insts f) -> i_code i = Cast true /\ safe_cast w i = true \/ by_zeros i ->
      exec S (plain (i_code i)) (i_rest i) (map (eval S cs args env) (i_ops i)) m = Some (eval S cs args env (op 0 i), m) }.

(** ** Well-formed functions *)

Definition edge (f : func) (b c : nat) : Prop :=
  exists l t, dget (f_blocks f) b = Some l /\ terminator l = Some t /\ In c (successors t).
Inductive reach (f : func) : nat -> Prop :=
| reach_entry : reach f (entry f)
| reach_step b c : reach f b -> edge f b c -> reach f c.
Definition defs (l : list inst) : list nat := map i_reg l.
Definition regs (vs : list value) : list nat := flat_map (fun v => match v with VReg r => [r] | _ => [] end) vs.

(** What the LLVM verifier checks, for the code that can be reached.  That every definition
    dominates its uses is said by the definitions [avail b] that were made on every way to [b];
    a block is not the target of two edges from one block if it has PHI nodes. *)
Record well_formed (f : func) : Prop := mkWf {
  wf_regs : NoDup (map i_reg (insts f));
  wf_blocks : NoDup (dkeys (f_blocks f));
  wf_entry : In (entry f) (dkeys (f_blocks f));
  wf_ends : forall b l, dget (f_blocks f) b = Some l ->
      exists l0 t, l = l0 ++ [t] /\ is_terminator t = true /\ forall i, In i l0 -> is_terminator i = false;
  wf_targets : forall b c, edge f b c -> In c (dkeys (f_blocks f)) /\ c <> entry f;
  wf_operands : forall i v, In i (insts f) -> In v (i_ops i) ->
      match v with
      | VArg n => n < f_args f
      | VBlock _ => i_code i = Br \/ i_code i = Switch
      | VReg r => forall d, find_inst f r = Some d -> is_debug d = false /\ is_terminator d = false
      | VConst _ => True
      end;
  wf_phis : forall b l i from, dget (f_blocks f) b = Some l -> In i l -> i_code i = Phi from ->
      length (i_ops i) = length from /\ NoDup from /\ (forall c, In c from <-> edge f c b) /\ b <> entry f;
  wf_ssa : exists avail : nat -> list nat,
      avail (entry f) = [] /\
      forall b l, reach f b -> dget (f_blocks f) b = Some l ->
      (forall c, edge f b c -> incl (avail c) (avail b ++ defs l)) /\
      (forall r, In r (defs l) -> ~ In r (avail b)) /\
      (forall c i, In c (avail b) -> find_inst f c = Some i -> is_phi i = false -> incl (regs (i_ops i)) (avail b)) /\
      (forall l1 i l2, l = l1 ++ i :: l2 -> is_phi i = false -> incl (regs (i_ops i)) (avail b ++ defs l1)) /\
      (forall c m i v, edge f b c -> dget (f_blocks f) c = Some m -> In i m -> is_phi i = true -> In (v, b) (incoming i) ->
         incl (regs [v]) (avail b ++ defs l)) }.

(** ** Copies *)

(** [g] is [f] with other names of the instructions and blocks; debug information, the order of
    the blocks after the first and blocks of [g] that are not copies do not matter. *)
Definition rename_value (reg blk : nat -> nat) (v : value) : value :=
  match v with VReg r => VReg (reg r) | VBlock b => VBlock (blk b) | v => v end.
Definition rename_code (blk : nat -> nat) (c : code) : code := match c with Phi from => Phi (map blk from) | c => c end.
Definition rename_inst (reg blk : nat -> nat) (i : inst) : inst :=
  mkInst (reg (i_reg i)) (rename_code blk (i_code i)) (i_rest i) (map (rename_value reg blk) (i_ops i)).
Definition real (l : list inst) : list inst := filter (fun i => negb (is_debug i)) l.
Definition copy (reg blk : nat -> nat) (f g : func) : Prop :=
  (forall x y, reg x = reg y -> x = y) /\ (forall x y, blk x = blk y -> x = y) /\
  f_sig g = f_sig f /\ f_args g = f_args f /\ entry g = blk (entry f) /\
  forall b l, dget (f_blocks f) b = Some l ->
  exists l', dget (f_blocks g) (blk b) = Some l' /\ real l' = map (rename_inst reg blk) (real l).

(** ** Functions and settings that allow few exceptions *)

(** One block, without instructions that may be left out. *)
Definition unskippable (i : inst) : Prop :=
  match i_code i with Phi _ | Alloca | Load | Cast _ | Br | Switch => False | Gep _ => ~ by_zeros i | _ => True end.
Definition straight (f : func) : Prop := exists b l, f_blocks f = [(b, l)] /\ forall i, In i l -> unskippable i.
(** No patterns, and no arguments compared by the source. *)
Definition patterns_off (w : world) : Prop :=
  p_relocations w = false /\ p_inverse w = false /\ p_reordered w = false /\ p_groupvars w = false /\ p_casts w = false /\ forall i j k, csource w i j k = false.

(** ** Values computed by binary operations *)

(** [bin] is associative and commutative for the operations that are called reorderable. *)
Definition ac {A} (bin : string -> A -> A -> A) : Prop := forall b, In b ["xor"; "add"; "and"; "or"; "mul"]%string ->
  (forall x y, bin b x y = bin b y x) /\ (forall x y z, bin b x (bin b y z) = bin b (bin b x y) z).
(** The registers of the binary operations of [f] hold what [bin] makes of the operands. *)
Definition computed (S : semantics) (bin : string -> V S -> V S -> V S) (cs : const -> V S) (args env : nat -> V S) (f : func) : Prop :=
  forall i b, In i (insts f) -> i_code i = Binop b ->
  exists x y, i_ops i = [x; y] /\ env (i_reg i) = bin b (eval S cs args env x) (eval S cs args env y).

(** What the state [s] of a comparison says holds of the values in the registers: replaced values are
    those of their replacements, and values with one serial number are the same.  The last serial
    number is left out: it was given to the two instructions that are being compared. *)
Definition agrees (S : semantics) (args envL envR : nat -> V S) (s : state) : Prop :=
  (forall v u, dget (repl true s) v = Some u -> eval S (constL S) args envL u = eval S (constL S) args envL v) /\
  (forall v u, dget (repl false s) v = Some u -> eval S (constR S) args envR u = eval S (constR S) args envR v) /\
  (forall u v k, dget (snL s) u = Some k -> dget (snR s) v = Some k -> k <> length (snL s) - 1 -> k <> length (snR s) - 1 -> eval S (constL S) args envL u = eval S (constR S) args envR v).

(** ** Points of a run, and the memory at them *)

(** [At done b l env m]: a run of [f] comes to the instructions [l] at the end of block [b], after
    the instructions with the registers [done]. *)
Section At.
  Variable S : semantics.
  Variable consts : const -> V S.
  Variable args : nat -> V S.
  Variable f : func.
  Inductive At : list nat -> nat -> list inst -> (nat -> V S) -> M S -> Prop :=
  | At_start m : At [] (entry f) (block f (entry f)) (fun _ => undef S) m
  | At_pass done b i l env m : At done b (i :: l) env m -> is_debug i || is_phi i = true -> At (i_reg i :: done) b l env m
  | At_exec done b i l env m v m' : At done b (i :: l) env m -> is_debug i || is_phi i = false -> is_terminator i = false ->
      exec S (plain (i_code i)) (i_rest i) (map (eval S consts args env) (i_ops i)) m = Some (v, m') ->
      At (i_reg i :: done) b l (upd S env (i_reg i) v) m'
  | At_jump done b i l env m k c : At done b (i :: l) env m -> is_terminator i = true ->
      choose S (i_code i) (i_rest i) (map (eval S consts args env) (i_ops i)) = Some k -> nth_error (successors i) k = Some c ->
      At (i_reg i :: done) c (block f c) (enter S consts args env b (block f c)) m.
End At.

(** The value points into the stack memory of the allocation [a]. *)
Inductive based (f : func) : value -> nat -> Prop :=
| based_alloca i : In i (insts f) -> i_code i = Alloca -> based f (VReg (i_reg i)) (i_reg i)
| based_gep i o a : In i (insts f) -> i_code i = Gep o -> based f (op 0 i) a -> based f (VReg (i_reg i)) a.
(** The pointers are in different allocations, or are GEPs on an allocation with different
    constants as one of the indices. *)
Definition separate (f : func) (p q : value) : Prop :=
  (exists a b, based f p a /\ based f q b /\ a <> b) \/
  (exists i j a o o' k x y, In i (insts f) /\ In j (insts f) /\ p = VReg (i_reg i) /\ q = VReg (i_reg j) /\
     i_code i = Gep o /\ i_code j = Gep o' /\ op 0 i = VReg a /\ op 0 j = VReg a /\ based f (VReg a) a /\
     nth_error (tl (i_ops i)) k = Some (VConst (CInt x)) /\ nth_error (tl (i_ops j)) k = Some (VConst (CInt y)) /\ x <> y).
(** No GEP is made on a GEP. *)
Definition flat (f : func) : Prop := forall i j o o', In i (insts f) -> In j (insts f) -> i_code i = Gep o -> i_code j = Gep o' -> op 0 i <> VReg (i_reg j).
(** Memory as the loads of [f] see it: they and the stores are of one type for each place; a store
    changes nothing at separate places; instructions other than stores and calls nothing at all. *)
Record reads_memory (S : semantics) (consts : const -> V S) (args : nat -> V S) (f : func) (read : V S -> M S -> V S) : Prop := mkReads {
  mem_load : forall i p m, In i (insts f) -> i_code i = Load -> exec S Load (i_rest i) [p] m = Some (read p m, m);
  mem_store : forall i v p m x m', In i (insts f) -> i_code i = Store -> exec S Store (i_rest i) [v; p] m = Some (x, m') -> read p m' = v;
  mem_separate : forall done b i l env m x m' v p q, At S consts args f done b (i :: l) env m -> i_code i = Store -> i_ops i = [v; p] ->
      exec S Store (i_rest i) (map (eval S consts args env) [v; p]) m = Some (x, m') ->
      separate f p q -> (forall r, p = VReg r \/ q = VReg r -> In r done) ->
      read (eval S consts args env q) m' = read (eval S consts args env q) m;
  mem_other : forall i vs m x m' p, In i (insts f) -> i_code i <> Store -> i_code i <> Call ->
      exec S (plain (i_code i)) (i_rest i) vs m = Some (x, m') -> read p m' = read p m }.
(** From [b], [c] can be reached. *)
Inductive leads (f : func) : nat -> nat -> Prop :=
| leads_refl b : leads f b b
| leads_step b c d : leads f b c -> edge f c d -> leads f b d.
(** Loads have one operand, stores two. *)
Definition accesses (f : func) : Prop := forall i, In i (insts f) ->
  match i_code i with Load => exists p, i_ops i = [p] | Store => exists v p, i_ops i = [v; p] | _ => True end.

(** ** Inverse conditions *)

(** The value of [i] goes to [u], possibly through negations. *)
Inductive feeds (w : world) (f : func) (i : inst) : inst -> Prop :=
| feeds_user u : In u (insts f) -> In (VReg (i_reg i)) (i_ops u) -> feeds w f i u
| feeds_not u v : feeds w f i u -> is_not w u = true -> In v (insts f) -> In (VReg (i_reg u)) (i_ops v) -> feeds w f i v.
(** Conditions are truth values, which [not_] negates; a comparison by the inverse predicate has the
    negated value, and a branch by the negated value takes the other way. *)
Record conditions (w : world) (S : semantics) (truth : V S -> Prop) (not_ : V S -> V S) : Prop := mkConditions {
  not_not : forall v, truth v -> not_ (not_ v) = v;
  compares_rest : forall a r r' vs m, same_rest w r r' = true -> exec S (Cmp a) r vs m = exec S (Cmp a) r' vs m;
  compares_inverse : forall b r vs m, exec S (Cmp (inverse_of w b)) r vs m = match exec S (Cmp b) r vs m with Some (v, m') => Some (not_ v, m') | None => None end;
  compares_truth : forall b r vs m v m', exec S (Cmp b) r vs m = Some (v, m') -> truth v;
  chooses : forall r v x y k, choose S Br r [v; x; y] = Some k -> k = 0 \/ k = 1;
  chooses_other : forall r r' v x y x' y' k, truth v -> choose S Br r [v; x; y] = Some k -> choose S Br r' [not_ v; x'; y'] = Some (1 - k) }.

(** ** What is seen from outside *)

(** Calls and the ends of blocks, and stores and other operations unless group variables are on. *)
Definition visible (w : world) (i : inst) : bool :=
  match i_code i with Call | Br | Switch | Ret | Unreachable => true | Store | Other => negb (p_groupvars w) | _ => false end.
(** The same operation with as many operands, of which the constants (the called function among
    them) are the same where both are constants; a branch may be by the inverse condition. *)
Definition corresponds (w : world) (i j : inst) : Prop :=
  i_code i = i_code j /\ length (i_ops i) = length (i_ops j) /\
  (i_code i <> Br -> same_rest w (i_rest i) (i_rest j) = true /\
     forall k g h, nth_error (i_ops i) k = Some (VConst g) -> nth_error (i_ops j) k = Some (VConst h) -> same_const w g h = true).

(** ** What may be left out *)

Definition address (i : inst) : value := match i_code i with Store => op 1 i | _ => op 0 i end.
(** Stack memory of which the allocation was left out. *)
Definition extra (left : bool) (f : func) (s : state) (p : value) : Prop :=
  exists a, based f p a /\ (In (VReg a) (if left then skipL s else skipR s) \/ In (VReg a) (if left then ignL s else ignR s)).
Inductive left_out (w : world) (fl fr : func) (left : bool) (b : nat) (i : inst) (s s' : state) : Prop :=
| out_alloca : i_code i = Alloca -> In (VReg (i_reg i)) (if left then skipL s' else skipR s') -> left_out w fl fr left b i s s'
| out_cast o : i_code i = Cast o -> p_casts w = true \/ safe_cast w i = true ->
    dget (if left then replL s' else replR s') (VReg (i_reg i)) = Some (op 0 i) -> left_out w fl fr left b i s s'
| out_gep : by_zeros i -> dget (if left then replL s' else replR s') (VReg (i_reg i)) = Some (op 0 i) -> left_out w fl fr left b i s s'
| out_load u : i_code i = Load -> skip_load fl fr left b i s = Some u ->
    dget (if left then replL s' else replR s') (VReg (i_reg i)) = Some u -> left_out w fl fr left b i s s'
| out_extra : p_groupvars w = true -> i_code i <> Call -> is_terminator i = false ->
    (exists u, In u (insts (if left then fl else fr)) /\ In (VReg (i_reg i)) (i_ops u)) ->
    (forall u, In u (insts (if left then fl else fr)) -> In (VReg (i_reg i)) (i_ops u) ->
       (i_code u = Load \/ i_code u = Store) /\ extra left (if left then fl else fr) s (address u)) ->
    In (VReg (i_reg i)) (if left then ignL s' else ignR s') -> left_out w fl fr left b i s s'
| out_store a : p_groupvars w = true -> i_code i = Store -> extra left (if left then fl else fr) s (address i) -> based (if left then fl else fr) (address i) a ->
    In (VReg a) (if left then ignL s' else ignR s') -> ~ In (VReg a) (if left then skipL s' else skipR s') \/ In (VReg a) (if left then ignL s else ignR s) ->
    In (VReg (i_reg i)) (if left then ignL s' else ignR s') -> left_out w fl fr left b i s s'
| out_operation o : p_reordered w = true -> i_code i = Binop o -> In o ["add"; "mul"; "and"; "or"; "xor"]%string ->
    (forall u, In u (insts (if left then fl else fr)) -> In (VReg (i_reg i)) (i_ops u) -> i_code u = Binop o) ->
    In (VReg (i_reg i)) (if left then ignL s' else ignR s') -> left_out w fl fr left b i s s'.
