(** * Model of the comparison of two instructions, without their operands:
    diffkemp/simpll/llvm-lib/15/FunctionComparator.cpp: cmpNumbers, cmpAligns, cmpOrderings,
    cmpAPInts, cmpAPFloats, cmpMem, cmpRangeMetadata, cmpOperandBundlesSchema, cmpOperations,
    cmpInlineAsm;
    diffkemp/simpll/DifferentialFunctionComparator.cpp: cmpAttrs, cmpOperations.
    In Funcomp_Model all of this is in [i_rest].
    Simplified: GEP and PHI instructions are left out (see Layout_Model and Funcomp_Model), as are
    the numbers of values, calls with special names and inverse conditions (see Funcomp_Model and
    Layout_Model).  Flags, alignments, orders and scopes are numbers. *)
From Coq Require Import String Ascii ZArith Arith Bool List.
From Verif Require Import PyBase.
Import ListNotations.
Open Scope list_scope.
Open Scope Z_scope.

(** CmpInst::Predicate for integers; the flag says whether the comparison is signed. *)
Inductive ipred := PEq | PNe | PGt (signed : bool) | PGe (signed : bool) | PLt (signed : bool) | PLe (signed : bool).
Definition pred_number (p : ipred) : Z :=
  match p with
  | PEq => 32 | PNe => 33
  | PGt s => if s then 38 else 34 | PGe s => if s then 39 else 35
  | PLt s => if s then 40 else 36 | PLe s => if s then 41 else 37
  end.
(** ICmpInst::getUnsignedPredicate *)
Definition unsigned (p : ipred) : ipred :=
  match p with PGt _ => PGt false | PGe _ => PGe false | PLt _ => PLt false | PLe _ => PLe false | _ => p end.

Section Types.
  (** Types, the comparison of two (see Types_Model), and the name if it is a structure (empty if it
      has none). *)
  Variable ty : Type.
  Variable cmp_types : ty -> ty -> Z.
  Variable struct_name : ty -> option string.

  (** What instructions of some kinds have. A range is a list of numbers with their widths, a bundle
      of operands a tag and a number of operands.  [ICall]: the opcode is that of calls, invokes, or
      callbrs (0, 1, 2). *)
  Inductive special :=
  | IAlloca (allocated : ty) (align : Z) (inalloca : bool)
  | ILoad (volatile : bool) (align order scope : Z) (range : option (list (Z * Z)))
  | IStore (volatile : bool) (align order scope : Z)
  | IIcmp (p : ipred)
  | IFcmp (p : Z)
  | ICall (kind conv : Z) (attributes : list string) (bundles : list (string * Z)) (tail : Z) (range : option (list (Z * Z)))
  | IInsert (indices : list Z)
  | IExtract (indices : list Z)
  | IFence (order scope : Z)
  | ICmpxchg (volatile weak : bool) (success failure scope align : Z)
  | IRmw (operation : Z) (volatile : bool) (order scope align : Z)
  | IShuffle (mask : list Z)
  | ILanding (cleanup : bool)
  | IOther (opcode : Z).
  (** [metadata]: all of it except for ranges *)
  Record instr := mkInstr { i_special : special; i_type : ty; i_flags : Z; i_optypes : list ty; i_metadata : list string }.

  (** Instruction::getOpcode, with the numbers of LLVM 15 *)
  Definition opcode (s : special) : Z :=
    match s with
    | IAlloca _ _ _ => 31 | ILoad _ _ _ _ _ => 32 | IStore _ _ _ _ => 33 | IFence _ _ => 35 | ICmpxchg _ _ _ _ _ _ => 36 | IRmw _ _ _ _ _ => 37
    | IIcmp _ => 53 | IFcmp _ => 54 | ICall k _ _ _ _ _ => if k =? 0 then 56 else if k =? 1 then 5 else 11
    | IShuffle _ => 63 | IExtract _ => 64 | IInsert _ => 65 | ILanding _ => 66 | IOther n => n
    end.

  (** FunctionComparator.cpp:53-59; also cmpAligns and cmpOrderings, 61-75. *)
  Definition cmp_numbers (a b : Z) : Z := if a <? b then -1 else if a >? b then 1 else 0.
  Definition cmp_bools (a b : bool) : Z := cmp_numbers (if a then 1 else 0) (if b then 1 else 0).
  (** [if (int Res = a) return Res; return b] *)
  Definition or_else (a : Z) (b : Z) : Z := if a =? 0 then b else a.

  (** FunctionComparator.cpp:77-85 *)
  Definition cmp_ints (a b : Z * Z) : Z :=
    or_else (cmp_numbers (fst a) (fst b)) (if snd a >? snd b then 1 else if snd b >? snd a then -1 else 0).
  (** FunctionComparator.cpp:178-183, also 195-204: the lists are of the same length. *)
  Fixpoint cmp_all {A} (cmp : A -> A -> Z) (a b : list A) : Z :=
    match a, b with x :: a', y :: b' => or_else (cmp x y) (cmp_all cmp a' b') | _, _ => 0 end.
  Definition cmp_lists {A} (cmp : A -> A -> Z) (a b : list A) : Z :=
    or_else (cmp_numbers (Z.of_nat (length a)) (Z.of_nat (length b))) (cmp_all cmp a b).
  (** FunctionComparator.cpp:160-185; equal pointers have equal numbers. *)
  Definition cmp_range (a b : option (list (Z * Z))) : Z :=
    match a, b with
    | None, None => 0
    | None, _ => -1
    | _, None => 1
    | Some l, Some m => cmp_lists cmp_ints l m
    end.
  (** StringRef::compare *)
  Definition cmp_strings (a b : string) : Z := match String.compare a b with Lt => -1 | Gt => 1 | Eq => 0 end.
  (** FunctionComparator.cpp:187-207 *)
  Definition cmp_bundles (a b : list (string * Z)) : Z :=
    cmp_lists (fun x y => or_else (cmp_strings (fst x) (fst y)) (cmp_numbers (snd x) (snd y))) a b.
  (** FunctionComparator.cpp:106-114 *)
  Definition cmp_text (a b : string) : Z :=
    or_else (cmp_numbers (Z.of_nat (String.length a)) (Z.of_nat (String.length b))) (cmp_strings a b).
  (** FunctionComparator.cpp:87-104: the format of a number is its precision, its largest and smallest
      exponent and its size. *)
  Record float := mkFloat { fl_precision : Z; fl_max : Z; fl_min : Z; fl_size : Z; fl_bits : Z }.
  Definition cmp_floats (a b : float) : Z :=
    or_else (cmp_numbers (fl_precision a) (fl_precision b)) (or_else (cmp_numbers (fl_max a) (fl_max b))
    (or_else (cmp_numbers (fl_min a) (fl_min b)) (or_else (cmp_numbers (fl_size a) (fl_size b))
    (cmp_ints (fl_size a, fl_bits a) (fl_size b, fl_bits b))))).
  (** FunctionComparator.cpp:729-750; equal pointers have equal parts.  The assertion holds as
      assemblies are unique. *)
  Record assembly := mkAsm { asm_type : ty; asm_code : string; asm_constraints : string; asm_effects : bool; asm_align : bool; asm_dialect : Z }.
  Definition cmp_asm (a b : assembly) : Z :=
    or_else (cmp_types (asm_type a) (asm_type b)) (or_else (cmp_text (asm_code a) (asm_code b))
    (or_else (cmp_text (asm_constraints a) (asm_constraints b)) (or_else (cmp_bools (asm_effects a) (asm_effects b))
    (or_else (cmp_bools (asm_align a) (asm_align b)) (cmp_numbers (asm_dialect a) (asm_dialect b)))))).
  (** DifferentialFunctionComparator.cpp:222-225 *)
  Definition cmp_attributes (a b : list string) : Z := 0.

  (** FunctionComparator.cpp:560-680: the opcodes are the same. *)
  Definition cmp_special (a b : special) : Z :=
    match a, b with
    | IAlloca t al _, IAlloca t' al' _ => or_else (cmp_types t t') (cmp_numbers al al')
    | ILoad v al o sc r, ILoad v' al' o' sc' r' =>
        or_else (cmp_bools v v') (or_else (cmp_numbers al al') (or_else (cmp_numbers o o') (or_else (cmp_numbers sc sc') (cmp_range r r'))))
    | IStore v al o sc, IStore v' al' o' sc' => or_else (cmp_bools v v') (or_else (cmp_numbers al al') (or_else (cmp_numbers o o') (cmp_numbers sc sc')))
    | IIcmp p, IIcmp p' => cmp_numbers (pred_number p) (pred_number p')
    | IFcmp p, IFcmp p' => cmp_numbers p p'
    | ICall k cc at_ bs t r, ICall _ cc' at' bs' t' r' =>
        or_else (cmp_numbers cc cc') (or_else (cmp_attributes at_ at') (or_else (cmp_bundles bs bs')
          (or_else (if k =? 0 then cmp_numbers t t' else 0) (cmp_range r r'))))
    | IInsert l, IInsert l' => cmp_lists cmp_numbers l l'
    | IExtract l, IExtract l' => cmp_lists cmp_numbers l l'
    | IFence o sc, IFence o' sc' => or_else (cmp_numbers o o') (cmp_numbers sc sc')
    | ICmpxchg v w s f sc _, ICmpxchg v' w' s' f' sc' _ =>
        or_else (cmp_bools v v') (or_else (cmp_bools w w') (or_else (cmp_numbers s s') (or_else (cmp_numbers f f') (cmp_numbers sc sc'))))
    | IRmw op v o sc _, IRmw op' v' o' sc' _ =>
        or_else (cmp_numbers op op') (or_else (cmp_bools v v') (or_else (cmp_numbers o o') (cmp_numbers sc sc')))
    | IShuffle l, IShuffle l' => cmp_lists cmp_numbers l l'
    | _, _ => 0
    end.
  (** FunctionComparator.cpp:521-694 cmpOperations *)
  Definition cmp_operation (a b : instr) : Z :=
    or_else (cmp_numbers (opcode (i_special a)) (opcode (i_special b)))
    (or_else (cmp_numbers (Z.of_nat (length (i_optypes a))) (Z.of_nat (length (i_optypes b))))
    (or_else (cmp_types (i_type a) (i_type b))
    (or_else (cmp_numbers (i_flags a) (i_flags b))
    (or_else (cmp_all cmp_types (i_optypes a) (i_optypes b))
    (cmp_special (i_special a) (i_special b)))))).

  (** The built-in patterns for type casts and for the layout of structures *)
  Record patterns := mkPatterns { p_casts : bool; p_layout : bool }.

  (** DifferentialFunctionComparator.cpp:281 and 346-373 *)
  Definition compare_instructions (w : patterns) (a b : instr) : Z :=
    let result := cmp_operation a b in
    if result =? 0 then 0 else
    let rest :=
      match p_layout w, i_special a, i_special b with
      | true, IAlloca t al _, IAlloca t' al' _ =>
          match struct_name t, struct_name t' with
          | Some n, Some n' => if String.eqb n n' then cmp_numbers al al' else result
          | _, _ => result
          end
      | _, _, _ => result
      end in
    match p_casts w, i_special a, i_special b with
    | true, IIcmp p, IIcmp q => if pred_number (unsigned p) =? pred_number (unsigned q) then 0 else rest
    | _, _, _ => rest
    end.
End Types.
