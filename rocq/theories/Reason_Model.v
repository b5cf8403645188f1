(** * Model of the search for reasons of a difference
    (diffkemp/simpll/DifferentialFunctionComparator.cpp: findDifference, findMacroFunctionDifference, processCallInstDifference,
    findAsmDifference, findTypeDifferences, findTypeDifference; diffkemp/simpll/FieldAccessUtils.cpp: getFieldAccessStart,
    isFollowingFieldAccessInstruction, getFieldAccessSourceTypes).  What findMacroDifferences finds is that of Source_Model. *)
From Coq Require Import String Ascii ZArith Arith Bool List DecimalString.
From Verif Require Import PyBase Source_Model.
Import ListNotations.
Open Scope list_scope.

(** Types by numbers; structures may have a name. *)
Inductive ty := Struct (name : option string) (id : nat) | Basic (id : nat).
(** The first operand: an instruction, a constant expression that is a GEP, or anything else *)
Inductive operand := Reg (n : nat) | Const_gep (source : ty) | Rest.
(** A cast is one from pointers to numbers or another one; a call has the called function, if it is known, and if that is an abstraction
    of assembly its text, and the names of the arguments (Utils.cpp:458-534 getIdentifierForValue). *)
Inductive kind := Gep (source : ty) | Cast (to_int : bool) | Load (result : ty) | Call (called : option string) (asm : string) (args : list string) | Other.
(** An instruction, with the text of its source line ("" if there is none), the names of the macros used in it (StringMap), its file and
    line.  Simplified: the text of a line that is not empty has a location. *)
Record inst := mkInst { i_id : nat; i_kind : kind; i_op : operand; i_text : string; i_macros : list string; i_file : string; i_line : Z }.
(** The function, with file and line of its debug info, if it has one; the last instruction of a block is its terminator. *)
Record func := mkFunc { f_name : string; f_debug : option (string * Z); f_blocks : list (list inst) }.
Definition find_inst (f : func) (r : nat) : option inst := find (fun i => Nat.eqb (i_id i) r) (concat (f_blocks f)).

(** Result.h:38-50, 82-146; an entry of a stack is a name, a file and a line.  A type difference has the files and lines of the types. *)
Definition entry := (string * string * Z)%type.
Inductive object :=
| Syntax (name fn body_l body_r : string) (stack_l stack_r : list entry)
| Type_differs (name fn file_l file_r : string) (line_l line_r : Z) (stack_l stack_r : list entry).

(** ** FieldAccessUtils.cpp *)
(** FieldAccessUtils.cpp:20-44 getFieldAccessStart; [None] if [n] steps do not suffice *)
Fixpoint access_start (n : nat) (f : func) (o : operand) : option (option inst) :=
  match n with
  | O => None
  | S n' =>
    match o with
    | Reg r =>
      match find_inst f r with
      | Some i =>
        match i_kind i with
        | Cast _ => access_start n' f (i_op i)
        | Gep _ => match access_start n' f (i_op i) with Some (Some g) => Some (Some g) | Some None => Some (Some i) | None => None end
        | _ => Some None
        end
      | None => Some None
      end
    | _ => Some None
    end
  end.
(** FieldAccessUtils.cpp:76-85 isFollowingFieldAccessInstruction *)
Definition follows (i : inst) (r : nat) : bool :=
  match i_kind i, i_op i with
  | Gep _, Reg s | Cast false, Reg s => Nat.eqb s r
  | _, _ => false
  end.
(** FieldAccessUtils.cpp:95-105 *)
Definition types_of (i : inst) : list ty :=
  match i_kind i with Gep t => t :: match i_op i with Const_gep s => [s] | _ => [] end | _ => [] end.
(** FieldAccessUtils.cpp:87-108 getFieldAccessSourceTypes, from an instruction on *)
Fixpoint walk (last : nat) (l : list inst) : list ty :=
  match l with
  | [] => []
  | i :: l' => if follows i last then types_of i ++ walk (i_id i) l' else walk last l'
  end.
(** The instructions behind one, up to the terminator of its block *)
Fixpoint behind (r : nat) (l : list inst) : option (list inst) :=
  match l with [] => None | i :: l' => if Nat.eqb (i_id i) r then Some (removelast l') else behind r l' end.
Fixpoint behind_in (r : nat) (bs : list (list inst)) : list inst :=
  match bs with [] => [] | b :: bs' => match behind r b with Some l => l | None => behind_in r bs' end end.
Definition source_types (f : func) (g : inst) : list ty := types_of g ++ walk (i_id g) (behind_in (i_id g) (f_blocks f)).
(** Instruction::getPrevNode *)
Fixpoint previous_in (r : nat) (before : option inst) (l : list inst) : option inst :=
  match l with [] => None | i :: l' => if Nat.eqb (i_id i) r then before else previous_in r (Some i) l' end.
Fixpoint previous (r : nat) (bs : list (list inst)) : option inst :=
  match bs with [] => None | b :: bs' => match previous_in r None b with Some i => Some i | None => previous r bs' end end.

(** ** Types *)
Section Types.
  Variable differ : ty -> ty -> bool.                            (* cmpTypes *)
  Variables info_l info_r : dict string (string * string * Z).   (* StructDIMapL, StructDIMapR: directory, file and line of a structure *)
  (** DifferentialFunctionComparator.cpp:1380-1427 findTypeDifference, for structures with names; [None] if a function has no debug info
      (a null pointer is followed). *)
  Definition type_difference (fl fr : func) (l r : ty) (name_l : string) : option (list object) :=
    if differ l r then
      let name := if startswith name_l "struct." then drop 7 name_l else name_l in
      match dget info_l name, dget info_r name with
      | Some (dir_l, file_l, line_l), Some (dir_r, file_r, line_r) =>
        match f_debug fl, f_debug fr with
        | Some (sub_l, at_l), Some (sub_r, at_r) =>
          Some [Type_differs name (f_name fl) (join_path dir_l file_l) (join_path dir_r file_r) (line_l - 1) (line_r - 1)
                  [((name ++ " (type)")%string, sub_l, at_l)] [((name ++ " (type)")%string, sub_r, at_r)]]
        | _, _ => None
        end
      | _, _ => Some []
      end
    else Some [].
  (** DifferentialFunctionComparator.cpp:1355-1378 findTypeDifferences *)
  Fixpoint type_differences (fl fr : func) (ls rs : list ty) : option (list object) :=
    match ls, rs with
    | l :: ls', r :: rs' =>
      match (match l, r with
             | Struct (Some n) _, Struct (Some m) _ => if String.eqb (base_name n) (base_name m) then type_difference fl fr l r n else Some []
             | _, _ => Some []
             end) with
      | Some a => match type_differences fl fr ls' rs' with Some b => Some (a ++ b) | None => None end
      | None => None
      end
    | _, _ => Some []
    end.
  (** DifferentialFunctionComparator.cpp:1909-1914: the access of the instruction or of the one before *)
  Definition access_of (n : nat) (f : func) (i : inst) : option (option inst) :=
    match access_start n f (Reg (i_id i)) with
    | Some None => match previous (i_id i) (f_blocks f) with Some p => access_start n f (Reg (i_id p)) | None => Some None end
    | x => x
    end.
  (** DifferentialFunctionComparator.cpp:1915-1917, 1928-1931 *)
  Definition types_between (fl fr : func) (l r : option (option inst)) : option (list object) :=
    match l, r with
    | Some (Some a), Some (Some b) => type_differences fl fr (source_types fl a) (source_types fr b)
    | Some _, Some _ => Some []
    | _, _ => None
    end.
  (** DifferentialFunctionComparator.cpp:1903-1932, the part of findDifference about types *)
  Definition type_reasons (n : nat) (fl fr : func) (i j : inst) : option (list object) :=
    match types_between fl fr (access_of n fl i) (access_of n fr j) with
    | Some a =>
      match i_kind i, i_kind j with
      | Load t, Load u =>
        if differ t u
        then match types_between fl fr (access_start n fl (i_op i)) (access_start n fr (i_op j)) with Some b => Some (a ++ b) | None => None end
        else Some a
      | _, _ => Some a
      end
    | None => None
    end.
End Types.

(** ** Macros and assembly *)
Definition asm_prefix : string := "simpll__inlineasm.".
(** FunctionAbstractionsGenerator.cpp:165-168 isSimpllAbstractionDeclaration *)
Definition abstraction (name : string) : bool := startswith name "simpll__indirect." || startswith name asm_prefix.
(** What is to be inlined ([tryInline]) *)
Definition inlining := option (option nat * option nat).
(** The name used in findMacroFunctionDifference (DifferentialFunctionComparator.cpp:419-424); [None] if the called function is not
    known (a null pointer is followed). *)
Definition call_name (i : inst) : option string := match i_kind i with Call c _ _ => c | _ => Some ""%string end.
Definition call_id (i : inst) : option nat := match i_kind i with Call _ _ _ => Some (i_id i) | _ => None end.
(** DifferentialFunctionComparator.cpp:403-463 findMacroFunctionDifference *)
Definition macro_function (fl : func) (l r : inst) (before : inlining) : option (list object * inlining) :=
  match call_name l, call_name r with
  | Some nl, Some nr =>
    let first := negb (mem nl (i_macros l)) && mem nl (i_macros r) in
    let second := mem nr (i_macros l) && negb (mem nr (i_macros r)) in
    if negb (String.eqb (i_text l) "") && negb (String.eqb (i_text r) "") && String.eqb (i_text l) (i_text r) && (first || second)
    then
      let name := if first then nl else nr in
      let nl' := if first then nl else (nr ++ " (macro)")%string in
      let nr' := if first then (nl ++ " (macro)")%string else nr in
      Some ([Syntax name (f_name fl) "[macro function difference]" "[macro function difference]" [(nl', i_file l, i_line l)] [(nr', i_file r, i_line r)]],
            Some (if first then (call_id l, None) else (None, call_id r)))
    else Some ([], before)
  | _, _ => None
  end.
(** std::to_string of a counter.  Simplified: an int that does not overflow. *)
Definition decimal (n : nat) : string := NilEmpty.string_of_uint (Nat.to_uint n).
(** DifferentialFunctionComparator.cpp:1203-1218: the names of the arguments; an empty text gets no comma *)
Definition join_names (args : list string) : string :=
  fold_left (fun acc a => if String.eqb acc "" then a else (acc ++ ", " ++ a)%string) args ""%string.
(** DifferentialFunctionComparator.cpp:1168-1242 findAsmDifference; [None] if a function has no debug info *)
Definition asm_difference (fl fr : func) (l r : inst) (counter : nat) : option (list object * nat) :=
  match i_kind l, i_kind r with
  | Call (Some nl) al args_l, Call (Some nr) ar args_r =>
    if startswith nl asm_prefix && startswith nr asm_prefix && negb (String.eqb al ar)
    then match f_debug fl, f_debug fr with
         | Some (file_l, line_l), Some (file_r, line_r) =>
           Some ([Syntax ("assembly code " ++ decimal (S counter)) (f_name fl) (al ++ " (args: " ++ join_names args_l ++ ")") (ar ++ " (args: " ++ join_names args_r ++ ")")
                    [("(generated assembly code)"%string, file_l, line_l)] [("(generated assembly code)"%string, file_r, line_r)]], S counter)
         | _, _ => None
         end
    else Some ([], counter)
  | _, _ => Some ([], counter)
  end.

(** What the search leaves: the objects of the pair of functions, what is to be inlined, and the counter *)
Record state := mkState { objects : list object; inline : inlining; counter : nat }.
(** DifferentialFunctionComparator.cpp:236-263, 1885-1901 (processCallInstDifference and the part of findDifference about calls).
    Simplified: what cmpGlobalValues does for the called functions is that of Modcomp_Model; it does not change the objects of this pair. *)
Definition call_reasons (print_asm : bool) (fl fr : func) (l r : inst) (s : state) : option state :=
  match i_kind l, i_kind r with
  | Call cl _ _, Call cr _ _ =>
    match (if print_asm then asm_difference fl fr l r (counter s) else Some ([], counter s)) with
    | Some (os, c) =>
      match cl, cr with
      | Some nl, Some nr =>
        let now := if negb (abstraction nl) && negb (abstraction nr) then Some (Some (i_id l), Some (i_id r)) else inline s in
        match macro_function fl l r now with
        | Some (ms, i) => Some (mkState (objects s ++ os ++ ms) i c)
        | None => None
        end
      | _, _ => None
      end
    | None => None
    end
  | Call _ _ _, _ | _, Call _ _ _ =>
    match macro_function fl l r (inline s) with Some (ms, i) => Some (mkState (objects s ++ ms) i (counter s)) | None => None end
  | _, _ => Some s
  end.
(** DifferentialFunctionComparator.cpp:1875-1933 findDifference; [macros] is what findMacroDifferences finds. *)
Definition find_difference (n : nat) (differ : ty -> ty -> bool) (info_l info_r : dict string (string * string * Z)) (print_asm : bool)
  (fl fr : func) (l r : inst) (macros : list object) (s : state) : option state :=
  match call_reasons print_asm fl fr l r (mkState (objects s ++ macros) (inline s) (counter s)) with
  | Some s1 =>
    match type_reasons differ info_l info_r n fl fr l r with
    | Some ts => Some (mkState (objects s1 ++ ts) (inline s1) (counter s1))
    | None => None
    end
  | None => None
  end.
