(** Fields of structures: their names and indices from debug info, the names that are noted for
    the indices of GEPs, how GEPs are compared by them, and constants that come from macros.

    Models diffkemp/simpll/DebugInfo.cpp:53-412, 437-450 and 505-513, and
    DifferentialFunctionComparator.cpp:84-218 and 1551-1558.  Not modelled: the metadata
    "idx_align_n" (:326-336), which nothing reads; numbers are not bounded, except where the
    code casts them; what cmpValues and cmpTypes say, the offsets of GEPs and the types of index
    variables are parameters. *)
From Coq Require Import String Ascii ZArith Arith Bool List.
From Verif Require Import PyBase.
Import ListNotations.
Open Scope list_scope.
Open Scope Z_scope.

(** ** Members of a structure *)
(** An element of a DICompositeType: a DIDerivedType with its name, offset, size and alignment
    in bits and, for a bit-field whose extra data is an integer, that integer (the offset of
    its storage); or something else (a function of a C++ class). *)
Inductive dmember := Member (name : string) (off size align : Z) (bits : option Z) | Nonmember.

(** DebugInfo.cpp:259-272 isSameElemIndex *)
Definition same_index (off : Z) (bits : option Z) : bool :=
  match bits with Some s => negb (Z.eqb s off) | None => false end.

(** DebugInfo.cpp:278-305 getTypeMemberIndex.  [index] is unsigned and returned as an int; here
    it is an integer (the same below 2^31). *)
Fixpoint member_index_from (els : list dmember) (name : string) (index next : Z) : Z :=
  match els with
  | [] => -1
  | Nonmember :: els' => member_index_from els' name (index + 1) next
  | Member n off size align bits :: els' =>
    let index := if same_index off bits then index - 1 else index in
    let index := if negb (Z.eqb align 0) && negb (Z.eqb (next mod align) 0) then index + 1 else index in
    if String.eqb n name then index
    else member_index_from els' name (if 0 <? size then index + 1 else index) (off + size)
  end.
Definition member_index (els : list dmember) (name : string) : Z := member_index_from els name 0 0.

(** DebugInfo.cpp:309-323 getElementNameAtIndex *)
Fixpoint name_at_from (els : list dmember) (cur index : Z) : string :=
  match els with
  | [] => ""
  | Nonmember :: els' => name_at_from els' cur index
  | Member n off size align bits :: els' =>
    let cur := if (0 <? off) && negb (same_index off bits) then cur + 1 else cur in
    if Z.eqb cur index then n else name_at_from els' cur index
  end.
Definition name_at (els : list dmember) (index : Z) : string := name_at_from els 0 index.

(** ** Types and GEPs *)
(** Structure types have an identity (a StructType pointer); what else is not indexed is
    [Plain]. *)
Inductive ty := Plain (s : string) | Struct (id : nat) | Array (n : Z) (e : ty).
(** [s_name]: the name in LLVM, empty without one. *)
Record types := mkTypes { s_name : nat -> string; s_fields : nat -> list ty }.
(** An index of a GEP: a constant of a width and value (read as unsigned), or another value. *)
Inductive index := Cst (width : Z) (v : Z) | Var (n : nat).
(** [g_inst]: an instruction (not a constant expression); [g_space]: the address space. *)
Record gep := mkGep { g_inst : bool; g_space : Z; g_type : ty; g_base : index; g_idx : list index }.

(** GetElementPtrInst::getIndexedType of LLVM: the first index moves over whole objects. *)
Definition type_at (W : types) (t : ty) (i : index) : option ty :=
  match t, i with
  | Array _ e, _ => Some e
  | Struct s, Cst _ v => if 0 <=? v then nth_error (s_fields W s) (Z.to_nat v) else None
  | _, _ => None
  end.
Fixpoint types_down (W : types) (t : ty) (l : list index) : option ty :=
  match l with
  | [] => Some t
  | i :: l' => match type_at W t i with Some t' => types_down W t' l' | None => None end
  end.
Definition indexed_type (W : types) (t : ty) (l : list index) : option ty := types_down W t (tl l).

(** DebugInfo.cpp:55-61 getStructTypeName: 7 characters are taken off, and what follows the last
    point. *)
Fixpoint before_last_dot (s : string) : option string :=
  match s with
  | EmptyString => None
  | String c s' =>
    match before_last_dot s' with
    | Some b => Some (String c b)
    | None => if Ascii.eqb c "."%char then Some EmptyString else None
    end
  end.
Definition c_name (s : string) : string :=
  let s := drop 7 s in match before_last_dot s with Some b => b | None => s end.

(** ** Which names are noted *)
(** The debug info of a module: its composite types in their order.  DebugInfo.cpp:63-75
    getStructTypeInfo takes the first with the name. *)
Definition dinfo := list (string * list dmember).
(** IndexMaps and StructFieldNames (DebugInfo.h:41-42, 68, 89); no type: the null pointer. *)
Record noted := mkNoted { n_maps : dict (nat * Z) Z; n_names : dict (option nat * Z) string }.
Definition nothing : noted := mkNoted [] [].
(** std::map::insert keeps what is there. *)
Definition insert_name (d : dict (option nat * Z) string) (k : option nat * Z) (n : string) : dict (option nat * Z) string :=
  if dmem d k then d else dset d k n.

Section Note.
  Variable W : types.
  Variables dfirst dsecond : dinfo.
  Variable by_name : string -> option nat.      (* getTypeByName in the second module *)

  (** DebugInfo.cpp:112-182: one index of a GEP, of the structure type [s]; [o]: the structure type
      in the GEP of the other module.  Whether the rest of the body of the loop is passed over
      (continue). *)
  Definition note_index (s : nat) (i : index) (o : option nat) (st : noted) : noted * bool :=
    match i with
    | Var _ => (st, false)
    | Cst _ v =>
      if dmem (n_maps st) (s, v) then (st, true)
      else
        let st := mkNoted (dset (n_maps st) (s, v) v) (n_names st) in
        if String.eqb (s_name W s) "" then (st, true)
        else
          match dget dfirst (c_name (s_name W s)) with
          | None => (st, true)
          | Some d1 =>
            let n := name_at d1 v in
            match dget dsecond (c_name (s_name W s)) with
            | None => (st, true)
            | Some d2 =>
              let j := (member_index d2 n) mod 2^64 in
              if 0 <? j then
                let maps := if Z.eqb v j then n_maps st else dset (n_maps st) (s, v) (j mod 2^32) in
                let names := insert_name (n_names st) (Some s, v) n in
                let second := match o with Some t => Some t | None => by_name (s_name W s) end in
                (mkNoted maps (insert_name names (second, j) n), false)
              else (st, false)
            end
          end
    end.

  (** DebugInfo.cpp:79-190 extractAlignmentFromInstructions.  [done]: what is in indices at the
      start of the body: after a step the *next* index is added (:91-92).  [other]: the
      source type of the other GEP and its indices that are left, [seen] those that are in
      indicesOther. *)
  Fixpoint note_indices (t : ty) (l done : list index) (other : option (ty * list index)) (seen : list index) (st : noted) : noted :=
    match l with
    | [] => st
    | i :: l' =>
      let next := match l' with [] => done | k :: _ => done ++ [k] end in
      match indexed_type W t done with
      | Some (Struct s) =>
        let o := match other with
                 | Some (ot, _) => match indexed_type W ot seen with Some (Struct u) => Some u | _ => None end
                 | None => None
                 end in
        let '(st', continue) := note_index s i o st in
        if continue then note_indices t l' next other seen st'
        else
          match other with
          | Some (ot, k :: rest) => note_indices t l' next (Some (ot, rest)) (seen ++ [k]) st'
          | _ => note_indices t l' next other seen st'
          end
      | _ => note_indices t l' next other seen st
      end
    end.
  Definition note_gep (g : option gep) (o : option gep) (st : noted) : noted :=
    match g with
    | None => st
    | Some g => note_indices (g_type g) (g_idx g) [] (option_map (fun o => (g_type o, g_idx o)) o) [] st
    end.

  (** DebugInfo.cpp:203-254 calculateGEPIndexAlignments: instruction by instruction and block by
      block in the order they have; an instruction is here its GEP, if it is one. *)
  Fixpoint note_block (b o : list (option gep)) (st : noted) : noted :=
    match b with
    | [] => st
    | g :: b' => note_block b' (tl o) (note_gep g (match o with x :: _ => x | [] => None end) st)
    end.
  Fixpoint note_blocks (bs os : list (list (option gep))) (st : noted) : noted :=
    match bs with
    | [] => st
    | b :: bs' => note_blocks bs' (tl os) (note_block b (match os with x :: _ => x | [] => [] end) st)
    end.
  Definition body := list (list (option gep)).
  Definition note_function (second : dict string body) (called : list string) (st : noted) (f : string * body) : noted :=
    match dget second (fst f) with
    | Some os => if mem (fst f) called then note_blocks (snd f) os st else st
    | None => st
    end.
  Definition note_all (first second : dict string body) (called : list string) : noted :=
    match dfirst, dsecond with
    | [], _ | _, [] => nothing
    | _, _ => fold_left (note_function second called) first nothing
    end.
End Note.

(** ** Comparing GEPs *)
Section Geps.
  Variable W : types.
  Variable names : dict (option nat * Z) string.
  Variable same_value : index -> index -> bool.    (* cmpValues gives 0 *)
  Variable same_type : ty -> ty -> bool.           (* cmpTypes gives 0 *)
  Variable offset : gep -> option Z.               (* accumulateConstantOffset *)
  Variable enum_index : index -> option bool.      (* getVariableTypeInfo, and if it is an enumeration *)
  Variable struct_alignment : bool.                (* config.Patterns.StructAlignment *)

  Fixpoint all_same (l r : list index) : bool :=
    match l, r with
    | a :: l', b :: r' => same_value a b && all_same l' r'
    | _, _ => true
    end.
  (** llvm-lib/15/FunctionComparator.cpp:698-727 cmpGEPs *)
  Definition base_geps (l r : gep) : bool :=
    if negb (Z.eqb (g_space l) (g_space r)) then false
    else
      match offset l, offset r with
      | Some x, Some y => Z.eqb x y
      | _, _ => same_type (g_type l) (g_type r)
                && Nat.eqb (length (g_idx l)) (length (g_idx r))
                && all_same (g_base l :: g_idx l) (g_base r :: g_idx r)
      end.

  Definition constant (i : index) : bool := match i with Cst _ _ => true | Var _ => false end.
  (** DifferentialFunctionComparator.cpp:191-201: the names noted for two members, and equal *)
  Definition same_names (s t : nat) (i j : index) : bool :=
    match i, j with
    | Cst _ x, Cst _ y =>
      match dget names (Some s, x), dget names (Some t, y) with
      | Some a, Some b => String.eqb a b
      | _, _ => false
      end
    | _, _ => false
    end.
  (** DifferentialFunctionComparator.cpp:155-207: [dl] and [dr] are the indices that were already
      compared.  A type that is not there (an index past the end) is a null pointer that the
      code follows: here it is no structure. *)
  Fixpoint same_indices (tl tr : ty) (l r dl dr : list index) : bool :=
    match l, r with
    | i :: l', j :: r' =>
      let same :=
        match indexed_type W tl dl, indexed_type W tr dr with
        | Some (Struct s), Some (Struct t) => if same_names s t i j then true else same_value i j
        | _, _ => same_value i j
        end in
      if same then same_indices tl tr l' r' (dl ++ [i]) (dr ++ [j]) else false
    | _, _ => true
    end.

  (** DifferentialFunctionComparator.cpp:84-218 cmpGEPs *)
  Definition cmp_geps (l r : gep) : bool :=
    let original := base_geps l r in
    if negb struct_alignment then original
    else if original then true
    else
      match g_type l, g_type r with
      | Array n e, Array m f =>
        match g_idx l, g_idx r with
        | [i0; i], [j0; j] =>
          if Z.eqb n m then false
          else if negb (same_type e f) then false
          else if negb (all_same [g_base l; i0; i] [g_base r; j0; j]) then false
          else match enum_index i, enum_index j with Some true, Some true => true | _, _ => false end
        | _, _ => false
        end
      | Struct s, Struct t =>
        if negb (String.eqb (c_name (s_name W s)) (c_name (s_name W t))) then false
        else if negb (Z.eqb (g_space l) (g_space r)) then false
        else if negb (Nat.eqb (length (g_idx l)) (length (g_idx r))) then false
        else if forallb constant (g_idx l) && forallb constant (g_idx r) then
          if negb (g_inst l && g_inst r) then false
          else same_indices (g_type l) (g_type r) (g_idx l) (g_idx r) [] []
        else
          match g_idx l, g_idx r with [i], [j] => same_value i j | _, _ => false end
      | _, _ => false
      end.
End Geps.

(** ** Constants from macros and enumerations *)
(** A constant: its type and, if it is an integer, its value (signed). *)
Record constant_of := mkConst { c_type : string; c_value : option Z }.
Definition constant_eqb (a b : constant_of) : bool := String.eqb (c_type a) (c_type b) && opt_eqb (c_value a) (c_value b).
Lemma constant_eqb_spec a b : reflect (a = b) (constant_eqb a b).
Proof.
  destruct a as [t v], b as [u w]. unfold constant_eqb. cbn [c_type c_value].
  destruct (String.eqb_spec t u) as [->|N]; [|constructor; congruence].
  destruct (opt_eqb_spec v w) as [->|N]; constructor; congruence.
Qed.
#[export] Instance EqB_constant : EqB constant_of := {| eqb := constant_eqb; eqb_spec := constant_eqb_spec |}.

Section Macros.
  Variable show : Z -> string.                       (* APInt::toString in base 10, signed *)
  (** A compile unit: names and values of its macros, and then of its enumerators, in their order;
      the value of an enumerator is its text (:505-513 getEnumValue, unsigned). *)
  Variables units_first units_second : list (list (string * string)).
  (** std::set of pointers: which constant comes first is not known *)
  Variable begin : list constant_of -> option constant_of.

  (** Utils.cpp:280-287 valueAsString *)
  Definition as_string (c : constant_of) : string := match c_value c with Some z => show z | None => "" end.

  (** DebugInfo.cpp:389-412 collectMacrosWithValue *)
  Definition use (d : dict string (list constant_of)) (name : string) (c : constant_of) : dict string (list constant_of) :=
    dset d name (set_add c (match dget d name with Some l => l | None => [] end)).
  Definition collect (d : dict string (list constant_of)) (c : constant_of) : dict string (list constant_of) :=
    if String.eqb (as_string c) "" then d
    else fold_left (fun d m => if String.eqb (snd m) (as_string c) then use d (fst m) c else d) (concat units_first) d.
  (** DebugInfo.cpp:442-450 addAlignment; the constants of a set in another order than theirs: they
      are different keys. *)
  Definition emplace (d : dict constant_of string) (c : constant_of) (v : string) : dict constant_of string :=
    if dmem d c then d else dset d c v.
  Definition add_alignment (usage : dict string (list constant_of)) (d : dict constant_of string) (m : string * string) : dict constant_of string :=
    match dget usage (fst m) with
    | Some cs =>
      match begin cs with
      | Some c => if String.eqb (as_string c) (snd m) then d else fold_left (fun d c => emplace d c (snd m)) cs d
      | None => d
      end
    | None => d
    end.
  (** DebugInfo.cpp:341-384 calculateMacroAlignments.  [first]: the constants of each function of the
      first module; [has_types]: both modules have types in their debug info. *)
  Definition used (first : dict string (list constant_of)) (second called : list string) : list constant_of :=
    flat_map (fun f => if mem (fst f) second && mem (fst f) called then snd f else []) first.
  Definition macro_map (has_types : bool) (first : dict string (list constant_of)) (second called : list string) : dict constant_of string :=
    if negb has_types then []
    else
      let usage := fold_left collect (used first second called) [] in
      fold_left (add_alignment usage) (concat units_second) [].
  (** DifferentialFunctionComparator.cpp:1551-1558: constants that the comparison found different *)
  Definition by_macro (d : dict constant_of string) (l r : constant_of) : bool :=
    match dget d l with Some v => String.eqb v (as_string r) | None => false end.
End Macros.
