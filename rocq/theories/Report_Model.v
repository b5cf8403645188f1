(** * Model of the way of SimpLL's results to the tool: Output.cpp, Result.h, library/FFI.cpp, simpll.py
    The results are those of Modcomp_Model, what the tool reads is that of Graph_Model.  Simplified: the text in between is not
    modelled as a format; both YAML libraries are taken to agree on the strings and numbers that occur. *)
From Coq Require Import String Ascii ZArith Arith Bool List.
From Verif Require Import PyBase Source_Model Modcomp_Model Graph_Model.
Import ListNotations.
Open Scope list_scope.

(** Output.cpp:98-105 *)
Definition verdict_text (k : verdict) : string :=
  match k with
  | Modcomp_Model.EQUAL => "equal"
  | Modcomp_Model.NOT_EQUAL => "not-equal"
  | Modcomp_Model.ASSUMED_EQUAL => "assumed-equal"
  | Modcomp_Model.UNKNOWN => "unknown"
  end%string.
(** Result.h:47-48: the calls of a function are a std::set ordered by their names. *)
Fixpoint insert_call (c : string * (Z * bool)) (l : dict string (Z * bool)) : dict string (Z * bool) :=
  match l with
  | [] => [c]
  | d :: l' => if String.leb (fst c) (fst d) then c :: l else d :: insert_call c l'
  end.
Definition in_set_order (l : dict string (Z * bool)) : dict string (Z * bool) := fold_right insert_call [] l.
(** Output.cpp:25-32; Result.h:76-78: the file of a call is that of the function with the call. *)
Definition write_call (file : string) (c : string * (Z * bool)) : ycall := mkYCall (fst c) file (fst (snd c)) (snd (snd c)).
(** Output.cpp:56-67: a line 0 and empty lists of calls are left out. *)
Definition write_info (name file : string) (line : Z) (calls : dict string (Z * bool)) : Graph_Model.yinfo :=
  mkYInfo name (Some file) (if Z.eqb line 0 then None else Some line)
    (match in_set_order calls with [] => None | l => Some (map (write_call file) l) end).

Section Report.
  Context {W F C V : Type} `{EqB F}.
  Variable E : @env W F C V nonfun.
  (** The file and line of a function, empty and 0 without debug info (Result.cpp:17-27), and the statistics of a comparison *)
  Variable file : F -> string.
  Variable line : F -> Z.
  Variable counts : F * F -> stats.
  (** Output.cpp:116-122, 73-92; every differing object is of one of the two forms. *)
  Definition write_result (e : (F * F) * @Modcomp_Model.result nonfun) : Graph_Model.yresult :=
    let '((l, r), x) := e in
    mkYResult (verdict_text (r_kind x)) (write_info (e_name E l) (file l) (line l) (r_left x)) (write_info (e_name E r) (file r) (line r) (r_right x))
      (counts (l, r)) (map YNonfun (r_objects x)).
  (** Output.cpp:127-141; a variable has a name, too.  An empty name is left out. *)
  Variable var_name : V -> string.
  Definition write_missing (p : option (@value F V) * option (@value F V)) : option string * option string :=
    let name v := match v with Some (VFun f) => Some (e_name E f) | Some (VVar x) => Some (var_name x) | None => None end in
    let text n := match n with Some EmptyString => None | n => n end in
    (text (name (fst p)), text (name (snd p))).
  (** ModuleAnalysis.cpp:195-213, Output.cpp:147-155, 159-169 *)
  Definition report (n : nat) (w : W) (l r : F) : outcome (list Graph_Model.yresult * list (option string * option string)) :=
    Modcomp_Model.obind (compare_functions E n w l r) (fun res => Done (map write_result (fst (fst res)), map write_missing (snd res))).
End Report.

(** ** The buffer *)
(** Memory: a byte for every address *)
Definition memory := Z -> ascii.
(** FFI.cpp:265-266 strcpy: the text up to its first zero byte, and a zero byte *)
Fixpoint strcpy (m : memory) (a : Z) (s : string) : memory :=
  match s with
  | EmptyString => fun b => if Z.eqb b a then "000"%char else m b
  | String c s' => if Ascii.eqb c "000" then (fun b => if Z.eqb b a then "000"%char else m b) else strcpy (fun b => if Z.eqb b a then c else m b) (a + 1) s'
  end.
(** ffi.string (simpll.py:97, 113): the bytes up to the first zero byte, at most [n] *)
Fixpoint ffi_string (n : nat) (m : memory) (a : Z) : string :=
  match n with
  | O => EmptyString
  | S n' => if Ascii.eqb (m a) "000" then EmptyString else String (m a) (ffi_string n' m (a + 1))
  end.
(** simpll.py:54 *)
Definition buffer_size : Z := 1000000.
(** FFI.cpp:237-267 and simpll.py:92-113: the memory after the run and what is read *)
Definition hand_over (m : memory) (buffer : Z) (text : string) : memory * string :=
  let m' := strcpy m buffer text in (m', ffi_string (Z.to_nat buffer_size) m' buffer).
