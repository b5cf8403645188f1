(** * The semantic tool: llreve, z3, the timer and the tool itself, in any order
    (diffkemp/semdiff/function_diff.py:12-15 [_kill], 50-118 [_run_llreve_z3], 121-157 [functions_semdiff];
    diffkemp/llvm_ir/llvm_module.py:203-212 [get_functions_called_by]).  What is made of z3's lines is [llreve_verdict] of Driver_Model. *)
From Coq Require Import String ZArith Arith Bool List.
From Verif Require Import PyBase Result_Model Driver_Model Compare_Model.
Import ListNotations.
Open Scope list_scope.

(** What z3 does: it reads a piece of its input, or writes a line.  Simplified: what it does is given from the start (for the input it
    gets), and a line is written as a whole, when there is room for all of it. *)
Inductive action := Read | Write (line : string).
Inductive z3_state := Running (todo : list action) | Exited (code : Z).
(** function_diff.py:93 waiting for z3, 107 (about to look at the timer), 116 *)
Inductive parent_state := Waiting | Checking (k : kind) | Done (k : kind).
Record system := mkSystem {
  llreve : option (list nat);  (* sizes of what it will still write; [None]: ended *)
  between : list nat;          (* what is in the pipe to z3 *)
  z3 : z3_state;
  out : list string;           (* what is in the pipe from z3 *)
  fired : bool;
  parent : parent_state }.
Definition total (l : list nat) : nat := fold_right plus 0 l.
Definition size (ls : list string) : nat := total (map String.length ls).
(** function_diff.py:84-92 both processes and the timer are started *)
Definition start (writes : list nat) (todo : list action) : system := mkSystem (Some writes) [] (Running todo) [] false Waiting.

Section Steps.
  Context (room : nat).  (* of a pipe *)
  Context (code : Z).    (* the exit code of z3 if nobody kills it *)
  Inductive step : system -> system -> Prop :=
  | Llreve_writes c rest b z o t p : total b + c <= room -> step (mkSystem (Some (c :: rest)) b z o t p) (mkSystem (Some rest) (b ++ [c]) z o t p)
  | Llreve_ends b z o t p : step (mkSystem (Some []) b z o t p) (mkSystem None b z o t p)
  | Z3_reads l c b todo o t p : step (mkSystem l (c :: b) (Running (Read :: todo)) o t p) (mkSystem l b (Running todo) o t p)
  | Z3_at_end todo o t p : step (mkSystem None [] (Running (Read :: todo)) o t p) (mkSystem None [] (Running todo) o t p)
  | Z3_writes l b line todo o t p : size o + String.length line <= room ->
      step (mkSystem l b (Running (Write line :: todo)) o t p) (mkSystem l b (Running todo) (o ++ [line]) t p)
  | Z3_ends l b o t p : step (mkSystem l b (Running []) o t p) (mkSystem l b (Exited code) o t p)
  (* function_diff.py:12-15, 89: the timer kills both, until it is cancelled (116) *)
  | Timer_fires l b z o p : (forall k, p <> Done k) ->
      step (mkSystem l b z o false p) (mkSystem None b (match z with Running _ => Exited (-9) | e => e end) o true p)
  (* function_diff.py:93-105: z3 has ended, all its lines are read *)
  | Parent_reads l b c o t : step (mkSystem l b (Exited c) o t Waiting) (mkSystem l b (Exited c) [] t (Checking (llreve_verdict (map strip o) c true)))
  (* function_diff.py:106-118: whether the timer is alive *)
  | Parent_ends l b z o t k : step (mkSystem l b z o t (Checking k)) (mkSystem l b z o t (Done (if t then TIMEOUT else k))).
  (** Any number of steps *)
  Inductive steps : nat -> system -> system -> Prop :=
  | Steps_none s : steps 0 s s
  | Steps_more n s s1 s2 : step s s1 -> steps n s1 s2 -> steps (S n) s s2.
End Steps.

(** llvm_module.py:203-212 [get_functions_called_by]: [called] is what SimpLL finds, [None] if there is no such function *)
Definition supported : list string := ["llvm.dbg.value"; "llvm.dbg.declare"]%string.
Definition called_by (called : string -> option (list string)) (f : string) : option (list string) :=
  match called f with Some cs => Some (filter (fun c => negb (mem c (f :: supported))) cs) | None => None end.
(** function_diff.py:147-156: the functions coupled, in the order of the sets; without the function, None is iterated over *)
Definition couplings (first second : string -> option (list string)) (f g : string) : res (list (string * string)) :=
  match called_by first f, called_by second g with
  | Some fs, Some gs => Ok (flat_map (fun a => map (fun b => (a, b)) (filter (String.eqb a) gs)) fs)
  | Some [], None => Ok []
  | _, _ => Err TypeError
  end.
(** function_diff.py:76-82 the command *)
Definition command (first second f g : string) (coupled : list (string * string)) : list string :=
  ["build/llreve/reve/reve/llreve"; first; second; "--fun=" ++ f ++ "," ++ g; "-muz"; "--ir-input"; "--bitvect"; "--infer-marks"; "--disable-auto-coupling"]%string
  ++ map (fun c => ("--couple-functions=" ++ fst c ++ "," ++ snd c)%string) coupled.
