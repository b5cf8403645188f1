(** * Model of the log of comparisons (diffkemp/simpll/Logger.cpp, Logger.h)
    with debugging output for differences on (-vv); [extra] is whether all debugging output is on. *)
From Coq Require Import String Arith Bool List.
Import ListNotations.
Open Scope list_scope.

Section Log.
  (** What is printed about a comparison: its label and both values. *)
  Variable text : Type.
  Variable extra : bool.   (* isCurrentDebugType(DEBUG_SIMPLL_VERBOSE_EXTRA) *)

  (** Logger.h BufferMessage; [None] is an erased label. *)
  Record message := mkMessage { force_kept : bool; m_level : nat; label : option text }.
  (** The buffer has the last message first.  [printed] is the debugging output, with the indentation. *)
  Record logger := mkLogger { level : nat; buffer : list message; printed : list (nat * text) }.
  Definition init : logger := mkLogger 0 [] [].

  (** Logger.h: PREP_LOG; LOG_KEEP, LOG_KEEP_FORCE and the macros that return. *)
  Inductive event := Prepare (t : text) | Finish (keep force : bool).

  (** Logger.cpp:40-49 *)
  Fixpoint mark (lv : nat) (keep : bool) (b : list message) : list message :=
    match b with
    | [] => []
    | m :: b' =>
      if Nat.eqb lv (m_level m) then mkMessage true (m_level m) (label m) :: b'
      else (if negb keep && negb (force_kept m) then mkMessage true (m_level m) None else m) :: mark lv keep b'
    end.
  (** Logger.cpp:57-62 *)
  Fixpoint pop_children (lv : nat) (b : list message) : list message :=
    match b with [] => [] | m :: b' => if Nat.ltb lv (m_level m) then pop_children lv b' else b end.
  (** Logger.cpp:66-77 dump *)
  Definition dump (b : list message) : list (nat * text) :=
    flat_map (fun m => match label m with Some t => [(m_level m, t)] | None => [] end) (rev b).
  (** Logger.cpp:34-64 log; simplified: the level is not decreased below 0. *)
  Definition finish (s : logger) (keep force : bool) : logger :=
    let force_keep := force && extra in
    let lv := pred (level s) in
    let b := if force_keep then mark lv keep (buffer s) else buffer s in
    let keep := keep || force_keep in
    if Nat.eqb lv 0 then mkLogger lv [] (printed s ++ (if keep then dump b else []))
    else mkLogger lv (if keep then b else tl (pop_children lv b)) (printed s).
  (** Logger.cpp:22-28 prepLog, prepContext *)
  Definition step (s : logger) (e : event) : logger :=
    match e with
    | Prepare t => mkLogger (S (level s)) (mkMessage false (level s) (Some t) :: buffer s) (printed s)
    | Finish keep force => finish s keep force
    end.
  Definition run (s : logger) (es : list event) : logger := fold_left step es s.
End Log.
Arguments Prepare {text}. Arguments Finish {text}. Arguments mkMessage {text}. Arguments mkLogger {text}.
Arguments level {text}. Arguments buffer {text}. Arguments printed {text}. Arguments force_kept {text}. Arguments m_level {text}. Arguments label {text}.
