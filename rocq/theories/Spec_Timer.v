(* Vocabulary for stopwatches (C51): the interval that a stop call ends begins at the start call before it, if no other start or stop call
   lies between the two. *)
From Coq Require Import QArith List Bool.
From Verif Require Import Model_Timer.
Import ListNotations.
Local Open Scope Q_scope.

(* the reading of the start call that a stop call after these calls (latest first) would match *)
Fixpoint open_since (before : list call) : option Q :=
  match before with
  | [] => None
  | Start a :: _ => Some a
  | Stop _ :: _ => None
  | Clear :: t => open_since t
  | Switch _ :: t => open_since t
  end.
(* the length of the interval that call number j of h ends, 0 if it ends none *)
Definition span (h : list call) (j : nat) : Q :=
  match nth_error h j with
  | Some (Stop b) => match open_since (rev (firstn j h)) with Some a => b - a | None => 0 end
  | _ => 0
  end.
Definition is_clear (c : call) : bool := match c with Clear => true | _ => false end.
(* the sum of the intervals that ended after the last clear call *)
Definition total (h : list call) : Q :=
  fold_right (fun j s => (if existsb is_clear (skipn (S j) h) then 0 else span h j) + s) 0 (seq 0 (length h)).
(* the calls that are not ignored: start and stop calls while timing was switched off are *)
Fixpoint heard (on : bool) (h : list call) : list call :=
  match h with
  | [] => []
  | Switch b :: t => heard b t
  | Clear :: t => Clear :: heard on t
  | c :: t => if on then c :: heard on t else heard on t
  end.
(* clock readings in the order of the calls *)
Fixpoint readings (h : list call) : list Q :=
  match h with [] => [] | Start a :: t => a :: readings t | Stop a :: t => a :: readings t | _ :: t => readings t end.
(* the run timer as a stopwatch *)
Definition as_calls (c : runcall) : list call :=
  match c with RStart a => [Start a] | REnd a => [Stop a] | RMark a b => [Stop a; Start b] | RReset => [Clear] end.
