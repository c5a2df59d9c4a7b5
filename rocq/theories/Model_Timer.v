(* Stopwatches. Paths under /repo/GFlowSim/src/. Exact rationals for double and for clock readings in seconds. The clock reading that a call
   takes is an argument of the call. *)
From Coq Require Import QArith List Bool.
Import ListNotations.
Local Open Scope Q_scope.

(* utility/timer.hpp 40-48: _s, _t, _last_t, _running (_s is not initialised; it is only read when _running) *)
Record timer := mkT { t_s : Q; t_total : Q; t_last : Q; t_running : bool }.
Definition timer0 : timer := mkT 0 0 0 false.
(* utility/timer.cpp 5-8 *)
Definition tm_start (now : Q) (t : timer) : timer := mkT now (t_total t) (t_last t) true.
(* utility/timer.cpp 10-17 *)
Definition tm_stop (now : Q) (t : timer) : timer :=
  if t_running t then mkT (t_s t) (t_total t + (now - t_s t)) (now - t_s t) false else t.
(* utility/timer.cpp 19-21 *)
Definition tm_clear (t : timer) : timer := mkT (t_s t) 0 (t_last t) (t_running t).
(* utility/timer.cpp 31-37 *)
Definition tm_current (now : Q) (t : timer) : Q := if t_running t then t_total t + (now - t_s t) else t_total t.

(* The calls on a timer of other/timedobject.cpp; Switch is setTimingOn (30-32), which acts on all timers *)
Inductive call := Start (now : Q) | Stop (now : Q) | Clear | Switch (on : bool).
(* other/timedobject.cpp 8-18 start_timer, stop_timer, clear_timer *)
Definition timed_step (s : bool * timer) (c : call) : bool * timer :=
  let '(on, t) := s in
  match c with
  | Start now => (on, if on then tm_start now t else t)
  | Stop now => (on, if on then tm_stop now t else t)
  | Clear => (on, tm_clear t)
  | Switch b => (b, t)
  end.
(* other/timedobject.cpp 6: timing is on at first *)
Definition timed_run (h : list call) : bool * timer := fold_left timed_step h (true, timer0).

(* ---------- base/datamaster.cpp: the run timer and run_time (datamaster.hpp: 0 at first) *)
Inductive runcall := RStart (now : Q) | REnd (now : Q) | RMark (now1 now2 : Q) | RReset.
Definition run_step (s : timer * Q) (c : runcall) : timer * Q :=
  let '(t, run) := s in
  match c with
  | RStart now => (tm_start now t, run)                                              (* 37-39 *)
  | REnd now => let t := tm_stop now t in (tm_clear t, run + t_total t)              (* 42-46 *)
  | RMark now1 now2 => let t := tm_stop now1 t in (tm_start now2 (tm_clear t), run + t_total t)   (* 48-53 *)
  | RReset => (t, 0)                                                                 (* 287-289 resetTimer *)
  end.
Definition run_run (h : list runcall) : timer * Q := fold_left run_step h (timer0, 0).
(* 65 pre_integrate, 152 post_integrate; 172 writeToDirectory and 379 writeSummary, which writeToDirectory calls *)
Definition one_run (a b : Q) : list runcall := [RStart a; REnd b].
Definition one_write (a b c : Q) : list runcall := [REnd a; RMark b c].
