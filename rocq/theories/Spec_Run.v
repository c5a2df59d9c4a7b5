(* Specification vocabulary for runs, registration and recording. *)
From Coq Require Import QArith List Bool Arith.
From Verif Require Import Model_Run.
Import ListNotations.
Local Open Scope Q_scope.

(* The sum of the first n time steps. *)
Fixpoint elapsed (evs : nat -> ev) (n : nat) : Q := match n with O => 0 | S m => elapsed evs m + e_dt (evs m) end.
(* Some object, on some processor, calls terminate() in the step. *)
Definition calls (e : ev) : Prop := In true (e_before e) \/ In true (e_after e).
(* The events are about np processors. *)
Definition about (np : nat) (evs : nat -> ev) : Prop := forall k, length (e_before (evs k)) = np /\ length (e_after (evs k)) = np.
(* At the remake of step k: an object has called terminate(), in this step before the remake or in an earlier step, or an earlier step began at time t or later. *)
Definition pending (evs : nat -> ev) (t : Q) (k : nat) : Prop := In true (e_before (evs k)) \/ exists j, (j < k)%nat /\ (t <= elapsed evs j \/ calls (evs j)).
(* A history of runs on one processor: for each run, the number of particles, the events, the time asked for and (a bound on) the number of steps. The
   elapsed times reported after the runs. *)
Record one_run := mkRun { o_fuel : nat; o_evs : nat -> ev; o_n : nat; o_time : Q }.
Fixpoint runs (h : list one_run) (s : gf) : option (list Q * gf) :=
  match h with
  | [] => Some ([], s)
  | o :: h' => match run (o_fuel o) (o_evs o) [o_n o] (o_time o) [s] with
               | Some [s1] => match runs h' s1 with Some (l, s2) => Some (g_el s1 :: l, s2) | None => None end
               | _ => None end
  end.
Definition sumQ (l : list Q) : Q := fold_right Qplus 0 l.
(* The list without repetitions, first occurrences kept, in order. *)
Fixpoint firsts (seen l : list nat) : list nat :=
  match l with [] => [] | x :: l' => if in_dec Nat.eq_dec x seen then firsts seen l' else x :: firsts (x :: seen) l' end.
(* The objects handed over by the operations of a kind, without the nulls. *)
Definition given (f : reg_op -> option (option nat)) (ops : list reg_op) : list nat :=
  flat_map (fun op => match f op with Some (Some x) => [x] | _ => [] end) ops.
(* Successive times are at least d apart. *)
Fixpoint apart (d : Q) (l : list Q) : Prop := match l with a :: ((b :: _) as l') => d <= b - a /\ apart d l' | _ => True end.
