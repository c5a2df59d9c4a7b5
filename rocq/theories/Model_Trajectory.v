(* Whole steps of a simulation on one processor: half a kick, drift, wrapping (in the steps in which the interaction handler searches), forces of the
   pairs in the lists, half a kick (gflow.cpp 159-232; integrators/velocity-verlet.tpp 11-42; interactionhandler.cpp 64-137; simdata.cpp 253-279).
   Exact real arithmetic, as in Model_Integrators. Paths under /repo/GFlowSim/src. *)
From Coq Require Import Reals List Arith.
From Verif Require Import Model_Forces Model_Integrators.
Import ListNotations.
Local Open Scope R_scope.

(* What differs from step to step: the time step, what wrapping does to the positions (nothing, in a step without a search), and the pairs in
   the lists of the interactions. *)
Record tick := mkTick { k_dt : R; k_wrap : arr -> arr; k_inter : list inter }.
(* gflow.cpp 159-232: velocity-verlet.tpp 11-27; interactionhandler.cpp 64-110 (wrapping); forcemaster.cpp 39-48; velocity-verlet.tpp 29-42 *)
Definition whole_step (s : simd) (w : world) (t : tick) (st : sys) : option sys :=
  match update_velocities s (w_dims w) (k_dt t) (w_n w * w_dims w) (w_im w) (sf st) (sv st) with
  | None => None
  | Some v1 =>
    match update_positions s (k_dt t) (w_n w * w_dims w) v1 (sx st) with
    | None => None
    | Some x1 =>
      let x2 := k_wrap t x1 in
      match pair_field w (k_inter t) x2 v1 with
      | None => None
      | Some f1 => option_map (fun v2 => mkSys x2 v2 f1) (update_velocities s (w_dims w) (k_dt t) (w_n w * w_dims w) (w_im w) f1 v1)
      end
    end
  end.
(* gflow.cpp 104-262 run *)
Fixpoint whole_run (s : simd) (w : world) (ts : list tick) (st : sys) : option sys :=
  match ts with
  | [] => Some st
  | t :: rest => match whole_step s w t st with Some st1 => whole_run s w rest st1 | None => None end
  end.
