(* Rotation of particles in two dimensions: src/integrators/angularvelocityverlet2d.cpp, and how often it runs (gflow.cpp,
   interactions/generic-forces.hpp); paths under /repo/GFlowSim/src. Exact reals for RealType. An array is the function of its
   places; size: SimData::size_owned. Division by a radius 0 is not followed (as / in Coq). *)
From Coq Require Import Reals Arith Bool.
Local Open Scope R_scope.

Definition set_at (i : nat) (y : R) (a : nat -> R) : nat -> R := fun k => if (k =? i)%nat then y else a k.

(* lines 90-119: one half kick. simd = 0: compiled without SIMD instructions (utility/simd.hpp 35-49; the Makefile names no
   instruction set), else the number of places of a simd vector. fuel bounds the number of rounds. *)
(* 96-100 *)
Fixpoint kick_plain (fuel i size : nat) (hdt : R) (im sg tq om : nat -> R) : nat -> R :=
  match fuel with
  | O => om
  | S f => if (i <? size)%nat then
             let iII := 2 * im i / (sg i * sg i) in
             kick_plain f (i + 2) size hdt im sg tq (set_at i (om i + hdt * iII * tq i) om)
           else om
  end.
(* 107-118: one vector, the places i .. i+w-1 at once *)
Definition kick_vector (i w : nat) (dt : R) (im sg tq om : nat -> R) : nat -> R :=
  fun k => if ((i <=? k) && (k <? i + w))%nat then om k + dt * (im k / (sg k * sg k)) * tq k else om k.
(* 119-123: left overs *)
Fixpoint kick_rest (fuel i size : nat) (dt : R) (im sg tq om : nat -> R) : nat -> R :=
  match fuel with
  | O => om
  | S f => if (i <? size)%nat then
             kick_rest f (i + 1) size dt im sg tq (set_at i (om i + dt * (im i / (sg i * sg i)) * tq i) om)
           else om
  end.
(* 106: i <= size - simd_data_size, with signed numbers *)
Fixpoint kick_simd (fuel i w size : nat) (dt : R) (im sg tq om : nat -> R) : nat -> R :=
  match fuel with
  | O => om
  | S f => if (i + w <=? size)%nat then kick_simd f (i + w) w size dt im sg tq (kick_vector i w dt im sg tq om)
           else kick_rest (S size) i size dt im sg tq om
  end.
(* 79-125 update_velocity: dims = 2, Om and Tq exist. *)
Definition update_velocity (simd size : nat) (dt : R) (im sg tq om : nat -> R) : nat -> R :=
  if (size =? 0)%nat then om else
  let hdt := 1 / 2 * dt in
  if (simd =? 0)%nat then kick_plain (S size) 0 size hdt im sg tq om
  else kick_simd (S size) 0 simd size (2 * hdt) im sg tq om.

(* 56-76 update_position: Th exists. *)
Fixpoint turn_rest (fuel i size : nat) (dt : R) (om th : nat -> R) : nat -> R :=
  match fuel with
  | O => th
  | S f => if (i <? size)%nat then turn_rest f (i + 1) size dt om (set_at i (th i + dt * om i) th) else th
  end.
Definition turn_vector (i w : nat) (dt : R) (om th : nat -> R) : nat -> R :=
  fun k => if ((i <=? k) && (k <? i + w))%nat then th k + om k * dt else th k.
Fixpoint turn_simd (fuel i w size : nat) (dt : R) (om th : nat -> R) : nat -> R :=
  match fuel with
  | O => th
  | S f => if (i + w <=? size)%nat then turn_simd f (i + w) w size dt om (turn_vector i w dt om th)
           else turn_rest (S size) i size dt om th
  end.
Definition update_position (simd size : nat) (dt : R) (om th : nat -> R) : nat -> R :=
  if (size =? 0)%nat then th else
  if (simd =? 0)%nat then turn_rest (S size) 0 size dt om th else turn_simd (S size) 0 simd size dt om th.

(* gflow.cpp 172, 234: each of the additional integrators runs; generic-forces.hpp 674: each Hooke interaction adds one. *)
Fixpoint pre_forces (hookes simd size : nat) (dt : R) (im sg tq : nat -> R) (s : (nat -> R) * (nat -> R)) : (nat -> R) * (nat -> R) :=
  match hookes with
  | O => s
  | S h => let (om, th) := s in
           let om1 := update_velocity simd size dt im sg tq om in
           pre_forces h simd size dt im sg tq (om1, update_position simd size dt om1 th)
  end.
Fixpoint post_forces (hookes simd size : nat) (dt : R) (im sg tq : nat -> R) (s : (nat -> R) * (nat -> R)) : (nat -> R) * (nat -> R) :=
  match hookes with
  | O => s
  | S h => let (om, th) := s in post_forces h simd size dt im sg tq (update_velocity simd size dt im sg tq om, th)
  end.
(* A step: tq the torques of the step before, tq' those calculated in between (gflow.cpp 777 clears them first). *)
Definition spin_step (hookes simd size : nat) (dt : R) (im sg tq tq' : nat -> R) (s : (nat -> R) * (nat -> R)) : (nat -> R) * (nat -> R) :=
  post_forces hookes simd size dt im sg tq' (pre_forces hookes simd size dt im sg tq s).
