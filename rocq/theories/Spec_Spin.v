(* Specification vocabulary for rotation and friction. *)
From Coq Require Import Reals Arith.
From Verif Require Import Model_Forces Spec_Forces.
Local Open Scope R_scope.

(* The moment of inertia of a disk of mass 1/im and radius sg about its centre. *)
Definition inertia (im sg : R) : R := 1 / 2 * (1 / im) * (sg * sg).

(* Angular acceleration under the torque tq; particles of infinite mass do not turn. *)
Definition acceleration (im sg tq : R) : R := if Req_EM_T im 0 then 0 else tq / inertia im sg.

(* Vectors of the plane; z component of the vector product, and the velocity om x u of a point at u from the centre of rotation. *)
Definition cross (u v : vec) : R := u 0%nat * v 1%nat - u 1%nat * v 0%nat.
Definition spin_at (om : R) (u : vec) : vec := fun d => match d with O => - (om * u 1%nat) | _ => om * u 0%nat end.
Definition vadd (u v : vec) : vec := fun d => u d + v d.
(* n: unit vector from particle j to particle i. The surfaces touch at -R_i n from the centre of i and R_j n from the centre of j.
   The velocity of the surface of i relative to that of j there: *)
Definition surface_velocity (e : env) (i j : nat) (n : vec) : vec :=
  vsub (vadd (e_v e i) (spin_at (e_om e i) (vscale (- e_sg e i) n))) (vadd (e_v e j) (spin_at (e_om e j) (vscale (e_sg e j) n))).
(* the direction along the surfaces *)
Definition tangent (n : vec) : vec := fun d => match d with O => - n 1%nat | _ => n 0%nat end.
(* The reduced mass of two particles of finite masses; 1 if one of them is immovable (as the code has it). *)
Definition reduced_mass (im0 im1 : R) : R := if Req_EM_T im0 0 then 1 else if Req_EM_T im1 0 then 1 else 1 / (im0 + im1).
(* Angular momentum per time that the forces f and torques q bring to the particles i and j at x, about the origin. *)
Definition pair_torque (x : nat -> vec) (f : nat -> vec) (q : nat -> R) (i j : nat) : R :=
  cross (x i) (f i) + q i + (cross (x j) (f j) + q j).
