(* Specification vocabulary for the integrators. Component d of particle i of an array is entry i * dims + d. *)
From Coq Require Import Reals List Arith.
From Verif Require Import Model_Forces Spec_Forces Model_Integrators.
Import ListNotations.
Local Open Scope R_scope.

(* Positions, velocities and forces of n particles in dims dimensions. *)
Definition shaped (n dims : nat) (st : sys) : Prop :=
  length (sx st) = (n * dims)%nat /\ length (sv st) = (n * dims)%nat /\ length (sf st) = (n * dims)%nat.
Definition reversed (st : sys) : sys := mkSys (sx st) (map Ropp (sv st)) (sf st).
(* m steps with the time step dt and forces g of the positions *)
Fixpoint steps (s : simd) (dims n : nat) (im : arr) (dt : R) (g : arr -> arr) (m : nat) (st : sys) : option sys :=
  match m with
  | O => Some st
  | S m' => match vv_step s dims n im dt (fun x _ => Some (g x)) st with Some st1 => steps s dims n im dt g m' st1 | None => None end
  end.

Definition comp (dims : nat) (a : arr) (i d : nat) : R := nth (i * dims + d) a 0.
(* The d-th component of the momentum (im: inverse masses). *)
Definition momentum (dims n : nat) (im v : arr) (d : nat) : R := sum_to n (fun i => comp dims v i d / nth i im 0).
(* The angular momentum in the plane of the axes a and b. *)
Definition angular (dims n : nat) (im x v : arr) (a b : nat) : R :=
  sum_to n (fun i => (comp dims x i a * comp dims v i b - comp dims x i b * comp dims v i a) / nth i im 0).
Definition torque (dims n : nat) (x f : arr) (a b : nat) : R :=
  sum_to n (fun i => comp dims x i a * comp dims f i b - comp dims x i b * comp dims f i a).
(* The pairs of an interaction are pairs of particles. *)
Definition pairs_ok (n : nat) (it : inter) : Prop := forall i j, In (i, j) (i_p0 it ++ i_p1 it) -> (i < n)%nat /\ (j < n)%nat.

(* ---- time steps *)
(* Same settings (everything but the time step, the counter and the mean radius). *)
Definition same_settings (J K : integ) : Prop :=
  i_adjust J = i_adjust K /\ i_min J = i_min K /\ i_max J = i_max K /\ i_target J = i_target K /\ i_delay J = i_delay K /\ i_usev J = i_usev K /\ i_usea J = i_usea K.
(* The processors have the same settings, time step and counter. *)
Definition agree (Js : list integ) : Prop := forall J K, In J Js -> In K Js -> same_settings J K /\ i_dt J = i_dt K /\ i_count J = i_count K.
(* What one processor sees in one step: the largest velocity and the largest acceleration. *)
Definition seen := (R * R)%type.
(* The steps of a primary integrator on one processor; None: the time step became NaN. *)
Fixpoint alone (ms : list seen) (J : integ) : option integ :=
  match ms with
  | [] => Some J
  | (v, a) :: ms' => match single_step (pre_step true v a J) with Some J1 => alone ms' J1 | None => None end
  end.
(* The steps of several processors: each element of ms gives what each processor sees in that step. None: stuck. *)
Fixpoint together (ms : list (list seen)) (Js : list integ) : option (list integ) :=
  match ms with
  | [] => Some Js
  | m :: ms' => match sync_step (map (fun p => pre_step true (fst (fst p)) (snd (fst p)) (snd p)) (combine m Js)) with
                | Some Js1 => together ms' Js1 | None => None end
  end.
