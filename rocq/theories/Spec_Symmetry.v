(* Specification vocabulary: renumbering the particles, and seeing them from a moving place. *)
From Coq Require Import Reals List Arith.
From Verif Require Import Model_Forces Spec_Forces Model_Integrators Spec_Integrators Model_Trajectory Spec_Trajectory.
Import ListNotations.
Local Open Scope R_scope.

(* p gives each of the numbers 0..n-1 one of them, no two the same. *)
Definition renumbering (n : nat) (p : nat -> nat) : Prop := (forall i, (i < n)%nat -> (p i < n)%nat) /\ forall i j, (i < n)%nat -> (j < n)%nat -> p i = p j -> i = j.
(* Particle i of the second system is particle p i of the first: mass, radius, and the laws of its pairs; the box is the same. *)
Definition same_things (p : nat -> nat) (w : world) (ls : list law) (w' : world) (ls' : list law) : Prop :=
  w_dims w' = w_dims w /\ w_n w' = w_n w /\ w_bc w' = w_bc w /\ w_width w' = w_width w /\
  (forall i, (i < w_n w)%nat -> nth i (w_im w') 0 = nth (p i) (w_im w) 0 /\ nth i (w_sg w') 0 = nth (p i) (w_sg w) 0) /\
  Forall2 (fun l l' => l_kind l' = l_kind l /\ l_cut l' = l_cut l /\ forall i j, (i < w_n w)%nat -> (j < w_n w)%nat -> l_for l' i j = l_for l (p i) (p j)) ls ls'.
(* ... its position (moved by a), its velocity (with u added) and the force on it. *)
Definition same_state (p : nat -> nat) (a u : vec) (n dims : nat) (st st' : sys) : Prop :=
  shaped n dims st /\ shaped n dims st' /\
  forall i d, (i < n)%nat -> (d < dims)%nat ->
    comp dims (sx st') i d = comp dims (sx st) (p i) d + a d /\ comp dims (sv st') i d = comp dims (sv st) (p i) d + u d /\ comp dims (sf st') i d = comp dims (sf st) (p i) d.
(* Wrapping that changes each coordinate by itself, in the same way for all particles. *)
Definition each_by_itself (n dims : nat) (wrap : arr -> arr) (g : nat -> R -> R) : Prop :=
  forall x, length x = (n * dims)%nat -> length (wrap x) = (n * dims)%nat /\ forall i d, (i < n)%nat -> (d < dims)%nat -> comp dims (wrap x) i d = g d (comp dims x i d).
Definition same_clock (n dims : nat) (t t' : tick) : Prop := k_dt t' = k_dt t /\ exists g, each_by_itself n dims (k_wrap t) g /\ each_by_itself n dims (k_wrap t') g.
Definition open_clock (t t' : tick) : Prop := k_dt t' = k_dt t /\ (forall x, k_wrap t x = x) /\ (forall x, k_wrap t' x = x).
Definition duration (ts : list tick) : R := sum_over k_dt ts.
