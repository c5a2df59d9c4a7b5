(* Vocabulary for C30 with periodic boundaries: positions up to whole widths of the simulation; steps with wrapping in between. *)
From Coq Require Import Reals List Arith ZArith.
From Verif Require Import Model_Forces Model_Integrators.
Import ListNotations.
Local Open Scope R_scope.

(* Positions y and x are the same places: each coordinate of y is that of x plus a whole number of widths of its axis. A width of zero: the axis is
   not periodic, the coordinates are equal. *)
Definition same_place (dims : nat) (widths : arr) (x y : arr) : Prop :=
  length y = length x /\ forall k, exists z : Z, nth k y 0 = nth k x 0 + IZR z * nth (k mod dims) widths 0.
(* m steps; before each step, and after the last one, positions may be replaced by the same places (gflow.cpp wrapPositions does so when neighbours are
   searched; with forces that are the same for the same places it does not matter whether this happens before or after the forces are computed). *)
Inductive wrapped_steps (s : simd) (dims n : nat) (im widths : arr) (dt : R) (g : arr -> arr) : nat -> sys -> sys -> Prop :=
| wrapped_end x st : same_place dims widths (sx st) x -> wrapped_steps s dims n im widths dt g 0 st (mkSys x (sv st) (sf st))
| wrapped_step m x st st1 st2 : same_place dims widths (sx st) x ->
    vv_step s dims n im dt (fun x _ => Some (g x)) (mkSys x (sv st) (sf st)) = Some st1 ->
    wrapped_steps s dims n im widths dt g m st1 st2 -> wrapped_steps s dims n im widths dt g (S m) st st2.
