(* Vocabulary for data objects about groups (C117, C118, C119). *)
From Coq Require Import Reals List Permutation ZArith.
From Verif Require Import Model_Forces Spec_Forces Model_GroupMeasure Spec_GroupMeasure Model_GroupData.
Import ListNotations.
Local Open Scope R_scope.

(* In two dimensions: the moment of inertia of the members about the point c. *)
Definition inertia_about (w : world) (c : vec) (ids : list nat) : R :=
  sum_over (fun i => mass_of w i * (disp w (w_x w i) c 0%nat * disp w (w_x w i) c 0%nat + disp w (w_x w i) c 1%nat * disp w (w_x w i) c 1%nat)) ids.

(* The cosine of the angle between the bonds from particle a to b and from c to e. *)
Definition bond (w : world) (a b : nat) : vec := disp w (w_x w b) (w_x w a).
Definition cosine (w : world) (a b c e : nat) : R :=
  dot (w_dims w) (bond w a b) (bond w c e) / (norm (w_dims w) (bond w a b) * norm (w_dims w) (bond w c e)).

(* The distance of a particle from a point, and the point (relative to x) that divides the line from particle a to b as t : 1 - t. *)
Definition distance_from (w : world) (x : vec) (i : nat) : R := norm (w_dims w) (disp w (w_x w i) x).
Definition between (w : world) (x : vec) (a b : nat) (t : R) : vec :=
  fun d => disp w (w_x w a) x d + t * (disp w (w_x w b) x d - disp w (w_x w a) x d).
(* A, of length D, points from x to the closest point of the line between the two closest particles of the list. *)
Definition points_to_closest (w : world) (x : vec) (l : list nat) (D : R) (A : vec) : Prop :=
  D = norm (w_dims w) A /\
  match l with
  | nil => False
  | cons a nil => forall d, A d = disp w (w_x w a) x d
  | _ => exists a b rest, Permutation l (a :: b :: rest) /\ distance_from w x a <= distance_from w x b /\
           (forall j, In j rest -> distance_from w x b <= distance_from w x j) /\
           (exists t, 0 <= t <= 1 /\ forall d, A d = between w x a b t d) /\
           (forall t, 0 <= t <= 1 -> D <= norm (w_dims w) (between w x a b t))
  end.

(* Bin k of the equal bins between the least and the largest distance. *)
Definition in_bin (p : poly) (k : Z) (D : R) : Prop :=
  let dr := (p_hi p - p_lo p) / IZR (p_bins p) in p_lo p + IZR k * dr <= D < p_lo p + (IZR k + 1) * dr.

(* What a pass over the particles of one polymer adds to bin k: one sample for each particle that is not of the chain type and whose distance
   is in the bin, with the force along the unit vector n towards the other polymer. *)
Inductive sampled (w : world) (p : poly) (second : list nat) (k : Z) : list nat -> R * R * R -> Prop :=
| sampled_nil : sampled w p second k [] (0, 0, 0)
| sampled_chain i l s : p_type p i = p_ctype p -> sampled w p second k l s -> sampled w p second k (i :: l) s
| sampled_other i l D A s : p_type p i <> p_ctype p -> points_to_closest w (w_x w i) second D A -> ~ in_bin p k D ->
    sampled w p second k l s -> sampled w p second k (i :: l) s
| sampled_in i l D A a b c n : p_type p i <> p_ctype p -> points_to_closest w (w_x w i) second D A -> in_bin p k D ->
    n = unit_of (w_dims w) A -> sampled w p second k l (a, b, c) ->
    sampled w p second k (i :: l)
      (a + dot (w_dims w) n (match p_chain p with Some fr => vsub (w_f w i) (fr i) | None => w_f w i end) * p_norm p,
       b + match p_chain p with Some fr => dot (w_dims w) n (fr i) | None => 0 end, c + 1).

