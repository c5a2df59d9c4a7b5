(* C12-C17: geometry of the box. *)
From Verif Require Import Lib Model_Geometry Spec_Geometry Proofs_Geometry.
Local Open Scope Q_scope.

(* C12. Component-wise: the displacement is congruent to x - y modulo the box width on periodic axes and
   equal to it on the others; at most half a width; no periodic image is shorter. *)
Theorem C12_displacement_component (b : box) (x y : list Q) (i : nat) (a : axis) (xi yi : Q) :
  nth_error b i = Some a -> nth_error x i = Some xi -> nth_error y i = Some yi ->
  lo a <= xi <= hi a -> lo a <= yi <= hi a ->
  exists d, nth_error (getDisplacement b x y) i = Some d /\
    (bc a = WRAP -> (exists k : Z, d == (xi - yi) + inject_Z k * (hi a - lo a)) /\
                    Qabs d <= (hi a - lo a) / 2 /\
                    forall k : Z, Qabs d <= Qabs ((xi - yi) + inject_Z k * (hi a - lo a))) /\
    (bc a <> WRAP -> d == xi - yi).
Proof. exact (displacement_component b x y i a xi yi). Qed.
Print Assumptions C12_displacement_component.

(* C12. The squared distance is minimal over all periodic images. *)
Theorem C12_distance_is_minimal (b : box) (x y : list Q) (ks : list Z) :
  in_closed b x -> in_closed b y -> length ks = length b ->
  getDistanceSqr b x y <= imageSqr b ks x y.
Proof. exact (getDistanceSqr_min b x y ks). Qed.
Print Assumptions C12_distance_is_minimal.

(* C12. ... and it is attained by one of them. *)
Theorem C12_distance_is_an_image (b : box) (x y : list Q) :
  in_closed b x -> in_closed b y ->
  exists ks, length ks = length b /\ getDistanceSqr b x y == imageSqr b ks x y.
Proof. exact (getDistanceSqr_attained b x y). Qed.
Print Assumptions C12_distance_is_an_image.

(* C12. The correction applied inside the force kernels and the in-place version agree with getDisplacement. *)
Theorem C12_kernels_agree (b : box) (x y : list Q) :
  length x = length b -> length y = length b ->
  minimumImage b (map (fun p => fst p - snd p) (combine x y)) = getDisplacement b x y /\
  forall a r, harmonic1 a r = min_image1 a r.
Proof. exact (kernels_agree b x y). Qed.
Print Assumptions C12_kernels_agree.

Example C12_hypotheses_met :
  in_closed [mkAxis 0 10 WRAP; mkAxis (-1) 1 OPEN] [1; 0] /\
  in_closed [mkAxis 0 10 WRAP; mkAxis (-1) 1 OPEN] [9; 1] /\
  getDisplacement [mkAxis 0 10 WRAP; mkAxis (-1) 1 OPEN] [1; 0] [9; 1] = [2; -1].
Proof.
  split; [|split]; [| |reflexivity];
    repeat constructor; try (unfold Qle; simpl; lia).
Qed.

(* C12, boundary of the claim: for points outside the box (a particle that left it and was not yet
   wrapped) the displacement need not be the minimum image. *)
Theorem C12_outside_the_box_refuted :
  exists a x y, bc a = WRAP /\ lo a < hi a /\ lo a <= y <= hi a /\
    exists d, getDisplacement [a] [x] [y] = [d] /\
      ~ Qabs d <= Qabs ((x - y) + inject_Z (-2) * (hi a - lo a)).
Proof. exact displacement_outside. Qed.
Print Assumptions C12_outside_the_box_refuted.

(* C13 *)
Theorem C13_distance_symmetric (b : box) (x y : list Q) :
  Forall (fun a => lo a <= hi a) b -> getDistanceSqr b x y == getDistanceSqr b y x.
Proof. exact (fun H => getDistanceSqr_sym b H x y). Qed.
Print Assumptions C13_distance_symmetric.

Theorem C13_distance_is_length_of_displacement (b : box) (x y : list Q) :
  getDistanceSqr b x y == fold_right Qplus 0 (map (fun d => d * d) (getDisplacement b x y)).
Proof. exact (getDistanceSqr_displacement b x y). Qed.
Print Assumptions C13_distance_is_length_of_displacement.

Theorem C13_displacement_antisymmetric (b : box) (x y : list Q) :
  Forall (fun a => lo a <= hi a) b ->
  Forall2 Qeq (getDisplacement b x y) (map Qopp (getDisplacement b y x)).
Proof. exact (fun H => getDisplacement_antisym b H x y). Qed.
Print Assumptions C13_displacement_antisymmetric.

Example C13_hypotheses_met :
  Forall (fun a => lo a <= hi a) [mkAxis 0 10 WRAP; mkAxis (-1) 1 OPEN] /\
  getDistanceSqr [mkAxis 0 10 WRAP; mkAxis (-1) 1 OPEN] [1; 0] [9; 1] == 5.
Proof. split; [repeat constructor; unfold Qle; simpl; lia|reflexivity]. Qed.

(* C14. Every particle n, axis i: result in the closed bounds and congruent; everything else untouched. *)
Theorem C14_wrap (b : box) (size_owned : nat) (xs : list (list Q)) n x i a xi :
  lo a < hi a ->
  nth_error xs n = Some x -> nth_error b i = Some a -> nth_error x i = Some xi ->
  exists x' xi', nth_error (wrapPositions b size_owned xs) n = Some x' /\ nth_error x' i = Some (Some xi') /\
   (((n < size_owned)%nat /\ bc a = WRAP) ->
      lo a <= xi' <= hi a /\ exists k : Z, xi' == xi + inject_Z k * (hi a - lo a)) /\
   (~ ((n < size_owned)%nat /\ bc a = WRAP) -> xi' = xi).
Proof. exact (wrapPositions_correct b size_owned xs n x i a xi). Qed.
Print Assumptions C14_wrap.

(* C14. Half-open result and idempotence, except for coordinates exactly k widths below the minimum. *)
Theorem C14_wrap_halfopen_idempotent_partial (a : axis) (x : Q) :
  bc a = WRAP -> lo a < hi a ->
  (forall k : Z, ~ (x < lo a /\ x == lo a - inject_Z k * (hi a - lo a))) ->
  exists x', wrap1 a x = Some x' /\ lo a <= x' < hi a /\ wrap1 a x' = Some x'.
Proof. exact (wrap1_halfopen_idem a x). Qed.
Print Assumptions C14_wrap_halfopen_idempotent_partial.

Example C14_hypotheses_met :
  wrapPositions [mkAxis 0 10 WRAP; mkAxis 0 1 OPEN] 2 [[23; 5]; [-3; 5]; [23; 5]] =
    [[Some 3; Some 5]; [Some 7; Some 5]; [Some 23; Some 5]].
Proof. vm_compute. reflexivity. Qed.

(* C14. The claims "wrapping puts every particle in the half-open box" and "wrapping twice is the same as
   wrapping once" are false of the code: a particle exactly one width below the lower bound is put on the
   upper bound, and the next wrap moves it to the lower bound. *)
Theorem C14_idempotent_refuted :
  exists a x x' x'', bc a = WRAP /\ lo a < hi a /\
    wrap1 a x = Some x' /\ ~ (x' < hi a) /\ wrap1 a x' = Some x'' /\ ~ x'' == x'.
Proof. exact wrap1_not_idempotent. Qed.
Print Assumptions C14_idempotent_refuted.

(* C15 *)
Theorem C15_reflect_partial (b : box) (x v : list Q) i a xi vi :
  nth_error b i = Some a -> nth_error x i = Some xi -> nth_error v i = Some vi ->
  exists xi' vi', nth_error (reflect_vec b x v) i = Some (xi', vi') /\
    Qabs vi' == Qabs vi /\
    (lo a <= xi <= hi a -> xi' = xi /\ vi' = vi) /\
    (bc a <> REFL -> xi' = xi /\ vi' = vi) /\
    (lo a <= hi a -> bc a = REFL -> lo a - (hi a - lo a) <= xi <= hi a + (hi a - lo a) ->
       lo a <= xi' <= hi a) /\
    (lo a <= hi a -> bc a = REFL -> (xi < lo a \/ hi a < xi) -> vi' == - vi).
Proof. exact (reflectPositions_correct b x v i a xi vi). Qed.
Print Assumptions C15_reflect_partial.

(* C15. One call does not bring back a particle that overshot by more than the box width. *)
Theorem C15_far_particle_refuted :
  exists a x v, bc a = REFL /\ lo a < hi a /\ ~ (lo a <= fst (reflect1 a x v) <= hi a).
Proof. exact reflect1_far. Qed.
Print Assumptions C15_far_particle_refuted.

(* C15. A particle that is outside but already moving inwards is turned around: it then moves outwards. *)
Theorem C15_inbound_velocity_refuted :
  exists a x v, bc a = REFL /\ x < lo a /\ 0 < v /\ snd (reflect1 a x v) < 0.
Proof. exact reflect1_inbound. Qed.
Print Assumptions C15_inbound_velocity_refuted.

Example C15_hypotheses_met :
  reflect_vec [mkAxis 0 10 REFL; mkAxis 0 10 OPEN] [-3; -3] [-1; -1] = [(3, 1); (-3, -1)].
Proof. reflexivity. Qed.

(* C16 *)
Theorem C16_contains_halfopen (b : bounds) (x : list Q) : length x = length b ->
  contains b x = true <-> Forall2 (fun mM xd => fst mM <= xd < snd mM) b x.
Proof. exact (contains_spec b x). Qed.
Print Assumptions C16_contains_halfopen.

Theorem C16_intersection (A B C : bounds) : A <> [] -> intersection A B = Some C ->
  length C = length A /\
  forall x, length x = length A ->
    (contains C x = true <-> contains A x = true /\ contains B x = true).
Proof. exact (intersection_spec A B C). Qed.
Print Assumptions C16_intersection.

Theorem C16_intersection_error (A B : bounds) : intersection A B = None <-> length A <> length B.
Proof. exact (intersection_defined A B). Qed.
Print Assumptions C16_intersection_error.

Theorem C16_center_inside (b : bounds) : Forall (fun mM => fst mM < snd mM) b ->
  contains b (center b) = true.
Proof. exact (center_contained b). Qed.
Print Assumptions C16_center_inside.

Theorem C16_distance_zero_iff_in_closure (b : bounds) (x : list Q) :
  Forall (fun mM => fst mM <= snd mM) b -> length x = length b ->
  (distanceSqr b x == 0 <-> Forall2 (fun mM xd => fst mM <= xd <= snd mM) b x).
Proof. exact (fun H => distance_zero b H x). Qed.
Print Assumptions C16_distance_zero_iff_in_closure.

(* distance is the distance to the nearest point of the box *)
Theorem C16_distance_is_minimum (b : bounds) (x z : list Q) :
  length x = length b -> Forall2 (fun mM zd => fst mM <= zd <= snd mM) b z ->
  distanceSqr b x <= fold_right Qplus 0 (map (fun p => (fst p - snd p) * (fst p - snd p)) (combine x z)).
Proof. exact (distance_min b x z). Qed.
Print Assumptions C16_distance_is_minimum.

(* the claim that the width helpers work in any dimension is false: they read a third axis of a 2d box *)
Theorem C16_max_width_2d_refuted : exists b, length b = 2%nat /\ max_width b = None.
Proof. exact max_width_2d. Qed.
Print Assumptions C16_max_width_2d_refuted.

Example C16_hypotheses_met :
  intersection [(0, 4); (0, 4)] [(1, 6); (-1, 2)] = Some [(1, 4); (0, 2)] /\
  intersection [(0, 4); (0, 4)] [(1, 6); (4, 5)] = Some [(0, 0); (0, 0)] /\
  contains [(1, 4); (0, 2)] [1; 1] = true.
Proof. vm_compute. auto. Qed.

(* C17 *)
Theorem C17_repulsion_points_inward (rp ds : Q) (b : box) ps n x v f i a xi vi fi :
  0 <= rp -> 0 <= ds -> lo a <= hi a ->
  nth_error ps n = Some (x, v, f) ->
  nth_error b i = Some a -> nth_error x i = Some xi -> nth_error v i = Some vi ->
  nth_error f i = Some fi ->
  exists f' fi', nth_error (fst (fst (repulsePositions rp ds b ps))) n = Some f' /\
    nth_error f' i = Some fi' /\
    (bc a <> REPL \/ lo a <= xi <= hi a -> fi' == fi) /\
    (bc a = REPL -> xi < lo a -> fi + 10 * rp * (lo a - xi) <= fi') /\
    (bc a = REPL -> hi a < xi -> fi' <= fi - 10 * rp * (xi - hi a)).
Proof. exact (repulsePositions_force rp ds b ps n x v f i a xi vi fi). Qed.
Print Assumptions C17_repulsion_points_inward.

Theorem C17_boundary_totals_nonneg (rp ds : Q) (b : box) ps : 0 <= rp -> 0 <= ds ->
  0 <= snd (fst (repulsePositions rp ds b ps)) /\ 0 <= snd (repulsePositions rp ds b ps).
Proof. exact (repulsePositions_nonneg rp ds b ps). Qed.
Print Assumptions C17_boundary_totals_nonneg.

(* C17. The reported energy is not the potential of the applied force: the force is 10 k dx while the
   energy is k dx^2/2, so moving out by dx without dissipation costs ten times the reported energy. *)
Theorem C17_energy_matches_force_refuted :
  exists a x, bc a = REPL /\
    let '(F, _, E) := repulse1 1 0 a x 0 in ~ E == (1#2) * Qabs F * (lo a - x).
Proof. exact repulse_energy_mismatch. Qed.
Print Assumptions C17_energy_matches_force_refuted.

Example C17_hypotheses_met :
  repulsePositions 1 1 [mkAxis 0 10 REPL] [([-2], [-1], [0]); ([5], [1], [0]); ([11], [1], [3])] =
   ([[21]; [0]; [-8]], 32, 10#4).
Proof. vm_compute. reflexivity. Qed.
