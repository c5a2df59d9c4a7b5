(* Vocabulary for group measurements (C45, C46). *)
From Coq Require Import Reals List.
From Verif Require Import Model_Forces Spec_Forces Model_GroupMeasure.
Local Open Scope R_scope.

(* The mass of a particle is the inverse of its inverse mass. *)
Definition mass_of (w : world) (i : nat) : R := 1 / w_im w i.
Definition total_mass (w : world) (ids : list nat) : R := sum_over (mass_of w) ids.
(* Every member has finite, positive mass. *)
Definition finite_masses (w : world) (ids : list nat) : Prop := forall i, In i ids -> 0 < w_im w i.
(* The mass-weighted mean of a quantity over the members. *)
Definition weighted_mean (w : world) (ids : list nat) (q : nat -> R) : R := sum_over (fun i => mass_of w i * q i) ids / total_mass w ids.

(* u are positions of the members without the periodic wrapping: along periodic axes they differ from the stored ones by whole box
   widths, along others not at all. *)
Definition unwrapped (w : world) (ids : list nat) (u : nat -> vec) : Prop :=
  forall i d, In i ids -> (d < w_dims w)%nat ->
    if w_bc w d then exists z : Z, u i d = w_x w i d + IZR z * (w_hi w d - w_lo w d) else u i d = w_x w i d.
(* Along each periodic axis all the members lie within less than half a box width of each other. *)
Definition compact (w : world) (ids : list nat) (u : nat -> vec) : Prop :=
  forall i j d, In i ids -> In j ids -> (d < w_dims w)%nat -> w_bc w d = true -> Rabs (u i d - u j d) < (w_hi w d - w_lo w d) / 2.
Definition in_box (w : world) (i : nat) : Prop := forall d, (d < w_dims w)%nat -> w_lo w d <= w_x w i d <= w_hi w d.

(* Only the array v (f) of w and w' may differ. *)
Definition same_but_v (w w' : world) : Prop := w' = with_v (w_v w') w.
Definition same_but_f (w w' : world) : Prop := w' = with_f (w_f w') w.

(* ---------- C46 ---------- *)
(* The d-th component of the total force on (momentum of) the members. *)
Definition force_on (w : world) (ids : list nat) : vec := fun d => sum_over (fun i => w_f w i d) ids.
Definition momentum_of (w : world) (ids : list nat) : vec := fun d => sum_over (fun i => mass_of w i * w_v w i d) ids.
(* In two dimensions: the total torque on, and the angular momentum of, the members about the point c, positions being taken relative to c. *)
Definition torque_about (w : world) (c : vec) (ids : list nat) : R :=
  sum_over (fun i => disp w (w_x w i) c 0%nat * w_f w i 1%nat - disp w (w_x w i) c 1%nat * w_f w i 0%nat) ids.
Definition angular_momentum_about (w : world) (c : vec) (ids : list nat) : R :=
  sum_over (fun i => mass_of w i * (disp w (w_x w i) c 0%nat * w_v w i 1%nat - disp w (w_x w i) c 1%nat * w_v w i 0%nat)) ids.
(* All the members have the same velocity and the same acceleration, and both point along axis k. *)
Definition slides (w : world) (k : nat) (ids : list nat) : Prop :=
  forall i, In i ids ->
    (forall d, (d < w_dims w)%nat -> d <> k -> w_v w i d = 0 /\ w_im w i * w_f w i d = 0) /\
    (forall j, In j ids -> w_v w i k = w_v w j k /\ w_im w i * w_f w i k = w_im w j * w_f w j k).
