(* Vocabulary for the demon's wall (C125). *)
From Coq Require Import Reals List ZArith.
From Verif Require Import Model_Forces Spec_Forces Model_GroupMeasure Model_DemonWall.
Import ListNotations.
Local Open Scope R_scope.

(* The displacement (nearest image) from particle j to particle i, and its length, in two dimensions. *)
Definition wall_disp (w : world) (i j : nat) : vec := correction (w_bc w) (w_width w) (vsub (w_x w i) (w_x w j)).
Definition wall_dist (w : world) (i j : nat) : R := sqrt (wall_disp w i j 0%nat * wall_disp w i j 0%nat + wall_disp w i j 1%nat * wall_disp w i j 1%nat).
(* Two particles in use overlap, and their centres differ. *)
Definition overlap (wd : wall_data) (w : world) (i j : nat) : Prop :=
  (0 <= wd_type wd i)%Z /\ (0 <= wd_type wd j)%Z /\ 0 < wall_dist w i j < w_sg w i + w_sg w j.
(* Component d of the force on particle a from the pair (i, j): repulsion proportional to the overlap, along the line of centres. *)
Definition wall_force (wd : wall_data) (w : world) (a d : nat) (p : nat * nat) : R :=
  let (i, j) := p in let r := wall_dist w i j in
  if (wd_type wd i <? 0)%Z then 0 else if (wd_type wd j <? 0)%Z then 0 else
  if Rlt_dec 0 r then if Rlt_dec r (w_sg w i + w_sg w j) then
    let m := wd_rep wd * (w_sg w i + w_sg w j - r) * (wall_disp w i j d / r) in
    (if (a =? i)%nat then m else 0) - (if (a =? j)%nat then m else 0)
  else 0 else 0.
(* the half of the box a place lies in, at least 1/40 of the width away from its ends *)
Definition in_half (w : world) (side : Z) (X : vec) : Prop :=
  w_lo w 0%nat + (1 / 40 + IZR side / 2) * w_width w 0%nat <= X 0%nat <= w_lo w 0%nat + (19 / 40 + IZR side / 2) * w_width w 0%nat /\
  w_lo w 1%nat <= X 1%nat <= w_hi w 1%nat.
(* the particle of the pair that is not the wall: the one of smaller type *)
Definition of_pair (wd : wall_data) (i : nat) (p : nat * nat) : Prop :=
  (i = fst p /\ (wd_type wd (fst p) <= wd_type wd (snd p))%Z) \/ (i = snd p /\ (wd_type wd (snd p) < wd_type wd (fst p))%Z).
Definition ok_random (rs : list R) : Prop := forall r, In r rs -> 0 <= r < 1.
