(* Specification vocabulary: forces and energies of all pairs of particles. *)
From Coq Require Import Reals Qreals.
From Verif Require Import Lib Model_Geometry Model_Handlers Model_Cells Model_Sweep Spec_Cells.
From Verif Require Model_Forces Spec_Forces Spec_Handlers Model_Verlet.

(* The interaction in force between the particles i and j, if any. *)
Definition between (fm : force_master) (ps : list particle) (i j : nat) : option nat :=
  match nth_error ps i, nth_error ps j with
  | Some p, Some q => getInteraction (ptype p) (ptype q) fm
  | _, _ => None
  end.
(* What the interaction does if i and j are the only particles, at their nearest images. *)
Definition alone (x : inter) (fe : Model_Forces.env) (i j : nat) : option Model_Forces.fstate :=
  Model_Forces.do_pair (i_kind x) (Q2R (i_cut x)) fe true i j cleared.
Definition alone_force (its : nat -> inter) (fm : force_master) (ps : list particle) (fe : Model_Forces.env) (d i j : nat) : R :=
  match between fm ps i j with
  | Some it => match alone (its it) fe i j with Some s => Model_Forces.F s i d | None => 0%R end
  | None => 0%R
  end.
Definition alone_energy (its : nat -> inter) (fm : force_master) (ps : list particle) (fe : Model_Forces.env) (i j : nat) : R :=
  match between fm ps i j with
  | Some it => match alone (its it) fe i j with Some s => Model_Forces.pot s | None => 0%R end
  | None => 0%R
  end.
(* Large particles (see Spec_Cells) do not reach half around the box: the ranges of a large particle and any other, and the
   distance two particles can move between two searches, fit into half of each periodic width. *)
Definition short_ranges (b : box) (e : env) (ps : list particle) : Prop :=
  forall p q a, In p ps -> In q ps -> In a b -> bc a = WRAP -> (max_small_sigma e < sigma e p)%Q ->
    (2 * (sigma e p + sigma e q + 2 * skin e) <= wd a)%Q.

(* The interactions between the types 0..n-1 were set by the calls ss; their cutoffs are at most the contact distance; fm is the
   force master after initialize. *)
Definition interactions_set (its : nat -> inter) (n : nat) (ss : list Spec_Handlers.setting) (fm : force_master) : Prop :=
  Spec_Handlers.valid_types n ss /\ (forall s, In s ss -> Spec_Handlers.s_refl s = true) /\ (forall it, 0 <= i_cut (its it) <= 1)%Q /\
  exists fm0, Spec_Handlers.apply_settings (fun i => i_cut (its i)) ss (new_fm n) = Some fm0 /\ fm = initialize fm0.
(* Particles and box for which the search is right (see Spec_Cells), with valid types (-1: removed). *)
Definition searchable (b : box) (e : env) (n : nat) (ps : list particle) : Prop :=
  search_built b e /\ box_large_enough (min_small_cutoff e) b /\ stencil_range (min_small_cutoff e) b /\ (0 < skin e)%Q /\
  (forall p, In p ps -> (0 <= prd p)%Q /\ wrapped b (px p) /\ (-1 <= ptype p < Z.of_nat n)%Z) /\
  large_fit b e ps /\ large_different e ps /\ short_ranges b e ps.
(* The particles have moved to xs, and the check whether to search again said no. *)
Definition moved_on (b : box) (sk tol fac maxdel since : Q) (ps : list particle) (xs : list (list Q)) : Prop :=
  length xs = length ps /\ (forall x, In x xs -> length x = length b) /\ (0 <= tol * fac <= 1)%Q /\
  Model_Verlet.check_needs_remake tol fac sk maxdel since (combine (map px ps) xs) = false /\
  (forall m, In m (combine (map px ps) xs) -> dist2 (fst m) (snd m) < Qsqr (10 * sk))%Q.
(* No two interacting particles are at the same place. *)
Definition apart (fm : force_master) (ps : list particle) (fe : Model_Forces.env) : Prop :=
  forall i j it, i <> j -> between fm ps i j = Some it -> (0 < Spec_Forces.norm (Model_Forces.e_dims fe) (Spec_Forces.shift_of fe true i j))%R.
(* Lists of pairs that calls of addPair, close and clear can have made. *)
Definition some_lists (old : pair_lists) : Prop :=
  exists hist, Spec_Handlers.valid_lists hist /\ calls pairs_call hist new_pairs = Some old.
