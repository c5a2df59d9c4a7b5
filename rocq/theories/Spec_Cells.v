(* Vocabulary for the statements about the neighbour search. *)
From Verif Require Import Lib Model_Geometry Model_Cells.
Local Open Scope Q_scope.

(* One processor handling the whole box: process bounds = simulation bounds (MPI build). *)
Definition box_paxis (a : axis) : paxis := mkP (lo a) (hi a) (lo a) (hi a) (bc a).

(* the unordered pair {i, j} is visited *)
Definition visited (vs : list visit) (i j : nat) : Prop :=
  exists w : Z, In (i, j, w) vs \/ In (j, i, w) vs.

(* the visit as an unordered pair *)
Definition upair (v : visit) : nat * nat :=
  let '(i, j, _) := v in (Nat.min i j, Nat.max i j).

(* positions of particles: coordinates on periodic axes lie in the box (after wrapping); other axes are
   unconstrained *)
Definition wrapped (b : box) (x : list Q) : Prop :=
  Forall2 (fun a xd => bc a = WRAP -> lo a <= xd <= hi a) b x.

(* A search set up by the code for the box b on one processor: cells of the target size
   2*max_small_sigma + skin on every axis (domains/domain.cpp:84-96,250-303). *)
Definition search_built (b : box) (e : env) : Prop :=
  cell_dimensions (min_small_cutoff e) (map box_paxis b) = Some (grid e) /\ sim_wd e = map wd b /\
  0 < min_small_cutoff e.

(* The box is big enough for the cells: at least one cell per axis, at least four on periodic axes. *)
Definition box_large_enough (c : Q) (b : box) : Prop :=
  Forall (fun a => c <= wd a /\ (bc a = WRAP -> 4 * c <= wd a)) b.

(* The cell stencil filter compares a truncated length with a squared length; it is harmless in these
   ranges of the cell size c (n = number of dimensions): for n <= 2 and boxes of at least 4 cells per axis
   always; for n = 3 if c < 2/3 or 3/2 < c. *)
Definition stencil_range (c : Q) (b : box) : Prop :=
  let n := inject_Z (Z.of_nat (length b)) in
  (Forall (fun a => 4 * c <= wd a) b /\ ((5 * n - 9) / 4 * c < 1 \/ (5 * n - 9) / 4 < c)) \/
  ((9 * n - 10) / 4 * c < 1 \/ (9 * n - 10) / 4 < c).

(* a position inside the half-open box *)
Definition inside (b : box) (x : list Q) : Prop := Forall2 (fun a xd => lo a <= xd < hi a) b x.

(* the axis is periodic, or long compared with the distance d *)
Definition long_axis (d : Q) (g : gaxis) : Prop :=
  gbc g <> WRAP -> (2 * Qceiling (d / gw g) + 2 <= gdim g)%Z.

(* Particles with interaction radius above max_small_sigma are treated separately ("large"). *)
Definition large_fit (b : box) (e : env) (ps : list particle) : Prop :=
  forall p, In p ps -> max_small_sigma e < sigma e p ->
    inside b (px p) /\ Forall (long_axis (2 * sigma e p + skin e)) (grid e).
Definition large_different (e : env) (ps : list particle) : Prop :=
  forall i j pi pj, i <> j -> nth_error ps i = Some pi -> nth_error ps j = Some pj ->
    max_small_sigma e < sigma e pi -> max_small_sigma e < sigma e pj ->
    sigma e pi < prd pj \/ sigma e pj < prd pi.

Definition tuple_valid (dims t : list Z) : Prop := Forall2 (fun d i => 0 <= i < d)%Z dims t.
