(* Vocabulary for the statements about the neighbour search on one of several processors. *)
From Verif Require Import Lib Model_Geometry Model_Cells Spec_Cells.
Local Open Scope Q_scope.

(* the processor's region spans the whole simulation along the axis *)
Definition whole (a : paxis) : Prop := pmax a - pmin a == smax a - smin a.
(* another processor's region lies below / above this one (across the periodic border if the region is split) *)
Definition below (a : paxis) : Prop := (pbc a = WRAP /\ ~ whole a) \/ (pbc a <> WRAP /\ ~ pmin a == smin a).
Definition above (a : paxis) : Prop := (pbc a = WRAP /\ ~ whole a) \/ (pbc a <> WRAP /\ ~ pmax a == smax a).

(* coordinate of a particle of this processor: in the region, but beyond an open edge of the simulation it may be
   anywhere *)
Definition own1 (a : paxis) (x : Q) : Prop :=
  (below a -> pmin a <= x) /\ (above a -> x < pmax a) /\ (pbc a = WRAP -> pmin a <= x <= pmax a).
Definition owned (p : list paxis) (x : list Q) : Prop := Forall2 own1 p x.

(* position of a ghost: outside the region towards another processor along some axis; a coordinate along an axis that is
   periodic and spanned by the region is wrapped *)
Definition outside (p : list paxis) (x : list Q) : Prop :=
  exists k a xd, nth_error p k = Some a /\ nth_error x k = Some xd /\
    ((below a /\ xd < pmin a) \/ (above a /\ pmax a <= xd)).
Definition ghost_position (p : list paxis) (x : list Q) : Prop :=
  Forall2 (fun a xd => pbc a = WRAP -> whole a -> pmin a <= xd <= pmax a) p x /\ outside p x.

(* The region as a box: an axis is periodic for the distance between particles here only if the region spans it. *)
Definition spanned (a : paxis) : bool := bc_eqb (pbc a) WRAP && Qeq_bool (pmax a - pmin a) (smax a - smin a).
Definition region_box (p : list paxis) : box :=
  map (fun a => mkAxis (pmin a) (pmax a) (if spanned a then WRAP else OPEN)) p.
(* the simulation box *)
Definition sim_box (p : list paxis) : box := map (fun a => mkAxis (smin a) (smax a) (pbc a)) p.

(* the search set up by the code for the region p: cells of target size 2*max_small_sigma + skin *)
Definition search_on (p : list paxis) (e : env) : Prop :=
  cell_dimensions (min_small_cutoff e) p = Some (grid e) /\ sim_wd e = map (fun a => smax a - smin a) p /\
  0 < min_small_cutoff e.
(* room for a cell on every axis, and for four on a periodic axis that is not split *)
Definition region_large_enough (c : Q) (p : list paxis) : Prop :=
  Forall (fun a => c <= pmax a - pmin a /\ (pbc a = WRAP -> whole a -> 4 * c <= pmax a - pmin a)) p.

(* distances up to r are not shortened by going around a split periodic axis *)
Definition split_wide (r : Q) (p : list paxis) : Prop :=
  Forall (fun a => pbc a = WRAP -> ~ whole a -> pmax a - pmin a + r <= smax a - smin a) p.

(* large particles: inside the region, which is long compared with their reach unless periodic and not split *)
Definition large_fit_on (p : list paxis) (e : env) (ps : list particle) : Prop :=
  forall q, In q ps -> max_small_sigma e < sigma e q ->
    inside (region_box p) (px q) /\
    Forall2 (fun a g => ~ (pbc a = WRAP /\ whole a) ->
      (2 * Qceiling ((2 * sigma e q + skin e) / gw g) + 2 <= gdim g)%Z) p (grid e).

(* All the neighbours of a halo cell pass the cell stencil filter in these ranges of the cell size c (n dimensions). *)
Definition stencil_full (c : Q) (p : list paxis) : Prop :=
  let n := inject_Z (Z.of_nat (length p)) in
  (Forall (fun a => 4 * c <= pmax a - pmin a) p /\ (5 * n / 4 * c < 1 \/ 5 * n / 4 < c)) \/
  (9 * n / 4 * c < 1 \/ 9 * n / 4 < c).
(* Cells are a little wider than the cutoff asks for, because ghosts up to 1/1000 inside the border are put into the
   halo cells. *)
Definition cells_wide (p : list paxis) (e : env) : Prop :=
  Forall2 (fun a g => 1#1000 <= gw g /\
    (below a \/ above a ->
     min_small_cutoff e + (1#1000) <= inject_Z (Qceiling (min_small_cutoff e / gw g)) * gw g)) p (grid e).

(* the region is part of the simulation *)
Definition region_in_simulation (p : list paxis) : Prop :=
  Forall (fun a => smin a <= pmin a /\ pmin a < pmax a /\ pmax a <= smax a) p.
Definition region_bounds (p : list paxis) : bounds := map (fun a => (pmin a, pmax a)) p.
(* the distance up to which two particles have to be listed as neighbours: contact distance times cutoff factor, plus skin *)
Definition range_of (e : env) (p q : particle) : Q := (prd p + prd q) * cutoff_grid e (ptype p) (ptype q) + skin e.
