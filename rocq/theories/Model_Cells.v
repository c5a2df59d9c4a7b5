(* Cell grid of class Domain: addressing, binning, stencil, pair traversal. Executable over Q / Z.
   Simplifications: exact rationals instead of float; int without overflow; vectors are lists whose
   length is sim_dimensions. *)
From Verif Require Import Lib Model_Geometry.
Local Open Scope Z_scope.

(* C++ static_cast<int>(float): truncation toward zero (same as Model_Geometry.Qtrunc). *)
Definition to_int (q : Q) : Z := Qtrunc q.

Definition zrange (n : Z) : list Z := map Z.of_nat (seq 0 (Z.to_nat n)).

(* ------------------------------------------------------------------ addressing *)

(* product of the dims, base/domainbase.cpp:53-57 DomainBase::getNumCells, and the products array of
   domainbase.cpp:31-33: products[d] = prodZ (skipn d dims). *)
Fixpoint prodZ (dims : list Z) : Z :=
  match dims with [] => 1 | d :: ds => d * prodZ ds end.

(* base/domainbase.cpp:108-113  DomainBase::tuple_to_linear *)
Fixpoint tuple_to_linear (dims tuple : list Z) : Z :=
  match dims, tuple with
  | _ :: ds, t :: ts => t * prodZ ds + tuple_to_linear ds ts
  | _, _ => 0
  end.

(* utility/utility.hpp:158-170  getAddressCM (C integer division) *)
Fixpoint getAddressCM (linear : Z) (dims : list Z) : list Z :=
  match dims with
  | [] => []
  | _ :: ds => Z.quot linear (prodZ ds) :: getAddressCM (Z.rem linear (prodZ ds)) ds
  end.

(* utility/utility.hpp:142-156  getAddress: the loop runs from the last dimension down, dividing by the
   product of the earlier dims. [rdims] is dims in reverse order; the result is in reverse order. *)
Fixpoint getAddress_rev (linear : Z) (rdims : list Z) : list Z :=
  match rdims with
  | [] => []
  | _ :: ds => Z.quot linear (prodZ ds) :: getAddress_rev (Z.rem linear (prodZ ds)) ds
  end.
Definition getAddress (linear : Z) (dims : list Z) : list Z := rev (getAddress_rev linear (rev dims)).

(* ------------------------------------------------------------------ grid set-up *)

(* One axis of the region handled by this processor: process_bounds, simulation_bounds, boundary flag. *)
Record paxis := mkP { pmin : Q; pmax : Q; smin : Q; smax : Q; pbc : BCFlag }.

(* base/interactionhandler.cpp:425-459  InteractionHandler::assign_border_types *)
Definition border_up (a : paxis) : Z :=
  if bc_eqb (pbc a) WRAP then
    if Qeq_bool (pmax a - pmin a) (smax a - smin a) then 0
    else if Qeq_bool (pmax a) (smax a) then 2 else 1
  else if Qeq_bool (pmax a) (smax a) then 0 else 1.
Definition border_down (a : paxis) : Z :=
  if bc_eqb (pbc a) WRAP then
    if Qeq_bool (pmax a - pmin a) (smax a - smin a) then 0
    else if Qeq_bool (pmin a) (smin a) then 2 else 1
  else if Qeq_bool (pmin a) (smin a) then 0 else 1.

(* base/topology.cpp:62-80  Topology::setSimulationBounds followed by getSimulationBounds /
   getProcessBounds (42-48), one axis, one processor, valid bounds: without USE_MPI only process_bounds is
   assigned, so the simulation bounds keep the value {0,0} of the constructor (topology.cpp:8 and
   utility/bounds.cpp:7-15). *)
Definition topology_axis (use_mpi : bool) (l h : Q) (b : BCFlag) : paxis :=
  if use_mpi then mkP l h l h b else mkP l h 0 0 b.

(* One axis of the cell grid: lower bound, number of cells, cell width, boundary flag, border types. *)
Record gaxis := mkG { gmin : Q; gmax : Q; gdim : Z; gw : Q; gbc : BCFlag; gup : Z; gdown : Z }.

Definition shift_down (g : gaxis) : Z := if gdown g =? 0 then 0 else 1.
Definition shift_up (g : gaxis) : Z := if gup g =? 0 then 0 else 1.

(* domains/domain.cpp:250-272  Domain::calculate_domain_cell_dimensions (one axis); None: throw BadBounds. *)
Definition cell_axis (target : Q) (a : paxis) : option gaxis :=
  let d0 := to_int ((pmax a - pmin a) / target) in
  if d0 <=? 0 then None else
  let d1 := if d0 <? 4 then 4 else d0 in
  let w := ((pmax a - pmin a) / inject_Z d1)%Q in
  let d2 := if border_down a =? 0 then d1 else d1 + 1 in
  let d3 := if border_up a =? 0 then d2 else d2 + 1 in
  Some (mkG (pmin a) (pmax a) d3 w (pbc a) (border_up a) (border_down a)).

Fixpoint cell_dimensions (target : Q) (p : list paxis) : option (list gaxis) :=
  match p with
  | [] => Some []
  | a :: p' => match cell_axis target a, cell_dimensions target p' with
               | Some g, Some gs => Some (g :: gs)
               | _, _ => None
               end
  end.

Definition dims_of (gs : list gaxis) : list Z := map gdim gs.

(* base/domainbase.cpp:68-78  DomainBase::get_cell_index, one axis: (x - min) * inverseW truncated, shifted,
   clamped. (Simplification: the code keeps the index in a float; exact below 2^24.) *)
Definition cell_index1 (g : gaxis) (x : Q) : Z :=
  let index := to_int ((x - gmin g) * (1 / gw g))%Q + shift_down g in
  if gdim g - shift_up g <=? index then gdim g - shift_up g - 1
  else if index <? shift_down g then shift_down g
  else index.
Definition cell_tuple (gs : list gaxis) (x : list Q) : list Z :=
  map (fun p => cell_index1 (fst p) (snd p)) (combine gs x).
Definition get_cell_index (gs : list gaxis) (x : list Q) : Z :=
  tuple_to_linear (dims_of gs) (cell_tuple gs x).

(* base/domainbase.cpp:63-66  get_cell_index_tuple: not clamped *)
Definition raw_index1 (g : gaxis) (x : Q) : Z :=
  to_int ((x - gmin g) * (1 / gw g))%Q + shift_down g.
Definition raw_tuple (gs : list gaxis) (x : list Q) : list Z :=
  map (fun p => raw_index1 (fst p) (snd p)) (combine gs x).

(* base/domainbase.cpp:80-94  get_halo_cell_index, one axis *)
Definition halo_index1 (g : gaxis) (x : Q) : Z :=
  if Qle_bool (gmax g) (x + (1#1000))%Q then gdim g - 1
  else if Qle_bool (x - (1#1000))%Q (gmin g) then 0
  else Z.max (to_int ((x - gmin g) * (1 / gw g) + inject_Z (shift_down g))%Q) 0.

(* domains/domain.cpp:344-366  Domain::correct_index with wrap = true; None: bad index. One axis. *)
Definition correct1 (g : gaxis) (i : Z) : option Z :=
  let '(i1, ok1) :=
    if gdim g <=? i then
      if bc_eqb (gbc g) WRAP && (gup g =? 0) then (i - gdim g, true) else (i, false)
    else (i, true) in
  let '(i2, ok2) :=
    if i1 <? 0 then
      if bc_eqb (gbc g) WRAP && (gdown g =? 0) then (i1 + gdim g, true) else (i1, false)
    else (i1, true) in
  if ok1 && ok2 then Some i2 else None.
Fixpoint correct_index (gs : list gaxis) (t : list Z) : option (list Z) :=
  match gs, t with
  | g :: gs', i :: t' =>
      match correct1 g i, correct_index gs' t' with
      | Some j, Some t'' => Some (j :: t'')
      | _, _ => None
      end
  | _, _ => Some []
  end.

(* domains/domain.cpp:374-381  Domain::is_halo_cell *)
Definition is_halo1 (g : gaxis) (i : Z) : bool :=
  (i <? shift_down g) || (gdim g - shift_up g <=? i).
Definition is_halo_cell (gs : list gaxis) (t : list Z) : bool :=
  existsb (fun p => is_halo1 (fst p) (snd p)) (combine gs t).

(* ------------------------------------------------------------------ stencil and adjacency *)

(* domains/domain.cpp:288-293: sweep, little_dims, center *)
Definition sweep1 (cutoff : Q) (g : gaxis) : Z := Qceiling (cutoff / gw g).
Definition centers (cutoff : Q) (gs : list gaxis) : list Z := map (sweep1 cutoff) gs.
Definition little_dims (cutoff : Q) (gs : list gaxis) : list Z :=
  map (fun g => 2 * sweep1 cutoff g + 1) gs.

Definition zsub (a b : list Z) : list Z := map (fun p => fst p - snd p) (combine a b).
Definition zadd (a b : list Z) : list Z := map (fun p => fst p + snd p) (combine a b).
(* dotVec of an int vector with the widths *)
Definition dotZQ (a : list Z) (ws : list Q) : Q :=
  fold_right (fun p acc => (inject_Z (fst p) * snd p + acc)%Q) 0%Q (combine a ws).

Definition stencil_offset (cutoff : Q) (gs : list gaxis) (i : Z) : list Z :=
  zsub (getAddressCM i (little_dims cutoff gs)) (centers cutoff gs).

(* domains/domain.cpp:296-301: the stencil filter. The dot product of the offset with the widths (not a
   squared distance) is truncated to an int and compared with the squared cutoff. *)
Definition stencil_keep (cutoff : Q) (gs : list gaxis) (o : list Z) : bool :=
  Qltb (inject_Z (to_int (dotZQ o (map gw gs)))) (Qsqr cutoff).
Definition stencil_volume (cutoff : Q) (gs : list gaxis) : Z := prodZ (little_dims cutoff gs).
Definition neighbor_indices (cutoff : Q) (gs : list gaxis) : list (list Z) :=
  filter (stencil_keep cutoff gs)
    (map (stencil_offset cutoff gs) (zrange (stencil_volume cutoff gs))).

(* domains/domain.cpp:307-340: adjacent cells of cell c. The non-halo branch reads neighbor_indices[i] for
   i < floor(0.5*volume); reading past the end of the (filtered) vector is undefined behaviour = None. *)
Definition adj_of_offset (gs : list gaxis) (t o : list Z) : list Z :=
  match correct_index gs (zadd t o) with
  | Some t' => [tuple_to_linear (dims_of gs) t']
  | None => []
  end.
Definition adj_halo_offset (gs : list gaxis) (t o : list Z) : list Z :=
  match correct_index gs (zadd t o) with
  | Some t' => if is_halo_cell gs t' then [] else [tuple_to_linear (dims_of gs) t']
  | None => []
  end.
Definition adjacent (cutoff : Q) (gs : list gaxis) (c : Z) : option (list Z) :=
  let t := getAddressCM c (dims_of gs) in
  let ns := neighbor_indices cutoff gs in
  if is_halo_cell gs t then Some (flat_map (adj_halo_offset gs t) ns)
  else
    let half := Z.to_nat (stencil_volume cutoff gs / 2) in
    if Nat.leb half (length ns) then Some (flat_map (adj_of_offset gs t) (firstn half ns))
    else None.

(* ------------------------------------------------------------------ particles, binning, traversal *)

Record particle := mkPart { px : list Q; prd : Q; ptype : Z }.

(* Interaction data used by the search: cutoff_grid[t1][t2] (interactionhandler.cpp:418-421), max_cutoffs
   (forcemaster), typeInteracts, skin_depth, max_small_sigma. *)
Record env := mkEnv {
  cutoff_grid : Z -> Z -> Q; max_cutoff : Z -> Q; interacts : Z -> bool;
  skin : Q; max_small_sigma : Q;
  grid : list gaxis;
  sim_wd : list Q }.    (* simulation_bounds.wd(d) *)

(* base/domainbase.cpp:59-61, domain.cpp:284 *)
Definition min_small_cutoff (e : env) : Q := (2 * max_small_sigma e + skin e)%Q.

(* vectormath.hpp:75-79 getDistanceSqrNoWrap *)
Definition dist2 (x y : list Q) : Q :=
  fold_right (fun p acc => (Qsqr (fst p - snd p) + acc)%Q) 0%Q (combine x y).

(* domains/domain.cpp:106-110: min over d of sqr(0.5 wd(d)) *)
Definition max_reasonable (e : env) : Q :=
  match map (fun w => Qsqr ((1#2) * w)) (sim_wd e) with
  | [] => 0
  | m :: ms => fold_left (fun acc mr => if Qltb mr acc then mr else acc) ms m
  end.

(* domains/domain.cpp:237-248  Domain::structure_updates: particles are appended to their cell in id order. *)
Definition binned_in (e : env) (ps : list particle) (c : Z) (i : nat) : bool :=
  match nth_error ps i with
  | Some p => (0 <=? ptype p) && interacts e (ptype p) && (get_cell_index (grid e) (px p) =? c)
  | None => false
  end.
Definition cell_ids (e : env) (ps : list particle) (c : Z) : list nat :=
  filter (binned_in e ps c) (seq 0 (length ps)).

Definition sigma (e : env) (p : particle) : Q := (prd p * max_cutoff e (ptype p))%Q.
Definition is_large (e : env) (p : particle) : bool := Qltb (max_small_sigma e) (sigma e p).

Definition visit := (nat * nat * Z)%type.   (* id1, id2, wrapping type *)

(* domain.cpp:133-139: another particle of the same cell *)
Definition visit_same (e : env) (ps : list particle) (p1 : particle) (id1 id2 : nat) : list visit :=
  match nth_error ps id2 with
  | None => []
  | Some p2 =>
      if (ptype p1 <? 0) || is_large e p2 then []
      else if Qltb (dist2 (px p1) (px p2))
                (Qsqr (prd p1 + prd p2 * cutoff_grid e (ptype p1) (ptype p2) + skin e))
      then [(id1, id2, 0)] else []
  end.
(* domain.cpp:143-152: a particle of an adjacent cell *)
Definition visit_adj (e : env) (ps : list particle) (p1 : particle) (id1 id2 : nat) : list visit :=
  match nth_error ps id2 with
  | None => []
  | Some p2 =>
      if (ptype p2 <? 0) || is_large e p2 then []
      else
        let r2 := dist2 (px p1) (px p2) in
        if Qltb r2 (Qsqr ((prd p1 + prd p2) * cutoff_grid e (ptype p1) (ptype p2) + skin e))
        then [(id1, id2, 0)]
        else if Qltb (max_reasonable e) r2 then [(id1, id2, 1)] else []
  end.
(* domain.cpp:185-193: a particle seen from a large particle *)
Definition visit_large (e : env) (ps : list particle) (p1 : particle) (id1 id2 : nat) : list visit :=
  match nth_error ps id2 with
  | None => []
  | Some p2 =>
      if Nat.eqb id1 id2 || Qltb (sigma e p1) (prd p2) then []
      else
        let r2 := dist2 (px p1) (px p2) in
        if Qltb r2 (Qsqr ((sigma e p1 + prd p2) * cutoff_grid e (ptype p1) (ptype p2) + skin e))
        then [(id1, id2, 0)]
        else if Qltb (max_reasonable e) r2 then [(id1, id2, 1)] else []
  end.

(* ceil(n/2.) for an int n >= 0 *)
Definition half_up (n : Z) : Z := (n + 1) / 2.

(* domain.cpp:158-168 (traversePairs): search dimensions of the hypercube around a large particle *)
Definition large_search1 (sw : Q) (g : gaxis) : Z :=
  Z.min (2 * (Qceiling (sw / gw g) + 1)) (gdim g).
(* domain.cpp:41-48 (getAllWithin) *)
Definition within_search1 (distance : Q) (g : gaxis) : Z :=
  Z.min (2 * (1 + Qceiling (distance * (1 / gw g))) + 1) (gdim g).

(* domain.cpp:173-184 / 54-65: cells of the hypercube, in visiting order, wrapped or dropped by
   correct_index; [sd] are the search dims. *)
Definition hypercube (gs : list gaxis) (sd : list Z) (x : list Q) : list Z :=
  flat_map (fun j =>
      let o := zsub (getAddressCM j sd) (map half_up sd) in
      match correct_index gs (zadd o (raw_tuple gs x)) with
      | Some t => [tuple_to_linear (dims_of gs) t]
      | None => []
      end) (zrange (prodZ sd)).

(* domain.cpp:122-197: everything done for particle id1 of cell c, [rest] = the ids after it in the cell,
   [adj] = the adjacent cells of c *)
Definition visit_particle (e : env) (ps : list particle) (adj : list Z) (id1 : nat) (rest : list nat)
  : list visit :=
  match nth_error ps id1 with
  | None => []
  | Some p1 =>
      if ptype p1 <? 0 then []
      else if negb (is_large e p1) then
        flat_map (visit_same e ps p1 id1) rest
        ++ flat_map (fun d => flat_map (visit_adj e ps p1 id1) (cell_ids e ps d)) adj
      else
        let sd := map (large_search1 (2 * sigma e p1 + skin e)) (grid e) in
        flat_map (fun l => flat_map (visit_large e ps p1 id1) (cell_ids e ps l))
          (hypercube (grid e) sd (px p1))
  end.

Fixpoint visit_cell (e : env) (ps : list particle) (adj : list Z) (ids : list nat) : list visit :=
  match ids with
  | [] => []
  | id1 :: rest => visit_particle e ps adj id1 rest ++ visit_cell e ps adj rest
  end.

(* domain.cpp:98-199  Domain::traversePairs after create_cells; None = undefined behaviour while the cells
   were created. *)
Fixpoint traverse_cells (e : env) (ps : list particle) (cs : list Z) : option (list visit) :=
  match cs with
  | [] => Some []
  | c :: cs' =>
      match adjacent (min_small_cutoff e) (grid e) c, traverse_cells e ps cs' with
      | Some adj, Some vs => Some (visit_cell e ps adj (cell_ids e ps c) ++ vs)
      | _, _ => None
      end
  end.
Definition traversePairs (e : env) (ps : list particle) : option (list visit) :=
  traverse_cells e ps (zrange (prodZ (dims_of (grid e)))).

(* domain.cpp:27-76  Domain::getAllWithin(Vec, ...); [excl] is the _exclude id. The distance test
   r < distance is stated on squares, distance > 0 (the code takes a square root). *)
Definition within (b : box) (ps : list particle) (x : list Q) (distance : Q) (id2 : nat) : bool :=
  match nth_error ps id2 with
  | None => false
  | Some p2 => Qltb 0 distance && Qltb (getDistanceSqr b x (px p2)) (Qsqr distance)
  end.
Definition getAllWithin (e : env) (b : box) (ps : list particle) (excl : option nat) (x : list Q)
  (distance0 : Q) : list nat :=
  let distance := if Qltb distance0 0 then (2 * max_small_sigma e)%Q else distance0 in
  let sd := map (within_search1 distance) (grid e) in
  flat_map (fun l =>
      filter (fun id2 => negb (match excl with Some k => Nat.eqb id2 k | None => false end)
                         && within b ps x distance id2) (cell_ids e ps l))
    (hypercube (grid e) sd x).

(* base/interactionhandler.cpp:293-335  calculate_max_small_sigma on the list of sigmas of the live,
   interacting particles (one processor); None: the early return that leaves the old value. *)
Definition calc_max_small_sigma (sigmas : list Q) : option Q :=
  match sigmas with
  | [] => None
  | _ =>
      let count := inject_Z (Z.of_nat (length sigmas)) in
      let s := (fold_left Qplus sigmas 0 / count)%Q in
      let mx := fold_left (fun m s => if Qltb m s then s else m) sigmas 0%Q in
      let threshold := ((1#2) * (s + mx))%Q in
      let max_under :=
        if Qeq_bool threshold s then s
        else fold_left (fun mu s => if Qltb s threshold && Qltb mu s then s else mu) sigmas s in
      Some ((1025#1000) * max_under)%Q
  end.
