(* The neighbour search of one of several processors: pairs of ghost and own particles (domains/domain.cpp
   traverseGhostPairs, base/domainbase.cpp get_halo_cell_index) and the types used to choose the interaction
   (base/interactionhandler.cpp pair_interaction). The grid, its halo cells and the pairs of own particles are in
   Model_Cells. *)
From Verif Require Import Lib Model_Geometry Model_Cells.
Local Open Scope Z_scope.

(* base/domainbase.cpp:80-94  get_halo_cell_index *)
Definition halo_tuple (gs : list gaxis) (x : list Q) : list Z :=
  map (fun p => halo_index1 (fst p) (snd p)) (combine gs x).
Definition get_halo_cell_index (gs : list gaxis) (x : list Q) : Z :=
  tuple_to_linear (dims_of gs) (halo_tuple gs x).

(* domains/domain.cpp:226-231: ghost pg with id id1, own particle id2 *)
Definition visit_ghost_own (e : env) (ps : list particle) (pg : particle) (id1 id2 : nat) : list visit :=
  match nth_error ps id2 with
  | None => []
  | Some p2 =>
      let r2 := dist2 (px pg) (px p2) in
      if Qltb r2 (Qsqr ((prd pg + prd p2) * cutoff_grid e (ptype pg) (ptype p2) + skin e))
         || Qltb (max_reasonable e) r2
      then [(id1, id2, 2)] else []
  end.

(* domains/domain.cpp:217-233: ghost id1. None: the code reads outside the cells or outside the cutoff grid. *)
Definition visit_ghost (e : env) (ps : list particle) (id1 : nat) (pg : particle) : option (list visit) :=
  let index := get_halo_cell_index (grid e) (px pg) in
  if (index <? 0) || (prodZ (dims_of (grid e)) <=? index) || (ptype pg <? 0) then None
  else match adjacent (min_small_cutoff e) (grid e) index with
       | None => None
       | Some adj => Some (flat_map (fun c => flat_map (visit_ghost_own e ps pg id1) (cell_ids e ps c)) adj)
       end.

(* domains/domain.cpp:201-235  Domain::traverseGhostPairs *)
Fixpoint visit_ghosts (e : env) (ps : list particle) (id : nat) (gh : list particle) : option (list visit) :=
  match gh with
  | [] => Some []
  | g :: gh' => match visit_ghost e ps id g, visit_ghosts e ps (S id) gh' with
                | Some a, Some b => Some (a ++ b)
                | _, _ => None
                end
  end.
Definition traverseGhostPairs (e : env) (ps gh : list particle) : option (list visit) := visit_ghosts e ps 0 gh.

(* base/interactionhandler.cpp:461-466  pair_interaction: the types it looks up in the interaction grid. Both ids are
   looked up among the own particles, also when the list is 2 and id1 is a ghost. None: no own particle has that id. *)
Definition pair_types (ps : list particle) (v : visit) : option (Z * Z) :=
  let '(id1, id2, _) := v in
  match nth_error ps id1, nth_error ps id2 with
  | Some p1, Some p2 => Some (ptype p1, ptype p2)
  | _, _ => None
  end.
