(* More recorded quantities: averages of lengths, wall forces, bond energies, cluster sizes, entropic forces. Paths under /repo/GFlowSim/src/dataobjects.
   Exact rationals; a division by zero (the result is not a number) is None. *)
From Coq Require Import QArith List Bool ZArith.
From Verif Require Import Lib Model_Geometry.
From Verif Require Model_Measure Model_Cluster.
Import ListNotations.
Local Open Scope Q_scope.

(* averagedata.cpp 12-37 post_step on one processor; a place of the store with the force on it. The three means; mag: utility/vectormath.hpp magnitudeVec *)
Definition place : Type := Model_Measure.slot * list Q.
Definition live (p : place) : bool := negb (Model_Measure.s_type (fst p) <? 0)%Z.
Definition total_of (val : place -> Q) (l : list place) : Q := fold_left (fun a p => if live p then a + val p else a) l 0.
Definition number_owned (l : list place) : Z := fold_left (fun a p => if live p then (a + 1)%Z else a) l 0%Z.
Definition averages (mag : list Q -> Q) (l : list place) : list (option Q) :=
  let n := inject_Z (number_owned l) in
  map (fun t => Model_Measure.ratio t n)
    [total_of (fun p => mag (Model_Measure.s_x (fst p))) l; total_of (fun p => mag (Model_Measure.s_v (fst p))) l; total_of (fun p => mag (snd p)) l].
(* what is recorded by the first processor (nothing is gathered) *)
Definition rec_averages (mag : list Q -> Q) (procs : list (list place)) : list (option Q) := averages mag (nth 0 procs []).

(* graphobjects/boundaryforcedata.cpp 7-12: gatherData of getBoundaryForce (gflow.cpp 605-641, 324); procs: positions, velocities, forces of the places *)
Definition rec_boundary (rp ds : Q) (b : box) (procs : list (list (list Q * list Q * list Q))) : Q :=
  Model_Measure.mpi_sum (map (fun ps => snd (fst (repulsePositions rp ds b ps))) procs).
(* 14-19 getAverage; data: the recorded (time, force) *)
Definition boundary_average (data : list (Q * Q)) : option Q :=
  Model_Measure.ratio (fold_left (fun a p => a + snd p) data 0) (inject_Z (Z.of_nat (length data))).

(* graphobjects/bonded-energy-data.cpp 10-23 with useAve = false, true (the default); a processor: the potentials of its bonded interactions, its places *)
Definition bond_energy (p : list Q * list Model_Measure.slot) : Q := fold_left (fun a e => a + e) (fst p) 0.
Definition rec_bonds (procs : list (list Q * list Model_Measure.slot)) : Q := Model_Measure.mpi_sum (map bond_energy procs).
Definition rec_bonds_ave (procs : list (list Q * list Model_Measure.slot)) : option Q :=
  Model_Measure.ratio (rec_bonds procs) (inject_Z (Model_Measure.mpi_sumZ (map (fun p => Z.of_nat (length (snd p))) procs))).

(* percolationdata.cpp 5-9: the constructors; asked: the argument of the second one (driver.cpp 360 passes the option "skin") *)
Definition percolation_skin (asked : Q) : Q := 0.
(* 11-21 post_step; near skin: what getAllWithin(id, neighbors, 2*Sg(id) + skin) gives; s: the clustering object with same_type_clusters = true *)
Definition percolation_step (types : list Z) (near : Q -> nat -> list nat) (number : nat) (asked : Q) (s : Model_Cluster.clustering) (record : list (list Z))
  : option (Model_Cluster.clustering * list (list Z)) :=
  match Model_Cluster.findClusters types (near (percolation_skin asked)) number s with
  | None => None
  | Some s' => Some (s', record ++ [Model_Cluster.cl_sizes s'])
  end.

(* base/dataobject.cpp, gflow.cpp 247: post_step at each recording of a run, on what is in the store then, with the same clustering object *)
Fixpoint percolation_run (asked : Q) (steps : list (list Z * (Q -> nat -> list nat) * nat)) (s : Model_Cluster.clustering) (record : list (list Z))
  : option (Model_Cluster.clustering * list (list Z)) :=
  match steps with
  | [] => Some (s, record)
  | (types, near, number) :: rest => match percolation_step types near number asked s record with None => None | Some (s', r) => percolation_run asked rest s' r end
  end.

(* multigraphobjects/lineentropicforce.cpp 10-45 post_step. A processor: its places, the ghosts that number() counts, the net force on its members of the line
   (Group::findNetForce); group: how many particles the line has. 27: n_solvent; 30: calculate_kinetic with average; 31 T; 33 rho; 35 norm; 41 mpi_sum0; 44 *)
Definition line_force (dims : nat) (kb vol len : Q) (group : Z) (procs : list (list Model_Measure.slot * (Z * list Q))) : list (option Q) :=
  match procs with
  | [] => []
  | (l, (ghosts, _)) :: _ =>
      let n_solvent := (Model_Measure.count Model_Measure.in_use l + ghosts - 2 * group)%Z in
      map (fun d =>
        match Model_Measure.kinetic_ave l with
        | None => None
        | Some ke =>
            let T := 2 / inject_Z (Z.of_nat dims) * ke / kb in
            let rho := inject_Z n_solvent / vol in
            match Model_Measure.ratio 1 (rho * kb * T * len) with
            | None => None
            | Some norm => Some (norm * Model_Measure.mpi_sum (map (fun p => nth d (snd (snd p)) 0) procs))
            end
        end) (seq 0 dims)
  end.
(* 51-59 setGroup with setLength; y: the second coordinates of the particles of the line *)
Definition line_length (y : list Q) : Q := nth (length y - 1) y 0 - nth 0 y 0.
