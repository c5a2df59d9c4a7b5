(* The summary of a run: base/datamaster.cpp, writeSummary and writeParticleData. Paths under /repo/GFlowSim/src/.
   Exact rationals for real; None: memory that does not belong to a particle or to the vector is used. *)
From Coq Require Import QArith List Bool ZArith.
From Verif Require Import Lib Model_Bins.
Import ListNotations.
Local Open Scope Q_scope.

(* A place of the store: type (negative: removed), radius, inverse mass, speed *)
Record slot := mkSl { s_type : Z; s_sg : Q; s_im : Q; s_speed : Q }.
(* A processor: its places (size_owned), number_owned, number() (with ghosts, base/simdata.cpp 281-299) *)
Record rank_data := mkRD { d_slots : list slot; d_owned : Z; d_number : Z }.

(* base/datamaster.cpp 385-386: particles; parallel/mpi-communication.hpp 99-106 mpi_sum0: the sum on processor 0 *)
Definition total_particles (rs : list rank_data) : Z := fold_right (fun r s => (d_owned r + s)%Z) 0%Z rs.
(* 588-591: the counts of the types on one processor; n < number_owned() *)
Definition type_counts (ntypes : nat) (r : rank_data) : option (list Z) :=
  if (Z.of_nat (length (d_slots r)) <? d_owned r)%Z then None else
  tally (fun s => Some (s_type s)) (fun _ c => (c + 1)%Z) (firstn (Z.to_nat (d_owned r)) (d_slots r)) (repeat 0%Z ntypes).
(* mpi-communication.hpp 109-125 mpi_sum0 of a vector *)
Fixpoint sum_counts (ntypes : nat) (l : list (option (list Z))) : option (list Z) :=
  match l with
  | [] => Some (repeat 0%Z ntypes)
  | o :: t => match o, sum_counts ntypes t with Some a, Some b => Some (map (fun p => (fst p + snd p)%Z) (combine a b)) | _, _ => None end
  end.
Definition summary_types (ntypes : nat) (rs : list rank_data) : option (list Z) := sum_counts ntypes (map (type_counts ntypes) rs).
(* 541-546: the volume of the particles; n < number(); ball: the volume of a ball of this radius (utility/utility.hpp 265-267) *)
Definition rank_volume (ball : Q -> Q) (r : rank_data) : option Q :=
  if (Z.of_nat (length (d_slots r)) <? d_number r)%Z then None else
  Some (fold_left (fun v s => v + ball (s_sg s)) (firstn (Z.to_nat (d_number r)) (d_slots r)) 0).
Fixpoint summary_volume (ball : Q -> Q) (rs : list rank_data) : option Q :=
  match rs with
  | [] => Some 0
  | r :: t => match rank_volume ball r, summary_volume ball t with Some a, Some b => Some (a + b) | _, _ => None end
  end.
(* 604: the packing fraction *)
Definition packing (ball : Q -> Q) (rs : list rank_data) (vol : Q) : option Q := option_map (fun v => v / vol) (summary_volume ball rs).

(* 696-755 writeParticleData, on processor 0. What is found for a quantity q: sum, smallest, largest; count *)
Definition kept (s : slot) : bool := negb ((s_type s <? 0)%Z || Qle_bool (s_im s) 0).
Record stat := mkSt { st_sum : Q; st_min : Q; st_max : Q }.
Definition add_stat (x : Q) (t : stat) : stat :=
  mkSt (st_sum t + x) (if Qltb x (st_min t) then x else st_min t) (if Qltb (st_max t) x then x else st_max t).
Fixpoint stat_loop (q : slot -> Q) (l : list slot) (t : stat) (count : Z) : stat * Z :=
  match l with
  | [] => (t, count)
  | s :: l' => if kept s then stat_loop q l' (add_stat (q s) t) (count + 1) else stat_loop q l' t count
  end.
(* 703-709: the quantities: sigma, mass, density, speed, kinetic energy (without the factor 1/2) *)
Definition q_sigma (s : slot) : Q := s_sg s.
Definition q_mass (s : slot) : Q := 1 / s_im s.
Definition q_density (ball : Q -> Q) (s : slot) : Q := 1 / (s_im s * ball (s_sg s)).
Definition q_speed (s : slot) : Q := s_speed s.
Definition q_ke (s : slot) : Q := s_speed s * s_speed s * (1 / s_im s).
(* mean, smallest and largest; the first place gives the first values; factor: 1, or 1/2 for the kinetic energy (749).
   None: no particles (698-701), or the mean is 0/0 *)
Definition report_stat (q : slot -> Q) (factor : Q) (r : rank_data) : option (Q * Q * Q) :=
  match d_slots r with
  | [] => None
  | s0 :: _ =>
      if (d_number r =? 0)%Z then None else
      let '(t, count) := stat_loop q (d_slots r) (mkSt 0 (q s0) (q s0)) 0 in
      if (count =? 0)%Z then None else Some (st_sum t * (factor * (1 / inject_Z count)), st_min t, st_max t)
  end.
