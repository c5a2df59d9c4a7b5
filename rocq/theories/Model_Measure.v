(* What is recorded about the particles as a whole: energies, numbers, temperature, pressure, averages. Paths under /repo/GFlowSim/src/dataobjects. Exact rationals;
   a division by zero (the result is not a number) is None. *)
From Coq Require Import QArith List Bool ZArith.
From Verif Require Import Lib.
Import ListNotations.
Local Open Scope Q_scope.

(* a slot of the store: type (-1: the particle was removed but the slot is still there), position, velocity, inverse mass, radius, angular velocity *)
Record slot := mkSlot { s_type : Z; s_x : list Q; s_v : list Q; s_im : Q; s_sg : Q; s_om : Q }.
(* utility/vectormath.hpp sqr *)
Definition sqr (v : list Q) : Q := fold_left (fun a c => a + c * c) v 0.
(* the loops over 0 <= n < size_owned() that add val for the slots with keep *)
Definition loop (keep : slot -> bool) (val : slot -> Q) (l : list slot) : Q := fold_left (fun a s => if keep s then a + val s else a) l 0.
Definition count (keep : slot -> bool) (l : list slot) : Z := fold_left (fun a s => if keep s then (a + 1)%Z else a) l 0%Z.
(* parallel/mpi-communication.hpp 96-117 mpi_sum0 on rank 0 *)
Definition mpi_sum (l : list Q) : Q := fold_left Qplus l 0.
Definition mpi_sumZ (l : list Z) : Z := fold_left Z.add l 0%Z.
(* graphobject.cpp 83-113 gatherAverageData (the entry on rank 0) *)
Definition ratio (y w : Q) : option Q := if Qeq_bool w 0 then None else Some (y / w).
Definition moves (s : slot) : bool := Qltb 0 (s_im s).
Definition in_use (s : slot) : bool := (-1 <? s_type s)%Z.

(* graphobjects/kineticenergydata.cpp 17-34 calculate_kinetic with average = false, = true (velocities that are not NaN) *)
Definition kinetic (l : list slot) : Q := (1#2) * loop moves (fun s => (1 / s_im s) * sqr (s_v s)) l.
Definition kinetic_ave (l : list slot) : option Q := ratio (kinetic l) (inject_Z (count moves l)).
(* 7-15 post_step *)
Definition rec_kinetic (procs : list (list slot)) : Q := mpi_sum (map kinetic procs).
Definition rec_kinetic_ave (procs : list (list slot)) : option Q := ratio (mpi_sum (map kinetic procs)) (inject_Z (mpi_sumZ (map (fun l => Z.of_nat (length l)) procs))).
(* 36-41 calculate_temperature *)
Definition temperature (dims : nat) (kb : Q) (l : list slot) : option Q :=
  match kinetic_ave l with None => None | Some ke => Some (2 / inject_Z (Z.of_nat dims) * ke / kb) end.

(* graphobjects/rotational-energy-data.cpp 20-37 *)
Definition spin (s : slot) : Q := (1#2) * (s_sg s * s_sg s) / s_im s * (s_om s * s_om s).
Definition usable (s : slot) : bool := moves s && in_use s.
Definition rec_rotational (procs : list (list slot)) : Q := mpi_sum (map (fun l => (1#2) * loop usable spin l) procs).
Definition rec_rotational_ave (procs : list (list slot)) : option Q := ratio (rec_rotational procs) (inject_Z (mpi_sumZ (map (count usable) procs))).
(* graphobjects/total-energy-data.cpp 14-58; pot: what getTotalPotentialEnergy, getBoundaryEnergy and the bonds give on the processor; rot: the store has the entry Om *)
Definition total_energy (rot : bool) (pl : Q * list slot) : Q :=
  let '(pot, l) := pl in (1#2) * loop usable (fun s => sqr (s_v s) / s_im s) l + pot + (if rot then loop usable spin l + (1#2) * 0 else 0).
Definition rec_total (rot : bool) (procs : list (Q * list slot)) : Q := mpi_sum (map (total_energy rot) procs).
Definition rec_total_ave (rot : bool) (procs : list (Q * list slot)) : option Q := ratio (rec_total rot procs) (inject_Z (mpi_sumZ (map (fun pl => count usable (snd pl)) procs))).
(* graphobjects/average-speed-data.cpp 11-29; mag: magnitudeVec *)
Definition rec_speed (mag : list Q -> Q) (procs : list (list slot)) : option Q :=
  ratio (mpi_sum (map (loop usable (fun s => mag (s_v s))) procs)) (inject_Z (mpi_sumZ (map (count usable) procs))).
(* graphobjects/average-omega-data.cpp 8-33 *)
Definition rec_omega (procs : list (list slot)) : option Q :=
  ratio (mpi_sum (map (loop usable (fun s => s_om s * (1 / s_im s))) procs)) (mpi_sum (map (loop usable (fun s => 1 / s_im s)) procs)).

(* multigraphobjects/number-data.cpp 7-23: the counts of the types 0 .. ntypes-1 *)
Definition has_type (t : Z) (s : slot) : bool := (s_type s =? t)%Z.
Definition upto (n : nat) : list Z := map Z.of_nat (seq 0 n).
Definition type_counts (ntypes : nat) (l : list slot) : list Z :=
  fold_left (fun c s => let t := s_type s in if (-1 <? t)%Z && (t <? Z.of_nat ntypes)%Z
                        then map (fun k => if (k =? Z.to_nat t)%nat then (nth k c 0 + 1)%Z else nth k c 0%Z) (seq 0 (length c)) else c) l (repeat 0%Z ntypes).
Definition rec_numbers (ntypes : nat) (procs : list (list slot)) : list Z :=
  map (fun k => mpi_sumZ (map (fun l => nth k (type_counts ntypes l) 0%Z) procs)) (seq 0 ntypes).
(* multigraphobjects/phi-data.cpp 7-25; vol: sphere_volume *)
Definition rec_phi (vol : Q -> Q) (box excluded : Q) (procs : list (list slot)) : option Q :=
  ratio (mpi_sum (map (loop in_use (fun s => vol (s_sg s))) procs)) (box - excluded).
(* kineticenergytypesdata.cpp 22-43 on one processor (nothing is gathered); number: number() counts ghosts too *)
Definition type_energies (ntypes : nat) (l : list slot) : list Q :=
  map (fun k => (1#2) * loop (fun s => has_type (Z.of_nat k) s && moves s) (fun s => sqr (s_v s) / s_im s) l) (seq 0 ntypes).
Definition rec_types (ntypes : nat) (procs : list (list slot)) : list Q := type_energies ntypes (nth 0 procs []).

(* graphobjects/pressuredata.cpp 27-51: on one processor. ghosts: how many ghosts number() counts, virials: those of the interactions *)
Definition pressure (dims : nat) (kb vol : Q) (p : list slot * (Z * list Q)) : option Q :=
  let '(l, (ghosts, virials)) := p in
  match kinetic_ave l with
  | None => None
  | Some ke =>
      let T := 2 * ke / (inject_Z (Z.of_nat dims) * kb) in let n := inject_Z (count in_use l + ghosts) in
      let factor := 1 / (inject_Z (Z.of_nat dims) * vol) in
      let ptot := fold_left (fun a w => a + factor * w) virials (n * kb * T / vol) in
      ratio ptot (n * kb * T / vol)
  end.
(* 16-25 post_step: gatherData *)
Definition rec_pressure (dims : nat) (kb vol : Q) (procs : list (list slot * (Z * list Q))) : option Q :=
  fold_left (fun a p => match a, pressure dims kb vol p with Some x, Some y => Some (x + y) | _, _ => None end) procs (Some 0).

(* multigraphobjects/average-position-data.cpp 10-16 (also average-velocity-data.cpp): the middle three quarters; 20-43, 20-43 post_step; get: X or V *)
Definition middle (b : Q * Q) : Q * Q := let c := (1#2) * (snd b + fst b) in (c - (1#2) * (3#4) * (snd b - fst b), c + (1#2) * (3#4) * (snd b - fst b)).
(* utility/bounds.cpp contains *)
Fixpoint contains (bs : list (Q * Q)) (x : list Q) : bool :=
  match bs, x with [], _ => true | b :: bs', c :: x' => negb (Qltb c (fst b) || Qle_bool (snd b) c) && contains bs' x' | _ :: _, [] => false end.
Definition rec_region (bs : list (Q * Q)) (get : slot -> list Q) (procs : list (list slot)) : list (option Q) :=
  let keep s := usable s && contains bs (s_x s) in
  map (fun d => ratio (mpi_sum (map (loop keep (fun s => nth d (get s) 0)) procs)) (inject_Z (mpi_sumZ (map (count keep) procs)))) (seq 0 (length bs)).
(* multigraphobjects/cavity-statistics.cpp 5-9, 20-42; bs: the region. number, average x, average y *)
Definition rec_cavity (limit : Q) (bs : list (Q * Q)) (procs : list (list slot)) : Z * Q * Q :=
  let keep s := in_use s && contains bs (s_x s) && (Qltb (nth 0 (s_v s) 0) ((1#2) * limit) && Qltb 0 (nth 0 (s_x s) 0) && Qltb 0 (s_im s)) in
  let rows := flat_map (fun l => map s_x (filter keep l)) procs in let n := Z.of_nat (length rows) in
  let sum d := fold_left (fun a r => a + nth d r 0) rows 0 in
  if (0 <? n)%Z then (n, sum 0%nat / inject_Z n, sum 1%nat / inject_Z n) else (n, sum 0%nat, sum 1%nat).
