(* Walls, circles and the temperature of new particles: creators/wallcreator.cpp, creators/circle-creator.cpp, creators/fillareacreator.cpp. Paths under /repo/GFlowSim/src. Exact reals. *)
From Coq Require Import Reals Lra Lia List ZArith Bool.
Import ListNotations.
Local Open Scope R_scope.

(* ceil *)
Definition Ceil (x : R) : Z := (- Int_part (- x))%Z.
(* max(static_cast<int>(ceil(x)), 1) *)
Definition pieces (x : R) : nat := Z.to_nat (Z.max (Ceil x) 1).

(* wallcreator.cpp 50-51: the number of particles, and where on the line from start to end they are (55-71: lambda) *)
Definition wall_number (distance radius spacing : R) : nat := pieces ((distance - 2 * radius) / spacing).
Definition wall_lambda (distance radius spacing : R) (i : nat) : R := radius + INR i * (distance / INR (wall_number distance radius spacing)).
(* 35-36, 48 *)
Definition vsum (l : list R) : R := fold_right Rplus 0 l.
Definition norm2 (v : list R) : R := vsum (map (fun x => x * x) v).
Definition sub (a b : list R) : list R := map (fun p => fst p - snd p) (combine a b).
Definition distance (a b : list R) : R := sqrt (norm2 (sub a b)).
(* 55-71: the positions; norm = (end - start) divided by its length *)
Definition wall (start stop : list R) (radius spacing : R) : list (list R) :=
  let D := distance stop start in
  map (fun i => map (fun p => fst p + wall_lambda D radius spacing i * ((snd p - fst p) / D)) (combine start stop)) (seq 0 (wall_number D radius spacing)).

(* circle-creator.cpp 57-58: the number of particles of a circle of radius R *)
Definition circle_number (scale sigma r : R) : nat := pieces (1 / 2 * scale * 2 * PI * r / sigma).
Definition dtheta (scale sigma r : R) : R := 2 * PI / INR (circle_number scale sigma r).
(* 62: for (theta = 0; theta < limit; theta += dtheta); at most [fuel] turns are followed *)
Fixpoint turn (fuel : nat) (limit step theta : R) : list R :=
  match fuel with O => [] | S fuel' => if Rlt_dec theta limit then theta :: turn fuel' limit step (theta + step) else [] end.
(* 62: the limit is PI for an inner loop, 2 PI for the last one *)
Definition angles (whole : bool) (scale sigma r : R) : list R := turn (S (circle_number scale sigma r)) (if whole then 2 * PI else PI) (dtheta scale sigma r) 0.
(* 56-81 recursive_circle: positions relative to the centre in m + 2 dimensions *)
Fixpoint sphere (m : nat) (scale sigma r : R) : list (list R) :=
  match m with
  | O => map (fun t => [r * cos t; r * sin t]) (angles true scale sigma r)
  | S m' => flat_map (fun t => map (cons (r * cos t)) (sphere m' scale sigma (r * sin t))) (angles false scale sigma r)
  end.
Definition add (a b : list R) : list R := map (fun p => fst p + snd p) (combine a b).
Definition circle (center : list R) (scale sigma r : R) : list (list R) := map (add center) (sphere (length center - 2) scale sigma r).

(* 69-78: each processor places the positions that are in its bounds *)
Definition placed (inside : list R -> bool) (center : list R) (scale sigma r : R) : list (list R) := filter inside (circle center scale sigma r).

(* ---------- fillareacreator.cpp 270-274, 313-319: kinetic energies and the temperature correction. A made particle: inverse mass, velocity, whether it was added *)
Record made := mkMade { m_im : R; m_v : list R; m_added : bool }.
(* 0.5*sqr(V)/im summed; 0/0 is not a number (None) *)
Fixpoint kinetic (l : list made) : option R :=
  match l with
  | [] => Some 0
  | p :: l' => match kinetic l' with Some k => if Req_EM_T (m_im p) 0 then None else Some (1 / 2 * norm2 (m_v p) / m_im p + k) | None => None end
  end.
(* Teff = ke/(N/2*dims*KB) with N/2 an integer division; N < 2: ke/0 is infinite (ke > 0), T/Teff = 0 *)
Definition fraction (temp kb : R) (dims : nat) (l : list made) : option R :=
  match kinetic l with
  | None => None
  | Some ke => let n := INR (length l / 2 * dims) in if Req_EM_T (n * kb) 0 then Some 0 else Some (sqrt (temp / (ke / (n * kb))))
  end.
(* the velocities that the added particles get; None: not numbers *)
Definition final_velocities (temp kb : R) (dims : nat) (l : list made) : option (list (list R)) :=
  match fraction temp kb dims l with None => None | Some f => Some (map (fun p => map (fun x => x * f) (m_v p)) (filter m_added l)) end.
