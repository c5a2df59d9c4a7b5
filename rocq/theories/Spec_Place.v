(* Words for walls, circles and temperatures. *)
From Coq Require Import Reals List.
Import ListNotations.
Local Open Scope R_scope.
(* distance of two points *)
Definition Dist2 (x y : list R) : R := fold_right Rplus 0 (map (fun p => (fst p - snd p) * (fst p - snd p)) (combine x y)).
Definition Dist (x y : list R) : R := sqrt (Dist2 x y).
(* the point start + t (stop - start) *)
Definition Along (t : R) (start stop : list R) : list R := map (fun p => fst p + t * (snd p - fst p)) (combine start stop).
(* kinetic energy of particles with these inverse masses and velocities: sum of v^2/(2 im) *)
Definition Speed2 (v : list R) : R := fold_right Rplus 0 (map (fun x => x * x) v).
Definition Energy (ims : list R) (vs : list (list R)) : R := fold_right Rplus 0 (map (fun p => Speed2 (snd p) / (2 * fst p)) (combine ims vs)).
