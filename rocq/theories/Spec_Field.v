(* Vocabulary for C127. A particle: the list of its numbers, x, y, vx, vy, ... *)
From Coq Require Import QArith List Bool ZArith.
From Verif Require Import Lib Spec_Bins.
Import ListNotations.
Local Open Scope Q_scope.

Definition num (k : nat) (r : list Q) : Q := nth k r 0.
(* The particles in the cell with lower corner (ax, ay) and size wx times wy *)
Definition inside (ax ay wx wy : Q) (r : list Q) : bool :=
  Qle_bool ax (num 0 r) && Qltb (num 0 r) (ax + wx) && (Qle_bool ay (num 1 r) && Qltb (num 1 r) (ay + wy)).
(* The mean of a number of the particles; 0 if there are none *)
Definition mean_of (k : nat) (l : list (list Q)) : Q := match l with [] => 0 | _ => sum (num k) l / inject_Z (Z.of_nat (length l)) end.
