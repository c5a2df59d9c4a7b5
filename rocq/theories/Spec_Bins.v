(* Vocabulary for histograms (C50): bin i of bins of width w that start at lo is the half open interval [lo + i w, lo + (i+1) w). *)
From Coq Require Import QArith List Bool ZArith.
From Verif Require Import Lib.
Import ListNotations.
Local Open Scope Q_scope.

Definition in_bin (lo w : Q) (i : nat) (v : Q) : bool := Qle_bool (lo + inject_Z (Z.of_nat i) * w) v && Qltb v (lo + inject_Z (Z.of_nat i + 1) * w).
Definition sum {A} (f : A -> Q) (l : list A) : Q := fold_right (fun a s => f a + s) 0 l.
Definition number {A} (f : A -> bool) (l : list A) : Z := Z.of_nat (length (filter f l)).
(* The numbers, in order, of the points of l in cell (cx, cy) of a grid that starts at (x0, y0) with cells of size wx times wy. *)
Definition cell_points (x0 wx y0 wy : Q) (cx cy : nat) (l : list (Q * Q)) : list Z :=
  map Z.of_nat (filter (fun k => match nth_error l k with Some (x, y) => in_bin x0 wx cx x && in_bin y0 wy cy y | None => false end) (seq 0 (length l))).
