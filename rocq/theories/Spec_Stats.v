(* Vocabulary for the histograms of two groups (C120). *)
From Verif Require Import Lib.
Open Scope Q_scope.

(* Bin k of n equal bins between lo and hi. *)
Definition in_equal_bin (lo hi : Q) (n k : Z) (v : Q) : Prop :=
  lo + inject_Z k * ((hi - lo) / inject_Z n) <= v /\ v < lo + (inject_Z k + 1) * ((hi - lo) / inject_Z n).

(* The number of elements of a list with a property. *)
Inductive number_with {A} (P : A -> Prop) : list A -> Z -> Prop :=
| number_nil : number_with P [] 0
| number_yes a l n : P a -> number_with P l n -> number_with P (a :: l) (n + 1)
| number_no a l n : ~ P a -> number_with P l n -> number_with P (a :: l) n.

(* Not just below the least value (by less than the width of a bin). *)
Definition no_truncated (vmax : Q) (by_ : Z) (v : Q) : Prop := - vmax <= v \/ v <= - vmax - 2 * vmax / inject_Z by_.
