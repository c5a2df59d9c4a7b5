(* Words for polymers, lines and boxes. *)
From Verif Require Import Lib Model_Geometry.
Local Open Scope Q_scope.
(* x is y up to a whole number of periods *)
Definition Modulo (period x y : Q) : Prop := exists k : Z, x == y + inject_Z k * period.
Definition N2Q (n : nat) : Q := inject_Z (Z.of_nat n).
