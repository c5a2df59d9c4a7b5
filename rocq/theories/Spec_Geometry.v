(* Vocabulary for the geometry statements, independent of the modelled algorithms. *)
From Verif Require Import Lib Model_Geometry.
Local Open Scope Q_scope.

(* the point x lies in the (closed) box b, with one coordinate per axis *)
Definition in_closed (b : box) (x : list Q) : Prop :=
  Forall2 (fun a xd => lo a <= xd <= hi a) b x.

(* squared length of the periodic image of x - y selected by the integers ks: the periodic axes are
   shifted by k box widths, the others are not shifted *)
Fixpoint imageSqr (b : box) (ks : list Z) (x y : list Q) : Q :=
  match b, ks, x, y with
  | a :: b', k :: ks', xd :: x', yd :: y' =>
      Qsqr (match bc a with WRAP => xd - yd + inject_Z k * (hi a - lo a) | _ => xd - yd end)
      + imageSqr b' ks' x' y'
  | _, _, _, _ => 0
  end.
