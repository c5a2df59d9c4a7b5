(* Words for regions and filling. *)
From Verif Require Import Lib Model_Geometry Model_Fill.
Local Open Scope Q_scope.

Definition Draws (rnd : stream) : Prop := forall k, 0 <= rnd k < 1.
(* squared distance *)
Definition Dist2 (x c : list Q) : Q := Qsum (map (fun p => (fst p - snd p) * (fst p - snd p)) (combine x c)).
Definition In_rect (b : bounds) (x : list Q) : Prop := Forall2 (fun mM xd => fst mM <= xd < snd mM) b x.
Definition In_ball (c : list Q) (r : Q) (x : list Q) : Prop := length x = length c /\ Dist2 x c < r * r.
Definition In_region (g : region) (x : list Q) : Prop := match g with Rect b => In_rect b x | Ball c r => In_ball c r x end.
Definition Proper (g : region) : Prop := match g with Rect b => Forall (fun mM => fst mM < snd mM) b | Ball _ r => ~ r == 0 end.
(* total volume of particles *)
Definition Volume (v : Q -> Q) (l : list added) : Q := Qsum (map (fun a => v (a_sg a)) l).
(* number of dimensions of a region *)
Definition Dim (g : region) : nat := match g with Rect b => length b | Ball c _ => length c end.
(* outside of all excluded regions *)
Definition Outside (ex : list region) (x : list Q) : Prop := forall g, In g ex -> ~ In_region g x.
