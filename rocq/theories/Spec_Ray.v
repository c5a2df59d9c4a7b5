(* Words for pictures of spheres. *)
From Coq Require Import Reals List.
From Verif Require Import Model_Ray.
Import ListNotations.
Local Open Scope R_scope.

(* the point at distance t along the ray *)
Definition Along (r : ray) (t : R) : vec := fun d => r_o r d + t * r_u r d.
Definition Length2 (a : vec) : R := a 0%nat ^ 2 + a 1%nat ^ 2 + a 2%nat ^ 2.
Definition Unit (a : vec) : Prop := Length2 a = 1.
Definition Perpendicular (a b : vec) : Prop := a 0%nat * b 0%nat + a 1%nat * b 1%nat + a 2%nat * b 2%nat = 0.
(* squared distance of two points *)
Definition Dist2 (p q : vec) : R := Length2 (fun d => p d - q d).
Definition Inside (s : sphere) (p : vec) : Prop := Dist2 p (s_c s) <= s_r s ^ 2.
Definition Within (s : sphere) (p : vec) : Prop := Dist2 p (s_c s) < s_r s ^ 2.
Definition In_box (lo hi : vec) (p : vec) : Prop := forall d, (d < 3)%nat -> lo d <= p d <= hi d.
Definition Within_box (lo hi : vec) (p : vec) : Prop := forall d, (d < 3)%nat -> lo d < p d < hi d.
(* the splitting planes of a tree *)
Fixpoint Planes (t : tree) : list (nat * R) := match t with Leaf _ => [] | Node d sp lo hi => (d, sp) :: Planes lo ++ Planes hi end.
Definition Crosses (s : sphere) (pl : nat * R) : Prop := s_c s (fst pl) - s_r s < snd pl < s_c s (fst pl) + s_r s.
