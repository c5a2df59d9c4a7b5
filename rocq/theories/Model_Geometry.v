(* Geometry of the simulation box. Executable over Q (simplification: float rounding,
   NaN and infinities are not modelled; NaN from fmod by zero is the outcome None). *)
From Verif Require Import Lib.
Local Open Scope Q_scope.

(* GFlowSim/src/utility/defaultconstants.hpp: enum class BCFlag. *)
Inductive BCFlag := WRAP | REFL | REPL | OPEN.

Definition bc_eqb (a b : BCFlag) : bool :=
  match a, b with
  | WRAP, WRAP | REFL, REFL | REPL, REPL | OPEN, OPEN => true
  | _, _ => false
  end.

(* One axis of GFlow::simulation_bounds together with boundaryConditions[d]
   (GFlowSim/src/gflow.hpp, members simulation_bounds and boundaryConditions). A box is a list of axes;
   sim_dimensions is its length. *)
Record axis := mkAxis { lo : Q; hi : Q; bc : BCFlag }.
Definition box := list axis.

(* GFlowSim/src/utility/bounds.cpp:95-97  Bounds::wd *)
Definition wd (a : axis) : Q := hi a - lo a.

(* GFlowSim/src/gflow.cpp:437-442  GFlow::minimumImage (one component); the same three lines are the loop
   bodies of gflow.cpp:428-435 and, with dis = x[d]-y[d], of 418-426 and 448-459. *)
Definition min_image1 (a : axis) (dis : Q) : Q :=
  if bc_eqb (bc a) WRAP then
    let dx := wd a - Qabs dis in
    if Qltb dx (Qabs dis) then (if Qltb 0 dis then - dx else dx) else dis
  else dis.

(* GFlowSim/src/gflow.cpp:428-435  GFlow::minimumImage on a whole vector *)
Fixpoint minimumImage (b : box) (dis : list Q) : list Q :=
  match b, dis with
  | a :: b', d :: dis' => min_image1 a d :: minimumImage b' dis'
  | _, _ => []
  end.

(* GFlowSim/src/gflow.cpp:418-426  GFlow::getDisplacement *)
Fixpoint getDisplacement (b : box) (x y : list Q) : list Q :=
  match b, x, y with
  | a :: b', xd :: x', yd :: y' => min_image1 a (xd - yd) :: getDisplacement b' x' y'
  | _, _, _ => []
  end.

(* GFlowSim/src/gflow.cpp:448-459  GFlow::getDistanceSqr (the loop accumulates from dimension 0; over Q
   the order of additions is irrelevant). *)
Fixpoint getDistanceSqr (b : box) (x y : list Q) : Q :=
  match b, x, y with
  | a :: b', xd :: x', yd :: y' => Qsqr (min_image1 a (xd - yd)) + getDistanceSqr b' x' y'
  | _, _, _ => 0
  end.

(* GFlowSim/src/utility/generic-dimension.hpp:13-32  harmonic_correction<d>, used in the force kernels and
   in the neighbour search. One component. *)
Definition harmonic1 (a : axis) (r : Q) : Q :=
  if bc_eqb (bc a) WRAP then
    let dX := wd a - Qabs r in
    if Qltb dX (Qabs r) then (if Qltb 0 r then - dX else dX) else r
  else r.

(* C fmod for a finite, non-zero divisor: truncation toward zero. A zero divisor gives NaN = None. *)
Definition Qtrunc (q : Q) : Z := if Qltb q 0 then (- Qfloor (- q))%Z else Qfloor q.
Definition fmod (a b : Q) : option Q :=
  if Qeq_bool b 0 then None else Some (a - b * inject_Z (Qtrunc (a / b))).

(* GFlowSim/src/gflow.cpp:558-566  body of the loop in GFlow::wrapPositions *)
Definition wrap1 (a : axis) (x : Q) : option Q :=
  if bc_eqb (bc a) WRAP then
    if Qltb x (lo a) then option_map (fun r => hi a - r) (fmod (lo a - x) (wd a))
    else if Qle_bool (hi a) x then option_map (fun r => r + lo a) (fmod (x - lo a) (wd a))
    else Some x
  else Some x.

Fixpoint wrap (b : box) (x : list Q) : list (option Q) :=
  match b, x with
  | a :: b', xd :: x' => wrap1 a xd :: wrap b' x'
  | _, _ => []
  end.

(* GFlowSim/src/gflow.cpp:548-572  GFlow::wrapPositions: applies to n < size_owned(). *)
Definition wrapPositions (b : box) (size_owned : nat) (xs : list (list Q)) : list (list (option Q)) :=
  map (wrap b) (firstn size_owned xs) ++ map (map Some) (skipn size_owned xs).

(* GFlowSim/src/gflow.cpp:585-597  body of the loop in GFlow::reflectPositions; (position, velocity). *)
Definition reflect1 (a : axis) (x v : Q) : Q * Q :=
  if bc_eqb (bc a) REFL then
    if Qltb x (lo a) then (2 * lo a - x, - v)
    else if Qltb (hi a) x then (2 * hi a - x, - v)
    else (x, v)
  else (x, v).

Fixpoint reflect_vec (b : box) (x v : list Q) : list (Q * Q) :=
  match b, x, v with
  | a :: b', xd :: x', vd :: v' => reflect1 a xd vd :: reflect_vec b' x' v'
  | _, _, _ => []
  end.

(* GFlowSim/src/utility/simd_generic.hpp:30  clamp *)
Definition clamp (a : Q) : Q := if Qltb a 0 then 0 else a.

(* GFlowSim/src/gflow.cpp:619-635  body of the loop in GFlow::repulsePositions. Result: increment of
   f(n,d), increment of boundaryForce, increment of boundaryEnergy. *)
Definition repulse1 (repulsion dissipation : Q) (a : axis) (x v : Q) : Q * Q * Q :=
  if bc_eqb (bc a) REPL then
    if Qltb x (lo a) then
      let dx := lo a - x in
      let F := 10 * repulsion * dx + dissipation * clamp (- v) in
      (F, F, (1#2) * repulsion * Qsqr dx)
    else if Qltb (hi a) x then
      let dx := x - hi a in
      let F := 10 * repulsion * dx + dissipation * clamp v in
      (- F, F, (1#2) * repulsion * Qsqr dx)
    else (0, 0, 0)
  else (0, 0, 0).

(* The double loop of GFlow::repulsePositions (gflow.cpp:605-641), for the particles with index below
   size_owned: new forces, boundaryForce, boundaryEnergy. *)
Fixpoint repulse_vec (rp ds : Q) (b : box) (x v f : list Q) : list Q * Q * Q :=
  match b, x, v, f with
  | a :: b', xd :: x', vd :: v', fd :: f' =>
      let '(df, bf, be) := repulse1 rp ds a xd vd in
      let '(fs, bF, bE) := repulse_vec rp ds b' x' v' f' in
      (fd + df :: fs, bf + bF, be + bE)
  | _, _, _, _ => ([], 0, 0)
  end.

Fixpoint repulsePositions (rp ds : Q) (b : box) (ps : list (list Q * list Q * list Q))
  : list (list Q) * Q * Q :=
  match ps with
  | [] => ([], 0, 0)
  | (x, v, f) :: ps' =>
      let '(f', bf, be) := repulse_vec rp ds b x v f in
      let '(fs, bF, bE) := repulsePositions rp ds b ps' in
      (f' :: fs, bf + bF, be + bE)
  end.

(* ------------------------------------------------------------------ Bounds *)

(* GFlowSim/src/utility/bounds.hpp / bounds.cpp: class Bounds, as the list of (min[d], max[d]). *)
Definition bounds := list (Q * Q).

(* bounds.cpp:86-93  Bounds::contains *)
Fixpoint contains (b : bounds) (x : list Q) : bool :=
  match b, x with
  | (m, M) :: b', xd :: x' => if Qltb xd m || Qle_bool M xd then false else contains b' x'
  | _, _ => true
  end.

(* bounds.cpp:99-104  Bounds::vol *)
Definition vol (b : bounds) : Q := fold_left (fun v mM => v * (snd mM - fst mM)) b 1.

(* bounds.cpp:126-135  Bounds::distance, squared (the code returns its square root). *)
Definition distanceSqr (b : bounds) (x : list Q) : Q :=
  fold_left (fun acc p => let '((m, M), xd) := p in
      if Qltb xd m then acc + Qsqr (m - xd)
      else if Qltb M xd then acc + Qsqr (xd - M) else acc) (combine b x) 0.

(* bounds.cpp:141-145  Bounds::center *)
Definition center (b : bounds) : list Q := map (fun mM => (1#2) * (snd mM + fst mM)) b.

(* utility.hpp / vectormath: GFlowSimulation::max, min *)
(* bounds.cpp:154-173  Bounds::intersection. The loop stops at the first empty axis and then zeroes
   everything; None models throw BadDimension. *)
Fixpoint inter_loop (A B : bounds) : option bounds :=   (* None: null_intersection *)
  match A, B with
  | (am, aM) :: A', (bm, bM) :: B' =>
      let m := Qmaxb am bm in let M := Qminb aM bM in
      if Qle_bool M m then None
      else match inter_loop A' B' with None => None | Some C => Some ((m, M) :: C) end
  | _, _ => Some []
  end.
Definition intersection (A B : bounds) : option bounds :=
  if Nat.eqb (length A) (length B) then
    match inter_loop A B with
    | Some C => Some C
    | None => Some (map (fun _ => (0, 0)) A)
    end
  else None.

(* bounds.cpp:175-178  max_width: reads wd(0), wd(1), wd(2) whatever the dimension; None = out of bounds
   read. (GFlowSimulation::max(a,b,c).) *)
Definition max_width (b : bounds) : option Q :=
  match nth_error b 0, nth_error b 1, nth_error b 2 with
  | Some (a, A), Some (c, C), Some (e, E) => Some (Qmaxb (Qmaxb (A - a) (C - c)) (E - e))
  | _, _, _ => None
  end.
