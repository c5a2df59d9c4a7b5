(* Polymers, lines of particles and boxes: creators/polymercreator.cpp, creators/boxcreator.cpp. Paths under /repo/GFlowSim/src. Exact rationals; random numbers are arbitrary streams. *)
From Verif Require Import Lib Model_Geometry Model_Fill.
From Coq Require Import Qround.
Local Open Scope Q_scope.

(* std::sort (polymercreator.cpp 199, 378): any sort gives the same list of numbers *)
Fixpoint insert (a : Q) (l : list Q) : list Q := match l with [] => [a] | b :: l' => if Qle_bool a b then a :: l else b :: insert a l' end.
Fixpoint isort (l : list Q) : list Q := match l with [] => [] | a :: l' => insert a (isort l') end.

(* 188: the number of primary particles *)
Definition primaries (phi len rP : Q) : nat := Z.to_nat (Qceiling ((1 # 2) * phi * len / rP)).
(* 190 (uniform_spacing is true: polymercreator.hpp 68, never changed): chain links hidden in a primary particle *)
Definition extra (rP rC : Q) : Z := Qfloor ((rP - rC) / rC).
(* 191, 306: distance between neighbours, 2 rC spacing_factor; None: division by zero *)
Definition link_distance (rP rC : Q) : option Q := if (extra rP rC + 1 =? 0)%Z then None else Some (2 * rC * (rP / (inject_Z (extra rP rC + 1) * rC))).
(* 194-199 *)
Definition marks (rnd : stream) (phi len : Q) (np : nat) : list Q := isort (0 :: map (fun i => rnd i * len * (1 - phi)) (seq 0 np) ++ [len * (1 - phi)]).
(* 206-211, 223-225: the links of one gap; u: the number drawn *)
Definition links (u gap rC : Q) (more : Z) : Z := let expected := (1 # 2) * gap / rC + inject_Z more in let ncl := Qfloor expected in if Qltb u (inject_Z ncl - expected) then (ncl + 1)%Z else ncl.
(* 203-228: the order of the particles (true: primary); k: numbers drawn so far; [first]: the first gap has one link less *)
Fixpoint ordering (rnd : stream) (k : nat) (first : bool) (rP rC : Q) (l : list Q) : list bool :=
  match l with
  | a :: ((b :: l') as rest) =>
      match l' with
      | [] => repeat false (Z.to_nat (links (rnd k) (b - a) rC 0))
      | _ => let ncl := links (rnd k) (b - a) rC (extra rP rC) in let ncl := if first then Z.max 0 (ncl - 1) else ncl in
             repeat false (Z.to_nat ncl) ++ true :: ordering rnd (S k) false rP rC rest
      end
  | _ => []
  end.
(* 183-230 createPolymerArrangement *)
Definition arrangement (rnd : stream) (phi len rP rC : Q) : list bool := let np := primaries phi len rP in ordering rnd np true rP rC (marks rnd phi len np).

(* 316-320, 393-397: a coordinate is brought back by one width *)
Definition wrap1 (mM : Q * Q) (x : Q) : Q := let w := snd mM - fst mM in if Qltb x (fst mM) then x + w else if Qle_bool (snd mM) x then x - w else x.
Fixpoint wrap_all (b : bounds) (x : list Q) : list Q := match b, x with mM :: b', xd :: x' => wrap1 mM xd :: wrap_all b' x' | _, _ => x end.
Definition step_along (dx : Q) (v x : list Q) : list Q := map (fun p => fst p + snd p * dx) (combine x v).

(* a particle of a polymer *)
Record bead := mkBead { b_id : Z; b_x : list Q; b_sg : Q; b_im : Q; b_type : Z }.
Record polymer := mkPoly { p_beads : list bead; p_group : list Z; p_chain : list Z; p_bonds : list (Z * Z) }.
(* 143-180 make_bond_objects: (harmonicbonds, harmonicchain) for the number of dimensions and useAngle *)
Definition bond_objects (dims : nat) (use_angle : bool) : bool * bool := (negb use_angle, use_angle && ((dims =? 2)%nat || (dims =? 3)%nat)).
(* 292-341: the beads; v: the unit direction (sigma_v = 0: it stays; its normalisation is not modelled); [prev]: id of the bead before *)
Fixpoint make_beads (objs : bool * bool) (b : bounds) (dx rP rC imP imC : Q) (idP idC : Z) (v : list Q) (prev : option Z) (gid : Z) (x : list Q) (l : list bool) : polymer :=
  match l with
  | [] => mkPoly [] [] [] []
  | t :: l' =>
      let x' := wrap_all b (step_along (match prev with None => 0 | Some _ => dx end) v x) in
      let p := make_beads objs b dx rP rC imP imC idP idC v (Some gid) (gid + 1) x' l' in
      let bead := if t then mkBead gid x' rP imP idP else mkBead gid x' rC imC idC in
      mkPoly (bead :: p_beads p) (gid :: p_group p) (if snd objs then gid :: p_chain p else p_chain p)
             (match prev with Some g => if fst objs && snd objs then (g, gid) :: p_bonds p else p_bonds p | None => p_bonds p end)
  end.

(* 373: int n = phi*length/(2*spacing*rP) *)
Definition line_number (phi len spacing rP : Q) : nat := Z.to_nat (Qfloor (phi * len / (2 * spacing * rP))).
(* 375-378 *)
Definition line_marks (rnd : stream) (phi len : Q) (n : nat) : list Q := isort (0 :: map (fun i => rnd i * len * (1 - phi)) (seq 0 n)).
(* 386-411: heights X[1] of the particles, without the wrapping *)
Fixpoint line_heights (first : bool) (spacing rP y : Q) (l : list Q) : list Q :=
  match l with
  | a :: ((b :: _) as rest) => let y' := y + (b - a + (if first then spacing * rP else 2 * spacing * rP)) in y' :: line_heights false spacing rP y' rest
  | _ => []
  end.
Definition random_line (rnd : stream) (phi len spacing rP y0 : Q) : list Q := line_heights true spacing rP y0 (line_marks rnd phi len (line_number phi len spacing rP)).
(* 420-468 createOrderedLine: distance = length/n *)
Fixpoint ordered_heights (first : bool) (distance y : Q) (n : nat) : list Q :=
  match n with O => [] | S n' => let y' := y + (if first then (1 # 2) * distance else distance) in y' :: ordered_heights false distance y' n' end.
Definition ordered_line (phi len spacing rP y0 : Q) : list Q := let n := line_number phi len spacing rP in ordered_heights true (len / inject_Z (Z.of_nat n)) y0 n.

(* ---------- boxcreator.cpp 66-80: the bounds; width, height already positive *)
Definition box_bounds (dims : nat) (width height : Q) : bounds := map (fun d => if (d =? 1)%nat then (- (1 # 2) * height, (1 # 2) * height) else (- (1 # 2) * width, (1 # 2) * width)) (seq 0 dims).
(* 84-87: number = phi*vol/sphere_volume, vol = width^dims *)
Definition box_number (dims : nat) (phi width sv : Q) : nat := Z.to_nat (Qfloor (phi * (width ^ Z.of_nat dims) / sv)).
(* 103-107: the positions *)
Definition box_position (dims : nat) (width : Q) (rnd : stream) (k : nat) : list Q := map (fun d => (rnd (k + d)%nat - (1 # 2)) * width) (seq 0 dims).
