(* Ray tracing of spheres: visualization/raytracestructs.cpp, raykdtree.cpp, raytrace.cpp. Paths under /repo/GFlowSim/src. Exact real arithmetic, three dimensions. *)
From Coq Require Import Reals List ZArith.
Import ListNotations.
Local Open Scope R_scope.

Definition vec := nat -> R.
Definition dot (a b : vec) : R := a 0%nat * b 0%nat + a 1%nat * b 1%nat + a 2%nat * b 2%nat.
Definition vsub (a b : vec) : vec := fun d => a d - b d.
Definition vscale (k : R) (a : vec) : vec := fun d => k * a d.
Record ray := mkRay { r_o : vec; r_u : vec }.
Record sphere := mkSphere { s_c : vec; s_r : R; s_tag : nat }.

(* raytracestructs.cpp 40-69 Sphere::intersect: distance_near, distance_far *)
Definition intersect (r : ray) (s : sphere) (tmin : R) : option (R * R) :=
  let e := vsub (s_c s) (r_o r) in let v := dot (r_u r) e in
  if Rle_dec v 0 then None else
  let d := s_r s * s_r s - (dot e e - v * v) in
  if Rlt_dec d 0 then None else
  if Rlt_dec (v + sqrt d) tmin then None else Some (v - sqrt d, v + sqrt d).

(* raykdtree.hpp RayKDTreeNode: a leaf has no children *)
Inductive tree : Type := Leaf (l : list sphere) | Node (dim : nat) (split : R) (lower higher : tree).
(* raykdtree.cpp 14-23 insert *)
Fixpoint insert (s : sphere) (t : tree) : tree :=
  match t with
  | Leaf l => Leaf (l ++ [s])
  | Node d sp lo hi => Node d sp (if Rlt_dec (s_c s d - s_r s) sp then insert s lo else lo) (if Rlt_dec sp (s_c s d + s_r s) then insert s hi else hi)
  end.
(* raykdtree.cpp 25-29 empty *)
Fixpoint empty (t : tree) : tree := match t with Leaf _ => Leaf [] | Node d sp lo hi => Node d sp (empty lo) (empty hi) end.
(* raykdtree.cpp 31-49 traverse at a leaf: the nearest so far, its distances; 10000 at first *)
Definition nearest_so_far (b : option (sphere * (R * R))) : R := match b with None => 10000 | Some (_, (n, _)) => n end.
Definition scan (r : ray) (tmin : R) (l : list sphere) : option (sphere * (R * R)) :=
  fold_left (fun best s => match intersect r s tmin with
                           | Some (n, f) => if Rlt_dec n (nearest_so_far best) then Some (s, (n, f)) else best
                           | None => best end) l None.
(* raykdtree.cpp 52-98 traverse at an inner node *)
Fixpoint traverse (r : ray) (t : tree) (tmin tmax : R) : option (sphere * (R * R)) :=
  match t with
  | Leaf l => scan r tmin l
  | Node d sp lo hi =>
      let v := r_u r d in
      if Req_EM_T v 0 then (if Rlt_dec (r_o r d) sp then traverse r lo tmin tmax else traverse r hi tmin tmax)
      else
        let ts := (sp - r_o r d) / v in
        let lower_first := if Rlt_dec (tmin * v + r_o r d) sp then true else false in
        if (if Rgt_dec ts tmax then true else if Rlt_dec ts tmin then true else false)
        then (if lower_first then traverse r lo tmin tmax else traverse r hi tmin tmax)
        else if lower_first
          then match traverse r lo tmin tmax with None => traverse r hi tmin tmax | Some x => Some x end
          else match traverse r hi tmin tmax with None => traverse r lo tmin tmax | Some x => Some x end
  end.
(* raykdtree.cpp 105-108 getTotalSpheres *)
Fixpoint total_spheres (t : tree) : nat := match t with Leaf l => length l | Node _ _ lo hi => total_spheres lo + total_spheres hi end.
(* raytrace.cpp 212-224 createKDTree: the tree has some structure (from this or an earlier picture), it is emptied and the spheres are inserted *)
Definition fill (spheres : list sphere) (t : tree) : tree := fold_left (fun t s => insert s t) spheres (empty t).

(* raykdtree.cpp 134-160 getRayIntersectionParameters; lo, hi: bounds.min, bounds.max *)
Definition slab (lo hi o u : R) : option (R * R) :=
  if Req_EM_T u 0 then (if Rle_dec o lo then None else if Rle_dec hi o then None else Some (0, 10000))
  else if Rgt_dec u 0 then Some (Rmax ((lo - o) / u) 0, Rmax ((hi - o) / u) 0)
  else Some (Rmax ((hi - o) / u) 0, Rmax ((lo - o) / u) 0).
Definition ray_box (lo hi : vec) (r : ray) : option (R * R) :=
  match slab (lo 0%nat) (hi 0%nat) (r_o r 0%nat) (r_u r 0%nat), slab (lo 1%nat) (hi 1%nat) (r_o r 1%nat) (r_u r 1%nat), slab (lo 2%nat) (hi 2%nat) (r_o r 2%nat) (r_u r 2%nat) with
  | Some (a0, b0), Some (a1, b1), Some (a2, b2) =>
      let tmin := Rmax (Rmax a0 a1) a2 in let tmax := Rmin (Rmin b0 b1) b2 in if Rle_dec tmax tmin then None else Some (tmin, tmax)
  | _, _, _ => None
  end.
(* raykdtree.cpp 118-132 RayKDTree::traverse, raytrace.cpp 139-185 trace: what is seen. None: the ray does not meet the box *)
Definition look (lo hi : vec) (t : tree) (r : ray) : option (option (sphere * (R * R))) :=
  match ray_box lo hi r with None => None | Some (tmin, tmax) => Some (traverse r t tmin tmax) end.

(* utility/vectormath.hpp 150-155 normalizeVec *)
Definition normalize (a : vec) : vec := let mag := dot a a in vscale (if Rgt_dec mag 0 then 1 / sqrt mag else 0) a.
(* raytrace.cpp 25-41 initialize: camera_orientation, camera_up *)
Definition camera (o up : vec) : vec * vec :=
  let o1 := normalize o in let u1 := normalize up in let v := dot u1 o1 in
  if Req_EM_T v 0 then (o1, u1)
  else
    let '(u2, v2) := if Req_EM_T v 1 then let u' := normalize (fun d => if (d =? 0)%nat then u1 d + 1 else u1 d) in (u', dot u' o1) else (u1, v) in
    (o1, normalize (vsub u2 (vscale v2 o1))).
(* utility/simd_generic.hpp 30 clamp *)
Definition clamp (a : R) : R := if Rlt_dec a 0 then 0 else a.
(* raytrace.cpp 167-181: one channel of the colour of a point of a sphere; norm and light are unit vectors; static_cast<int> of a number that is not negative *)
Definition channel (base : R) (norm light : vec) (reflectivity light_color : R) : Z :=
  let intensity := (1 - base) * clamp (dot norm light) + base in Int_part (intensity * (reflectivity * light_color) * 255).
(* raytrace.cpp 97-103 addSphere: a colour 0..255 as reflectivity *)
Definition reflectivity (c : Z) : R := IZR c / 255.
(* utility/vectormath.hpp 38-42 crossVec *)
Definition cross (x y : vec) : vec := fun d => match d with
  | 0%nat => x 1%nat * y 2%nat - y 1%nat * x 2%nat
  | 1%nat => - x 0%nat * y 2%nat + y 0%nat * x 2%nat
  | _ => x 0%nat * y 1%nat - y 0%nat * x 1%nat end.
(* raytrace.cpp 50, 62-72 render: the direction of the ray of pixel (x, y) *)
Definition pixel (o up : vec) (pix_x pix_y x y : nat) : vec :=
  let right_ := cross o up in
  let dx := (INR x - INR pix_x / 2) / INR pix_x in let dy := (INR y - INR pix_y / 2) / INR pix_y in
  normalize (fun d => o d + dx * right_ d + dy * up d).
