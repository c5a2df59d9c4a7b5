(* Histograms of samples. Paths under /repo/GFlowSim/src/. Exact rationals for RealType and float, Z for int (overflow not modelled);
   None: memory outside of a vector is used or an exception is thrown. *)
From Coq Require Import QArith List Bool ZArith.
From Verif Require Import Lib Model_Geometry.
Import ListNotations.
Local Open Scope Q_scope.

(* bins[b] = f(bins[b]) *)
Definition upd {A} (b : Z) (f : A -> A) (l : list A) : option (list A) :=
  if (0 <=? b)%Z && (b <? Z.of_nat (length l))%Z then
    Some (firstn (Z.to_nat b) l ++ match skipn (Z.to_nat b) l with [] => [] | a :: t => f a :: t end)
  else None.
(* The loops over samples: ix tells the bin of a sample, None if the sample is skipped. *)
Fixpoint tally {S A} (ix : S -> option Z) (add : S -> A -> A) (l : list S) (bins : list A) : option (list A) :=
  match l with
  | [] => Some bins
  | s :: t => match ix s with None => tally ix add t bins
              | Some b => match upd b (add s) bins with None => None | Some bins' => tally ix add t bins' end end
  end.

(* ---------- dataobjects/graphobjects/kineticenergybin.cpp 9-38 post_integrate. A sample: distance, kinetic energy, im[n]>0.
   data is empty before (GraphObject::pre_integrate); data.at(b) throws *)
Definition ke_ix (radius : Q) (n : Z) (s : Q * Q * bool) : option Z :=
  let '(r, ke, mob) := s in
  if mob && Qle_bool r radius then Some (Qtrunc (r / (radius / inject_Z n))) else None.
Definition ke_bins (radius : Q) (n : Z) (l : list (Q * Q * bool)) : option (list (Q * Q)) :=
  tally (ke_ix radius n) (fun s d => let '(_, ke, _) := s in (fst d, snd d + ke)) l
    (map (fun i => ((inject_Z (Z.of_nat i) + (1#2)) * (radius / inject_Z n), 0)) (seq 0 (Z.to_nat n))).

(* ---------- dataobjects/multigraphobjects/twowallbinforce.cpp 25-63 post_forces (a sample: distance dx after minimumImage, the sum of the
   two projected forces) with c = 2, twopolymerbinforce.cpp 176-195 (minD1, the projected force) with c = 1.
   A bin: sum of forces, count. *)
Definition force_ix (lo hi : Q) (n : Z) (s : Q * Q) : option Z :=
  if Qle_bool lo (fst s) && Qltb (fst s) hi then Some (Qtrunc ((fst s - lo) / ((hi - lo) / inject_Z n))) else None.
Definition force_bins (lo hi : Q) (n : Z) (c : Q) (l : list (Q * Q)) : option (list (Q * Q)) :=
  tally (force_ix lo hi n) (fun s d => (fst d + snd s, snd d + c)) l (repeat (0, 0) (Z.to_nat n)).
(* twowallbinforce.cpp 65-79 post_integrate: distance and mean force of each bin (twopolymerbinforce.cpp 61-77 also divides by 2*radius
   and keeps the sum when the count is 0) *)
Definition force_result (lo hi : Q) (n : Z) (bins : list (Q * Q)) : list (Q * Q) :=
  map (fun i => let d := nth i bins (0, 0) in
    ((inject_Z (Z.of_nat i) + (1#2)) * ((hi - lo) / inject_Z n) + lo, if Qltb 0 (snd d) then fst d / snd d else 0)) (seq 0 (Z.to_nat n)).

(* ---------- dataobjects/graphobjects/group-correlation.{hpp,cpp}: radius, bin_width, nbins, bins *)
Record corr := mkCorr { k_radius : Q; k_width : Q; k_n : Z; k_bins : list Z }.
(* group-correlation.hpp 37-43, .cpp 9-11 *)
Definition corr0 : corr := mkCorr (15#100) (15#10000) 100 (repeat 0%Z 100).
(* .cpp 13-20 pre_integrate *)
Definition corr_pre (k : corr) : corr := mkCorr (k_radius k) (k_width k) (k_n k) (repeat 0%Z (Z.to_nat (k_n k))).
(* .cpp 109-121 setRadius, setNBins *)
Definition corr_setRadius (r : Q) (k : corr) : corr := mkCorr r (r / inject_Z (k_n k)) (k_n k) (k_bins k).
Definition corr_setNBins (n : Z) (k : corr) : corr := mkCorr (k_radius k) (k_radius k / inject_Z n) n (repeat 0%Z (Z.to_nat n)).
(* .cpp 93-99: minDist of the particles near the group *)
Definition corr_ix (k : corr) (d : Q) : option Z := if Qle_bool d (k_radius k) then Some (Qtrunc (d / k_width k)) else None.
Definition corr_step (l : list Q) (k : corr) : option corr :=
  match tally (corr_ix k) (fun _ c => (c + 1)%Z) l (k_bins k) with None => None | Some b => Some (mkCorr (k_radius k) (k_width k) (k_n k) b) end.

(* ---------- dataobjects/graphobjects/center-correlation.cpp 12-38: distance of the movable particles to the axis *)
Definition center_ix (radius : Q) (n : Z) (d : Q) : option Z :=
  if Qltb (d * d) (radius * radius) then let b := Qtrunc (d / (radius / inject_Z n)) in if (b <? n)%Z then Some b else None else None.
Definition center_step (radius : Q) (n : Z) (l : list Q) (bins : list Z) : option (list Z) := tally (center_ix radius n) (fun _ c => (c + 1)%Z) l bins.
(* center-correlation.cpp 44-55 writeToFile: the pairs that are appended to data; what is written is data afterwards *)
Definition center_write (radius : Q) (n : Z) (bins : list Z) (data : list (Q * Q)) : list (Q * Q) :=
  data ++ map (fun i => (inject_Z (Z.of_nat i) * (radius / inject_Z n), inject_Z (nth i bins 0%Z))) (seq 0 (length bins)).

(* ---------- compute/binning2d.cpp *)
Record grid := mkG { g_nx : Z; g_ny : Z; g_x0 : Q; g_x1 : Q; g_y0 : Q; g_y1 : Q; g_bins : list (list Z) }.
(* 5-9 constructor *)
Definition grid_new (nx ny : Z) (x0 x1 y0 y1 : Q) : option grid :=
  if (nx <=? 0)%Z || (ny <=? 0)%Z then None else Some (mkG nx ny x0 x1 y0 y1 (repeat [] (Z.to_nat (nx * ny)))).
Definition grid_ix (g : grid) (s : Z * (Q * Q)) : option Z :=
  let bx := Qtrunc ((fst (snd s) - g_x0 g) / ((g_x1 g - g_x0 g) / inject_Z (g_nx g))) in
  let by_ := Qtrunc ((snd (snd s) - g_y0 g) / ((g_y1 g - g_y0 g) / inject_Z (g_ny g))) in
  if ((0 <=? bx) && (bx <? g_nx g) && (0 <=? by_) && (by_ <? g_ny g))%Z then Some (by_ * g_nx g + bx)%Z else None.
(* 30-41 bin_data: the points with their numbers 0, 1, ... *)
Definition bin_data (l : list (Q * Q)) (g : grid) : option grid :=
  if Qle_bool (g_x1 g) (g_x0 g) || Qle_bool (g_y1 g) (g_y0 g) then Some g else
  match tally (grid_ix g) (fun s b => b ++ [fst s]) (combine (map Z.of_nat (seq 0 (length l))) l) (g_bins g) with
  | None => None
  | Some b => Some (mkG (g_nx g) (g_ny g) (g_x0 g) (g_x1 g) (g_y0 g) (g_y1 g) b)
  end.
(* 43-45 at *)
Definition grid_at (x y : Z) (g : grid) : option (list Z) :=
  let k := (y * g_nx g + x)%Z in if (0 <=? k)%Z then nth_error (g_bins g) (Z.to_nat k) else None.

(* ---------- dataobjects/dataobjecttypes/volumeplotobject2d.cpp: one value per bin (data_width 1); a cell: sum, count.
   binX, binY, the bounds (min and width along x and y) and the cells *)
Record vol := mkV { v_bx : Z; v_by : Z; v_x0 : Q; v_wx : Q; v_y0 : Q; v_wy : Q; v_cells : list (list (Q * Z)) }.
(* 83-105 setBins (by by: as in the code) *)
Definition setBins (bx by_ : Z) (v : vol) : vol :=
  let cells := if negb (v_bx v =? bx)%Z || negb (v_by v =? by_)%Z then repeat (repeat (0, 0%Z) (Z.to_nat by_)) (Z.to_nat bx)
               else map (map (fun _ => (0, 0%Z))) (v_cells v) in
  mkV by_ by_ (v_x0 v) (v_wx v) (v_y0 v) (v_wy v) cells.
(* 7-13, volumeplotobject2d.hpp 61-64 constructor: no bins *)
Definition vol_new (x0 wx y0 wy : Q) : vol := mkV 0 0 x0 wx y0 wy [].
(* 15-41 pre_integrate (bounds with positive volume) *)
Definition vol_pre (mx : Z) (v : vol) : vol :=
  if (v_bx v =? 0)%Z || (v_by v =? 0)%Z then
    if Qltb (v_wx v) (v_wy v) then setBins (Qtrunc (v_wx v / (v_wy v / inject_Z mx))) mx v
    else setBins mx (Qtrunc (v_wy v / (v_wx v / inject_Z mx))) v
  else setBins (v_bx v) (v_by v) v.
Definition with_cells (c : list (list (Q * Z))) (v : vol) : vol := mkV (v_bx v) (v_by v) (v_x0 v) (v_wx v) (v_y0 v) (v_wy v) c.
(* 111-121 addToBin(px, py, 0, v, true); invdx = binX / wd(0) *)
Definition addToBin (px py q : Q) (v : vol) : option vol :=
  let x := Qtrunc (inject_Z (v_bx v) / v_wx v * (px - v_x0 v)) in
  let y := Qtrunc (inject_Z (v_by v) / v_wy v * (py - v_y0 v)) in
  if ((0 <=? x) && (x <? v_bx v) && (0 <=? y) && (y <? v_by v))%Z then
    match nth_error (v_cells v) (Z.to_nat x) with
    | None => None
    | Some col => match upd y (fun d => (fst d + q, (snd d + 1)%Z)) col with
                  | None => None
                  | Some col' => match upd x (fun _ => col') (v_cells v) with None => None | Some c => Some (with_cells c v) end
                  end
    end
  else Some v.
(* volumeplotobjects/radius-volumeplot.cpp 9-18 post_step: the particles inside of the bounds (Bounds::contains: half open) *)
Fixpoint vol_post_step (l : list (Q * Q * Q)) (v : vol) : option vol :=
  match l with
  | [] => Some v
  | (px, py, q) :: t =>
      if Qle_bool (v_x0 v) px && Qltb px (v_x0 v + v_wx v) && Qle_bool (v_y0 v) py && Qltb py (v_y0 v + v_wy v) then
        match addToBin px py q v with None => None | Some v' => vol_post_step t v' end
      else vol_post_step t v
  end.
(* one post_step for each element; radius-volumeplot.cpp 17 counts the frames *)
Fixpoint vol_run (steps : list (list (Q * Q * Q))) (v : vol) : option vol :=
  match steps with [] => Some v | l :: t => match vol_post_step l v with None => None | Some v' => vol_run t v' end end.
(* 59-70 writeToFile: centre of the bin, mean value, count divided by the number of frames (print_counts, the default) *)
Definition vol_lines (frames : Z) (v : vol) : list (Q * Q * Q * Q) :=
  flat_map (fun bx => map (fun b => let c := nth b (nth bx (v_cells v) []) (0, 0%Z) in
     (v_x0 v + (inject_Z (Z.of_nat bx) + (1#2)) * (v_wx v / inject_Z (v_bx v)), v_y0 v + (inject_Z (Z.of_nat b) + (1#2)) * (v_wy v / inject_Z (v_by v)),
      (if (0 <? snd c)%Z then fst c / inject_Z (snd c) else 0), if (0 <? frames)%Z then inject_Z (snd c) / inject_Z frames else inject_Z (snd c)))
   (seq 0 (Z.to_nat (v_by v)))) (seq 0 (Z.to_nat (v_bx v))).
