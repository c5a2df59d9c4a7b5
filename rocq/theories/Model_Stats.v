(* dataobjects/twogroupstatistics.cpp and dataobjects/parameters.cpp. Paths under /repo/GFlowSim/src. Exact rationals for real. *)
From Coq Require Import String.
From Verif Require Import Lib Model_Geometry.
Open Scope Q_scope.

(* ---------- twogroupstatistics.cpp *)
(* twogroupstatistics.hpp 35-58: sizes and the two tables *)
Record stats := mkStats { x_bx : Z; x_by : Z; x_rmax : Q; x_vmax : Q; x_fmax : Q; x_v : Z -> Z -> Z; x_f : Z -> Z -> Z }.
(* 100-108 setBins *)
Definition set_bins (x y : Z) (s : stats) : stats := mkStats x y (x_rmax s) (x_vmax s) (x_fmax s) (fun _ _ => 0%Z) (fun _ _ => 0%Z).
Definition inc (i j : Z) (t : Z -> Z -> Z) : Z -> Z -> Z := fun a b => if ((a =? i) && (b =? j))%Z then (t a b + 1)%Z else t a b.
(* 52, 56: static_cast<int>(0.5*bins_y*(v + v_max)/v_max) *)
Definition value_bin (by_ : Z) (vmax v : Q) : Z := Qtrunc ((1#2) * inject_Z by_ * (v + vmax) / vmax).
(* 30-58 post_step; r, f, v: distance of the centres of mass, relative force and velocity along the line between them *)
Definition stat_step (s : stats) (sample : Q * Q * Q) : stats :=
  let '(r, f, v) := sample in
  if Qltb r (x_rmax s) then
    let br := Qtrunc (r / x_rmax s * inject_Z (x_bx s)) in
    let bf := value_bin (x_by s) (x_fmax s) f in
    let bv := value_bin (x_by s) (x_vmax s) v in
    mkStats (x_bx s) (x_by s) (x_rmax s) (x_vmax s) (x_fmax s)
      (if ((0 <=? bv) && (bv <? x_by s))%Z then inc br bv (x_v s) else x_v s)
      (if ((0 <=? bf) && (bf <? x_by s))%Z then inc br bf (x_f s) else x_f s)
  else s.
(* 9-11 pre_integrate, then the samples *)
Definition stat_run (s : stats) (l : list (Q * Q * Q)) : stats := fold_left stat_step l (set_bins (x_bx s) (x_by s) s).
(* 60-98 writeToFile: line (x, y) of the velocity file and of the force file (bins_y > 1) *)
Definition vel_line (s : stats) (x y : Z) : Q * Q * Z :=
  let dr := x_rmax s / inject_Z (x_bx s) in
  let dv := 2 * x_vmax s / inject_Z (x_by s) in
  ((1#2) * dr + inject_Z x * dr, - x_vmax s + inject_Z y * dv, x_v s x y).
Definition force_line (s : stats) (x y : Z) : Q * Q * Z :=
  let dr := x_rmax s / inject_Z (x_bx s) in
  let df := 2 * x_fmax s / inject_Z (x_by s - 1) in
  (0 + inject_Z x * dr, - x_fmax s + inject_Z y * df, x_f s x y).

(* ---------- parameters.cpp: std::map<string, RealType> in the order of the names *)
(* 7-9 addRecord: insert does nothing if the name is there *)
Fixpoint add_record (name : string) (v : Q) (m : list (string * Q)) : list (string * Q) :=
  match m with
  | [] => [(name, v)]
  | (k, u) :: r =>
      if String.eqb name k then m
      else if String.ltb name k then (name, v) :: m else (k, u) :: add_record name v r
  end.
Definition records (l : list (string * Q)) : list (string * Q) := fold_left (fun m a => add_record (fst a) (snd a) m) l [].
(* 34-39 find: found or not, and value (which is left alone if not found) *)
Fixpoint find_record (name : string) (value : Q) (m : list (string * Q)) : bool * Q :=
  match m with [] => (false, value) | (k, u) :: r => if String.eqb name k then (true, u) else find_record name value r end.
