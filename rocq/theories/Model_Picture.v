(* Model of visualization/visualization.cpp: pictures of particles in two
   dimensions (createImage), where the values of a particle are in its data,
   the scales and the colours.  float is exact.  Not modelled: projectImage,
   createImage3d (see Model_Ray), the colour by direction (an angle), the
   logarithmic colour, load_and_create. *)
From Coq Require Import String.
From Verif Require Import Lib Model_Geometry Model_Bmp Model_Palette.
Open Scope Z_scope.

(* ---- createImage *)
(* visualization.hpp, the fields that createImage uses *)
Record scene := mkScene { s_wx : Q; s_wy : Q; s_left : Q; s_bott : Q; s_res : Z;
                          s_back : px; s_wrap : bool; s_mult : Q }.
(* a particle: position, radius, colour (see determine_color below) *)
Record dot := mkDot { t_x : Q; t_y : Q; t_sigma : Q; t_col : px }.

(* palette.hpp 60-63 operator* of colours, 47-49 makePixel *)
Definition times_px (a : px) (s : Z) : px :=
  mkPx (pb a * s / 255) (pg a * s / 255) (pr a * s / 255) 0.

(* visualization.cpp 182-193 the colour function: darker outside *)
Definition shade (c : px) (xf yf : Q) : option px :=
  let s := (255 * (1 - (1#2) * (Qsqr xf + Qsqr yf)))%Q in
  if Qltb s 0 then None else Some (times_px c (Qfloor s)).

(* visualization.cpp 152-154 the size of the picture *)
Definition resolution (s : scene) : Z * Z :=
  if Qltb (s_wy s) (s_wx s) then (s_res s, Qtrunc (s_wy s / s_wx s * inject_Z (s_res s)))
  else if Qltb (s_wx s) (s_wy s) then (Qtrunc (s_wx s / s_wy s * inject_Z (s_res s)), s_res s)
  else (s_res s, s_res s).

(* visualization.cpp 156, 158, 160-161 the palettes: the whole picture, the
   part inside of the border, and the part for the particles *)
Definition palettes (s : scene) : option (palette * palette * palette) :=
  match new_palette (fst (resolution s)) (snd (resolution s)) with
  | None => None
  | Some p =>
      match sub_centered p (1#100) with
      | None => None
      | Some q =>
          match sub_max q (s_wx s) (s_wy s) with
          | None => None
          | Some r => Some (p, q, set_space r (s_wx s) (s_wy s))
          end
      end
  end.

(* visualization.cpp 166-197 the particles, in order *)
Fixpoint dots (s : scene) (r : palette) (l : list dot) : option (list draw) :=
  match l with
  | [] => Some []
  | t :: l' =>
      match circle r (t_x t - s_left s) (t_y t - s_bott s) (s_mult s * t_sigma t) (shade (t_col t)) (s_wrap s) 0 with
      | None => None
      | Some a => match dots s r l' with None => None | Some b => Some (a ++ b) end
      end
  end.

(* visualization.cpp 147-200 createImage: the size of the picture and what is
   drawn; None: an exception *)
Definition create_image (s : scene) (l : list dot) : option (Z * Z * list draw) :=
  match palettes s with
  | None => None
  | Some (p, q, r) =>
      match dots s r l with
      | None => None
      | Some a => Some (pw p, ph p,
          cover p (mkPx 0 0 0 0) 1000 ++ cover q (mkPx 255 255 255 0) 1000 ++ cover r (s_back s) 1000 ++ a)
      end
  end.

(* ---- where the data is *)
(* visualization.cpp 357-361 find: the index of the first one, or -1 *)
Fixpoint find_from (k : Z) (key : string) (l : list string) : Z :=
  match l with
  | [] => -1
  | s :: r => if String.eqb key s then k else find_from (k + 1) key r
  end.
Definition find (key : string) (l : list string) : Z := find_from 0 key l.

(* the names of the data (visualization.hpp 163-165) and the dimensions *)
Record names := mkNames { n_vec : list string; n_sca : list string; n_int : list string; n_dim : Z }.
(* the choice of the colours (visualization.hpp 173, 182, 185, 196) *)
Record choice := mkChoice { c_method : Z; c_name : string; c_fun : Z; c_update : bool }.

(* visualization.cpp 442-476 chooseSelectionType *)
Definition choose (n : names) (c : choice) (method : Z) (name : string) : bool * choice :=
  let l := if method =? 1 then n_vec n else if method =? 2 then n_sca n else n_int n in
  if existsb (String.eqb name) l then (true, mkChoice method name (c_fun c) (c_update c)) else (false, c).

(* visualization.cpp 363-423: the predefined choices *)
Definition predefined (n : names) (opt : Z) (c : choice) : choice :=
  let c := mkChoice (c_method c) (c_name c) (c_fun c) true in
  if negb (c_method c =? 0) then c else
  if opt =? 0 then snd (choose n c 3 "Type")
  else if opt =? 2 then
    let r := choose n c 2 "V-M" in if fst r then snd r else snd (choose n c 1 "V")
  else if opt =? 3 then let r := snd (choose n c 1 "V") in mkChoice (c_method r) (c_name r) 1 (c_update r)
  else if opt =? 4 then snd (choose n c 2 "Distance")
  else if opt =? 5 then let r := snd (choose n c 2 "StripeX") in mkChoice (c_method r) (c_name r) 2 false
  else if opt =? 6 then snd (choose n c 3 "Proc")
  else if opt =? 7 then snd (choose n c 2 "Om")
  else if opt =? 8 then snd (choose n c 2 "F-M")
  else c.

(* visualization.cpp 77-81 setColorOption *)
Definition set_option (n : names) (opt : Z) (c : choice) : choice :=
  predefined n opt (mkChoice 0 (c_name c) (c_fun c) (c_update c)).

Record places := mkPlaces { l_pos : Z; l_sg : Z; l_v : Z; l_s : Z; l_i : Z }.
(* visualization.cpp 425-439 findPlaces *)
Definition find_places (n : names) (c : choice) : places :=
  let shift := Z.of_nat (length (n_vec n)) * n_dim n in
  let shift2 := shift + Z.of_nat (length (n_sca n)) in
  mkPlaces (find "X" (n_vec n) * n_dim n)
           (find "Sg" (n_sca n) + shift)
           (if c_method c =? 1 then find (c_name c) (n_vec n) * n_dim n else -1)
           (if c_method c =? 2 then find (c_name c) (n_sca n) + shift else -1)
           (if c_method c =? 3 then find (c_name c) (n_int n) + shift2 else -1).

(* visualization.cpp 478-493 do_checks *)
Definition do_checks (width : Z) (l : places) : bool :=
  if width =? 0 then false else if l_pos l <? 0 then false else if l_sg l <? 0 then false else true.

(* visualization.cpp 495-510 get_values: position, radius, and the data for
   the colour *)
Definition value_at (data : list Q) (k : Z) : Q := nth (Z.to_nat k) data 0%Q.
Definition vector_at (data : list Q) (dim k : Z) : list Q := firstn (Z.to_nat dim) (skipn (Z.to_nat k) data).
Record values := mkValues { u_pos : list Q; u_sigma : Q; u_v : option (list Q); u_s : Q; u_i : Z }.
Definition get_values (n : names) (l : places) (data : list Q) : values :=
  mkValues (vector_at data (n_dim n) (l_pos l))
           (if l_sg l <? 0 then 0%Q else value_at data (l_sg l))
           (if 0 <=? l_v l then Some (vector_at data (n_dim n) (l_v l)) else None)
           (if 0 <=? l_s l then value_at data (l_s l) else 0%Q)
           (if 0 <=? l_i l then Qtrunc (value_at data (l_i l)) else 0).

(* ---- scales and colours *)
(* visualization.cpp 307-322 findScalarScaleFactors: the values of all
   particles (at least one): least, largest, average; dataWidth/size is a
   division of integers *)
Definition scalar_step (r : Q * Q * Q) (a : Q) : Q * Q * Q :=
  let '(mn, mx, sum) := r in
  (if Qltb a mn then a else mn, if Qltb a mn then mx else if Qltb mx a then a else mx, sum + a)%Q.
Definition scalar_scales (width : Z) (v : Q) (l : list Q) : Q * Q * Q :=
  let size := width * (1 + Z.of_nat (length l)) in
  let '(mn, mx, sum) := fold_left scalar_step (v :: l) (v, v, 0%Q) in
  (mn, mx, (sum * inject_Z (Z.quot width size))%Q).

(* visualization.cpp 291-305 findVectorScaleFactors: one component of the
   average *)
Definition vector_average (width : Z) (l : list Q) : Q :=
  (Qsum l * inject_Z (Z.quot width (width * Z.of_nat (length l))))%Q.

(* visualization.cpp 344-346 getColor: c becomes an unsigned 64 bit number *)
Definition get_bank (bank : list px) (c : Z) : px :=
  nth (Z.to_nat ((c mod 2 ^ 64) mod Z.of_nat (length bank))) bank (mkPx 0 0 0 0).

(* visualization.cpp 542-546 colour by a value; None: division by zero and
   the conversion of a NaN (undefined) *)
Definition value_color (mn mx s : Q) : option px :=
  if Qeq_bool mn mx then None else
  let value := ((s - mn) / (mx - mn))%Q in
  Some (mkPx (Qceiling (200 * (1 - value)) mod 256) 0 (Qfloor (255 * value) mod 256) 0).

(* visualization.cpp 552-558 colour by stripes *)
Definition stripe_color (mn mx s : Q) (bank : list px) : option px :=
  if Qeq_bool mn mx then None else
  let size := Z.of_nat (length bank) in
  let select := Qtrunc ((s - mn) / (mx - mn) * inject_Z size) in
  let select := if select <? 0 then 0 else if size <=? select then size - 1 else select in
  Some (get_bank bank select).
