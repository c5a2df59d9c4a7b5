(* Model of visualization/palette.cpp: the picture that is drawn on (Image),
   palettes and sub-palettes, circles, lines, and the references to the
   picture.  float and double are exact rationals.  A drawing function is
   the list of the calls of Image::set that it makes; None is an exception
   (BadPalette) or, where it says so, undefined behaviour.  The alpha value
   of a colour, which a file of depth 24 does not contain, is left out (0).
   Not modelled: drawCircleByFactors, drawSphereByFactors (empty),
   drawCircle_MidpointAlgorithm (not used). *)
From Verif Require Import Lib Model_Geometry Model_Bmp.
Open Scope Z_scope.

(* one call of Image::set *)
Record draw := mkDraw { d_x : Z; d_y : Z; d_col : px; d_depth : Q }.

(* palette.cpp 24-27, 36-44 Image::set with the default blend function: a
   pixel that is not set, or its colour and depth *)
Definition cell := option (px * Q).
Definition blend (c : cell) (col : px) (d : Q) : cell :=
  match c with
  | None => Some (col, d)
  | Some (p, d0) => Some (if Qltb d d0 then col else p, if Qltb d d0 then d else d0)
  end.
Definition image := Z -> Z -> cell.
(* palette.cpp 15-28 Image::Image *)
Definition new_image : image := fun _ _ => None.
(* palette.cpp 36-44: one pixel changes *)
Definition image_set (im : image) (d : draw) : image :=
  fun x y => if (x =? d_x d) && (y =? d_y d) then blend (im x y) (d_col d) (d_depth d) else im x y.
Definition drawn (l : list draw) : image := fold_left image_set l new_image.

(* palette.hpp 105 background: RGBApixel() (EasyBMP_DataStructures.h 72-73) *)
Definition background_px : px := mkPx 0 0 0 255.

(* palette.cpp 46-60 Image::setBMP *)
Definition set_bmp (im : image) (w h : Z) (b : bmp) : bmp :=
  let b := if (width b =? w) && (height b =? h) then b else set_size b w h in
  mkBmp (depth b) (width b) (height b)
        (fun x y => if (0 <=? x) && (x <? w) && (0 <=? y) && (y <? h)
                    then match im x y with Some (c, _) => c | None => background_px end
                    else pixels b x y)
        (colors b) (xppm b) (yppm b).

(* palette.cpp 178-181 writeToFile of a palette whose picture has w by h
   pixels: the picture (74-76) that is given to WriteToFile *)
Definition to_bmp (l : list draw) (w h : Z) : bmp :=
  set_bmp (drawn l) w h (set_size new_bmp w h).

(* palette.hpp 261-271: owned, bounds (bounds[0] = bounds[2] = 0) and space
   bounds, None if they were never set *)
Record palette := mkPal { o0 : Z; o1 : Z; o2 : Z; o3 : Z; pw : Z; ph : Z; space : option (Q * Q) }.

(* palette.cpp 64-83 Palette::Palette *)
Definition new_palette (w h : Z) : option palette :=
  if (w <=? 0) || (h <=? 0) then None
  else Some (mkPal 0 w 0 h w h (Some (1, inject_Z h / inject_Z w)%Q)).

(* palette.cpp 349-355 getWidth, getHeight *)
Definition get_width (p : palette) : Z := o1 p - o0 p.
Definition get_height (p : palette) : Z := o3 p - o2 p.

(* palette.cpp 361-364 setSpaceBounds *)
Definition set_space (p : palette) (w h : Q) : palette :=
  mkPal (o0 p) (o1 p) (o2 p) (o3 p) (pw p) (ph p) (Some (w, h)).

(* palette.cpp 183-193, 366-383 getSubPalette and the private constructor,
   which does not set the space bounds *)
Definition sub_palette (p : palette) (mx Mx my My : Z) : option palette :=
  if (Mx <? mx) || (My <? my) then None else
  let mx := if mx <? 0 then 0 else if get_width p <=? mx then get_width p else mx in
  let my := if my <? 0 then 0 else if get_height p <? my then get_height p else my in
  if (o0 p + Mx <=? o0 p + mx) || (o2 p + My <=? o2 p + my) then None
  else Some (mkPal (o0 p + mx) (o0 p + Mx) (o2 p + my) (o2 p + My) (pw p) (ph p) None).

(* palette.cpp 204-208 getSubPaletteCentered *)
Definition sub_centered (p : palette) (fx : Q) : option palette :=
  if Qle_bool (1#2) fx then None else
  let pix := Qtrunc (inject_Z (get_width p) * fx) in
  sub_palette p pix (get_width p - pix) pix (get_height p - pix).

(* palette.cpp 210-227 getMaxCenteredSubPalette: getWidth()/getHeight() is a
   division of integers *)
Definition sub_max (p : palette) (rx ry : Q) : option palette :=
  if Qle_bool rx 0 || Qle_bool ry 0 then None else
  let native := inject_Z (Z.quot (get_width p) (get_height p)) in
  let req := (rx / ry)%Q in
  if Qltb native req then
    let h := Qtrunc (inject_Z (get_width p) / req) in
    let gap := Z.quot (get_height p - h) 2 in
    sub_palette p 0 (get_width p) gap (get_height p - gap)
  else
    let w := Qtrunc (req * inject_Z (get_height p)) in
    let gap := Z.quot (get_width p - w) 2 in
    sub_palette p gap (get_width p - gap) 0 (get_height p).

(* palette.cpp 442-454 setPixel: y is counted from below *)
Definition set_px (p : palette) (x y : Z) (c : px) (d : Q) : list draw :=
  let X := x + o0 p in
  let Y := o3 p - y - 1 in
  if (X <? 0) || (pw p <=? X) || (Y <? 0) || (ph p <=? Y) then []
  else [mkDraw X Y c d].

(* the integers from lo to hi *)
Definition zrange (lo hi : Z) : list Z :=
  map (fun k => lo + Z.of_nat k) (seq 0 (Z.to_nat (hi - lo + 1))).

(* palette.cpp 336-341 coverPalette *)
Definition cover (p : palette) (c : px) (d : Q) : list draw :=
  flat_map (fun y => flat_map (fun x => set_px p x y c d) (zrange 0 (get_width p - 1)))
           (zrange 0 (get_height p - 1)).

(* palette.cpp 420-440 pixelFactorX, pixelPositionX and the same for Y: n is
   the width or height in pixels, b the one in space *)
Definition pixel_position (n : Z) (b : Q) (u : Z) : Q := (inject_Z u / inject_Z (n + 1) * b)%Q.

(* palette.cpp 262-265: wrapped once *)
Definition wrap1 (n u : Z) : Z :=
  let u := if n <=? u then u - n else u in if u <? 0 then u + n else u.

(* palette.cpp 229-273 drawCircle.  colorF: None is doColor = false.  The
   wrapped pixels get the default depth 0.  None: the space bounds were
   never set (undefined). *)
Definition circle (p : palette) (x y r : Q) (colorF : Q -> Q -> option px) (wrap : bool) (depth : Q)
  : option (list draw) :=
  match space p with
  | None => None
  | Some (bw, bh) =>
      let wx := get_width p in
      let wy := get_height p in
      let cx := (inject_Z wx / bw)%Q in
      let cy := (inject_Z wy / bh)%Q in
      let icx := (1 / cx)%Q in
      let icy := (1 / cy)%Q in
      let px := Qtrunc (x * cx) in
      let py := Qtrunc (y * cy) in
      let dpx := Qceiling (r * cx) in
      let dpy := Qceiling (r * cy) in
      let const_color := Z.min dpx dpy <? 3 in
      Some (flat_map (fun dy => flat_map (fun dx =>
        if Qle_bool (Qsqr (inject_Z dx * icx) + Qsqr (inject_Z dy * icy)) (Qsqr r) then
          let u := px + dx in
          let v := py + dy in
          let col := if const_color then colorF 0%Q 0%Q
                     else colorF ((pixel_position wx bw u - x) / r)%Q ((pixel_position wy bh v - y) / r)%Q in
          match col with
          | None => []
          | Some c =>
              if (0 <=? u) && (u <? wx) && (0 <=? v) && (v <? wy) then set_px p u v c depth
              else if wrap then set_px p (wrap1 wx u) (wrap1 wy v) c 0
              else []
          end
        else []) (zrange (- dpx) dpx)) (zrange (- dpy) dpy))
  end.

(* palette.hpp 66-72 operator*(float, RGBApixel) *)
Definition scale_px (a : Q) (c : px) : px :=
  mkPx (Qtrunc (a * inject_Z (pb c)) mod 256) (Qtrunc (a * inject_Z (pg c)) mod 256)
       (Qtrunc (a * inject_Z (pr c)) mod 256) 0.

(* palette.cpp 478-483 fpart, rfpart *)
Definition fpart (x : Q) : Q := (x - inject_Z (Qfloor x))%Q.
Definition rfpart (x : Q) : Q := (1 - x + inject_Z (Qfloor x))%Q.

(* a pixel of a line that may be steep *)
Definition line_px (p : palette) (steep : bool) (x y : Z) (c : px) (d : Q) : list draw :=
  if steep then set_px p y x c d else set_px p x y c d.

(* palette.cpp 517-531: the main loop, n more columns from x on *)
Fixpoint line_loop (p : palette) (steep : bool) (n : nat) (x : Z) (intery gradient : Q) (c : px) (d : Q)
  : list draw :=
  match n with
  | O => []
  | S m => line_px p steep x (Qfloor intery) (scale_px (rfpart intery) c) d
           ++ line_px p steep x (Qfloor intery + 1) (scale_px (fpart intery) c) d
           ++ line_loop p steep m (x + 1) (intery + gradient)%Q gradient c d
  end.

(* palette.cpp 460-533 drawLine_WuAlgorithm.  The ends are integers: round
   (486, 503) does nothing *)
Definition line (p : palette) (x0 y0 x1 y1 : Z) (c : px) (d : Q) : list draw :=
  let steep := Z.abs (x1 - x0) <? Z.abs (y1 - y0) in
  let '(x0, y0) := if steep then (y0, x0) else (x0, y0) in
  let '(x1, y1) := if steep then (y1, x1) else (x1, y1) in
  let '(x0, x1, y0, y1) := if x1 <? x0 then (x1, x0, y1, y0) else (x0, x1, y0, y1) in
  let dx := inject_Z (x1 - x0) in
  let dy := inject_Z (y1 - y0) in
  let gradient := if Qeq_bool dx 0 then 1%Q else (dy / dx)%Q in
  let yend0 := inject_Z y0 in
  let xgap0 := rfpart (inject_Z x0 + (1#2)) in
  let yend1 := inject_Z y1 in
  let xgap1 := fpart (inject_Z x1 + (1#2)) in
  line_px p steep x0 (Qfloor yend0) (scale_px (rfpart yend0 * xgap0) c) d
  ++ line_px p steep x0 (Qfloor yend0 + 1) (scale_px (fpart yend0 * xgap0) c) d
  ++ line_px p steep x1 (Qfloor yend1) (scale_px (rfpart yend1 * xgap1) c) d
  ++ line_px p steep x1 (Qfloor yend1 + 1) (scale_px (fpart yend1 * xgap1) c) d
  ++ line_loop p steep (Z.to_nat (x1 - x0 - 1)) (x0 + 1) (yend0 + gradient)%Q gradient c d.

(* palette.cpp 324-334 drawLineByFactors with a colour *)
Definition line_by_factors (p : palette) (xf0 yf0 xf1 yf1 : Q) (c : px) (d : Q) : list draw :=
  line p (Qtrunc (xf0 * inject_Z (get_width p))) (Qtrunc (yf0 * inject_Z (get_height p)))
         (Qtrunc (xf1 * inject_Z (get_width p))) (Qtrunc (yf1 * inject_Z (get_height p))) c d.

(* ---- references to the picture: palettes are numbered variables, pictures
   numbered objects *)
(* palette.hpp 255-259, 282: refs and image of a palette: which picture it
   refers to; the count and whether the picture was deleted *)
Record world := mkW { pal : nat -> option nat; refs : nat -> Z; deleted : nat -> bool; made : nat }.
Inductive op :=
| New (s : nat)          (* Palette s(w, h); *)
| Copy (s t : nat)       (* Palette t(s); or a sub-palette *)
| Assign (s t : nat)     (* t = s; *)
| Drop (s : nat).        (* the destructor of s *)

Definition upd {A} (f : nat -> A) (k : nat) (v : A) : nat -> A :=
  fun k' => if (k' =? k)%nat then v else f k'.

(* palette.cpp 64-176, 366-383: the counts.  None: not a program (a variable
   made twice, or used without being made). *)
Definition step (w : world) (o : op) : option world :=
  match o with
  | New s => match pal w s with
             | Some _ => None
             | None => Some (mkW (upd (pal w) s (Some (made w))) (upd (refs w) (made w) 1)
                                 (upd (deleted w) (made w) false) (S (made w)))
             end
  | Copy s t => match pal w s, pal w t with
                | Some i, None => Some (mkW (upd (pal w) t (Some i)) (upd (refs w) i (refs w i + 1))
                                            (deleted w) (made w))
                | _, _ => None
                end
  | Assign s t => match pal w s, pal w t with
                  | Some i, Some _ => Some (mkW (upd (pal w) t (Some i)) (upd (refs w) i (refs w i + 1))
                                                (deleted w) (made w))
                  | _, _ => None
                  end
  | Drop s => match pal w s with
              | None => None
              | Some i => Some (mkW (upd (pal w) s None) (upd (refs w) i (refs w i - 1))
                                    (if refs w i =? 1 then upd (deleted w) i true else deleted w) (made w))
              end
  end.
Fixpoint steps (w : world) (l : list op) : option world :=
  match l with
  | [] => Some w
  | o :: r => match step w o with None => None | Some w' => steps w' r end
  end.
Definition no_world : world := mkW (fun _ => None) (fun _ => 0) (fun _ => false) 0.
