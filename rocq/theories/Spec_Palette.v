(* Vocabulary of the claims about drawing. *)
From Verif Require Import Lib Model_Bmp Model_Palette.
Open Scope Z_scope.

(* draw number k of a list is the one that pixel (x, y) shows: it has the
   least depth of all draws of this pixel, and is the first with this depth *)
Definition on_top (l : list draw) (x y : Z) (k : nat) (d : draw) : Prop :=
  nth_error l k = Some d /\ d_x d = x /\ d_y d = y /\
  forall k' d', nth_error l k' = Some d' -> d_x d' = x -> d_y d' = y ->
    ((k' < k)%nat -> (d_depth d < d_depth d')%Q) /\ ((k < k')%nat -> (d_depth d <= d_depth d')%Q).

(* a palette that covers a part of its picture *)
Definition part_of_picture (p : palette) : Prop :=
  0 <= o0 p < o1 p /\ o1 p <= pw p /\ 0 <= o2 p < o3 p /\ o3 p <= ph p.

(* number u of the n pixels of a line contains x of the width b *)
Definition pixel_of (n : Z) (b x : Q) (u : Z) : Prop :=
  (inject_Z u <= x * inject_Z n / b < inject_Z u + 1)%Q.

(* pixels dx to the right and dy above of another one are within r *)
Definition in_disc (p : palette) (bw bh r : Q) (dx dy : Z) : Prop :=
  (Qsqr (inject_Z dx * bw / inject_Z (get_width p)) + Qsqr (inject_Z dy * bh / inject_Z (get_height p)) <= Qsqr r)%Q.

(* the height of the straight line through two points above x *)
Definition line_height (x0 y0 x1 y1 x : Z) : Q :=
  (inject_Z y0 + inject_Z (x - x0) * inject_Z (y1 - y0) / inject_Z (x1 - x0))%Q.
(* how strong pixel k of a column is if the line crosses it at height t *)
Definition strength (t : Q) (k : Z) : Q := (1 - Qabs (t - inject_Z k))%Q.
(* pixel k is just below or above t *)
Definition next_to (t : Q) (k : Z) : Prop := k = Qfloor t \/ k = Qfloor t + 1.
(* a colour of reduced strength *)
Definition dimmed (w : Q) (c c' : px) : Prop :=
  pr c' = Qfloor (w * inject_Z (pr c)) /\ pg c' = Qfloor (w * inject_Z (pg c)) /\
  pb c' = Qfloor (w * inject_Z (pb c)).
