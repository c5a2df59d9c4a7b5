(* Vocabulary of the claims about pictures of particles. *)
From Coq Require Import String.
From Verif Require Import Lib Model_Bmp Model_Palette Model_Picture Spec_Palette.
Open Scope Z_scope.

(* A particle of radius rad at (x, y) of a region of wx by wy covers pixel
   (i, j) of the picture, which gets colour c: the pixel is within rad of the
   pixel of the centre, possibly across an edge.  The colour is the one of
   the particle, darker outside, or the plain colour if the disc has a radius
   of at most two pixels. *)
Definition darker (col : px) (a : Q) (c : px) : Prop :=
  (0 <= 255 * (1 - a / 2))%Q /\
  let f := Qfloor (255 * (1 - a / 2)) in
  pr c = pr col * f / 255 /\ pg c = pg col * f / 255 /\ pb c = pb col * f / 255 /\ pa c = 0.

Definition covers (r : palette) (wx wy x y rad : Q) (wrap : bool) (col : px) (i j : Z) (c : px) : Prop :=
  exists px py dx dy,
  pixel_of (get_width r) wx x px /\ pixel_of (get_height r) wy y py /\
  in_disc r wx wy rad dx dy /\
  let u := px + dx in
  let v := py + dy in
  let small := (rad * (inject_Z (get_width r) / wx) <= 2 \/ rad * (inject_Z (get_height r) / wy) <= 2)%Q in
  (small -> darker col 0 c) /\
  (~ small -> darker col (Qsqr ((inject_Z u / inject_Z (get_width r + 1) * wx - x) / rad)
                        + Qsqr ((inject_Z v / inject_Z (get_height r + 1) * wy - y) / rad)) c) /\
  ((0 <= u < get_width r /\ 0 <= v < get_height r /\ i = o0 r + u /\ j = o3 r - 1 - v) \/
   (wrap = true /\ ~ (0 <= u < get_width r /\ 0 <= v < get_height r) /\
    i = o0 r + u mod get_width r /\ j = o3 r - 1 - v mod get_height r)).

(* entry k of a list of names is the first one with a name *)
Definition first_named (l : list string) (name : string) (k : nat) : Prop :=
  nth_error l k = Some name /\ forall k', (k' < k)%nat -> nth_error l k' <> Some name.

(* what the predefined colour options use: kind of data (1 vector, 2 scalar,
   3 integer) and name, in the order of preference *)
Definition wanted (opt : Z) : list (Z * string) :=
  if opt =? 0 then [(3, "Type"%string)]
  else if opt =? 2 then [(2, "V-M"%string); (1, "V"%string)]
  else if opt =? 3 then [(1, "V"%string)]
  else if opt =? 4 then [(2, "Distance"%string)]
  else if opt =? 5 then [(2, "StripeX"%string)]
  else if opt =? 6 then [(3, "Proc"%string)]
  else if opt =? 7 then [(2, "Om"%string)]
  else if opt =? 8 then [(2, "F-M"%string)]
  else [].
Definition has (n : names) (w : Z * string) : Prop :=
  In (snd w) (if fst w =? 1 then n_vec n else if fst w =? 2 then n_sca n else n_int n).
