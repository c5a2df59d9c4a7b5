(* Vocabulary of the claims about picture files. *)
From Verif Require Import Lib Model_Bmp.
Open Scope Z_scope.

(* the byte at an offset of a file, and little endian numbers *)
Definition byte_at (f : list Z) (k : Z) : Z := nth (Z.to_nat k) f (-1).
Definition word_at (f : list Z) (k : Z) : Z := byte_at f k + 256 * byte_at f (k + 1).
Definition dword_at (f : list Z) (k : Z) : Z := word_at f k + 65536 * word_at f (k + 2).

Definition is_byte (x : Z) : Prop := 0 <= x < 256.
Definition is_colour (p : px) : Prop :=
  is_byte (pr p) /\ is_byte (pg p) /\ is_byte (pb p) /\ is_byte (pa p).

(* column i, row j (from the top) is a pixel of the picture *)
Definition inside (b : bmp) (i j : Z) : Prop := 0 <= i < width b /\ 0 <= j < height b.

(* A picture: a size, a depth, and bytes as colours; depths below 16 have
   a table of 2^depth colours. *)
Definition picture (b : bmp) : Prop :=
  0 < width b < 2 ^ 31 /\ 0 < height b < 2 ^ 31 /\
  In (depth b) [1; 4; 8; 16; 24; 32] /\
  (forall i j, inside b i j -> is_colour (pixels b i j)) /\
  (depth b < 16 -> Forall is_colour (colors b) /\ Z.of_nat (length (colors b)) = 2 ^ depth b) /\
  0 <= xppm b < 2 ^ 31 /\ 0 <= yppm b < 2 ^ 31.

(* the number of bytes of a row: the smallest multiple of four that has room
   for the pixels *)
Definition row_size (depth width n : Z) : Prop :=
  n mod 4 = 0 /\ width * depth <= 8 * n /\
  forall m, m mod 4 = 0 -> width * depth <= 8 * m -> n <= m.

(* squared distance of two colours *)
Definition far (p q : px) : Z :=
  (pr p - pr q) ^ 2 + (pg p - pg q) ^ 2 + (pb p - pb q) ^ 2.
(* a colour of the table nearest to p *)
Definition nearest (table : list px) (p q : px) : Prop :=
  In q table /\ forall c, In c table -> far p q <= far p c.

(* What is left of a colour in a file of a given depth. *)
Definition stored (d : Z) (table : list px) (p q : px) : Prop :=
  (d = 32 -> q = p) /\
  (d = 24 -> pr q = pr p /\ pg q = pg p /\ pb q = pb p) /\
  (d = 16 -> pr q = 8 * (pr p / 8) /\ pg q = 8 * (pg p / 8) /\ pb q = 8 * (pb p / 8)) /\
  (d < 16 -> nearest table p q).
