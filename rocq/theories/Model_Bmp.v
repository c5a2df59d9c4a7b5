(* Model of EasyBMP/EasyBMP.cpp: bitmap objects, WriteToFile and
   ReadFromFile, byte by byte, on a little endian machine (IsBigEndian,
   EasyBMP_DataStructures.h 43-49, is false).  Numbers of the C++ types are
   integers; where a signed product or a conversion of a double would
   overflow the result is None (undefined).  Not modelled: a file that
   cannot be opened, fwrite errors, the meta data fields, Rescale, SetDPI. *)
From Verif Require Import Lib.
Open Scope Z_scope.

(* EasyBMP_DataStructures.h 65-76 RGBApixel: four bytes in the order in
   which they lie in memory. *)
Record px := mkPx { pb : Z; pg : Z; pr : Z; pa : Z }.

(* EasyBMP_BMP.h 30-36: the fields of a picture.  Colors = NULL is the
   empty list.  pixels i j is Pixels[i][j] (column i, row j from the top). *)
Record bmp := mkBmp { depth : Z; width : Z; height : Z;
                      pixels : Z -> Z -> px; colors : list px;
                      xppm : Z; yppm : Z }.

(* EasyBMP.cpp 410-419, 890-894 *)
Definition white : px := mkPx 255 255 255 0.

(* EasyBMP.cpp 1100-1111: the standard table of depth 1 *)
Definition std1 : list px := [mkPx 0 0 0 0; mkPx 255 255 255 0].

(* EasyBMP.cpp 1118-1145, 1179-1192: the triple loop that makes eight
   colours from one strength *)
Definition cube (s : Z) : list px :=
  flat_map (fun ell => flat_map (fun k => map (fun j =>
    mkPx (ell * s) (k * s) (j * s) 0) [0;1]) [0;1]) [0;1].

(* replace an entry of a table *)
Fixpoint put {A} (l : list A) (n : nat) (a : A) : list A :=
  match l, n with
  | [], _ => []
  | _ :: r, O => a :: r
  | x :: r, S m => x :: put r m a
  end.

(* EasyBMP.cpp 1113-1156: the standard table of depth 4 *)
Definition std4 : list px := put (cube 128 ++ cube 255) 8 (mkPx 192 192 192 0).

(* EasyBMP.cpp 1158-1254: the standard table of depth 8: the easy loop, the
   first eight colours, colours 7, 8, 9 and colours 246 to 255 *)
Definition easy8 : list px :=
  flat_map (fun ell => flat_map (fun k => map (fun j =>
    mkPx (ell * 64) (k * 32) (j * 32) 0) [0;1;2;3;4;5;6;7]) [0;1;2;3;4;5;6;7]) [0;1;2;3].
Definition std8 : list px :=
  firstn 7 (cube 128) ++
  [mkPx 192 192 192 0; mkPx 192 220 192 0; mkPx 240 202 166 0] ++
  firstn 236 (skipn 10 easy8) ++
  [mkPx 240 251 255 0; mkPx 164 160 160 0; mkPx 128 128 128 0; mkPx 0 0 255 0;
   mkPx 0 255 0 0; mkPx 0 255 255 0; mkPx 255 0 0 0; mkPx 255 0 255 0;
   mkPx 255 255 0 0; mkPx 255 255 255 0].

(* EasyBMP.cpp 1086-1256 CreateStandardColorTable *)
Definition standard_table (d : Z) : list px :=
  if d =? 1 then std1 else if d =? 4 then std4 else if d =? 8 then std8 else [].

(* EasyBMP.cpp 36-43 IntPow(2, d), 344-350 TellNumberOfColors (the depths
   with a table) *)
Definition ncolors (d : Z) : Z := 2 ^ d.

(* EasyBMP.cpp 352-381 SetBitDepth: unknown depths are refused *)
Definition known_depth (d : Z) : bool :=
  (d =? 1) || (d =? 4) || (d =? 8) || (d =? 16) || (d =? 24) || (d =? 32).
Definition set_depth (b : bmp) (d : Z) : bmp :=
  if known_depth d
  then mkBmp d (width b) (height b) (pixels b) (standard_table d) (xppm b) (yppm b)
  else b.

(* EasyBMP.cpp 383-422 SetSize: all pixels white; sizes that are not
   positive are refused *)
Definition set_size (b : bmp) (w h : Z) : bmp :=
  if (w <=? 0) || (h <=? 0) then b
  else mkBmp (depth b) w h (fun _ _ => white) (colors b) (xppm b) (yppm b).

(* EasyBMP.cpp 137-141 SetPixel (no check: i, j must be in the picture) *)
Definition set_pixel (b : bmp) (i j : Z) (p : px) : bmp :=
  mkBmp (depth b) (width b) (height b)
        (fun i' j' => if (i' =? i) && (j' =? j) then p else pixels b i' j')
        (colors b) (xppm b) (yppm b).

(* EasyBMP.cpp 116-135 GetPixel: the nearest pixel of the picture *)
Definition get_pixel (b : bmp) (i j : Z) : px :=
  let i := if width b <=? i then width b - 1 else i in
  let i := if i <? 0 then 0 else i in
  let j := if height b <=? j then height b - 1 else j in
  let j := if j <? 0 then 0 else j in
  pixels b i j.

(* EasyBMP.cpp 223-239 BMP::BMP (the one pixel is black, opaque) *)
Definition new_bmp : bmp := mkBmp 24 1 1 (fun _ _ => mkPx 0 0 0 255) [] 0 0.

(* EasyBMP.cpp 181-221 GetColor, for ColorNumber >= 0 *)
Definition get_color (d : Z) (cols : list px) (k : Z) : px :=
  if negb ((d =? 1) || (d =? 4) || (d =? 8)) then white else
  match cols with
  | [] => white
  | _ => if ncolors d <=? k then white else nth (Z.to_nat k) cols white
  end.

(* EasyBMP.cpp 1732-1734: the squared distance of two colours *)
Definition cdist (a p : px) : Z :=
  (pr a - pr p) * (pr a - pr p) + (pg a - pg p) * (pg a - pg p)
  + (pb a - pb p) * (pb a - pb p).

(* EasyBMP.cpp 1720-1742 FindClosestColor: the loop from colour i on; n
   colours remain; BestI is a byte *)
Fixpoint closest_loop (d : Z) (cols : list px) (p : px) (n : nat) (i best bestm : Z) : Z :=
  match n with
  | O => best
  | S m =>
      let t := cdist (get_color d cols i) p in
      let best' := if t <? bestm then i mod 256 else best in
      let bestm' := if t <? bestm then t else bestm in
      if bestm' <? 1 then best'
      else closest_loop d cols p m (i + 1) best' bestm'
  end.
Definition closest (d : Z) (cols : list px) (p : px) : Z :=
  closest_loop d cols p (Z.to_nat (ncolors d)) 0 0 999999.

(* fwrite of an n byte number, little endian *)
Fixpoint le (n : nat) (v : Z) : list Z :=
  match n with
  | O => []
  | S m => v mod 256 :: le m (v / 256)
  end.

(* EasyBMP.cpp 557-561, 929-933: the loops that make BufferSize large enough
   (at most eight rounds are ever needed) *)
Fixpoint raise (again : Z -> bool) (fuel : nat) (v : Z) : Z :=
  match fuel with
  | O => v
  | S f => if again v then raise again f (v + 1) else v
  end.
(* EasyBMP.cpp 557-561: the bytes of a row in the file *)
Definition buffer_size (d w : Z) : Z :=
  let b := (w * d) / 8 in
  let b := raise (fun b => 8 * b <? w * d) 8 b in
  raise (fun b => negb (b mod 4 =? 0)) 8 b.

(* EasyBMP.cpp 454-464: the same number, as computed for the header *)
Definition bytes_per_row (d w : Z) : Z :=
  let b := - ((- (w * d)) / 8) in              (* ceil(w * d / 8.0) *)
  let pad := 4 - b mod 4 in
  let pad := if pad =? 4 then 0 else pad in
  b + pad.

(* EasyBMP.cpp 466-472: room for the table or the masks *)
Definition table_size (d : Z) : Z :=
  if (d =? 1) || (d =? 4) || (d =? 8) then 4 * ncolors d
  else if d =? 16 then 12 else 0.

(* EasyBMP.cpp 474: the size of the file *)
Definition total_size (d w h : Z) : Z := 14 + 40 + table_size d + h * bytes_per_row d w.

(* EasyBMP.cpp 476-532: both headers *)
Definition headers (b : bmp) : list Z :=
  let d := depth b in
  le 2 19778 ++ le 4 (total_size d (width b) (height b)) ++ le 2 0 ++ le 2 0
  ++ le 4 (14 + 40 + table_size d)
  ++ le 4 40 ++ le 4 (width b) ++ le 4 (height b) ++ le 2 1 ++ le 2 d
  ++ le 4 (if d =? 16 then 3 else 0)
  ++ le 4 (height b * bytes_per_row d (width b))
  ++ le 4 (if xppm b =? 0 then 3780 else xppm b)
  ++ le 4 (if yppm b =? 0 then 3780 else yppm b)
  ++ le 4 0 ++ le 4 0.

(* the four bytes of a colour *)
Definition px_bytes (p : px) : list Z := [pb p; pg p; pr p; pa p].

(* the pixels of row j *)
Definition row (b : bmp) (j : Z) : list px :=
  map (fun i => pixels b (Z.of_nat i) j) (seq 0 (Z.to_nat (width b))).

(* EasyBMP.cpp 1672-1718 Write4bitRow, Write1bitRow: one byte from up to
   length ws colour numbers, and the numbers that remain *)
Fixpoint pack_group (ws xs : list Z) (acc : Z) : Z * list Z :=
  match ws, xs with
  | w :: ws', x :: xs' => pack_group ws' xs' (acc + w * x)
  | _, _ => (acc, xs)
  end.
Fixpoint pack (fuel : nat) (ws xs : list Z) : list Z :=
  match fuel with
  | O => []
  | S f => match xs with
           | [] => []
           | _ => let g := pack_group ws xs 0 in (fst g mod 256) :: pack f ws (snd g)
           end
  end.
Definition weights4 : list Z := [16; 1].
Definition weights1 : list Z := [128; 64; 32; 16; 8; 4; 2; 1].

(* EasyBMP.cpp 1642-1718 Write32bitRow .. Write1bitRow *)
Definition row_bytes (d : Z) (cols : list px) (r : list px) : list Z :=
  if d =? 32 then flat_map px_bytes r
  else if d =? 24 then flat_map (fun p => [pb p; pg p; pr p]) r
  else if d =? 8 then map (closest d cols) r
  else if d =? 4 then pack (length r) weights4 (map (closest d cols) r)
  else if d =? 1 then pack (length r) weights1 (map (closest d cols) r)
  else [].

(* EasyBMP.cpp 563-599: a row and the zeros of the buffer behind it *)
Definition padded (n : Z) (l : list Z) : list Z :=
  l ++ repeat 0 (Z.to_nat n - length l).

(* rows n - 1 down to 0 *)
Fixpoint down (n : nat) : list Z :=
  match n with O => [] | S m => Z.of_nat m :: down m end.

(* EasyBMP.cpp 638-647: two bytes for a pixel: five, six and five bits *)
Definition word16 (p : px) : Z :=
  Z.shiftl (pr p / 8) 11 + Z.shiftl (pg p / 4) 5 + pb p / 8.

(* EasyBMP.cpp 602-662: the masks and the rows of depth 16.  ZeroWORD (z)
   and the padding (k-th byte of row j: pad j k) are not initialised. *)
Definition padding16 (w : Z) : Z := (4 - (w * 2) mod 4) mod 4.
Definition pixels16 (b : bmp) (z : Z) (pad : Z -> nat -> Z) : list Z :=
  le 2 63488 ++ le 2 z ++ le 2 2016 ++ le 2 z ++ le 2 31 ++ le 2 z
  ++ flat_map (fun j => flat_map (fun p => le 2 (word16 p)) (row b j)
                        ++ map (pad j) (seq 0 (Z.to_nat (padding16 (width b)))))
              (down (Z.to_nat (height b))).

(* EasyBMP.cpp 424-666 WriteToFile: the bytes of the file.  None: the width
   times the depth overflows an int, or the size an unsigned int. *)
Definition write (z : Z) (pad : Z -> nat -> Z) (b : bmp) : option (list Z) :=
  let d := depth b in
  if (2 ^ 31 <=? width b * d) || (2 ^ 32 <=? total_size d (width b) (height b)) then None
  else
    let cols := if (d =? 1) || (d =? 4) || (d =? 8)
                then match colors b with [] => standard_table d | c => c end else [] in
    Some (headers b ++ flat_map px_bytes cols ++
          if d =? 16 then pixels16 b z pad
          else flat_map (fun j => padded (buffer_size d (width b)) (row_bytes d cols (row b j)))
                        (down (Z.to_nat (height b)))).

(* SafeFread (EasyBMP.cpp 1258-1268) of an n byte number: the number and the
   bytes that follow, None at the end of the file *)
Definition le_val (l : list Z) : Z := fold_right (fun x v => x + 256 * v) 0 l.
Definition get (n : nat) (s : list Z) : option (Z * list Z) :=
  if (length s <? n)%nat then None else Some (le_val (firstn n s), skipn n s).

Record header := mkHd { h_off : Z; h_width : Z; h_height : Z; h_bits : Z;
                        h_comp : Z; h_xppm : Z; h_yppm : Z }.

(* EasyBMP.cpp 722-748: the rest of the headers; None: corrupted *)
Definition get_headers (s : list Z) : option (header * list Z) :=
  match get 4 s with None => None | Some (_, s) =>
  match get 2 s with None => None | Some (_, s) =>
  match get 2 s with None => None | Some (_, s) =>
  match get 4 s with None => None | Some (off, s) =>
  match get 4 s with None => None | Some (_, s) =>
  match get 4 s with None => None | Some (w, s) =>
  match get 4 s with None => None | Some (h, s) =>
  match get 2 s with None => None | Some (_, s) =>
  match get 2 s with None => None | Some (bits, s) =>
  match get 4 s with None => None | Some (comp, s) =>
  match get 4 s with None => None | Some (_, s) =>
  match get 4 s with None => None | Some (xp, s) =>
  match get 4 s with None => None | Some (yp, s) =>
  match get 4 s with None => None | Some (_, s) =>
  match get 4 s with None => None | Some (_, s) =>
    Some (mkHd off w h bits comp xp yp, s)
  end end end end end end end end end end end end end end end.

(* conversion of an unsigned to a signed 32 bit number *)
Definition s32 (v : Z) : Z := if 2 ^ 31 <=? v then v - 2 ^ 32 else v.

(* EasyBMP.cpp 884-887: n colours of the file from colour number i on; at
   the end of the file the entry stays *)
Fixpoint read_colors (n : nat) (s : list Z) (tbl : list px) : list px * list Z :=
  match n, tbl with
  | S m, c :: r =>
      match s with
      | a0 :: a1 :: a2 :: a3 :: s' =>
          let g := read_colors m s' r in (mkPx a0 a1 a2 a3 :: fst g, snd g)
      | _ => let g := read_colors m [] r in (c :: fst g, snd g)
      end
  | _, _ => (tbl, s)
  end.

(* EasyBMP.cpp 1594-1640 Read4bitRow, Read1bitRow: the colour numbers in
   the bytes of a row, in the order of the pixels *)
Definition unpack (masks : list (Z * Z)) (bytes : list Z) : list Z :=
  flat_map (fun x => map (fun m => Z.shiftr (Z.land x (fst m)) (snd m)) masks) bytes.
Definition masks4 : list (Z * Z) := [(240, 4); (15, 0)].
Definition masks1 : list (Z * Z) :=
  [(128, 7); (64, 6); (32, 5); (16, 4); (8, 3); (4, 2); (2, 1); (1, 0)].

(* EasyBMP.cpp 1561-1640 Read32bitRow .. Read1bitRow: pixel i of a row from
   the buffer; old is what the pixel was *)
Definition decode (d : Z) (cols : list px) (buf : list Z) (i : Z) (old : px) : px :=
  let at_ k := nth (Z.to_nat k) buf 0 in
  if d =? 32 then mkPx (at_ (4 * i)) (at_ (4 * i + 1)) (at_ (4 * i + 2)) (at_ (4 * i + 3))
  else if d =? 24 then mkPx (at_ (3 * i)) (at_ (3 * i + 1)) (at_ (3 * i + 2)) (pa old)
  else if d =? 8 then get_color d cols (at_ i)
  else if d =? 4 then get_color d cols (nth (Z.to_nat i) (unpack masks4 buf) 0)
  else if d =? 1 then get_color d cols (nth (Z.to_nat i) (unpack masks1 buf) 0)
  else old.

(* EasyBMP.cpp 936-973: rows n - 1 down to 0 from the file, as long as there
   are enough bytes *)
Fixpoint read_rows (d w : Z) (cols : list px) (n : nat) (s : list Z) (f : Z -> Z -> px)
  : Z -> Z -> px :=
  match n with
  | O => f
  | S m =>
      let size := Z.to_nat (buffer_size d w) in
      if (length s <? size)%nat then f
      else read_rows d w cols m (skipn size s)
             (fun i j => if (j =? Z.of_nat m) && (0 <=? i) && (i <? w)
                         then decode d cols (firstn size s) i (f i j) else f i j)
  end.

(* EasyBMP.cpp 1030-1041: how far a mask has to be shifted *)
Fixpoint mask_shift (fuel : nat) (m : Z) : Z :=
  match fuel with
  | O => 0
  | S f => if 31 <? m then 1 + mask_shift f (Z.shiftr m 1) else 0
  end.

(* EasyBMP.cpp 1057-1067: a pixel of depth 16 *)
Definition channel16 (mask v : Z) : Z :=
  (8 * Z.shiftr (Z.land mask v) (mask_shift 16 mask)) mod 256.

(* EasyBMP.cpp 1047-1070: the pixels i, i+1, .. of row j (n of them); None at
   the end of the file: the word read is not initialised *)
Fixpoint read_row16 (rm gm bm : Z) (n : nat) (i j : Z) (s : list Z) (f : Z -> Z -> px)
  : option ((Z -> Z -> px) * list Z) :=
  match n with
  | O => Some (f, s)
  | S m => match get 2 s with
           | None => None
           | Some (v, s') =>
               read_row16 rm gm bm m (i + 1) j s'
                 (fun i' j' => if (i' =? i) && (j' =? j)
                    then mkPx (channel16 bm v) (channel16 gm v) (channel16 rm v) (pa (f i' j'))
                    else f i' j')
           end
  end.
(* EasyBMP.cpp 1045-1078: rows n - 1 down to 0, each followed by padding *)
Fixpoint read_rows16 (rm gm bm w : Z) (n : nat) (s : list Z) (f : Z -> Z -> px)
  : option (Z -> Z -> px) :=
  match n with
  | O => Some f
  | S m => match read_row16 rm gm bm (Z.to_nat w) 0 (Z.of_nat m) s f with
           | None => None
           | Some (f', s') => read_rows16 rm gm bm w m (skipn (Z.to_nat (padding16 w)) s') f'
           end
  end.
(* EasyBMP.cpp 989-1010: one mask and the word behind it; it keeps its
   default at the end of the file *)
Definition get_mask (default : Z) (s : list Z) : Z * list Z :=
  match get 2 s with
  | None => (default, [])
  | Some (m, s') => (m, skipn 2 s')
  end.

(* EasyBMP.cpp 668-1084 ReadFromFile: the return value and the picture.
   None: undefined behaviour.  A file of less than two bytes leaves bfType
   as the constructor of BMFH set it. *)
Definition failed (b : bmp) : option (bool * bmp) := Some (false, set_depth (set_size b 1 1) 1).
Definition read (b : bmp) (s : list Z) : option (bool * bmp) :=
  let ty := match get 2 s with None => (19778, []) | Some g => g end in
  if negb (fst ty =? 19778) then Some (false, b) else
  match get_headers (snd ty) with
  | None => failed b
  | Some (h, s) =>
  let b := mkBmp (depth b) (width b) (height b) (pixels b) (colors b) (s32 (h_xppm h)) (s32 (h_yppm h)) in
  if (h_comp h =? 1) || (h_comp h =? 2) then failed b
  else if 3 <? h_comp h then failed b
  else if (h_comp h =? 3) && negb (h_bits h =? 16) then failed b
  else if negb (known_depth (h_bits h)) then failed b
  else
  let d := h_bits h in
  let b := set_depth b d in
  let w := s32 (h_width h) in
  let hh := s32 (h_height h) in
  if (w <=? 0) || (hh <=? 0) then failed b
  else
  let b := set_size b w hh in
  if 2 ^ 31 <=? w * d then None else
  (* 865-899 the table *)
  let off := s32 (h_off h) in
  let ntab := Z.quot (off - 54) 4 in
  let ntab := if ncolors d <? ntab then ncolors d else ntab in
  if (d <? 16) && (ntab <? 0) then None else
  let tab := if d <? 16
             then let g := read_colors (Z.to_nat ntab) s (colors b) in
                  (firstn (Z.to_nat ntab) (fst g) ++
                   repeat white (length (colors b) - Z.to_nat ntab), snd g)
             else (colors b, s) in
  let b := mkBmp d w hh (pixels b) (fst tab) (xppm b) (yppm b) in
  let s := snd tab in
  (* 901-921, 1014-1026 bytes to skip *)
  let skip := off - 54 in
  let skip := if d <? 16 then skip - 4 * ncolors d else skip in
  let skip := if (d =? 16) && (h_comp h =? 3) then skip - 12 else skip in
  let skip := if skip <? 0 then 0 else skip in
  if d =? 16 then
    let r := if h_comp h =? 0 then (31744, s) else get_mask 31744 s in
    let g := if h_comp h =? 0 then (992, s) else get_mask 992 (snd r) in
    let bl := if h_comp h =? 0 then (31, s) else get_mask 31 (snd g) in
    match read_rows16 (fst r) (fst g) (fst bl) w (Z.to_nat hh)
                      (skipn (Z.to_nat skip) (snd bl)) (pixels b) with
    | None => None
    | Some f => Some (true, mkBmp d w hh f (colors b) (xppm b) (yppm b))
    end
  else
    Some (true, mkBmp d w hh
            (read_rows d w (colors b) (Z.to_nat hh) (skipn (Z.to_nat skip) s) (pixels b))
            (colors b) (xppm b) (yppm b))
  end.
