(* Recording and saving particles: compute/store_data.{hpp,cpp}; loading: compute/load_data.{hpp,cpp}. Paths under /repo/GFlowSim/src.
   Files are lists of characters. Numbers are exact rationals; how a stream prints and reads a floating point number (show, val) is a
   parameter. None: memory outside of a vector is used. *)
From Coq Require Import QArith List Bool ZArith Ascii String Decimal DecimalString.
From Verif Require Import Lib Model_Geometry.
Import ListNotations.
Local Open Scope list_scope.

Definition chars := list ascii.
Definition comma : ascii := ","%char.
Definition newline : ascii := "010"%char.
Definition cr : ascii := "013"%char.
(* fout << n for an int that is not negative *)
Definition show_nat (n : nat) : chars := list_ascii_of_string (NilEmpty.string_of_uint (Nat.to_uint n)).

(* ---------- store_data.hpp 45-80. initialize (store_data.cpp 8-68); getV, getS, getI: simData->getVectorData and so on, -1 for unknown names.
   The entries and the positions found for them *)
Record sdata := mkSD { d_vn : list string; d_mn : list string; d_sn : list string; d_in : list string;
  d_vp : list Z; d_mp : list Z; d_sp : list Z; d_ip : list Z; d_bounds : bounds; d_width : nat; d_dims : nat; d_nt : nat }.
Definition sdata0 : sdata := mkSD [] [] [] [] [] [] [] [] [] 0 0 0.
(* 70-88 set_vector_data, set_magnitude_data, set_scalar_data, set_integer_data, set_data_boundary *)
Definition set_entries (v m s i : list string) (d : sdata) : sdata :=
  mkSD v m s i (d_vp d) (d_mp d) (d_sp d) (d_ip d) (d_bounds d) (d_width d) (d_dims d) (d_nt d).
Definition set_boundary (b : bounds) (d : sdata) : sdata :=
  mkSD (d_vn d) (d_mn d) (d_sn d) (d_in d) (d_vp d) (d_mp d) (d_sp d) (d_ip d) b (d_width d) (d_dims d) (d_nt d).
Definition known (get : string -> Z) (l : list string) : list string := filter (fun e => (-1 <? get e)%Z) l.
Definition initialize (getV getS getI : string -> Z) (b : bounds) (dims nt : nat) (d : sdata) : sdata :=
  match nt with
  | O => mkSD (d_vn d) (d_mn d) (d_sn d) (d_in d) (d_vp d) (d_mp d) (d_sp d) (d_ip d) b (d_width d) dims nt
  | _ => let v := known getV (d_vn d) in let m := known getV (d_mn d) in let s := known getS (d_sn d) in let i := known getI (d_in d) in
         mkSD v m s i (d_vp d ++ map getV v) (d_mp d ++ map getV m) (d_sp d ++ map getS s) (d_ip d ++ map getI i) b
           (length v * dims + length m + length s + length i + 1) dims nt
  end.

(* A slot of the store: type, position, vector data, scalar data, integer data *)
Record slot := mkSlot { o_type : Z; o_x : list Q; o_vec : list (list Q); o_sc : list Q; o_int : list Z }.
(* the numbers that 116-139 write for slot n; mag is magnitudeVec *)
Definition row (mag : list Q -> Q) (rank : Z) (d : sdata) (o : slot) : list Q :=
  flat_map (fun v => firstn (d_dims d) (nth (Z.to_nat v) (o_vec o) [])) (d_vp d) ++ map (fun m => mag (nth (Z.to_nat m) (o_vec o) [])) (d_mp d)
  ++ map (fun s => nth (Z.to_nat s) (o_sc o) 0) (d_sp d) ++ map (fun i => inject_Z (nth (Z.to_nat i) (o_int o) 0%Z)) (d_ip d) ++ [inject_Z rank].
(* data[p] = v, data[p+1] = ... *)
Definition write_at (p : nat) (vals : list Q) (data : list Q) : option (list Q) :=
  if (p + length vals <=? length data)%nat then Some (firstn p data ++ vals ++ skipn (p + length vals) data) else None.
(* 102-141, 143-182 store; sel: the selection function (all particles without one). data_pointer is advanced by the length of the row *)
Fixpoint fill (mag : list Q -> Q) (rank : Z) (sel : nat -> bool) (d : sdata) (n : nat) (os : list slot) (p : nat) (data : list Q) : option (list Q) :=
  match os with
  | [] => Some data
  | o :: t =>
      if (o_type o <? 0)%Z || negb (contains (d_bounds d) (o_x o)) || negb (sel n) then fill mag rank sel d (S n) t p data
      else let r := row mag rank d o in
           match write_at p r (data ++ repeat 0%Q (d_width d)) with
           | None => None
           | Some data' => fill mag rank sel d (S n) t (p + length r) data'
           end
  end.
Definition store (mag : list Q -> Q) (rank : Z) (sel : nat -> bool) (d : sdata) (number : nat) (os : list slot) : option (list Q) :=
  if (d_width d =? 0)%nat || (number =? 0)%nat then Some [] else fill mag rank sel d 0 os 0 [].

(* ---------- writing. a, b, c with commas in between (printingutility.hpp 10-19 toCSV, and the loops of writeHeader) *)
Fixpoint csv (l : list chars) : chars := match l with [] => [] | a :: t => match t with [] => a | _ => a ++ comma :: csv t end end.
Definition str (s : string) : chars := list_ascii_of_string s.
(* 236-284 writeHeader; showb prints the bounds *)
Definition write_header (showb : Q -> chars) (d : sdata) (iters : nat) : chars :=
  csv [show_nat (d_width d); show_nat (d_dims d); show_nat iters; show_nat (d_nt d)] ++ newline ::
  flat_map (fun m => showb (fst m) ++ [comma]) (d_bounds d) ++ csv (map (fun m => showb (snd m)) (d_bounds d)) ++ newline ::
  show_nat (length (d_vn d)) ++ comma :: csv (map str (d_vn d)) ++ newline ::
  show_nat (length (d_mn d) + length (d_sn d)) ++ comma :: csv (map (fun n => str n ++ ["-"; "M"]%char) (d_mn d) ++ map str (d_sn d)) ++ newline ::
  show_nat (length (d_in d) + 1) ++ comma :: csv (map str (d_in d) ++ [str "Proc"]) ++ [newline].
(* 184-201, 203-218 write; V: the values recorded (floats), show prints one *)
Definition write_frame {V} (show : V -> chars) (v : list V) : chars :=
  match v with [] => ["0"%char; newline] | _ => show_nat (length v) ++ comma :: csv (map show v) ++ [newline] end.
Definition write {V} (showb : Q -> chars) (show : V -> chars) (d : sdata) (frames : list (list V)) : chars :=
  write_header showb d (length frames) ++ flat_map (write_frame show) frames.

(* ---------- load_data.hpp 29-44 getNextNumber: the characters of the number and the rest of the file *)
Definition isnum (c : ascii) : bool :=
  let n := nat_of_ascii c in ((48 <=? n) && (n <=? 57))%nat || Ascii.eqb c "."%char || Ascii.eqb c "-"%char || Ascii.eqb c "e"%char || Ascii.eqb c "E"%char.
Fixpoint next_number (f : chars) : chars * chars :=
  match f with
  | [] => ([], [])
  | c :: t => if Ascii.eqb c comma || Ascii.eqb c newline then ([], t) else let '(a, r) := next_number t in (if isnum c then c :: a else a, r)
  end.
(* stream >> val for an int: the digits at the start. None: no digits, val is not set (it is not initialised). A sign is not modelled: -1 is None *)
Fixpoint digits (s : chars) : chars := match s with [] => [] | c :: t => let n := nat_of_ascii c in if ((48 <=? n) && (n <=? 57))%nat then c :: digits t else [] end.
Definition read_int (s : chars) : option nat :=
  match digits s with [] => None | l => match NilEmpty.uint_of_string (string_of_list_ascii l) with Some u => Some (Nat.of_uint u) | None => None end end.
(* load_data.cpp 107-118 getNextString *)
Fixpoint next_string (f : chars) : chars * chars :=
  match f with
  | [] => ([], [])
  | c :: t => if Ascii.eqb c comma || Ascii.eqb c newline || Ascii.eqb c cr then ([], t) else let '(a, r) := next_string t in (c :: a, r)
  end.
Definition int_field (f : chars) : option (nat * chars) := let '(a, r) := next_number f in match read_int a with Some n => Some (n, r) | None => None end.
Fixpoint strings (k : nat) (f : chars) : list string * chars :=
  match k with O => ([], f) | S k' => let '(a, r) := next_string f in let '(l, r') := strings k' r in (string_of_list_ascii a :: l, r') end.
(* val: stream >> val for a floating point number; from an empty stream nothing is read and val is not initialised: None *)
Fixpoint numbers {V} (val : chars -> V) (k : nat) (f : chars) : option (list V * chars) :=
  match k with
  | O => Some ([], f)
  | S k' => let '(a, r) := next_number f in
            match a with [] => None | _ => match numbers val k' r with None => None | Some (l, r') => Some (val a :: l, r') end end
  end.
(* load_data.cpp 47-59 *)
Fixpoint frames_of {V} (val : chars -> V) (k : nat) (f : chars) : option (list (list V)) :=
  match k with
  | O => Some []
  | S k' => match int_field f with None => None | Some (n, r) =>
            match numbers val n r with None => None | Some (l, r') =>
            match frames_of val k' r' with None => None | Some t => Some (l :: t) end end end
  end.
(* load_data.hpp 48-62; load_data.cpp 11-65 load: what is read is added to the names and data that are there; None: an uninitialised number is used *)
Record ldata (V : Type) := mkLD { l_data : list (list V); l_bounds : bounds; l_width : nat; l_dims : nat; l_nt : nat; l_vn : list string; l_sn : list string; l_in : list string }.
Arguments mkLD {V}. Arguments l_data {V}. Arguments l_bounds {V}. Arguments l_width {V}. Arguments l_dims {V}. Arguments l_nt {V}. Arguments l_vn {V}. Arguments l_sn {V}. Arguments l_in {V}.
Definition ldata0 {V} : ldata V := mkLD [] [(0, 0); (0, 0)] 0 0 0 [] [] [].
Definition load {V} (valb : chars -> Q) (val : chars -> V) (f : chars) (d : ldata V) : option (ldata V) :=
  match int_field f with None => None | Some (width, f) =>
  match int_field f with None => None | Some (dims, f) =>
  match int_field f with None => None | Some (samples, f) =>
  match int_field f with None => None | Some (nt, f) =>
  match numbers valb dims f with None => None | Some (mins, f) => match numbers valb dims f with None => None | Some (maxs, f) =>
  match int_field f with None => None | Some (nv, f) => let '(vn, f) := strings nv f in
  match int_field f with None => None | Some (ns, f) => let '(sn, f) := strings ns f in
  match int_field f with None => None | Some (ni, f) => let '(inn, f) := strings ni f in
  match frames_of val samples f with None => None | Some fr =>
    Some (mkLD (l_data d ++ fr) (combine mins maxs) width dims nt (l_vn d ++ vn) (l_sn d ++ sn) (l_in d ++ inn))
  end end end end end end end end end end.

(* load_data.cpp 71-73 getEntries; None: data.at throws, or division by zero *)
Definition getEntries {V} (d : ldata V) (i : nat) : option nat :=
  match nth_error (l_data d) i with None => None | Some f => match l_width d with O => None | w => Some (length f / w)%nat end end.

(* ---------- visualization/visualization.cpp 357-361 find, 425-440: the places of the data of a particle in its row. sel: the color selection
   method (1 vector, 2 scalar, 3 integer data) and name; pos_place, v_select, sg_place, s_select, i_select *)
Fixpoint find_name (i : Z) (key : string) (l : list string) : Z :=
  match l with [] => (-1)%Z | a :: t => if String.eqb key a then i else find_name (i + 1) key t end.
Record places := mkPl { pos_place : Z; v_select : Z; sg_place : Z; s_select : Z; i_select : Z }.
Definition findPlaces (vn sn inn : list string) (dims : nat) (method : nat) (name : string) : places :=
  let shift := Z.of_nat (length vn * dims) in let shift2 := (shift + Z.of_nat (length sn))%Z in
  mkPl (find_name 0 "X"%string vn * Z.of_nat dims) (if (method =? 1)%nat then find_name 0 name vn * Z.of_nat dims else -1)
       (find_name 0 "Sg"%string sn + shift) (if (method =? 2)%nat then find_name 0 name sn + shift else -1)
       (if (method =? 3)%nat then find_name 0 name inn + shift2 else -1).
(* 478-493 do_checks *)
Definition do_checks (width : nat) (p : places) : bool := negb (width =? 0)%nat && (0 <=? pos_place p)%Z && (0 <=? sg_place p)%Z.

(* ---------- dataobjects/dataobjecttypes/data-base/particle-store-data.cpp 21-25 clear_all_data_entries: vector, magnitude, scalar, integer entries *)
Definition clear_entries (e : list string * list string * list string * list string) : list string * list string * list string * list string :=
  let '(v, m, s, i) := e in ([], m, [], []).
(* dataobjects/positiondata.cpp 17-27 pre_integrate (without the first recording) *)
Definition pos_pre (getV getS getI : string -> Z) (simb gather : bounds) (dims nt : nat) (e : list string * list string * list string * list string) (d : sdata) : sdata :=
  let '(v, m, s, i) := e in set_boundary gather (initialize getV getS getI simb dims nt (set_entries v m s i d)).
