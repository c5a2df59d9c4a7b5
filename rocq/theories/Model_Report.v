(* Tables of run statistics (utility/database.{hpp,cpp}), the run time as hours, minutes and seconds (utility/utility.hpp printAsTime),
   the frame rate chosen by the driver (applications/driver.cpp). Paths under /repo/GFlowSim/src.
   Texts are lists of characters, numbers exact rationals; how a stream prints a number (show) is a parameter. *)
From Coq Require Import QArith List Bool ZArith Ascii String.
From Verif Require Import Lib Model_Geometry Model_Save Model_Run.
Import ListNotations.
Local Open Scope list_scope.

(* ---------- database.hpp 10-93: a column *)
Record entry := mkEntry { e_name : chars; e_percent : option Q; e_data : list Q }.
(* database.hpp 53-56 print_name *)
Definition print_name (e : entry) : chars :=
  match e_percent e with
  | Some _ => e_name e ++ comma :: e_name e ++ list_ascii_of_string " - %"
  | None => e_name e
  end.
(* database.hpp 58-72 print. stream >> str reads up to the first blank: printed numbers have none *)
Definition print_cell (show : Q -> chars) (e : entry) (i : nat) : chars :=
  match nth_error (e_data e) i with
  | Some v =>
      match e_percent e with
      | Some total => show v ++ comma :: show (v / total * 100)%Q ++ ["%"%char]
      | None => show v
      end
  | None => match e_percent e with Some _ => [comma] | None => [] end
  end.
(* database.hpp 97-137 *)
Record database := mkDB { b_row : chars; b_cols : list entry; b_n : nat }.
(* database.hpp 97-101, database.cpp 5-10 *)
Definition new_db : database := mkDB (list_ascii_of_string "Row") [] 0.
Definition setNRows (n : nat) (b : database) : database := mkDB (b_row b) (b_cols b) n.
Definition setRowName (s : chars) (b : database) : database := mkDB s (b_cols b) (b_n b).
(* database.cpp 12-25: a column of zeros; another type: a message only *)
Definition addColumn_type (name : chars) (ty : ascii) (b : database) : database :=
  if (Ascii.eqb ty "I" || Ascii.eqb ty "R")%char then mkDB (b_row b) (b_cols b ++ [mkEntry name None (repeat 0%Q (b_n b))]) (b_n b) else b.
(* database.hpp 110-115 *)
Definition addColumn (name : chars) (data : list Q) (b : database) : database := mkDB (b_row b) (b_cols b ++ [mkEntry name None data]) (b_n b).
(* database.cpp 55-65: clear, last; database.hpp 84-87: last()->setUsePercent(true, total) *)
Definition clear_db (b : database) : database := mkDB (b_row b) [] (b_n b).
Definition use_percent (total : Q) (b : database) : database :=
  match rev (b_cols b) with
  | [] => b
  | e :: r => mkDB (b_row b) (rev r ++ [mkEntry (e_name e) (Some total) (e_data e)]) (b_n b)
  end.
(* database.cpp 28-53 printToCSV *)
Definition print_row (show : Q -> chars) (b : database) (i : nat) : chars :=
  show_nat i ++ flat_map (fun e => comma :: print_cell show e i) (b_cols b) ++ [newline].
Definition print_csv (show : Q -> chars) (b : database) : chars :=
  b_row b ++ flat_map (fun e => comma :: print_name e) (b_cols b) ++ newline :: flat_map (print_row show b) (seq 0 (b_n b)).

(* ---------- utility.hpp printAsTime: from 60 seconds on (below, the number of seconds is printed as usual) *)
Local Open Scope Q_scope.
Definition colon : ascii := ":"%char.
Definition zero_char : ascii := "0"%char.
Definition print_time (seconds : Q) : chars :=
  let hours := Qfloor (seconds / 3600) in
  let s1 := seconds - inject_Z (3600 * hours) in
  let minutes := Qfloor (s1 / 60) in
  let s2 := s1 - inject_Z (60 * minutes) in
  let sec := Qtrunc s2 in
  (if (hours =? 0)%Z then [] else if (hours <? 10)%Z then zero_char :: show_nat (Z.to_nat hours) ++ [colon] else show_nat (Z.to_nat hours) ++ [colon]) ++
  (if (minutes <? 10)%Z && (0 <? hours)%Z then zero_char :: show_nat (Z.to_nat minutes) ++ [colon]
   else show_nat (Z.to_nat minutes) ++ [colon]) ++
  (if Qltb s2 10 then zero_char :: show_nat (Z.to_nat sec) else show_nat (Z.to_nat sec)).

(* ---------- driver.cpp 355-371: the rate at which positions are recorded (animate); None: the delay is not changed *)
Definition video_fps (time startRec videoLength fps : Q) : option Q :=
  if Qltb 0 fps then Some fps else
  let videoTime := if Qltb 0 startRec then time - startRec else time in
  let len := if Qltb videoLength 0 then videoTime else videoLength in
  if Qltb 0 videoTime then Some (20 * len / videoTime) else None.
(* a new PositionData with that rate; None: the delay is infinite *)
Definition video_object (time startRec videoLength fps : Q) : option dob :=
  match video_fps time startRec videoLength fps with Some r => setFPS r (new_dob false) | None => Some (new_dob false) end.
