(* Fields of mean velocities: compute/field_properties.{hpp,cpp}, as used in applications/vistools.cpp. Paths under /repo/GFlowSim/src/.
   Exact rationals for float and RealType; None: memory outside of a vector is used or an exception is thrown. *)
From Coq Require Import QArith List Bool ZArith String.
From Verif Require Import Lib Model_Geometry Model_Bins.
Import ListNotations.
Local Open Scope Q_scope.

(* field_properties.cpp 16: res = 0.15 *)
Definition res : Q := 3 # 20.
(* compute/binning2d.cpp 33-35: data[i*data_width + 0], data[i*data_width + 1] of the entries 0, 1, ... *)
Fixpoint places (data : list Q) (w : nat) (ids : list nat) : option (list (Q * Q)) :=
  match ids with
  | [] => Some []
  | i :: t => match nth_error data (i * w), nth_error data (i * w + 1), places data w t with
              | Some x, Some y, Some l => Some ((x, y) :: l)
              | _, _, _ => None
              end
  end.
(* field_properties.cpp 117-119 vel with vel_place = 2 (121-127 setPlaces(2), called in 12) *)
Definition vel (data : list Q) (w : nat) (id : Z) (d : nat) : option Q := nth_error data (w * Z.to_nat id + 2 + d).
(* 50-55: vsqr, ave_vx, ave_vy *)
Fixpoint add_vel (data : list Q) (w : nat) (ids : list Z) (acc : Q * Q * Q) : option (Q * Q * Q) :=
  match ids with
  | [] => Some acc
  | id :: t => match vel data w id 0, vel data w id 1 with
               | Some vx, Some vy => let '(s, ax, ay) := acc in add_vel data w t (s + (vx * vx + vy * vy), ax + vx, ay + vy)
               | _, _ => None
               end
  end.
(* What the fields hold for one cell: phi_field, the square of ave_v_field, ave_v_vector_field. Not modelled: var_v_field. *)
Record cellv := mkCV { c_phi : Z; c_speed2 : Q; c_v : Q * Q }.
(* 45-68: the body of the loops over the cells *)
Definition cell_of (data : list Q) (w : nat) (ids : list Z) : option cellv :=
  let num := Z.of_nat (length ids) in
  match add_vel data w ids (0, 0, 0) with
  | None => None
  | Some (s, ax, ay) =>
      Some (mkCV num (if (0 <? num)%Z then s / (inject_Z num * inject_Z num) else 0)
              ((if (0 <? num)%Z then ax / inject_Z num else 0), (if (0 <? num)%Z then ay / inject_Z num else 0)))
  end.
Fixpoint all_some {A} (l : list (option A)) : option (list A) :=
  match l with
  | [] => Some []
  | o :: t => match o, all_some t with Some a, Some r => Some (a :: r) | _, _ => None end
  end.
(* field_properties.hpp 22-84 Field2d: dimx, dimy, lower bounds, dx, dy, data *)
Record field := mkFld { fl_nx : Z; fl_ny : Z; fl_x0 : Q; fl_y0 : Q; fl_dx : Q; fl_dy : Q; fl_data : list cellv }.
(* the constructor Field2d() *)
Definition no_field : field := mkFld 0 0 0 0 0 0 [].
(* field_properties.cpp 9-71 create_field; old: the fields before *)
Definition create_field (data : list Q) (x0 x1 y0 y1 : Q) (entries w : nat) (old : field) : option field :=
  let bx := Qtrunc ((x1 - x0) / res) in
  let by_ := Qtrunc ((y1 - y0) / res) in
  if (bx <? 1)%Z || (by_ <? 1)%Z then Some old else
  match grid_new bx by_ x0 x1 y0 y1 with
  | None => None
  | Some g =>
    match places data w (seq 0 entries) with
    | None => None
    | Some l =>
      match bin_data l g with
      | None => None
      | Some g1 =>
        match all_some (flat_map (fun y => map (fun x => match grid_at (Z.of_nat x) (Z.of_nat y) g1 with None => None | Some ids => cell_of data w ids end)
                                             (seq 0 (Z.to_nat bx))) (seq 0 (Z.to_nat by_))) with
        | None => None
        | Some cs => Some (mkFld bx by_ x0 y0 ((x1 - x0) / inject_Z bx) ((y1 - y0) / inject_Z by_) cs)
        end
      end
    end
  end.
(* field_properties.hpp 66-72 toCSV of the velocity vectors: one line for each cell *)
Definition csv (f : field) : option (list (Q * Q * (Q * Q))) :=
  all_some (flat_map (fun y => map (fun x => match nth_error (fl_data f) (y * Z.to_nat (fl_nx f) + x) with
      | None => None
      | Some c => Some (inject_Z (Z.of_nat x) * fl_dx f + fl_x0 f, inject_Z (Z.of_nat y) * fl_dy f + fl_y0 f, c_v c)
      end) (seq 0 (Z.to_nat (fl_nx f)))) (seq 0 (Z.to_nat (fl_ny f)))).
(* field_properties.cpp 77-86: the contents of aveV-VF-0.csv, aveV-VF-1.csv, ...; compute/load_data.cpp 71-73 getEntries *)
Fixpoint field_files (frames : list (list Q)) (x0 x1 y0 y1 : Q) (w : nat) (old : field) : option (list (list (Q * Q * (Q * Q)))) :=
  match frames with
  | [] => Some []
  | data :: t =>
      if (w =? 0)%nat then None else
      match create_field data x0 x1 y0 y1 (length data / w) w old with
      | None => None
      | Some f => match csv f, field_files t x0 x1 y0 y1 w f with Some l, Some r => Some (l :: r) | _, _ => None end
      end
  end.
(* applications/vistools.cpp 69-74 (without the option snapshot): the file the picture is made of, and the one the field is made of
   (field_properties.cpp 76); 60-66: with the option snapshot *)
Definition picture_file (dir sub name : string) : string := (dir ++ "/" ++ sub ++ "/" ++ name ++ "/" ++ name ++ ".csv")%string.
Definition field_file (dir sub name : string) : string := ((dir ++ "/" ++ sub ++ "/" ++ name) ++ "/data.csv")%string.
