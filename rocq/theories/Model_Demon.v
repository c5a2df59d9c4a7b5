(* Maxwell's demon: src/modifiers/demon.{hpp,cpp}. All paths are under /repo/GFlowSim/src. Exact rationals for RealType, Z for int.
   None: an exception is thrown or memory outside of a vector is used. *)
From Coq Require Import QArith List Bool ZArith Lia.
Import ListNotations.
Local Open Scope Q_scope.

(* A slot of the particle store: what the demon reads and writes. p_alive: the type is not -1 (the demon does not look at it). *)
Record part := mkP { p_id : Z; p_x : list Q; p_v : list Q; p_im : Q; p_side : Z; p_alive : bool }.
Definition set_x (x : list Q) (p : part) : part := mkP (p_id p) x (p_v p) (p_im p) (p_side p) (p_alive p).
Definition set_xv (x v : list Q) (p : part) : part := mkP (p_id p) x v (p_im p) (p_side p) (p_alive p).
Definition set_side (s : Z) (p : part) : part := mkP (p_id p) (p_x p) (p_v p) (p_im p) s (p_alive p).

(* demon.hpp 80-160: the members *)
Record demon := mkD {
  d_tau : Q; d_start : Q; d_last : Q; d_part : Q; d_rule : Z; d_open : bool; d_just : bool;
  d_ids : list Z;                          (* the door: the global ids of the group *)
  d_pos : list (list Q);                   (* door_positions *)
  d_ck : list (list Q * list Q);           (* checkpoint_x, checkpoint_v *)
  d_El : Q; d_Er : Q; d_Nl : Z; d_Nr : Z;
  d_opened : nat; d_closed : nat;          (* opened_tau, closed_tau *)
  d_current : list (Q * Z * Q);            (* current_N, current_E: time, dn, de; newest first *)
  d_sides : list (Q * Q * Q * Z * Z) }.    (* kineticL/R, numberL/R: time, El, Er, Nl, Nr; newest first *)
(* The rest of the simulation: elapsed_time, 2*bounds.max[0], sim_dimensions and the slots 0..size_owned-1 *)
Record sys := mkS { s_time : Q; s_far : Q; s_dims : nat; s_parts : list part }.
Definition with_parts (l : list part) (s : sys) : sys := mkS (s_time s) (s_far s) (s_dims s) l.
Definition with_time (t : Q) (s : sys) : sys := mkS t (s_far s) (s_dims s) (s_parts s).

(* demon.cpp 389-391 *)
Definition get_side (c : Q) (x : list Q) : Z := if Qle_bool (hd 0 x) c then 0%Z else 1%Z.
(* sqr(v, sim_dimensions) *)
Definition sq (v : list Q) : Q := fold_right (fun a s => a * a + s) 0 v.
Definition energy (p : part) : Q := 1 / p_im p * (1#2) * sq (p_v p).

Record counts := mkC { c_nl : Z; c_nr : Z; c_el : Q; c_er : Q; c_Nl : Z; c_Nr : Z; c_El : Q; c_Er : Q }.
(* demon.cpp 245-273: one particle *)
Definition count_one (c : Q) (a : counts) (p : part) : counts :=
  if Qeq_bool (p_im p) 0 then a else
  let sd := get_side c (p_x p) in
  let ke := energy p in
  let a1 := if (sd =? p_side p)%Z then a
            else if (sd =? 1)%Z then mkC (c_nl a + 1) (c_nr a) (c_el a + ke) (c_er a) (c_Nl a) (c_Nr a) (c_El a) (c_Er a)
            else if (sd =? 0)%Z then mkC (c_nl a) (c_nr a + 1) (c_el a) (c_er a + ke) (c_Nl a) (c_Nr a) (c_El a) (c_Er a)
            else a in
  if (sd =? 0)%Z then mkC (c_nl a1) (c_nr a1) (c_el a1) (c_er a1) (c_Nl a1 + 1) (c_Nr a1) (c_El a1 + ke) (c_Er a1)
  else mkC (c_nl a1) (c_nr a1) (c_el a1) (c_er a1) (c_Nl a1) (c_Nr a1 + 1) (c_El a1) (c_Er a1 + ke).
(* demon.cpp 226-274 count_changes (side_entry is valid since pre_integrate) *)
Definition count_changes (c : Q) (l : list part) : counts := fold_left (count_one c) l (mkC 0 0 0 0 0 0 0 0).
Definition set_counts (a : counts) (d : demon) : demon :=
  mkD (d_tau d) (d_start d) (d_last d) (d_part d) (d_rule d) (d_open d) (d_just d) (d_ids d) (d_pos d) (d_ck d)
    (c_El a) (c_Er a) (c_Nl a) (c_Nr a) (d_opened d) (d_closed d) (d_current d) (d_sides d).

(* demon.cpp 393-403 and 197-199 *)
Definition should_door_open (rule : Z) (a : counts) : bool :=
  if (rule =? 0)%Z then (c_nr a =? 0)%Z && Qeq_bool (c_er a) 0
  else if (rule =? 1)%Z then Qle_bool (c_er a) (c_el a)
  else (c_nr a <=? c_nl a)%Z.

(* demon.cpp 276-289 assign_side *)
Definition assign_side (c : Q) (l : list part) : list part := map (fun p => set_side (get_side c (p_x p)) p) l.
(* demon.cpp 291-312 checkpoint_data (animation data left out) *)
Definition checkpoint (l : list part) : list (list Q * list Q) := map (fun p => (p_x p, p_v p)) l.
(* demon.cpp 322-326 *)
Fixpoint restore (ck : list (list Q * list Q)) (l : list part) : list part :=
  match ck, l with (x, v) :: ck', p :: l' => set_xv x v p :: restore ck' l' | _, _ => l end.
(* demon.cpp 314-339 revert_to_last_checkpoint(false) *)
Definition revert (d : demon) (s : sys) : option sys :=
  if (length (s_parts s) =? length (d_ck d))%nat then Some (with_time (d_last d) (with_parts (restore (d_ck d) (s_parts s)) s)) else None.

(* update_local_ids (other/group.cpp 220-236): keeps the members that are in the store *)
Definition present (l : list part) (id : Z) : bool := existsb (fun p => (p_id p =? id)%Z && p_alive p) l.
Definition update_ids (l : list part) (ids : list Z) : list Z := filter (present l) ids.
(* copyVec(a, x(id)) *)
Definition place (id : Z) (a : list Q) (l : list part) : list part := map (fun p => if (p_id p =? id)%Z && p_alive p then set_x a p else p) l.
(* demon.cpp 341-358 open_door *)
Definition set_door (o j : bool) (ids : list Z) (d : demon) : demon :=
  mkD (d_tau d) (d_start d) (d_last d) (d_part d) (d_rule d) o j ids (d_pos d) (d_ck d) (d_El d) (d_Er d) (d_Nl d) (d_Nr d)
    (d_opened d) (d_closed d) (d_current d) (d_sides d).
Definition open_door (ds : demon * sys) : demon * sys :=
  let (d, s) := ds in
  let ids := update_ids (s_parts s) (d_ids d) in
  (set_door true (d_just d) ids d, with_parts (fold_left (fun l id => place id (repeat (s_far s) (s_dims s)) l) ids (s_parts s)) s).
(* demon.cpp 366-370: the loop of close_door: door_positions[i] for the i-th id *)
Fixpoint put_back (ids : list Z) (pos : list (list Q)) (l : list part) : option (list part) :=
  match ids, pos with
  | [], _ => Some l
  | id :: ids', a :: pos' => put_back ids' pos' (place id a l)
  | _ :: _, [] => None
  end.
(* demon.cpp 360-380 close_door; handler->construct() and the wall interaction do not change positions here *)
Definition close_door (ds : demon * sys) : option (demon * sys) :=
  let (d, s) := ds in
  let ids := update_ids (s_parts s) (d_ids d) in
  match put_back ids (d_pos d) (s_parts s) with
  | None => None
  | Some l => Some (set_door false true ids d, with_parts l s)
  end.

(* demon.cpp 382-387 add_data *)
Definition add_data (t : Q) (dn : Z) (de : Q) (d : demon) : demon :=
  mkD (d_tau d) (d_start d) (d_last d) (d_part d) (d_rule d) (d_open d) (d_just d) (d_ids d) (d_pos d) (d_ck d) (d_El d) (d_Er d) (d_Nl d) (d_Nr d)
    (d_opened d) (d_closed d) ((t, dn, de) :: d_current d) (d_sides d).
(* demon.cpp 110-113, 133-136 *)
Definition add_sides (t : Q) (d : demon) : demon :=
  mkD (d_tau d) (d_start d) (d_last d) (d_part d) (d_rule d) (d_open d) (d_just d) (d_ids d) (d_pos d) (d_ck d) (d_El d) (d_Er d) (d_Nl d) (d_Nr d)
    (d_opened d) (d_closed d) (d_current d) ((t, d_El d, d_Er d, d_Nl d, d_Nr d) :: d_sides d).
Definition set_check (t : Q) (ck : list (list Q * list Q)) (o c : nat) (d : demon) : demon :=
  mkD (d_tau d) (d_start d) t (d_part d) (d_rule d) (d_open d) (d_just d) (d_ids d) (d_pos d) ck (d_El d) (d_Er d) (d_Nl d) (d_Nr d)
    o c (d_current d) (d_sides d).
Definition clear_just (d : demon) : demon := set_door (d_open d) false (d_ids d) d.

(* demon.cpp 78-155 pre_forces (in simulation mode) *)
Definition pre_forces (ds : demon * sys) : option (demon * sys) :=
  let (d, s) := ds in
  let t := s_time s in
  if Qle_bool (d_tau d) (t - d_last d) && negb (Qle_bool t (d_start d)) then
    let a := count_changes (d_part d) (s_parts s) in
    if d_open d then
      let d1 := set_counts a d in
      if should_door_open (d_rule d) a then
        let d2 := add_data t (c_nl a - c_nr a) (c_el a - c_er a) d1 in
        let l := assign_side (d_part d) (s_parts s) in
        Some (add_sides t (set_check t (checkpoint l) (S (d_opened d)) (d_closed d) d2), with_parts l s)
      else
        match revert d1 s with
        | None => None
        | Some s1 => close_door (d1, s1)
        end
    else
      let d1 := set_counts a (add_data t 0 0 d) in
      let d2 := set_check t (checkpoint (s_parts s)) (d_opened d) (S (d_closed d)) (add_sides t d1) in
      Some (open_door (d2, s))
  else if d_just d then Some (clear_just d, with_parts (assign_side (d_part d) (s_parts s)) s)
  else Some (d, s).

(* demon.cpp 55-66: door_positions is sized before the ids are updated; the i-th id goes to the i-th place *)
Definition position_of (l : list part) (id : Z) : list Q :=
  match find (fun p => (p_id p =? id)%Z && p_alive p) l with Some p => p_x p | None => [] end.
(* demon.cpp 37-76 pre_integrate (in simulation mode) *)
Definition pre_integrate (ds : demon * sys) : demon * sys :=
  let (d, s) := ds in
  let l := assign_side (d_part d) (s_parts s) in
  let ids := update_ids l (d_ids d) in
  let pos := map (position_of l) ids ++ repeat (repeat 0 (s_dims s)) (length (d_ids d) - length ids) in
  open_door (mkD (d_tau d) (d_start d) (s_time s) (d_part d) (d_rule d) (d_open d) (d_just d) ids pos (checkpoint l)
               (d_El d) (d_Er d) (d_Nl d) (d_Nr d) 0 0 (d_current d) (d_sides d), with_parts l s).

(* demon.cpp 213-224: setters *)
Definition setTau (t : Q) (d : demon) : demon :=
  if Qle_bool t 0 then d else
  mkD t (d_start d) (d_last d) (d_part d) (d_rule d) (d_open d) (d_just d) (d_ids d) (d_pos d) (d_ck d) (d_El d) (d_Er d) (d_Nl d) (d_Nr d)
    (d_opened d) (d_closed d) (d_current d) (d_sides d).
Definition setDemon (k : Z) (d : demon) : demon :=
  if ((0 <=? k) && (k <=? 2))%Z then
  mkD (d_tau d) (d_start d) (d_last d) (d_part d) k (d_open d) (d_just d) (d_ids d) (d_pos d) (d_ck d) (d_El d) (d_Er d) (d_Nl d) (d_Nr d)
    (d_opened d) (d_closed d) (d_current d) (d_sides d)
  else d.
(* demon.cpp 12-35, demon.hpp 86-144: a new demon *)
Definition new_demon (ids : list Z) (c start : Q) : demon := mkD (1#10) start 0 c 0 true false ids [] [] (-1) (-1) (-1) (-1) 0 0 [] [].
