(* The steps of a run as the interaction handler sees them: the particles move, the handler decides whether to search again
   (pre_forces), and the forces of the step use the pairs found last (src/base/interactionhandler.cpp, gflow.cpp run; paths under
   /repo/GFlowSim/src). One processor, no particles added or removed, forces in use, axes that are periodic or open
   (reflecting walls move particles after the decision: not modelled). How far each particle moves in each step is
   arbitrary: it is given by the caller, as are the time steps and simData's remake flag. *)
From Verif Require Import Lib Model_Geometry Model_Handlers Model_Cells Model_Sweep Model_Verlet Model_Field.
Local Open Scope Q_scope.

(* InteractionHandler::update_delay: either min(d_cap, square root of d_sqr), or d_cap. Simplification: the square is kept
   instead of the root; see [later]. *)
Record delay := mkD { d_cap : Q; d_sqr : option Q }.
(* base/interactionhandler.cpp:78 current_time - last_update > update_delay *)
Definition later (since : Q) (d : delay) : bool :=
  Qltb (d_cap d) since || match d_sqr d with Some q => Qle_bool 0 since && Qltb q (Qsqr since) | None => false end.
(* base/interactionhandler.cpp:349-351: min(max_update_delay, tolerance * factor * since / (2*sqrt(maxDSqr)/skin_depth));
   without motion the second is infinite. *)
Definition next_delay (tol fac sk maxdel since : Q) (moves : list (list Q * list Q)) : delay :=
  let m := find_max_motion_sqr sk moves in
  mkD maxdel (if Qeq_bool m 0 then None else Some (Qsqr (tol * fac * since * sk) / (4 * m))).

(* What stays the same in a run: bounds, table of interactions, cells and skin depth, mv_ratio_tolerance, motion_factor,
   max_update_delay, update_decision_type (interactionhandler.hpp 190-245). *)
Record setup := mkSetup { s_box : box; s_fm : force_master; s_env : env; s_tol : Q; s_fac : Q; s_maxdel : Q; s_type : Z }.
(* The counters of the handler: steps_since_last_remake, update_delay_steps, requires_remake, last_remake_steps, last_update,
   update_delay. *)
Record counters := mkC { c_steps : Z; c_every : Z; c_requires : bool; c_last : Z; c_update : Q; c_delay : delay }.
(* A state: the counters; the particles as they were at the last search (their positions are those recorded); the pairs that
   each interaction has; the positions now. *)
Record state := mkSt { t_c : counters; t_found : list particle; t_lists : nat -> pair_lists; t_xs : list (list Q) }.

(* base/simdata.cpp:253-279 update: wrapPositions of all particles (no ghosts, nothing to remove) *)
Definition wrap_all (b : box) (xs : list (list Q)) : option (list (list Q)) :=
  all_some (map (fun x => all_some x) (wrapPositions b (length xs) xs)).
Definition place (p : particle) (x : list Q) : particle := mkPart x (prd p) (ptype p).
(* base/interactionhandler.cpp:112-161 construct: wrap, record the positions, search, fill the lists of all interactions. *)
Definition construct (s : setup) (now : Q) (every last : Z) (d : delay) (t : state) : option state :=
  match wrap_all (s_box s) (t_xs t) with
  | None => None
  | Some xs =>
      let ps := map (fun q => place (fst q) (snd q)) (combine (t_found t) xs) in
      let made := fun it => construct_lists (s_fm s) (s_env s) ps it (t_lists t it) in
      if forallb (fun it => match made it with Some _ => true | None => false end) (fm_list (s_fm s)) then
        Some (mkSt (mkC 0 every false last now d) ps
                   (fun it => match made it with Some L => L | None => t_lists t it end) xs)
      else None
  end.

(* base/interactionhandler.cpp:43-61 pre_integrate, at the start of a run (elapsed time 0): the particles ps0, the lists from
   before, update_delay_steps as it was. *)
Definition start (s : setup) (every : Z) (ps0 : list particle) (old : nat -> pair_lists) : option state :=
  let every' := if (s_type s =? 2)%Z then 1%Z else every in
  construct s 0 every' 0 (mkD (1#10000) None) (mkSt (mkC 0 every' false 0 0 (mkD (1#10000) None)) ps0 old (map px ps0)).

(* integrators/velocityverlet.cpp and others, pre_forces: every particle moves by some displacement *)
Definition move (xs ms : list (list Q)) : list (list Q) := map (fun p => map (fun q => fst q + snd q) (combine (fst p) (snd p))) (combine xs ms).

(* base/interactionhandler.cpp:64-110 pre_forces after the particles moved by ms; now: elapsed time; flag: simData's remake flag. *)
Definition step (s : setup) (now : Q) (ms : list (list Q)) (flag : bool) (t : state) : option state :=
  let c := t_c t in
  let xs := move (t_xs t) ms in
  let t1 := mkSt c (t_found t) (t_lists t) xs in
  let steps := (c_steps c + 1)%Z in
  match t_found t with
  | [] => Some (mkSt (mkC steps (c_every c) (c_requires c) (c_last c) (c_update c) (c_delay c)) [] (t_lists t) xs)
  | _ =>
    let since := now - c_update c in
    let moved := combine (map px (t_found t)) xs in
    let inter := (0 <? length (fm_list (s_fm s)))%nat in
    let run_check := negb (c_requires c) && (later since (c_delay c) && inter) in
    let check := check_needs_remake (s_tol s) (s_fac s) (skin (s_env s)) (s_maxdel s) since moved in
    let exceeded := c_requires c || (run_check && check) in
    let d := if run_check then next_delay (s_tol s) (s_fac s) (skin (s_env s)) (s_maxdel s) since moved else c_delay c in
    let last := if exceeded && negb (c_requires c) then steps else c_last c in
    if flag || ((s_type s =? 0)%Z && exceeded) || ((s_type s =? 1)%Z && (c_every c <=? steps)%Z)
            || ((s_type s =? 2)%Z && (c_every c <=? steps)%Z)
    then
      let last' := if (s_type s =? 2)%Z && negb exceeded then (c_every c + 1)%Z else last in
      construct s now (if (s_type s =? 2)%Z then last' else c_every c) last' d t1
    else Some (mkSt (mkC steps (c_every c) exceeded last (c_update c) d) (t_found t) (t_lists t) xs)
  end.

(* gflow.cpp:104-262 run: k steps; the time of step j is clock j (elapsed_time, 0 at the first step), ms j the motion in it. *)
Fixpoint steps (s : setup) (clock : nat -> Q) (ms : nat -> list (list Q)) (flag : nat -> bool) (k : nat) (t : state) : option state :=
  match k with
  | O => Some t
  | S j => match steps s clock ms flag j t with Some u => step s (clock j) (ms j) (flag j) u | None => None end
  end.
Definition run (s : setup) (every : Z) (ps0 : list particle) (old : nat -> pair_lists) (clock : nat -> Q) (ms : nat -> list (list Q))
  (flag : nat -> bool) (k : nat) : option state :=
  match start s every ps0 old with Some t => steps s clock ms flag k t | None => None end.
