(* What several processors decide together in the interaction handler: when to rebuild (pre_forces) and the cell size
   (initialize). Reductions over all processors are in parallel/mpi-communication.hpp 88-163.
   A reduction has a result only if all processors call it; None: some call it and some do not, so that MPI waits for ever
   or mixes it up with another call. *)
From Verif Require Import Lib Model_Geometry Model_Cells Model_Verlet.
Local Open Scope Q_scope.

(* MPI_Allreduce (parallel/mpi-communication.hpp 88-163): None in the list means that the processor does not call. *)
Definition called {A} (o : option A) : bool := match o with Some _ => true | None => false end.
Definition reduce_all {A} (op : A -> A -> A) (l : list (option A)) : option (option A) :=
  if forallb called l then
    match l with
    | Some a :: l' => Some (Some (fold_left (fun r o => match o with Some b => op r b | None => r end) l' a))
    | _ => Some None
    end
  else if existsb called l then None else Some None.

(* What a processor finds in a step: has particles, simData's flag, the time, whether there are interactions, result of
   check_needs_remake and the delay it stores. *)
Record found := mkF { f_particles : bool; f_flag : bool; f_now : Q; f_inter : bool; f_check : bool; f_delay : Q }.

(* base/interactionhandler.cpp 68-93, up to the reductions: None if the processor returns because it has no particles;
   else do_construct and the state with requires_remake, last_remake_steps and update_delay set. *)
Definition decide (dtype : Z) (f : found) (s : hstate) : hstate * option bool :=
  let steps := (steps_since s + 1)%Z in
  if negb (f_particles f) then
    (mkH steps (delay_steps s) (requires_remake s) (last_remake_steps s) (last_update s) (update_delay s), None)
  else
    let run_check := negb (requires_remake s) && (Qltb (update_delay s) (f_now f - last_update s) && f_inter f) in
    let exceeded := requires_remake s || (run_check && f_check f) in
    let doit := f_flag f || ((dtype =? 0)%Z && exceeded) || ((dtype =? 1)%Z && (delay_steps s <=? steps)%Z)
                || ((dtype =? 2)%Z && (delay_steps s <=? steps)%Z) in
    let last := if exceeded && negb (requires_remake s) then steps else last_remake_steps s in
    (mkH steps (delay_steps s) exceeded last (last_update s) (if run_check then f_delay f else update_delay s), Some doit).

(* 95: the reduction for update_decision_type 0 (more than one processor) *)
Definition agree_construct (dtype : Z) (ds : list (option bool)) : option (list (option bool)) :=
  if (1 <? length ds)%nat && (dtype =? 0)%Z then
    match reduce_all orb ds with
    | None => None
    | Some r => Some (map (fun d => match d with Some _ => r | None => None end) ds)
    end
  else Some ds.
(* 101-103: last_remake_steps and the processor's proposal for update_delay_steps *)
Definition propose (dtype : Z) (s : hstate) : hstate :=
  if (dtype =? 2)%Z then
    let last := if requires_remake s then last_remake_steps s else (delay_steps s + 1)%Z in
    mkH (steps_since s) last (requires_remake s) last (last_update s) (update_delay s)
  else s.
(* construct(), 112-137: counters *)
Definition constructed (f : found) (s : hstate) : hstate :=
  mkH 0 (delay_steps s) false (last_remake_steps s) (f_now f) (update_delay s).
Definition set_delay (d : Z) (s : hstate) : hstate :=
  mkH (steps_since s) d (requires_remake s) (last_remake_steps s) (last_update s) (update_delay s).
Definition zmin_all (l : list Z) (d : Z) : Z := match l with [] => d | a :: l' => fold_left Z.min l' a end.

(* base/interactionhandler.cpp 64-110  pre_forces on all processors: construct() is called on all of them, or on none.
   None: the processors that call construct() exchange particles (and, with update_decision_type 2, take part in a
   reduction) and others do not. Simplification: forces are in use (getUseForces). *)
Definition pre_forces_all (dtype : Z) (fs : list found) (ss : list hstate) : option (bool * list hstate) :=
  let dec := map (fun p => decide dtype (fst p) (snd p)) (combine fs ss) in
  match agree_construct dtype (map snd dec) with
  | None => None
  | Some ds =>
      let yes := map (fun d => match d with Some b => b | None => false end) ds in
      if forallb (fun b => b) yes && (0 <? length yes)%nat then
        let ps := map (propose dtype) (map fst dec) in
        let ps' := if (dtype =? 2)%Z then map (set_delay (zmin_all (map delay_steps ps) 0)) ps else ps in
        Some (true, map (fun p => constructed (fst p) (snd p)) (combine fs ps'))
      else if existsb (fun b => b) yes then None
      else Some (false, map fst dec)
  end.
(* a run: one list of findings per step; the result tells at which steps the lists were rebuilt *)
Fixpoint run_all (dtype : Z) (steps : list (list found)) (ss : list hstate) : option (list bool * list hstate) :=
  match steps with
  | [] => Some ([], ss)
  | fs :: steps' =>
      match pre_forces_all dtype fs ss with
      | None => None
      | Some (b, ss1) => match run_all dtype steps' ss1 with None => None | Some (bs, ss2) => Some (b :: bs, ss2) end
      end
  end.
(* 43-61  pre_integrate: counters at the start of a run (construct() is called). delay: as set by the user. *)
Definition start_run (dtype : Z) (delay : Z) : hstate :=
  mkH 0 (if (dtype =? 2)%Z then 1%Z else delay) false 0 0 (1#10000).

(* ------------------------------------------------------------------ the size of the cells *)
(* What a processor has: the sigmas (radius times largest cutoff factor) of its live, interacting particles, whether it has
   particles at all, the skin depth it would choose (interactionhandler.cpp 280-282, without the lower bound), the values it
   has so far. *)
Record sizes := mkS { z_sigmas : list Q; z_any : bool; z_candidate : Q; z_max_small : Q; z_skin : Q }.

(* base/interactionhandler.cpp 293-335  calculate_max_small_sigma on all processors *)
Definition sync_max_small (ps : list sizes) : option (list sizes) :=
  match reduce_all Qmaxb (map (fun p => calc_max_small_sigma (z_sigmas p)) ps) with
  | None => None
  | Some None => Some ps
  | Some (Some m) => Some (map (fun p => mkS (z_sigmas p) (z_any p) (z_candidate p) m (z_skin p)) ps)
  end.
(* base/interactionhandler.cpp 278-291  calculate_skin_depth, called in base/domainbase.cpp 19-22 if there are particles *)
Definition skin_choice (p : sizes) : option Q :=
  if z_any p then Some (Qmaxb ((1#2) * z_max_small p) (z_candidate p)) else None.
Definition sync_skin (ps : list sizes) : option (list sizes) :=
  match reduce_all Qplus (map skin_choice ps) with
  | None => None
  | Some None => Some ps
  | Some (Some t) => Some (map (fun p => mkS (z_sigmas p) (z_any p) (z_candidate p) (z_max_small p)
                                 (t / inject_Z (Z.of_nat (length ps)))) ps)
  end.
(* base/domainbase.cpp 14-26  initialize; skin_set: setSkinDepth was called (with the same value on all processors) *)
Definition sync_sizes (skin_set : bool) (ps : list sizes) : option (list sizes) :=
  match sync_max_small ps with
  | None => None
  | Some ps1 => if skin_set then Some ps1 else sync_skin ps1
  end.
Definition target_cell_size (p : sizes) : Q := 2 * z_max_small p + z_skin p.
