(* Relaxing a newly built simulation: base/creator.cpp 38-133 (hs_relax, relax), 163-176 (fix_particle_velocities); gflow.cpp 46-74 (initialize), 97-304 (run), 699-705.
   Paths under /repo/GFlowSim/src. Objects (integrators, force masters, interactions, modifiers) are numbers. Model_Run.run gives the times of a run on
   all processors. What a run does to the particles and the modifiers is any function of the simulation it finds; so is what initialize does to the particles
   (base/simdata.cpp 48-56: particles of other processors are removed, the others sorted). *)
From Verif Require Import Lib Model_Store Model_Run.
Local Open Scope Z_scope.

(* gflow.hpp: the members that relaxation touches. m_ptrs: the integrator and the force master the other objects have pointers to (gflow.cpp 76-95 initializeBase);
   None: not initialised. m_freed: deleted integrators *)
Record sim := mkSim { m_integ : nat; m_master : nat; m_inter : list nat; m_mods : list nat; m_times : gf; m_mode : mode; m_store : store;
  m_ptrs : option (nat * nat); m_freed : list nat }.
(* gflow.cpp 46-74: all objects get their pointers *)
Definition initialize (arrange : store -> store) (s : sim) : sim :=
  mkSim (m_integ s) (m_master s) (m_inter s) (m_mods s) (m_times s) (m_mode s) (arrange (m_store s)) (Some (m_integ s, m_master s)) (m_freed s).
(* 97-304, the loop: the simulation as it is at the start of the first step gives the particles and modifiers at the end (283-304: back to idle mode) *)
Definition evolution := nat -> sim -> store * list nat.
Definition after_run (arrange : store -> store) (evolve : evolution) (rank : nat) (t : gf) (s : sim) : sim :=
  let s1 := initialize arrange s in
  let s2 := mkSim (m_integ s1) (m_master s1) (m_inter s1) (m_mods s1) (m_times s1) (match m_mode s1 with IDLE => SIM | m => m end) (m_store s1) (m_ptrs s1) (m_freed s1) in
  let (st, mods) := evolve rank s2 in
  mkSim (m_integ s2) (m_master s2) (m_inter s2) mods t IDLE st (m_ptrs s2) (m_freed s2).
Definition set_times (t : gf) (s : sim) : sim := mkSim (m_integ s) (m_master s) (m_inter s) (m_mods s) t (m_mode s) (m_store s) (m_ptrs s) (m_freed s).
Fixpoint zip_with {A B C} (f : nat -> A -> B -> C) (k : nat) (l : list A) (l' : list B) : list C :=
  match l, l' with a :: r, b :: r' => f k a b :: zip_with f (S k) r r' | _, _ => [] end.
(* 97-109: without particles only the times change. None: the processors wait forever *)
Definition run_all (fuel : nat) (evs : nat -> Model_Run.ev) (arrange : store -> store) (evolve : evolution) (ss : list sim) : option (list sim) :=
  match Model_Run.run fuel evs (map (fun s => Z.to_nat (st_number (m_store s))) ss) 0%Q (map m_times ss) with
  | None => None
  | Some ts =>
      if forallb (fun s => Z.to_nat (st_number (m_store s)) =? 0)%nat ss then Some (zip_with (fun _ => set_times) 0 ts ss)
      else Some (zip_with (after_run arrange evolve) 0 ts ss)
  end.
(* base/forcemaster.cpp 157-161 with 146-148 and gflow.cpp 467-470: every pair of types adds the interaction to the simulation's list *)
Definition add_for_types (ntypes hs : nat) (l : list nat) : list nat :=
  fold_left (fun l _ => add_once (Some hs) l) (flat_map (fun i => seq i (ntypes - i)) (seq 0 ntypes)) l.
(* creator.cpp 46-73 *)
Definition begin_hs (ntypes rx fm hs : nat) (time : Q) (s : sim) : sim :=
  mkSim rx fm (add_for_types ntypes hs []) (m_mods s) (requestTime time (m_times s)) INIT (clearF (m_store s)) (m_ptrs s) (m_freed s).
(* 75-96; old: the simulation before; 76: resetTimer changes timing data only *)
Definition end_hs (arrange : store -> store) (old s : sim) : sim :=
  let s1 := initialize arrange (mkSim (m_integ old) (m_master old) (m_inter old) (m_mods s) (resetAllTimes (m_times s)) (m_mode s) (m_store s) (m_ptrs s) (m_freed s)) in
  mkSim (m_integ s1) (m_master s1) (m_inter s1) (m_mods s1) (m_times s1) (m_mode s1) (clearF (m_store s1)) (m_ptrs s1) (m_integ s :: m_freed s1).
(* 38-96 hs_relax, called on every processor *)
Definition hs_relax (fuel : nat) (evs : nat -> Model_Run.ev) (arrange : store -> store) (evolve : evolution) (ntypes rx fm hs : nat) (time : Q) (ss : list sim) : option (list sim) :=
  option_map (fun ss' => zip_with (fun _ => end_hs arrange) 0 ss ss') (run_all fuel evs arrange evolve (map (begin_hs ntypes rx fm hs time) ss)).
(* 98-133 relax: the forces of the simulation stay, only the integrator is exchanged *)
Definition begin_relax (rx : nat) (time : Q) (s : sim) : sim :=
  mkSim rx (m_master s) (m_inter s) (m_mods s) (requestTime time (m_times s)) INIT (clearF (m_store s)) (m_ptrs s) (m_freed s).
Definition end_relax (old s : sim) : sim :=
  mkSim (m_integ old) (m_master s) (m_inter s) (m_mods s) (resetAllTimes (m_times s)) (m_mode s) (m_store s) (m_ptrs s) (m_integ s :: m_freed s).
Definition relax (fuel : nat) (evs : nat -> Model_Run.ev) (arrange : store -> store) (evolve : evolution) (rx : nat) (time : Q) (ss : list sim) : option (list sim) :=
  option_map (fun ss' => zip_with (fun _ => end_relax) 0 ss ss') (run_all fuel evs arrange evolve (map (begin_relax rx time) ss)).
(* fileparsecreator.cpp 382-390: both, by default only the first *)
Definition relaxed (fuel1 fuel2 : nat) (evs1 evs2 : nat -> Model_Run.ev) (arrange : store -> store) (evolve1 evolve2 : evolution) (ntypes rx1 fm hs rx2 : nat) (t1 t2 : Q) (ss : list sim) : option (list sim) :=
  match (if Qle_bool t1 0 then Some ss else hs_relax fuel1 evs1 arrange evolve1 ntypes rx1 fm hs t1 ss) with
  | None => None
  | Some ss1 => if Qle_bool t2 0 then Some ss1 else relax fuel2 evs2 arrange evolve2 rx2 t2 ss1
  end.

(* creator.cpp 163-172 fix_particle_velocities; a fixer is a global id and a velocity (base/creator.hpp ParticleFixer) *)
Fixpoint fix_velocities (fs : list (Z * list num)) (s : store) : option store :=
  match fs with
  | [] => Some s
  | (g, v) :: fs' =>
      let id := getLocalID g s in
      if (0 <=? id) && (id <? Z.of_nat (st_size s))
      then match modify id (set_v v) s with Some s' => fix_velocities fs' s' | None => None end
      else fix_velocities fs' s
  end.
