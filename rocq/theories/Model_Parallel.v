(* Whole steps of a simulation on several processors: each has some of the particles, and copies of particles of the others ("ghosts") for the
   forces across the borders (gflow.cpp 159-232; integrators/velocity-verlet.tpp 11-42; base/forcemaster.cpp 39-60;
   interactions/generic-handlers.hpp 66-92). Exact real arithmetic, as in Model_Integrators. Paths under /repo/GFlowSim/src.
   Simplification: the inverse masses and radii of particles are looked up by the particle's number in the whole simulation (in the code they are
   sent along with the particle, simdata.cpp 400-480, modelled in Model_Ghosts); external forces, modifiers and bonds are left out. *)
From Coq Require Import Reals List Arith.
From Verif Require Import Model_Forces Model_Integrators.
Import ListNotations.
Local Open Scope R_scope.

(* The particles of a processor: their numbers in the whole simulation ("Global id") and positions, velocities and forces (base/simdata.hpp 300-380). *)
Record part := mkPart { p_ids : list nat; p_sys : sys }.
(* Its ghosts: the numbers of the particles they are copies of, positions and velocities. *)
Record ghosts := mkGhosts { h_ids : list nat; h_x : arr; h_v : arr }.
(* An interaction with its three lists: pairs of own particles without and with wrapping, pairs of a ghost and an own particle
   (generic-handlers.hpp 12-60). *)
Record ginter := mkGI { g_own : inter; g_pairs : list (nat * nat) }.

(* The data of the particles with these numbers. *)
Definition local_world (w : world) (ids : list nat) : world :=
  mkWorld (w_dims w) (length ids) (map (fun g => nth g (w_im w) 0) ids) (map (fun g => nth g (w_sg w) 0) ids) (w_bc w) (w_width w).
(* What the forces read; the arrays of the ghosts (X<1>, V<1>, ...) follow those of the own particles, so ghost g has the id n + g for n own particles. *)
Definition local_env (w : world) (p : part) (h : ghosts) : env :=
  env_of (local_world w (p_ids p ++ h_ids h)) (sx (p_sys p) ++ h_x h) (sv (p_sys p) ++ h_v h).
(* generic-forces.hpp 694-771 (Hooke) for the ghost g and the own particle b of a processor with n own particles. At 721 f1(id0) is the force of the own
   particle that has the number of the ghost. (A number that no own particle has lies outside the array; here it goes to a ghost, whose force is not used.) *)
Definition hooke_ghost (kn gn gt mu : R) (e : env) (n g b : nat) (R1 R2 rsqr : R) (X : vec) (st : fstate) : option fstate :=
  if Req_EM_T rsqr 0 then None else
  let id0 := (n + g)%nat in
  let r := sqrt rsqr in
  let nv := vscale (1 / r) X in
  let delta := R1 + R2 - r in
  let M := m_eff (e_im e id0) (e_im e b) in
  let V := vsub (e_v e id0) (e_v e b) in
  let vn := dot (e_dims e) V nv in
  let Fn := Rmax 0 (kn * delta - M * gn * vn) in
  let f1 := add_scaled (e_dims e) g nv (- Fn) (add_scaled (e_dims e) id0 nv Fn (F st)) in
  let Vt := vsub V (vscale vn nv) in
  if (e_dims e =? 2)%nat then
    let Nt : vec := fun d => match d with O => - nv 1%nat | _ => nv 0%nat end in
    let vt := dot 2 Vt Nt - (e_om e id0 * R1 + e_om e b * R2) in
    let Ft0 := - (M * gt * vt) in
    let Ft := if Rlt_dec Ft0 (- (mu * Fn)) then - mu * Fn else if Rlt_dec (mu * Fn) Ft0 then mu * Fn else Ft0 in
    Some (book e 0 (Fn * r) (mkF (add_scaled 2 b Nt (- Ft) (add_scaled 2 id0 Nt Ft f1))
      (fun i => if (i =? b)%nat then Tq st i - Ft * R2 else if (i =? id0)%nat then Tq st i - Ft * R1 else Tq st i) (pot st) (vir st)))
  else Some (book e 0 (Fn * r) (mkF f1 (Tq st) (pot st) (vir st))).
(* generic-handlers.hpp 134-152 with first_particle_type = 1 and wrapping (called at 90) *)
Definition ghost_pair (k : kind) (cutoff : R) (e : env) (n g b : nat) (st : fstate) : option fstate :=
  match k with
  | Hooke kn gn gt mu =>
      let X := correction (e_bc e) (e_width e) (vsub (e_x e (n + g)%nat) (e_x e b)) in
      let rsqr := dot (e_dims e) X X in
      let R1 := e_sg e (n + g)%nat in let R2 := e_sg e b in
      if Rlt_dec rsqr (((R1 + R2) * cutoff) * ((R1 + R2) * cutoff)) then hooke_ghost kn gn gt mu e n g b R1 R2 rsqr X st else Some st
  | _ => do_pair k cutoff e true (n + g)%nat b st
  end.
Definition ghost_list (k : kind) (cutoff : R) (e : env) (n : nat) (ps : list (nat * nat)) (st : fstate) : option fstate :=
  fold_opt (fun q s => ghost_pair k cutoff e n (fst q) (snd q) s) ps st.
(* gflow.cpp 194-197: ForceMaster::interact, then ForceMaster::interact_ghosts (forcemaster.cpp 39-60; it does nothing if there is one processor, which
   then has no ghosts and no such pairs); the forces of the own particles. *)
Definition part_forces (w : world) (p : part) (h : ghosts) (gs : list ginter) : option arr :=
  let e := local_env w p h in let n := length (p_ids p) in
  match fold_opt (fun g s => interact_forces (i_kind (g_own g)) (i_cut (g_own g)) e (i_p0 (g_own g)) (i_p1 (g_own g)) s) gs (mkF (fun _ _ => 0) (fun _ => 0) 0 0) with
  | None => None
  | Some s1 => option_map (fun s => flat n (w_dims w) (F s))
      (fold_opt (fun g s => ghost_list (i_kind (g_own g)) (i_cut (g_own g)) e n (g_pairs g) s) gs s1)
  end.
(* velocity-verlet.tpp 11-27 on one processor *)
Definition first_half (s : simd) (w : world) (dt : R) (p : part) : option part :=
  let n := length (p_ids p) in
  match update_velocities s (w_dims w) dt (n * w_dims w) (w_im (local_world w (p_ids p))) (sf (p_sys p)) (sv (p_sys p)) with
  | None => None
  | Some v1 => option_map (fun x1 => mkPart (p_ids p) (mkSys x1 v1 (sf (p_sys p)))) (update_positions s dt (n * w_dims w) v1 (sx (p_sys p)))
  end.
(* forces and velocity-verlet.tpp 29-42 on one processor *)
Definition second_half (s : simd) (w : world) (dt : R) (r : part * ghosts * list ginter) : option part :=
  let '(p, h, gs) := r in
  match part_forces w p h gs with
  | None => None
  | Some f1 => option_map (fun v2 => mkPart (p_ids p) (mkSys (sx (p_sys p)) v2 f1))
      (update_velocities s (w_dims w) dt (length (p_ids p) * w_dims w) (w_im (local_world w (p_ids p))) f1 (sv (p_sys p)))
  end.
Definition all_of {A B} (f : A -> option B) : list A -> option (list B) :=
  fix go l := match l with [] => Some [] | a :: l' => match f a, go l' with Some b, Some bs => Some (b :: bs) | _, _ => None end end.
(* What differs from step to step: the time step, and what happens to the particles between drift and forces: wrapping, exchange of particles and
   creation of ghosts and lists in the steps with a search (interactionhandler.cpp 64-137, kdtreetopology.cpp 60-200), else the update of the ghosts
   (gflow.cpp 185-190). *)
Record ptick := mkPT { q_dt : R; q_move : list part -> list (part * ghosts * list ginter) }.
(* gflow.cpp 159-232, all processors *)
Definition parallel_step (s : simd) (w : world) (t : ptick) (ps : list part) : option (list part) :=
  match all_of (first_half s w (q_dt t)) ps with
  | None => None
  | Some ps1 => all_of (second_half s w (q_dt t)) (q_move t ps1)
  end.
(* gflow.cpp 104-262 run *)
Fixpoint parallel_run (s : simd) (w : world) (ts : list ptick) (ps : list part) : option (list part) :=
  match ts with
  | [] => Some ps
  | t :: rest => match parallel_step s w t ps with Some ps1 => parallel_run s w rest ps1 | None => None end
  end.
