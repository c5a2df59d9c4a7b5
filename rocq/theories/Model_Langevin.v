(* Thermostats: integrators/langevintypeintegrator.cpp, langevinintegrator.cpp, overdampedlangevin.cpp, nose-hoover-velocity-verlet.tpp (without SIMD; the velocities of the SIMD
   build are in Model_Integrators). Paths under /repo/GFlowSim/src. Exact real arithmetic; None: an access outside of an array or a number that is not finite. *)
From Coq Require Import Reals List Bool Arith Lia Lra.
From Verif Require Import Model_Integrators.
Import ListNotations.
Local Open Scope R_scope.

(* langevintypeintegrator.hpp: viscosity, temperature, drift1, lastUpdate, updateDelay *)
Record lang := mkLang { l_visc : R; l_temp : R; l_drift : R; l_last : R; l_delay : R }.
(* langevintypeintegrator.cpp 5-9 *)
Definition new_lang (T vis : R) : lang := mkLang vis T (T / (6 * vis * PI)) 0 (1 / 100).
(* 11-19 *)
Definition setViscosity (eta : R) (l : lang) : lang := mkLang eta (l_temp l) (l_temp l / (6 * eta * PI)) (l_last l) (l_delay l).
Definition setTemperature (T : R) (l : lang) : lang := mkLang (l_visc l) T (T / (6 * l_visc l * PI)) (l_last l) (l_delay l).

(* langevinintegrator.cpp 57-71, overdampedlangevin.cpp 27-39: the noise; u k: the number drawn (drand48) for component k *)
Definition noise_upd (df1 : R) (dims : nat) (u : nat -> R) (sg : arr) (i : nat) (a : R) : option R :=
  match nth_error sg (i / dims) with
  | Some s => if Req_EM_T s 0 then None else Some (a + df1 * sqrt (1 / s) * (u i - 1 / 2))
  | None => None end.
Definition noise (l : lang) (time : R) (dims size : nat) (u : nat -> R) (sg f : arr) : option (arr * lang) :=
  if Rlt_dec (l_delay l) (time - l_last l) then
    if Rlt_dec 0 (l_temp l) then
      match scalar_loop (noise_upd (sqrt (2 * l_drift l * (time - l_last l))) dims u sg) (size * dims) 0 f with
      | Some f' => Some (f', mkLang (l_visc l) (l_temp l) (l_drift l) time (l_delay l))
      | None => None end
    else Some (f, l)
  else Some (f, l).
(* langevinintegrator.cpp 73-79: the drag and the second half kick, in one loop *)
Definition drag_upd (c : R) (dims : nat) (sg v : arr) (i : nat) (a : R) : option R :=
  match nth_error sg (i / dims), nth_error v i with Some s, Some w => Some (a - 6 * PI * c * s * w) | _, _ => None end.
Fixpoint drag_loop (c hdt : R) (dims : nat) (im sg : arr) (n i : nat) (f v : arr) : option (arr * arr) :=
  match n with
  | O => Some (f, v)
  | S m =>
    match update1 (drag_upd c dims sg v) i f with
    | None => None
    | Some f1 => match update1 (kick_upd hdt (fun k => nth_error im (k / dims)) f1) i v with
                 | None => None
                 | Some v1 => drag_loop c hdt dims im sg m (S i) f1 v1 end
    end
  end.
(* 13-39 pre_forces *)
Definition langevin_pre (dims size : nat) (dt : R) (im : arr) (st : sys) : option sys :=
  match scalar_loop (kick_upd (1 / 2 * dt) (fun k => nth_error im (k / dims)) (sf st)) (size * dims) 0 (sv st) with
  | None => None
  | Some v1 => option_map (fun x1 => mkSys x1 v1 (sf st)) (scalar_loop (drift_upd dt v1) (size * dims) 0 (sx st))
  end.
(* 41-83 post_forces *)
Definition langevin_post (l : lang) (time : R) (dims size : nat) (dt : R) (u : nat -> R) (im sg : arr) (st : sys) : option (sys * lang) :=
  match noise l time dims size u sg (sf st) with
  | None => None
  | Some (f1, l1) => option_map (fun fv => (mkSys (sx st) (snd fv) (fst fv), l1)) (drag_loop (l_visc l) (1 / 2 * dt) dims im sg (size * dims) 0 f1 (sv st))
  end.
(* a step (gflow.cpp 159-232): first half, then the forces g of the positions, then the second half *)
Definition langevin_step (l : lang) (time : R) (dims size : nat) (dt : R) (u : nat -> R) (im sg : arr) (g : arr -> arr) (st : sys) : option (sys * lang) :=
  match langevin_pre dims size dt im st with
  | None => None
  | Some s1 => langevin_post l time dims size dt u im sg (mkSys (sx s1) (sv s1) (g (sx s1)))
  end.
(* a run: the elapsed time and the random numbers of each step *)
Fixpoint langevin_run (dims size : nat) (dt : R) (im sg : arr) (g : arr -> arr) (steps : list (R * (nat -> R))) (l : lang) (st : sys) : option (sys * lang) :=
  match steps with
  | [] => Some (st, l)
  | (time, u) :: rest => match langevin_step l time dims size dt u im sg g st with Some (s1, l1) => langevin_run dims size dt im sg g rest l1 s1 | None => None end
  end.

(* overdampedlangevin.cpp 41-46: v[i] = viscosity*f[i]*im; x[i] += v[i]*dt *)
Definition set_upd (c : R) (dims : nat) (im f : arr) (i : nat) (_ : R) : option R :=
  match nth_error f i, nth_error im (i / dims) with Some b, Some m => Some (c * b * m) | _, _ => None end.
Fixpoint overdamped_loop (c dt : R) (dims : nat) (im f : arr) (n i : nat) (v x : arr) : option (arr * arr) :=
  match n with
  | O => Some (v, x)
  | S m =>
    match update1 (set_upd c dims im f) i v with
    | None => None
    | Some v1 => match update1 (drift_upd dt v1) i x with Some x1 => overdamped_loop c dt dims im f m (S i) v1 x1 | None => None end
    end
  end.
(* overdampedlangevin.cpp 11-50 *)
Definition overdamped_langevin (l : lang) (time : R) (dims size : nat) (dt : R) (u : nat -> R) (im sg : arr) (st : sys) : option (sys * lang) :=
  if (size =? 0)%nat then Some (st, l) else
  match noise l time dims size u sg (sf st) with
  | None => None
  | Some (f1, l1) => option_map (fun vx => (mkSys (snd vx) (fst vx) f1, l1)) (overdamped_loop (l_visc l) dt dims im f1 (size * dims) 0 (sv st) (sx st))
  end.

(* ------------------------------------------------------------------ Nose-Hoover *)
Record nose := mkNose { h_temp : R; h_zeta : R; h_q : R; h_wait : R }.
(* nose-hoover-velocity-verlet.tpp 9, .hpp: the initial values *)
Definition new_nose : nose := mkNose (-1) 0 100 (5 / 2).
(* 89-95: the sum of m v^2 over the components (before the kick) *)
Fixpoint mv2 (dims : nat) (im v : arr) (n i : nat) : option R :=
  match n with
  | O => Some 0
  | S m => match nth_error v i, nth_error im (i / dims) with
           | Some a, Some w => if Req_EM_T w 0 then None else option_map (Rplus (1 / w * (a * a))) (mv2 dims im v m (S i))
           | _, _ => None end
  end.
(* 125-139 *)
Definition nose_update (kB elapsed hdt : R) (total : nat) (ke : R) (h : nose) : nose :=
  let zeta := h_zeta h + 1 / h_q h * (ke - (1 / 2 * INR total - 1 / 2) * h_temp h * kB) * hdt in
  if Rlt_dec (h_temp h) 0 then
    if Rlt_dec elapsed (h_wait h) then mkNose (h_temp h) 0 (h_q h) (h_wait h)
    else mkNose (ke / (kB * INR total / 2)) zeta (if Rle_dec (h_q h) 0 then 2 * ke else h_q h) (h_wait h)
  else mkNose (h_temp h) zeta (h_q h) (h_wait h).
(* 75-140 update_velocities *)
Definition nose_velocities (kB elapsed dt : R) (dims total : nat) (im f v : arr) (h : nose) : option (arr * nose) :=
  if (total =? 0)%nat then Some (v, h) else
  match nh_velocities NoSimd dims dt (h_zeta h) total im f v, mv2 dims im v total 0 with
  | Some v', Some k => Some (v', nose_update kB elapsed (1 / 2 * dt) total (1 / 2 * k) h)
  | _, _ => None end.
