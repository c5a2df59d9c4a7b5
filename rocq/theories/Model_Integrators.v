(* The integrators (src/integrators), Integrator's adaptive time step (src/base/integrator.cpp) and the vectorised loops;
   paths under /repo/GFlowSim/src. Exact real arithmetic for RealType. Arrays are lists; None: an access outside an array, an
   undefined value or a NaN. *)
From Coq Require Import Reals List Bool Arith ZArith Lia Lra.
From Verif Require Import Model_Forces.
Import ListNotations.
Local Open Scope R_scope.

Definition arr := list R.
Fixpoint set_nth (i : nat) (a : R) (x : arr) : arr :=
  match x, i with [], _ => [] | _ :: t, O => a :: t | b :: t, S j => b :: set_nth j a t end.
(* x[i] = ... *)
Definition store1 (i : nat) (a : R) (x : arr) : option arr := if (i <? length x)%nat then Some (set_nth i a x) else None.

(* One scalar update x[i] = u i x[i]; u reads the other arrays. *)
Definition update1 (u : nat -> R -> option R) (i : nat) (x : arr) : option arr :=
  match nth_error x i with Some a => match u i a with Some b => store1 i b x | None => None end | None => None end.
(* for (; i<total; ++i): n = total - i more times *)
Fixpoint scalar_loop (u : nat -> R -> option R) (n i : nat) (x : arr) : option arr :=
  match n with
  | O => Some x
  | S m => match update1 u i x with Some y => scalar_loop u m (S i) y | None => None end
  end.
(* base/particle-data-access.hpp 24-27, 106-109: load W contiguous entries, compute all lanes, store W contiguous entries *)
Fixpoint lanes (u : nat -> R -> option R) (i W : nat) (x : arr) : option arr :=
  match W with
  | O => Some []
  | S w => match nth_error x i with
           | Some a => match u i a with Some b => option_map (cons b) (lanes u (S i) w x) | None => None end
           | None => None end
  end.
Fixpoint store_all (i : nat) (vs x : arr) : option arr :=
  match vs with [] => Some x | a :: vs' => match store1 i a x with Some y => store_all (S i) vs' y | None => None end end.
Definition block (u : nat -> R -> option R) (W i : nat) (x : arr) : option arr :=
  match lanes u i W x with Some vs => store_all i vs x | None => None end.
(* The vectorised loops of the integrators: for (i=0; i<=total-W; i+=W) block (strict: i<total-W), then the left overs one by
   one; ub: the update of the blocks, ul: of the left overs. Returns the array and the value of i. Fuel: the number of
   iterations; None if it does not suffice. *)
Fixpoint blocks (ub : nat -> R -> option R) (strict : bool) (W total fuel i : nat) (x : arr) : option (arr * nat) :=
  match fuel with
  | O => None
  | S k => if (if strict then (Z.of_nat i <? Z.of_nat total - Z.of_nat W)%Z else (Z.of_nat i <=? Z.of_nat total - Z.of_nat W)%Z)
           then match block ub W i x with Some y => blocks ub strict W total k (i + W) y | None => None end
           else Some (x, i)
  end.
Definition simd_loop (ub ul : nat -> R -> option R) (strict : bool) (W total : nat) (x : arr) : option arr :=
  match blocks ub strict W total (S total) 0 x with
  | Some (y, i) => scalar_loop ul (total - i) i y
  | None => None end.

(* The four kinds of build (utility/simd.hpp 24-49) and their vector widths (utility/simd_types.hpp). *)
Inductive simd := NoSimd | SSE3 | AVX | MIC.
Definition width (s : simd) : nat := match s with NoSimd => 1 | SSE3 => 4 | AVX => 8 | MIC => 16 end.

(* base/particle-data-access.hpp 61-102 valign_load_to_simd<dims>(i), lane l: im[(i+l)/dims]. The AVX branch is guarded by
   SIMD_TYPE==AVX || SIMD_TYPE==AVX2, two macros that do not exist (SIMD_AVX, SIMD_AVX2), so that the function ends without a
   return; the MIC branch does not compile. *)
Definition valign (s : simd) (dims : nat) (im : arr) (k : nat) : option R :=
  match s with SSE3 => nth_error im (k / dims) | _ => None end.

(* base/simdata.cpp 305-323 clearV, clearF *)
Definition clear_loop (total : nat) (x : arr) : option arr := scalar_loop (fun _ _ => Some 0) total 0 x.
(* velocity-verlet.tpp 45-70 *)
Definition drift_upd (dt : R) (v : arr) (i : nat) (a : R) : option R := match nth_error v i with Some b => Some (a + dt * b) | None => None end.
Definition update_positions (s : simd) (dt : R) (total : nat) (v x : arr) : option arr :=
  match s with
  | NoSimd => scalar_loop (drift_upd dt v) total 0 x
  | _ => simd_loop (drift_upd dt v) (drift_upd dt v) false (width s) total x
  end.
(* velocity-verlet.tpp 72-105 *)
Definition kick_upd (c : R) (load : nat -> option R) (f : arr) (i : nat) (a : R) : option R :=
  match nth_error f i, load i with Some b, Some m => Some (a + c * m * b) | _, _ => None end.
Definition update_velocities (s : simd) (dims : nat) (dt : R) (total : nat) (im f v : arr) : option arr :=
  let hdt := 1 / 2 * dt in
  let scalar := kick_upd hdt (fun i => nth_error im (i / dims)) f in
  match s with
  | NoSimd => scalar_loop scalar total 0 v
  | _ => simd_loop (kick_upd hdt (valign s dims im) f) scalar true (width s) total v
  end.
(* overdamped-integrator.tpp 39-74: the position update *)
Definition overdamped_positions (s : simd) (dims : nat) (damping dt : R) (total : nat) (im f x : arr) : option arr :=
  let scalar := kick_upd (damping * dt) (fun i => nth_error im (i / dims)) f in
  if (total =? 0)%nat then Some x else
  match s with
  | NoSimd => scalar_loop scalar total 0 x
  | _ => simd_loop (kick_upd (damping * dt) (valign s dims im) f) scalar false (width s) total x
  end.
(* angularvelocityverlet2d.cpp 43-76 (th += dt*om) *)
Definition angular_position (s : simd) (dt : R) (size : nat) (om th : arr) : option arr :=
  if (size =? 0)%nat then Some th else
  match s with
  | NoSimd => scalar_loop (drift_upd dt om) size 0 th
  | _ => simd_loop (drift_upd dt om) (drift_upd dt om) false (width s) size th
  end.
(* 78-124: om += dt/2 * 2*im/sg^2 * tq. Without SIMD the loop goes in steps of two. *)
Definition spin_upd (dt : R) (im sg tq : arr) (i : nat) (a : R) : option R :=
  match nth_error im i, nth_error sg i, nth_error tq i with
  | Some m, Some r, Some t => if Req_EM_T r 0 then None else Some (a + dt * (m / (r * r)) * t)
  | _, _, _ => None end.
Definition spin_upd_scalar (hdt : R) (im sg tq : arr) (i : nat) (a : R) : option R :=
  match nth_error im i, nth_error sg i, nth_error tq i with
  | Some m, Some r, Some t => if Req_EM_T r 0 then None else Some (a + hdt * (2 * m / (r * r)) * t)
  | _, _, _ => None end.
Fixpoint loop_by_two (u : nat -> R -> option R) (fuel size i : nat) (x : arr) : option arr :=
  match fuel with
  | O => None
  | S k => if (i <? size)%nat then match update1 u i x with Some y => loop_by_two u k size (i + 2) y | None => None end else Some x
  end.
Definition angular_velocity (s : simd) (dt : R) (size : nat) (im sg tq om : arr) : option arr :=
  let hdt := 1 / 2 * dt in
  if (size =? 0)%nat then Some om else
  match s with
  | NoSimd => loop_by_two (spin_upd_scalar hdt im sg tq) (S size) size 0 om
  | _ => simd_loop (spin_upd (2 * hdt) im sg tq) (spin_upd (2 * hdt) im sg tq) false (width s) size om
  end.
(* nose-hoover-velocity-verlet.tpp 75-123: the velocities; the left overs are not damped *)
Definition nh_upd (hdt zeta : R) (load : nat -> option R) (f : arr) (i : nat) (a : R) : option R :=
  match nth_error f i, load i with
  | Some b, Some m => if Req_EM_T m 0 then None else Some (a + hdt * (m * b - 1 / m * zeta * a))
  | _, _ => None end.
Definition nh_velocities (s : simd) (dims : nat) (dt zeta : R) (total : nat) (im f v : arr) : option arr :=
  let hdt := 1 / 2 * dt in
  let load i := nth_error im (i / dims) in
  if (total =? 0)%nat then Some v else
  match s with
  | NoSimd => scalar_loop (nh_upd hdt zeta load f) total 0 v
  | _ => simd_loop (nh_upd hdt zeta (valign s dims im) f) (kick_upd hdt load f) false (width s) total v
  end.

(* ------------------------------------------------------------------ velocity-Verlet steps (gflow.cpp 159-232) *)
(* Positions, velocities, forces of the particles that are owned. A step, with the time step dt (constant during the step):
   pre_forces (velocity-verlet.tpp 11-27), then the forces are computed by field, then post_forces (29-42). *)
Record sys := mkSys { sx : arr; sv : arr; sf : arr }.
Definition vv_step (s : simd) (dims n : nat) (im : arr) (dt : R) (field : arr -> arr -> option arr) (st : sys) : option sys :=
  match update_velocities s dims dt (n * dims) im (sf st) (sv st) with
  | None => None
  | Some v1 =>
    match update_positions s dt (n * dims) v1 (sx st) with
    | None => None
    | Some x1 =>
      match field x1 v1 with
      | None => None
      | Some f1 => option_map (fun v2 => mkSys x1 v2 f1) (update_velocities s dims dt (n * dims) im f1 v1)
      end
    end
  end.

(* The forces of a step: cleared (simdata.cpp 315-323), then every interaction in turn (base/forcemaster.cpp 39-48); an interaction comes
   with the pairs its container holds at that step. *)
Definition vec_of (dims : nat) (a : arr) : nat -> vec := fun i d => nth (i * dims + d) a 0.
Definition flat (n dims : nat) (f : nat -> vec) : arr := map (fun k => f (k / dims)%nat (k mod dims)%nat) (seq 0 (n * dims)).
Record inter := mkInter { i_kind : kind; i_cut : R; i_p0 : list (nat * nat); i_p1 : list (nat * nat) }.
Record world := mkWorld { w_dims : nat; w_n : nat; w_im : arr; w_sg : arr; w_bc : nat -> bool; w_width : vec }.
Definition env_of (w : world) (x v : arr) : env :=
  mkEnv (w_dims w) (vec_of (w_dims w) x) (vec_of (w_dims w) v) (fun i => nth i (w_im w) 0) (fun i => nth i (w_sg w) 0) (fun _ => 0)
        (w_bc w) (w_width w) false false.
Definition pair_field (w : world) (is : list inter) (x v : arr) : option arr :=
  option_map (fun s => flat (w_n w) (w_dims w) (F s))
    (fold_opt (fun it s => interact_forces (i_kind it) (i_cut it) (env_of w x v) (i_p0 it) (i_p1 it) s) is
       (mkF (fun _ _ => 0) (fun _ => 0) 0 0)).
(* A run: the time step and the interactions of each step. *)
Fixpoint vv_run (s : simd) (w : world) (steps : list (R * list inter)) (st : sys) : option sys :=
  match steps with
  | [] => Some st
  | (dt, is) :: rest => match vv_step s (w_dims w) (w_n w) (w_im w) dt (pair_field w is) st with Some st1 => vv_run s w rest st1 | None => None end
  end.

(* ------------------------------------------------------------------ the adaptive time step (base/integrator.cpp) *)
Record integ := mkInteg { i_dt : R; i_adjust : bool; i_min : R; i_max : R; i_target : nat; i_delay : nat; i_count : nat;
                          i_usev : bool; i_usea : bool; i_len : R }.
(* A float: finite, +infinity, or NaN. *)
Inductive fl := Fin (r : R) | Inf | NaN.
(* a/b for a >= 0 *)
Definition fdiv (a b : R) : fl := if Req_EM_T b 0 then (if Rlt_dec 0 a then Inf else NaN) else Fin (a / b).
(* std::min(a, b): b < a ? b : a *)
Definition fmin (a b : fl) : fl :=
  match a, b with
  | Fin x, Fin y => if Rlt_dec y x then Fin y else Fin x
  | Inf, Fin y => Fin y
  | NaN, _ => NaN
  | Fin x, _ => Fin x
  | Inf, _ => Inf
  end.
(* 13-28 pre_integrate; len: the mean radius *)
Definition pre_integrate (len : R) (J : integ) : integ :=
  mkInteg (if i_adjust J then i_min J else i_dt J) (i_adjust J) (i_min J) (i_max J) (i_target J) (i_delay J) (i_delay J) (i_usev J) (i_usea J) len.
Definition set_dt (d : R) (c : nat) (J : integ) : integ :=
  mkInteg d (i_adjust J) (i_min J) (i_max J) (i_target J) (i_delay J) c (i_usev J) (i_usea J) (i_len J).
(* 30-64 pre_step up to the synchronisation. maxv, maxa: what get_max_velocity, get_max_acceleration return (finite; NaN throws).
   Idle: returned without reaching the synchronisation. Asks: reached it. Broken: dt is NaN. *)
Inductive outcome := Idle (J : integ) | Asks (J : integ) | Broken.
Definition pre_step (primary : bool) (maxv maxa : R) (J : integ) : outcome :=
  if negb (i_adjust J) || negb primary then Idle J else
  if (i_count J <? i_delay J)%nat then Idle (set_dt (i_dt J) (S (i_count J)) J) else
  let I0 := set_dt (i_dt J) 0 J in
  let maxV := if i_usev J then maxv else -1 in
  let dt_v := if i_usev J then fdiv (i_len J) (maxv * INR (i_target J)) else Fin 1 in
  let maxA := if i_usea J then maxa else -1 in
  let dt_a := if i_usea J then fdiv (10 * sqrt (i_len J)) (maxa * INR (i_target J)) else Fin 1 in
  if (if Req_EM_T maxV 0 then if Req_EM_T maxA 0 then true else false else false) then Idle I0 else
  let clamp d := if Rlt_dec (i_max J) d then i_max J else if Rlt_dec d (i_min J) then i_min J else d in
  match fmin dt_v dt_a with
  | NaN => Broken
  | Inf => Asks (set_dt (i_max J) 0 J)
  | Fin c => Asks (set_dt (clamp (if Rlt_dec c (i_dt J) then c else 9 / 10 * i_dt J + 1 / 10 * c)) 0 J)
  end.
(* 62-63 with parallel/mpi-communication.hpp 129-135: several processors; mpi_min waits for all of them, so that the step goes on
   only if all of them or none ask. None: some wait forever (or a NaN). *)
Fixpoint all_ask (os : list outcome) : option (list integ) :=
  match os with [] => Some [] | Asks J :: os' => option_map (cons J) (all_ask os') | _ => None end.
Fixpoint none_ask (os : list outcome) : option (list integ) :=
  match os with [] => Some [] | Idle J :: os' => option_map (cons J) (none_ask os') | _ => None end.
Definition min_list (l : list R) : R := match l with [] => 0 | a :: l' => fold_left Rmin l' a end.
Definition sync_step (os : list outcome) : option (list integ) :=
  match none_ask os with
  | Some Is => Some Is
  | None => option_map (fun Is => map (fun J => set_dt (min_list (map i_dt Is)) (i_count J) J) Is) (all_ask os)
  end.
(* One processor: no synchronisation *)
Definition single_step (o : outcome) : option integ := match o with Idle J | Asks J => Some J | Broken => None end.
(* 66-105: the setters *)
Definition setDT (t : R) (J : integ) : integ := set_dt t (i_count J) J.
Definition setMaxDT (t : R) (J : integ) : integ := if Rlt_dec 0 t then mkInteg (i_dt J) (i_adjust J) (i_min J) t (i_target J) (i_delay J) (i_count J) (i_usev J) (i_usea J) (i_len J) else J.
Definition setMinDT (t : R) (J : integ) : integ := if Rlt_dec 0 t then mkInteg (i_dt J) (i_adjust J) t (i_max J) (i_target J) (i_delay J) (i_count J) (i_usev J) (i_usea J) (i_len J) else J.
Definition setAdjustDT (b : bool) (J : integ) : integ := mkInteg (i_dt J) b (i_min J) (i_max J) (i_target J) (i_delay J) (i_count J) (i_usev J) (i_usea J) (i_len J).
Definition setTargetSteps (t : Z) (J : integ) : integ := mkInteg (i_dt J) (i_adjust J) (i_min J) (i_max J) (Z.to_nat (Z.max 1 t)) (i_delay J) (i_count J) (i_usev J) (i_usea J) (i_len J).
(* base/integrator.hpp 67-94 *)
Definition new_integ : integ := mkInteg (1 / 10000) true (1 / 1000000) (2 / 1000) 20 10 0 true false (5 / 100).
(* overdamped-integrator.tpp 26-37, 77-93 and pre_integrate 13-18; last: maximum_acceleration, which starts at 0 *)
Definition overdamped_pre (len : R) (J : integ) : integ := set_dt (i_min J) (i_delay J) (pre_integrate len J).
Definition calculate_time_step (damping maxa : R) (J : integ) : outcome :=
  if Req_EM_T maxa 0 then Idle J else
  match fdiv (i_len J) (damping * maxa * INR (i_target J)) with
  | NaN => Broken
  | Inf => Asks (set_dt (i_max J) (i_count J) J)
  | Fin d => Asks (set_dt (if Rlt_dec (i_max J) d then i_max J else if Rlt_dec d (i_min J) then i_min J else d) (i_count J) J)
  end.
Definition count_of (o : outcome) (c : nat) : outcome :=
  match o with Idle J => Idle (set_dt (i_dt J) c J) | Asks J => Asks (set_dt (i_dt J) c J) | Broken => Broken end.
Definition overdamped_dt (damping maxa last : R) (J : integ) : outcome :=
  if (i_adjust J && (i_delay J <=? i_count J)%nat)%bool then count_of (calculate_time_step damping maxa J) 0
  else if Req_EM_T last 0 then count_of (calculate_time_step damping maxa J) (S (i_count J))
  else Idle (set_dt (i_dt J) (S (i_count J)) J).
(* get_max_velocity 107-140: vectorised, the largest absolute value of a component times sqrt(dims); without SIMD the
   largest magnitude *)
Definition max_list (l : list R) : R := fold_left Rmax l 0.
Definition get_max_velocity (s : simd) (dims n : nat) (v : arr) : R :=
  match s with
  | NoSimd => max_list (map (fun i => sqrt (dot dims (vec_of dims v i) (vec_of dims v i))) (seq 0 n))
  | _ => max_list (map (fun k => Rabs (nth k v 0)) (seq 0 (n * dims))) * sqrt (INR dims)
  end.
