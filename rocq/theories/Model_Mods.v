(* Modifiers that drive or damp particles, and the step of the run loop they are part of. Paths under /repo/GFlowSim/src. Exact rationals.
   The modifiers act on each particle by itself, so one particle is followed; the forces on it from everything else in each step are arbitrary. *)
From Coq Require Import QArith Qminmax Qabs Qround List Bool ZArith.
From Verif Require Import Lib.
Import ListNotations.
Local Open Scope Q_scope.

(* components of a vector; dims is the number of dimensions where it matters *)
Definition vec := nat -> Q.
Definition vadd (a b : vec) : vec := fun c => a c + b c.
Definition vscale (s : Q) (a : vec) : vec := fun c => s * a c.
Definition vzero : vec := fun _ => 0.
(* utility/vectormath.hpp sqr *)
Definition sumsq (dims : nat) (a : vec) : Q := fold_left (fun s c => s + a c * a c) (seq 0 dims) 0.
Record pt := mkPt { p_x : vec; p_v : vec; p_f : vec; p_im : Q }.
Definition set_v (v : vec) (p : pt) : pt := mkPt (p_x p) v (p_f p) (p_im p).
Definition set_f (f : vec) (p : pt) : pt := mkPt (p_x p) (p_v p) f (p_im p).
(* integrators/velocity-verlet.tpp 74-104 update_velocities, 46-72 update_positions *)
Definition half_kick (dt : Q) (p : pt) : pt := set_v (fun c => p_v p c + (1#2) * dt * p_im p * p_f p c) p.
Definition drift (dt : Q) (p : pt) : pt := mkPt (fun c => p_x p c + p_v p c * dt) (p_v p) (p_f p) (p_im p).

Inductive modif : Type :=
| CV (u : vec)                                              (* constantvelocity.hpp: velocity *)
| CVD (u disp : vec) (dist : Q) (moving : bool)             (* constantvelocitydistance.hpp *)
| CA (a : vec)                                              (* constantacceleration.hpp *)
| LD (d : Q)                                                (* linearvelocitydamping.hpp *)
| QD (d : Q)                                                (* quadraticvelocitydamping.hpp; inv_v_char is 1 *)
| WT (lb rb vel damping : Q)                           (* windtunnel.hpp: leftBound, rightBound, velocity; DEFAULT_DAMPING_CONSTANT *)
| ST (entry exit vel damping : Q).                          (* stream-tunnel.hpp: entry_threshold, exit_threshold, driving_velocity *)

(* constantacceleration.cpp 8-15 constructors *)
Definition accel_of (dims : nat) (a : Q) (d : Z) : vec := fun c => if (0 <=? d)%Z && (d <? Z.of_nat dims)%Z && (Z.of_nat c =? d)%Z then a else 0.
(* windtunnel.cpp 7-21 constructors: the bounds of the zones *)
Definition wind_tunnel (mn mx vel damping : Q) : modif :=
  let hw := Qmin ((1#10) * (mx - mn)) 4 in WT (mn + hw) (mx - hw) vel damping.
(* stream-tunnel.cpp 7-26 *)
Definition stream_tunnel (mn mx vel damping : Q) : modif :=
  let w := Qmin 2 ((1#10) * (mx - mn)) in ST (w + mn) (mx - w) vel damping.

(* linearvelocitydamping.cpp 11-33, quadraticvelocitydamping.cpp 11-33 pre_forces *)
Definition pre_forces (m : modif) (p : pt) : pt :=
  match m with
  | LD d => set_f (fun c => p_f p c - d * p_v p c) p
  | QD d => set_f (fun c => p_f p c - d * (p_v p c * p_v p c)) p
  | _ => p
  end.
(* constantvelocity.cpp 14-25, constantvelocitydistance.cpp 19-43, constantacceleration.cpp 17-29, windtunnel.cpp 23-42 (in a simulation run),
   stream-tunnel.cpp 61-94 (a particle that is not past the end of the box) post_forces *)
Definition post_forces (dims : nat) (dt : Q) (m : modif) (p : pt) : modif * pt :=
  match m with
  | CV u => (m, set_f vzero (set_v u p))
  | CVD u disp dist moving =>
      if moving then let disp' := vadd disp (vscale dt u) in (CVD u disp' dist (negb (Qltb (dist * dist) (sumsq dims disp'))), set_f vzero (set_v u p))
      else (m, set_f vzero (set_v vzero p))
  | CA a => let mass := if Qltb 0 (p_im p) then 1 / p_im p else 0 in (m, set_f (vadd (p_f p) (vscale mass a)) p)
  | LD _ | QD _ => (m, p)
  | WT lb rb vel damping =>
      (m, if Qltb (p_x p 0%nat) lb || Qltb rb (p_x p 0%nat) then set_f vzero (set_v (fun c => (if (c =? 0)%nat then vel else 0) + (1#4) * damping * p_f p c) p) else p)
  | ST entry exit vel damping =>
      (m, if Qltb (p_x p 0%nat) entry || Qltb exit (p_x p 0%nat)
          then set_f vzero (set_v (fun c => (if (c =? 0)%nat then vel else 0) + (1#20) * damping * p_im p * p_f p c) p) else p)
  end.
Fixpoint pre_all (ms : list modif) (p : pt) : pt := match ms with [] => p | m :: t => pre_all t (pre_forces m p) end.
Fixpoint post_all (dims : nat) (dt : Q) (ms : list modif) (p : pt) : list modif * pt :=
  match ms with [] => ([], p) | m :: t => let '(m', p1) := post_forces dims dt m p in let '(t', p2) := post_all dims dt t p1 in (m' :: t', p2) end.
(* gflow.cpp 165-236: one step. The forces are cleared and computed anew: g *)
Definition step (dims : nat) (dt : Q) (g : vec) (s : list modif * pt) : list modif * pt :=
  let '(ms, p) := s in let p1 := drift dt (half_kick dt (pre_all ms p)) in let '(ms', p2) := post_all dims dt ms (set_f g p1) in (ms', half_kick dt p2).
Definition run (dims : nat) (steps : list (Q * vec)) (s : list modif * pt) : list modif * pt := fold_left (fun s a => step dims (fst a) (snd a) s) steps s.

(* The modifier of a particle that changes between processors: in each step the processor owns the particle or does not (getLocalID < 0); the remove
   flag is set then and the modifier is erased in the next step (constantvelocity.cpp 17-21, gflow.cpp 222, 780-791). alive: not erased yet *)
Fixpoint still_there (alive flagged : bool) (owned : list bool) : list bool :=
  match owned with [] => [] | o :: t => let alive' := alive && negb flagged in alive' :: still_there alive' (flagged || negb o) t end.

(* temperaturemodifier.cpp 14-49: when the random force and the drag are applied. last: lastUpdate; the force: noise and drag are what line 31-44 adds *)
Definition thermo (delay temp : Q) (time last : Q) (noise drag f : vec) : Q * vec :=
  if Qltb (time - last) delay || Qle_bool temp 0 then (last, f) else (time, fun c => f c + noise c - drag c).

(* twowallmodifier.cpp 35-56: the acceleration of wall A along x (that of wall B is the opposite); dx after the minimum image *)
Definition two_wall (maxd mind acc dx : Q) : Q :=
  let fdx := Qabs dx in let sg := if Qltb dx 0 then -1 else 1 in
  let a := if Qltb 0 maxd && Qltb maxd fdx then (fdx - maxd) * sg * acc else 0 in
  if Qltb 0 mind && Qltb fdx mind then a - (mind - fdx) * sg * acc else a.
(* other/group.cpp 115-128 addAcceleration: the net force that is added to a group, for the inverse masses of its members *)
Definition added_force (a : Q) (ims : list Q) : Q := fold_left (fun s im => if Qltb 0 im then s + a * (1 / im) else s) ims 0.

(* ---------- The stream of new particles: stream-tunnel.cpp 28-59, 118-152. mn: the left end of the box, s: ave_spacing, vel: driving_velocity.
   A column is a value of pos[0] for which particles are made. st_cols: the columns made so far, with the time. None: not enough rounds *)
Record stream := mkStream { st_next : Q; st_last : Q; st_cols : list (Q * Q) }.
(* 28-31 pre_integrate *)
Definition stream_start (mn s : Q) (cols : list (Q * Q)) : stream := mkStream (mn - (1#2) * s) 0 cols.
(* 139 the loop: positions, and the value at which it ends *)
Fixpoint fill_down (fuel : nat) (mn s pos : Q) : option (list Q * Q) :=
  if Qltb mn pos then match fuel with O => None | S n => match fill_down n mn s (pos - s) with None => None | Some (l, e) => Some (pos :: l, e) end end
  else Some ([], pos).
Definition rounds (mn s pos : Q) : nat := S (Z.to_nat (Qround.Qceiling ((pos - mn) / s))).
(* 33-59 pre_forces at the given elapsed time, on the processor at the left end; cut: entry_fraction * entry_width *)
Definition stream_step (mn s vel cut : Q) (time : Q) (st : stream) : option stream :=
  let cur := st_next st + vel * (time - st_last st) in
  if Qltb (mn + cut) cur then
    match fill_down (rounds mn s cur) mn s cur with None => None | Some (l, e) => Some (mkStream e time (st_cols st ++ map (fun x => (x, time)) l)) end
  else Some st.
Fixpoint stream_run (mn s vel cut : Q) (times : list Q) (st : stream) : option stream :=
  match times with [] => Some st | t :: ts => match stream_step mn s vel cut t st with None => None | Some st' => stream_run mn s vel cut ts st' end end.
(* 127-139: the values of pos[d], d > 0, on a processor that extends from pmn to pmx along d; smn: the lower end of the box. static_cast<int> truncates *)
Definition Qtrunc0 (q : Q) : Z := if Qltb q 0 then (- Qround.Qfloor (- q))%Z else Qround.Qfloor q.
Definition stream_rows (smn pmn pmx s : Q) : option (list Q) :=
  let n := Qtrunc0 ((pmx - smn - (1#2) * s) / s) in let top := smn + (inject_Z n + (1#2)) * s in
  match fill_down (rounds pmn s top) pmn s top with None => None | Some (l, _) => Some l end.
(* stream-tunnel.hpp 45-52, stream-tunnel.cpp 17-26: the spacing of a tunnel made with a speed and radii; 105-115 parse_construct: with the
   parameters of a file; side: the side of the cube with the volume of an average particle over the target density *)
Definition spacing_constructed (min_r max_r : Q) : Q := 5#100.
Definition spacing_parsed (side : Q -> Q) (min_r max_r : Q) : Q := side ((1#2) * (min_r + max_r)).
(* temperaturemodifier.cpp 14-49 called at the given times (elapsed time, noise, drag, force before): the forces after the calls *)
Fixpoint thermo_run (delay temp last : Q) (calls : list (Q * (vec * vec * vec))) : list vec :=
  match calls with [] => [] | (t, (noise, drag, f)) :: cs => let '(last', f') := thermo delay temp t last noise drag f in f' :: thermo_run delay temp last' cs end.
