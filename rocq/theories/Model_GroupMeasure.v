(* What is measured on and done to the particles of a group: src/other/group.cpp; the force and torque removers
   (src/modifiers), the sliding wall and the rigid body (src/body), the spring between two groups (src/bonded). Paths under
   /repo/GFlowSim/src. Exact real arithmetic for RealType; a vector is the function of its components, of which the first
   sim_dimensions count. Groups are given by their local ids, which are valid addresses (that is C44). None: a NaN is produced
   or memory outside of a vector is read. *)
From Coq Require Import Reals List Bool Arith Lia Lra.
From Verif Require Import Model_Forces.
Import ListNotations.
Local Open Scope R_scope.

(* The particle arrays, and the box with its boundary conditions (w_bc d: periodic) *)
Record world := mkW { w_dims : nat; w_x : nat -> vec; w_v : nat -> vec; w_f : nat -> vec; w_im : nat -> R; w_sg : nat -> R;
                      w_lo : vec; w_hi : vec; w_bc : nat -> bool }.
Definition w_width (w : world) : vec := fun d => w_hi w d - w_lo w d.
Definition with_v (v : nat -> vec) (w : world) : world := mkW (w_dims w) (w_x w) v (w_f w) (w_im w) (w_sg w) (w_lo w) (w_hi w) (w_bc w).
Definition with_f (f : nat -> vec) (w : world) : world := mkW (w_dims w) (w_x w) (w_v w) f (w_im w) (w_sg w) (w_lo w) (w_hi w) (w_bc w).

Definition zerov : vec := fun _ => 0.
Definition vplus (x y : vec) : vec := fun d => x d + y d.
Definition vneg (x : vec) : vec := fun d => - x d.
(* gflow.cpp 418-426 getDisplacement *)
Definition disp (w : world) (x y : vec) : vec := correction (w_bc w) (w_width w) (vsub x y).
(* gflow.cpp 444-459 getDistance *)
Definition distance_between (w : world) (x y : vec) : R := sqrt (dot (w_dims w) (disp w x y) (disp w x y)).
(* 1./a in floating point: infinite for a = 0; every use below then ends in a NaN *)
Definition recip (a : R) : option R := if Req_EM_T a 0 then None else Some (1 / a).

(* group.cpp 66-74: the loop; returns mass and Rcm *)
Fixpoint com_loop (w : world) (r0 : vec) (ids : list nat) (mass : R) (acc : vec) : option (R * vec) :=
  match ids with
  | [] => Some (mass, acc)
  | id :: t => match recip (w_im w id) with
               | None => None
               | Some m => com_loop w r0 t (mass + m) (vplus acc (vscale m (disp w (w_x w id) r0)))
               end
  end.
(* group.cpp 81-84 *)
Definition com_wrap (w : world) (r : vec) : vec := fun d =>
  if Rlt_dec (r d) (w_lo w d) then r d + w_width w d else if Rlt_dec (w_hi w d) (r d) then r d - w_width w d else r d.
(* group.cpp 45-87 findCenterOfMass *)
Definition findCenterOfMass (w : world) (ids : list nat) : option vec :=
  match ids with
  | [] => Some zerov
  | _ =>
      let r0 := w_x w (nth (length ids / 2) ids 0%nat) in
      match com_loop w r0 ids 0 zerov with
      | None => None
      | Some (mass, acc) => match recip mass with None => None | Some im => Some (com_wrap w (vplus (vscale im acc) r0)) end
      end
  end.

(* group.cpp 97-101 *)
Fixpoint vel_loop (w : world) (ids : list nat) (mass : R) (acc : vec) : option (R * vec) :=
  match ids with
  | [] => Some (mass, acc)
  | id :: t => match recip (w_im w id) with
               | None => None
               | Some m => vel_loop w t (mass + m) (vplus acc (vscale m (w_v w id)))
               end
  end.
(* group.cpp 89-104 *)
Definition findCOMVelocity (w : world) (ids : list nat) : option vec :=
  match ids with
  | [] => Some zerov
  | _ => match vel_loop w ids 0 zerov with
         | None => None
         | Some (mass, acc) => match recip mass with None => None | Some im => Some (vscale im acc) end
         end
  end.

(* plusEqVecScaled(a(id), V, s, sim_dimensions): add_scaled of Model_Forces. *)
(* group.cpp 106-113 *)
Definition addVelocity (V : vec) (ids : list nat) (w : world) : world :=
  with_v (fold_left (fun v id => add_scaled (w_dims w) id V 1 v) ids (w_v w)) w.
(* group.cpp 115-128 *)
Definition addAcceleration (A : vec) (ids : list nat) (w : world) : world :=
  with_f (fold_left (fun f id => if Rlt_dec 0 (w_im w id) then add_scaled (w_dims w) id A (1 / w_im w id) f else f) ids (w_f w)) w.

(* group.cpp 141-152: size()-1 is unsigned *)
Fixpoint chain_from (w : world) (id : nat) (ids : list nat) (len : R) : R :=
  match ids with [] => len | id' :: t => chain_from w id' t (len + distance_between w (w_x w id) (w_x w id')) end.
Definition getChainedLength (w : world) (ids : list nat) : option R :=
  match ids with [] => None | id :: t => Some (chain_from w id t 0) end.

(* group.cpp 163-174 distance: _distance is returned, not minimum_distance *)
Fixpoint distance_loop (w : world) (p : vec) (ids : list nat) (dm : R * R) : R * R :=
  match ids with
  | [] => dm
  | id :: t => let d := distance_between w (w_x w id) p in
               distance_loop w p t (d, if Rlt_dec d (snd dm) then d else snd dm)
  end.
Definition group_distance (w : world) (p : vec) (ids : list nat) : R :=
  match ids with [] => -1 | _ => fst (distance_loop w p ids (1000000, 1000000)) end.

(* group.cpp 176-186 *)
Definition findNetForce (w : world) (ids : list nat) : vec := fold_left (fun acc id => vplus acc (w_f w id)) ids zerov.

(* group.cpp 188-199: 0 as soon as a member has infinite mass *)
Fixpoint mass_loop (w : world) (ids : list nat) (m : R) : R :=
  match ids with [] => m | id :: t => if Req_EM_T (w_im w id) 0 then 0 else mass_loop w t (m + 1 / w_im w id) end.
Definition findTotalMass (w : world) (ids : list nat) : R := match ids with [] => 0 | _ => mass_loop w ids 0 end.

(* group.cpp 201-218; old: what the output vector held before *)
Definition closest_step (w : world) (p : vec) (acc : R * vec) (id : nat) : R * vec :=
  let dr := disp w (w_x w id) p in let d := dot (w_dims w) dr dr in if Rlt_dec (fst acc) d then (d, dr) else acc.
Definition findClosestObject (w : world) (p : vec) (old : vec) (ids : list nat) : vec :=
  match ids with [] => old | _ => snd (fold_left (closest_step w p) ids (0, zerov)) end.

(* ---------- modifiers/force-remover.cpp ---------- *)
(* 49-63 remove_net_force; mass and projection are members *)
Definition remove_net_force (mass : R) (proj : vec) (ids : list nat) (w : world) : world :=
  if Rle_dec mass 0 then w else
  match ids with
  | [] => w
  | _ => let a := dot (w_dims w) proj (findNetForce w ids) / mass in addAcceleration (vscale (- a) proj) ids w
  end.
(* utility/vec.hpp 157-164: a zero vector is left alone *)
Definition unit_of (dims : nat) (p : vec) : vec :=
  let m := sqrt (dot dims p p) in if Req_EM_T m 0 then p else fun d => p d / m.
(* 23-41 pre_integrate: returns the world, the mass and the projection kept *)
Definition remover_pre_integrate (proj : vec) (ids : list nat) (w : world) : option (world * R * vec) :=
  let mass := findTotalMass w ids in
  let p := unit_of (w_dims w) proj in
  match findCOMVelocity w ids with
  | None => None
  | Some V => let w1 := addVelocity (vscale (- dot (w_dims w) V p) p) ids w in Some (remove_net_force mass p ids w1, mass, p)
  end.

(* ---------- modifiers/torque-remover.cpp ---------- *)
(* utility/vec.hpp crossVec2 *)
Definition cross2 (x y : vec) : R := x 0%nat * y 1%nat - x 1%nat * y 0%nat.
(* v(id,0) += a; v(id,1) += b *)
Definition add2 (id : nat) (a b : R) (v : nat -> vec) : nat -> vec := fun i d =>
  if (i =? id)%nat then (match d with 0%nat => v i d + a | 1%nat => v i d + b | _ => v i d end) else v i d.
(* 21-30: L and II; None for a member of infinite mass *)
Fixpoint spin_loop (w : world) (com : vec) (ids : list nat) (L J : R) : option (R * R) :=
  match ids with
  | [] => Some (L, J)
  | id :: t => match recip (w_im w id) with
               | None => None
               | Some m => let X := disp w (w_x w id) com in
                           spin_loop w com t (L + cross2 X (vscale m (w_v w id))) (J + m * dot (w_dims w) X X)
               end
  end.
(* 12-43 pre_integrate *)
Definition torque_pre_integrate (ids : list nat) (w : world) : option world :=
  match ids with
  | [] => Some w
  | _ =>
  match findCenterOfMass w ids with
  | None => None
  | Some com =>
      match spin_loop w com ids 0 0 with
      | None => None
      | Some (L, J) =>
          if Req_EM_T J 0 then None else      (* L / II *)
          let om := L / J in
          Some (with_v (fold_left (fun v id => let X := disp w (w_x w id) com in
            add2 id (om * X 1%nat) (- om * X 0%nat) v) ids (w_v w)) w)
      end
  end end.
(* 65-77: torque and II *)
Fixpoint torque_loop (w : world) (com : vec) (ids : list nat) (T J : R) : option (R * R) :=
  match ids with
  | [] => Some (T, J)
  | id :: t => match recip (w_im w id) with
               | None => None
               | Some m => let X := disp w (w_x w id) com in
                           torque_loop w com t (T + cross2 X (w_f w id)) (J + m * dot (w_dims w) X X)
               end
  end.
(* 45-90 post_forces *)
Definition torque_post_forces (ids : list nat) (w : world) : option world :=
  match ids with
  | [] => Some w
  | _ =>
  if negb (w_dims w =? 2)%nat then Some w else
  match findCenterOfMass w ids with
  | None => None
  | Some com =>
      match torque_loop w com ids 0 0 with
      | None => None
      | Some (T, J) =>
          let al := if Rlt_dec 0 J then T / J else 0 in
          Some (with_f (fold_left (fun f id => let X := disp w (w_x w id) com in
            add2 id (1 / w_im w id * al * X 1%nat) (- (1 / w_im w id * al * X 0%nat)) f) ids (w_f w)) w)
      end
  end end.

(* ---------- body/wallslidebody.cpp ---------- *)
Definition zero_at (dims id : nat) (f : nat -> vec) : nat -> vec := fun i d => if ((i =? id) && (d <? dims))%nat then 0 else f i d.
Definition set_at (id k : nat) (a : R) (f : nat -> vec) : nat -> vec := fun i d => if ((i =? id) && (d =? k))%nat then a else f i d.
(* 61-70: Fnet, M, has_inf, and the forces cleared one after the other *)
Fixpoint slide_loop (w : world) (k : nat) (ids : list nat) (Fnet M : R) (inf : bool) (f : nat -> vec) : R * R * bool * (nat -> vec) :=
  match ids with
  | [] => (Fnet, M, inf, f)
  | id :: t =>
      let M' := if Rlt_dec 0 (w_im w id) then M + 1 / w_im w id else M in
      let inf' := if Rlt_dec 0 (w_im w id) then inf else true in
      slide_loop w k t (Fnet + f id k) M' inf' (zero_at (w_dims w) id f)
  end.
(* 46-82 correct; k: slide_dimension. Also returns Fnet. (For an empty group A = 0/0, but is not used.) *)
Definition slide_correct (k : nat) (ids : list nat) (w : world) : R * world :=
  if (w_dims w <=? k)%nat then (0, w) else
  let '(Fnet, M, inf, f) := slide_loop w k ids 0 0 false (w_f w) in
  if inf then (Fnet, with_f f w) else
  let A := Fnet / M in
  (Fnet, with_f (fold_left (fun g id => set_at id k (1 / w_im w id * A) g) ids f) w).
(* 15-25: pre_integrate sets the velocities of the members to zero *)
Definition slide_pre_integrate (ids : list nat) (w : world) : world :=
  with_v (fold_left (fun v id => zero_at (w_dims w) id v) ids (w_v w)) w.
(* 27-43: the bounding box, which gives the length *)
Definition extent_step (w : world) (mm : vec * vec) (id : nat) : vec * vec :=
  let x := w_x w id in let r := w_sg w id in
  (fun d => if Rlt_dec (x d - r) (fst mm d) then x d - r else fst mm d,
   fun d => if Rlt_dec (x d - r) (fst mm d) then snd mm d else if Rlt_dec (snd mm d) (x d + r) then x d + r else snd mm d).
Definition slide_length (ids : list nat) (w : world) : option R :=
  match ids with
  | [] => None
  | id :: _ => let '(mn, mx) := fold_left (extent_step w) ids (w_x w id, w_x w id) in
               Some (sqrt (dot (w_dims w) (vsub mx mn) (vsub mx mn)))
  end.

(* ---------- body/rigidbody_2d.cpp ---------- *)
(* The class does not override Body::correct (base/body.hpp 17, pure virtual), which is all that the run loop (gflow.cpp 215-219) calls: as
   it stands no object of this class can be made. What is modelled is its post_forces. *)
(* 36-60: fnet, I and tau; positions relative to the first member *)
Fixpoint rigid_loop (w : world) (r0 : vec) (ids : list nat) (fx fy J tau : R) : option (R * R * R * R) :=
  match ids with
  | [] => Some (fx, fy, J, tau)
  | id :: t => match recip (w_im w id) with
               | None => None
               | Some m =>
                   let X := disp w (w_x w id) r0 in let dx := X 0%nat in let dy := X 1%nat in
                   rigid_loop w r0 t (fx + w_f w id 0%nat) (fy + w_f w id 1%nat) (J + m * (dx * dx + dy * dy))
                     (tau + (w_f w id 0%nat * dy - w_f w id 1%nat * dx))
               end
  end.
(* 10-98 post_forces; mass is a member, kept by add. rcm (38-74) is computed but not used for the forces. *)
Definition rigid_post_forces (mass : R) (ids : list nat) (w : world) : option world :=
  match ids with
  | [] => Some w
  | id0 :: _ =>
      let r0 := w_x w id0 in
      match rigid_loop w r0 ids 0 0 0 0 with
      | None => None
      | Some (fx, fy, J, tau) =>
          if Req_EM_T mass 0 then None else if Req_EM_T J 0 then None else
          let ax := fx / mass in let ay := fy / mass in let al := tau / J in
          Some (with_f (fold_left (fun f id =>
            let X := disp w (w_x w id) r0 in let dx := X 0%nat in let dy := X 1%nat in let m := 1 / w_im w id in
            set_at id 1 (m * (ay + al * dx)) (set_at id 0 (m * (ax - al * dy)) f)) ids (w_f w)) w)
      end
  end.

(* ---------- bonded/twogroupharmonic.cpp ---------- *)
Record spring := mkSpring { sp_a : list nat; sp_b : list nat; sp_massA : R; sp_massB : R; sp_k : R; sp_min : R; sp_max : R }.
(* 5-8 the constructors; the masses are 0 (twogroupharmonic.hpp 44) *)
Definition new_spring (a b : list nat) : spring := mkSpring a b 0 0 50 0 (3 / 20).
(* 10-16 pre_integrate; the run loop (gflow.cpp 138-147) does not call it for bonded objects *)
Definition spring_pre_integrate (w : world) (s : spring) : spring :=
  mkSpring (sp_a s) (sp_b s) (findTotalMass w (sp_a s)) (findTotalMass w (sp_b s)) (sp_k s) (sp_min s) (sp_max s).
(* 60-63, 65-68: setGroupB takes the mass of group A *)
Definition setGroupA (w : world) (g : list nat) (s : spring) : spring :=
  mkSpring g (sp_b s) (findTotalMass w g) (sp_massB s) (sp_k s) (sp_min s) (sp_max s).
Definition setGroupB (w : world) (g : list nat) (s : spring) : spring :=
  mkSpring (sp_a s) g (sp_massA s) (findTotalMass w (sp_a s)) (sp_k s) (sp_min s) (sp_max s).
(* 34-45: one of the two "if"s; c: min or max distance *)
Definition spring_push (s : spring) (d c : R) (n : vec) (w : world) : world :=
  let F := vscale (sp_k s * (d - c)) n in
  addAcceleration (vscale (1 / sp_massB s) (vneg F)) (sp_b s) (addAcceleration (vscale (1 / sp_massA s) F) (sp_a s) w).
(* 18-46 interact *)
Definition spring_interact (s : spring) (w : world) : option world :=
  match sp_a s, sp_b s with
  | [], _ | _, [] => Some w
  | _, _ =>
      if Rle_dec (sp_massA s) 0 then Some w else if Rle_dec (sp_massB s) 0 then Some w else
      match findCenterOfMass w (sp_a s), findCenterOfMass w (sp_b s) with
      | Some X1, Some X2 =>
          let dX := disp w X2 X1 in
          let d := sqrt (dot (w_dims w) dX dX) in
          let n := unit_of (w_dims w) dX in
          let w1 := if Rlt_dec d (sp_min s) then spring_push s d (sp_min s) n w else w in
          Some (if Rlt_dec (sp_max s) d then spring_push s d (sp_max s) n w1 else w1)
      | _, _ => None
      end
  end.

(* One time step as the members of a sliding wall see it. integrators/velocityverlet.cpp (pre_forces, post_forces: half kick, drift;
   half kick) and the loop of gflow.cpp 150-235; [forces] stands for all that computes forces in between, and may be anything. The
   boundary conditions (which shift positions by box widths) are left out. *)
Definition kick (dt : R) (w : world) : world := with_v (fun i d => w_v w i d + dt / 2 * w_im w i * w_f w i d) w.
Definition drift (dt : R) (w : world) : world :=
  mkW (w_dims w) (fun i d => w_x w i d + dt * w_v w i d) (w_v w) (w_f w) (w_im w) (w_sg w) (w_lo w) (w_hi w) (w_bc w).
Definition slide_step (k : nat) (ids : list nat) (dt : R) (forces : world -> nat -> vec) (w : world) : world :=
  let w1 := drift dt (kick dt w) in
  kick dt (snd (slide_correct k ids (with_f (forces w1) w1))).
