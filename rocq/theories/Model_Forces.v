(* The pair forces (src/interactions/generic-forces.hpp), the loop that applies them (generic-handlers.hpp, dolist) and the
   bonded forces (src/bonded); paths under /repo/GFlowSim/src. Exact real arithmetic for RealType. A vector is the function
   of its components, of which the first dims count; the force array is f i d. None: a NaN is produced (division by r = 0,
   square root of a negative number). *)
From Coq Require Import Reals List Bool Arith Lia Lra.
Import ListNotations.
Local Open Scope R_scope.

Definition vec := nat -> R.

(* generic-dimension.hpp 35-44: dot_vec *)
Fixpoint dot (dims : nat) (x y : vec) : R := match dims with O => 0 | S d => x d * y d + dot d x y end.
(* generic-dimension.hpp: subtract_vec, scalar_mult_eq_vec *)
Definition vsub (x y : vec) : vec := fun d => x d - y d.
Definition vscale (s : R) (x : vec) : vec := fun d => s * x d.
(* generic-dimension.hpp: sum_eq_vec_scaled<dims>(f(id), x, s) *)
Definition add_scaled (dims id : nat) (x : vec) (s : R) (f : nat -> vec) : nat -> vec :=
  fun i d => if ((i =? id) && (d <? dims))%nat then f i d + s * x d else f i d.
(* generic-dimension.hpp 13-32: harmonic_correction (also GFlow::minimumImage, gflow.cpp 428-435); bc d: periodic *)
Definition correction (bc : nat -> bool) (width : vec) (x : vec) : vec := fun d =>
  if bc d then (let dx := width d - Rabs (x d) in
                if Rlt_dec dx (Rabs (x d)) then (if Rlt_dec 0 (x d) then - dx else dx) else x d)
  else x d.

(* What a sweep reads ... *)
Record env := mkEnv { e_dims : nat; e_x : nat -> vec; e_v : nat -> vec; e_im : nat -> R; e_sg : nat -> R; e_om : nat -> R;
                      e_bc : nat -> bool; e_width : vec; e_pot : bool (* do_potential *); e_vir : bool (* do_virial *) }.
(* ... and what it changes: forces, torques ("Tq"), potential, virial. *)
Record fstate := mkF { F : nat -> vec; Tq : nat -> R; pot : R; vir : R }.

(* The forces with their parameters. *)
Inductive kind :=
| HardSphere (repulsion : R)
| HardSphereDs (repulsion dissipation : R)
| LennardJones (strength shift : R)
| Coulomb (strength shift : R)
| Buckingham (strength ratio inner shift : R)
| Hertz (K_n gamma_n : R)
| Hooke (K_n gamma_n gamma_t mu : R).

(* The common ending of the kernels: forces, potential, virial. *)
Definition push (e : env) (id0 id1 : nat) (n : vec) (Fn : R) (f : nat -> vec) : nat -> vec :=
  add_scaled (e_dims e) id1 n (- Fn) (add_scaled (e_dims e) id0 n Fn f).
Definition book (e : env) (U W : R) (st : fstate) : fstate :=
  mkF (F st) (Tq st) (if e_pot e then pot st + U else pot st) (if e_vir e then vir st + W else vir st).

(* generic-forces.hpp 33-54 *)
Definition hard_sphere (k : R) (e : env) (id0 id1 : nat) (R1 R2 rsqr : R) (X : vec) (st : fstate) : option fstate :=
  if Req_EM_T rsqr 0 then None else
  let r := sqrt rsqr in
  let n := vscale (1 / r) X in
  let Fn := k * (R1 + R2 - r) in
  Some (book e (1 / 2 * k * ((r - R1 - R2) * (r - R1 - R2))) (Fn * r) (mkF (push e id0 id1 n Fn (F st)) (Tq st) (pot st) (vir st))).
(* 119-146 *)
Definition hard_sphere_ds (k c : R) (e : env) (id0 id1 : nat) (R1 R2 rsqr : R) (X : vec) (st : fstate) : option fstate :=
  if Req_EM_T rsqr 0 then None else
  let r := sqrt rsqr in
  let n := vscale (1 / r) X in
  let V := vsub (e_v e id1) (e_v e id0) in
  let vn := dot (e_dims e) V n in
  let Fn := Rmax 0 (k * (R1 + R2 - r) + c * vn) in
  Some (book e (1 / 2 * k * ((r - R1 - R2) * (r - R1 - R2))) (Fn * r) (mkF (push e id0 id1 n Fn (F st)) (Tq st) (pot st) (vir st))).
(* 219-245 *)
Definition lennard_jones (s shift : R) (e : env) (id0 id1 : nat) (R1 R2 rsqr : R) (X : vec) (st : fstate) : option fstate :=
  if Req_EM_T rsqr 0 then None else
  let r := sqrt rsqr in
  let invr := 1 / r in
  let n := vscale invr X in
  let gamma := (R1 + R2) * invr in
  let g3 := gamma * gamma * gamma in
  let g6 := g3 * g3 in
  let g12 := g6 * g6 in
  let Fn := 24 * s * (2 * g12 - g6) * invr in
  Some (book e (4 * s * (g12 - g6) - shift) (Fn * r) (mkF (push e id0 id1 n Fn (F st)) (Tq st) (pot st) (vir st))).
(* 312-334; cutoff: Interaction::cutoff *)
Definition coulomb (s shift cutoff : R) (e : env) (id0 id1 : nat) (R1 R2 rsqr : R) (X : vec) (st : fstate) : option fstate :=
  if Req_EM_T rsqr 0 then None else
  let r := sqrt rsqr in
  let n := vscale (1 / r) X in
  let Fn := s / rsqr - s / (cutoff * cutoff) in
  Some (book e (s / r - shift) (Fn * r) (mkF (push e id0 id1 n Fn (F st)) (Tq st) (pot st) (vir st))).
(* 401-429; expf is the exponential. radius = 0 is excluded by the loop (R1+R2 > 0). *)
Definition buckingham (s ratio inner shift : R) (e : env) (id0 id1 : nat) (R1 R2 rsqr : R) (X : vec) (st : fstate) : option fstate :=
  if Req_EM_T rsqr 0 then None else
  let r := sqrt rsqr in
  let invr := 1 / r in
  let n := vscale invr X in
  let radius := (R1 + R2) * invr in
  let exp1 := exp (- ratio / radius) in
  let sigma2 := radius * radius in
  let sigma6 := sigma2 * sigma2 * sigma2 in
  let Fn := Rmin inner (s * invr * (ratio * exp1 - 6 * sigma6)) in
  Some (book e (s * (exp1 - sigma6) - shift) (Fn * r) (mkF (push e id0 id1 n Fn (F st)) (Tq st) (pot st) (vir st))).
(* 1/im with im = 0 is infinite and then m1*m2/(m1+m2) is NaN: replaced by 1 (523-528, 703-708) *)
Definition m_eff (im0 im1 : R) : R :=
  if Req_EM_T im0 0 then 1 else if Req_EM_T im1 0 then 1 else
  (1 / im0) * (1 / im1) / (1 / im0 + 1 / im1).
(* 510-597 *)
Definition hertz (kn gn : R) (e : env) (id0 id1 : nat) (R1 R2 rsqr : R) (X : vec) (st : fstate) : option fstate :=
  if Req_EM_T rsqr 0 then None else
  let r := sqrt rsqr in
  let n := vscale (1 / r) X in
  let delta := R1 + R2 - r in
  if Rlt_dec delta 0 then Some st else
  let R_eff := R1 * R2 / (R1 + R2) in
  let M := m_eff (e_im e id0) (e_im e id1) in
  let V := vsub (e_v e id0) (e_v e id1) in
  let vn := dot (e_dims e) V n in
  if Rlt_dec (delta * R_eff) 0 then None else
  let c1 := sqrt (delta * R_eff) in
  let Fn := Rmax 0 (c1 * (kn * delta - M * gn * vn)) in
  Some (book e 0 (Fn * r) (mkF (push e id0 id1 n Fn (F st)) (Tq st) (pot st) (vir st))).
(* 694-771; note f1(id0) at 721 (f0 and f1 are the same array for two real particles) *)
Definition hooke (kn gn gt mu : R) (e : env) (id0 id1 : nat) (R1 R2 rsqr : R) (X : vec) (st : fstate) : option fstate :=
  if Req_EM_T rsqr 0 then None else
  let r := sqrt rsqr in
  let n := vscale (1 / r) X in
  let delta := R1 + R2 - r in
  let M := m_eff (e_im e id0) (e_im e id1) in
  let V := vsub (e_v e id0) (e_v e id1) in
  let vn := dot (e_dims e) V n in
  let Fn := Rmax 0 (kn * delta - M * gn * vn) in
  let f1 := add_scaled (e_dims e) id0 n (- Fn) (add_scaled (e_dims e) id0 n Fn (F st)) in
  let Vt := vsub V (vscale vn n) in
  if (e_dims e =? 2)%nat then
    let Nt : vec := fun d => match d with O => - n 1%nat | _ => n 0%nat end in
    let vt := dot 2 Vt Nt - (e_om e id0 * R1 + e_om e id1 * R2) in
    let Ft0 := - (M * gt * vt) in
    let Ft := if Rlt_dec Ft0 (- (mu * Fn)) then - mu * Fn else if Rlt_dec (mu * Fn) Ft0 then mu * Fn else Ft0 in
    let f2 := add_scaled 2 id1 Nt (- Ft) (add_scaled 2 id0 Nt Ft f1) in
    let tq := fun i => (if (i =? id1)%nat then (if (i =? id0)%nat then Tq st i - Ft * R1 else Tq st i) - Ft * R2
                        else if (i =? id0)%nat then Tq st i - Ft * R1 else Tq st i) in
    Some (book e 0 (Fn * r) (mkF f2 tq (pot st) (vir st)))
  else Some (book e 0 (Fn * r) (mkF f1 (Tq st) (pot st) (vir st))).

Definition kernel (k : kind) (cutoff : R) : env -> nat -> nat -> R -> R -> R -> vec -> fstate -> option fstate :=
  match k with
  | HardSphere k => hard_sphere k
  | HardSphereDs k c => hard_sphere_ds k c
  | LennardJones s sh => lennard_jones s sh
  | Coulomb s sh => coulomb s sh cutoff
  | Buckingham s ra i sh => buckingham s ra i sh
  | Hertz kn gn => hertz kn gn
  | Hooke kn gn gt mu => hooke kn gn gt mu
  end.

(* generic-handlers.hpp 134-152 (likewise 240-260, 345-365): one pair *)
Definition do_pair (k : kind) (cutoff : R) (e : env) (wrapping : bool) (id1 id2 : nat) (st : fstate) : option fstate :=
  let X0 := vsub (e_x e id1) (e_x e id2) in
  let X := if wrapping then correction (e_bc e) (e_width e) X0 else X0 in
  let rsqr := dot (e_dims e) X X in
  let R1 := e_sg e id1 in
  let R2 := e_sg e id2 in
  if Rlt_dec rsqr (((R1 + R2) * cutoff) * ((R1 + R2) * cutoff)) then kernel k cutoff e id1 id2 R1 R2 rsqr X st else Some st.
Fixpoint do_list (k : kind) (cutoff : R) (e : env) (wrapping : bool) (ps : list (nat * nat)) (st : fstate) : option fstate :=
  match ps with
  | [] => Some st
  | (i, j) :: ps' => match do_pair k cutoff e wrapping i j st with Some st1 => do_list k cutoff e wrapping ps' st1 | None => None end
  end.
(* generic-handlers.hpp 66-77 with Interaction::interact (interaction.cpp 7-11); p0, p1: the pairs without and with wrapping *)
Definition interact_forces (k : kind) (cutoff : R) (e : env) (p0 p1 : list (nat * nat)) (st : fstate) : option fstate :=
  match do_list k cutoff e false p0 (mkF (F st) (Tq st) 0 0) with
  | Some st1 => do_list k cutoff e true p1 st1
  | None => None end.

(* LennardJones: constructor and setCutoff, 192-211 (strength, cutoff, shift); the default cutoff of an Interaction is 1 *)
Record cut := mkCut { c_strength : R; c_cutoff : R; c_shift : R }.
Definition lj_setCutoff (c : R) (p : cut) : cut :=
  let cu := if Rlt_dec 0 c then c else c_cutoff p in
  let gamma := 1 / cu in
  let g3 := gamma * gamma * gamma in
  let g6 := g3 * g3 in
  let g12 := g6 * g6 in
  mkCut (c_strength p) cu (4 * c_strength p * (g12 - g6)).
Definition lj_new (str : R) : cut := lj_setCutoff (5 / 2) (mkCut str 1 0).
(* parse_construct, 248-260: an absent cutoff is -1 *)
Definition lj_parse (str c : option R) (p : cut) : cut :=
  lj_setCutoff (match c with Some c => c | None => -1 end) (mkCut (match str with Some s => s | None => c_strength p end) (c_cutoff p) (c_shift p)).
(* Coulomb, 290-304 *)
Definition coulomb_setCutoff (c : R) (p : cut) : cut :=
  let cu := if Rlt_dec 0 c then c else c_cutoff p in mkCut (c_strength p) cu (c_strength p / cu).
Definition coulomb_new (str : R) : cut := coulomb_setCutoff 3 (mkCut str 1 0).
(* Buckingham, 379-393 *)
Definition buckingham_setCutoff (c : R) (p : cut) : cut :=
  mkCut (c_strength p) (if Rlt_dec 0 c then c else c_cutoff p) 0.
Definition buckingham_new (str : R) : cut := buckingham_setCutoff 3 (mkCut str 1 0).

(* Ghosts: generic-handlers.hpp 80-92. The first particle of each pair is a ghost with arrays of its own: here ghost g has the
   id N + g, N the number of real particles, and the forces on ids from N are never used. potential_factor is set to 1/2
   around the loop but no kernel reads it; Interaction::interact_ghosts does nothing (interaction.hpp 31). *)
Definition interact_ghost_forces (k : kind) (cutoff : R) (e : env) (p2 : list (nat * nat)) (st : fstate) : option fstate :=
  do_list k cutoff e true p2 st.

(* ------------------------------------------------------------------ bonded forces *)
(* Bonds: particles and equilibrium length. *)
Record bond := mkBond { b_l : nat; b_r : nat; b_len : R }.
(* normalizeVec (vectormath.hpp 150-155) *)
Definition normalize (dims : nat) (x : vec) : vec := let m := dot dims x x in vscale (if Rlt_dec 0 m then 1 / sqrt m else 0) x.
(* gflow.cpp 418-426 getDisplacement *)
Definition displacement (e : env) (i j : nat) : vec := correction (e_bc e) (e_width e) (vsub (e_x e i) (e_x e j)).
(* HarmonicBond::interact, harmonicbond.cpp 27-59 (dead particles are not checked), after Bonded::interact (bonded.cpp 7-11) *)
Definition harmonic_one (K : R) (e : env) (b : bond) (f : nat -> vec) : nat -> vec :=
  let dX := displacement e (b_l b) (b_r b) in
  let r := sqrt (dot (e_dims e) dX dX) in
  let dr := r - b_len b in
  let dX2 := vscale (K * dr) (normalize (e_dims e) dX) in
  add_scaled (e_dims e) (b_r b) dX2 1 (add_scaled (e_dims e) (b_l b) dX2 (-1) f).
Definition harmonic_bonds (K : R) (e : env) (bs : list bond) (st : fstate) : fstate :=
  mkF (fold_left (fun f b => harmonic_one K e b f) bs (F st)) (Tq st) 0 0.
(* HarmonicBond_2d::interact, harmonicbond_2d.cpp 9-65: the parent's interact first, then its own loop; dead: type < 0 *)
Definition harmonic_2d_one (K : R) (e : env) (dead : nat -> bool) (b : bond) (st : fstate) : option fstate :=
  if dead (b_l b) || dead (b_r b) then Some st else
  let dx := displacement e (b_l b) (b_r b) in
  let rsqr := dot 2 dx dx in
  if Req_EM_T rsqr 0 then None else
  let r := sqrt rsqr in
  let dr := r - b_len b in
  let scale := K * dr * (1 / r) in
  let dx2 := vscale scale dx in
  Some (book e (K * (dr * dr)) (K * dr * r) (mkF (add_scaled 2 (b_r b) dx2 1 (add_scaled 2 (b_l b) dx2 (-1) (F st))) (Tq st) (pot st) (vir st))).
Fixpoint fold_opt {A S} (f : A -> S -> option S) (l : list A) (s : S) : option S :=
  match l with [] => Some s | a :: l' => match f a s with Some s1 => fold_opt f l' s1 | None => None end end.
Definition harmonic_bonds_2d (K : R) (e : env) (dead : nat -> bool) (bs : list bond) (st : fstate) : option fstate :=
  let st1 := harmonic_bonds K e bs st in
  if (e_dims e =? 2)%nat then fold_opt (harmonic_2d_one K e dead) bs st1 else Some st1.
(* HarmonicBond_3d::interact, harmonicbond_3d.cpp 9-105; note f(id1) twice at 96-97 *)
Definition harmonic_3d_one (K : R) (e : env) (dead : nat -> bool) (b : bond) (st : fstate) : option fstate :=
  if dead (b_l b) || dead (b_r b) then Some st else
  let dx := displacement e (b_l b) (b_r b) in
  let rsqr := dot 3 dx dx in
  if Req_EM_T rsqr 0 then None else
  let r := sqrt rsqr in
  let dr := r - b_len b in
  let scale := K * dr * (1 / r) in
  let X1 := vscale scale dx in
  let st1 := mkF (add_scaled 3 (b_l b) X1 1 (add_scaled 3 (b_l b) X1 (-1) (F st))) (Tq st) (pot st) (vir st) in
  Some (mkF (F st1) (Tq st1) (if e_pot e then pot st1 + 1 / 2 * K * (dr * dr) else pot st1) (vir st1)).
Definition harmonic_bonds_3d (K : R) (e : env) (dead : nat -> bool) (bs : list bond) (st : fstate) : option fstate :=
  let st1 := harmonic_bonds K e bs st in
  if (e_dims e =? 3)%nat then fold_opt (harmonic_3d_one K e dead) bs st1 else Some st1.

(* HarmonicChain::interact, harmonic-chain.cpp 34-58: consecutive atoms; lens: distance. Bonded::interact is not called. *)
Fixpoint chain_loop (K : R) (e : env) (ids : list nat) (lens : list R) (f : nat -> vec) : option (nat -> vec) :=
  match ids with
  | i :: ((j :: _) as ids') =>
      match lens with
      | l :: lens' => chain_loop K e ids' lens' (harmonic_one K e (mkBond i j l) f)
      | [] => None   (* distance[i] outside the vector *)
      end
  | _ => Some f
  end.

(* AngleHarmonicChain_2d::interact, angle_harmonic_chain_2d.cpp 9-157: the force part. The loop carries the unit vector dx2
   and length r2 of the previous second bond. acos(0.999*cos) is always defined. *)
Definition triple2 (x y z : vec) : vec := let yz := y 0%nat * z 1%nat - y 1%nat * z 0%nat in
  fun d => match d with O => x 1%nat * yz | _ => - x 0%nat * yz end.
Definition angle_step (K A : R) (e : env) (prev : option (vec * R)) (id1 id2 id3 : nat) (l1 : R) (last : option R)
    (st : (nat -> vec) * R) : option ((nat -> vec) * R * (vec * R)) :=
  let '(f, u) := st in
  match (match prev with
         | None => let d := displacement e id1 id2 in let rs := dot 2 d d in
                   if Req_EM_T rs 0 then None else Some (vscale (1 / sqrt rs) d, sqrt rs)
         | Some (p, r) => Some (vscale (-1) p, r) end) with
  | None => None
  | Some (dx1, r1) =>
      let d := displacement e id3 id2 in
      let rs2 := dot 2 d d in
      if Req_EM_T rs2 0 then None else
      let r2 := sqrt rs2 in
      let dx2 := vscale (1 / r2) d in
      let angle_cos := dx1 0%nat * dx2 0%nat + dx1 1%nat * dx2 1%nat in
      let theta := acos (999 / 1000 * angle_cos) in
      let dTh := theta - PI in
      let pa := triple2 dx1 dx1 dx2 in
      let pb := vscale (-1) (triple2 dx2 dx1 dx2) in
      (* 97: normalisation fails for collinear bonds, then continue *)
      if Req_EM_T (dot 2 pa pa) 0 then Some (f, u, (dx2, r2)) else
      if Req_EM_T (dot 2 pb pb) 0 then Some (f, u, (dx2, r2)) else
      let na := vscale (1 / sqrt (dot 2 pa pa)) pa in
      let nb := vscale (1 / sqrt (dot 2 pb pb)) pb in
      let str := - A * dTh in
      let dr := r1 - l1 in
      let repl := K * dr in
      let f1 := vscale (str / r1) na in
      let f3 := vscale (str / r2) nb in
      let fa := add_scaled 2 id1 (fun d => f1 d - repl * dx1 d) 1 f in
      let fb := add_scaled 2 id2 (fun d => f1 d + f3 d - repl * dx1 d) (-1) fa in
      let fc := add_scaled 2 id3 f3 1 fb in
      let u1 := if e_pot e then u + (1 / 2 * A * ((theta - PI) * (theta - PI)) + K * (dr * dr)) else u in
      match last with
      | None => Some (fc, u1, (dx2, r2))
      | Some l2 => let dr2 := r2 - l2 in
                   let repl2 := K * dr2 in
                   let fd := add_scaled 2 id3 dx2 (- repl2) (add_scaled 2 id2 dx2 repl2 fc) in
                   Some (fd, (if e_pot e then u1 + K * (dr2 * dr2) else u1), (dx2, r2))
      end
  end.
Fixpoint angle_loop (K A : R) (e : env) (prev : option (vec * R)) (ids : list nat) (lens : list R) (st : (nat -> vec) * R)
    : option ((nat -> vec) * R) :=
  match ids with
  | i :: ((j :: k :: rest) as ids') =>
      match lens with
      | l1 :: ((l2 :: _) as lens') =>
          match angle_step K A e prev i j k l1 (match rest with [] => Some l2 | _ => None end) st with
          | Some (st1, p) => angle_loop K A e (Some p) ids' lens' st1
          | None => None end
      | _ => None
      end
  | _ => Some st
  end.
Definition angle_chain_2d (K A : R) (e : env) (ids : list nat) (lens : list R) (st : fstate) : option fstate :=
  if (length ids <? 3)%nat then Some (mkF (F st) (Tq st) 0 0) else
  option_map (fun s => mkF (fst s) (Tq st) (snd s) 0) (angle_loop K A e None ids lens (F st, 0)).

(* AngleHarmonicChain_3d::interact, angle_harmonic_chain_3d.cpp 11-79; note f(id2) at 76; no bond forces *)
Definition angle3_step (A : R) (e : env) (id1 id2 id3 : nat) (f : nat -> vec) : option (nat -> vec) :=
  let X1 := displacement e id1 id2 in
  let X2 := displacement e id3 id2 in
  let rsqr1 := dot 3 X1 X1 in
  let rsqr2 := dot 3 X2 X2 in
  if Req_EM_T rsqr1 0 then None else if Req_EM_T rsqr2 0 then None else
  let r1 := sqrt rsqr1 in
  let r2 := sqrt rsqr2 in
  let angle_cos := dot 3 X1 X2 / (r1 * r2) in
  let a11 := A * angle_cos / rsqr1 in
  let a12 := - A / (r1 * r2) in
  let a22 := A * angle_cos / rsqr2 in
  let f1 : vec := fun d => a11 * X1 d + a12 * X2 d in
  let f2 : vec := fun d => a22 * X2 d + a12 * X1 d in
  Some (add_scaled 3 id2 f2 1 (add_scaled 3 id2 (fun d => f1 d + f2 d) (-1) (add_scaled 3 id1 f1 1 f))).
Fixpoint angle3_loop (A : R) (e : env) (ids : list nat) (f : nat -> vec) : option (nat -> vec) :=
  match ids with
  | i :: ((j :: k :: _) as ids') => match angle3_step A e i j k f with Some f1 => angle3_loop A e ids' f1 | None => None end
  | _ => Some f
  end.
Definition angle_chain_3d (A : R) (e : env) (ids : list nat) (st : fstate) : option fstate :=
  option_map (fun f => mkF f (Tq st) 0 0) (angle3_loop A e ids (F st)).
