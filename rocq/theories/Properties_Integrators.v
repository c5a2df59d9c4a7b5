(* C30 (reversibility), C31 (vectorised loops), C32 (momentum), C59 (angular momentum). *)
From Coq Require Import Reals List Bool Arith ZArith Lia Lra.
From Verif Require Import Model_Forces Spec_Forces Model_Integrators Spec_Integrators Proofs_Forces Proofs_Forces2 Properties_Forces Proofs_Integrators Proofs_Integrators2.
Import ListNotations.
Local Open Scope R_scope.

(* ------------------------------------------------------------------ C30 *)
(* After one step from any state, m further steps, reversing the velocities, and m steps again: the positions are back and the
   velocities are reversed. Any number of steps, particles, dimensions, any time step, any force that depends on the positions. *)
Theorem C30_reversible_partial : forall s dims n im dt (g : arr -> arr) m st0, s = NoSimd \/ s = SSE3 -> (0 < dims)%nat -> length im = n ->
  (forall x, length x = (n * dims)%nat -> length (g x) = (n * dims)%nat) -> shaped n dims st0 ->
  exists st st' st'', steps s dims n im dt g 1 st0 = Some st /\ steps s dims n im dt g m st = Some st' /\
    steps s dims n im dt g m (reversed st') = Some st'' /\ sx st'' = sx st /\ sv st'' = map Ropp (sv st).
Proof.
  intros s dims n im dt g m st0 Hs HD HI HG HS. destruct (rev_total s dims n im dt g Hs HD HI HG st0 HS) as (st & E & S1 & F1).
  destruct (rev_many s dims n im dt g Hs HD HI HG m st S1 F1) as (st' & E2 & _ & _ & R2). exists st, st', (reversed st).
  split; [cbn [steps]; now rewrite E|]. split; [exact E2|]. split; [exact R2|]. split; reflexivity.
Qed.
Print Assumptions C30_reversible_partial.
(* A particle on a spring: what the first step does. *)
Example C30_case : exists st, steps NoSimd 1 1 [1] 1 (map Ropp) 1 (mkSys [1] [0] [-1]) = Some st /\ sx st = [1 / 2] /\ sv st = [- (3 / 4)].
Proof.
  cbn. unfold option_map. eexists. split; [reflexivity|]. cbn. split; f_equal; field.
Qed.
(* The first step of a run on a fresh simulation is not reversible: it starts from forces that are zero, not those of the positions. *)
Theorem C30_fresh_start_refuted : exists g st st', shaped 1 1 st /\ sf st = [0] /\
  (forall x, length x = 1%nat -> length (g x) = 1%nat) /\ steps NoSimd 1 1 [1] 1 g 1 st = Some st' /\
  exists st'', steps NoSimd 1 1 [1] 1 g 1 (reversed st') = Some st'' /\ sv st'' <> map Ropp (sv st).
Proof.
  exists (map Ropp), (mkSys [1] [0] [0]). eexists. split; [repeat split|]. split; [reflexivity|]. split; [intros; now rewrite map_length|]. split; [cbn; reflexivity|].
  eexists. split; [cbn; reflexivity|]. cbn. intros H. injection H as H. lra.
Qed.
Print Assumptions C30_fresh_start_refuted.

(* ------------------------------------------------------------------ C31 *)
(* The loops treat each of the first total entries once and nothing else; total is any number the arrays hold. *)
Theorem C31_positions : forall s dt total v x, (total <= length x)%nat -> (total <= length v)%nat ->
  exists y, update_positions s dt total v x = Some y /\ length y = length x /\
    forall k, nth k y 0 = if (k <? total)%nat then nth k x 0 + dt * nth k v 0 else nth k x 0.
Proof. exact positions_spec. Qed.
Print Assumptions C31_positions.
Theorem C31_velocities : forall s dims dt total im f v, s = NoSimd \/ s = SSE3 -> (0 < dims)%nat ->
  (total <= length v)%nat -> (total <= length f)%nat -> (total <= length im * dims)%nat ->
  exists y, update_velocities s dims dt total im f v = Some y /\ length y = length v /\
    forall k, nth k y 0 = if (k <? total)%nat then nth k v 0 + dt / 2 * nth (k / dims) im 0 * nth k f 0 else nth k v 0.
Proof.
  intros s dims dt total im f v Hs HD HV HF HI. destruct (velocities_spec s dims dt total im f v Hs HD HV HF HI) as (y & E & L & V). exists y. split; [exact E|]. split; [exact L|].
  intros k. rewrite V. destruct (k <? total)%nat; [field|reflexivity].
Qed.
Print Assumptions C31_velocities.
Theorem C31_overdamped : forall s dims damping dt total im f x, s = NoSimd \/ s = SSE3 -> (0 < dims)%nat ->
  (total <= length x)%nat -> (total <= length f)%nat -> (total <= length im * dims)%nat ->
  exists y, overdamped_positions s dims damping dt total im f x = Some y /\ length y = length x /\
    forall k, nth k y 0 = if (k <? total)%nat then nth k x 0 + damping * nth (k / dims) im 0 * nth k f 0 * dt else nth k x 0.
Proof.
  intros s dims damping dt total im f x Hs HD HX HF HI. set (u := kick_upd (damping * dt) (fun i => nth_error im (i / dims)) f).
  assert (Hu : forall k a, (k < total)%nat -> u k a = Some (a + damping * dt * nth (k / dims) im 0 * nth k f 0)) by (intros; now apply (kick_val _ _ _ _ total)).
  assert (O : ok u 0 total x) by (apply (ok_of u _ total x HX Hu)).
  assert (exists y, overdamped_positions s dims damping dt total im f x = Some y /\ applied u 0 total x y) as (y & E & A).
  { unfold overdamped_positions. fold u. destruct (Nat.eqb_spec total 0) as [->|]; [exists x; split; [reflexivity|apply applied_refl]|].
    destruct Hs as [-> | ->]; [apply (scalar_spec _ total 0 x O)|]. apply simd_loop_spec; [cbn; lia|exact O|reflexivity]. }
  exists y. split; [exact E|]. destruct (applied_value u _ total x y A HX Hu) as [L V]. split; [exact L|]. intros k. rewrite V. destruct (k <? total)%nat; [ring|reflexivity].
Qed.
Print Assumptions C31_overdamped.
Theorem C31_clear : forall total x, (total <= length x)%nat ->
  exists y, clear_loop total x = Some y /\ length y = length x /\ forall k, nth k y 0 = if (k <? total)%nat then 0 else nth k x 0.
Proof.
  intros total x HX. unfold clear_loop. destruct (scalar_spec (fun _ _ => Some 0) total 0 x) as (y & E & A); [apply (ok_of _ (fun _ _ => 0)); [exact HX|reflexivity]|].
  exists y. split; [exact E|]. exact (applied_value (fun _ _ => Some 0) (fun _ _ => 0) total x y A HX (fun _ _ _ => eq_refl)).
Qed.
Print Assumptions C31_clear.
Theorem C31_angles : forall s dt size om th, (size <= length om)%nat -> (size <= length th)%nat ->
  exists y, angular_position s dt size om th = Some y /\ length y = length th /\
    forall k, nth k y 0 = if (k <? size)%nat then nth k th 0 + dt * nth k om 0 else nth k th 0.
Proof.
  intros s dt size om th HO HT. destruct (positions_spec s dt size om th HT HO) as (y & E & P). unfold angular_position. destruct (Nat.eqb_spec size 0) as [->|]; [exists th; auto|].
  exists y. split; [exact E|exact P].
Qed.
Print Assumptions C31_angles.
(* Spins, vectorised builds only. *)
Theorem C31_spins_partial : forall s dt size im sg tq om, s <> NoSimd -> (size <= length im)%nat -> (size <= length sg)%nat -> (size <= length tq)%nat -> (size <= length om)%nat ->
  (forall k, (k < size)%nat -> nth k sg 0 <> 0) ->
  exists y, angular_velocity s dt size im sg tq om = Some y /\ length y = length om /\
    forall k, nth k y 0 = if (k <? size)%nat then nth k om 0 + dt / 2 * (2 * nth k im 0 / (nth k sg 0 * nth k sg 0)) * nth k tq 0 else nth k om 0.
Proof.
  intros s dt size im sg tq om Hs HI HS HT HO HZ. unfold angular_velocity. destruct (Nat.eqb_spec size 0) as [->|]; [exists om; auto|].
  set (u := spin_upd (2 * (1 / 2 * dt)) im sg tq).
  assert (Hu : forall k a, (k < size)%nat -> u k a = Some (a + 2 * (1 / 2 * dt) * (nth k im 0 / (nth k sg 0 * nth k sg 0)) * nth k tq 0)).
  { intros k a Hk. unfold u, spin_upd. rewrite (error_of_nth im k), (error_of_nth sg k), (error_of_nth tq k) by lia. destruct (Req_EM_T _ 0) as [Z|]; [exfalso; exact (HZ k Hk Z)|reflexivity]. }
  assert (O : ok u 0 size om) by (apply (ok_of u _ size om HO Hu)).
  assert (exists y, simd_loop u u false (width s) size om = Some y /\ applied u 0 size om y) as (y & E & A) by (apply simd_loop_spec; [apply width_pos|exact O|reflexivity]).
  exists y. split; [destruct s; [contradiction|exact E..]|]. destruct (applied_value u _ size om y A HO Hu) as [L V]. split; [exact L|]. intros k. rewrite V. destruct (Nat.ltb_spec k size); [|reflexivity]. field. now apply HZ.
Qed.
Print Assumptions C31_spins_partial.
Theorem C31_nose_hoover_partial : forall dims dt zeta total im f v, (0 < dims)%nat ->
  (total <= length v)%nat -> (total <= length f)%nat -> (total <= length im * dims)%nat -> (forall i, (i < length im)%nat -> nth i im 0 <> 0) ->
  exists y, nh_velocities NoSimd dims dt zeta total im f v = Some y /\ length y = length v /\
    forall k, nth k y 0 = if (k <? total)%nat then nth k v 0 + dt / 2 * (nth (k / dims) im 0 * nth k f 0 - zeta * nth k v 0 / nth (k / dims) im 0) else nth k v 0.
Proof.
  intros dims dt zeta total im f v HD HV HF HI HZ. unfold nh_velocities. destruct (Nat.eqb_spec total 0) as [->|]; [exists v; auto|].
  set (u := nh_upd (1 / 2 * dt) zeta (fun i => nth_error im (i / dims)) f).
  assert (Hu : forall k a, (k < total)%nat -> u k a = Some (a + 1 / 2 * dt * (nth (k / dims) im 0 * nth k f 0 - 1 / nth (k / dims) im 0 * zeta * a))).
  { intros k a Hk. unfold u, nh_upd. assert (HL := div_small_len dims total im k HD HI Hk). rewrite (error_of_nth f k), (error_of_nth im (k / dims)) by lia. destruct (Req_EM_T _ 0) as [Z|]; [exfalso; exact (HZ _ HL Z)|reflexivity]. }
  destruct (scalar_spec u total 0 v (ok_of u _ total v HV Hu)) as (y & E & A). exists y. split; [exact E|]. destruct (applied_value u _ total v y A HV Hu) as [L V]. split; [exact L|].
  intros k. rewrite V. destruct (Nat.ltb_spec k total); [|reflexivity]. field. apply HZ. now apply (div_small_len dims total).
Qed.
Print Assumptions C31_nose_hoover_partial.
Example C31_case : exists y, update_velocities SSE3 2 2 6 [1; 1; 3] [1; 1; 1; 1; 1; 1] [0; 0; 0; 0; 0; 0; 7] = Some y /\ nth 4 y 0 = 3 /\ nth 6 y 0 = 7.
Proof.
  destruct (C31_velocities SSE3 2 2 6 [1; 1; 3] [1; 1; 1; 1; 1; 1] [0; 0; 0; 0; 0; 0; 7]) as (y & E & L & V); [now right|lia|cbn; lia|cbn; lia|cbn; lia|].
  exists y. split; [exact E|]. split; rewrite V; cbn; lra.
Qed.
(* C31 fails without SIMD for spins: every second particle is left out ... *)
Theorem C31_spins_refuted : exists y, angular_velocity NoSimd 1 2 [1; 1] [1; 1] [1; 1] [0; 0] = Some y /\ nth 0 y 0 = 1 /\ nth 1 y 0 = 0.
Proof.
  unfold angular_velocity. cbn [Nat.eqb loop_by_two Nat.ltb Nat.leb update1 nth_error spin_upd_scalar]. destruct (Req_EM_T 1 0); [lra|]. cbn. eexists. split; [reflexivity|]. cbn. split; field.
Qed.
Print Assumptions C31_spins_refuted.
(* ... in vectorised builds for Nose-Hoover: the left overs are not damped (one particle on a line, no force) ... *)
Theorem C31_nose_hoover_refuted : exists y z, nh_velocities NoSimd 1 1 1 1 [1] [0] [1] = Some y /\ nh_velocities SSE3 1 1 1 1 [1] [0] [1] = Some z /\ nth 0 y 0 = 1 / 2 /\ nth 0 z 0 = 1.
Proof.
  unfold nh_velocities, simd_loop. cbn. unfold update1, nh_upd, kick_upd. cbn. destruct (Req_EM_T 1 0); [lra|]. eexists. eexists. split; [reflexivity|]. split; [reflexivity|]. cbn. split; field.
Qed.
Print Assumptions C31_nose_hoover_refuted.
(* ... and in AVX builds for all velocities, once there is a full vector: the masses are undefined. *)
Theorem C31_avx_refuted : forall dims dt total im f v, (8 < total)%nat -> (total <= length v)%nat -> update_velocities AVX dims dt total im f v = None.
Proof.
  intros dims dt total im f v HT HV. unfold update_velocities, simd_loop. cbn [blocks width]. destruct (Z.ltb_spec (Z.of_nat 0) (Z.of_nat total - Z.of_nat 8)); [|lia].
  unfold block. cbn [lanes]. rewrite (error_of_nth v 0) by lia. unfold kick_upd at 1. cbn [valign]. destruct (nth_error f 0); reflexivity.
Qed.
Print Assumptions C31_avx_refuted.

(* ------------------------------------------------------------------ C32 *)
(* Any number of steps, with any pairs, wrapped or not, any interactions and time steps; movable particles (inverse mass not 0). *)
Theorem C32_momentum : forall s w run st st' d, s = NoSimd \/ s = SSE3 -> (0 < w_dims w)%nat -> length (w_im w) = w_n w -> Forall (fun m => 0 < m) (w_im w) ->
  shaped (w_n w) (w_dims w) st -> (forall dt is, In (dt, is) run -> Forall (pairs_ok (w_n w)) is) -> (d < w_dims w)%nat ->
  sum_to (w_n w) (fun i => comp (w_dims w) (sf st) i d) = 0 ->
  vv_run s w run st = Some st' ->
  momentum (w_dims w) (w_n w) (w_im w) (sv st') d = momentum (w_dims w) (w_n w) (w_im w) (sv st) d.
Proof.
  intros s w run st st' d Hs HD HI HM HS HP Hd HZ H. revert st HS HZ H. induction run as [|[dt is] run IH]; intros st HS HZ H; cbn [vv_run] in H; [injection H as <-; reflexivity|].
  destruct (vv_step _ _ _ _ _ _ st) as [s1|] eqn:E; [|discriminate].
  destruct (momentum_step s w dt is st s1 d Hs HD HI HM HS (HP dt is (or_introl eq_refl)) Hd HZ E) as (M & Z1 & S1).
  rewrite (IH (fun a b Hab => HP a b (or_intror Hab)) s1 S1 Z1 H). exact M.
Qed.
Print Assumptions C32_momentum.
(* The run exists (no NaN) as long as particles of a pair do not coincide: two overlapping hard spheres on a line. *)
Definition two_balls : world := mkWorld 1 2 [1; 1] [1; 1] (fun _ => false) (fun _ => 0).
Example C32_case : exists st', vv_run NoSimd two_balls [(1, [mkInter (HardSphere 1) 1 [(0, 1)%nat] []])] (mkSys [0; 1] [0; 0] [0; 0]) = Some st' /\ nth 0 (sv st') 0 = - (1 / 2) /\
  Forall (pairs_ok 2) [mkInter (HardSphere 1) 1 [(0, 1)%nat] []] /\ sum_to 2 (fun i => comp 1 [0; 0] i 0) = 0.
Proof.
  cbn [vv_run]. unfold vv_step. destruct (velocities_spec NoSimd 1 1 (2 * 1) [1; 1] [0; 0] [0; 0]) as (v1 & E1 & L1 & V1); [now left|lia|cbn; lia|cbn; lia|cbn; lia|].
  change (w_n two_balls * w_dims two_balls)%nat with (2 * 1)%nat. change (w_dims two_balls) with 1%nat. change (w_im two_balls) with [1; 1]. cbn [sf sv sx]. rewrite E1.
  assert (A0 : nth 0 v1 0 = 0) by (rewrite V1; cbn; ring). assert (A1 : nth 1 v1 0 = 0) by (rewrite V1; cbn; ring).
  destruct (positions_spec NoSimd 1 (2 * 1) v1 [0; 1]) as (x1 & E2 & L2 & X1); [cbn; lia|cbn in *; lia|]. rewrite E2.
  assert (B0 : nth 0 x1 0 = 0) by (rewrite X1; cbn [Nat.ltb Nat.leb Nat.mul nth]; rewrite A0; cbn; ring). assert (B1 : nth 1 x1 0 = 1) by (rewrite X1; cbn [Nat.ltb Nat.leb Nat.mul nth]; rewrite A1; cbn; ring).
  unfold pair_field. cbn [fold_opt i_kind i_cut i_p0 i_p1 interact_forces]. unfold interact_forces. cbn [do_list].
  set (e := env_of two_balls x1 v1). assert (HN : norm 1 (shift_of e false 0 1) = 1).
  { unfold norm, shift_of, vsub, e, env_of, vec_of. cbn [dot e_x w_dims two_balls Nat.mul Nat.add]. rewrite B0, B1. replace ((0 - 1) * (0 - 1) + 0) with 1 by ring. apply sqrt_1. }
  rewrite in_range_pair; [|cbn; lra|change (e_dims e) with 1%nat; rewrite HN; cbn; lra]. cbn [kernel]. unfold hard_sphere. destruct (Req_EM_T _ 0) as [Z|_]; [exfalso; revert Z; apply norm_pos_dot; change (e_dims e) with 1%nat; rewrite HN; lra|].
  cbn [option_map fold_opt]. set (f1 := flat _ _ _).
  destruct (velocities_spec NoSimd 1 1 (2 * 1) [1; 1] f1 v1) as (v2 & E3 & L3 & V3); [now left|lia|cbn in *; lia|unfold f1; rewrite flat_length; cbn; lia|cbn; lia|]. rewrite E3.
  eexists. split; [reflexivity|]. split; [|split; [constructor; [|constructor]; intros i j [H|[]]; injection H as <- <-; lia|cbn; lra]].
  cbn [sv]. rewrite V3. cbn [Nat.ltb Nat.leb Nat.mul Nat.add]. rewrite A0. replace (nth 0 f1 0) with (-1).
  - cbn. field.
  - symmetry. change (nth 0 f1 0) with (comp 1 f1 0 0). unfold f1. change (w_dims two_balls) with 1%nat. rewrite flat_comp; [|cbn; lia|lia]. cbn [F book]. unfold push, add_scaled. change (e_dims e) with 1%nat. cbn [Nat.eqb andb Nat.ltb Nat.leb].
    change (sqrt (dot 1 (shift_of e false 0 1) (shift_of e false 0 1))) with (norm 1 (shift_of e false 0 1)). rewrite HN. unfold vscale, shift_of, vsub, e, env_of, vec_of. cbn [e_x e_sg w_dims two_balls w_sg nth Nat.mul Nat.add]. rewrite B0, B1. field.
Qed.

(* ------------------------------------------------------------------ C59 *)
(* Angular momentum, for central forces between pairs that are not wrapped around a periodic border. *)
Theorem C59_angular_momentum : forall s w run st st' a b, s = NoSimd \/ s = SSE3 -> (0 < w_dims w)%nat -> length (w_im w) = w_n w -> Forall (fun m => 0 < m) (w_im w) ->
  shaped (w_n w) (w_dims w) st -> (a < w_dims w)%nat -> (b < w_dims w)%nat ->
  (forall dt is, In (dt, is) run -> Forall (pairs_ok (w_n w)) is /\ Forall (fun it => i_p1 it = [] /\ forall kn gn gt mu, i_kind it <> Hooke kn gn gt mu) is) ->
  torque (w_dims w) (w_n w) (sx st) (sf st) a b = 0 ->
  vv_run s w run st = Some st' ->
  angular (w_dims w) (w_n w) (w_im w) (sx st') (sv st') a b = angular (w_dims w) (w_n w) (w_im w) (sx st) (sv st) a b.
Proof.
  intros s w run st st' a b Hs HD HI HM HS Ha Hb HP HZ H. revert st HS HZ H. induction run as [|[dt is] run IH]; intros st HS HZ H; cbn [vv_run] in H; [injection H as <-; reflexivity|].
  destruct (vv_step _ _ _ _ _ _ st) as [s1|] eqn:E; [|discriminate]. destruct (HP dt is (or_introl eq_refl)) as [P1 P2].
  assert (P3 : Forall no_hooke is) by (eapply Forall_impl; [|exact P2]; cbn; tauto). assert (P4 : Forall (fun it => i_p1 it = []) is) by (eapply Forall_impl; [|exact P2]; cbn; tauto).
  destruct (angular_step s w dt is st s1 a b Hs HD HI HM HS P1 P3 P4 Ha Hb HZ E) as (M & Z1 & S1).
  rewrite (IH (fun a b Hab => HP a b (or_intror Hab)) s1 S1 Z1 H). exact M.
Qed.
Print Assumptions C59_angular_momentum.
(* Its hypotheses hold, for example, for the run of C32_case. *)
Example C59_case : angular 2 2 [1; 1] [0; 0; 1; 0] [0; 0; 0; 1] 0 1 = 1 /\ torque 2 2 [0; 0; 1; 0] [0; 0; 0; 0] 0 1 = 0 /\
  Forall (pairs_ok 2) [mkInter (HardSphere 1) 1 [(0, 1)%nat] []] /\
  Forall (fun it => i_p1 it = [] /\ forall kn gn gt mu, i_kind it <> Hooke kn gn gt mu) [mkInter (HardSphere 1) 1 [(0, 1)%nat] []].
Proof.
  split; [unfold angular, comp; cbn; field|]. split; [unfold torque, comp; cbn; lra|]. split; constructor; [|constructor| |constructor].
  - intros i j. cbn. intros [H|[]]. injection H as <- <-. lia.
  - split; [reflexivity|]. intros. discriminate.
Qed.
