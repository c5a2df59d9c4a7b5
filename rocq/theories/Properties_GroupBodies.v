(* C46: force and torque removal, sliding walls, rigid bodies, springs between groups. *)
From Coq Require Import Reals List Bool Arith ZArith Lia Lra.
From Verif Require Import Model_Forces Spec_Forces Proofs_Forces Model_GroupMeasure Spec_GroupMeasure Proofs_GroupMeasure Proofs_GroupMeasure2.
Import ListNotations.
Local Open Scope R_scope.

(* The force remover, when the mass it keeps is that of the members and its projection p is a unit vector: no force along p is left on
   the group, the total force along any direction perpendicular to p is as before, every member gets the same acceleration added,
   and no other particle is touched. *)
Theorem C46_force_remover_partial : forall p ids w, NoDup ids -> finite_masses w ids -> ids <> [] -> dot (w_dims w) p p = 1 ->
  let w' := remove_net_force (sum_over (fun i => 1 / w_im w i) ids) p ids w in
  same_but_f w w' /\
  dot (w_dims w) p (force_on w' ids) = 0 /\
  (forall q, dot (w_dims w) q p = 0 -> dot (w_dims w) q (force_on w' ids) = dot (w_dims w) q (force_on w ids)) /\
  (exists A : vec, forall i d, In i ids -> (d < w_dims w)%nat -> w_im w i * w_f w' i d = w_im w i * w_f w i d + A d) /\
  (forall i d, ~ In i ids -> w_f w' i d = w_f w i d).
Proof.
  intros p ids w Hn Hf He Hp w'. pose proof (total_mass_pos w ids Hf He) as Hm.
  destruct (remove_spec (total_mass w ids) p ids w Hn Hf He Hm) as (H1 & H2 & H3 & H4). cbv zeta in *. change (sum_over (fun i => 1 / w_im w i) ids) with (total_mass w ids) in w'. fold w' in H1, H2, H3, H4.
  split; [exact H1|]. split; [|split; [|split]].
  - rewrite H4, Hp. field. lra.
  - intros q Hq. rewrite H4, Hq. ring.
  - exists (fun d => - (dot (w_dims w) p (force_on w ids) / total_mass w ids) * p d). intros i d Hi Hd. rewrite H2 by assumption. pose proof (Hf i Hi). unfold mass_of. field. lra.
  - intros i d Hi. apply H3. now left.
Qed.
Print Assumptions C46_force_remover_partial.

(* The mass is found when a run starts; with a mass m that is no longer the total mass M, the fraction 1 - M/m of the force stays. *)
Theorem C46_stale_mass_partial : forall m p ids w, NoDup ids -> finite_masses w ids -> ids <> [] -> dot (w_dims w) p p = 1 -> 0 < m ->
  let w' := remove_net_force m p ids w in
  dot (w_dims w) p (force_on w' ids) = (1 - sum_over (fun i => 1 / w_im w i) ids / m) * dot (w_dims w) p (force_on w ids).
Proof.
  intros m p ids w Hn Hf He Hp Hm w'. destruct (remove_spec m p ids w Hn Hf He Hm) as (_ & _ & _ & H4). cbv zeta in *. fold w' in H4.
  rewrite H4, Hp. change (sum_over (fun i => 1 / w_im w i) ids) with (total_mass w ids). field. lra.
Qed.
Print Assumptions C46_stale_mass_partial.

Definition line2 (f : nat -> R) : world :=
  mkW 1 (fun i _ => INR i) (fun _ _ => 0) (fun i _ => f i) (fun _ => 1) (fun _ => 1) (fun _ => 0) (fun _ => 10) (fun _ => false).

(* One of two members disappears during the run: half of the force on the other one is left. *)
Theorem C46_stale_mass_refuted : exists w ids ids' p m, NoDup ids' /\ finite_masses w ids' /\ incl ids' ids /\ dot (w_dims w) p p = 1 /\
  findTotalMass w ids = m /\ dot (w_dims w) p (force_on (remove_net_force m p ids' w) ids') <> 0.
Proof.
  exists (line2 (fun _ => 1)), [0;1]%nat, [0%nat], (fun _ => 1), 2.
  assert (F : finite_masses (line2 (fun _ => 1)) [0%nat]) by (intros i _; cbn; lra).
  split; [repeat constructor; intros []|]. split; [exact F|]. split; [intros i [<-|[]]; now left|]. split; [cbn; ring|]. split.
  - rewrite total_mass_spec by (intros; cbn; lra). unfold total_mass, sum_over, mass_of. cbn. lra.
  - rewrite C46_stale_mass_partial; [|repeat constructor; intros []|exact F|discriminate|cbn; ring|lra]. unfold force_on, sum_over. cbn. lra.
Qed.
Print Assumptions C46_stale_mass_refuted.

(* At the start of a run: the momentum along the projection is removed too; perpendicular momentum stays. *)
Theorem C46_remover_start_partial : forall proj ids w, NoDup ids -> finite_masses w ids -> ids <> [] -> 0 < dot (w_dims w) proj proj ->
  exists w' m p, remover_pre_integrate proj ids w = Some (w', m, p) /\
    m = sum_over (fun i => 1 / w_im w i) ids /\ dot (w_dims w) p p = 1 /\ (forall d, p d = proj d / norm (w_dims w) proj) /\
    w_x w' = w_x w /\ w_im w' = w_im w /\
    dot (w_dims w) proj (momentum_of w' ids) = 0 /\
    (forall q, dot (w_dims w) q proj = 0 -> dot (w_dims w) q (momentum_of w' ids) = dot (w_dims w) q (momentum_of w ids)) /\
    dot (w_dims w) proj (force_on w' ids) = 0 /\
    (forall i d, ~ In i ids -> w_v w' i d = w_v w i d /\ w_f w' i d = w_f w i d).
Proof.
  intros proj ids w Hn Hf He Hp. unfold remover_pre_integrate. destruct (comv_spec w ids Hf He) as (V & HV & HVd). rewrite HV. cbv zeta.
  pose proof (total_mass_pos w ids Hf He) as HM.
  assert (Em : findTotalMass w ids = total_mass w ids) by (apply total_mass_spec; intros i Hi; specialize (Hf i Hi); lra). rewrite Em.
  destruct (unit_spec (w_dims w) proj Hp) as [U1 U2]. cbv zeta in *. set (p := unit_of (w_dims w) proj) in *.
  set (w1 := addVelocity (vscale (- dot (w_dims w) V p) p) ids w).
  assert (Hf1 : finite_masses w1 ids) by exact Hf.
  destruct (remove_spec (total_mass w ids) p ids w1 Hn Hf1 He HM) as (R1 & R2 & R3 & R4). cbv zeta in *. set (w2 := remove_net_force (total_mass w ids) p ids w1) in *.
  assert (Ns : 0 < norm (w_dims w) proj) by (apply sqrt_lt_R0, Hp).
  assert (Ev : w_v w2 = w_v w1) by (rewrite R1; reflexivity).
  assert (Ei : w_im w2 = w_im w) by (rewrite R1; reflexivity).
  assert (Epq : forall q, dot (w_dims w) q p = dot (w_dims w) q proj / norm (w_dims w) proj).
  { intros q. rewrite (dot_ext _ q q p (fun d => / norm (w_dims w) proj * proj d)); [rewrite dot_scale_r; field; lra|reflexivity|]. intros d _. rewrite U2. fold (norm (w_dims w) proj). field. lra. }
  assert (Epr : forall x, dot (w_dims w) proj x = norm (w_dims w) proj * dot (w_dims w) p x).
  { intros x. rewrite (dot_comm _ p x), Epq, dot_comm. field. lra. }
  assert (Mo : forall q, dot (w_dims w) q (momentum_of w2 ids) = dot (w_dims w) q (momentum_of w ids) - dot (w_dims w) p (momentum_of w ids) * dot (w_dims w) q p).
  { intros q.
    assert (EVp : dot (w_dims w) V p = dot (w_dims w) p (momentum_of w ids) / total_mass w ids).
    { rewrite dot_comm. rewrite (dot_ext _ p p V (fun d => / total_mass w ids * momentum_of w ids d)); [rewrite dot_scale_r; field; lra|reflexivity|].
      intros d _. rewrite HVd. unfold weighted_mean, momentum_of. field. lra. }
    rewrite (dot_ext _ q q _ (fun d => momentum_of w ids d + (- dot (w_dims w) p (momentum_of w ids)) * p d)); [rewrite dot_plus_r, dot_scale_r; ring|reflexivity|].
    intros d Hd. unfold momentum_of at 1. rewrite Ev. unfold mass_of at 1. rewrite Ei.
    rewrite (so_ext _ (fun i => mass_of w i * w_v w i d + (- dot (w_dims w) V p * p d) * mass_of w i)).
    - rewrite so_plus, so_scale. fold (total_mass w ids). fold (momentum_of w ids d). rewrite EVp. field. lra.
    - intros i Hi. unfold w1. rewrite addVelocity_spec by exact Hn. unfold member. rewrite (proj2 (existsb_in i ids) Hi). apply Nat.ltb_lt in Hd. rewrite Hd. cbn [andb].
      unfold mass_of, vscale. ring. }
  exists w2, (total_mass w ids), p. split; [reflexivity|]. split; [reflexivity|]. split; [exact U1|]. split; [exact U2|].
  split; [rewrite R1; reflexivity|]. split; [exact Ei|]. split; [|split; [|split]].
  - rewrite Epr, Mo, U1. ring.
  - intros q Hq. rewrite Mo, Epq, Hq. unfold Rdiv. ring.
  - rewrite Epr. change (w_dims w) with (w_dims w1). rewrite R4. change (w_dims w1) with (w_dims w). change (total_mass w1 ids) with (total_mass w ids). rewrite U1.
    assert (EM : total_mass w ids / total_mass w ids = 1) by (field; lra). rewrite EM. ring.
  - intros i d Hi. rewrite Ev. split; [|apply R3; now left]. unfold w1. rewrite addVelocity_spec by exact Hn. unfold member.
    destruct (existsb (Nat.eqb i) ids) eqn:E; [apply existsb_in in E; contradiction|reflexivity].
Qed.
Print Assumptions C46_remover_start_partial.

(* A member of infinite mass: the velocities of the group become NaN at the start of the run. *)
Theorem C46_remover_fixed_member_refuted : forall proj ids w, (exists i, In i ids /\ w_im w i = 0) -> remover_pre_integrate proj ids w = None.
Proof. intros proj ids w H. unfold remover_pre_integrate. now rewrite comv_none. Qed.
Print Assumptions C46_remover_fixed_member_refuted.

Example C46_remover_case : let w := line2 (fun i => INR i) in let w' := remove_net_force 3 (fun _ => 1) [0;1;2]%nat w in
  w_f w' 0%nat 0%nat = -1 /\ w_f w' 2%nat 0%nat = 1 /\ dot 1 (fun _ => 1) (force_on w' [0;1;2]%nat) = 0.
Proof.
  intros w. assert (Hn : NoDup [0;1;2]%nat) by (repeat constructor; cbn; intuition lia). assert (Hf : finite_masses w [0;1;2]%nat) by (intros i _; cbn; lra).
  assert (E3 : 3 = sum_over (fun i => 1 / w_im w i) [0;1;2]%nat) by (unfold sum_over; cbn; lra). rewrite E3.
  destruct (C46_force_remover_partial (fun _ => 1) [0;1;2]%nat w Hn Hf) as (_ & H & _ & (A & HA) & _); [discriminate|cbn; ring|]. cbv zeta in *.
  set (w' := remove_net_force _ _ _ w) in *. 
  pose proof (HA 0%nat 0%nat) as A0. pose proof (HA 1%nat 0%nat) as A1. pose proof (HA 2%nat 0%nat) as A2.
  assert (H' := H). unfold force_on, sum_over in H'. cbn [w line2 dot w_dims fold_right] in H'. cbn [w line2 w_im w_f] in A0, A1, A2.
  assert (D : (0 < w_dims w)%nat) by (cbn; lia).
  specialize (A0 (or_introl eq_refl) D). specialize (A1 (or_intror (or_introl eq_refl)) D). specialize (A2 (or_intror (or_intror (or_introl eq_refl))) D). cbn in A0, A1, A2.
  split; [lra|]. split; [lra|exact H].
Qed.

(* The torque remover (two dimensions): after it acts there is no torque on the group about its centre of mass c. *)
Theorem C46_torque_remover_partial : forall w ids, NoDup ids -> finite_masses w ids -> w_dims w = 2%nat -> ids <> [] ->
  exists c w', findCenterOfMass w ids = Some c /\ torque_post_forces ids w = Some w' /\ same_but_f w w' /\
    torque_about w' c ids = 0 /\ (forall i d, ~ In i ids -> w_f w' i d = w_f w i d).
Proof.
  intros w ids Hn Hf H2 He. destruct (torque_post_spec w ids Hn Hf H2) as (c & w' & H1 & H3 & H4 & H5 & H6 & _).
  exists c, w'. split; [now apply H1|]. split; [exact H3|]. split; [exact H4|]. split; [exact H5|exact H6].
Qed.
Print Assumptions C46_torque_remover_partial.
(* ... and the total force on the group is as before, when the members are inside the box and close together along periodic axes. *)
Theorem C46_torque_remover_net_force_partial : forall w ids u w', NoDup ids -> finite_masses w ids -> w_dims w = 2%nat -> ids <> [] ->
  (forall d, (d < w_dims w)%nat -> w_lo w d < w_hi w d) -> (forall i, In i ids -> in_box w i) -> unwrapped w ids u -> compact w ids u ->
  torque_post_forces ids w = Some w' -> forall d, (d < 2)%nat -> force_on w' ids d = force_on w ids d.
Proof.
  intros w ids u w' Hn Hf H2 He Hw Hb Hu Hc E d Hd. destruct (torque_post_spec w ids Hn Hf H2) as (c & w0 & H1 & H3 & _ & _ & _ & al & H7).
  rewrite E in H3. inversion H3; subst w0. clear H3. pose proof (com_relative w ids u Hf He Hw Hb Hu Hc c (H1 He)) as Hz. rewrite H2 in Hz.
  unfold force_on. destruct d as [|[|d]]; [| |lia].
  - rewrite (so_ext _ (fun i => w_f w i 0%nat + al * (mass_of w i * disp w (w_x w i) c 1%nat))) by (intros i Hi; rewrite (proj1 (H7 i Hi)); ring).
    rewrite so_plus, so_scale, Hz by lia. ring.
  - rewrite (so_ext _ (fun i => w_f w i 1%nat + - al * (mass_of w i * disp w (w_x w i) c 0%nat))) by (intros i Hi; rewrite (proj2 (H7 i Hi)); ring).
    rewrite so_plus, so_scale, Hz by lia. ring.
Qed.
Print Assumptions C46_torque_remover_net_force_partial.
(* At the start of a run: the angular momentum about the centre of mass is removed, if the particles are not all at the centre of mass. *)
Theorem C46_torque_remover_start_partial : forall w ids, NoDup ids -> finite_masses w ids -> w_dims w = 2%nat -> ids <> [] ->
  forall c, findCenterOfMass w ids = Some c ->
  (exists i, In i ids /\ (disp w (w_x w i) c 0%nat <> 0 \/ disp w (w_x w i) c 1%nat <> 0)) ->
  exists w', torque_pre_integrate ids w = Some w' /\ same_but_v w w' /\ angular_momentum_about w' c ids = 0 /\
    (forall i d, ~ In i ids -> w_v w' i d = w_v w i d).
Proof.
  intros w ids Hn Hf H2 He c Hc (i & Hi & Hd). destruct (torque_pre_spec w ids Hn Hf H2 He) as (c' & Hc' & _ & H). rewrite Hc in Hc'. inversion Hc'; subst c'.
  destruct H as (w' & A1 & A2 & A3 & A4 & _).
  - intros Hz. destruct (inertia_zero w c ids Hf ltac:(lra) i Hi) as [B1 B2]. tauto.
  - exists w'. split; [exact A1|]. split; [exact A2|]. split; [exact A3|exact A4].
Qed.
Print Assumptions C46_torque_remover_start_partial.
(* One particle is at its own centre of mass: its velocity becomes NaN (0/0). *)
Theorem C46_torque_remover_single_refuted : forall w i, w_dims w = 2%nat -> 0 < w_im w i ->
  (forall d, (d < 2)%nat -> w_lo w d < w_hi w d) -> in_box w i -> torque_pre_integrate [i] w = None.
Proof.
  intros w i H2 Hm Hw Hb. assert (Hf : finite_masses w [i]) by (intros j [<-|[]]; exact Hm).
  destruct (torque_pre_spec w [i]) as (c & Hc & H & _); [repeat constructor; intros []|exact Hf|exact H2|discriminate|].
  apply H. 
  assert (Hz : forall d, (d < w_dims w)%nat -> sum_over (fun i => mass_of w i * disp w (w_x w i) c d) [i] = 0).
  { apply (com_relative w [i] (w_x w) Hf ltac:(discriminate)); [rewrite H2; exact Hw|intros j [<-|[]]; exact Hb| | |exact Hc].
    - intros j d _ _. destruct (w_bc w d); [exists 0%Z; ring|reflexivity].
    - intros j k d [<-|[]] [<-|[]] Hd _. rewrite Rminus_diag_eq, Rabs_R0 by reflexivity. rewrite H2 in Hd. specialize (Hw d Hd). lra. }
  pose proof (mass_pos w i Hm) as Hp.
  assert (Hd : forall d, (d < 2)%nat -> disp w (w_x w i) c d = 0).
  { intros d Hd. rewrite <- H2 in Hd. specialize (Hz d Hd). unfold sum_over in Hz. cbn in Hz. assert (E : mass_of w i * disp w (w_x w i) c d = 0) by lra. apply Rmult_integral in E as [E|E]; [lra|exact E]. }
  unfold inertia, sum_over. cbn [fold_right]. rewrite (Hd 0%nat), (Hd 1%nat) by lia. ring.
Qed.
Print Assumptions C46_torque_remover_single_refuted.

(* The sliding wall: the force on each member becomes its share, by mass, of the force on the wall along the axis, and zero along the
   other axes; with a member of infinite mass, zero along all. *)
Theorem C46_wall_forces : forall k ids w, (k < w_dims w)%nat -> NoDup ids -> let r := slide_correct k ids w in
  fst r = sum_over (fun i => w_f w i k) ids /\ same_but_f w (snd r) /\
  (forall i d, ~ In i ids -> w_f (snd r) i d = w_f w i d) /\
  (forall i d, In i ids -> (d < w_dims w)%nat -> d <> k -> w_f (snd r) i d = 0) /\
  (finite_masses w ids -> forall i, In i ids ->
     w_f (snd r) i k = 1 / w_im w i * (sum_over (fun i => w_f w i k) ids / sum_over (fun i => 1 / w_im w i) ids)) /\
  ((exists i, In i ids /\ w_im w i <= 0) -> forall i, In i ids -> w_f (snd r) i k = 0).
Proof.
  intros k ids w Hk Hn r. destruct (slide_correct_spec k ids w Hk Hn) as (H1 & H2 & H3 & H4 & H5 & H6). cbv zeta in *. fold r in H1, H2, H3, H4, H5, H6.
  split; [exact H1|]. split; [exact H2|]. split; [intros i d Hi; apply H3; now left|]. split; [exact H4|]. split; [exact H5|].
  intros (j & Hj & Hjm). apply H6. intros Hf. specialize (Hf j Hj). lra.
Qed.
Print Assumptions C46_wall_forces.

(* Its motion, over any number of steps of any length and whatever forces act: a body that slides along axis k goes on doing so, its
   particles keep their distances along k and their coordinates along the other axes. *)
Fixpoint slide_run (k : nat) (ids : list nat) (steps : list (R * (world -> nat -> vec))) (w : world) : world :=
  match steps with [] => w | (dt, forces) :: t => slide_run k ids t (slide_step k ids dt forces w) end.
Theorem C46_wall_moves_rigidly_partial : forall k ids steps w, (k < w_dims w)%nat -> NoDup ids -> slides w k ids ->
  let w' := slide_run k ids steps w in
  slides w' k ids /\
  (forall i d, In i ids -> (d < w_dims w)%nat -> d <> k -> w_x w' i d = w_x w i d) /\
  (forall i j, In i ids -> In j ids -> w_x w' i k - w_x w' j k = w_x w i k - w_x w j k).
Proof.
  intros k ids steps. induction steps as [|[dt g] t IH]; intros w Hk Hn Hs; cbn [slide_run].
  - split; [exact Hs|]. split; reflexivity.
  - destruct (slide_step_slides k ids dt g w Hk Hn Hs) as (E & S & X1 & X2). cbv zeta in *. 
    destruct (IH (slide_step k ids dt g w)) as (S' & Y1 & Y2); [rewrite E; exact Hk|exact Hn|exact S|]. cbv zeta in *. split; [exact S'|]. rewrite E in *. split.
    + intros i d Hi Hd Hdk. rewrite Y1, X1 by assumption. reflexivity.
    + intros i j Hi Hj. rewrite Y2, X2 by assumption. reflexivity.
Qed.
Print Assumptions C46_wall_moves_rigidly_partial.
(* What happens in a step: the velocity changes by dt/2 times the accelerations before and after, and the acceleration after is the force
   computed during this step on the whole wall along k, by its mass. *)
Theorem C46_wall_acceleration_partial : forall k ids dt forces w, (k < w_dims w)%nat -> NoDup ids -> finite_masses w ids ->
  let w1 := drift dt (kick dt w) in let w' := slide_step k ids dt forces w in
  forall i, In i ids ->
    w_im w i * w_f w' i k = sum_over (fun j => forces w1 j k) ids / sum_over (fun j => 1 / w_im w j) ids /\
    w_v w' i k = w_v w i k + dt / 2 * (w_im w i * w_f w i k) + dt / 2 * (w_im w i * w_f w' i k).
Proof.
  intros k ids dt forces w Hk Hn Hf w1 w' i Hi. unfold w', slide_step. cbv zeta. fold w1. set (w2 := with_f (forces w1) w1).
  destruct (slide_correct_spec k ids w2 Hk Hn) as (_ & Hsame & _ & _ & H5 & _). cbv zeta in *. set (w3 := snd (slide_correct k ids w2)) in *.
  assert (Ei : w_im w3 = w_im w) by (rewrite Hsame; reflexivity). assert (Ev : w_v w3 = w_v w1) by (rewrite Hsame; reflexivity).
  split.
  - cbn [kick with_v w_f]. rewrite (H5 Hf i Hi). change (mass_of w2 i) with (mass_of w i). change (total_mass w2 ids) with (total_mass w ids). unfold force_on. cbn [w2 with_f w_f].
    change (sum_over (fun j => 1 / w_im w j) ids) with (total_mass w ids). pose proof (Hf i Hi). assert (0 < total_mass w ids) by (apply total_mass_pos; [exact Hf|destruct ids; [destruct Hi|discriminate]]).
    unfold mass_of. field. lra.
  - cbn [kick with_v w_v w_f w_im]. rewrite Ei, Ev. cbn [w1 drift kick with_v w_v w_im w_f]. ring.
Qed.
Print Assumptions C46_wall_acceleration_partial.
(* A wall slides after pre_integrate, when no forces act on it yet. *)
Theorem C46_wall_start : forall k ids w, NoDup ids -> (k < w_dims w)%nat -> (forall i d, In i ids -> (d < w_dims w)%nat -> w_f w i d = 0) ->
  let w' := slide_pre_integrate ids w in same_but_v w w' /\ slides w' k ids /\
  (forall i d, In i ids -> (d < w_dims w)%nat -> w_v w' i d = 0) /\ (forall i d, ~ In i ids -> w_v w' i d = w_v w i d).
Proof.
  intros k ids w Hn Hk H0 w'.
  assert (E : forall i d, w_v w' i d = if member i ids && (d <? w_dims w)%nat then 0 else w_v w i d).
  { intros i d. unfold w', slide_pre_integrate. cbn [w_v with_v].
    rewrite (fold_local (fun _ d a => if (d <? w_dims w)%nat then 0 else a) (fun id v => zero_at (w_dims w) id v)); [| |exact Hn].
    - unfold member. destruct (existsb (Nat.eqb i) ids); reflexivity.
    - intros id f i0 d0. unfold zero_at. destruct (Nat.eqb_spec i0 id) as [->|]; reflexivity. }
  assert (Ez : forall i d, In i ids -> (d < w_dims w)%nat -> w_v w' i d = 0).
  { intros i d Hi Hd. rewrite E. unfold member. rewrite (proj2 (existsb_in i ids) Hi). apply Nat.ltb_lt in Hd. now rewrite Hd. }
  split; [reflexivity|]. split; [|split; [exact Ez|]].
  - intros i Hi. change (w_dims w') with (w_dims w). change (w_im w') with (w_im w). change (w_f w') with (w_f w). split.
    + intros d Hd _. rewrite Ez, H0 by assumption. split; ring.
    + intros j Hj. rewrite !Ez, !H0 by assumption. split; ring.
  - intros i d Hi. rewrite E. unfold member. destruct (existsb (Nat.eqb i) ids) eqn:Em; [apply existsb_in in Em; contradiction|reflexivity].
Qed.
Print Assumptions C46_wall_start.
(* The recorded length of a wall made of one particle of radius 1 is 1, not 2. *)
Theorem C46_wall_length_refuted : exists w i, w_dims w = 1%nat /\ w_sg w i = 1 /\ slide_length [i] w = Some 1.
Proof.
  exists (line2 (fun _ => 0)), 0%nat. split; [reflexivity|]. split; [reflexivity|]. unfold slide_length. cbn [fold_left]. unfold extent_step, vsub. cbn [line2 w_x w_sg w_dims dot fst snd INR]. f_equal.
  destruct (Rlt_dec (0 - 1) 0); [|lra]. replace ((0 - (0 - 1)) * (0 - (0 - 1)) + 0) with 1 by ring. apply sqrt_1.
Qed.
Print Assumptions C46_wall_length_refuted.

Example C46_wall_case : let w := line2 (fun i => INR i) in slides (slide_pre_integrate [0;2]%nat (line2 (fun _ => 0))) 0 [0;2]%nat /\
  fst (slide_correct 0 [0;2]%nat w) = 2 /\ w_f (snd (slide_correct 0 [0;2]%nat w)) 0%nat 0%nat = 1.
Proof.
  intros w. assert (Hn : NoDup [0;2]%nat) by (repeat constructor; cbn; intuition lia). split.
  - apply C46_wall_start; [exact Hn|cbn; lia|]. intros; reflexivity.
  - destruct (C46_wall_forces 0 [0;2]%nat w ltac:(cbn; lia) Hn) as (H1 & _ & _ & _ & H5 & _). cbv zeta in *. split.
    + rewrite H1. unfold sum_over. cbn. ring.
    + rewrite H5; [|intros i _; cbn; lra|now left]. unfold sum_over. cbn. field.
Qed.

(* The rigid body: the accelerations it sets are those of a rigid motion (a translation and a rotation about the first member), the
   translation being the total force by the mass kept. *)
Theorem C46_rigid_body_partial : forall m ids w i0 t, ids = i0 :: t -> NoDup ids -> finite_masses w ids -> m <> 0 ->
  (exists i, In i ids /\ (disp w (w_x w i) (w_x w i0) 0%nat <> 0 \/ disp w (w_x w i) (w_x w i0) 1%nat <> 0)) ->
  exists w' al, rigid_post_forces m ids w = Some w' /\ same_but_f w w' /\ (forall i d, ~ In i ids -> w_f w' i d = w_f w i d) /\
   forall i, In i ids ->
     w_im w i * w_f w' i 0%nat = force_on w ids 0%nat / m - al * disp w (w_x w i) (w_x w i0) 1%nat /\
     w_im w i * w_f w' i 1%nat = force_on w ids 1%nat / m + al * disp w (w_x w i) (w_x w i0) 0%nat.
Proof.
  intros m ids w i0 t E Hn Hf Hm (j & Hj & Hd). assert (Eu : forall T (a b : T), match ids with [] => a | _ :: _ => b end = b) by (intros; rewrite E; reflexivity).
  assert (Er : rigid_post_forces m ids w = match rigid_loop w (w_x w i0) ids 0 0 0 0 with
      | None => None
      | Some (fx, fy, J, tau) =>
          if Req_EM_T m 0 then None else if Req_EM_T J 0 then None else
          let ax := fx / m in let ay := fy / m in let al := tau / J in
          Some (with_f (fold_left (fun f id =>
            let X := disp w (w_x w id) (w_x w i0) in let dx := X 0%nat in let dy := X 1%nat in let m := 1 / w_im w id in
            set_at id 1 (m * (ay + al * dx)) (set_at id 0 (m * (ax - al * dy)) f)) ids (w_f w)) w)
      end) by (rewrite E; reflexivity).
  rewrite Er. clear Er. rewrite rigid_loop_spec, !Rplus_0_l by exact Hf.
  destruct (Req_EM_T m 0); [contradiction|]. destruct (Req_EM_T (inertia w (w_x w i0) ids) 0) as [Hz|Hz].
  { exfalso. destruct (inertia_zero w (w_x w i0) ids Hf ltac:(lra) j Hj). tauto. }
  set (al := (0 - torque_about w (w_x w i0) ids) / inertia w (w_x w i0) ids). eexists. exists al. split; [reflexivity|]. split; [reflexivity|].
  set (ax := force_on w ids 0%nat / m). set (ay := force_on w ids 1%nat / m). cbv zeta.
  assert (Ef : forall i d, fold_left (fun (f : nat -> vec) id => set_at id 1 (1 / w_im w id * (ay + al * disp w (w_x w id) (w_x w i0) 0%nat))
       (set_at id 0 (1 / w_im w id * (ax - al * disp w (w_x w id) (w_x w i0) 1%nat)) f)) ids (w_f w) i d =
     if member i ids then match d with 0%nat => 1 / w_im w i * (ax - al * disp w (w_x w i) (w_x w i0) 1%nat) | 1%nat => 1 / w_im w i * (ay + al * disp w (w_x w i) (w_x w i0) 0%nat) | _ => w_f w i d end else w_f w i d)
    by (intros; now rewrite (set2_fold (fun id => 1 / w_im w id * (ax - al * disp w (w_x w id) (w_x w i0) 1%nat)) (fun id => 1 / w_im w id * (ay + al * disp w (w_x w id) (w_x w i0) 0%nat)) ids Hn)).
  split.
  - intros i d Hi. cbn [w_f with_f]. rewrite Ef. destruct (member i ids) eqn:Em; [apply existsb_in in Em; contradiction|reflexivity].
  - intros i Hi. cbn [w_f with_f]. rewrite !Ef. unfold member. rewrite (proj2 (existsb_in i ids) Hi). pose proof (Hf i Hi). split; field; lra.
Qed.
Print Assumptions C46_rigid_body_partial.
(* But the rotation is about the wrong point and in the wrong direction: two particles of mass 1 at (0,0) and (1,0), pushed at the second
   one by (0,1). The total force is changed from 1 to 0 and the torque about the centre of mass (1/2,0) from 1/2 to -1/2. *)
Definition dumbbell : world := mkW 2 (fun i d => match i, d with 1%nat, 0%nat => 1 | _, _ => 0 end) (fun _ _ => 0)
  (fun i d => match i, d with 1%nat, 1%nat => 1 | _, _ => 0 end) (fun _ => 1) (fun _ => 1) (fun _ => -10) (fun _ => 10) (fun _ => false).
Definition dumbbell_com : vec := fun d => match d with 0%nat => 1/2 | _ => 0 end.
Theorem C46_rigid_body_refuted : exists w', rigid_post_forces 2 [0;1]%nat dumbbell = Some w' /\
  force_on dumbbell [0;1]%nat 1%nat = 1 /\ force_on w' [0;1]%nat 1%nat = 0 /\
  torque_about dumbbell dumbbell_com [0;1]%nat = 1/2 /\ torque_about w' dumbbell_com [0;1]%nat = -1/2.
Proof.
  unfold rigid_post_forces. rewrite rigid_loop_spec by (intros i _; cbn; lra). rewrite !Rplus_0_l.
  assert (EI : inertia dumbbell (w_x dumbbell 0%nat) [0;1]%nat = 1) by (unfold inertia, sum_over, mass_of, disp, correction, vsub; cbn; lra).
  assert (ET : torque_about dumbbell (w_x dumbbell 0%nat) [0;1]%nat = 1) by (unfold torque_about, sum_over, disp, correction, vsub; cbn; lra).
  assert (EY : force_on dumbbell [0;1]%nat 1%nat = 1) by (unfold force_on, sum_over; cbn; lra).
  assert (EX : force_on dumbbell [0;1]%nat 0%nat = 0) by (unfold force_on, sum_over; cbn; lra).
  rewrite EI, ET, EY, EX. destruct (Req_EM_T 2 0); [lra|]. destruct (Req_EM_T 1 0); [lra|]. eexists. split; [reflexivity|]. split; [reflexivity|].
  split; [unfold force_on, sum_over, disp, correction, vsub; cbn; lra|]. split; unfold torque_about, sum_over, disp, correction, vsub; cbn; lra.
Qed.
Print Assumptions C46_rigid_body_refuted.
Example C46_rigid_case : NoDup [0;1]%nat /\ finite_masses dumbbell [0;1]%nat /\ disp dumbbell (w_x dumbbell 1%nat) (w_x dumbbell 0%nat) 0%nat <> 0.
Proof. split; [repeat constructor; cbn; intuition lia|]. split; [intros i _; cbn; lra|]. unfold disp, correction, vsub. cbn. lra. Qed.

(* The spring between two groups with no common member, after pre_integrate has found the masses: the total force t * D on one and
   - t * D on the other, along the line D between the centres of mass; t * |D| is the spring constant times the excess over the largest
   allowed distance (or, negative, what is missing to the smallest), and the other particles are left alone. *)
Theorem C46_group_spring_partial : forall s0 w, let s := spring_pre_integrate w s0 in
  NoDup (sp_a s) -> NoDup (sp_b s) -> (forall i, In i (sp_a s) -> ~ In i (sp_b s)) ->
  finite_masses w (sp_a s) -> finite_masses w (sp_b s) -> sp_a s <> [] -> sp_b s <> [] -> 0 <= sp_min s <= sp_max s ->
  exists c1 c2 w' t, findCenterOfMass w (sp_a s0) = Some c1 /\ findCenterOfMass w (sp_b s0) = Some c2 /\ spring_interact s w = Some w' /\ same_but_f w w' /\
   let D := disp w c2 c1 in let r := norm (w_dims w) D in
   (forall d, (d < w_dims w)%nat -> force_on w' (sp_a s0) d = force_on w (sp_a s0) d + t * D d /\ force_on w' (sp_b s0) d = force_on w (sp_b s0) d - t * D d) /\
   (forall i d, ~ In i (sp_a s0) -> ~ In i (sp_b s0) -> w_f w' i d = w_f w i d) /\
   (sp_min s0 <= r <= sp_max s0 -> t * r = 0) /\ (sp_max s0 < r -> t * r = sp_k s0 * (r - sp_max s0)) /\ (0 < r < sp_min s0 -> t * r = - (sp_k s0 * (sp_min s0 - r))).
Proof.
  intros s0 w s Na Nb Hd Fa Fb Ea Eb Hmm. destruct (spring_spec s0 w Na Nb Hd Fa Fb Ea Eb) as (c1 & c2 & w' & t & H1 & H2 & H3 & H4 & H5 & H6 & H7). cbv zeta in *.
  exists c1, c2, w', t. split; [exact H1|]. split; [exact H2|]. split; [exact H3|]. split; [exact H4|]. split; [exact H5|]. split; [exact H6|].
  cbn [s spring_pre_integrate sp_min sp_max sp_k] in *. set (r := norm (w_dims w) (disp w c2 c1)) in *.
  split; [|split]; intros Hr; rewrite H7; destruct (Rlt_dec r (sp_min s0)); destruct (Rlt_dec (sp_max s0) r); destruct (Req_EM_T r 0); try lra.
Qed.
Print Assumptions C46_group_spring_partial.
(* Setting the second group gives it the mass of the first. *)
Theorem C46_set_group_mass : forall w g s, sp_a (setGroupA w g s) = g /\ sp_massA (setGroupA w g s) = findTotalMass w g /\ sp_b (setGroupB w g s) = g.
Proof. intros. repeat split. Qed.
Print Assumptions C46_set_group_mass.
Theorem C46_set_group_mass_refuted : exists w g s, sp_massB (setGroupB w g s) <> findTotalMass w (sp_b (setGroupB w g s)).
Proof.
  exists (line2 (fun _ => 0)), [0;1]%nat, (mkSpring [0%nat] [] 1 0 50 0 (3/20)). cbn [setGroupB sp_massB sp_b sp_a].
  rewrite !total_mass_spec by (intros; cbn; lra). unfold total_mass, sum_over, mass_of. cbn. lra.
Qed.
Print Assumptions C46_set_group_mass_refuted.
Example C46_spring_case : let w := line2 (fun _ => 0) in let s := spring_pre_integrate w (mkSpring [0%nat] [5%nat] 0 0 50 1 2) in
  finite_masses w (sp_a s) /\ finite_masses w (sp_b s) /\ exists w', spring_interact s w = Some w' /\ force_on w' [0%nat] 0%nat = 150 /\ force_on w' [5%nat] 0%nat = -150.
Proof.
  intros w s. assert (Fa : forall ids, finite_masses w ids) by (intros ids i _; cbn; lra). split; [apply Fa|]. split; [apply Fa|].
  destruct (C46_group_spring_partial (mkSpring [0%nat] [5%nat] 0 0 50 1 2) w) as (c1 & c2 & w' & t & H1 & H2 & H3 & _ & H5 & _ & _ & H8 & _).
  { repeat constructor. intros []. }
  { repeat constructor. intros []. }
  { cbn. intros i [<-|[]] [E|[]]. discriminate. }
  { apply Fa. }
  { apply Fa. }
  { discriminate. }
  { discriminate. }
  { cbn. lra. }
  cbv zeta in *. exists w'. split; [exact H3|]. destruct (H5 0%nat) as [A B]; [cbn; lia|]. cbn [sp_a sp_b sp_max sp_k] in *.
  assert (U : forall i, (i <= 5)%nat -> unwrapped w [i] (w_x w) /\ compact w [i] (w_x w) /\ forall j, In j [i] -> in_box w j).
  { intros i Hi. split; [|split].
    - intros j d _ _. reflexivity.
    - intros j k d [<-|[]] [<-|[]] _ E. discriminate.
    - intros j [<-|[]] d _. cbn. pose proof (pos_INR i). apply le_INR in Hi. cbn in Hi. lra. }
  assert (C : forall i c, (i <= 5)%nat -> findCenterOfMass w [i] = Some c -> c 0%nat = INR i).
  { intros i c Hi Hc. destruct (U i Hi) as (U1 & U2 & U3). destruct (com_place w [i] (w_x w) (Fa _) ltac:(discriminate) ltac:(intros; cbn; lra) U3 U1 U2) as (r & Hr & Hd).
    rewrite Hc in Hr. inversion Hr; subst r. destruct (Hd 0%nat) as [_ E]; [cbn; lia|]. cbn in E. rewrite E. unfold weighted_mean, total_mass, sum_over, mass_of. cbn. field. }
  pose proof (C 0%nat c1 ltac:(lia) H1) as E1. pose proof (C 5%nat c2 ltac:(lia) H2) as E2. cbn in E1, E2.
  assert (ED : disp w c2 c1 0%nat = 5) by (unfold disp, correction, vsub; cbn; lra).
  assert (EN : norm (w_dims w) (disp w c2 c1) = 5). { unfold norm. cbn [w line2 w_dims dot]. change (disp (line2 (fun _ => 0)) c2 c1 0%nat) with (disp w c2 c1 0%nat). rewrite ED. replace (5 * 5 + 0) with (5 * 5) by ring. apply sqrt_square. lra. }
  rewrite EN in H8. specialize (H8 ltac:(lra)). rewrite A, B, ED. unfold force_on, sum_over. cbn. lra.
Qed.

From Verif Require Properties_GroupMeasure.
(* The run loop does not call pre_integrate of bonded objects (gflow.cpp 138-147). As the constructor leaves it the spring has no masses
   and never acts. *)
Theorem C46_spring_from_constructor_refuted : forall w a b, spring_interact (new_spring a b) w = Some w.
Proof. intros w [|i a] [|j b]; cbn; try reflexivity. destruct (Rle_dec 0 0); [reflexivity|lra]. Qed.
Print Assumptions C46_spring_from_constructor_refuted.

Lemma line2_com ids v : (forall i, In i ids -> (i <= 10)%nat) -> ids <> [] ->
  weighted_mean (line2 (fun _ => 0)) ids (fun i => INR i) = v -> exists c, findCenterOfMass (line2 (fun _ => 0)) ids = Some c /\ c 0%nat = v.
Proof.
  intros Hi Hn Hv. set (w := line2 (fun _ => 0)).
  assert (Fa : finite_masses w ids) by (intros i _; cbn; lra).
  destruct (com_spec w ids Fa Hn) as (c & Hc & _). exists c. split; [exact Hc|].
  destruct (Properties_GroupMeasure.C45_centre_of_mass_partial w ids (w_x w) Fa Hn) as (r & Hr & Hd).
  - intros; cbn; lra.
  - intros j Hj d _. cbn. pose proof (pos_INR j). pose proof (le_INR _ _ (Hi j Hj)) as X. replace (INR 10) with 10 in X by (cbn; ring). lra.
  - intros j d _ _. reflexivity.
  - intros j k d _ _ _ E. discriminate.
  - rewrite Hc in Hr. injection Hr as <-. destruct (Hd 0%nat) as [_ E]; [cbn; lia|]. cbn in E. rewrite E. exact Hv.
Qed.
(* With the groups set one after the other (setGroupA, then setGroupB) the second group gets the mass of the first: the two forces are
   not opposite, and a system on which nothing else acts is accelerated. *)
Theorem C46_spring_set_groups_refuted : exists w w' a b, NoDup a /\ NoDup b /\ (forall i, In i a -> ~ In i b) /\ finite_masses w a /\ finite_masses w b /\
  force_on w a 0%nat + force_on w b 0%nat = 0 /\
  spring_interact (setGroupB w b (setGroupA w a (new_spring [] []))) w = Some w' /\ force_on w' a 0%nat + force_on w' b 0%nat < 0.
Proof.
  set (w := line2 (fun _ => 0)).
  destruct (line2_com [0]%nat 0) as (c1 & H1 & E1); [intros i [<-|[]]; lia|discriminate|unfold weighted_mean, total_mass, sum_over, mass_of; cbn; field|].
  destruct (line2_com [5;6]%nat (11/2)) as (c2 & H2 & E2); [intros i [<-|[<-|[]]]; lia|discriminate|unfold weighted_mean, total_mass, sum_over, mass_of; cbn; field|].
  fold w in H1, H2. exists w.
  assert (ED : disp w c2 c1 0%nat = 11/2) by (unfold disp, correction, vsub; cbn; lra).
  assert (EN : sqrt (dot (w_dims w) (disp w c2 c1) (disp w c2 c1)) = 11/2).
  { cbn [w line2 w_dims dot]. change (disp (line2 (fun _ => 0)) c2 c1 0%nat) with (disp w c2 c1 0%nat). rewrite ED. replace (11/2 * (11/2) + 0) with (11/2 * (11/2)) by ring. apply sqrt_square. lra. }
  assert (M : findTotalMass w [0]%nat = 1). { rewrite total_mass_spec by (intros; cbn; lra). unfold total_mass, sum_over, mass_of. cbn. lra. }
  set (s := setGroupB w [5;6]%nat (setGroupA w [0]%nat (new_spring [] []))).
  assert (Es : s = mkSpring [0]%nat [5;6]%nat 1 1 50 0 (3/20)).
  { unfold s, setGroupA, setGroupB, new_spring. cbn [sp_a sp_b sp_massA sp_massB sp_k sp_min sp_max]. rewrite M. reflexivity. }
  assert (Ew : spring_interact s w = Some (spring_push s (11/2) (3/20) (unit_of (w_dims w) (disp w c2 c1)) w)).
  { rewrite Es. unfold spring_interact. cbn [sp_a sp_b sp_massA sp_massB sp_min sp_max]. destruct (Rle_dec 1 0); [lra|]. rewrite H1, H2. cbv zeta. rewrite EN.
    destruct (Rlt_dec (11/2) 0); [lra|]. destruct (Rlt_dec (3/20) (11/2)); [reflexivity|lra]. }
  exists (spring_push s (11/2) (3/20) (unit_of (w_dims w) (disp w c2 c1)) w), [0]%nat, [5;6]%nat.
  split; [repeat constructor; intros []|]. split; [repeat constructor; cbn; intuition lia|]. split; [cbn; intuition lia|].
  split; [intros i _; cbn; lra|]. split; [intros i _; cbn; lra|]. split; [unfold force_on, sum_over; cbn; lra|]. split; [exact Ew|].
  assert (En : unit_of (w_dims w) (disp w c2 c1) 0%nat = 1).
  { unfold unit_of. cbv zeta. rewrite EN. destruct (Req_EM_T (11/2) 0); [lra|]. rewrite ED. field. }
  rewrite Es. unfold spring_push. set (n := unit_of _ _) in *. cbn [sp_a sp_b sp_massA sp_massB sp_k].
  destruct (Properties_GroupMeasure.C45_add_acceleration (vscale (1 / 1) (vscale (50 * (11/2 - 3/20)) n)) [0]%nat w ltac:(repeat constructor; intros [])) as (S1 & F1 & G1).
  set (w1 := addAcceleration _ [0]%nat w) in *.
  destruct (Properties_GroupMeasure.C45_add_acceleration (vscale (1 / 1) (vneg (vscale (50 * (11/2 - 3/20)) n))) [5;6]%nat w1 ltac:(repeat constructor; cbn; intuition lia)) as (S2 & F2 & G2).
  cbv zeta in *. unfold force_on, sum_over. cbn [map fold_right].
  assert (Ei : forall i, w_im w1 i = 1) by (intros i; rewrite S1; reflexivity). assert (Ed : w_dims w1 = 1%nat) by (rewrite S1; reflexivity).
  rewrite (G2 0%nat 0%nat) by (left; cbn; intuition lia).
  rewrite (F1 0%nat 0%nat) by (cbn; (auto || lia || lra)).
  rewrite (F2 5%nat 0%nat) by (rewrite ?Ei, ?Ed; cbn; (auto || lia || lra)).
  rewrite (F2 6%nat 0%nat) by (rewrite ?Ei, ?Ed; cbn; (auto || lia || lra)).
  rewrite (G1 5%nat 0%nat) by (left; cbn; intuition lia). rewrite (G1 6%nat 0%nat) by (left; cbn; intuition lia).
  rewrite !Ei. unfold vscale, vneg. rewrite En. cbn. lra.
Qed.
Print Assumptions C46_spring_set_groups_refuted.
