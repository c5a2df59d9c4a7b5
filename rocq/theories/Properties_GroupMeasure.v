(* C45: group measurements. *)
From Coq Require Import Reals List Bool Arith ZArith Lia Lra.
From Verif Require Import Model_Forces Spec_Forces Proofs_Forces Model_GroupMeasure Spec_GroupMeasure Proofs_GroupMeasure.
Import ListNotations.
Local Open Scope R_scope.

(* What the displacement and the distance used for measurements are: the difference of the positions; along periodic axes, for positions
   in the box, up to a whole number of widths, and at most half a width. *)
Theorem C45_displacement : forall w (x y : vec) d, let W := w_hi w d - w_lo w d in
  (w_bc w d = false -> disp w x y d = x d - y d) /\
  (w_bc w d = true -> w_lo w d <= x d <= w_hi w d -> w_lo w d <= y d <= w_hi w d ->
    Rabs (disp w x y d) <= W / 2 /\ exists z : Z, disp w x y d = x d - y d + IZR z * W) /\
  distance_between w x y = norm (w_dims w) (disp w x y).
Proof.
  intros w x y d W. split; [|split; [|reflexivity]].
  - intros E. unfold disp, correction. now rewrite E.
  - intros E Hx Hy. unfold disp, correction. rewrite E. unfold vsub, w_width. cbv zeta. fold W.
    destruct (Rlt_dec (W - Rabs (x d - y d)) (Rabs (x d - y d))) as [Hlt|Hge]; [destruct (Rlt_dec 0 (x d - y d))|].
    + rewrite (Rabs_right (x d - y d)) in * by lra. split; [|exists (-1)%Z; lra]. rewrite Rabs_left1 by (unfold W in *; lra). lra.
    + rewrite (Rabs_left1 (x d - y d)) in * by lra. split; [|exists 1%Z; lra]. rewrite Rabs_right by (unfold W in *; lra). lra.
    + split; [lra|]. exists 0%Z. lra.
Qed.
Print Assumptions C45_displacement.

Theorem C45_total_mass : forall w ids,
  ((forall i, In i ids -> w_im w i <> 0) -> findTotalMass w ids = sum_over (fun i => 1 / w_im w i) ids) /\
  ((exists i, In i ids /\ w_im w i = 0) -> findTotalMass w ids = 0).
Proof.
  intros w ids. split; [apply total_mass_spec|]. intros H. unfold findTotalMass.
  destruct ids as [|a l] eqn:E; [reflexivity|]. rewrite <- E in *. now apply mass_loop_zero.
Qed.
Print Assumptions C45_total_mass.

Theorem C45_net_force : forall w ids d, findNetForce w ids d = sum_over (fun i => w_f w i d) ids.
Proof. exact net_force_sum. Qed.
Print Assumptions C45_net_force.

Theorem C45_velocity_partial : forall w ids, finite_masses w ids -> ids <> [] ->
  exists V, findCOMVelocity w ids = Some V /\
    forall d, V d = sum_over (fun i => 1 / w_im w i * w_v w i d) ids / sum_over (fun i => 1 / w_im w i) ids.
Proof. exact comv_spec. Qed.
Print Assumptions C45_velocity_partial.

(* The centre of mass, for members inside of the box which lie close together along the periodic axes; u are their positions
   without wrapping. *)
Theorem C45_centre_of_mass_partial : forall w ids u, finite_masses w ids -> ids <> [] ->
  (forall d, (d < w_dims w)%nat -> w_lo w d < w_hi w d) ->
  (forall i, In i ids -> in_box w i) -> unwrapped w ids u -> compact w ids u ->
  exists r, findCenterOfMass w ids = Some r /\ forall d, (d < w_dims w)%nat ->
    w_lo w d <= r d <= w_hi w d /\
    (if w_bc w d then exists z : Z, r d = weighted_mean w ids (fun i => u i d) + IZR z * (w_hi w d - w_lo w d)
     else r d = weighted_mean w ids (fun i => w_x w i d)).
Proof. exact com_place. Qed.
Print Assumptions C45_centre_of_mass_partial.

Theorem C45_empty : forall w p old, findCenterOfMass w [] = Some zerov /\ findCOMVelocity w [] = Some zerov /\
  findTotalMass w [] = 0 /\ group_distance w p [] = -1 /\ findClosestObject w p old [] = old /\ getChainedLength w [] = None.
Proof. intros. repeat split. Qed.
Print Assumptions C45_empty.

Definition wcase (xs : nat -> R) (im : nat -> R) (bc : bool) : world :=
  mkW 1 (fun i _ => xs i) (fun i _ => xs i) (fun i _ => xs i) im (fun _ => 1) (fun _ => 0) (fun _ => 10) (fun _ => bc).

(* Two particles on either side of the boundary: at 1/2 and 9: the centre of mass is not halfway between the stored positions but at 9.75. *)
Example C45_com_case : let w := wcase (fun i => match i with 0%nat => 1/2 | _ => 9 end) (fun _ => 1) true in
  exists r, findCenterOfMass w [0;1]%nat = Some r /\ r 0%nat = 39/4.
Proof.
  intros w. destruct (C45_centre_of_mass_partial w [0;1]%nat (fun i _ => match i with 0%nat => 1/2 | _ => -1 end)) as (r & Hr & Hd).
  - intros i _. cbn. lra.
  - discriminate.
  - intros d _. cbn. lra.
  - intros i [<-|[<-|[]]] d _; cbn; lra.
  - intros i d [<-|[<-|[]]] _; cbn; [exists 0%Z|exists (-1)%Z]; lra.
  - intros i j d [<-|[<-|[]]] [<-|[<-|[]]] _ _; cbn; apply Rabs_def1; lra.
  - exists r. split; [exact Hr|]. destruct (Hd 0%nat) as (Hb & z & Hz); [cbn; lia|].
    cbn in Hb. unfold weighted_mean, total_mass, sum_over, mass_of in Hz. cbn in Hz. rewrite Hz.
    assert (z = 1)%Z; [|subst; lra]. assert (0 < IZR z < 2) as [A B] by lra. apply lt_IZR in A. apply lt_IZR in B. lia.
Qed.

(* Along an axis that is not periodic the centre of mass of particles outside of the box is moved by a width as well. *)
Theorem C45_com_open_axis_refuted : exists w ids r, finite_masses w ids /\ ids <> [] /\ w_bc w 0%nat = false /\
  findCenterOfMass w ids = Some r /\ r 0%nat <> weighted_mean w ids (fun i => w_x w i 0%nat).
Proof.
  exists (wcase (fun _ => 11) (fun _ => 1) false), [0%nat].
  destruct (com_spec (wcase (fun _ => 11) (fun _ => 1) false) [0%nat]) as (r & Hr & Hd); [intros i _; cbn; lra|discriminate|].
  exists r. split; [intros i _; cbn; lra|]. split; [discriminate|]. split; [reflexivity|]. split; [exact Hr|].
  rewrite Hd. unfold com_wrap, weighted_mean, total_mass, sum_over, mass_of, disp, correction, vsub, w_width. cbn.
  destruct (Rlt_dec _ 0); [lra|]. destruct (Rlt_dec 10 _); lra.
Qed.
Print Assumptions C45_com_open_axis_refuted.

(* A member that cannot move (inverse mass 0) makes centre of mass and velocity NaN. *)
Theorem C45_fixed_member_refuted : forall w ids, (exists i, In i ids /\ w_im w i = 0) ->
  findCenterOfMass w ids = None /\ findCOMVelocity w ids = None.
Proof. intros w ids H. split; [now apply com_none|now apply comv_none]. Qed.
Print Assumptions C45_fixed_member_refuted.

(* Distance: that of the last member, so right for one member, ... *)
Theorem C45_distance_partial : forall w p ids i,
  group_distance w p (ids ++ [i]) = norm (w_dims w) (disp w (w_x w i) p).
Proof.
  intros w p ids i. unfold group_distance. destruct (ids ++ [i]) as [|a l] eqn:E; [destruct ids; discriminate|]. rewrite <- E.
  apply distance_last.
Qed.
Print Assumptions C45_distance_partial.
(* ... but not the minimum in general. *)
Theorem C45_distance_refuted : exists w p ids i, In i ids /\ norm (w_dims w) (disp w (w_x w i) p) < group_distance w p ids.
Proof.
  exists (wcase (fun i => match i with 0%nat => 1 | _ => 3 end) (fun _ => 1) false), (fun _ => 0), [0;1]%nat, 0%nat.
  split; [now left|]. change [0;1]%nat with ([0] ++ [1])%nat. rewrite C45_distance_partial.
  unfold norm, disp, correction, vsub. cbn. apply sqrt_lt_1; lra.
Qed.
Print Assumptions C45_distance_refuted.

(* findClosestObject returns the displacement to the farthest member: no member is farther. *)
Theorem C45_closest_partial : forall w p old ids, ids <> [] ->
  let r := findClosestObject w p old ids in
  (forall i, In i ids -> dot (w_dims w) (disp w (w_x w i) p) (disp w (w_x w i) p) <= dot (w_dims w) r r) /\
  ((forall d, r d = 0) \/ exists i, In i ids /\ forall d, r d = disp w (w_x w i) p d).
Proof.
  intros w p old ids Hn. unfold findClosestObject. destruct ids as [|a l] eqn:E; [congruence|]. rewrite <- E in *. cbv zeta.
  assert (Hz : 0 = dot (w_dims w) zerov zerov). { unfold zerov. induction (w_dims w) as [|n IH]; cbn; [reflexivity|]. rewrite <- IH. ring. }
  destruct (closest_fold w p ids (0, zerov)) as (I1 & _ & I3 & I4); [cbn; lra|exact Hz|]. cbv zeta in *.
  split; [intros i Hi; rewrite <- I1; now apply I3|].
  destruct I4 as [I4|(i & Hi & I4)]; [left; rewrite I4; reflexivity|right; exists i; split; [exact Hi|intros d; now rewrite I4]].
Qed.
Print Assumptions C45_closest_partial.
Theorem C45_closest_refuted : exists w p old ids i, In i ids /\
  dot (w_dims w) (disp w (w_x w i) p) (disp w (w_x w i) p) < dot (w_dims w) (findClosestObject w p old ids) (findClosestObject w p old ids).
Proof.
  exists (wcase (fun i => match i with 0%nat => 1 | _ => 3 end) (fun _ => 1) false), (fun _ => 0), zerov, [0;1]%nat, 0%nat.
  split; [now left|]. 
  destruct (C45_closest_partial (wcase (fun i => match i with 0%nat => 1 | _ => 3 end) (fun _ => 1) false) (fun _ => 0) zerov [0;1]%nat) as [H _]; [discriminate|].
  specialize (H 1%nat (or_intror (or_introl eq_refl))). eapply Rlt_le_trans; [|exact H].
  unfold disp, correction, vsub. cbn. lra.
Qed.
Print Assumptions C45_closest_refuted.

(* Velocities and accelerations are added to the members, and only to them. *)
Theorem C45_add_velocity : forall V ids w, NoDup ids -> let w' := addVelocity V ids w in same_but_v w w' /\
  (forall i d, In i ids -> (d < w_dims w)%nat -> w_v w' i d = w_v w i d + V d) /\
  (forall i d, ~ In i ids \/ (w_dims w <= d)%nat -> w_v w' i d = w_v w i d).
Proof.
  intros V ids w Hn w'. split; [reflexivity|]. split; intros i d.
  - intros Hi Hd. unfold w'. rewrite addVelocity_spec by exact Hn. unfold member. apply existsb_in in Hi. rewrite Hi. apply Nat.ltb_lt in Hd. now rewrite Hd.
  - intros H. unfold w'. rewrite addVelocity_spec by exact Hn. unfold member. destruct (existsb (Nat.eqb i) ids) eqn:E; [|reflexivity].
    apply existsb_in in E. destruct H as [H|H]; [contradiction|]. apply Nat.ltb_ge in H. now rewrite H.
Qed.
Print Assumptions C45_add_velocity.
Theorem C45_add_acceleration : forall A ids w, NoDup ids -> let w' := addAcceleration A ids w in same_but_f w w' /\
  (forall i d, In i ids -> 0 < w_im w i -> (d < w_dims w)%nat -> w_f w' i d = w_f w i d + 1 / w_im w i * A d) /\
  (forall i d, ~ In i ids \/ w_im w i <= 0 \/ (w_dims w <= d)%nat -> w_f w' i d = w_f w i d).
Proof.
  intros A ids w Hn w'. split; [reflexivity|]. split; intros i d.
  - intros Hi Hm Hd. unfold w'. rewrite addAcceleration_spec by exact Hn. unfold member. apply existsb_in in Hi. rewrite Hi. apply Nat.ltb_lt in Hd. rewrite Hd.
    cbn [andb]. destruct (Rlt_dec 0 (w_im w i)); [reflexivity|lra].
  - intros H. unfold w'. rewrite addAcceleration_spec by exact Hn. unfold member. destruct (existsb (Nat.eqb i) ids) eqn:E; [|reflexivity].
    apply existsb_in in E. destruct (d <? w_dims w)%nat eqn:Ed; [|reflexivity]. cbn [andb]. apply Nat.ltb_lt in Ed.
    destruct (Rlt_dec 0 (w_im w i)); [|reflexivity]. destruct H as [H|[H|H]]; [contradiction|lra|lia].
Qed.
Print Assumptions C45_add_acceleration.

(* The length along the chain of the members, in their order. *)
Theorem C45_chain_length_partial : forall w ids, ids <> [] -> getChainedLength w ids =
  Some (sum_to (length ids - 1) (fun k => norm (w_dims w) (disp w (w_x w (nth k ids 0%nat)) (w_x w (nth (S k) ids 0%nat))))).
Proof.
  intros w ids Hn. destruct ids as [|a l]; [congruence|]. cbn [getChainedLength]. rewrite chain_from_sum, Rplus_0_l.
  rewrite chain_nth. reflexivity.
Qed.
Print Assumptions C45_chain_length_partial.
(* An empty chain: size()-1 is huge, and the loop reads past the end. *)
Theorem C45_chain_length_refuted : forall w, getChainedLength w [] = None.
Proof. reflexivity. Qed.
Print Assumptions C45_chain_length_refuted.

Example C45_case : let w := wcase (fun i => INR i) (fun i => / (INR i + 1)) false in
  findTotalMass w [0;1;2]%nat = 6 /\ findNetForce w [0;1;2]%nat 0%nat = 3 /\
  (exists V, findCOMVelocity w [0;1;2]%nat = Some V /\ V 0%nat = 8/6) /\ w_v (addVelocity (fun _ => 5) [0;2]%nat w) 2%nat 0%nat = 7.
Proof.
  intros w. assert (P : finite_masses w [0;1;2]%nat). { intros i _. cbn [w wcase w_im]. apply Rinv_0_lt_compat. pose proof (pos_INR i). lra. }
  split; [|split; [|split]].
  - destruct (C45_total_mass w [0;1;2]%nat) as [H _]. rewrite H; [|intros i Hi E; specialize (P i Hi); lra]. unfold sum_over. cbn. field.
  - rewrite C45_net_force. unfold sum_over. cbn. ring.
  - destruct (C45_velocity_partial w [0;1;2]%nat P) as (V & HV & Hd); [discriminate|]. exists V. split; [exact HV|]. rewrite Hd. unfold sum_over. cbn. field.
  - destruct (C45_add_velocity (fun _ => 5) [0;2]%nat w) as (_ & H & _); [repeat constructor; cbn; intuition lia|].
    rewrite H; [cbn; ring|right; now left|cbn; lia].
Qed.
