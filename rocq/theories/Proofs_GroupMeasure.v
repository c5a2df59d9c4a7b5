From Coq Require Import Reals List Bool Arith ZArith Lia Lra.
From Verif Require Import Model_Forces Spec_Forces Proofs_Forces Model_GroupMeasure Spec_GroupMeasure.
Import ListNotations.
Local Open Scope R_scope.

(* ---------- sums over lists ---------- *)
Lemma so_plus {A} (f g : A -> R) l : sum_over (fun a => f a + g a) l = sum_over f l + sum_over g l.
Proof. induction l; cbn; [ring|]. fold (sum_over (fun a => f a + g a) l) (sum_over f l) (sum_over g l). rewrite IHl. ring. Qed.
Lemma so_scale {A} s (f : A -> R) l : sum_over (fun a => s * f a) l = s * sum_over f l.
Proof. induction l; cbn; [ring|]. fold (sum_over (fun a => s * f a) l) (sum_over f l). rewrite IHl. ring. Qed.
Lemma so_ext {A} (f g : A -> R) l : (forall a, In a l -> f a = g a) -> sum_over f l = sum_over g l.
Proof.
  intros H. induction l as [|a l IH]; cbn; [reflexivity|]. fold (sum_over f l) (sum_over g l).
  rewrite IH by (intros; apply H; now right). rewrite (H a) by now left. reflexivity.
Qed.
Lemma so_le {A} (f g : A -> R) l : (forall a, In a l -> f a <= g a) -> sum_over f l <= sum_over g l.
Proof.
  intros H. induction l as [|a l IH]; cbn; [lra|]. fold (sum_over f l) (sum_over g l).
  pose proof (H a (or_introl eq_refl)). assert (sum_over f l <= sum_over g l) by (apply IH; intros; apply H; now right). lra.
Qed.
Lemma so_cons {A} (f : A -> R) a l : sum_over f (a :: l) = f a + sum_over f l.
Proof. reflexivity. Qed.

Lemma mass_pos w i : 0 < w_im w i -> 0 < mass_of w i.
Proof. intros H. unfold mass_of. apply Rdiv_lt_0_compat; lra. Qed.
Lemma total_mass_pos w ids : finite_masses w ids -> ids <> [] -> 0 < total_mass w ids.
Proof.
  intros H Hn. destruct ids as [|a l]; [congruence|]. unfold total_mass. rewrite so_cons.
  pose proof (mass_pos w a (H a (or_introl eq_refl))).
  assert (0 <= sum_over (mass_of w) l); [|lra].
  replace 0 with (sum_over (fun _ : nat => 0) l) by (clear; induction l; cbn; [reflexivity|fold (sum_over (fun _ : nat => 0) l); lra]).
  apply so_le. intros b Hb. apply Rlt_le, mass_pos, H. now right.
Qed.
Lemma recip_pos w i : 0 < w_im w i -> recip (w_im w i) = Some (mass_of w i).
Proof. intros H. unfold recip, mass_of. destruct (Req_EM_T (w_im w i) 0); [lra|reflexivity]. Qed.

(* ---------- loops ---------- *)
Lemma net_force_sum w ids d : findNetForce w ids d = sum_over (fun i => w_f w i d) ids.
Proof.
  unfold findNetForce. assert (H : forall l acc, fold_left (fun acc id => vplus acc (w_f w id)) l acc d = acc d + sum_over (fun i => w_f w i d) l).
  { induction l as [|a l IH]; intros acc; cbn [fold_left]; [cbn; ring|]. rewrite IH, so_cons. unfold vplus. ring. }
  rewrite H. unfold zerov. ring.
Qed.
Lemma mass_loop_sum w ids : forall m, (forall i, In i ids -> w_im w i <> 0) -> mass_loop w ids m = m + total_mass w ids.
Proof.
  induction ids as [|a l IH]; intros m H; cbn [mass_loop]; [unfold total_mass; cbn; ring|].
  destruct (Req_EM_T (w_im w a) 0) as [E|_]; [exfalso; apply (H a); [now left|exact E]|].
  rewrite IH by (intros; apply H; now right). unfold total_mass. rewrite so_cons. unfold mass_of. ring.
Qed.
Lemma mass_loop_zero w ids : forall m, (exists i, In i ids /\ w_im w i = 0) -> mass_loop w ids m = 0.
Proof.
  induction ids as [|a l IH]; intros m (i & Hi & Hz); [destruct Hi|]. cbn [mass_loop].
  destruct (Req_EM_T (w_im w a) 0) as [E|N]; [reflexivity|]. apply IH. destruct Hi as [->|Hi]; [contradiction|eauto].
Qed.
Lemma total_mass_spec w ids : (forall i, In i ids -> w_im w i <> 0) -> findTotalMass w ids = total_mass w ids.
Proof. intros H. unfold findTotalMass. destruct ids as [|a l] eqn:E; [reflexivity|]. rewrite <- E in *. rewrite mass_loop_sum by exact H. ring. Qed.

Lemma vel_loop_spec w ids : finite_masses w ids -> forall m acc, exists r, vel_loop w ids m acc = Some (m + total_mass w ids, r) /\
  forall d, r d = acc d + sum_over (fun i => mass_of w i * w_v w i d) ids.
Proof.
  induction ids as [|a l IH]; intros H m acc; cbn [vel_loop].
  - exists acc. unfold total_mass. cbn. rewrite Rplus_0_r. split; [reflexivity|intros; ring].
  - rewrite recip_pos by (apply H; now left). destruct (IH (fun i Hi => H i (or_intror Hi)) (m + mass_of w a) (vplus acc (vscale (mass_of w a) (w_v w a)))) as (r & Hr & Hd).
    exists r. split; [rewrite Hr; unfold total_mass; rewrite so_cons; f_equal; f_equal; ring|].
    intros d. rewrite Hd, so_cons. unfold vplus, vscale. ring.
Qed.
Lemma vel_loop_none w ids : (exists i, In i ids /\ w_im w i = 0) -> forall m acc, vel_loop w ids m acc = None.
Proof.
  induction ids as [|a l IH]; intros (i & Hi & Hz) m acc; [destruct Hi|]. cbn [vel_loop]. unfold recip.
  destruct (Req_EM_T (w_im w a) 0) as [E|N]; [reflexivity|]. apply IH. destruct Hi as [->|Hi]; [contradiction|eauto].
Qed.
Lemma com_loop_spec w r0 ids : finite_masses w ids -> forall m acc, exists r, com_loop w r0 ids m acc = Some (m + total_mass w ids, r) /\
  forall d, r d = acc d + sum_over (fun i => mass_of w i * disp w (w_x w i) r0 d) ids.
Proof.
  induction ids as [|a l IH]; intros H m acc; cbn [com_loop].
  - exists acc. unfold total_mass. cbn. rewrite Rplus_0_r. split; [reflexivity|intros; ring].
  - rewrite recip_pos by (apply H; now left). destruct (IH (fun i Hi => H i (or_intror Hi)) (m + mass_of w a) (vplus acc (vscale (mass_of w a) (disp w (w_x w a) r0)))) as (r & Hr & Hd).
    exists r. split; [rewrite Hr; unfold total_mass; rewrite so_cons; f_equal; f_equal; ring|].
    intros d. rewrite Hd, so_cons. unfold vplus, vscale. ring.
Qed.
Lemma com_loop_none w r0 ids : (exists i, In i ids /\ w_im w i = 0) -> forall m acc, com_loop w r0 ids m acc = None.
Proof.
  induction ids as [|a l IH]; intros (i & Hi & Hz) m acc; [destruct Hi|]. cbn [com_loop]. unfold recip.
  destruct (Req_EM_T (w_im w a) 0) as [E|N]; [reflexivity|]. apply IH. destruct Hi as [->|Hi]; [contradiction|eauto].
Qed.

Lemma com_spec w ids : finite_masses w ids -> ids <> [] ->
  exists r, findCenterOfMass w ids = Some r /\ let r0 := w_x w (nth (length ids / 2) ids 0%nat) in
   forall d, r d = com_wrap w (fun d => weighted_mean w ids (fun i => disp w (w_x w i) r0 d) + r0 d) d.
Proof.
  intros H Hn. pose proof (total_mass_pos w ids H Hn) as Hp. unfold findCenterOfMass. destruct ids as [|a l] eqn:E; [congruence|]. rewrite <- E in *. clear Hn.
  cbn zeta. destruct (com_loop_spec w (w_x w (nth (length ids / 2) ids 0%nat)) ids H 0 zerov) as (r & Hr & Hd). rewrite Hr, Rplus_0_l.
  unfold recip. destruct (Req_EM_T (total_mass w ids) 0); [lra|]. eexists. split; [reflexivity|].
  intros d. unfold com_wrap, vplus, vscale. rewrite !Hd. unfold zerov, weighted_mean.
  replace (1 / total_mass w ids * (0 + sum_over (fun i => mass_of w i * disp w (w_x w i) (w_x w (nth (length ids / 2) ids 0%nat)) d) ids)) with
    (sum_over (fun i => mass_of w i * disp w (w_x w i) (w_x w (nth (length ids / 2) ids 0%nat)) d) ids / total_mass w ids) by (field; lra). reflexivity.
Qed.

Lemma mean_plus w ids f g : weighted_mean w ids (fun i => f i + g i) = weighted_mean w ids f + weighted_mean w ids g.
Proof.
  unfold weighted_mean. rewrite <- Rdiv_plus_distr. f_equal. rewrite <- so_plus. apply so_ext. intros; ring.
Qed.
Lemma mean_const w ids c : finite_masses w ids -> ids <> [] -> weighted_mean w ids (fun _ => c) = c.
Proof.
  intros H Hn. unfold weighted_mean. rewrite (so_ext _ (fun i => c * mass_of w i)) by (intros; ring). rewrite so_scale. fold (total_mass w ids).
  pose proof (total_mass_pos w ids H Hn). field. lra.
Qed.
Lemma mean_ext w ids f g : (forall i, In i ids -> f i = g i) -> weighted_mean w ids f = weighted_mean w ids g.
Proof. intros H. unfold weighted_mean. f_equal. apply so_ext. intros i Hi. now rewrite H. Qed.
Lemma mean_le w ids f g : finite_masses w ids -> ids <> [] -> (forall i, In i ids -> f i <= g i) -> weighted_mean w ids f <= weighted_mean w ids g.
Proof.
  intros H Hn Hle. unfold weighted_mean. apply Rmult_le_compat_r; [apply Rlt_le, Rinv_0_lt_compat, total_mass_pos; auto|].
  apply so_le. intros i Hi. apply Rmult_le_compat_l; [apply Rlt_le, mass_pos, H, Hi|auto].
Qed.
Lemma mid_in {A} (l : list A) (a : A) : l <> [] -> In (nth (length l / 2) l a) l.
Proof. intros H. apply nth_In. destruct l; [congruence|]. cbn [length]. apply Nat.div_lt; lia. Qed.

(* the displacement seen by the code is that of the unwrapped positions *)
Lemma disp_unwrapped w (xa xb : vec) d ui uj (Hw : 0 < w_hi w d - w_lo w d) :
  w_lo w d <= xa d <= w_hi w d -> w_lo w d <= xb d <= w_hi w d ->
  (if w_bc w d then (exists z : Z, ui = xa d + IZR z * (w_hi w d - w_lo w d)) /\ (exists z : Z, uj = xb d + IZR z * (w_hi w d - w_lo w d)) /\
     Rabs (ui - uj) < (w_hi w d - w_lo w d) / 2
   else ui = xa d /\ uj = xb d) -> disp w xa xb d = ui - uj.
Proof.
  intros Hi Hj. unfold disp, correction, vsub, w_width. set (W := w_hi w d - w_lo w d) in *. set (a := xa d) in *. set (b := xb d) in *.
  destruct (w_bc w d).
  2:{ intros [-> ->]. reflexivity. }
  intros [[z1 ->] [[z2 ->] Hab]].
  assert (E : a + IZR z1 * W - (b + IZR z2 * W) = (a - b) + IZR (z1 - z2) * W) by (rewrite minus_IZR; ring). rewrite E in *. clear E.
  set (z := (z1 - z2)%Z) in *. apply Rabs_def2 in Hab as [Hab1 Hab2].
  assert (Habs : - W <= a - b <= W) by (unfold W; lra).
  assert (Hz : (z = 0 \/ z = 1 \/ z = -1)%Z).
  { destruct (Z_lt_le_dec 1 z) as [H|H].
    - exfalso. assert (IZR 2 <= IZR z) by (apply IZR_le; lia). assert (IZR 2 * W <= IZR z * W) by (apply Rmult_le_compat_r; lra). lra.
    - destruct (Z_lt_le_dec z (-1)) as [H'|H']; [|lia]. exfalso. assert (IZR z <= IZR (-2)) by (apply IZR_le; lia).
      assert (IZR z * W <= IZR (-2) * W) by (apply Rmult_le_compat_r; lra). lra. }
  unfold Rabs. destruct (Rcase_abs (a - b)); destruct Hz as [-> | [-> | ->] ];
  repeat match goal with |- context [Rlt_dec ?x ?y] => destruct (Rlt_dec x y) end; try lra.
Qed.

Lemma existsb_in i ids : existsb (Nat.eqb i) ids = true <-> In i ids.
Proof. rewrite existsb_exists. split; [intros (x & Hx & E); apply Nat.eqb_eq in E; now subst|intros H; exists i; split; [exact H|apply Nat.eqb_refl]]. Qed.

(* Loops that change each member's entry, once *)
Lemma fold_local (h : nat -> nat -> R -> R) (stp : nat -> (nat -> vec) -> nat -> vec) :
  (forall id f i d, stp id f i d = if (i =? id)%nat then h id d (f i d) else f i d) ->
  forall ids, NoDup ids -> forall f i d, fold_left (fun f id => stp id f) ids f i d = if existsb (Nat.eqb i) ids then h i d (f i d) else f i d.
Proof.
  intros Hs. induction ids as [|a l IH]; intros Hn f i d; cbn [fold_left existsb]; [reflexivity|].
  inversion Hn; subst. rewrite IH by assumption. rewrite Hs. destruct (Nat.eqb_spec i a) as [->|Hne]; cbn [orb]; [|reflexivity].
  assert (E : existsb (Nat.eqb a) l = false). { destruct (existsb (Nat.eqb a) l) eqn:E; [apply existsb_in in E; contradiction|reflexivity]. }
  now rewrite E.
Qed.

Definition member (i : nat) (ids : list nat) : bool := existsb (Nat.eqb i) ids.
Lemma addVelocity_spec V ids w : NoDup ids -> forall i d,
  w_v (addVelocity V ids w) i d = if member i ids && (d <? w_dims w)%nat then w_v w i d + V d else w_v w i d.
Proof.
  intros Hn i d. unfold addVelocity. cbn [w_v with_v].
  rewrite (fold_local (fun _ d a => if (d <? w_dims w)%nat then a + V d else a) (fun id v => add_scaled (w_dims w) id V 1 v)); [|clear|exact Hn].
  - unfold member. destruct (existsb (Nat.eqb i) ids); cbn [andb]; [destruct (d <? w_dims w)%nat; reflexivity|reflexivity].
  - intros id f i d. unfold add_scaled. destruct (Nat.eqb_spec i id); cbn [andb]; [|reflexivity]. destruct (d <? w_dims w)%nat; [ring|reflexivity].
Qed.
Lemma addAcceleration_spec A ids w : NoDup ids -> forall i d,
  w_f (addAcceleration A ids w) i d = if member i ids && (d <? w_dims w)%nat then (if Rlt_dec 0 (w_im w i) then w_f w i d + mass_of w i * A d else w_f w i d) else w_f w i d.
Proof.
  intros Hn i d. unfold addAcceleration. cbn [w_f with_f].
  rewrite (fold_local (fun id d a => if (d <? w_dims w)%nat then (if Rlt_dec 0 (w_im w id) then a + mass_of w id * A d else a) else a)
     (fun id f => if Rlt_dec 0 (w_im w id) then add_scaled (w_dims w) id A (1 / w_im w id) f else f)); [|clear|exact Hn].
  - unfold member. destruct (existsb (Nat.eqb i) ids); cbn [andb]; [destruct (d <? w_dims w)%nat; reflexivity|reflexivity].
  - intros id f i d. destruct (Rlt_dec 0 (w_im w id)); [unfold add_scaled, mass_of|]; destruct (Nat.eqb_spec i id); cbn [andb]; destruct (d <? w_dims w)%nat; reflexivity.
Qed.

Lemma dot_sum_r {A} n p (g : A -> vec) l : dot n p (fun d => sum_over (fun a => g a d) l) = sum_over (fun a => dot n p (g a)) l.
Proof.
  induction n as [|n IH]; cbn [dot]; [clear; induction l; cbn; [reflexivity|fold (sum_over (fun _ : A => 0) l); lra]|].
  rewrite IH. rewrite so_plus. f_equal. now rewrite so_scale.
Qed.
Lemma dot_plus_r n p x y : dot n p (fun d => x d + y d) = dot n p x + dot n p y.
Proof. induction n; cbn; [ring|]. rewrite IHn. ring. Qed.
Lemma dot_comm n x y : dot n x y = dot n y x.
Proof. induction n; cbn; [ring|]. rewrite IHn. ring. Qed.

(* ---------- the centre of mass ---------- *)
Lemma com_place w ids u : finite_masses w ids -> ids <> [] -> (forall d, (d < w_dims w)%nat -> w_lo w d < w_hi w d) ->
  (forall i, In i ids -> in_box w i) -> unwrapped w ids u -> compact w ids u ->
  exists r, findCenterOfMass w ids = Some r /\ forall d, (d < w_dims w)%nat ->
    w_lo w d <= r d <= w_hi w d /\
    (if w_bc w d then exists z : Z, r d = weighted_mean w ids (fun i => u i d) + IZR z * (w_hi w d - w_lo w d)
     else r d = weighted_mean w ids (fun i => w_x w i d)).
Proof.
  intros Hf Hn Hw Hb Hu Hc. destruct (com_spec w ids Hf Hn) as (r & Hr & Hrd). cbv zeta in Hrd. exists r. split; [exact Hr|].
  intros d Hd. rewrite Hrd. clear Hrd Hr. set (c := nth (length ids / 2) ids 0%nat) in *. assert (Hci : In c ids) by (apply mid_in; exact Hn).
  specialize (Hw d Hd). pose proof (Hb c Hci d Hd) as Hcb.
  assert (Hbx : forall i, In i ids -> w_lo w d <= w_x w i d <= w_hi w d) by (intros i Hi; apply (Hb i Hi d Hd)).
  destruct (w_bc w d) eqn:Ebc.
  - assert (E : weighted_mean w ids (fun i => disp w (w_x w i) (w_x w c) d) = weighted_mean w ids (fun i => u i d) - u c d).
    { rewrite (mean_ext _ _ _ (fun i => u i d + - u c d)).
      - rewrite mean_plus, mean_const by assumption. ring.
      - intros i Hi. rewrite (disp_unwrapped w (w_x w i) (w_x w c) d (u i d) (u c d)); [ring|lra|apply Hbx, Hi|exact Hcb|].
        pose proof (Hu i d Hi Hd) as Hui. pose proof (Hu c d Hci Hd) as Huc. rewrite Ebc in *. split; [exact Hui|]. split; [exact Huc|]. apply Hc; assumption. }
    assert (L1 : weighted_mean w ids (fun i => u i d) <= u c d + (w_hi w d - w_lo w d) / 2).
    { rewrite <- (mean_const w ids (u c d + (w_hi w d - w_lo w d) / 2)) by assumption. apply mean_le; [assumption..|].
      intros i Hi. specialize (Hc i c d Hi Hci Hd Ebc). apply Rabs_def2 in Hc. lra. }
    assert (L2 : u c d - (w_hi w d - w_lo w d) / 2 <= weighted_mean w ids (fun i => u i d)).
    { rewrite <- (mean_const w ids (u c d - (w_hi w d - w_lo w d) / 2)) by assumption. apply mean_le; [assumption..|].
      intros i Hi. specialize (Hc i c d Hi Hci Hd Ebc). apply Rabs_def2 in Hc. lra. }
    pose proof (Hu c d Hci Hd) as Huc. rewrite Ebc in Huc. destruct Huc as [z Hz].
    unfold com_wrap, w_width. rewrite E. set (m := weighted_mean w ids (fun i => u i d)) in *.
    destruct (Rlt_dec (m - u c d + w_x w c d) (w_lo w d)); [|destruct (Rlt_dec (w_hi w d) (m - u c d + w_x w c d))].
    + split; [lra|]. exists (1 - z)%Z. rewrite minus_IZR. lra.
    + split; [lra|]. exists (- 1 - z)%Z. rewrite minus_IZR. lra.
    + split; [lra|]. exists (- z)%Z. rewrite opp_IZR. lra.
  - assert (E : weighted_mean w ids (fun i => disp w (w_x w i) (w_x w c) d) = weighted_mean w ids (fun i => w_x w i d) - w_x w c d).
    { rewrite (mean_ext _ _ _ (fun i => w_x w i d + - w_x w c d)).
      - rewrite mean_plus, mean_const by assumption. ring.
      - intros i Hi. unfold disp, correction. rewrite Ebc. unfold vsub. ring. }
    assert (L1 : weighted_mean w ids (fun i => w_x w i d) <= w_hi w d).
    { rewrite <- (mean_const w ids (w_hi w d)) by assumption. apply mean_le; [assumption..|]. intros i Hi. specialize (Hbx i Hi). lra. }
    assert (L2 : w_lo w d <= weighted_mean w ids (fun i => w_x w i d)).
    { rewrite <- (mean_const w ids (w_lo w d)) by assumption. apply mean_le; [assumption..|]. intros i Hi. specialize (Hbx i Hi). lra. }
    unfold com_wrap. rewrite E. set (m := weighted_mean w ids (fun i => w_x w i d)) in *.
    replace (m - w_x w c d + w_x w c d) with m by ring.
    destruct (Rlt_dec m (w_lo w d)); [lra|]. destruct (Rlt_dec (w_hi w d) m); [lra|]. split; [lra|reflexivity].
Qed.

Lemma com_none w ids : (exists i, In i ids /\ w_im w i = 0) -> findCenterOfMass w ids = None.
Proof.
  intros H. unfold findCenterOfMass. destruct ids as [|a l] eqn:E; [destruct H as (i & [] & _)|]. rewrite <- E in *. cbn zeta. now rewrite com_loop_none.
Qed.
Lemma comv_none w ids : (exists i, In i ids /\ w_im w i = 0) -> findCOMVelocity w ids = None.
Proof.
  intros H. unfold findCOMVelocity. destruct ids as [|a l] eqn:E; [destruct H as (i & [] & _)|]. rewrite <- E in *. now rewrite vel_loop_none.
Qed.
Lemma comv_spec w ids : finite_masses w ids -> ids <> [] ->
  exists V, findCOMVelocity w ids = Some V /\ forall d, V d = weighted_mean w ids (fun i => w_v w i d).
Proof.
  intros H Hn. pose proof (total_mass_pos w ids H Hn) as Hp. unfold findCOMVelocity. destruct ids as [|a l] eqn:E; [congruence|]. rewrite <- E in *. clear Hn.
  destruct (vel_loop_spec w ids H 0 zerov) as (r & Hr & Hd). rewrite Hr, Rplus_0_l.
  unfold recip. destruct (Req_EM_T (total_mass w ids) 0); [lra|]. eexists. split; [reflexivity|].
  intros d. unfold vscale. rewrite Hd. unfold zerov, weighted_mean. field. lra.
Qed.

Lemma distance_last w p i ids : forall dm, fst (distance_loop w p (ids ++ [i]) dm) = distance_between w (w_x w i) p.
Proof. induction ids as [|a l IH]; intros dm; cbn [app distance_loop fst]; [reflexivity|apply IH]. Qed.

Fixpoint chain_sum (w : world) (ids : list nat) : R :=
  match ids with i :: ((j :: _) as t) => distance_between w (w_x w i) (w_x w j) + chain_sum w t | _ => 0 end.
Lemma chain_from_sum w ids : forall i len, chain_from w i ids len = len + chain_sum w (i :: ids).
Proof. induction ids as [|a l IH]; intros i len; cbn [chain_from]; [cbn; ring|]. rewrite IH. cbn [chain_sum]. ring. Qed.
Lemma chain_nth w ids : chain_sum w ids = sum_to (length ids - 1) (fun k => distance_between w (w_x w (nth k ids 0%nat)) (w_x w (nth (S k) ids 0%nat))).
Proof.
  assert (Hs : forall n g, sum_to (S n) g = g 0%nat + sum_to n (fun k => g (S k))).
  { induction n; intros g; [cbn; ring|]. change (sum_to (S (S n)) g) with (sum_to (S n) g + g (S n)). rewrite IHn. cbn [sum_to]. ring. }
  induction ids as [|a l IH]; [reflexivity|]. destruct l as [|b l]; [reflexivity|].
  change (chain_sum w (a :: b :: l)) with (distance_between w (w_x w a) (w_x w b) + chain_sum w (b :: l)). rewrite IH.
  replace (length (a :: b :: l) - 1)%nat with (S (length l)) by (cbn; lia). rewrite Hs.
  replace (length (b :: l) - 1)%nat with (length l) by (cbn; lia). reflexivity.
Qed.

(* the farthest member *)
Lemma closest_fold w p ids : forall acc, 0 <= fst acc ->
  (fst acc = dot (w_dims w) (snd acc) (snd acc)) ->
  let r := fold_left (closest_step w p) ids acc in
  fst r = dot (w_dims w) (snd r) (snd r) /\ fst acc <= fst r /\
  (forall i, In i ids -> dot (w_dims w) (disp w (w_x w i) p) (disp w (w_x w i) p) <= fst r) /\
  (r = acc \/ exists i, In i ids /\ snd r = disp w (w_x w i) p).
Proof.
  induction ids as [|a l IH]; intros acc H0 He; cbn [fold_left].
  - cbn zeta. split; [exact He|]. split; [lra|]. split; [intros i []|now left].
  - set (acc' := closest_step w p acc a).
    assert (E : fst acc' = dot (w_dims w) (snd acc') (snd acc') /\ fst acc <= fst acc' /\ dot (w_dims w) (disp w (w_x w a) p) (disp w (w_x w a) p) <= fst acc' /\
      (acc' = acc \/ snd acc' = disp w (w_x w a) p)).
    { unfold acc', closest_step. destruct (Rlt_dec (fst acc) _); cbn [fst snd].
      - split; [reflexivity|]. split; [lra|]. split; [lra|now right].
      - split; [exact He|]. split; [lra|]. split; [lra|now left]. }
    destruct E as (E1 & E2 & E3 & E4). destruct (IH acc' ltac:(lra) E1) as (I1 & I2 & I3 & I4). cbn zeta in *.
    split; [exact I1|]. split; [lra|]. split.
    + intros i [<-|Hi]; [lra|]. now apply I3.
    + destruct I4 as [I4|(i & Hi & I4)].
      * rewrite I4. destruct E4 as [E4|E4]; [now left|]. right. exists a. split; [now left|exact E4].
      * right. exists i. split; [now right|exact I4].
Qed.
