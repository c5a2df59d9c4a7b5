(* C27 for Hertz contacts, C55 for whole sweeps. *)
From Coq Require Import ZArith Reals List Bool Arith Lia Lra.
From Verif Require Import Model_Forces Spec_Forces Proofs_Forces Proofs_Forces2 Properties_Forces.
Import ListNotations.
Local Open Scope R_scope.

(* The damping of a Hertz contact takes energy away, too. *)
Theorem C27_hertz_dissipates : forall e w i j st kn gn, 0 <= e_sg e i -> 0 <= e_sg e j -> 0 <= kn -> 0 <= gn -> 0 <= e_im e i -> 0 <= e_im e j ->
  let X := shift_of e w i j in 0 < norm (e_dims e) X < e_sg e i + e_sg e j ->
  exists s0 s st0 st', do_pair (Hertz kn 0) 1 e w i j st = Some st0 /\ do_pair (Hertz kn gn) 1 e w i j st = Some st' /\
    opposite (e_dims e) i j (vscale s0 X) (F st) (F st0) /\ opposite (e_dims e) i j (vscale s X) (F st) (F st') /\
    dot (e_dims e) (vscale s X) (vsub (e_v e i) (e_v e j)) <= dot (e_dims e) (vscale s0 X) (vsub (e_v e i) (e_v e j)).
Proof.
  intros e w i j st kn gn Hi Hj Hk Hg Hmi Hmj X Hr. set (r := norm (e_dims e) X) in *. rewrite !in_range_pair by (fold X; fold r; lra). fold X.
  assert (ND : dot (e_dims e) X X <> 0) by (apply norm_pos_dot; fold r; lra). cbn [kernel]. unfold hertz. destruct (Req_EM_T _ 0); [contradiction|].
  fold (norm (e_dims e) X). fold r. destruct (Rlt_dec _ 0); [lra|]. set (Re := e_sg e i * e_sg e j / (e_sg e i + e_sg e j)).
  assert (HRe : 0 <= Re) by (apply Rmult_le_pos; [now apply Rmult_le_pos|apply Rlt_le, Rinv_0_lt_compat; lra]).
  set (delta := e_sg e i + e_sg e j - r) in *. assert (HD : 0 < delta) by (unfold delta; lra). assert (HP : 0 <= delta * Re) by (apply Rmult_le_pos; lra).
  destruct (Rlt_dec _ 0); [lra|]. set (c1 := sqrt (delta * Re)). assert (Hc : 0 <= c1) by apply sqrt_pos.
  assert (HM := m_eff_nonneg _ _ Hmi Hmj). set (M := m_eff (e_im e i) (e_im e j)) in *.
  set (vn := dot (e_dims e) (vsub (e_v e i) (e_v e j)) (vscale (1 / r) X)).
  exists (Rmax 0 (c1 * (kn * delta - M * 0 * vn)) / r), (Rmax 0 (c1 * (kn * delta - M * gn * vn)) / r). eexists. eexists. split; [reflexivity|]. split; [reflexivity|]. cbn [book F].
  assert (O : forall Fn, opposite (e_dims e) i j (vscale (Fn / r) X) (F st) (push e i j (vscale (1 / r) X) Fn (F st))).
  { intros Fn a d. rewrite (push_opposite e i j _ _ (F st) a d). unfold vscale. destruct (a =? i)%nat, (a =? j)%nat, (d <? e_dims e)%nat; field; lra. }
  split; [apply O|]. split; [apply O|]. rewrite !dot_scale_l.
  assert (EV : dot (e_dims e) X (vsub (e_v e i) (e_v e j)) = r * vn).
  { unfold vn. rewrite dot_scale_r. replace (r * (1 / r * dot (e_dims e) (vsub (e_v e i) (e_v e j)) X)) with (dot (e_dims e) (vsub (e_v e i) (e_v e j)) X) by (field; lra).
    clear. induction (e_dims e) as [|n IH]; cbn; [ring|]. rewrite IH. ring. }
  rewrite EV. replace (M * 0 * vn) with 0 by ring. rewrite Rminus_0_r.
  assert (HK : 0 <= c1 * (kn * delta)) by (apply Rmult_le_pos; [exact Hc|apply Rmult_le_pos; lra]). rewrite (Rmax_right 0 _ HK).
  set (a := c1 * (kn * delta)) in *. set (g := c1 * (M * gn)). assert (HG : 0 <= g) by (unfold g; repeat apply Rmult_le_pos; lra).
  replace (c1 * (kn * delta - M * gn * vn)) with (a - g * vn) by (unfold a, g; ring).
  replace (Rmax 0 (a - g * vn) / r * (r * vn)) with (Rmax 0 (a - g * vn) * vn) by (field; lra). replace (a / r * (r * vn)) with (a * vn) by (field; lra).
  unfold Rmax. destruct (Rle_dec 0 (a - g * vn)) as [L|L]; [nra|]. apply Rnot_le_lt in L. assert (0 < vn) by nra. nra.
Qed.
Print Assumptions C27_hertz_dissipates.

(* A whole sweep, over any pairs, wrapped or not: the reported energy is the sum of the energies of the pairs, whatever was reported
   before, and each particle gets the sum of the forces of its pairs. *)
Theorem C55_sweep : forall k c U Fm e p0 p1 st, describes k c U Fm -> e_pot e = true -> 0 <= c -> (forall i, 0 <= e_sg e i) ->
  (forall i j, In (i, j) p0 -> 0 < norm (e_dims e) (shift_of e false i j)) -> (forall i j, In (i, j) p1 -> 0 < norm (e_dims e) (shift_of e true i j)) ->
  exists st', interact_forces k c e p0 p1 st = Some st' /\
    pot st' = sum_over (pair_energy e false c U) p0 + sum_over (pair_energy e true c U) p1 /\
    forall a d, (d < e_dims e)%nat -> F st' a d = F st a d + sum_over (pair_force e false c Fm a d) p0 + sum_over (pair_force e true c Fm a d) p1.
Proof.
  intros k c U Fm e p0 p1 st HD HP Hc HS H0 H1.
  assert (L : forall w ps s, (forall i j, In (i, j) ps -> 0 < norm (e_dims e) (shift_of e w i j)) -> exists s', do_list k c e w ps s = Some s' /\
    pot s' = pot s + sum_over (pair_energy e w c U) ps /\ forall a d, (d < e_dims e)%nat -> F s' a d = F s a d + sum_over (pair_force e w c Fm a d) ps).
  { intros w. induction ps as [|[i j] ps IH]; intros s HN; cbn [do_list sum_over fold_right].
    - exists s. split; [reflexivity|]. split; [unfold sum_over; cbn; ring|]. intros. unfold sum_over. cbn. ring.
    - assert (HR : 0 <= (e_sg e i + e_sg e j) * c) by (apply Rmult_le_pos; [assert (A := HS i); assert (B := HS j); lra|exact Hc]).
      assert (HN0 := HN i j (or_introl eq_refl)).
      assert (exists s1, do_pair k c e w i j s = Some s1 /\ pot s1 = pot s + pair_energy e w c U (i, j) /\ forall a d, (d < e_dims e)%nat -> F s1 a d = F s a d + pair_force e w c Fm a d (i, j)) as (s1 & E1 & P1 & F1).
      { unfold pair_energy, pair_force. destruct (Rlt_dec _ _) as [Lt|Ge].
        - destruct (HD e w i j s HP (HS i) (HS j) (conj HN0 Lt)) as (s1 & E & EP & O). exists s1. split; [exact E|]. split; [exact EP|]. intros a d Hd. rewrite (O a d). apply Nat.ltb_lt in Hd. rewrite Hd. unfold vscale.
          destruct (a =? i)%nat, (a =? j)%nat; field; lra.
        - exists s. split; [apply out_of_range_pair; lra|]. split; [ring|]. intros. ring. }
      rewrite E1. destruct (IH s1 (fun a b H => HN a b (or_intror H))) as (s2 & E2 & P2 & F2). exists s2. split; [exact E2|]. split.
      + rewrite P2, P1. unfold sum_over. cbn [fold_right]. ring.
      + intros a d Hd. rewrite F2, F1 by exact Hd. unfold sum_over. cbn [fold_right]. ring. }
  unfold interact_forces. destruct (L false p0 (mkF (F st) (Tq st) 0 0) H0) as (s1 & -> & P1 & F1). destruct (L true p1 s1 H1) as (s2 & E2 & P2 & F2).
  exists s2. split; [exact E2|]. split; [rewrite P2, P1; cbn; ring|]. intros a d Hd. rewrite F2, F1 by exact Hd. cbn. ring.
Qed.
Print Assumptions C55_sweep.
(* Two overlapping hard spheres of radius 1 at distance 1 along the first axis, listed once. *)
Example C55_sweep_case : exists U Fm st', describes (HardSphere 50) 1 U Fm /\ interact_forces (HardSphere 50) 1 (line 1 1 1) [(0, 1)%nat] [] (mkF (fun _ _ => 0) (fun _ => 0) 7 7) = Some st' /\
  pot st' = 25 /\ F st' 0%nat 0%nat = 50.
Proof.
  destruct (C55_sweep (HardSphere 50) 1 (hs_U 50) (hs_F 50) (line 1 1 1) [(0, 1)%nat] [] (mkF (fun _ _ => 0) (fun _ => 0) 7 7)) as (s & E & P & FF);
    [apply hs_describes|reflexivity|lra|intros [|i]; cbn; lra| |intros i j []|].
  { intros i j [H|[]]. injection H as <- <-. change (e_dims (line 1 1 1)) with 1%nat. rewrite line_norm by lra. lra. }
  exists (hs_U 50), (hs_F 50), s. split; [apply hs_describes|]. split; [exact E|]. rewrite P, FF by (cbn; lia).
  unfold sum_over, pair_energy, pair_force. cbn [fold_right]. change (e_dims (line 1 1 1)) with 1%nat. rewrite line_norm by lra. unfold hs_U, hs_F, shift_of, vsub. cbn.
  destruct (Rlt_dec _ _) as [|N]; [|exfalso; apply N; lra]. split; field.
Qed.
