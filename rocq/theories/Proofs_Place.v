From Coq Require Import Reals Lra Lia List ZArith Bool Psatz Ratan.
From Verif Require Import Model_Place.
Import ListNotations.
Local Open Scope R_scope.

Lemma ceil_spec x : IZR (Ceil x) - 1 < x <= IZR (Ceil x).
Proof. unfold Ceil. rewrite opp_IZR. destruct (base_Int_part (- x)) as [A B]. lra. Qed.
Lemma pieces_spec x : (1 <= pieces x)%nat /\ x <= INR (pieces x) /\ (pieces x = 1%nat \/ INR (pieces x) < x + 1).
Proof.
  unfold pieces. destruct (ceil_spec x) as [A B]. set (c := Ceil x) in *. clearbody c.
  assert (E : INR (Z.to_nat (Z.max c 1)) = IZR (Z.max c 1)) by (rewrite INR_IZR_INZ, Z2Nat.id; [reflexivity|lia]).
  rewrite E. split; [lia|]. destruct (Z.le_gt_cases c 1) as [L|L].
  - rewrite Z.max_r by exact L. apply IZR_le in L. split; [lra|]. left. reflexivity.
  - rewrite Z.max_l by lia. split; [lra|]. right. lra.
Qed.

(* walls *)
Lemma wall_default D r : 0 < r -> 2 * r <= D -> let n := wall_number D r (2 * r) in
  (1 <= n)%nat /\ 2 * r <= D / INR n <= 2 * r + 2 * r / INR n.
Proof.
  intros Hr HD n. unfold n, wall_number. destruct (pieces_spec ((D - 2 * r) / (2 * r))) as (P & Q0 & O). set (k := pieces ((D - 2 * r) / (2 * r))) in *. clearbody k. split; [exact P|].
  assert (K : 1 <= INR k) by (change 1 with (INR 1); apply le_INR; exact P).
  assert (X : (D - 2 * r) / (2 * r) * (2 * r) = D - 2 * r) by (field; lra). set (q := (D - 2 * r) / (2 * r)) in *. clearbody q.
  split.
  - apply (Rmult_le_reg_r (INR k)); [lra|]. replace (D / INR k * INR k) with D by (field; lra). destruct O as [O|O]; [rewrite O; cbn; lra|]. nra.
  - apply (Rmult_le_reg_r (INR k)); [lra|]. replace (D / INR k * INR k) with D by (field; lra). replace ((2 * r + 2 * r / INR k) * INR k) with (2 * r * INR k + 2 * r) by (field; lra). nra.
Qed.

(* lengths *)
Definition len (v : list R) : R := sqrt (norm2 v).
Lemma norm2_cons a v : norm2 (a :: v) = a * a + norm2 v.
Proof. reflexivity. Qed.
Lemma norm2_nonneg v : 0 <= norm2 v.
Proof. induction v as [|a v IH]; [cbn; lra|]. rewrite norm2_cons. nra. Qed.
Lemma len_sqr v : len v * len v = norm2 v.
Proof. unfold len. apply sqrt_sqrt. apply norm2_nonneg. Qed.
Lemma len_nonneg v : 0 <= len v. Proof. apply sqrt_pos. Qed.
Lemma len_cons a v : len (a :: v) = sqrt (a * a + len v * len v).
Proof. rewrite len_sqr. reflexivity. Qed.
Lemma hyp_nonneg a b : 0 <= a * a + b * b. Proof. nra. Qed.
Lemma sqrt_sq x : 0 <= x -> sqrt (x * x) = x. Proof. apply sqrt_square. Qed.
Lemma le_sqrt a b : 0 <= b -> a <= b * b -> sqrt a <= b.
Proof. intros H L. rewrite <- (sqrt_square b H). apply sqrt_le_1_alt. exact L. Qed.
Lemma minkowski a b c d : sqrt ((a + c) * (a + c) + (b + d) * (b + d)) <= sqrt (a * a + b * b) + sqrt (c * c + d * d).
Proof.
  set (p := sqrt (a * a + b * b)). set (q := sqrt (c * c + d * d)).
  assert (Pp : 0 <= p) by apply sqrt_pos. assert (Pq : 0 <= q) by apply sqrt_pos.
  assert (Ep : p * p = a * a + b * b) by (apply sqrt_sqrt; nra). assert (Eq : q * q = c * c + d * d) by (apply sqrt_sqrt; nra). clearbody p q.
  apply le_sqrt; [lra|].
  assert (C : a * c + b * d <= p * q). { destruct (Rle_dec 0 (a * c + b * d)) as [N|N]; [|nra]. apply Rsqr_incr_0_var; [|nra]. unfold Rsqr. replace (p * q * (p * q)) with (p * p * (q * q)) by ring. rewrite Ep, Eq. assert (0 <= (a * d - b * c) * (a * d - b * c)) by apply Rle_0_sqr. nra. }
  nra.
Qed.
Lemma sub_add a : forall b c, length a = length b -> length b = length c -> len (sub a c) <= len (sub a b) + len (sub b c).
Proof.
  induction a as [|x a IH]; intros [|y b] [|z c] L1 L2; cbn in L1, L2; try lia; [unfold len; cbn; rewrite sqrt_0; lra|].
  change (sub (x :: a) (z :: c)) with ((x - z) :: sub a c). change (sub (x :: a) (y :: b)) with ((x - y) :: sub a b). change (sub (y :: b) (z :: c)) with ((y - z) :: sub b c).
  rewrite !len_cons. specialize (IH b c ltac:(lia) ltac:(lia)). pose proof (len_nonneg (sub a c)).
  apply Rle_trans with (sqrt ((x - y + (y - z)) * (x - y + (y - z)) + (len (sub a b) + len (sub b c)) * (len (sub a b) + len (sub b c)))).
  - apply sqrt_le_1_alt. replace (x - y + (y - z)) with (x - z) by ring. nra.
  - apply minkowski.
Qed.
Lemma norm2_scale k v : norm2 (map (Rmult k) v) = k * k * norm2 v.
Proof. induction v as [|a v IH]; [cbn; ring|]. cbn [map]. rewrite !norm2_cons, IH. ring. Qed.
Lemma sub_scale k v : sub v (map (Rmult k) v) = map (Rmult (1 - k)) v.
Proof. induction v as [|a v IH]; [reflexivity|]. cbn [map]. change (sub (a :: v) (k * a :: map (Rmult k) v)) with ((a - k * a) :: sub v (map (Rmult k) v)). rewrite IH. f_equal. ring. Qed.
Lemma len_scale k v : len (map (Rmult k) v) = Rabs k * len v.
Proof. unfold len. rewrite norm2_scale, sqrt_mult_alt by nra. f_equal. rewrite <- sqrt_Rsqr_abs. reflexivity. Qed.
Lemma sub_zero v : len (sub v (map (Rmult 0) v)) = len v.
Proof. rewrite sub_scale, len_scale, Rminus_0_r, Rabs_R1. ring. Qed.

(* chords are shorter than arcs *)
Lemma sin_abs x : Rabs (sin x) <= Rabs x.
Proof.
  assert (P : forall y, 0 <= y -> Rabs (sin y) <= y).
  { intros y Hy. destruct (Req_dec y 0) as [-> |N]; [rewrite sin_0, Rabs_R0; lra|]. destruct (Rle_dec y 1) as [L|L].
    - rewrite Rabs_right; [left; apply sin_lt_x; lra|]. apply Rle_ge, sin_ge_0; [lra|]. pose proof PI_4. pose proof PI2_3_2. lra.
    - destruct (SIN_bound y) as [A B]. apply Rle_trans with 1; [apply Rabs_le; lra|lra]. }
  destruct (Rle_dec 0 x) as [H|H]; [rewrite (Rabs_right x) by lra; apply P; lra|].
  rewrite (Rabs_left x) by lra. replace (Rabs (sin x)) with (Rabs (sin (- x))) by (rewrite sin_neg, Rabs_Ropp; reflexivity). apply P. lra.
Qed.
Lemma chord a b : (cos a - cos b) * (cos a - cos b) + (sin a - sin b) * (sin a - sin b) <= (a - b) * (a - b).
Proof.
  assert (E : (cos a - cos b) * (cos a - cos b) + (sin a - sin b) * (sin a - sin b) = 4 * (sin ((a - b) / 2) * sin ((a - b) / 2))).
  { set (p := (a + b) / 2). set (q := (a - b) / 2). assert (Ea : a = p + q) by (unfold p, q; field). assert (Eb : b = p - q) by (unfold p, q; field). clearbody p q. subst a b.
    rewrite cos_plus, cos_minus, sin_plus, sin_minus. pose proof (sin2_cos2 p) as S. unfold Rsqr in S.
    replace (cos p * cos q - sin p * sin q - (cos p * cos q + sin p * sin q)) with (- 2 * (sin p * sin q)) by ring.
    replace (sin p * cos q + cos p * sin q - (sin p * cos q - cos p * sin q)) with (2 * (cos p * sin q)) by ring.
    replace (-2 * (sin p * sin q) * (-2 * (sin p * sin q)) + 2 * (cos p * sin q) * (2 * (cos p * sin q))) with (4 * (sin q * sin q) * (sin p * sin p + cos p * cos p)) by ring. rewrite S. ring. }
  rewrite E. pose proof (sin_abs ((a - b) / 2)) as H. apply Rsqr_le_abs_1 in H. unfold Rsqr in H. nra.
Qed.

(* circles *)
Lemma turn_spec limit step : 0 < step -> forall fuel theta, turn fuel limit step theta = map (fun k => theta + INR k * step) (filter (fun k => if Rlt_dec (theta + INR k * step) limit then true else false) (seq 0 fuel)).
Proof.
  intros Hs. induction fuel as [|fuel IH]; intros theta; [reflexivity|]. cbn [turn seq filter]. change (INR 0) with 0. rewrite Rmult_0_l, Rplus_0_r.
  destruct (Rlt_dec theta limit) as [L|L].
  - cbn [map]. change (INR 0) with 0. rewrite Rmult_0_l, Rplus_0_r. f_equal. rewrite IH.
    rewrite <- seq_shift. generalize (seq 0 fuel) as l. induction l as [|k l IHl]; [reflexivity|]. cbn [map filter]. rewrite S_INR.
    replace (theta + step + INR k * step) with (theta + (INR k + 1) * step) by ring. destruct (Rlt_dec (theta + (INR k + 1) * step) limit); [|exact IHl]. cbn [map]. rewrite S_INR, IHl. f_equal. ring.
  - assert (F : forall l, filter (fun k => if Rlt_dec (theta + INR k * step) limit then true else false) l = []).
    { induction l as [|k l IHl]; [reflexivity|]. cbn. destruct (Rlt_dec (theta + INR k * step) limit) as [C|C]; [|exact IHl]. exfalso. pose proof (pos_INR k). nra. }
    rewrite F. reflexivity.
Qed.
Lemma circle_number_pos scale sigma r : (1 <= circle_number scale sigma r)%nat.
Proof. apply pieces_spec. Qed.
Lemma INR_number scale sigma r : 1 <= INR (circle_number scale sigma r).
Proof. change 1 with (INR 1). apply le_INR, circle_number_pos. Qed.
Lemma dtheta_pos scale sigma r : 0 < dtheta scale sigma r.
Proof. unfold dtheta. pose proof (INR_number scale sigma r). pose proof PI_RGT_0. apply Rdiv_lt_0_compat; lra. Qed.
Lemma dtheta_full scale sigma r : INR (circle_number scale sigma r) * dtheta scale sigma r = 2 * PI.
Proof. unfold dtheta. pose proof (INR_number scale sigma r). field. lra. Qed.
(* an angle is reached iff it is a multiple of the step below the limit *)
Lemma angles_spec whole scale sigma r t : In t (angles whole scale sigma r) <-> exists k, t = INR k * dtheta scale sigma r /\ t < (if whole then 2 * PI else PI).
Proof.
  unfold angles. pose proof (dtheta_pos scale sigma r) as P. rewrite turn_spec by exact P. rewrite in_map_iff. split.
  - intros (k & E & F). apply filter_In in F. destruct F as [_ F]. exists k. rewrite Rplus_0_l in *. split; [auto|]. rewrite <- E. destruct (Rlt_dec (INR k * dtheta scale sigma r) (if whole then 2 * PI else PI)); [assumption|discriminate].
  - intros (k & E & F). exists k. rewrite Rplus_0_l. split; [auto|]. apply filter_In. split.
    + apply in_seq. assert (INR k < INR (circle_number scale sigma r)). { pose proof (dtheta_full scale sigma r) as D. pose proof PI_RGT_0. apply (Rmult_lt_reg_r (dtheta scale sigma r)); [exact P|]. rewrite D, <- E. destruct whole; lra. } apply INR_lt in H. lia.
    + rewrite Rplus_0_l, <- E. destruct (Rlt_dec t (if whole then 2 * PI else PI)); [reflexivity|contradiction].
Qed.
Lemma angles_whole scale sigma r : angles true scale sigma r = map (fun k => INR k * dtheta scale sigma r) (seq 0 (circle_number scale sigma r)).
Proof.
  unfold angles. rewrite turn_spec by apply dtheta_pos. set (n := circle_number scale sigma r). rewrite seq_S, filter_app, map_app. cbn [filter]. rewrite Nat.add_0_l, Rplus_0_l.
  replace (INR n * dtheta scale sigma r) with (2 * PI) by (symmetry; apply dtheta_full). destruct (Rlt_dec (2 * PI) (2 * PI)) as [C|_]; [lra|]. cbn [map]. rewrite app_nil_r.
  assert (F : filter (fun k => if Rlt_dec (0 + INR k * dtheta scale sigma r) (2 * PI) then true else false) (seq 0 n) = seq 0 n).
  { assert (FI : forall (f : nat -> bool) l, (forall k, In k l -> f k = true) -> filter f l = l) by (intros f l; induction l as [|k0 l IHl]; intros Hf; [reflexivity|]; cbn; rewrite (Hf k0 (or_introl eq_refl)), IHl; [reflexivity|]; intros; apply Hf; right; assumption).
    apply FI. intros k Hk. apply in_seq in Hk. destruct (Rlt_dec (0 + INR k * dtheta scale sigma r) (2 * PI)) as [_|N]; [reflexivity|]. exfalso. apply N. rewrite Rplus_0_l, <- (dtheta_full scale sigma r).
    apply Rmult_lt_compat_r; [apply dtheta_pos|]. apply lt_INR. unfold n in Hk. lia. }
  rewrite F. apply map_ext. intros k. ring.
Qed.
Lemma step_size scale sigma r : 0 < scale -> 0 < sigma -> 0 <= r -> r * dtheta scale sigma r <= 2 * sigma / scale.
Proof.
  intros Hs Hg Hr. unfold dtheta. pose proof (INR_number scale sigma r) as N. destruct (pieces_spec (1 / 2 * scale * 2 * PI * r / sigma)) as (_ & B & _). fold (circle_number scale sigma r) in B. set (n := INR (circle_number scale sigma r)) in *. clearbody n.
  apply (Rmult_le_reg_r (n * scale)); [nra|]. replace (r * (2 * PI / n) * (n * scale)) with (2 * (scale * PI * r)) by (field; lra). replace (2 * sigma / scale * (n * scale)) with (2 * (n * sigma)) by (field; lra).
  apply (Rmult_le_compat_r sigma) in B; [|lra]. replace (1 / 2 * scale * 2 * PI * r / sigma * sigma) with (scale * PI * r) in B by (field; lra). lra.
Qed.
Lemma sphere_norm m scale sigma : forall r p, In p (sphere m scale sigma r) -> norm2 p = r * r /\ length p = (m + 2)%nat.
Proof.
  induction m as [|m IH]; intros r p; cbn [sphere].
  - rewrite in_map_iff. intros (t & <- & _). split; [|reflexivity]. rewrite !norm2_cons. cbn. pose proof (sin2_cos2 t) as S. unfold Rsqr in S. replace (r * cos t * (r * cos t) + (r * sin t * (r * sin t) + 0)) with (r * r * (sin t * sin t + cos t * cos t)) by ring. rewrite S. ring.
  - rewrite in_flat_map. intros (t & Ht & Hp). apply in_map_iff in Hp. destruct Hp as (q & <- & Hq). destruct (IH _ _ Hq) as [E L]. split; [|cbn; lia]. rewrite norm2_cons, E. pose proof (sin2_cos2 t) as S. unfold Rsqr in S.
    replace (r * cos t * (r * cos t) + r * sin t * (r * sin t)) with (r * r * (sin t * sin t + cos t * cos t)) by ring. rewrite S. ring.
Qed.
Lemma angles_zero whole scale sigma r : In 0 (angles whole scale sigma r).
Proof. apply angles_spec. exists 0%nat. cbn. split; [ring|]. pose proof PI_RGT_0. destruct whole; lra. Qed.
Lemma sphere_nonempty m scale sigma : forall r, exists p, In p (sphere m scale sigma r).
Proof.
  induction m as [|m IH]; intros r; cbn [sphere].
  - eexists. apply in_map. apply angles_zero.
  - destruct (IH (r * sin 0)) as [q Hq]. exists ((r * cos 0) :: q). apply in_flat_map. exists 0. split; [apply angles_zero|]. apply in_map. exact Hq.
Qed.
(* an angle reached is near any angle *)
Lemma nearest (whole : bool) scale sigma r t : 0 <= t -> (if whole then t < 2 * PI else t <= PI) -> exists t', In t' (angles whole scale sigma r) /\ 0 <= t - t' <= dtheta scale sigma r.
Proof.
  intros H0 H1. pose proof (dtheta_pos scale sigma r) as P. set (d := dtheta scale sigma r) in *. pose proof PI_RGT_0 as PP.
  assert (D : forall n t0, 0 <= t0 <= INR n * d -> exists k, 0 <= t0 - INR k * d <= d /\ (t0 < INR n * d -> (0 < n)%nat -> (k < n)%nat)).
  { intros n t0 B. assert (Q0 : 0 <= t0 / d) by (apply Rmult_le_pos; [lra|left; apply Rinv_0_lt_compat; exact P]). destruct (base_Int_part (t0 / d)) as [A C]. assert (Z0 : (0 <= Int_part (t0 / d))%Z).
    { apply Z.lt_succ_r. apply lt_IZR. unfold Z.succ. rewrite plus_IZR. lra. }
    exists (Z.to_nat (Int_part (t0 / d))). assert (E : INR (Z.to_nat (Int_part (t0 / d))) = IZR (Int_part (t0 / d))) by (rewrite INR_IZR_INZ, Z2Nat.id; [reflexivity|exact Z0]).
    assert (T : t0 / d * d = t0) by (field; lra). split; [rewrite E; split; nra|]. intros L N. apply INR_lt. rewrite E. apply (Rmult_lt_reg_r d); [exact P|]. nra. }
  destruct whole.
  - destruct (D (circle_number scale sigma r) t) as (k & K & L); [unfold d; rewrite dtheta_full; lra|]. exists (INR k * d). split; [|exact K]. apply angles_spec. exists k. split; [reflexivity|]. unfold d. rewrite <- (dtheta_full scale sigma r). apply Rmult_lt_compat_r; [exact P|]. apply lt_INR. apply L; [unfold d; rewrite dtheta_full; lra|apply circle_number_pos].
  - destruct (Rlt_dec t PI) as [L|L].
    + destruct (D (circle_number scale sigma r) t) as (k & K & _); [unfold d; rewrite dtheta_full; lra|]. exists (INR k * d). split; [|exact K]. apply angles_spec. exists k. split; [reflexivity|]. lra.
    + assert (t = PI) by lra. subst t. destruct (D (circle_number scale sigma r) PI) as (k & K & _); [unfold d; rewrite dtheta_full; lra|].
      destruct (Rlt_dec (INR k * d) PI) as [M|M]; [exists (INR k * d); split; [apply angles_spec; exists k; split; [reflexivity|exact M]|exact K]|].
      assert (E : INR k * d = PI) by lra. destruct k as [|k]; [cbn in E; lra|]. rewrite S_INR in E. exists (INR k * d). split; [apply angles_spec; exists k; split; [reflexivity|lra]|lra].
Qed.
(* polar coordinates *)
Lemma polar x r : 0 < r -> - r <= x <= r -> exists t, 0 <= t <= PI /\ x = r * cos t.
Proof.
  intros Hr Hx. exists (acos (x / r)). split; [apply acos_bound|]. rewrite cos_acos; [field; lra|]. split; [apply (Rmult_le_reg_r r); [lra|]|apply (Rmult_le_reg_r r); [lra|]]; replace (x / r * r) with x by (field; lra); lra.
Qed.
Lemma polar2 x y r : 0 < r -> x * x + y * y = r * r -> exists t, 0 <= t < 2 * PI /\ x = r * cos t /\ y = r * sin t.
Proof.
  intros Hr E. pose proof PI_RGT_0 as PP. destruct (polar x r Hr) as (t & Ht & X); [split; nra|].
  assert (Y : y * y = r * sin t * (r * sin t)). { pose proof (sin2_cos2 t) as S. unfold Rsqr in S. assert (C : sin t * sin t = 1 - cos t * cos t) by lra. replace (r * sin t * (r * sin t)) with (r * r * (sin t * sin t)) by ring. rewrite C. rewrite X in E. lra. }
  assert (S0 : 0 <= sin t) by (apply sin_ge_0; lra).
  destruct (Rle_dec 0 y) as [P|P].
  - exists t. split; [lra|]. split; [exact X|]. assert (0 <= r * sin t) by nra. nra.
  - exists (2 * PI - t). assert (Hs : 0 < sin t). { destruct S0 as [S0|S0]; [exact S0|]. rewrite <- S0 in Y. nra. } assert (t <> 0) by (intros ->; rewrite sin_0 in Hs; lra). split; [lra|].
    replace (2 * PI - t) with (- t + 2 * INR 1 * PI) by (cbn; ring). rewrite cos_period, sin_period, cos_neg, sin_neg. split; [exact X|]. assert (0 < r * sin t) by nra. nra.
Qed.
Lemma sphere_covers m scale sigma : 0 < scale -> 0 < sigma -> forall r x, 0 <= r -> length x = (m + 2)%nat -> norm2 x = r * r ->
  exists p, In p (sphere m scale sigma r) /\ len (sub x p) <= INR (m + 1) * (2 * sigma / scale).
Proof.
  intros Hs Hg. assert (W : 0 < 2 * sigma / scale) by (apply Rdiv_lt_0_compat; lra). set (w := 2 * sigma / scale) in *.
  assert (Z0 : forall m' r x, r = 0 -> length x = (m' + 2)%nat -> norm2 x = r * r -> exists p, In p (sphere m' scale sigma r) /\ len (sub x p) <= 0).
  { intros m' r x -> L E. destruct (sphere_nonempty m' scale sigma 0) as [p Hp]. exists p. split; [exact Hp|]. destruct (sphere_norm m' scale sigma 0 p Hp) as [E' L'].
    assert (ZZ : forall v, norm2 v = 0 -> Forall (fun a => a = 0) v). { induction v as [|a v IH]; [constructor|]. rewrite norm2_cons. pose proof (norm2_nonneg v). intros. constructor; [nra|apply IH; nra]. }
    rewrite Rmult_0_l in *. apply ZZ in E. apply ZZ in E'. assert (N : norm2 (sub x p) = 0). { clear - E E'. revert p E'. induction E as [|a x Ha E IH]; intros [|b p] E'; try reflexivity. inversion E'; subst. change (sub (0 :: x) (0 :: p)) with ((0 - 0) :: sub x p). rewrite norm2_cons, IH by assumption. ring. }
    unfold len. rewrite N, sqrt_0. lra. }
  induction m as [|m IH]; intros r x Hr L E.
  - destruct (Req_dec r 0) as [R0|R0]; [destruct (Z0 0%nat r x R0 L E) as (p & A & B); exists p; split; [exact A|cbn; lra]|]. destruct x as [|a [|b [|? ?]]]; try (cbn in L; lia). rewrite !norm2_cons in E. cbn in E.
    destruct (polar2 a b r) as (t & Ht & X & Y); [lra|lra|]. destruct (nearest true scale sigma r t) as (t' & T & D); [lra|lra|]. exists [r * cos t'; r * sin t']. split; [cbn [sphere]; apply (in_map (fun t => [r * cos t; r * sin t])); exact T|].
    change (INR (0 + 1)) with 1. rewrite Rmult_1_l. unfold len. apply le_sqrt; [lra|]. cbn. pose proof (chord t t') as C. pose proof (step_size scale sigma r Hs Hg Hr) as SS. fold w in SS. subst a b.
    set (u := t - t') in *. assert (U : r * u <= w) by nra. assert (0 <= r * u) by nra.
    replace ((r * cos t - r * cos t') * (r * cos t - r * cos t') + ((r * sin t - r * sin t') * (r * sin t - r * sin t') + 0)) with (r * r * ((cos t - cos t') * (cos t - cos t') + (sin t - sin t') * (sin t - sin t'))) by ring.
    apply Rle_trans with (r * r * (u * u)); [apply Rmult_le_compat_l; [nra|exact C]|]. replace (r * r * (u * u)) with (r * u * (r * u)) by ring. nra.
  - destruct (Req_dec r 0) as [R0|R0]; [destruct (Z0 (S m) r x R0 L E) as (p & A & B); exists p; split; [exact A|]; pose proof (pos_INR (S m + 1)); nra|].
    destruct x as [|a q]; [cbn in L; lia|]. rewrite norm2_cons in E. pose proof (norm2_nonneg q) as NQ. destruct (polar a r) as (t & Ht & X); [lra|split; nra|].
    assert (S0 : 0 <= sin t) by (apply sin_ge_0; lra). assert (LQ : len q = r * sin t). { unfold len. assert (Q : norm2 q = r * sin t * (r * sin t)). { pose proof (sin2_cos2 t) as S1. unfold Rsqr in S1. assert (C : sin t * sin t = 1 - cos t * cos t) by lra. replace (r * sin t * (r * sin t)) with (r * r * (sin t * sin t)) by ring. rewrite C. subst a. lra. } rewrite Q. apply sqrt_square. nra. }
    destruct (nearest false scale sigma r t) as (t' & T & D); [lra|lra|]. apply angles_spec in T as T2. destruct T2 as (k & _ & Tl). assert (T0 : 0 <= t'). { apply angles_spec in T. destruct T as (k' & -> & _). pose proof (pos_INR k'). pose proof (dtheta_pos scale sigma r). nra. }
    assert (S1 : 0 <= sin t') by (apply sin_ge_0; lra).
    (* the point on the layer t' with the same direction *)
    assert (Q2 : exists q2, length q2 = length q /\ norm2 q2 = r * sin t' * (r * sin t') /\ len (sub q q2) = r * Rabs (sin t - sin t')).
    { destruct (Req_dec (sin t) 0) as [Z1|Z1].
      - assert (NZ : norm2 q = 0) by (rewrite <- len_sqr, LQ, Z1; ring). exists (match q with [] => [] | _ :: q' => (r * sin t') :: map (fun _ => 0) q' end). cbn in L. destruct q as [|b q']; [cbn in L; lia|]. 
        assert (ZZ : forall v : list R, norm2 (map (fun _ => 0) v) = 0) by (induction v as [|? ? IHv]; [reflexivity|]; cbn [map]; rewrite norm2_cons, IHv; ring).
        split; [cbn; rewrite map_length; reflexivity|]. rewrite norm2_cons, ZZ. split; [ring|]. change (sub (b :: q') (r * sin t' :: map (fun _ : R => 0) q')) with ((b - r * sin t') :: sub q' (map (fun _ : R => 0) q')).
        rewrite norm2_cons in NZ. pose proof (norm2_nonneg q') as NQ'. assert (b = 0) by nra. assert (N' : norm2 q' = 0) by nra. assert (SQ : norm2 (sub q' (map (fun _ : R => 0) q')) = norm2 q'). { clear. induction q' as [|c q' IHq]; [reflexivity|]. change (sub (c :: q') (map (fun _ : R => 0) (c :: q'))) with ((c - 0) :: sub q' (map (fun _ : R => 0) q')). rewrite !norm2_cons, IHq. ring. }
        unfold len. rewrite norm2_cons, SQ, N', Z1. subst b. replace ((0 - r * sin t') * (0 - r * sin t') + 0) with (r * sin t' * (r * sin t')) by ring. rewrite sqrt_square by nra. rewrite Rabs_left1 by lra. ring.
      - exists (map (Rmult (sin t' / sin t)) q). split; [apply map_length|]. rewrite norm2_scale, <- len_sqr, LQ. split; [field; exact Z1|]. rewrite sub_scale, len_scale, LQ. replace (1 - sin t' / sin t) with ((sin t - sin t') / sin t) by (field; exact Z1).
        unfold Rdiv. rewrite Rabs_mult, Rabs_inv, (Rabs_right (sin t)) by lra. field. exact Z1. }
    destruct Q2 as (q2 & L2 & N2 & D2). assert (Rp : 0 <= r * sin t') by nra. destruct (IH (r * sin t') q2 Rp ltac:(cbn in L; lia) N2) as (p & Hp & Bp).
    exists ((r * cos t') :: p). split; [cbn [sphere]; apply in_flat_map; exists t'; split; [exact T|apply in_map; exact Hp]|].
    change (sub (a :: q) (r * cos t' :: p)) with ((a - r * cos t') :: sub q p). rewrite len_cons. destruct (sphere_norm m scale sigma _ p Hp) as [_ Lp].
    pose proof (sub_add q q2 p ltac:(lia) ltac:(cbn in L; lia)) as TR. set (c := INR (m + 1) * w) in *. assert (Cp : 0 <= c) by (unfold c; pose proof (pos_INR (m + 1)); nra).
    assert (I : INR (S m + 1) * w = w + c) by (unfold c; replace (S m + 1)%nat with (S (m + 1)) by lia; rewrite S_INR; ring). rewrite I.
    set (e := r * Rabs (sin t - sin t')) in *. assert (Ep : 0 <= e) by (unfold e; pose proof (Rabs_pos (sin t - sin t')); nra). pose proof (len_nonneg (sub q p)).
    apply Rle_trans with (sqrt ((a - r * cos t' + 0) * (a - r * cos t' + 0) + (e + c) * (e + c))); [apply sqrt_le_1_alt; rewrite Rplus_0_r; rewrite D2 in TR; nra|].
    eapply Rle_trans; [apply minkowski|]. replace (0 * 0 + c * c) with (c * c) by ring. rewrite sqrt_square by exact Cp. apply Rplus_le_compat_r. apply le_sqrt; [lra|].
    pose proof (chord t t') as C. pose proof (step_size scale sigma r Hs Hg Hr) as SS. fold w in SS. subst a. set (u := t - t') in *. assert (U : r * u <= w) by nra. assert (0 <= r * u) by nra.
    assert (AB : Rabs (sin t - sin t') * Rabs (sin t - sin t') = (sin t - sin t') * (sin t - sin t')) by (generalize (sin t - sin t'); intros z; unfold Rabs; destruct (Rcase_abs z); ring).
    replace ((r * cos t - r * cos t') * (r * cos t - r * cos t') + e * e) with (r * r * ((cos t - cos t') * (cos t - cos t') + Rabs (sin t - sin t') * Rabs (sin t - sin t'))) by (unfold e; ring). rewrite AB.
    apply Rle_trans with (r * r * (u * u)); [apply Rmult_le_compat_l; [nra|exact C]|]. replace (r * r * (u * u)) with (r * u * (r * u)) by ring. nra.
Qed.

From Coq Require Import Permutation.
From Verif Require Import Spec_Place.
Lemma dist2_sub x : forall y, norm2 (sub x y) = Dist2 x y.
Proof. induction x as [|a x IH]; intros [|b y]; try reflexivity. change (sub (a :: x) (b :: y)) with ((a - b) :: sub x y). rewrite norm2_cons, IH. reflexivity. Qed.
Lemma dist_sub x y : len (sub x y) = Dist x y.
Proof. unfold len, Dist. rewrite dist2_sub. reflexivity. Qed.
Lemma pieces_eq x n : (1 <= n)%nat -> INR n - 1 < x <= INR n -> pieces x = n.
Proof.
  intros N [A B]. unfold pieces. destruct (ceil_spec x) as [C D]. rewrite INR_IZR_INZ in A, B. assert (Ceil x = Z.of_nat n).
  { apply Z.le_antisymm; apply Z.lt_succ_r, lt_IZR; unfold Z.succ; rewrite plus_IZR; lra. } rewrite H, Z.max_l by lia. apply Nat2Z.id.
Qed.
Lemma Dist2_along s t s' : forall e, length s = length e -> Dist2 (Along t s e) (Along s' s e) = (t - s') * (t - s') * Dist2 e s.
Proof.
  unfold Dist2, Along. induction s as [|a s IH]; intros [|b e] L; cbn in L; try lia; [cbn; ring|]. cbn [combine map fold_right fst snd]. rewrite IH by lia. ring.
Qed.
Lemma along_0 s : forall e, length s = length e -> Along 0 s e = s.
Proof. unfold Along. induction s as [|a s IH]; intros [|b e] L; cbn in L; try lia; [reflexivity|]. cbn [combine map fst snd]. rewrite IH by lia. f_equal. ring. Qed.
Lemma along_1 s : forall e, length s = length e -> Along 1 s e = e.
Proof. unfold Along. induction s as [|a s IH]; intros [|b e] L; cbn in L; try lia; [reflexivity|]. cbn [combine map fst snd]. rewrite IH by lia. f_equal. ring. Qed.
Lemma Dist2_sym x : forall y, Dist2 x y = Dist2 y x.
Proof. unfold Dist2. induction x as [|a x IH]; intros [|b y]; try reflexivity. cbn [combine map fold_right fst snd]. rewrite IH. ring. Qed.
Lemma Dist_sym x y : Dist x y = Dist y x. Proof. unfold Dist. rewrite Dist2_sym. reflexivity. Qed.
Lemma Dist2_nonneg x y : 0 <= Dist2 x y. Proof. rewrite <- dist2_sub. apply norm2_nonneg. Qed.
Lemma Dist_along s e t s' : length s = length e -> Dist (Along t s e) (Along s' s e) = Rabs (t - s') * Dist s e.
Proof. intros L. unfold Dist. rewrite Dist2_along by exact L. rewrite sqrt_mult_alt by apply Rle_0_sqr. rewrite (Dist2_sym e s). f_equal. rewrite <- sqrt_Rsqr_abs. reflexivity. Qed.
Lemma wall_nth start stop r s i p : nth_error (wall start stop r s) i = Some p -> let D := Dist start stop in
  (i < wall_number D r s)%nat /\ p = Along (wall_lambda D r s i / D) start stop.
Proof.
  unfold wall. assert (E : distance stop start = Dist start stop) by (unfold distance; rewrite dist2_sub, Dist2_sym; reflexivity). rewrite E. cbv zeta. set (D := Dist start stop). intros H.
  assert (L : (i < length (seq 0 (wall_number D r s)))%nat) by (rewrite <- (map_length (fun i => map (fun p => fst p + wall_lambda D r s i * ((snd p - fst p) / D)) (combine start stop))); apply nth_error_Some; rewrite H; discriminate).
  rewrite seq_length in L. split; [exact L|]. rewrite nth_error_map in H. rewrite (nth_error_nth' (seq 0 (wall_number D r s)) 0%nat) in H by (rewrite seq_length; exact L). rewrite seq_nth in H by exact L. cbn [option_map Nat.add] in H.
  assert (H' : p = map (fun p => fst p + wall_lambda D r s i * ((snd p - fst p) / D)) (combine start stop)) by congruence. rewrite H'. unfold Along. apply map_ext. intros [a b]. cbn. unfold Rdiv. ring.
Qed.
Lemma wall_length start stop r s : length (wall start stop r s) = wall_number (Dist start stop) r s.
Proof. unfold wall. rewrite map_length, seq_length. unfold distance. rewrite dist2_sub, Dist2_sym. reflexivity. Qed.

(* circles around a centre *)
Lemma add_length a : forall b, length a = length b -> length (add a b) = length a.
Proof. intros b L. unfold add. rewrite map_length, combine_length. lia. Qed.
Lemma dist2_add c : forall p x, length p = length c -> length x = length c -> Dist2 x (add c p) = norm2 (sub (sub x c) p).
Proof.
  induction c as [|a c IH]; intros [|b p] [|y x] L1 L2; cbn in L1, L2; try lia; [reflexivity|].
  change (add (a :: c) (b :: p)) with ((a + b) :: add c p). change (sub (y :: x) (a :: c)) with ((y - a) :: sub x c). change (sub ((y - a) :: sub x c) (b :: p)) with ((y - a - b) :: sub (sub x c) p). rewrite norm2_cons, <- IH by lia.
  unfold Dist2. cbn [combine map fold_right fst snd]. ring.
Qed.
Lemma dist2_center c : forall p, length p = length c -> Dist2 c (add c p) = norm2 p.
Proof. induction c as [|a c IH]; intros [|b p] L; cbn in L; try lia; [reflexivity|]. change (add (a :: c) (b :: p)) with ((a + b) :: add c p). rewrite norm2_cons, <- IH by lia. unfold Dist2. cbn [combine map fold_right fst snd]. ring. Qed.
Lemma filters_perm {A} (fs : list (A -> bool)) l : (forall p, In p l -> length (filter (fun f => f p) fs) = 1%nat) -> Permutation (flat_map (fun f => filter f l) fs) l.
Proof.
  induction l as [|p l IH]; intros H.
  - assert (E : flat_map (fun f : A -> bool => filter f []) fs = []) by (induction fs; cbn; auto; apply IHfs; intros; contradiction). rewrite E. constructor.
  - assert (K : Permutation (flat_map (fun f => filter f (p :: l)) fs) (repeat p (length (filter (fun f => f p) fs)) ++ flat_map (fun f => filter f l) fs)).
    { clear. induction fs as [|f fs IHf]; [constructor|]. cbn [flat_map filter]. destruct (f p); cbn [length repeat app].
      - constructor. rewrite IHf. rewrite !app_assoc. apply Permutation_app_tail. apply Permutation_app_comm.
      - rewrite IHf. rewrite !app_assoc. apply Permutation_app_tail. apply Permutation_app_comm. }
    rewrite K, (H p (or_introl eq_refl)). cbn [repeat app]. constructor. apply IH. intros q Hq. apply H. right. exact Hq.
Qed.

(* temperature *)
Lemma norm2_speed v : norm2 v = Speed2 v. Proof. reflexivity. Qed.
Lemma kinetic_spec l : Forall (fun p => m_im p <> 0) l -> kinetic l = Some (Energy (map m_im l) (map m_v l)).
Proof.
  induction 1 as [|p l Hp H IH]; [reflexivity|]. cbn [kinetic map]. rewrite IH. destruct (Req_EM_T (m_im p) 0); [contradiction|]. f_equal. unfold Energy. cbn [combine map fold_right fst snd]. f_equal. rewrite norm2_speed. field. exact Hp.
Qed.
Lemma kinetic_none l : Exists (fun p => m_im p = 0) l -> kinetic l = None.
Proof. induction 1 as [p l Hp|p l H IH]; cbn [kinetic]; [destruct (kinetic l); [|reflexivity]; destruct (Req_EM_T (m_im p) 0); [reflexivity|contradiction]|rewrite IH; reflexivity]. Qed.
Lemma speed2_scale f v : Speed2 (map (fun x => x * f) v) = f * f * Speed2 v.
Proof. unfold Speed2. induction v as [|a v IH]; [cbn; ring|]. cbn [map fold_right]. rewrite IH. ring. Qed.
Lemma energy_scale f l : Energy (map m_im l) (map (fun p => map (fun x => x * f) (m_v p)) l) = f * f * Energy (map m_im l) (map m_v l).
Proof. unfold Energy. induction l as [|p l IH]; [cbn; ring|]. cbn [map combine fold_right fst snd]. rewrite IH, speed2_scale. unfold Rdiv. ring. Qed.
Lemma temperature_spec temp kb dims l : Forall (fun p => m_im p <> 0) l -> 0 < Energy (map m_im l) (map m_v l) -> 0 <= temp -> 0 < kb -> (0 < dims)%nat -> (2 <= length l)%nat ->
  exists f, final_velocities temp kb dims l = Some (map (fun p => map (fun x => x * f) (m_v p)) (filter m_added l)) /\ 0 <= f /\
    f * f * Energy (map m_im l) (map m_v l) = INR (length l / 2) * INR dims * kb * temp.
Proof.
  intros Him He Ht Hk Hd Hn. unfold final_velocities, fraction. rewrite kinetic_spec by exact Him. cbv zeta. set (ke := Energy _ _) in *. rewrite mult_INR.
  assert (N : 0 < INR (length l / 2)) by (apply lt_0_INR; apply Nat.div_str_pos; lia). assert (Dp : 0 < INR dims) by (apply lt_0_INR; exact Hd). set (n := INR (length l / 2)) in *. set (d := INR dims) in *.
  assert (P : 0 < n * d * kb) by (apply Rmult_lt_0_compat; [apply Rmult_lt_0_compat|]; assumption). destruct (Req_EM_T (n * d * kb) 0) as [C|_]; [lra|].
  exists (sqrt (temp / (ke / (n * d * kb)))). split; [reflexivity|]. split; [apply sqrt_pos|]. rewrite sqrt_sqrt.
  - field. lra.
  - apply Rmult_le_pos; [exact Ht|]. left. apply Rinv_0_lt_compat. apply Rdiv_lt_0_compat; assumption.
Qed.
Lemma filter_all l : Forall (fun p => m_added p = true) l -> filter m_added l = l.
Proof. induction 1 as [|p l Hp H IH]; [reflexivity|]. cbn. rewrite Hp, IH. reflexivity. Qed.
