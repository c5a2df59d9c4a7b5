(* C84, C86, C87: temperature of new particles, walls, circles and spheres of particles. *)
From Coq Require Import Reals Lra Lia List ZArith Bool Permutation.
From Verif Require Import Model_Place Spec_Place Proofs_Place.
Import ListNotations.
Local Open Scope R_scope.

(* ------------------------------------------------------------------------------------------ C84 temperature *)
(* an even number of movable particles, all of them added: the kinetic energy is dims/2 kB T per particle, and the velocities keep their directions *)
Theorem C84_temperature_partial temp kb dims l : Forall (fun p => m_im p <> 0) l -> Forall (fun p => m_added p = true) l -> 0 < Energy (map m_im l) (map m_v l) -> 0 <= temp -> 0 < kb -> (0 < dims)%nat ->
  (2 <= length l)%nat -> Nat.even (length l) = true ->
  exists vs f, final_velocities temp kb dims l = Some vs /\ 0 <= f /\ vs = map (fun p => map (fun x => x * f) (m_v p)) l /\
    Energy (map m_im l) vs = INR (length l) * (INR dims / 2 * kb * temp).
Proof.
  intros Him Ha He Ht Hk Hd Hn Ev. destruct (temperature_spec temp kb dims l Him He Ht Hk Hd Hn) as (f & F & Pf & E). rewrite filter_all in F by exact Ha. eexists. exists f. split; [exact F|]. split; [exact Pf|]. split; [reflexivity|].
  rewrite energy_scale, E. apply Nat.even_spec in Ev. destruct Ev as [k K]. rewrite K, Nat.mul_comm, Nat.div_mul by lia. rewrite mult_INR. change (INR 2) with 2. field.
Qed.
Print Assumptions C84_temperature_partial.
Definition pair_of (im1 im2 : R) : list made := [mkMade im1 [1; 0] true; mkMade im2 [0; 2] true].
Example C84_case : Forall (fun p => m_im p <> 0) (pair_of 1 2) /\ Forall (fun p => m_added p = true) (pair_of 1 2) /\ 0 < Energy (map m_im (pair_of 1 2)) (map m_v (pair_of 1 2)) /\ 0 <= 3 /\ 0 < 1 /\ (0 < 2)%nat /\ (2 <= length (pair_of 1 2))%nat /\ Nat.even (length (pair_of 1 2)) = true.
Proof. unfold pair_of. split; [repeat constructor; cbn; lra|]. split; [repeat constructor|]. split; [unfold Energy, Speed2; cbn; lra|]. split; [lra|]. split; [lra|]. split; [lia|]. split; [cbn; lia|reflexivity]. Qed.
(* exactly, for any number of at least 2 (added or not): the energy of all that were made is that of the largest even number of particles *)
Theorem C84_exact temp kb dims l : Forall (fun p => m_im p <> 0) l -> 0 < Energy (map m_im l) (map m_v l) -> 0 <= temp -> 0 < kb -> (0 < dims)%nat -> (2 <= length l)%nat ->
  exists f, final_velocities temp kb dims l = Some (map (fun p => map (fun x => x * f) (m_v p)) (filter m_added l)) /\
    Energy (map m_im l) (map (fun p => map (fun x => x * f) (m_v p)) l) = INR (length l / 2) * INR dims * kb * temp.
Proof. intros Him He Ht Hk Hd Hn. destruct (temperature_spec temp kb dims l Him He Ht Hk Hd Hn) as (f & F & _ & E). exists f. split; [exact F|]. rewrite energy_scale. exact E. Qed.
Print Assumptions C84_exact.
(* an odd number of particles gets less than the temperature asked for *)
Theorem C84_odd_refuted : exists temp kb dims l vs, Forall (fun p => m_im p <> 0) l /\ Forall (fun p => m_added p = true) l /\ 0 < Energy (map m_im l) (map m_v l) /\ 0 < temp /\ 0 < kb /\ length l = 3%nat /\
  final_velocities temp kb dims l = Some vs /\ Energy (map m_im l) vs = 2 / 3 * (INR (length l) * (INR dims / 2 * kb * temp)) /\ 0 < Energy (map m_im l) vs.
Proof.
  set (l := mkMade 1 [1; 0] true :: pair_of 1 2). assert (A : Forall (fun p => m_im p <> 0) l) by (repeat constructor; cbn; lra). assert (B : 0 < Energy (map m_im l) (map m_v l)) by (unfold Energy, Speed2; cbn; lra).
  assert (C : Forall (fun p => m_added p = true) l) by repeat constructor.
  destruct (temperature_spec 1 1 2 l A B) as (f & F & _ & E); [lra|lra|lia|cbn; lia|]. rewrite filter_all in F by exact C. exists 1, 1, 2%nat, l. eexists. split; [exact A|]. split; [exact C|]. split; [exact B|]. split; [lra|]. split; [lra|]. split; [reflexivity|]. split; [exact F|].
  rewrite energy_scale, E. cbn [length l pair_of Nat.div Nat.divmod fst]. cbn [INR]. split; lra.
Qed.
Print Assumptions C84_odd_refuted.
(* a single particle is stopped *)
Theorem C84_one_refuted temp kb dims im v : im <> 0 -> exists vs, final_velocities temp kb dims [mkMade im v true] = Some vs /\ forall w, In w vs -> Forall (fun x => x = 0) w.
Proof.
  intros H. unfold final_velocities, fraction. rewrite kinetic_spec by (repeat constructor; exact H). cbn [length]. change (1 / 2 * dims)%nat with 0%nat. change (INR 0) with 0. rewrite Rmult_0_l. destruct (Req_EM_T 0 0); [|contradiction].
  eexists. split; [reflexivity|]. intros w Hw. apply in_map_iff in Hw. destruct Hw as (p & <- & _). apply Forall_forall. intros x Hx. apply in_map_iff in Hx. destruct Hx as (y & <- & _). ring.
Qed.
Print Assumptions C84_one_refuted.
(* one immovable particle: no velocity is a number any more *)
Theorem C84_immovable_refuted temp kb dims l : Exists (fun p => m_im p = 0) l -> final_velocities temp kb dims l = None.
Proof. intros H. unfold final_velocities, fraction. rewrite kinetic_none by exact H. reflexivity. Qed.
Print Assumptions C84_immovable_refuted.
Example C84_immovable_case : Exists (fun p => m_im p = 0) (pair_of 1 0).
Proof. right. left. reflexivity. Qed.
(* particles that fell in an excluded region were counted: the ones added do not have the temperature *)
Theorem C84_excluded_refuted : exists temp kb dims l vs, Forall (fun p => m_im p <> 0) l /\ 0 < temp /\ 0 < kb /\ length (filter m_added l) = 2%nat /\ final_velocities temp kb dims l = Some vs /\
  Energy (map m_im (filter m_added l)) vs <> INR (length (filter m_added l)) * (INR dims / 2 * kb * temp).
Proof.
  set (l := [mkMade 1 [1; 0] true; mkMade 1 [1; 0] true; mkMade 1 [2; 0] false; mkMade 1 [0; 0] false]).
  assert (A : Forall (fun p => m_im p <> 0) l) by (repeat constructor; cbn; lra). assert (B : 0 < Energy (map m_im l) (map m_v l)) by (unfold Energy, Speed2; cbn; lra).
  destruct (temperature_spec 1 1 2 l A B) as (f & F & _ & E); [lra|lra|lia|cbn; lia|]. exists 1, 1, 2%nat, l. eexists. split; [exact A|]. split; [lra|]. split; [lra|]. split; [reflexivity|]. split; [exact F|].
  rewrite energy_scale. cbn [l filter m_added length INR] in *. change (4 / 2)%nat with 2%nat in E. cbn [INR] in E. unfold Energy, Speed2 in *. cbn in *. nra.
Qed.
Print Assumptions C84_excluded_refuted.

(* ------------------------------------------------------------------------------------------ C86 walls *)
(* default spacing, start and end at least a diameter apart: the spheres lie on the segment and within its ends, do not overlap, and neighbours are at most 2r + 2r/n apart *)
Theorem C86_wall_partial start stop r : 0 < r -> length start = length stop -> 2 * r <= Dist start stop ->
  let w := wall start stop r (2 * r) in let n := length w in
  (1 <= n)%nat /\
  (forall i p, nth_error w i = Some p -> (exists t, 0 <= t <= 1 /\ p = Along t start stop) /\ r <= Dist p start /\ r <= Dist p stop) /\
  (forall i j p q, (i < j)%nat -> nth_error w i = Some p -> nth_error w j = Some q -> 2 * r <= Dist p q /\ (j = S i -> Dist p q <= 2 * r + 2 * r / INR n)) /\
  (forall p, nth_error w 0 = Some p -> Dist p start = r).
Proof.
  intros Hr L HD w n. pose proof (wall_default (Dist start stop) r Hr HD) as (N & G1 & G2). unfold n. unfold w. rewrite wall_length. set (D := Dist start stop) in *. set (k := wall_number D r (2 * r)) in *. assert (K : 1 <= INR k) by (change 1 with (INR 1); apply le_INR; exact N).
  assert (GD : D / INR k * INR k = D) by (field; lra). set (g := D / INR k) in *.
  assert (LM : forall i, (i < k)%nat -> r <= wall_lambda D r (2 * r) i <= D - r). { intros i Hi. unfold wall_lambda. fold k g. pose proof (pos_INR i). apply Nat.le_succ_l, le_INR in Hi. rewrite S_INR in Hi. split; nra. }
  assert (DD : forall a b, Dist (Along (a / D) start stop) (Along (b / D) start stop) = Rabs (a - b)). { intros a b. rewrite Dist_along by exact L. fold D. replace (a / D - b / D) with ((a - b) * / D) by (field; lra). rewrite Rabs_mult, (Rabs_right (/ D)) by (apply Rle_ge; left; apply Rinv_0_lt_compat; lra). field. lra. }
  assert (D0 : forall a, Dist (Along (a / D) start stop) start = Rabs a) by (intros a; pose proof (DD a 0) as H; replace (0 / D) with 0 in H by (field; lra); rewrite (along_0 start stop L) in H; rewrite H; f_equal; ring).
  assert (D1 : forall a, Dist (Along (a / D) start stop) stop = Rabs (a - D)) by (intros a; pose proof (DD a D) as H; replace (D / D) with 1 in H by (field; lra); rewrite (along_1 start stop L) in H; exact H).
  split; [exact N|]. split; [|split].
  - intros i p H. destruct (wall_nth _ _ _ _ _ _ H) as [Hi ->]. fold D in Hi |- *. fold k in Hi. specialize (LM i Hi). set (lam := wall_lambda D r (2 * r) i) in *. split; [|split].
    + exists (lam / D). split; [|reflexivity]. split; [apply Rmult_le_pos; [lra|left; apply Rinv_0_lt_compat; lra]|]. apply (Rmult_le_reg_r D); [lra|]. replace (lam / D * D) with lam by (field; lra). lra.
    + rewrite D0, Rabs_right; lra.
    + rewrite D1, Rabs_left1; lra.
  - intros i j p q Hij Hp Hq. destruct (wall_nth _ _ _ _ _ _ Hp) as [Hi ->]. destruct (wall_nth _ _ _ _ _ _ Hq) as [Hj ->]. fold D. rewrite DD. unfold wall_lambda. fold k g.
    replace (r + INR i * g - (r + INR j * g)) with (- ((INR j - INR i) * g)) by ring. apply Nat.le_succ_l, le_INR in Hij. rewrite S_INR in Hij. rewrite Rabs_Ropp, Rabs_right by nra. split; [nra|]. intros ->. rewrite S_INR. replace (INR i + 1 - INR i) with 1 by ring. lra.
  - intros p H. destruct (wall_nth _ _ _ _ _ _ H) as [Hi ->]. fold D. rewrite D0. unfold wall_lambda. cbn. rewrite Rabs_right; lra.
Qed.
Print Assumptions C86_wall_partial.
Example C86_case : 0 < 1 /\ length [0; 0] = length [8; 0] /\ 2 * 1 <= Dist [0; 0] [8; 0] /\ length (wall [0; 0] [8; 0] 1 (2 * 1)) = 3%nat.
Proof.
  assert (D : Dist [0; 0] [8; 0] = 8) by (unfold Dist, Dist2; cbn; replace ((0 - 8) * (0 - 8) + ((0 - 0) * (0 - 0) + 0)) with (8 * 8) by ring; apply sqrt_square; lra).
  split; [lra|]. split; [reflexivity|]. rewrite D. split; [lra|]. rewrite wall_length, D. unfold wall_number. apply pieces_eq; [lia|]. cbn. lra.
Qed.
(* any spacing: the number of spheres, and their equal distances *)
Theorem C86_spacing start stop r s : 0 < r -> 0 < s -> length start = length stop -> 0 < Dist start stop ->
  let w := wall start stop r s in let n := length w in
  (1 <= n)%nat /\ Dist start stop <= INR n * s + 2 * r /\ (n = 1%nat \/ (INR n - 1) * s + 2 * r < Dist start stop) /\
  (forall i p q, nth_error w i = Some p -> nth_error w (S i) = Some q -> Dist p q = Dist start stop / INR n).
Proof.
  intros Hr Hs L HD w n. unfold n, w. rewrite wall_length. set (D := Dist start stop) in *. destruct (pieces_spec ((D - 2 * r) / s)) as (N & B & O). fold (wall_number D r s) in *. set (k := wall_number D r s) in *. assert (K : 1 <= INR k) by (change 1 with (INR 1); apply le_INR; exact N).
  assert (X : (D - 2 * r) / s * s = D - 2 * r) by (field; lra). split; [exact N|]. split; [nra|]. split; [destruct O as [O|O]; [left; exact O|right; nra]|].
  intros i p q Hp Hq. destruct (wall_nth _ _ _ _ _ _ Hp) as [Hi ->]. destruct (wall_nth _ _ _ _ _ _ Hq) as [Hj ->]. fold D. rewrite Dist_along by exact L. fold D. unfold wall_lambda. fold k. rewrite S_INR. set (g := D / INR k). assert (0 < g) by (apply Rdiv_lt_0_compat; lra).
  replace ((r + INR i * g) / D - (r + (INR i + 1) * g) / D) with (- (g / D)) by (field; lra). rewrite Rabs_Ropp, Rabs_right by (apply Rle_ge; apply Rmult_le_pos; [lra|left; apply Rinv_0_lt_compat; lra]). field. lra.
Qed.
Print Assumptions C86_spacing.
Example C86_spacing_case : 0 < 1 /\ 0 < 1/2 /\ length [0; 0] = length [8; 0] /\ 0 < Dist [0; 0] [8; 0].
Proof. repeat split; try lra. unfold Dist, Dist2; cbn. apply sqrt_lt_R0. lra. Qed.
Lemma dist_4 : Dist [0; 0] [4; 0] = 4.
Proof. unfold Dist, Dist2; cbn; replace ((0 - 4) * (0 - 4) + ((0 - 0) * (0 - 0) + 0)) with (4 * 4) by ring; apply sqrt_square; lra. Qed.
(* the wall may leave half of the segment open: from 0 to 4 with radius 1 there is a single sphere, around 1 *)
Theorem C86_hole_refuted : exists start stop r x, 0 < r /\ 2 * r <= Dist start stop /\ (exists t, 0 <= t <= 1 /\ x = Along t start stop) /\ 2 * r <= Dist x stop + r /\ forall p, In p (wall start stop r (2 * r)) -> 2 * r <= Dist p x.
Proof.
  exists [0; 0], [4; 0], 1, [3; 0]. split; [lra|]. rewrite dist_4. split; [lra|]. split; [exists (3 / 4); split; [lra|]; unfold Along; cbn; f_equal; [field|f_equal; ring]|]. split; [unfold Dist, Dist2; cbn; replace ((3 - 4) * (3 - 4) + ((0 - 0) * (0 - 0) + 0)) with (1 * 1) by ring; rewrite sqrt_square; lra|].
  intros p Hp. apply In_nth_error in Hp. destruct Hp as [i Hi]. destruct (wall_nth _ _ _ _ _ _ Hi) as [B ->]. rewrite dist_4 in *. assert (N : wall_number 4 1 (2 * 1) = 1%nat) by (unfold wall_number; apply pieces_eq; [lia|]; cbn; lra).
  rewrite N in B. assert (i = 0)%nat by lia. subst i. unfold wall_lambda. rewrite N. unfold Along. cbn. unfold Dist, Dist2. cbn. 
  replace (((0 + (1 + 0 * (4 / 1)) / 4 * (4 - 0) - 3) * (0 + (1 + 0 * (4 / 1)) / 4 * (4 - 0) - 3) + ((0 + (1 + 0 * (4 / 1)) / 4 * (0 - 0) - 0) * (0 + (1 + 0 * (4 / 1)) / 4 * (0 - 0) - 0) + 0))) with (2 * 2) by field. rewrite sqrt_square; lra.
Qed.
Print Assumptions C86_hole_refuted.
(* a spacing smaller than the diameter: the last sphere sticks out *)
Theorem C86_sticks_out_refuted : exists start stop r s p, 0 < r /\ 0 < s /\ 2 * r <= Dist start stop /\ In p (wall start stop r s) /\ Dist start stop < Dist p start + r.
Proof.
  exists [0; 0], [4; 0], 1, (1/2). assert (N : wall_number 4 1 (1/2) = 4%nat) by (unfold wall_number; apply pieces_eq; [lia|]; cbn; lra).
  assert (W : exists p, nth_error (wall [0; 0] [4; 0] 1 (1/2)) 3 = Some p). { destruct (nth_error (wall [0; 0] [4; 0] 1 (1/2)) 3) eqn:E; [eexists; reflexivity|]. apply nth_error_None in E. rewrite wall_length, dist_4, N in E. lia. }
  destruct W as [p Hp]. exists p. split; [lra|]. split; [lra|]. rewrite dist_4. split; [lra|]. split; [eapply nth_error_In; exact Hp|]. destruct (wall_nth _ _ _ _ _ _ Hp) as [_ ->]. rewrite dist_4. unfold wall_lambda. rewrite N. rewrite <- (along_0 [0; 0] [4; 0] eq_refl) at 2. rewrite Dist_along by reflexivity. rewrite dist_4. cbn [INR]. rewrite Rabs_right; lra.
Qed.
Print Assumptions C86_sticks_out_refuted.
(* the spacing asked for may be exceeded *)
Theorem C86_spacing_refuted : exists start stop r s p q, 0 < r /\ 0 < s /\ 2 * r <= Dist start stop /\ nth_error (wall start stop r s) 0 = Some p /\ nth_error (wall start stop r s) 1 = Some q /\ s < Dist p q.
Proof.
  exists [0; 0], [4; 0], 1, (3/2). assert (N : wall_number 4 1 (3/2) = 2%nat) by (unfold wall_number; apply pieces_eq; [lia|]; cbn; lra).
  assert (W : forall i, (i < 2)%nat -> exists p, nth_error (wall [0; 0] [4; 0] 1 (3/2)) i = Some p). { intros i Hi. destruct (nth_error (wall [0; 0] [4; 0] 1 (3/2)) i) eqn:E; [eexists; reflexivity|]. apply nth_error_None in E. rewrite wall_length, dist_4, N in E. lia. }
  destruct (W 0%nat) as [p Hp]; [lia|]. destruct (W 1%nat) as [q Hq]; [lia|]. exists p, q. rewrite dist_4. repeat split; try lra; auto.
  destruct (C86_spacing [0; 0] [4; 0] 1 (3/2)) as (_ & _ & _ & S); [lra|lra|reflexivity|rewrite dist_4; lra|]. rewrite (S 0%nat p q Hp Hq), wall_length, dist_4, N. cbn. lra.
Qed.
Print Assumptions C86_spacing_refuted.

(* ------------------------------------------------------------------------------------------ C87 circles and spheres *)
(* every particle lies exactly on the sphere, in any number of dimensions from 2 on *)
Theorem C87_on_the_sphere center scale sigma r p : (2 <= length center)%nat -> 0 <= r -> In p (circle center scale sigma r) -> length p = length center /\ Dist center p = r.
Proof.
  intros L Hr H. unfold circle in H. apply in_map_iff in H. destruct H as (q & <- & Hq). destruct (sphere_norm _ _ _ _ _ Hq) as [E LQ]. assert (LL : length q = length center) by lia.
  split; [apply add_length; lia|]. unfold Dist. rewrite dist2_center by exact LL. rewrite E. apply sqrt_square. exact Hr.
Qed.
Print Assumptions C87_on_the_sphere.
(* it has no large holes: every point of the sphere is within 2 (dims - 1) sigma/scale of a particle *)
Theorem C87_covers center scale sigma r x : (2 <= length center)%nat -> 0 < scale -> 0 < sigma -> 0 <= r -> length x = length center -> Dist center x = r ->
  exists p, In p (circle center scale sigma r) /\ Dist x p <= INR (length center - 1) * (2 * sigma / scale).
Proof.
  intros L Hs Hg Hr Lx D. assert (LS : length (sub x center) = (length center - 2 + 2)%nat) by (unfold sub; rewrite map_length, combine_length; lia).
  assert (N : norm2 (sub x center) = r * r). { rewrite dist2_sub, Dist2_sym. unfold Dist in D. rewrite <- D. symmetry. apply sqrt_sqrt. apply Dist2_nonneg. }
  destruct (sphere_covers (length center - 2) scale sigma Hs Hg r (sub x center) Hr LS N) as (p & Hp & B). destruct (sphere_norm _ _ _ _ _ Hp) as [_ LP]. exists (add center p). split; [apply in_map; exact Hp|].
  unfold Dist. rewrite dist2_add by lia. replace (length center - 1)%nat with (length center - 2 + 1)%nat by lia. exact B.
Qed.
Print Assumptions C87_covers.
Example C87_case : (2 <= length [1; 2; 3])%nat /\ 0 < 2 /\ 0 < 1/20 /\ 0 <= 1 /\ length [2; 2; 3] = length [1; 2; 3] /\ Dist [1; 2; 3] [2; 2; 3] = 1 /\ exists p, In p (circle [1; 2; 3] 2 (1/20) 1).
Proof.
  repeat split; try lra; try (cbn; lia); [unfold Dist, Dist2; cbn; replace ((1 - 2) * (1 - 2) + ((2 - 2) * (2 - 2) + ((3 - 3) * (3 - 3) + 0))) with (1 * 1) by ring; apply sqrt_square; lra|].
  destruct (sphere_nonempty 1 2 (1/20) 1) as [p Hp]. exists (add [1; 2; 3] p). apply in_map. exact Hp.
Qed.
(* two dimensions: evenly placed; neighbours (the last and the first too) are at most 2 sigma/scale apart, so that from scale 1 on they touch or overlap *)
Theorem C87_ring cx cy scale sigma r : 0 < scale -> 0 < sigma -> 0 <= r -> exists n, (1 <= n)%nat /\ PI * r * scale / sigma <= INR n /\ (n = 1%nat \/ INR n < PI * r * scale / sigma + 1) /\
  circle [cx; cy] scale sigma r = map (fun k => [cx + r * cos (INR k * (2 * PI / INR n)); cy + r * sin (INR k * (2 * PI / INR n))]) (seq 0 n) /\
  (forall k p q, nth_error (circle [cx; cy] scale sigma r) k = Some p -> nth_error (circle [cx; cy] scale sigma r) (S k mod n) = Some q -> Dist p q <= 2 * sigma / scale).
Proof.
  intros Hs Hg Hr. exists (circle_number scale sigma r). destruct (pieces_spec (1 / 2 * scale * 2 * PI * r / sigma)) as (N & B & O). fold (circle_number scale sigma r) in N, B, O.
  assert (X : 1 / 2 * scale * 2 * PI * r / sigma = PI * r * scale / sigma) by (field; lra). rewrite X in B, O. split; [exact N|]. split; [exact B|]. split; [exact O|].
  assert (E : circle [cx; cy] scale sigma r = map (fun k => [cx + r * cos (INR k * (2 * PI / INR (circle_number scale sigma r))); cy + r * sin (INR k * (2 * PI / INR (circle_number scale sigma r)))]) (seq 0 (circle_number scale sigma r))).
  { unfold circle. cbn [length Nat.sub sphere]. rewrite angles_whole, !map_map. apply map_ext. intros k. reflexivity. }
  split; [exact E|]. rewrite E. set (n := circle_number scale sigma r) in *. intros k p q Hp Hq.
  assert (G : forall i p0, nth_error (map (fun k => [cx + r * cos (INR k * (2 * PI / INR n)); cy + r * sin (INR k * (2 * PI / INR n))]) (seq 0 n)) i = Some p0 -> (i < n)%nat /\ p0 = [cx + r * cos (INR i * (2 * PI / INR n)); cy + r * sin (INR i * (2 * PI / INR n))]).
  { intros i p0 H. rewrite nth_error_map in H. destruct (nth_error (seq 0 n) i) as [j|] eqn:J; [|discriminate]. assert (Li : (i < n)%nat) by (rewrite <- (seq_length n 0); apply nth_error_Some; congruence). split; [exact Li|].
    rewrite (nth_error_nth' (seq 0 n) 0%nat) in J by (rewrite seq_length; exact Li). rewrite seq_nth in J by exact Li. cbn in J. assert (j = i) by congruence. subst j. cbn in H. congruence. }
  destruct (G _ _ Hp) as [Lk ->]. destruct (G _ _ Hq) as [Lq ->]. clear G Hp Hq. assert (Kn : 1 <= INR n) by (change 1 with (INR 1); apply le_INR; exact N).
  set (d := 2 * PI / INR n) in *. assert (F : INR n * d = 2 * PI) by (unfold d; field; lra).
  assert (T : cos (INR (S k mod n) * d) = cos (INR (S k) * d) /\ sin (INR (S k mod n) * d) = sin (INR (S k) * d)).
  { destruct (Nat.eq_dec (S k) n) as [Q|Q]; [|rewrite Nat.mod_small by lia; auto]. rewrite Q, Nat.mod_same by lia. rewrite F. change (INR 0) with 0. rewrite Rmult_0_l, cos_2PI, sin_2PI, cos_0, sin_0. auto. }
  destruct T as [-> ->]. pose proof (chord (INR k * d) (INR (S k) * d)) as C. pose proof (step_size scale sigma r Hs Hg Hr) as SS. unfold dtheta in SS. fold n d in SS. rewrite S_INR in *.
  assert (W : 0 < 2 * sigma / scale) by (apply Rdiv_lt_0_compat; lra). assert (Dp : 0 <= d) by (unfold d; pose proof PI_RGT_0; apply Rmult_le_pos; [lra|left; apply Rinv_0_lt_compat; lra]).
  unfold Dist. apply le_sqrt; [lra|]. unfold Dist2. cbn. set (c1 := cos (INR k * d)) in *. set (c2 := cos ((INR k + 1) * d)) in *. set (s1 := sin (INR k * d)) in *. set (s2 := sin ((INR k + 1) * d)) in *.
  replace ((cx + r * c1 - (cx + r * c2)) * (cx + r * c1 - (cx + r * c2)) + ((cy + r * s1 - (cy + r * s2)) * (cy + r * s1 - (cy + r * s2)) + 0)) with (r * r * ((c1 - c2) * (c1 - c2) + (s1 - s2) * (s1 - s2))) by ring.
  replace ((INR k * d - (INR k + 1) * d) * (INR k * d - (INR k + 1) * d)) with (d * d) in C by ring. assert (0 <= r * d) by nra.
  apply Rle_trans with (r * r * (d * d)); [apply Rmult_le_compat_l; [nra|exact C]|]. replace (r * r * (d * d)) with (r * d * (r * d)) by ring. nra.
Qed.
Print Assumptions C87_ring.
(* several processors: if every point is in the bounds of exactly one of them, all particles of the sphere are placed, each once *)
Theorem C87_processors center scale sigma r (inside : list (list R -> bool)) : (forall p, length (filter (fun f => f p) inside) = 1%nat) ->
  Permutation (flat_map (fun f => placed f center scale sigma r) inside) (circle center scale sigma r).
Proof. intros H. apply filters_perm. intros p _. apply H. Qed.
Print Assumptions C87_processors.
Example C87_processors_case : forall p : list R, length (filter (fun f => f p) [(fun x => match x with a :: _ => if Rlt_dec a 0 then true else false | [] => true end); (fun x => match x with a :: _ => if Rlt_dec a 0 then false else true | [] => false end)]) = 1%nat.
Proof. intros [|a p]; [reflexivity|]. cbn. destruct (Rlt_dec a 0); reflexivity. Qed.
