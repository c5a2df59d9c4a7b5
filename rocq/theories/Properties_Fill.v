(* C81-C83, C85: regions, filling regions to a density or with a number of particles, templates. *)
From Verif Require Import Lib Model_Geometry Proofs_Geometry Model_Fill Spec_Fill Proofs_Fill.
Local Open Scope Q_scope.

(* ------------------------------------------------------------------------------------------ C81 regions *)
(* a picked position lies in the region (rectangles with min < max, balls of non-zero radius) *)
Theorem C81_picked_in_region_partial fuel rnd g k x k' : Draws rnd -> Proper g -> pick_position fuel rnd g k = Some (x, k') -> In_region g x.
Proof. exact (pick_in fuel rnd g k x k'). Qed.
Print Assumptions C81_picked_in_region_partial.
Definition half : stream := fun _ => 1 # 2.
Lemma half_draws : Draws half. Proof. intros k. unfold half. lra. Qed.
Example C81_picked_case : Draws half /\ Proper (Ball [1; 2] 3) /\ pick_position 5 half (Ball [1; 2] 3) 0 = Some ([(1 # 2) * (1 + 3 - (1 - 3)) + (1 - 3); (1 # 2) * (2 + 3 - (2 - 3)) + (2 - 3)], 2%nat) /\ Proper (Rect [(0, 2); (1, 4)]) /\ pick_position 5 half (Rect [(0, 2); (1, 4)]) 0 <> None.
Proof. split; [exact half_draws|]. split; [cbn; lra|]. split; [|split; [repeat constructor; cbn; lra|discriminate]]. vm_compute. reflexivity. Qed.
(* a rectangle is sampled evenly: each coordinate is the affine image of its own random number *)
Theorem C81_rectangle_evenly fuel rnd b k : exists x, pick_position fuel rnd (Rect b) k = Some (x, (k + length b)%nat) /\ length x = length b /\
  forall i mn mx, nth_error b i = Some (mn, mx) -> nth_error x i = Some (rnd (k + i)%nat * (mx - mn) + mn).
Proof.
  exists (fst (random_point rnd b k)). destruct (random_point_len rnd b k) as [A B]. split; [|split; [exact A|]].
  - cbn [pick_position]. destruct (random_point rnd b k) as [x k']. cbn [fst snd] in *. congruence.
  - intros i mn mx H. exact (random_point_nth rnd b k i (mn, mx) H).
Qed.
Print Assumptions C81_rectangle_evenly.
(* "contains" decides membership: rectangles half open, balls open *)
Theorem C81_contains g x : length x = Dim g -> (region_contains g x = true <-> In_region g x).
Proof. intros H. apply region_contains_spec. rewrite H. destruct g; cbn; rewrite ?map_length; reflexivity. Qed.
Print Assumptions C81_contains.
Example C81_contains_case : length [1; 2] = Dim (Ball [0; 2] 2) /\ region_contains (Ball [0; 2] 2) [1; 2] = true /\ region_contains (Ball [0; 2] 2) [2; 2] = false.
Proof. vm_compute. auto. Qed.
(* a ball lies in its bounding box, and touches each side of it *)
Theorem C81_bounding_box c r : 0 < r -> (forall x, In_ball c r x -> In_rect (bounding_box (Ball c r)) x) /\
  forall d b, nth_error (bounding_box (Ball c r)) d = Some b -> exists cd, nth_error c d = Some cd /\ fst b == cd - r /\ snd b == cd + r.
Proof.
  intros H. split; [intros x; apply ball_in_box; exact H|]. intros d b Hb. cbn [bounding_box] in Hb. rewrite nth_error_map in Hb. destruct (nth_error c d) as [cd|]; [|discriminate].
  cbn in Hb. exists cd. assert (b = (cd - r, cd + r)) by congruence. subst b. cbn. repeat split; reflexivity.
Qed.
Print Assumptions C81_bounding_box.
Example C81_bounding_case : 0 < 3 /\ In_ball [1; 2] 3 [2; 4] /\ bounding_box (Ball [1; 2] 3) <> [].
Proof. split; [lra|]. split; [|discriminate]. split; [reflexivity|]. vm_compute. reflexivity. Qed.
(* picking ends as soon as one of the points drawn in the bounding box falls in the ball; a rectangle needs one draw *)
Theorem C81_picking_ends rnd c r n fuel k : ~ r == 0 -> (n < fuel)%nat ->
  (forall x, length x = length c -> (forall d cd, nth_error c d = Some cd -> exists xd, nth_error x d = Some xd /\ xd == rnd (k + n * length c + d)%nat * (cd + r - (cd - r)) + (cd - r)) -> In_ball c r x) ->
  exists x k', pick_position fuel rnd (Ball c r) k = Some (x, k') /\ In_ball c r x.
Proof.
  intros Hr Hn H. cbn [pick_position]. destruct (Qeq_bool r 0) eqn:E; [apply Qeq_bool_iff in E; contradiction|].
  assert (P : pick_ball fuel rnd c r k <> None).
  { apply (pick_ball_ends rnd c r n fuel k Hn). apply H.
    - destruct (random_point_len rnd (bounding_box (Ball c r)) (k + n * length c)) as [A _]. rewrite A. cbn. apply map_length.
    - intros d cd Hd. eexists. split; [apply (random_point_nth rnd (bounding_box (Ball c r)) (k + n * length c) d (cd - r, cd + r)); cbn [bounding_box]; rewrite nth_error_map, Hd; reflexivity|]. cbn [fst snd]. reflexivity. }
  destruct (pick_ball fuel rnd c r k) as [[x k']|] eqn:F; [|contradiction]. exists x, k'. split; [reflexivity|]. exact (pick_ball_in fuel rnd c r k x k' F).
Qed.
Print Assumptions C81_picking_ends.
Example C81_picking_case : ~ 2 == 0 /\ (0 < 1)%nat /\
  (forall x, length x = length [1] -> (forall d cd, nth_error [1] d = Some cd -> exists xd, nth_error x d = Some xd /\ xd == half (0 + 0 * length [1] + d)%nat * (cd + 2 - (cd - 2)) + (cd - 2)) -> In_ball [1] 2 x).
Proof.
  split; [lra|]. split; [lia|]. intros [|a [|? ?]] L H; try discriminate. destruct (H 0%nat 1 eq_refl) as (xd & E & X). cbn in E. assert (xd = a) by congruence. subst xd. split; [reflexivity|]. unfold Dist2, half in *. cbn in *. nra.
Qed.
(* a ball of radius zero: the origin is picked, not the centre *)
Theorem C81_point_refuted : exists fuel rnd c, Draws rnd /\ exists x k', pick_position fuel rnd (Ball c 0) 0 = Some (x, k') /\ 1 <= Dist2 x c.
Proof. exists 1%nat, half, [1; 0]. split; [exact half_draws|]. exists [0; 0], 0%nat. split; [reflexivity|]. vm_compute. discriminate. Qed.
Print Assumptions C81_point_refuted.

(* ------------------------------------------------------------------------------------------ C82 filling to a density *)
(* each particle added lies in the region and outside of the excluded regions; ids are consecutive; each has its fixer; its properties are those of a made particle *)
Theorem C82_particles_sound g0 rnd j rho phi Vol fuel s : Draws rnd -> Proper (j_region j) -> (forall g, In g (j_excluded j) -> Dim g = Dim (j_region j)) ->
  fill_density fuel rnd j rho phi Vol (start_state g0) = Some s ->
  (forall a, In a (f_added s) -> In_region (j_region j) (a_x a) /\ Outside (j_excluded j) (a_x a)) /\
  (forall i a, nth_error (f_added s) i = Some a -> a_id a = (g0 + Z.of_nat i)%Z) /\
  f_fix s = map (fun a => mkFixer (a_id a) (a_v a)) (f_added s) /\
  (forall a, In a (f_added s) -> exists i, a_sg a = m_sg (j_make j i) /\ a_im a = m_im (j_make j i) /\ a_type a = m_type (j_make j i) /\
     (~ m_im (j_make j i) == 0 -> a_v a = m_v (j_make j i)) /\ (m_im (j_make j i) == 0 -> Forall (fun v => v == 0) (a_v a) /\ length (a_v a) = length (m_v (j_make j i)))).
Proof.
  intros D P Dm H. destruct (fill_sound g0 rnd j rho phi Vol fuel D P _ _ (start_sound g0 j) H) as ((S1 & S2 & S3 & S4 & _) & _ & _). repeat split; auto.
  - apply S4; assumption.
  - destruct (S4 a H0) as (A & B & _). apply excluded_spec; [|exact B]. intros g Hg. rewrite (Dm g Hg). symmetry. apply in_region_length. exact A.
  - intros a Ha. destruct (S4 a Ha) as (_ & _ & i & _ & E1 & E2 & E3 & E4). exists i. split; [exact E1|]. split; [exact E2|]. split; [exact E3|]. rewrite E4. unfold velocity. destruct (Qeq_bool (m_im (j_make j i)) 0) eqn:Z; split; intros N; try reflexivity.
    + exfalso. apply N, Qeq_bool_iff, Z.
    + split; [|apply map_length]. apply Forall_forall; intros v Hv; apply in_map_iff in Hv; destruct Hv as (? & <- & _); reflexivity.
    + apply Qeq_bool_iff in N. congruence.
Qed.
Print Assumptions C82_particles_sound.
(* without excluded regions: the volume fraction is reached, and not before the last particle *)
Theorem C82_volume_fraction g0 rnd j phi Vol fuel s : Draws rnd -> Proper (j_region j) -> j_excluded j = [] -> 0 < Vol ->
  fill_density fuel rnd j false phi Vol (start_state g0) = Some s ->
  phi <= Volume (j_vol j) (f_added s) / Vol /\ (f_added s <> [] -> Volume (j_vol j) (removelast (f_added s)) / Vol < phi).
Proof.
  intros D P N HV H. destruct (fill_sound g0 rnd j false phi Vol fuel D P _ _ (start_sound g0 j) H) as (S & K & O).
  assert (Q1 : forall a b, b * Vol <= a -> b <= a / Vol) by (intros a b L; apply Qle_shift_div_l; lra).
  assert (Q2 : forall a b, a < b * Vol -> a / Vol < b) by (intros a b L; apply Qlt_shift_div_r; lra).
  destruct S as (_ & _ & _ & _ & _ & S6). destruct (S6 N) as (_ & V & _). apply keep_false in K; [|exact HV]. split; [apply Q1; rewrite <- V; exact K|].
  intros NE. destruct O as [-> |(s0 & S0 & K0 & E)]; [contradiction NE; reflexivity|]. destruct S0 as (_ & _ & _ & _ & _ & S06). destruct (S06 N) as (_ & V0 & _).
  apply keep_true in K0; [|exact HV]. destruct (step_added rnd j s0 s N E) as [a ->]. rewrite removelast_last. apply Q2. rewrite <- V0. exact K0.
Qed.
Print Assumptions C82_volume_fraction.
(* the same for a number density *)
Theorem C82_number_density g0 rnd j phi Vol fuel s : Draws rnd -> Proper (j_region j) -> j_excluded j = [] -> 0 < Vol -> 0 <= phi ->
  fill_density fuel rnd j true phi Vol (start_state g0) = Some s ->
  phi * Vol <= inject_Z (Z.of_nat (length (f_added s))) < phi * Vol + 1.
Proof.
  intros D P N HV Hp H. destruct (fill_sound g0 rnd j true phi Vol fuel D P _ _ (start_sound g0 j) H) as (S & K & O).
  destruct S as (_ & _ & _ & _ & _ & S6). destruct (S6 N) as (L & _). apply keep_false in K; [|exact HV]. rewrite L. split; [exact K|].
  destruct O as [-> |(s0 & S0 & K0 & E)]; [change (inject_Z (Z.of_nat (f_n (start_state g0)))) with 0; assert (0 <= phi * Vol) by (apply Qmult_le_0_compat; lra); lra|]. destruct S0 as (_ & _ & _ & _ & _ & S06). destruct (S06 N) as (L0 & _). apply keep_true in K0; [|exact HV].
  destruct (step_added rnd j s0 s N E) as [a Ea]. rewrite <- L, Ea, app_length. cbn [length]. rewrite Nat.add_1_r, Nat2Z.inj_succ, L0. unfold Z.succ. rewrite inject_Z_plus. change (inject_Z 1) with 1. lra.
Qed.
Print Assumptions C82_number_density.
(* with excluded regions there are never more particles than asked for *)
Theorem C82_never_more g0 rnd j phi Vol fuel s : Draws rnd -> Proper (j_region j) -> 0 < Vol -> 0 <= phi ->
  fill_density fuel rnd j true phi Vol (start_state g0) = Some s -> inject_Z (Z.of_nat (length (f_added s))) < phi * Vol + 1.
Proof.
  intros D P HV Hp H. destruct (fill_sound g0 rnd j true phi Vol fuel D P _ _ (start_sound g0 j) H) as (S & K & O).
  destruct O as [-> |(s0 & S0 & K0 & E)]; [change (inject_Z (Z.of_nat (length (f_added (start_state g0))))) with 0; assert (0 <= phi * Vol) by (apply Qmult_le_0_compat; lra); lra|]. destruct (step_sound g0 rnd j s0 s D P S0 E) as (_ & N1 & _). destruct S as (_ & _ & _ & _ & S5 & _). apply keep_true in K0; [|exact HV].
  apply Qle_lt_trans with (inject_Z (Z.of_nat (f_n s))); [rewrite <- Zle_Qle; lia|]. rewrite N1, Nat2Z.inj_succ. unfold Z.succ. rewrite inject_Z_plus. change (inject_Z 1) with 1. lra.
Qed.
Print Assumptions C82_never_more.
Definition unit_job (ex : list region) (v : Q) : job := mkJob 1 (Rect [(0, 2); (0, 2)]) ex (fun n => mkMade 1 1 0 [inject_Z (Z.of_nat n); 0]) (fun _ => v).
Example C82_case : Draws half /\ Proper (j_region (unit_job [] 1)) /\ j_excluded (unit_job [] 1) = [] /\ 0 < 4 /\
  (exists s, fill_density 10 half (unit_job [] 1) false (3 # 5) 4 (start_state 7) = Some s /\ length (f_added s) = 3%nat /\ map a_id (f_added s) = [7; 8; 9]%Z) /\
  (exists s, fill_density 10 half (unit_job [Rect [(0, 1); (0, 1)]] 1) true (3 # 5) 4 (start_state 7) = Some s /\ length (f_added s) = 3%nat).
Proof. split; [exact half_draws|]. split; [repeat constructor; cbn; lra|]. split; [reflexivity|]. split; [lra|]. split; eexists; (split; [vm_compute; reflexivity|]); [split|]; reflexivity. Qed.
(* filling ends: number densities always, volume fractions if every sphere has at least some positive volume (and positions can be picked) *)
Theorem C82_filling_ends_partial g0 rnd j (rho : bool) phi Vol v0 fuel : 0 < Vol -> 0 < v0 -> (forall i, v0 <= j_vol j (m_sg (j_make j i))) -> (forall k, pick_position (j_fuel j) rnd (j_region j) k <> None) ->
  phi * Vol <= (if rho then 1 else v0) * inject_Z (Z.of_nat fuel) -> exists s, fill_density fuel rnd j rho phi Vol (start_state g0) = Some s.
Proof.
  intros HV H0 Hv Hp B. destruct (fill_density fuel rnd j rho phi Vol (start_state g0)) as [s|] eqn:E; [exists s; reflexivity|]. exfalso.
  apply (fill_ends rnd j rho phi Vol v0 HV H0 Hv Hp fuel (start_state g0)); [|exact E]. cbn [start_state f_n f_vol]. change (inject_Z (Z.of_nat 0)) with 0. destruct rho; lra.
Qed.
Print Assumptions C82_filling_ends_partial.
Example C82_ends_case : 0 < 4 /\ 0 < 1 /\ (forall i, 1 <= j_vol (unit_job [] 1) (m_sg (j_make (unit_job [] 1) i))) /\ (forall k, pick_position (j_fuel (unit_job [] 1)) half (j_region (unit_job [] 1)) k <> None) /\ (3 # 5) * 4 <= 1 * inject_Z (Z.of_nat 3).
Proof. split; [lra|]. split; [lra|]. split; [intros i; cbn; lra|]. split; [intros k; cbn; discriminate|]. vm_compute. discriminate. Qed.
(* spheres of radius zero (volume zero): a volume fraction is never reached *)
Theorem C82_points_refuted : exists rnd j phi Vol, Draws rnd /\ Proper (j_region j) /\ 0 < phi /\ 0 < Vol /\ (forall k, pick_position (j_fuel j) rnd (j_region j) k <> None) /\
  forall g0 fuel, fill_density fuel rnd j false phi Vol (start_state g0) = None.
Proof.
  exists half, (unit_job [] 0), (1 # 2), 4. split; [exact half_draws|]. split; [repeat constructor; cbn; lra|]. split; [lra|]. split; [lra|]. split; [intros k; cbn; discriminate|].
  intros g0 fuel. apply fill_never; try lra; intros; cbn; reflexivity.
Qed.
Print Assumptions C82_points_refuted.
(* with an excluded region the density asked for may not be reached in the rest of the region: here nothing is added at all *)
Theorem C82_excluded_refuted : exists rnd j phi Vol s, Draws rnd /\ Proper (j_region j) /\ 0 < phi /\ 0 < Vol /\ In_region (j_region j) [0; 0] /\ Outside (j_excluded j) [0; 0] /\
  fill_density 10 rnd j true phi Vol (start_state 0) = Some s /\ f_added s = [].
Proof.
  exists half, (unit_job [Rect [(1 # 2, 2); (0, 2)]] 1), (1 # 2), 4. eexists. split; [exact half_draws|]. split; [repeat constructor; cbn; lra|]. split; [lra|]. split; [lra|].
  split; [repeat constructor; cbn; lra|]. split; [intros g [<- | []] F; inversion F; subst; cbn in *; lra|]. split; [vm_compute; reflexivity|]. reflexivity.
Qed.
Print Assumptions C82_excluded_refuted.
(* several processors, rectangles: what a processor adds lies in its own bounds and in the region; a processor that does not meet the region adds nothing *)
Theorem C82_processors_rectangle g0 rnd j pb b c rho phi fuel s : Draws rnd -> pb <> [] -> intersection pb b = Some c -> j_region j = Rect c ->
  local_region pb (Rect b) = Some (Rect c) /\ local_volume (fun _ => 0) pb (Rect b) = Some (vol c) /\
  (fill_density fuel rnd j rho phi (vol c) (start_state g0) = Some s ->
   (Proper (Rect c) -> forall a, In a (f_added s) -> In_rect pb (a_x a) /\ In_rect b (a_x a)) /\ (vol c == 0 -> f_added s = [])).
Proof.
  intros D NE I R. split; [cbn; rewrite I; reflexivity|]. split; [cbn; rewrite I; reflexivity|]. intros H. split.
  - intros P a Ha. rewrite <- R in P. destruct (fill_sound g0 rnd j rho phi (vol c) fuel D P _ _ (start_sound g0 j) H) as ((_ & _ & _ & S4 & _) & _ & _).
    destruct (S4 a Ha) as (A & _). rewrite R in A. cbn [In_region] in A. assert (L : length (a_x a) = length c) by (apply (in_region_length (Rect c)); exact A).
    destruct (intersection_spec pb b c NE I) as [LC W]. assert (LB : length pb = length b). { destruct (Nat.eq_dec (length pb) (length b)) as [E|E]; [exact E|]. apply intersection_defined in E. congruence. }
    assert (C : contains c (a_x a) = true) by (apply (contains_spec c (a_x a) L); exact A). apply W in C; [|lia]. destruct C as [C1 C2].
    split; [apply (contains_spec pb); [lia|exact C1]|apply (contains_spec b); [lia|exact C2]].
  - intros V. destruct fuel; cbn [fill_density] in H; unfold keep_adding in H; destruct (Qeq_bool (vol c) 0) eqn:E; try (assert (start_state g0 = s) by congruence; subst s; reflexivity); exfalso; apply Qeq_bool_iff in V; congruence.
Qed.
Print Assumptions C82_processors_rectangle.
Example C82_processors_case : Draws half /\ intersection [(0, 1); (0, 2)] [(0, 2); (0, 2)] = Some [(0, 1); (0, 2)] /\ Proper (Rect [(0, 1); (0, 2)]) /\
  intersection [(0, 1); (0, 2)] [(1, 2); (0, 2)] = Some [(0, 0); (0, 0)] /\ vol [(0, 0); (0, 0)] == 0.
Proof. split; [exact half_draws|]. split; [reflexivity|]. split; [repeat constructor; cbn; lra|]. split; reflexivity. Qed.
(* balls: each processor fills the whole ball, whatever its bounds *)
Theorem C82_processors_ball_refuted : exists c r v phi Vol rnd j s pb1 pb2 a, 0 < phi /\ 0 < Vol /\ Draws rnd /\ pb1 = [(0, 1)] /\ pb2 = [(1, 2)] /\
  local_region pb1 (Ball c r) = Some (j_region j) /\ local_region pb2 (Ball c r) = Some (j_region j) /\ local_volume v pb1 (Ball c r) = Some Vol /\ local_volume v pb2 (Ball c r) = Some Vol /\
  fill_density 10 rnd j true phi Vol (start_state 0) = Some s /\ In a (f_added s) /\ ~ In_rect pb2 (a_x a).
Proof.
  exists [1], 1, (fun r => 2 * r), 1, 2, (fun _ => 1 # 4), (mkJob 1 (Ball [1] 1) [] (fun _ => mkMade (1 # 10) 1 0 [0]) (fun r => 2 * r)). eexists. exists [(0, 1)], [(1, 2)]. eexists.
  split; [lra|]. split; [lra|]. split; [intros k; lra|]. split; [reflexivity|]. split; [reflexivity|]. split; [reflexivity|]. split; [reflexivity|]. split; [reflexivity|]. split; [reflexivity|].
  split; [vm_compute; reflexivity|]. split; [left; reflexivity|]. cbn [a_x]. intros F. inversion F; subst. cbn in *. lra.
Qed.
Print Assumptions C82_processors_ball_refuted.

(* ------------------------------------------------------------------------------------------ C83 filling by number *)
(* one template: exactly as many particles as asked for, all from the template, in the region, with consecutive ids and each with its fixer *)
Theorem C83_one_template_partial g0 rnd j mk num v0 s v : Draws rnd -> Proper (j_region j) -> fill_number rnd j [(mk, num)] v0 (start_state g0) = Some (s, v) ->
  length (f_added s) = num /\ length (f_fix s) = num /\
  (forall i a, nth_error (f_added s) i = Some a -> a_id a = (g0 + Z.of_nat i)%Z /\ In_region (j_region j) (a_x a) /\ a_sg a = m_sg (mk i) /\ a_im a = m_im (mk i) /\ a_type a = m_type (mk i)) /\
  (forall i f, nth_error (f_fix s) i = Some f -> fx_id f = (g0 + Z.of_nat i)%Z /\ (~ m_im (mk i) == 0 -> fx_v f = m_v (mk i)) /\ (m_im (mk i) == 0 -> Forall (fun w => w == 0) (fx_v f))).
Proof.
  intros D P. cbn [fill_number]. cbv zeta. set (j' := mkJob _ _ _ mk _). cbn [start_state f_n]. rewrite Nat.sub_0_r. destruct (number_loop num rnd j' v0 (start_state g0)) as [[s1 v1]|] eqn:E; [|discriminate]. intros H. assert (s1 = s) by congruence. subst s1.
  destruct (number_loop_spec g0 rnd j' num D P _ _ _ _ (start_nsound g0 _) E) as ((A & A' & B & C & C' & I) & F & la & lf & LA & LF & LL & M & V). cbn [start_state f_n f_added f_fix app] in *. subst la lf.
  split; [lia|]. split; [lia|]. split.
  - intros i a Hn. destruct (M i a Hn) as (E1 & E2 & E3). repeat split; auto; try (apply C; exact Hn). apply I. eapply nth_error_In. exact Hn.
  - intros i f Hn. split; [apply C'; exact Hn|]. rewrite (V i f Hn). unfold velocity. change (j_make j' (0 + i)) with (mk i). destruct (Qeq_bool (m_im (mk i)) 0) eqn:Z; split; intros Q0; try reflexivity.
    + apply Qeq_bool_iff in Z. contradiction.
    + apply Forall_forall. intros w Hw. apply in_map_iff in Hw. destruct Hw as (? & <- & _). reflexivity.
    + apply Qeq_bool_iff in Q0. congruence.
Qed.
Print Assumptions C83_one_template_partial.
Example C83_case : Draws half /\ Proper (j_region (unit_job [] 1)) /\ exists s v, fill_number half (unit_job [] 1) [(j_make (unit_job [] 1), 3%nat)] [0; 0] (start_state 5) = Some (s, v) /\ map a_id (f_added s) = [5; 6; 7]%Z.
Proof. split; [exact half_draws|]. split; [repeat constructor; cbn; lra|]. eexists. eexists. split; [vm_compute; reflexivity|]. reflexivity. Qed.
(* several templates: the total is the largest of the numbers asked for (not their sum) *)
Theorem C83_total g0 rnd j wanted v0 s v : Draws rnd -> Proper (j_region j) -> fill_number rnd j wanted v0 (start_state g0) = Some (s, v) ->
  length (f_added s) = fold_right Nat.max 0%nat (map snd wanted) /\ (forall i a, nth_error (f_added s) i = Some a -> a_id a = (g0 + Z.of_nat i)%Z /\ In_region (j_region j) (a_x a)).
Proof.
  intros D P H. destruct (fill_number_total rnd j D P g0 wanted v0 _ _ _ (start_nsound g0 _) H) as ((A & A' & B & C & C' & I) & F). rewrite fold_max in F. cbn [start_state f_n] in F.
  split; [rewrite A, F; reflexivity|]. intros i a Hn. split; [exact (C i a Hn)|]. apply I. eapply nth_error_In. exact Hn.
Qed.
Print Assumptions C83_total.
(* two templates, 2 and 3 particles: 2 of the first and 1 of the second are added *)
Theorem C83_templates_refuted : exists rnd j mk1 mk2 s v, Draws rnd /\ Proper (j_region j) /\ (forall n, m_type (mk1 n) = 0%Z /\ m_type (mk2 n) = 1%Z) /\
  fill_number rnd j [(mk1, 2%nat); (mk2, 3%nat)] [0; 0] (start_state 0) = Some (s, v) /\ map a_type (f_added s) = [0; 0; 1]%Z.
Proof.
  exists half, (unit_job [] 1), (fun _ => mkMade 1 1 0 [0; 0]), (fun _ => mkMade 1 1 1 [0; 0]). eexists. eexists. split; [exact half_draws|]. split; [repeat constructor; cbn; lra|]. split; [auto|]. split; [vm_compute; reflexivity|]. reflexivity.
Qed.
Print Assumptions C83_templates_refuted.
(* "Number: 5" without naming templates: nothing is added *)
Theorem C83_no_template_refuted rnd j v0 g0 : exists s, fill_number rnd j [] v0 (start_state g0) = Some (s, v0) /\ f_added s = [].
Proof. exists (start_state g0). split; reflexivity. Qed.
Print Assumptions C83_no_template_refuted.
(* a particle is placed outside of the excluded regions if one of 51 attempts falls outside of them *)
Theorem C83_excluded_partial rnd j b mk v0 s s' v i : Draws rnd -> j_region j = Rect b -> j_make j = mk -> (forall g, In g (j_excluded j) -> Dim g = length b) ->
  (i <= 50)%nat -> (forall x, length x = length b -> (forall d mn mx, nth_error b d = Some (mn, mx) -> nth_error x d = Some (rnd (f_k s + i * length b + d)%nat * (mx - mn) + mn)) -> Outside (j_excluded j) x) ->
  number_step rnd j v0 s = Some (s', v) -> exists a, f_added s' = f_added s ++ [a] /\ Outside (j_excluded j) (a_x a).
Proof.
  intros D R M Dm Hi O. unfold number_step. destruct (pick_allowed 50 rnd j (f_k s)) as [[x k']|] eqn:E; [|discriminate]. cbv zeta. intros H. eexists.
  assert (W : forall A B : fstate * list Q, Some A = Some B -> f_added (fst A) = f_added (fst B)) by (intros ? ? Q0; congruence). apply W in H. cbn [fst f_added] in H. split; [symmetry; exact H|]. cbn [a_x].
  assert (LX : length x = length b). { clear - E R. revert E. generalize (f_k s). generalize 50%nat. induction n as [|n IH]; intros k; cbn [pick_allowed]; rewrite R; cbn [pick_position]; destruct (random_point_len rnd b k) as [L _]; destruct (random_point rnd b k) as [x1 k1]; cbn [fst] in L; destruct (excluded_contains j x1); intros H; try (assert (x1 = x) by congruence; subst; exact L). exact (IH k1 H). }
  apply excluded_spec; [intros g Hg; rewrite (Dm g Hg), LX; reflexivity|].
  refine (pick_allowed_outside rnd j b R 50 (f_k s) x k' i Hi _ E). apply excluded_spec.
  - intros g Hg. rewrite (Dm g Hg). symmetry. apply random_point_len.
  - apply O; [apply random_point_len|]. intros d mn mx Hd. apply (random_point_nth rnd b (f_k s + i * length b) d (mn, mx) Hd).
Qed.
Print Assumptions C83_excluded_partial.
Example C83_excluded_example : exists s' v, number_step half (unit_job [Rect [(0, 1); (0, 1)]] 1) [0; 0] (start_state 0) = Some (s', v) /\ length (f_added s') = 1%nat.
Proof. eexists. eexists. split; [vm_compute; reflexivity|]. reflexivity. Qed.
(* otherwise it is placed in the excluded region *)
Theorem C83_excluded_refuted : exists rnd j s v a, Draws rnd /\ Proper (j_region j) /\ fill_number rnd j [(j_make j, 1%nat)] [0; 0] (start_state 0) = Some (s, v) /\ f_added s = [a] /\ ~ Outside (j_excluded j) (a_x a).
Proof.
  exists half, (unit_job [Rect [(1 # 2, 2); (0, 2)]] 1). eexists. eexists. eexists. split; [exact half_draws|]. split; [repeat constructor; cbn; lra|]. split; [vm_compute; reflexivity|]. split; [reflexivity|].
  intros O. apply (O (Rect [(1 # 2, 2); (0, 2)])); [left; reflexivity|]. repeat constructor; cbn; lra.
Qed.
Print Assumptions C83_excluded_refuted.
(* several processors: each one adds the full number; one that does not meet the region puts its particles at the origin *)
Theorem C83_processors_refuted : exists rnd pb b c mk s v, Draws rnd /\ local_region pb (Rect b) = Some (Rect c) /\ fill_number rnd (mkJob 1 (Rect c) [] mk (fun _ => 1)) [(mk, 3%nat)] [0; 0] (start_state 0) = Some (s, v) /\
  length (f_added s) = 3%nat /\ forall a, In a (f_added s) -> ~ In_rect b (a_x a) /\ ~ In_rect pb (a_x a).
Proof.
  exists half, [(1, 2); (0, 2)], [(3, 4); (0, 2)], [(0, 0); (0, 0)], (fun _ => mkMade 1 1 0 [0; 0]). eexists. eexists. split; [exact half_draws|]. split; [reflexivity|]. split; [vm_compute; reflexivity|]. split; [reflexivity|].
  intros a Ha. cbn [f_added] in Ha. destruct Ha as [<- |[<- |[<- | []]]]; cbn [a_x]; split; intros F; inversion F; subst; cbn in *; lra.
Qed.
Print Assumptions C83_processors_refuted.

(* ------------------------------------------------------------------------------------------ C85 templates *)
(* masses: the inverse mass times the mass asked for is one; masses that are not positive, or infinite, make particles immovable *)
Theorem C85_masses sv radius m : 
  (0 < m -> inverse_mass sv Mass radius m * m == 1) /\ (m <= 0 -> inverse_mass sv Mass radius m == 0) /\
  (0 < sv radius * m -> inverse_mass sv Density radius m * (sv radius * m) == 1) /\ (sv radius * m <= 0 -> inverse_mass sv Density radius m == 0) /\ inverse_mass sv Infinite radius m == 0.
Proof.
  unfold inverse_mass. cbv zeta. repeat split.
  - intros H. destruct (Qltb_spec 0 m); [field; lra|contradiction].
  - intros H. destruct (Qltb_spec 0 m); [lra|reflexivity].
  - intros H. destruct (Qltb_spec 0 (sv radius * m)) as [L|L]; [|contradiction]. set (q := sv radius * m) in *. clearbody q. field. lra.
  - intros H. destruct (Qltb_spec 0 (sv radius * m)); [lra|reflexivity].
Qed.
Print Assumptions C85_masses.
(* "Proportional" sizes lie between the two bounds, and reach them *)
Theorem C85_proportional lower upper x : 0 < lower <= upper -> 0 <= x <= 1 ->
  lower <= proportional lower upper x <= upper /\ proportional lower upper 0 == upper /\ proportional lower upper 1 == lower.
Proof.
  intros H Hx. split; [exact (proportional_range lower upper x H Hx)|]. unfold proportional. split; field; lra.
Qed.
Print Assumptions C85_proportional.
Example C85_proportional_case : 0 < 1 <= 2 /\ 0 <= 1#2 <= 1 /\ proportional 1 2 (1 # 2) == 4 # 3.
Proof. split; [lra|]. split; [lra|]. reflexivity. Qed.
(* "Equiprobable" types: every type below the number of types, all with the same probability *)
Lemma Qsum_repeat a n : Qsum (repeat a n) == inject_Z (Z.of_nat n) * a.
Proof. induction n as [|n IH]; [cbn; ring|]. cbn [repeat]. change (Qsum (a :: repeat a n)) with (a + Qsum (repeat a n)). rewrite IH, Nat2Z.inj_succ. unfold Z.succ. rewrite inject_Z_plus. change (inject_Z 1) with 1. ring. Qed.
Theorem C85_equiprobable n i : (i < n)%nat -> nth_error (fst (equiprobable n)) i = Some (inject_Z (Z.of_nat i)) /\ length (fst (equiprobable n)) = n /\ length (snd (equiprobable n)) = n /\ chance (snd (equiprobable n)) i == 1 / inject_Z (Z.of_nat n).
Proof.
  intros H. unfold equiprobable, chance. cbn [fst snd]. rewrite nth_error_map, map_length, seq_length, repeat_length. split; [|split; [reflexivity|split; [reflexivity|]]].
  - rewrite (nth_error_nth' (seq 0 n) 0%nat) by (rewrite seq_length; exact H). rewrite seq_nth by exact H. reflexivity.
  - rewrite Qsum_repeat. assert (N : nth i (repeat (1 / inject_Z (Z.of_nat n)) n) 0 = 1 / inject_Z (Z.of_nat n)) by (apply (repeat_spec n); apply nth_In; rewrite repeat_length; exact H). rewrite N.
    assert (P : 0 < inject_Z (Z.of_nat n)) by (change 0 with (inject_Z 0); rewrite <- Zlt_Qlt; lia). set (q := inject_Z (Z.of_nat n)) in *. clearbody q. field. lra.
Qed.
Print Assumptions C85_equiprobable.
Example C85_equiprobable_case : (2 < 3)%nat. Proof. lia. Qed.
(* "Random" sizes: the values are those listed *)
Theorem C85_discrete_values entries : fst (discrete_engine entries) = map fst entries /\ length (snd (discrete_engine entries)) = length entries.
Proof. split; [reflexivity|apply map_length]. Qed.
Print Assumptions C85_discrete_values.
(* their probabilities are not those listed: the value is used as its own weight; only if every probability is proportional to its value are they right *)
Theorem C85_discrete_exact_partial entries k : ~ k == 0 -> (forall v p, In (v, p) entries -> v == k * p) -> Qsum (map snd entries) == 1 ->
  forall i v p, nth_error entries i = Some (v, p) -> chance (snd (discrete_engine entries)) i == p.
Proof.
  intros Hk H S i v p Hn. unfold chance, discrete_engine. cbn [snd]. assert (T : Qsum (map fst entries) == k * Qsum (map snd entries)).
  { clear S Hn. induction entries as [|[a b] l IH]; [cbn; ring|]. cbn [map fst snd]. change (Qsum (a :: map fst l)) with (a + Qsum (map fst l)). change (Qsum (b :: map snd l)) with (b + Qsum (map snd l)). rewrite IH by (intros; apply H; right; assumption). rewrite (H a b) by (left; reflexivity). ring. }
  rewrite T, S. rewrite (nth_error_nth (map fst entries) i 0 (x := v)); [|rewrite nth_error_map, Hn; reflexivity]. rewrite (H v p) by (eapply nth_error_In; exact Hn). field. lra.
Qed.
Print Assumptions C85_discrete_exact_partial.
Example C85_discrete_case : ~ 4 == 0 /\ (forall v p, In (v, p) [(1, 1 # 4); (3, 3 # 4)] -> v == 4 * p) /\ Qsum (map snd [(1, 1 # 4); (3, 3 # 4)]) == 1.
Proof. split; [lra|]. split; [intros v p [H|[H|[]]]; inversion H; subst; reflexivity|reflexivity]. Qed.
Theorem C85_discrete_refuted : exists entries v p, Qsum (map snd entries) == 1 /\ nth_error entries 0 = Some (v, p) /\ p == 1 # 2 /\ chance (snd (discrete_engine entries)) 0 == 1 # 4.
Proof. exists [(1, 1 # 2); (3, 1 # 2)], 1, (1 # 2). repeat split. Qed.
Print Assumptions C85_discrete_refuted.
