(* Steps on several processors are those of the whole system. *)
From Coq Require Import Reals List Arith Bool Lia Lra ZArith Permutation.
From Verif Require Import Model_Forces Spec_Forces Model_Integrators Spec_Integrators Proofs_Integrators Proofs_Integrators2 Model_Trajectory Spec_Trajectory Proofs_Trajectory Proofs_Sweep2 Model_Parallel Spec_Parallel.
From Verif Require Proofs_Forces Proofs_Sweep1 Properties_Forces Proofs_Symmetry.
Import ListNotations.
Local Open Scope R_scope.

(* ---- nearest images *)
Lemma images W a b (z : Z) : 0 < W -> Rabs a <= W -> Rabs b <= W -> b = a + IZR z * W ->
  let c x := if Rlt_dec (W - Rabs x) (Rabs x) then (if Rlt_dec 0 x then - (W - Rabs x) else W - Rabs x) else x in
  Rabs (c a) = Rabs (c b) /\ (Rabs (c a) < W / 2 -> c a = c b).
Proof.
  intros HW Ha Hb E c. assert (Z : (z = -2 \/ z = -1 \/ z = 0 \/ z = 1 \/ z = 2)%Z).
  { assert (B : -2 <= IZR z <= 2).
    { assert (D : Rabs (IZR z * W) <= 2 * W) by (replace (IZR z * W) with (b - a) by (rewrite E; ring); unfold Rabs in *; destruct (Rcase_abs (b - a)), (Rcase_abs a), (Rcase_abs b); lra).
      rewrite Rabs_mult, (Rabs_right W) in D by lra. apply Rmult_le_reg_r in D; [|lra]. unfold Rabs in D. destruct (Rcase_abs _); lra. }
    destruct B as [B1 B2]. apply le_IZR in B1, B2. lia. }
  unfold c. destruct Z as [-> |[-> |[-> |[-> | ->]]]]; subst b; unfold Rabs in *; repeat (destruct (Rcase_abs _)); repeat (destruct (Rlt_dec _ _)); try lra; repeat (destruct (Rcase_abs _)); try lra; split; intros; lra.
Qed.

(* ---- the force depends on the displacement to the nearest image, relative velocity (if it is read), masses and radii only *)
Lemma force_shift l e e' d i j i' j' : i <> j -> i' <> j' -> e_dims e' = e_dims e -> is_hooke (l_kind l) = false ->
  (forall c, (c < e_dims e)%nat -> shift_of e' true i' j' c = shift_of e true i j c) ->
  (reads_velocity (l_kind l) = true -> forall c, (c < e_dims e)%nat -> e_v e' i' c - e_v e' j' c = e_v e i c - e_v e j c) ->
  e_im e' i' = e_im e i -> e_im e' j' = e_im e j -> e_sg e' i' = e_sg e i -> e_sg e' j' = e_sg e j -> (d < e_dims e)%nat ->
  force_from l e' d i' j' = force_from l e d i j.
Proof.
  intros N N' ED HH EX HV I1 I2 S1 S2 Hd. unfold force_from, do_pair. cbv zeta. cbn match. unfold shift_of in EX. cbn match in EX.
  set (X := correction (e_bc e) (e_width e) (vsub (e_x e i) (e_x e j))) in *. set (X' := correction (e_bc e') (e_width e') (vsub (e_x e' i') (e_x e' j'))) in *.
  assert (ER : dot (e_dims e') X' X' = dot (e_dims e) X X) by (rewrite ED; apply Proofs_Symmetry.dot_ext; exact EX). rewrite ER, S1, S2.
  destruct (Rlt_dec _ _) as [_|_]; [|reflexivity]. clearbody X X'.
  assert (ES : forall s c, (c < e_dims e)%nat -> vscale s X' c = vscale s X c) by (intros s c Hc; unfold vscale; now rewrite EX).
  destruct (l_kind l) eqn:EK; cbn [kernel]; cbn [is_hooke reads_velocity] in HH, HV; try discriminate HH; unfold hard_sphere, hard_sphere_ds, lennard_jones, coulomb, buckingham, hertz; cbv zeta; rewrite ?I1, ?I2;
    (destruct (Req_EM_T _ 0); [reflexivity|]).
  all: try (cbn [F book]; unfold push, add_scaled; rewrite ED, !Nat.eqb_refl, (proj2 (Nat.eqb_neq i j) N), (proj2 (Nat.eqb_neq i' j') N'); cbn [andb]; rewrite (proj2 (Nat.ltb_lt _ _) Hd), (ES _ _ Hd); reflexivity).
  - assert (EV2 : forall c, (c < e_dims e)%nat -> vsub (e_v e' j') (e_v e' i') c = vsub (e_v e j) (e_v e i) c) by (intros c Hc; unfold vsub; specialize (HV eq_refl c Hc); lra).
    rewrite ED, (Proofs_Symmetry.dot_ext (e_dims e) _ _ _ _ EV2 (ES _)). cbn [F book]; unfold push, add_scaled; rewrite ED, !Nat.eqb_refl, (proj2 (Nat.eqb_neq i j) N), (proj2 (Nat.eqb_neq i' j') N'); cbn [andb]; rewrite (proj2 (Nat.ltb_lt _ _) Hd), (ES _ _ Hd); reflexivity.
  - destruct (Rlt_dec _ 0); [reflexivity|]. destruct (Rlt_dec _ 0); [reflexivity|].
    assert (EV : forall c, (c < e_dims e)%nat -> vsub (e_v e' i') (e_v e' j') c = vsub (e_v e i) (e_v e j) c) by (intros c Hc; unfold vsub; apply HV; [reflexivity|exact Hc]).
    rewrite ED, (Proofs_Symmetry.dot_ext (e_dims e) _ _ _ _ EV (ES _)). cbn [F book]; unfold push, add_scaled; rewrite ED, !Nat.eqb_refl, (proj2 (Nat.eqb_neq i j) N), (proj2 (Nat.eqb_neq i' j') N'); cbn [andb]; rewrite (proj2 (Nat.ltb_lt _ _) Hd), (ES _ _ Hd); reflexivity.
Qed.

Lemma far_zero l e d i j : 0 <= e_sg e i -> 0 <= e_sg e j -> 0 <= l_cut l -> ~ in_range l e i j -> force_from l e d i j = 0.
Proof.
  intros Hi Hj HC H. unfold force_from. fold st0. assert (P := Proofs_Sweep1.pair_far (l_kind l) (l_cut l) e true i j). change Proofs_Sweep1.zero_st with st0 in P.
  rewrite P; [reflexivity|]. intros L. apply H. unfold in_range, norm. set (c := (e_sg e i + e_sg e j) * l_cut l) in *. assert (C0 : 0 <= c) by (apply Rmult_le_pos; lra).
  rewrite <- (sqrt_square c C0). apply sqrt_lt_1_alt. split; [|exact L]. apply Proofs_Forces.dot_nonneg.
Qed.
Lemma norm_ge n x d : (d < n)%nat -> Rabs (x d) <= norm n x.
Proof.
  intros H. unfold norm. rewrite <- (sqrt_Rsqr_abs (x d)). apply sqrt_le_1_alt. unfold Rsqr. induction n as [|m IH]; [lia|]. cbn [dot].
  destruct (Nat.eq_dec d m) as [-> |]; [assert (Q := Proofs_Forces.dot_nonneg m x); lra|]. assert (Q := Rle_0_sqr (x m)). unfold Rsqr in Q. specialize (IH ltac:(lia)). lra.
Qed.
Lemma dot_abs n x y : (forall d, (d < n)%nat -> Rabs (x d) = Rabs (y d)) -> dot n x x = dot n y y.
Proof.
  induction n as [|m IH]; intros H; cbn [dot]; [reflexivity|]. rewrite IH by (intros; apply H; lia). f_equal. assert (E := H m ltac:(lia)).
  assert (S : forall r, r * r = Rabs r * Rabs r) by (intros r; rewrite <- Rabs_mult; symmetry; apply Rabs_right; assert (Q := Rle_0_sqr r); unfold Rsqr in Q; lra). rewrite (S (x m)), (S (y m)), E. reflexivity.
Qed.

Lemma nth_map_error {A} (f : A -> R) l k a : nth_error l k = Some a -> nth k (map f l) 0 = f a.
Proof. revert k. induction l as [|b l IH]; intros [|k]; cbn; try discriminate; [intros [= <-]; reflexivity|apply IH]. Qed.
Lemma sum_index (f : nat -> R) : forall l, sum_to (length l) (fun b => f (nth b l 0%nat)) = sum_over f l.
Proof.
  intros l. rewrite <- Proofs_Sweep2.sum_seq. induction l as [|a l IH]; [reflexivity|]. cbn [length seq]. rewrite !sum_cons. cbn [nth]. f_equal. rewrite <- IH, <- seq_shift, sum_map. apply sum_ext. reflexivity.
Qed.

Lemma ghost_list_is k c e n : is_hooke k = false -> forall L s, ghost_list k c e n L s = do_list k c e true (map (fun q => ((n + fst q)%nat, snd q)) L) s.
Proof.
  intros H. unfold ghost_list. induction L as [|[g b] L IH]; intros s; cbn [fold_opt map do_list fst snd]; [reflexivity|].
  replace (ghost_pair k c e n g b s) with (do_pair k c e true (n + g) b s) by (destruct k; [reflexivity|reflexivity|reflexivity|reflexivity|reflexivity|reflexivity|discriminate H]). destruct (do_pair _ _ _ _ _ _ _); [apply IH|reflexivity].
Qed.
Section ONE.
Variables (w : world) (ls : list law) (x v : arr) (p : part) (h : ghosts).
Hypothesis HS : sound w ls.
Hypothesis HD : divisible w ls.
Let e := env_of w x v.
Hypothesis HZ : forall i j, (i < w_n w)%nat -> (j < w_n w)%nat -> i <> j -> 0 < norm (w_dims w) (shift_of e true i j).
Hypothesis HW : forall i j d, (i < w_n w)%nat -> (j < w_n w)%nat -> (d < w_dims w)%nat -> w_bc w d = true -> Rabs (e_x e i d - e_x e j d) <= w_width w d.
Hypothesis HI : forall i, In i (p_ids p) -> (i < w_n w)%nat.
Hypothesis HN : NoDup (p_ids p).
Hypothesis LX : length (sx (p_sys p)) = (length (p_ids p) * w_dims w)%nat.
Hypothesis LV : length (sv (p_sys p)) = (length (p_ids p) * w_dims w)%nat.
Hypothesis HP : forall k i d, nth_error (p_ids p) k = Some i -> (d < w_dims w)%nat ->
  comp (w_dims w) (sx (p_sys p)) k d = comp (w_dims w) x i d /\ comp (w_dims w) (sv (p_sys p)) k d = comp (w_dims w) v i d.
Hypothesis HG : ghosts_right w ls e p h.
Let n := length (p_ids p).
Let m := length (h_ids h).
Let el := local_env w p h.
Let eo := env_of (local_world w (p_ids p)) (sx (p_sys p)) (sv (p_sys p)).

Lemma own_lt b i : nth_error (p_ids p) b = Some i -> (b < n)%nat.
Proof. intros H. apply nth_error_Some. rewrite H. discriminate. Qed.
Lemma own_at b i d : nth_error (p_ids p) b = Some i -> (d < w_dims w)%nat -> e_x el b d = e_x e i d /\ e_v el b d = e_v e i d /\ e_x eo b d = e_x e i d.
Proof.
  intros H Hd. destruct (HP b i d H Hd) as [E1 E2]. assert (B := own_lt b i H). assert (L := place_lt n (w_dims w) b d B Hd). unfold n in *.
  unfold el, eo, local_env, e, env_of. cbn [e_x e_v local_world w_dims]. unfold vec_of. rewrite !app_nth1 by lia. unfold comp in E1, E2. auto.
Qed.
Lemma own_const b i : nth_error (p_ids p) b = Some i -> e_im el b = e_im e i /\ e_sg el b = e_sg e i /\ e_sg eo b = e_sg e i.
Proof.
  intros H. assert (B := own_lt b i H). unfold el, eo, local_env, e, env_of. cbn [e_im e_sg local_world w_im w_sg]. 
  rewrite !(nth_map_error _ _ b i); auto; rewrite nth_error_app1; auto.
Qed.
Lemma ghost_at g i d : nth_error (h_ids h) g = Some i -> (d < w_dims w)%nat -> e_x el (n + g) d = comp (w_dims w) (h_x h) g d /\ e_v el (n + g) d = comp (w_dims w) (h_v h) g d.
Proof.
  intros H Hd. unfold el, local_env, env_of. cbn [e_x e_v local_world w_dims]. unfold vec_of, comp. unfold n.
  rewrite !app_nth2 by (rewrite ?LX, ?LV; nia). rewrite LX, LV. split; f_equal; nia.
Qed.
Lemma ghost_const g i : nth_error (h_ids h) g = Some i -> e_im el (n + g) = e_im e i /\ e_sg el (n + g) = e_sg e i.
Proof.
  intros H. unfold el, local_env, e, env_of. cbn [e_im e_sg local_world w_im w_sg]. 
  rewrite !(nth_map_error _ _ (n + g) i); auto; unfold n; rewrite nth_error_app2 by lia; replace (length (p_ids p) + g - length (p_ids p))%nat with g by lia; exact H.
Qed.
Lemma dims_el : e_dims el = w_dims w. Proof. reflexivity. Qed.
Lemma sg_nonneg : forall a, 0 <= e_sg el a.
Proof.
  intros a. destruct HS as (_ & _ & _ & Hsg & _). unfold el, local_env, env_of. cbn [e_sg local_world w_sg]. destruct (nth_error (p_ids p ++ h_ids h) a) as [i|] eqn:E.
  - rewrite (nth_map_error _ _ a i E). apply Hsg.
  - apply nth_error_None in E. rewrite nth_overflow by (rewrite map_length; exact E). lra.
Qed.

(* displacements between own particles, and between an own particle and a ghost *)
Lemma shift_own a b i j d : nth_error (p_ids p) a = Some i -> nth_error (p_ids p) b = Some j -> (d < w_dims w)%nat -> shift_of el true a b d = shift_of e true i j d.
Proof. intros Ha Hb Hd. destruct (own_at a i d Ha Hd) as [E1 _]. destruct (own_at b j d Hb Hd) as [E2 _]. unfold shift_of, correction, vsub. cbv zeta. rewrite E1, E2. reflexivity. Qed.
Lemma shift_eo wr a b i j d : nth_error (p_ids p) a = Some i -> nth_error (p_ids p) b = Some j -> (d < w_dims w)%nat -> shift_of eo wr a b d = shift_of el wr a b d.
Proof. intros Ha Hb Hd. destruct (own_at a i d Ha Hd) as (E1 & _ & F1). destruct (own_at b j d Hb Hd) as (E2 & _ & F2). destruct wr; unfold shift_of, correction, vsub; cbv zeta; rewrite E1, E2, F1, F2; reflexivity. Qed.
Lemma shift_ghost b g j i d : nth_error (p_ids p) b = Some j -> nth_error (h_ids h) g = Some i -> (d < w_dims w)%nat ->
  Rabs (shift_of el true b (n + g) d) = Rabs (shift_of e true j i d) /\ (w_bc w d = true -> Rabs (shift_of e true j i d) < w_width w d / 2 -> shift_of el true b (n + g) d = shift_of e true j i d) /\
  (w_bc w d = false -> shift_of el true b (n + g) d = shift_of e true j i d).
Proof.
  intros Hb Hg Hd. destruct HG as (_ & _ & _ & GI & _ & GX). destruct (GX g i d Hg Hd) as (G0 & G1 & _). destruct (own_at b j d Hb Hd) as [E1 _]. destruct (ghost_at g i d Hg Hd) as [E2 _].
  assert (Ij : In j (p_ids p)) by (eapply nth_error_In; eauto). assert (Ii : In i (h_ids h)) by (eapply nth_error_In; eauto). destruct (GI i Ii) as [Li _]. assert (Lj := HI j Ij).
  unfold shift_of, correction, vsub. cbv zeta. change (e_bc el) with (w_bc w). change (e_bc e) with (w_bc w). change (e_width el) with (w_width w). change (e_width e) with (w_width w). rewrite E1, E2.
  destruct (w_bc w d) eqn:B.
  - specialize (G1 eq_refl). destruct G1 as [(z & Ez) Gn]. assert (W0 := HW i j d Li Lj Hd B). rewrite <- Rabs_Ropp in W0. replace (- (e_x e i d - e_x e j d)) with (e_x e j d - e_x e i d) in W0 by ring.
    specialize (Gn j Ij). rewrite <- Rabs_Ropp in Gn. replace (- (comp (w_dims w) (h_x h) g d - e_x e j d)) with (e_x e j d - comp (w_dims w) (h_x h) g d) in Gn by ring.
    destruct (Rle_lt_or_eq_dec 0 (w_width w d)) as [WP|WZ]; [eapply Rle_trans; [apply Rabs_pos|exact W0]| |].
    + destruct (images (w_width w d) (e_x e j d - e_x e i d) (e_x e j d - comp (w_dims w) (h_x h) g d) (- z) WP W0 Gn) as [I1 I2]; [rewrite Ez, opp_IZR; ring|].
      cbv beta zeta in I1, I2. split; [symmetry; exact I1|]. split; [intros _ HL; symmetry; apply I2; exact HL|discriminate].
    + assert (A : forall r, Rabs r <= w_width w d -> r = 0) by (intros r Hr; rewrite <- WZ in Hr; destruct (Req_dec r 0) as [|NZ]; [assumption|apply Rabs_pos_lt in NZ; lra]).
      rewrite (A _ W0), (A _ Gn). auto.
  - rewrite (G0 eq_refl). auto.
Qed.
Lemma range_ghost l b g j i : nth_error (p_ids p) b = Some j -> nth_error (h_ids h) g = Some i -> (in_range l el b (n + g) <-> in_range l e j i).
Proof.
  intros Hb Hg. unfold in_range. rewrite dims_el. change (e_dims e) with (w_dims w). unfold norm.
  rewrite (dot_abs (w_dims w) (shift_of el true b (n + g)) (shift_of e true j i)) by (intros d Hd; apply (shift_ghost b g j i d Hb Hg Hd)).
  destruct (own_const b j Hb) as (_ & E1 & _). destruct (ghost_const g i Hg) as [_ E2]. rewrite E1, E2. tauto.
Qed.
Lemma norm_ghost b g j i : nth_error (p_ids p) b = Some j -> nth_error (h_ids h) g = Some i -> norm (w_dims w) (shift_of el true b (n + g)) = norm (w_dims w) (shift_of e true j i).
Proof. intros Hb Hg. unfold norm. now rewrite (dot_abs (w_dims w) (shift_of el true b (n + g)) (shift_of e true j i)) by (intros d Hd; apply (shift_ghost b g j i d Hb Hg Hd)). Qed.
Lemma sym_range l i j : in_range l e i j -> in_range l e j i.
Proof.
  unfold in_range, norm. intros H. rewrite (dot_abs _ (shift_of e true j i) (shift_of e true i j)); [rewrite Rplus_comm; exact H|]. intros d _. destruct HS as (_ & _ & B & _).
  unfold shift_of. rewrite (Proofs_Sweep1.correction_odd (e_bc e) (e_width e) (vsub (e_x e i) (e_x e j)) (vsub (e_x e j) (e_x e i)) d); [apply Rabs_Ropp|intros H0; apply (B d H0)|unfold vsub; ring].
Qed.

(* forces *)
Lemma force_own l d a b i j : In l ls -> nth_error (p_ids p) a = Some i -> nth_error (p_ids p) b = Some j -> i <> j -> (d < w_dims w)%nat -> force_from l el d a b = force_from l e d i j.
Proof.
  intros Hl Ha Hb N Hd. destruct (own_const a i Ha) as (A1 & A2 & _). destruct (own_const b j Hb) as (B1 & B2 & _).
  apply force_shift; auto; try (exact (proj1 (HD l Hl))).
  - intros ->. congruence.
  - intros c Hc. apply shift_own; assumption.
  - intros _ c Hc. destruct (own_at a i c Ha Hc) as (_ & -> & _). destruct (own_at b j c Hb Hc) as (_ & -> & _). reflexivity.
Qed.
Lemma force_ghost l d b g j i : In l ls -> nth_error (p_ids p) b = Some j -> nth_error (h_ids h) g = Some i -> (d < w_dims w)%nat -> force_from l el d b (n + g) = force_from l e d j i.
Proof.
  intros Hl Hb Hg Hd. destruct (own_const b j Hb) as (B1 & B2 & _). destruct (ghost_const g i Hg) as (G1 & G2). destruct HS as (_ & _ & HB & Hsg & HC). destruct (HC l Hl) as [C0 _].
  assert (HGr := HG). destruct HGr as (_ & _ & _ & GI & _ & GX). assert (Ij : In j (p_ids p)) by (eapply nth_error_In; eauto). assert (Ii : In i (h_ids h)) by (eapply nth_error_In; eauto). destruct (GI i Ii) as [Li NIi].
  assert (Lj := HI j Ij). destruct (HD l Hl) as [HK HR].
  destruct (Rlt_dec (norm (w_dims w) (shift_of e true j i)) ((e_sg e j + e_sg e i) * l_cut l)) as [IR|NR].
  - apply force_shift; auto.
    + intros ->. contradiction.
    + assert (B := own_lt b j Hb). lia.
    + intros c Hc. change (e_dims e) with (w_dims w) in Hc. destruct (shift_ghost b g j i c Hb Hg Hc) as (_ & S1 & S2). destruct (w_bc w c) eqn:Bc; [|auto]. apply S1; [reflexivity|].
      assert (Q := norm_ge (w_dims w) (shift_of e true j i) c Hc). specialize (HR j i c Lj Li Hc Bc). change (e_sg e j) with (nth j (w_sg w) 0) in IR. change (e_sg e i) with (nth i (w_sg w) 0) in IR. lra.
    + intros RV c Hc. change (e_dims e) with (w_dims w) in Hc. destruct (own_at b j c Hb Hc) as (_ & -> & _). destruct (ghost_at g i c Hg Hc) as [_ ->]. destruct (GX g i c Hg Hc) as (_ & _ & GV). rewrite GV; [reflexivity|]. exists l. auto.
  - rewrite (far_zero l e d j i); [|apply Hsg|apply Hsg|exact C0|exact NR]. apply far_zero; [apply sg_nonneg|apply sg_nonneg|exact C0|]. intros H. apply (range_ghost l b g j i Hb Hg) in H. contradiction.
Qed.

(* the pairs of own particles *)
Lemma lists_el l gi : In l ls -> lists_right_on e p h l gi eo -> lists_right n el (own_law l p) (g_own gi).
Proof.
  intros Hl [(K & C & A & ND & R & D) _]. split; [exact K|]. split; [exact C|]. split; [exact A|]. split; [exact ND|]. split.
  - intros a b La Lb N Fo H. apply R; auto. fold n in La, Lb. destruct (nth_error (p_ids p) a) as [i|] eqn:Ea; [|apply nth_error_None in Ea; unfold n in La; lia]. destruct (nth_error (p_ids p) b) as [j|] eqn:Eb; [|apply nth_error_None in Eb; unfold n in Lb; lia].
    destruct (own_const a i Ea) as (_ & S1 & S2). destruct (own_const b j Eb) as (_ & S3 & S4). rewrite S2, S4, <- S1, <- S3. eapply Rle_lt_trans; [|exact H]. right. unfold norm. f_equal. change (e_dims eo) with (w_dims w). rewrite dims_el.
    apply Proofs_Symmetry.dot_ext; intros c Hc; apply (shift_eo true a b i j); assumption.
  - intros a b d Hin Hd. destruct (A a b) as (La & Lb & _); [apply in_app_iff; now left|]. destruct (nth_error (p_ids p) a) as [i|] eqn:Ea; [|apply nth_error_None in Ea; lia]. destruct (nth_error (p_ids p) b) as [j|] eqn:Eb; [|apply nth_error_None in Eb; lia].
    rewrite <- !(shift_eo _ a b i j d Ea Eb Hd). apply D; assumption.
Qed.
Lemma norm_own a b : (a < n)%nat -> (b < n)%nat -> a <> b -> 0 < norm (e_dims el) (shift_of el true a b).
Proof.
  intros La Lb N. destruct (nth_error (p_ids p) a) as [i|] eqn:Ea; [|apply nth_error_None in Ea; unfold n in La; lia]. destruct (nth_error (p_ids p) b) as [j|] eqn:Eb; [|apply nth_error_None in Eb; unfold n in Lb; lia].
  rewrite dims_el. replace (norm (w_dims w) (shift_of el true a b)) with (norm (w_dims w) (shift_of e true i j)).
  - apply HZ; [apply HI; eapply nth_error_In; eauto|apply HI; eapply nth_error_In; eauto|]. intros ->. apply N. apply (proj1 (NoDup_nth_error (p_ids p)) HN); [exact La|congruence].
  - unfold norm. f_equal. symmetry. apply Proofs_Symmetry.dot_ext; intros c Hc; apply shift_own; assumption.
Qed.
Lemma bounds_el : forall d, e_bc el d = true -> (d < e_dims el)%nat /\ 0 <= e_width el d.
Proof. destruct HS as (_ & _ & HB & _). exact HB. Qed.
Definition term (l : law) (d j i : nat) : R := if negb (i =? j)%nat && l_for l j i then force_from l e d j i else 0.
Lemma own_sum l gi s : In l ls -> lists_right_on e p h l gi eo -> exists s', interact_forces (i_kind (g_own gi)) (i_cut (g_own gi)) el (i_p0 (g_own gi)) (i_p1 (g_own gi)) s = Some s' /\
  forall a j d, nth_error (p_ids p) a = Some j -> (d < w_dims w)%nat -> F s' a d = F s a d + sum_over (term l d j) (p_ids p).
Proof.
  intros Hl HR. destruct HS as (_ & _ & _ & _ & HC). destruct (HC l Hl) as [C0 FS].
  destruct (interaction_sum n el (own_law l p) (g_own gi) (lists_el l gi Hl HR) sg_nonneg C0 (fun a b => FS _ _) bounds_el norm_own s) as (s' & E & EF). exists s'. split; [exact E|].
  intros a j d Ha Hd. rewrite (EF a d (own_lt a j Ha)). f_equal. rewrite <- sum_index. fold n. apply Proofs_Symmetry.sum_to_eq. intros b Lb. unfold term, own_law. cbn [l_for].
  destruct (nth_error (p_ids p) b) as [i|] eqn:Eb; [|apply nth_error_None in Eb; unfold n in Lb; lia]. rewrite (nth_error_nth _ _ 0%nat Eb), (nth_error_nth _ _ 0%nat Ha).
  destruct (Nat.eqb_spec b a) as [Eab|Nab]; destruct (Nat.eqb_spec i j) as [Eij|Nij]; cbn [negb andb]; try reflexivity.
  - subst. congruence.
  - subst. exfalso. apply Nab. apply (proj1 (NoDup_nth_error (p_ids p)) HN); [exact Lb|congruence].
  - destruct (l_for l j i); [|reflexivity]. change (force_from (own_law l p) el d a b = force_from l e d j i). transitivity (force_from l el d a b); [reflexivity|]. apply force_own; auto.
Qed.
(* the pairs of ghosts and own particles *)
Lemma ghost_pair_ok l a b i j : In l ls -> nth_error (h_ids h) a = Some i -> nth_error (p_ids p) b = Some j ->
  exists s, do_pair (l_kind l) (l_cut l) el true (n + a) b st0 = Some s /\ forall c k d, nth_error (p_ids p) c = Some k -> (d < w_dims w)%nat -> F s c d = if (c =? b)%nat then force_from l e d j i else 0.
Proof.
  intros Hl Ha Hb. assert (W := Proofs_Sweep1.pair_swap (l_kind l) (l_cut l) el true b (n + a) (fun d H => proj2 (bounds_el d H))). change Proofs_Sweep1.zero_st with st0 in W.
  assert (HGr := HG). destruct HGr as (_ & _ & _ & GI & _). destruct (GI i (nth_error_In _ _ Ha)) as [Li NI]. assert (Lj := HI j (nth_error_In _ _ Hb)).
  assert (DF : exists s, do_pair (l_kind l) (l_cut l) el true b (n + a) st0 = Some s).
  { destruct (Properties_Forces.C26_defined (l_kind l) (l_cut l) el [] [(b, (n + a)%nat)] st0) as (s & Es).
    - exact sg_nonneg.
    - intros u z [].
    - intros u z [E|[]]. injection E as <- <-. rewrite dims_el, (norm_ghost b a j i Hb Ha). apply HZ; auto. intros ->. apply NI. eapply nth_error_In; eauto.
    - unfold interact_forces in Es. cbn [do_list F Tq st0] in Es. change (mkF (fun _ _ => 0) (fun _ => 0) 0 0) with st0 in Es. fold n. destruct (do_pair (l_kind l) (l_cut l) el true b (n + a) st0) as [sx0|]; [exists sx0; reflexivity|discriminate Es]. }
  destruct DF as (s0 & E0). rewrite E0 in W. destruct (do_pair (l_kind l) (l_cut l) el true (n + a) b st0) as [s1|] eqn:E1; [|contradiction]. destruct W as [W _]. exists s1. split; [reflexivity|].
  intros c k d Hc Hd. destruct (Nat.eqb_spec c b) as [-> |N].
  - rewrite <- (force_ghost l d b a j i Hl Hb Ha Hd). unfold force_from. fold st0. rewrite E0. apply W.
  - apply (Proofs_Sweep1.pair_others _ _ _ _ _ _ _ c d E1); [|exact N]. assert (B := own_lt c k Hc). lia.
Qed.
Lemma ghost_sum l gi s : In l ls -> i_kind (g_own gi) = l_kind l -> i_cut (g_own gi) = l_cut l -> lists_right_on e p h l gi eo ->
  exists s', ghost_list (i_kind (g_own gi)) (i_cut (g_own gi)) el n (g_pairs gi) s = Some s' /\
  forall b j d, nth_error (p_ids p) b = Some j -> (d < w_dims w)%nat -> F s' b d = F s b d + sum_over (term l d j) (h_ids h).
Proof.
  intros Hl -> -> (_ & ND & A & R). rewrite (ghost_list_is (l_kind l) (l_cut l) el n (proj1 (HD l Hl))). destruct HS as (_ & _ & _ & Hsg & HC). destruct (HC l Hl) as [C0 FS].
  destruct (list_sum (l_kind l) (l_cut l) el true (map (fun q => ((n + fst q)%nat, snd q)) (g_pairs gi))) with (s := s) as (s' & E & EF).
  { intros q Hq. apply in_map_iff in Hq. destruct Hq as ([a b] & <- & Hq). cbn [fst snd]. destruct (A a b Hq) as (i & j & Ha & Hb & _). destruct (ghost_pair_ok l a b i j Hl Ha Hb) as (s1 & E1 & _). fold n. rewrite E1. discriminate. }
  exists s'. split; [exact E|]. intros b j d Hb Hd. rewrite EF. f_equal. rewrite sum_map.
  transitivity (sum_over (fun q => if (b =? snd q)%nat then force_from l e d j (nth (fst q) (h_ids h) 0%nat) else 0) (g_pairs gi)).
  { apply sum_ext. intros [a c] Hq. unfold one_F. cbn [fst snd]. destruct (A a c Hq) as (i & k & Ha & Hc & _). destruct (ghost_pair_ok l a c i k Hl Ha Hc) as (s1 & -> & X). rewrite (X b j d Hb Hd), (nth_error_nth _ _ 0%nat Ha).
    destruct (Nat.eqb_spec b c) as [-> |]; [|reflexivity]. congruence. }
  rewrite <- (sum_filter (fun q => (b =? snd q)%nat)). rewrite <- (sum_map fst (fun a => force_from l e d j (nth a (h_ids h) 0%nat)) (filter _ _)).
  rewrite <- (sum_index (term l d j) (h_ids h)). fold m. rewrite <- Proofs_Sweep2.sum_seq.
  transitivity (sum_over (fun a => term l d j (nth a (h_ids h) 0%nat)) (map fst (filter (fun q => (b =? snd q)%nat) (g_pairs gi)))).
  { apply sum_ext. intros a Hin. apply in_map_iff in Hin. destruct Hin as ([a' c] & Ea & Hf). cbn [fst] in Ea. subst a'. apply filter_In in Hf. destruct Hf as [Hq Ec]. cbn [snd] in Ec. apply Nat.eqb_eq in Ec. subst c.
    destruct (A a b Hq) as (i & k & Ha & Hc & Fo). assert (k = j) by congruence. subst k. rewrite (nth_error_nth _ _ 0%nat Ha). unfold term. rewrite (FS j i), Fo. assert (HGr := HG). destruct HGr as (_ & _ & _ & GI & _).
    destruct (GI i (nth_error_In _ _ Ha)) as [_ NI]. destruct (Nat.eqb_spec i j) as [-> |]; [|reflexivity]. exfalso. apply NI. eapply nth_error_In; eauto. }
  apply sum_sub.
  - clear - ND. induction ND as [|[a c] L H ND IH]; cbn [filter map]; [constructor|]. cbn [snd]. destruct (Nat.eqb_spec b c) as [<- |]; [|exact IH]. cbn [map fst]. constructor; [|exact IH].
    intros Hin. apply in_map_iff in Hin. destruct Hin as ([a' c] & Ea & Hf). cbn [fst] in Ea. subst a'. apply filter_In in Hf. destruct Hf as [Hq Ec]. cbn [snd] in Ec. apply Nat.eqb_eq in Ec. subst c. contradiction.
  - apply seq_NoDup.
  - intros a Hin. apply in_map_iff in Hin. destruct Hin as ([a' c] & Ea & Hf). cbn [fst] in Ea. subst a'. apply filter_In in Hf. destruct (A a c (proj1 Hf)) as (i & k & Ha & _). apply in_seq. assert (a < m)%nat by (apply nth_error_Some; rewrite Ha; discriminate). lia.
  - intros a Ha NI. apply in_seq in Ha. destruct (nth_error (h_ids h) a) as [i|] eqn:Ei; [|apply nth_error_None in Ei; unfold m in Ha; lia]. rewrite (nth_error_nth _ _ 0%nat Ei). unfold term.
    destruct (negb (i =? j)%nat && l_for l j i) eqn:T; [|reflexivity]. apply andb_true_iff in T. destruct T as [_ T]. rewrite FS in T. apply far_zero; [apply Hsg|apply Hsg|exact C0|]. intros IR. apply NI. apply in_map_iff. exists (a, b). split; [reflexivity|].
    apply filter_In. cbn [snd]. rewrite Nat.eqb_refl. split; [|reflexivity]. apply (R a b i j Ei Hb T). apply sym_range. exact IR.
Qed.

Lemma all_terms l d j : In l ls -> In j (p_ids p) -> sum_over (term l d j) (p_ids p) + sum_over (term l d j) (h_ids h) = sum_to (w_n w) (term l d j).
Proof.
  intros Hl Hj. rewrite <- sum_app, <- Proofs_Sweep2.sum_seq. assert (HGr := HG). destruct HGr as (_ & _ & GN & GI & GR & _). destruct HS as (_ & _ & _ & Hsg & HC). destruct (HC l Hl) as [C0 FS]. apply sum_sub.
  - clear - HN GN GI. induction (p_ids p) as [|a L IH]; cbn [app]; [exact GN|]. inversion HN; subst. constructor.
    + intros H. apply in_app_iff in H. destruct H; [contradiction|]. destruct (GI a H) as [_ X]. apply X. now left.
    + apply IH; [assumption|]. intros i Hi. destruct (GI i Hi) as [X Y]. split; [exact X|]. intros Z. apply Y. now right.
  - apply seq_NoDup.
  - intros i Hi. apply in_app_iff in Hi. apply in_seq. destruct Hi as [Hi|Hi]; [assert (Q := HI i Hi); lia|destruct (GI i Hi); lia].
  - intros i Hi NI. apply in_seq in Hi. unfold term. destruct (negb (i =? j)%nat && l_for l j i) eqn:T; [|reflexivity]. apply andb_true_iff in T. destruct T as [_ T]. rewrite FS in T.
    apply far_zero; [apply Hsg|apply Hsg|exact C0|]. intros IR. apply NI. apply in_app_iff. right. apply (GR l i j Hl); [lia| |exact Hj|exact T|apply sym_range; exact IR]. intros X. apply NI. apply in_app_iff. now left.
Qed.

Lemma forces_part gs : Forall2 (fun l g => lists_right_on e p h l g eo) ls gs ->
  exists f, part_forces w p h gs = Some f /\ length f = (n * w_dims w)%nat /\ forall b j d, nth_error (p_ids p) b = Some j -> (d < w_dims w)%nat -> comp (w_dims w) f b d = force_on (w_n w) ls e d j.
Proof.
  intros FL. unfold part_forces. cbv zeta. fold el n.
  assert (G1 : forall L G, incl L ls -> Forall2 (fun l g => lists_right_on e p h l g eo) L G -> forall s, exists s', fold_opt (fun g s => interact_forces (i_kind (g_own g)) (i_cut (g_own g)) el (i_p0 (g_own g)) (i_p1 (g_own g)) s) G s = Some s' /\
    forall a j d, nth_error (p_ids p) a = Some j -> (d < w_dims w)%nat -> F s' a d = F s a d + sum_over (fun l => sum_over (term l d j) (p_ids p)) L).
  { intros L G IL FG. induction FG as [|l g L G H FG IH]; intros s; cbn [fold_opt].
    - exists s. split; [reflexivity|]. intros. rewrite sum_nil. ring.
    - destruct (own_sum l g s (IL l (or_introl eq_refl)) H) as (s1 & E1 & F1). rewrite E1. destruct (IH (fun q Hq => IL q (or_intror Hq)) s1) as (s2 & E2 & F2). exists s2. split; [exact E2|].
      intros a j d Ha Hd. rewrite (F2 a j d Ha Hd), (F1 a j d Ha Hd), sum_cons. ring. }
  assert (G2 : forall L G, incl L ls -> Forall2 (fun l g => lists_right_on e p h l g eo) L G -> forall s, exists s', fold_opt (fun g s => ghost_list (i_kind (g_own g)) (i_cut (g_own g)) el n (g_pairs g) s) G s = Some s' /\
    forall a j d, nth_error (p_ids p) a = Some j -> (d < w_dims w)%nat -> F s' a d = F s a d + sum_over (fun l => sum_over (term l d j) (h_ids h)) L).
  { intros L G IL FG. induction FG as [|l g L G H FG IH]; intros s; cbn [fold_opt].
    - exists s. split; [reflexivity|]. intros. rewrite sum_nil. ring.
    - assert (H' := H). destruct H' as [(K & C & _) _]. destruct (ghost_sum l g s (IL l (or_introl eq_refl)) K C H) as (s1 & E1 & F1). rewrite E1. destruct (IH (fun q Hq => IL q (or_intror Hq)) s1) as (s2 & E2 & F2). exists s2. split; [exact E2|].
      intros a j d Ha Hd. rewrite (F2 a j d Ha Hd), (F1 a j d Ha Hd), sum_cons. ring. }
  destruct (G1 ls gs (incl_refl _) FL (mkF (fun _ _ => 0) (fun _ => 0) 0 0)) as (s1 & -> & F1). destruct (G2 ls gs (incl_refl _) FL s1) as (s2 & -> & F2). cbn [option_map].
  eexists. split; [reflexivity|]. split; [apply flat_length|]. intros b j d Hb Hd. assert (B := own_lt b j Hb).
  transitivity (F s2 b d).
  { unfold comp, flat. assert (P := place_lt n (w_dims w) b d B Hd). rewrite (nth_indep _ 0 (F s2 (0 / w_dims w)%nat (0 mod w_dims w)%nat)) by (rewrite map_length, seq_length; exact P).
    rewrite (map_nth (fun k => F s2 (k / w_dims w)%nat (k mod w_dims w)%nat) (seq 0 (n * w_dims w)) 0%nat). rewrite seq_nth by exact P. cbn [Nat.add]. rewrite (place_div _ _ _ Hd). f_equal. rewrite Nat.add_comm, Nat.mod_add by lia. apply Nat.mod_small. exact Hd. }
  rewrite (F2 b j d Hb Hd), (F1 b j d Hb Hd). cbn [F]. unfold force_on. rewrite Rplus_0_l, <- sum_plus. apply sum_ext. intros l Hl. rewrite (all_terms l d j Hl (nth_error_In _ _ Hb)). reflexivity.
Qed.
End ONE.

Lemma comp_flat n dims f b d : (b < n)%nat -> (d < dims)%nat -> comp dims (flat n dims f) b d = f b d.
Proof.
  intros B Hd. unfold comp, flat. assert (P := place_lt n dims b d B Hd). rewrite (nth_indep _ 0 (f (0 / dims)%nat (0 mod dims)%nat)) by (rewrite map_length, seq_length; exact P).
  rewrite (map_nth (fun k => f (k / dims)%nat (k mod dims)%nat) (seq 0 (n * dims)) 0%nat). rewrite seq_nth by exact P. cbn [Nat.add]. rewrite (place_div _ _ _ Hd). f_equal. rewrite Nat.add_comm, Nat.mod_add by lia. apply Nat.mod_small. exact Hd.
Qed.
Lemma all_of_ok {A B} (f : A -> option B) (P : A -> B -> Prop) l : (forall a, In a l -> exists b, f a = Some b /\ P a b) -> exists bs, all_of f l = Some bs /\ Forall2 P l bs.
Proof.
  induction l as [|a l IH]; intros H; cbn [all_of].
  - exists []. auto.
  - destruct (H a (or_introl eq_refl)) as (b & E & Pb). destruct (IH (fun q Hq => H q (or_intror Hq))) as (bs & Es & Pbs). exists (b :: bs). rewrite E. change ((match all_of f l with Some bs => Some (b :: bs) | None => None end) = Some (b :: bs) /\ Forall2 P (a :: l) (b :: bs)). rewrite Es. auto.
Qed.
Lemma f2_map {A B C} (P : A -> B -> Prop) (f : A -> C) (g : B -> C) l m : Forall2 P l m -> (forall a b, P a b -> g b = f a) -> map g m = map f l.
Proof. intros H E. induction H; cbn; [reflexivity|]. rewrite (E _ _ H), IHForall2. reflexivity. Qed.
Lemma f2_in {A B} (P : A -> B -> Prop) l m b : Forall2 P l m -> In b m -> exists a, In a l /\ P a b.
Proof. intros H. induction H as [|a b0 l m H _ IH]; [intros []|]. intros [<- |Hb]; [exists a; split; [now left|exact H]|]. destruct (IH Hb) as (a' & Ha & Pa). exists a'. split; [now right|exact Pa]. Qed.
Lemma nodup_l {A} (l l' : list A) : NoDup (l ++ l') -> NoDup l.
Proof. induction l as [|a l IH]; cbn; intros H; [constructor|]. inversion H; subst. constructor; [|auto]. intros Hi. apply H2. apply in_app_iff. now left. Qed.
Lemma nodup_r {A} (l l' : list A) : NoDup (l ++ l') -> NoDup l'.
Proof. induction l as [|a l IH]; cbn; intros H; [exact H|]. inversion H; subst. auto. Qed.
Lemma perm_own n ps p : Permutation (concat (map p_ids ps)) (seq 0 n) -> In p ps -> NoDup (p_ids p) /\ forall i, In i (p_ids p) -> (i < n)%nat.
Proof.
  intros H Hp. assert (ND : NoDup (concat (map p_ids ps))) by (eapply Permutation_NoDup; [apply Permutation_sym, H|apply seq_NoDup]). split.
  - apply in_split in Hp. destruct Hp as (l1 & l2 & ->). rewrite map_app, concat_app in ND. cbn [map concat] in ND. apply nodup_r in ND. apply nodup_l in ND. exact ND.
  - intros i Hi. assert (In i (seq 0 n)) as Q; [|apply in_seq in Q; lia]. eapply Permutation_in; [exact H|]. apply in_concat. exists (p_ids p). split; [apply in_map; exact Hp|exact Hi].
Qed.

Section RUN.
Variables (s : simd) (w : world) (ls : list law).
Hypothesis Hs : works s.
Hypothesis HS : sound w ls.
Hypothesis HD : divisible w ls.

Lemma local_len ids : length (w_im (local_world w ids)) = w_n (local_world w ids). Proof. cbn. apply map_length. Qed.
Lemma local_im ids k i : nth_error ids k = Some i -> nth k (w_im (local_world w ids)) 0 = nth i (w_im w) 0. Proof. intros H. cbn [local_world w_im]. exact (nth_map_error (fun g => nth g (w_im w) 0) _ k i H). Qed.

Lemma step_ok t wrap ts wraps ps st : divides (w_n w) (w_dims w) ps st -> exchange_right_along w ls (t :: ts) (wrap :: wraps) (map p_ids ps) st ->
  exists ps', parallel_step s w t ps = Some ps' /\ divides (w_n w) (w_dims w) ps' (ideal_step w ls (q_dt t) wrap st) /\ exchange_right_along w ls ts wraps (map p_ids ps') (ideal_step w ls (q_dt t) wrap st).
Proof.
  intros [[PM DV] DF] H. cbn [exchange_right_along] in H. cbv zeta in H. assert (HDim : (0 < w_dims w)%nat) by (destruct HS; assumption).
  set (dt := q_dt t) in *. set (half := flat (w_n w) (w_dims w) (fun i d => comp (w_dims w) (sv st) i d + 1 / 2 * dt * nth i (w_im w) 0 * comp (w_dims w) (sf st) i d)) in *.
  set (dr := flat (w_n w) (w_dims w) (fun i d => comp (w_dims w) (sx st) i d + dt * comp (w_dims w) half i d)) in *. destruct H as (LX1 & HZ & HW & HM).
  unfold parallel_step. fold dt.
  destruct (all_of_ok (first_half s w dt) (fun p p1 => p_ids p1 = p_ids p /\ length (sx (p_sys p1)) = (length (p_ids p1) * w_dims w)%nat /\ length (sv (p_sys p1)) = (length (p_ids p1) * w_dims w)%nat /\
    forall k i d, nth_error (p_ids p1) k = Some i -> (d < w_dims w)%nat -> comp (w_dims w) (sx (p_sys p1)) k d = comp (w_dims w) dr i d /\ comp (w_dims w) (sv (p_sys p1)) k d = comp (w_dims w) half i d) ps) as (ps1 & E1 & F1).
  { intros p Hp. destruct (DV p Hp) as (LX & LV & HC). destruct (DF p Hp) as (LF & HF). destruct (perm_own _ _ p PM Hp) as [_ HI]. unfold first_half. cbv zeta.
    assert (K := kick_is s (local_world w (p_ids p)) dt (sf (p_sys p)) (sv (p_sys p)) Hs HDim (local_len _) LF LV). cbn [local_world w_dims w_n w_im] in K. cbn [local_world w_im]. rewrite K.
    match goal with |- context [update_positions s dt _ ?v _] => set (v1 := v) end. clear K. assert (LV1 : length v1 = (length (p_ids p) * w_dims w)%nat) by apply flat_length.
    assert (Dr := drift_is s (local_world w (p_ids p)) dt v1 (sx (p_sys p)) HDim LX LV1). cbn [local_world w_dims w_n] in Dr. rewrite Dr. cbn [option_map]. eexists. split; [reflexivity|]. cbn [p_ids p_sys sx sv]. split; [reflexivity|].
    split; [apply flat_length|]. split; [exact LV1|]. intros k i d Hk Hd. assert (B : (k < length (p_ids p))%nat) by (apply nth_error_Some; rewrite Hk; discriminate). assert (Li := HI i (nth_error_In _ _ Hk)).
    assert (EV : comp (w_dims w) v1 k d = comp (w_dims w) half i d).
    { unfold v1, half. rewrite !comp_flat by assumption. destruct (HC k i d Hk Hd) as [_ ->]. rewrite (HF k i d Hk Hd). rewrite (nth_map_error _ _ k i Hk). reflexivity. }
    split; [|exact EV]. unfold dr. rewrite !comp_flat by assumption. rewrite EV. destruct (HC k i d Hk Hd) as [-> _]. reflexivity. }
  rewrite E1. assert (ID1 : map p_ids ps1 = map p_ids ps) by (apply (f2_map _ _ _ _ _ F1); intros a b (X & _); exact X).
  destruct (HM ps1 ID1) as ([PM2 DV2] & GR & NEXT).
  { split; [rewrite ID1; exact PM|]. intros p1 Hp1. destruct (f2_in _ _ _ _ F1 Hp1) as (p & Hp & _ & X). exact X. }
  set (r := q_move t ps1) in *. set (st1 := ideal_step w ls dt wrap st) in *.
  destruct (all_of_ok (second_half s w dt) (fun q p2 => p_ids p2 = p_ids (fst (fst q)) /\ length (sx (p_sys p2)) = (length (p_ids p2) * w_dims w)%nat /\ length (sv (p_sys p2)) = (length (p_ids p2) * w_dims w)%nat /\ length (sf (p_sys p2)) = (length (p_ids p2) * w_dims w)%nat /\
    forall k i d, nth_error (p_ids p2) k = Some i -> (d < w_dims w)%nat -> comp (w_dims w) (sx (p_sys p2)) k d = comp (w_dims w) (sx st1) i d /\ comp (w_dims w) (sv (p_sys p2)) k d = comp (w_dims w) (sv st1) i d /\ comp (w_dims w) (sf (p_sys p2)) k d = comp (w_dims w) (sf st1) i d) r) as (ps2 & E2 & F2).
  { intros [[p h] gs] Hr. assert (Hp : In p (map (fun q => fst (fst q)) r)) by (apply in_map_iff; exists (p, h, gs); auto). destruct (DV2 p Hp) as (LX & LV & HC). destruct (perm_own (w_n w) _ p PM2 Hp) as [HN HI]. destruct (GR p h gs Hr) as [HG FL].
    destruct (forces_part w ls (sx st1) half p h HS HD HZ HW HI HN LX LV HC HG gs FL) as (f1 & EF & LF & HF). unfold second_half. rewrite EF.
    assert (K := kick_is s (local_world w (p_ids p)) dt f1 (sv (p_sys p)) Hs HDim (local_len _) LF LV). cbn [local_world w_dims w_n w_im] in K. cbn [local_world w_im]. rewrite K. cbn [option_map]. eexists. split; [reflexivity|]. cbn [p_ids p_sys sx sv sf fst].
    split; [reflexivity|]. split; [exact LX|]. split; [apply flat_length|]. split; [exact LF|]. intros k i d Hk Hd. assert (B : (k < length (p_ids p))%nat) by (apply nth_error_Some; rewrite Hk; discriminate). assert (Li := HI i (nth_error_In _ _ Hk)).
    destruct (HC k i d Hk Hd) as [EX EV]. split; [exact EX|].
    assert (EF1 : comp (w_dims w) (sf st1) i d = force_on (w_n w) ls (env_of w (sx st1) half) d i) by exact (comp_flat (w_n w) (w_dims w) (fun i d => force_on (w_n w) ls (env_of w (sx st1) half) d i) i d Li Hd).
    split; [|rewrite EF1; apply HF; assumption]. rewrite comp_flat by assumption. transitivity (comp (w_dims w) half i d + 1 / 2 * dt * nth i (w_im w) 0 * comp (w_dims w) (sf st1) i d).
    - cbv beta. rewrite EV, (nth_map_error _ _ k i Hk), EF1, (HF k i d Hk Hd). reflexivity.
    - symmetry. exact (comp_flat (w_n w) (w_dims w) (fun i d => comp (w_dims w) half i d + 1 / 2 * dt * nth i (w_im w) 0 * comp (w_dims w) (sf st1) i d) i d Li Hd). }
  exists ps2. split; [exact E2|]. assert (ID2 : map p_ids ps2 = map (fun q => p_ids (fst (fst q))) r) by (apply (f2_map _ _ _ _ _ F2); intros a b (X & _); exact X). rewrite ID2. split; [|exact NEXT].
  split; [split|].
  - rewrite ID2. rewrite map_map in PM2. exact PM2.
  - intros p2 Hp2. destruct (f2_in _ _ _ _ F2 Hp2) as (q & _ & _ & A & B & C & D). split; [exact A|]. split; [exact B|]. intros k i d Hk Hd. destruct (D k i d Hk Hd) as (X & Y & _). auto.
  - intros p2 Hp2. destruct (f2_in _ _ _ _ F2 Hp2) as (q & _ & _ & A & B & C & D). split; [exact C|]. intros k i d Hk Hd. destruct (D k i d Hk Hd) as (_ & _ & Z). exact Z.
Qed.
Lemma run_ok : forall ts wraps ps st, length ts = length wraps -> divides (w_n w) (w_dims w) ps st -> exchange_right_along w ls ts wraps (map p_ids ps) st ->
  exists ps', parallel_run s w ts ps = Some ps' /\ divides (w_n w) (w_dims w) ps' (ideal_motion w ls (map q_dt ts) wraps st).
Proof.
  induction ts as [|t ts IH]; intros [|wrap wraps] ps st L DV H; try discriminate L; cbn [parallel_run map ideal_motion].
  - exists ps. auto.
  - destruct (step_ok t wrap ts wraps ps st DV H) as (ps1 & -> & D1 & N1). apply IH; [now injection L|exact D1|exact N1].
Qed.
End RUN.
