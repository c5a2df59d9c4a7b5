From Coq Require Import Reals List Bool Arith ZArith Lia Lra.
From Verif Require Import Model_Forces Spec_Forces Proofs_Forces Model_GroupMeasure Spec_GroupMeasure Proofs_GroupMeasure.
Import ListNotations.
Local Open Scope R_scope.

Lemma dot_ext n p q x y : (forall d, (d < n)%nat -> p d = q d) -> (forall d, (d < n)%nat -> x d = y d) -> dot n p x = dot n q y.
Proof. induction n as [|n IH]; intros H G; cbn [dot]; [reflexivity|]. rewrite H, G by lia. rewrite IH; [reflexivity|intros; apply H; lia|intros; apply G; lia]. Qed.
Lemma dot_scale_r n p s x : dot n p (fun d => s * x d) = s * dot n p x.
Proof. induction n as [|n IH]; cbn [dot]; [ring|]. rewrite IH. ring. Qed.
Lemma dot_nonneg n x : 0 <= dot n x x.
Proof. induction n as [|n IH]; cbn [dot]; [lra|]. pose proof (Rle_0_sqr (x n)). unfold Rsqr in *. lra. Qed.
Lemma dot_zero n x : dot n x x = 0 -> forall d, (d < n)%nat -> x d = 0.
Proof.
  induction n as [|n IH]; intros H d Hd; [lia|]. cbn [dot] in H. pose proof (dot_nonneg n x). pose proof (Rle_0_sqr (x n)) as Hs.
  assert (Hz : x n * x n = 0) by (unfold Rsqr in Hs; lra). destruct (Nat.eq_dec d n) as [->|]; [|apply IH; [lra|lia]].
  apply Rmult_integral in Hz. tauto.
Qed.

(* ---------- addAcceleration on totals ---------- *)
Lemma addAcc_total A ids w : NoDup ids -> finite_masses w ids -> forall d, (d < w_dims w)%nat ->
  force_on (addAcceleration A ids w) ids d = force_on w ids d + total_mass w ids * A d.
Proof.
  intros Hn Hf d Hd. unfold force_on, total_mass. rewrite Rmult_comm, <- so_scale, <- so_plus. apply so_ext.
  intros i Hi. rewrite addAcceleration_spec by exact Hn. unfold member. rewrite (proj2 (existsb_in i ids) Hi). apply Nat.ltb_lt in Hd. rewrite Hd. cbn [andb].
  destruct (Rlt_dec 0 (w_im w i)); [ring|]. exfalso. specialize (Hf i Hi). lra.
Qed.
Lemma addAcc_other A ids w i d : NoDup ids -> ~ In i ids -> w_f (addAcceleration A ids w) i d = w_f w i d.
Proof.
  intros Hn Hi. rewrite addAcceleration_spec by exact Hn. unfold member. destruct (existsb (Nat.eqb i) ids) eqn:E; [apply existsb_in in E; contradiction|reflexivity].
Qed.
Lemma addAcc_member A ids w i d : NoDup ids -> In i ids -> 0 < w_im w i -> (d < w_dims w)%nat ->
  w_f (addAcceleration A ids w) i d = w_f w i d + mass_of w i * A d.
Proof.
  intros Hn Hi Hm Hd. rewrite addAcceleration_spec by exact Hn. unfold member. rewrite (proj2 (existsb_in i ids) Hi). apply Nat.ltb_lt in Hd. rewrite Hd. cbn [andb].
  destruct (Rlt_dec 0 (w_im w i)); [reflexivity|lra].
Qed.
Lemma addAcc_high A ids w i d : NoDup ids -> (w_dims w <= d)%nat -> w_f (addAcceleration A ids w) i d = w_f w i d.
Proof. intros Hn Hd. rewrite addAcceleration_spec by exact Hn. apply Nat.ltb_ge in Hd. rewrite Hd, andb_false_r. reflexivity. Qed.

Lemma remove_spec mass p ids w : NoDup ids -> finite_masses w ids -> ids <> [] -> 0 < mass ->
  let F := force_on w ids in let w' := remove_net_force mass p ids w in
  same_but_f w w' /\
  (forall i d, In i ids -> (d < w_dims w)%nat -> w_f w' i d = w_f w i d + mass_of w i * (- (dot (w_dims w) p F / mass) * p d)) /\
  (forall i d, ~ In i ids \/ (w_dims w <= d)%nat -> w_f w' i d = w_f w i d) /\
  (forall q, dot (w_dims w) q (force_on w' ids) = dot (w_dims w) q F - total_mass w ids / mass * dot (w_dims w) p F * dot (w_dims w) q p).
Proof.
  intros Hn Hf He Hm F w'.
  assert (Ew : w' = addAcceleration (vscale (- (dot (w_dims w) p (findNetForce w ids) / mass)) p) ids w).
  { unfold w', remove_net_force. destruct (Rle_dec mass 0); [lra|]. destruct ids; [congruence|reflexivity]. }
  rewrite Ew. clear Ew w'.
  assert (EF : dot (w_dims w) p (findNetForce w ids) = dot (w_dims w) p F) by (apply dot_ext; [reflexivity|intros; apply net_force_sum]).
  split; [reflexivity|]. split; [|split].
  - intros i d Hi Hd. rewrite addAcc_member by (auto). rewrite EF. unfold vscale. reflexivity.
  - intros i d [Hi|Hd]; [now apply addAcc_other|now apply addAcc_high].
  - intros q. set (A := vscale _ p).
    rewrite (dot_ext _ q q _ (fun d => F d + (- (total_mass w ids / mass * dot (w_dims w) p F)) * p d)); [|reflexivity|].
    + rewrite dot_plus_r, dot_scale_r. ring.
    + intros d Hd. rewrite addAcc_total by assumption. unfold A, vscale. rewrite EF. unfold F. field. lra.
Qed.

Lemma unit_spec n p : 0 < dot n p p -> let u := unit_of n p in dot n u u = 1 /\ forall d, u d = p d / sqrt (dot n p p).
Proof.
  intros H. assert (Hs : 0 < sqrt (dot n p p)) by (apply sqrt_lt_R0, H). unfold unit_of. cbv zeta.
  destruct (Req_EM_T (sqrt (dot n p p)) 0); [lra|]. split; [|reflexivity].
  set (s := sqrt (dot n p p)) in *. rewrite (dot_ext n _ (fun d => / s * p d) _ (fun d => / s * p d)) by (intros; unfold Rdiv; ring).
  rewrite dot_scale_r, dot_comm, dot_scale_r. replace (dot n p p) with (s * s) by (apply sqrt_sqrt; lra). field. lra.
Qed.

(* ---------- torque ---------- *)
Lemma torque_loop_spec w c ids : finite_masses w ids -> forall T J, torque_loop w c ids T J =
  Some (T + torque_about w c ids, J + sum_over (fun i => mass_of w i * dot (w_dims w) (disp w (w_x w i) c) (disp w (w_x w i) c)) ids).
Proof.
  induction ids as [|a l IH]; intros Hf T J; cbn [torque_loop].
  - unfold torque_about, sum_over. cbn. now rewrite !Rplus_0_r.
  - rewrite recip_pos by (apply Hf; now left). rewrite IH by (intros i Hi; apply Hf; now right). unfold torque_about. rewrite !so_cons.
    f_equal. unfold cross2. f_equal; ring.
Qed.
Lemma spin_loop_spec w c ids : finite_masses w ids -> forall T J, spin_loop w c ids T J =
  Some (T + angular_momentum_about w c ids, J + sum_over (fun i => mass_of w i * dot (w_dims w) (disp w (w_x w i) c) (disp w (w_x w i) c)) ids).
Proof.
  induction ids as [|a l IH]; intros Hf T J; cbn [spin_loop].
  - unfold angular_momentum_about, sum_over. cbn. now rewrite !Rplus_0_r.
  - rewrite recip_pos by (apply Hf; now left). rewrite IH by (intros i Hi; apply Hf; now right). unfold angular_momentum_about. rewrite !so_cons.
    f_equal. unfold cross2, vscale. f_equal; ring.
Qed.
Lemma add2_fold (g h : nat -> R) ids : NoDup ids -> forall v i d,
  fold_left (fun v id => add2 id (g id) (h id) v) ids v i d =
  if member i ids then match d with 0%nat => v i d + g i | 1%nat => v i d + h i | _ => v i d end else v i d.
Proof.
  intros Hn v i d. rewrite (fold_local (fun id d a => match d with 0%nat => a + g id | 1%nat => a + h id | _ => a end) (fun id v => add2 id (g id) (h id) v)); [reflexivity| |exact Hn].
  intros id f i0 d0. unfold add2. destruct (Nat.eqb_spec i0 id) as [->|]; reflexivity.
Qed.
Lemma so_nonneg_zero {A} (f : A -> R) l : (forall a, In a l -> 0 <= f a) -> sum_over f l <= 0 -> forall a, In a l -> f a = 0.
Proof.
  induction l as [|b l IH]; intros Hf Hs a []; rewrite so_cons in Hs.
  - subst. assert (0 <= sum_over f l). { clear - Hf. induction l as [|c l IH]; [cbn; lra|]. rewrite so_cons. pose proof (Hf c (or_intror (or_introl eq_refl))).
      assert (0 <= sum_over f l) by (apply IH; intros x [->|Hx]; apply Hf; [now left|right; now right]). lra. }
    pose proof (Hf a (or_introl eq_refl)). lra.
  - apply IH; [intros; apply Hf; now right| |assumption]. pose proof (Hf b (or_introl eq_refl)). lra.
Qed.
Definition inertia (w : world) (c : vec) (ids : list nat) : R :=
  sum_over (fun i => mass_of w i * (disp w (w_x w i) c 0%nat * disp w (w_x w i) c 0%nat + disp w (w_x w i) c 1%nat * disp w (w_x w i) c 1%nat)) ids.
Lemma inertia_dot w c ids : w_dims w = 2%nat ->
  sum_over (fun i => mass_of w i * dot (w_dims w) (disp w (w_x w i) c) (disp w (w_x w i) c)) ids = inertia w c ids.
Proof. intros E. rewrite E. unfold inertia. apply so_ext. intros i _. cbn [dot]. ring. Qed.
Lemma inertia_term_nonneg w c ids : finite_masses w ids -> forall i, In i ids ->
  0 <= mass_of w i * (disp w (w_x w i) c 0%nat * disp w (w_x w i) c 0%nat + disp w (w_x w i) c 1%nat * disp w (w_x w i) c 1%nat).
Proof.
  intros Hf i Hi. apply Rmult_le_pos; [apply Rlt_le, mass_pos, Hf, Hi|]. pose proof (Rle_0_sqr (disp w (w_x w i) c 0%nat)). pose proof (Rle_0_sqr (disp w (w_x w i) c 1%nat)).
  unfold Rsqr in *. lra.
Qed.
Lemma inertia_zero w c ids : finite_masses w ids -> inertia w c ids <= 0 -> forall i, In i ids -> disp w (w_x w i) c 0%nat = 0 /\ disp w (w_x w i) c 1%nat = 0.
Proof.
  intros Hf Hz i Hi. pose proof (so_nonneg_zero _ ids (inertia_term_nonneg w c ids Hf) Hz i Hi) as H. cbv beta in H.
  apply Rmult_integral in H as [H|H]; [pose proof (mass_pos w i (Hf i Hi)); lra|].
  pose proof (Rle_0_sqr (disp w (w_x w i) c 0%nat)) as S0. pose proof (Rle_0_sqr (disp w (w_x w i) c 1%nat)) as S1. unfold Rsqr in *.
  split; [assert (E : disp w (w_x w i) c 0%nat * disp w (w_x w i) c 0%nat = 0) by lra|assert (E : disp w (w_x w i) c 1%nat * disp w (w_x w i) c 1%nat = 0) by lra];
    apply Rmult_integral in E; tauto.
Qed.

Lemma torque_post_spec w ids : NoDup ids -> finite_masses w ids -> w_dims w = 2%nat ->
  exists c w', (ids <> [] -> findCenterOfMass w ids = Some c) /\ torque_post_forces ids w = Some w' /\ same_but_f w w' /\
    torque_about w' c ids = 0 /\ (forall i d, ~ In i ids -> w_f w' i d = w_f w i d) /\
    exists al, forall i, In i ids -> w_f w' i 0%nat = w_f w i 0%nat + mass_of w i * (al * disp w (w_x w i) c 1%nat) /\
                                     w_f w' i 1%nat = w_f w i 1%nat - mass_of w i * (al * disp w (w_x w i) c 0%nat).
Proof.
  intros Hn Hf H2. unfold torque_post_forces. destruct ids as [|a0 l0] eqn:E.
  { exists zerov, w. split; [congruence|]. split; [reflexivity|]. split; [destruct w; reflexivity|]. split; [reflexivity|]. split; [reflexivity|]. exists 0. intros i []. }
  rewrite <- E in *. assert (He : ids <> []) by (rewrite E; discriminate). clear E a0 l0.
  assert (Ed : (w_dims w =? 2)%nat = true) by (rewrite H2; reflexivity). rewrite Ed. cbn [negb].
  destruct (com_spec w ids Hf He) as (c & Hc & _). rewrite Hc. exists c. rewrite torque_loop_spec, inertia_dot, !Rplus_0_l by assumption.
  set (J := inertia w c ids). set (T := torque_about w c ids). set (al := if Rlt_dec 0 J then T / J else 0). cbv zeta.
  eexists. split; [reflexivity|]. split; [reflexivity|]. split; [reflexivity|].
  assert (Ff : forall i d, fold_left (fun f id => let X := disp w (w_x w id) c in add2 id (1 / w_im w id * al * X 1%nat) (- (1 / w_im w id * al * X 0%nat)) f) ids (w_f w) i d =
     if member i ids then match d with 0%nat => w_f w i d + mass_of w i * al * disp w (w_x w i) c 1%nat | 1%nat => w_f w i d + - (mass_of w i * al * disp w (w_x w i) c 0%nat) | _ => w_f w i d end else w_f w i d).
  { intros i d. cbv zeta. now rewrite (add2_fold (fun id => 1 / w_im w id * al * disp w (w_x w id) c 1%nat) (fun id => - (1 / w_im w id * al * disp w (w_x w id) c 0%nat)) ids Hn). }
  assert (M : forall i, In i ids -> member i ids = true) by (intros i Hi; apply existsb_in, Hi).
  cbv zeta in Ff.
  split; [|split].
  - unfold torque_about. cbn [w_x with_f w_f].
    rewrite (so_ext _ (fun i => (disp w (w_x w i) c 0%nat * w_f w i 1%nat - disp w (w_x w i) c 1%nat * w_f w i 0%nat) +
       (- al) * (mass_of w i * (disp w (w_x w i) c 0%nat * disp w (w_x w i) c 0%nat + disp w (w_x w i) c 1%nat * disp w (w_x w i) c 1%nat)))).
    + rewrite so_plus, so_scale. fold (inertia w c ids) (torque_about w c ids). fold J T. unfold al. destruct (Rlt_dec 0 J) as [Hp|Hnp].
      * field. lra.
      * assert (T = 0); [|lra]. unfold T, torque_about. rewrite (so_ext _ (fun _ => 0 * 0)); [rewrite so_scale; ring|].
        intros i Hi. destruct (inertia_zero w c ids Hf ltac:(unfold J in *; lra) i Hi) as [-> ->]. ring.
    + intros i Hi. rewrite !Ff, (M i Hi). change (disp (with_f _ w) (w_x w i) c) with (disp w (w_x w i) c). ring.
  - intros i d Hi. cbn [w_f with_f]. rewrite Ff. destruct (member i ids) eqn:Em; [apply existsb_in in Em; contradiction|reflexivity].
  - exists al. intros i Hi. cbn [w_f with_f]. rewrite !Ff, (M i Hi). split; ring.
Qed.

Lemma torque_pre_spec w ids : NoDup ids -> finite_masses w ids -> w_dims w = 2%nat -> ids <> [] ->
  exists c, findCenterOfMass w ids = Some c /\
  (inertia w c ids = 0 -> torque_pre_integrate ids w = None) /\
  (inertia w c ids <> 0 -> exists w', torque_pre_integrate ids w = Some w' /\ same_but_v w w' /\
    angular_momentum_about w' c ids = 0 /\ (forall i d, ~ In i ids -> w_v w' i d = w_v w i d) /\
    exists om, forall i, In i ids -> w_v w' i 0%nat = w_v w i 0%nat + om * disp w (w_x w i) c 1%nat /\
                                     w_v w' i 1%nat = w_v w i 1%nat - om * disp w (w_x w i) c 0%nat).
Proof.
  intros Hn Hf H2 He. unfold torque_pre_integrate. destruct ids as [|a0 l0] eqn:E; [congruence|]. rewrite <- E in *. clear E a0 l0.
  destruct (com_spec w ids Hf He) as (c & Hc & _). rewrite Hc. exists c. split; [reflexivity|]. rewrite spin_loop_spec, inertia_dot, !Rplus_0_l by assumption.
  set (J := inertia w c ids). set (T := angular_momentum_about w c ids). cbv zeta. split.
  - intros Hz. destruct (Req_EM_T J 0); [reflexivity|contradiction].
  - intros Hz. destruct (Req_EM_T J 0) as [Hz'|_]; [contradiction|]. set (om := T / J). eexists. split; [reflexivity|]. split; [reflexivity|].
    assert (Ff : forall i d, fold_left (fun f id => add2 id (om * disp w (w_x w id) c 1%nat) (- om * disp w (w_x w id) c 0%nat) f) ids (w_v w) i d =
      if member i ids then match d with 0%nat => w_v w i d + om * disp w (w_x w i) c 1%nat | 1%nat => w_v w i d + - om * disp w (w_x w i) c 0%nat | _ => w_v w i d end else w_v w i d).
    { intros i d. now rewrite (add2_fold (fun id => om * disp w (w_x w id) c 1%nat) (fun id => - om * disp w (w_x w id) c 0%nat) ids Hn). }
    assert (M : forall i, In i ids -> member i ids = true) by (intros i Hi; apply existsb_in, Hi).
    split; [|split].
    + unfold angular_momentum_about. cbn [w_x with_v w_v].
      rewrite (so_ext _ (fun i => (mass_of w i * (disp w (w_x w i) c 0%nat * w_v w i 1%nat - disp w (w_x w i) c 1%nat * w_v w i 0%nat)) +
       (- om) * (mass_of w i * (disp w (w_x w i) c 0%nat * disp w (w_x w i) c 0%nat + disp w (w_x w i) c 1%nat * disp w (w_x w i) c 1%nat)))).
      * rewrite so_plus, so_scale. fold (inertia w c ids) (angular_momentum_about w c ids). fold J T. unfold om. field. exact Hz.
      * intros i Hi. rewrite !Ff, (M i Hi). change (disp (with_v _ w) (w_x w i) c) with (disp w (w_x w i) c). change (mass_of (with_v _ w) i) with (mass_of w i). ring.
    + intros i d Hi. cbn [w_v with_v]. rewrite Ff. destruct (member i ids) eqn:Em; [apply existsb_in in Em; contradiction|reflexivity].
    + exists om. intros i Hi. cbn [w_v with_v]. rewrite !Ff, (M i Hi). split; ring.
Qed.

(* About the true centre of mass the mass-weighted positions cancel *)
Lemma com_relative w ids u : finite_masses w ids -> ids <> [] -> (forall d, (d < w_dims w)%nat -> w_lo w d < w_hi w d) ->
  (forall i, In i ids -> in_box w i) -> unwrapped w ids u -> compact w ids u ->
  forall c, findCenterOfMass w ids = Some c -> forall d, (d < w_dims w)%nat -> sum_over (fun i => mass_of w i * disp w (w_x w i) c d) ids = 0.
Proof.
  intros Hf He Hw Hb Hu Hc c Ec d Hd. destruct (com_place w ids u Hf He Hw Hb Hu Hc) as (c' & Ec' & Hp). rewrite Ec in Ec'. inversion Ec'; subst c'. clear Ec'.
  destruct (Hp d Hd) as [Hcb Hcm]. clear Hp.
  set (m := weighted_mean w ids (fun i => u i d)).
  assert (Hm : forall i, In i ids -> disp w (w_x w i) c d = u i d - m).
  { intros i Hi. pose proof (Hb i Hi d Hd) as Hbi. pose proof (Hw d Hd). pose proof (Hu i d Hi Hd) as Hui. destruct (w_bc w d) eqn:Ebc.
    - apply disp_unwrapped; [lra|exact Hbi|exact Hcb|]. rewrite Ebc. split; [exact Hui|]. split.
      + destruct Hcm as [z Hz]. exists (- z)%Z. rewrite opp_IZR. fold m in Hz. lra.
      + assert (A : exists e, e < (w_hi w d - w_lo w d) / 2 /\ forall j, In j ids -> u i d - e <= u j d <= u i d + e).
        { clear - Hc Hi Hd Ebc Hw. specialize (Hw d Hd). assert (Hj : forall j, In j ids -> Rabs (u i d - u j d) < (w_hi w d - w_lo w d) / 2) by (intros j Hj; apply Hc; assumption).
          clear Hc Hi. revert Hj. generalize ids. clear ids. induction ids as [|j l IH]; intros Hj.
          - exists 0. split; [lra|intros j []].
          - destruct IH as (e & He & IH); [intros; apply Hj; now right|]. exists (Rmax e (Rabs (u i d - u j d))). split.
            + apply Rmax_lub_lt; [exact He|apply Hj; now left].
            + pose proof (Rmax_l e (Rabs (u i d - u j d))). pose proof (Rmax_r e (Rabs (u i d - u j d))). intros k [<-|Hk].
              * revert H0. unfold Rabs. destruct (Rcase_abs (u i d - u j d)); lra.
              * specialize (IH k Hk). lra. }
        destruct A as (e & He1 & He2).
        assert (L1 : m <= u i d + e). { rewrite <- (mean_const w ids (u i d + e)) by assumption. apply mean_le; [assumption..|]. intros j Hj. apply He2, Hj. }
        assert (L2 : u i d - e <= m). { rewrite <- (mean_const w ids (u i d - e)) by assumption. apply mean_le; [assumption..|]. intros j Hj. apply He2, Hj. }
        apply Rabs_def1; lra.
    - unfold disp, correction. rewrite Ebc. unfold vsub. rewrite Hui, Hcm. unfold m. f_equal. apply mean_ext. intros j Hj. pose proof (Hu j d Hj Hd) as Huj. rewrite Ebc in Huj. now rewrite Huj. }
  rewrite (so_ext _ (fun i => mass_of w i * u i d + (- m) * mass_of w i)) by (intros i Hi; rewrite Hm by exact Hi; ring).
  rewrite so_plus, so_scale. fold (total_mass w ids). unfold m, weighted_mean. pose proof (total_mass_pos w ids Hf He). field. lra.
Qed.

(* ---------- the sliding wall ---------- *)
Lemma slide_loop_spec w k ids : (k < w_dims w)%nat -> NoDup ids -> forall F M inf f, exists M' f', slide_loop w k ids F M inf f =
    (F + sum_over (fun i => f i k) ids, M', inf || existsb (fun i => if Rlt_dec 0 (w_im w i) then false else true) ids, f') /\
    (forall i d, f' i d = if member i ids && (d <? w_dims w)%nat then 0 else f i d) /\
    (finite_masses w ids -> M' = M + total_mass w ids).
Proof.
  intros Hk. induction ids as [|a l IH]; intros Hn F M inf f; cbn [slide_loop].
  - exists M, f. unfold sum_over. cbn [fold_right existsb]. rewrite Rplus_0_r, orb_false_r. split; [reflexivity|]. split; [reflexivity|]. intros _. unfold total_mass, sum_over. cbn. ring.
  - inversion Hn; subst. specialize (IH H2). cbv zeta.
    destruct (IH (F + f a k) (if Rlt_dec 0 (w_im w a) then M + 1 / w_im w a else M) (if Rlt_dec 0 (w_im w a) then inf else true) (zero_at (w_dims w) a f)) as (M' & f' & E & Ef & Em).
    exists M', f'. split; [|split].
    + rewrite E. assert (Es : F + f a k + sum_over (fun i => zero_at (w_dims w) a f i k) l = F + sum_over (fun i => f i k) (a :: l)).
      { rewrite so_cons. rewrite (so_ext _ (fun i => f i k)); [ring|]. intros i Hi. unfold zero_at. destruct (Nat.eqb_spec i a) as [->|]; [contradiction|reflexivity]. }
      rewrite Es. cbn [existsb]. destruct (Rlt_dec 0 (w_im w a)); [reflexivity|]. cbn [orb]. now rewrite orb_true_r.
    + intros i d. rewrite Ef. unfold zero_at, member. cbn [existsb]. destruct (Nat.eqb i a); destruct (existsb (Nat.eqb i) l); destruct (d <? w_dims w)%nat; reflexivity.
    + intros Hf. rewrite Em by (intros i Hi; apply Hf; now right). unfold total_mass. rewrite so_cons. pose proof (Hf a (or_introl eq_refl)).
      destruct (Rlt_dec 0 (w_im w a)); [unfold mass_of; ring|lra].
Qed.
Lemma finite_existsb w ids : existsb (fun i => if Rlt_dec 0 (w_im w i) then false else true) ids = false <-> finite_masses w ids.
Proof.
  split.
  - intros E i Hi. destruct (Rlt_dec 0 (w_im w i)) eqn:El; [assumption|]. exfalso.
    assert (existsb (fun i => if Rlt_dec 0 (w_im w i) then false else true) ids = true) by (apply existsb_exists; exists i; split; [exact Hi|now rewrite El]). congruence.
  - intros Hf. destruct (existsb _ ids) eqn:E; [|reflexivity]. apply existsb_exists in E as (i & Hi & E). specialize (Hf i Hi). destruct (Rlt_dec 0 (w_im w i)); [discriminate|lra].
Qed.
Lemma set_fold k (g : nat -> R) ids : NoDup ids -> forall f i d,
  fold_left (fun f id => set_at id k (g id) f) ids f i d = if member i ids && (d =? k)%nat then g i else f i d.
Proof.
  intros Hn f i d. rewrite (fold_local (fun id d a => if (d =? k)%nat then g id else a) (fun id f => set_at id k (g id) f)); [| |exact Hn].
  - unfold member. destruct (existsb (Nat.eqb i) ids); reflexivity.
  - intros id h i0 d0. unfold set_at. destruct (Nat.eqb_spec i0 id) as [->|]; reflexivity.
Qed.

Lemma slide_correct_spec k ids w : (k < w_dims w)%nat -> NoDup ids -> let r := slide_correct k ids w in
  fst r = force_on w ids k /\ same_but_f w (snd r) /\
  (forall i d, ~ In i ids \/ (w_dims w <= d)%nat -> w_f (snd r) i d = w_f w i d) /\
  (forall i d, In i ids -> (d < w_dims w)%nat -> d <> k -> w_f (snd r) i d = 0) /\
  (finite_masses w ids -> forall i, In i ids -> w_f (snd r) i k = mass_of w i * (force_on w ids k / total_mass w ids)) /\
  (~ finite_masses w ids -> forall i, In i ids -> w_f (snd r) i k = 0).
Proof.
  intros Hk Hn r. unfold r, slide_correct. destruct (Nat.leb_spec (w_dims w) k); [lia|].
  destruct (slide_loop_spec w k ids Hk Hn 0 0 false (w_f w)) as (M & f & E & Ef & Em). rewrite E, Rplus_0_l. cbn [orb].
  fold (force_on w ids k).
  assert (Hin : forall i, In i ids -> member i ids = true) by (intros i Hi; apply existsb_in, Hi).
  assert (Hout : forall i, ~ In i ids -> member i ids = false) by (intros i Hi; destruct (member i ids) eqn:Ei; [apply existsb_in in Ei; contradiction|reflexivity]).
  assert (Lk : (k <? w_dims w)%nat = true) by now apply Nat.ltb_lt.
  destruct (existsb _ ids) eqn:Ex.
  - cbn [fst snd w_f with_f]. split; [reflexivity|]. split; [reflexivity|]. split; [|split; [|split]].
    + intros i d [Hi|Hd]; rewrite Ef; [now rewrite (Hout i Hi)|]. apply Nat.ltb_ge in Hd. rewrite Hd. now rewrite andb_false_r.
    + intros i d Hi Hd _. rewrite Ef, (Hin i Hi). apply Nat.ltb_lt in Hd. now rewrite Hd.
    + intros Hf. apply finite_existsb in Hf. congruence.
    + intros _ i Hi. rewrite Ef, (Hin i Hi), Lk. reflexivity.
  - assert (Hf : finite_masses w ids) by now apply finite_existsb. cbn [fst snd w_f with_f]. rewrite (Em Hf), Rplus_0_l. split; [reflexivity|]. split; [reflexivity|].
    assert (Eg : forall i d, fold_left (fun g id => set_at id k (1 / w_im w id * (force_on w ids k / total_mass w ids)) g) ids f i d =
       if member i ids && (d =? k)%nat then mass_of w i * (force_on w ids k / total_mass w ids) else f i d)
      by (intros; now rewrite (set_fold k (fun id => 1 / w_im w id * (force_on w ids k / total_mass w ids)) ids Hn)).
    split; [|split; [|split]].
    + intros i d [Hi|Hd]; rewrite Eg, Ef; [now rewrite (Hout i Hi)|]. destruct (Nat.eqb_spec d k); [lia|]. apply Nat.ltb_ge in Hd. rewrite Hd. now rewrite !andb_false_r.
    + intros i d Hi Hd Hdk. rewrite Eg, Ef, (Hin i Hi). apply Nat.ltb_lt in Hd. rewrite Hd. destruct (Nat.eqb_spec d k); [contradiction|reflexivity].
    + intros _ i Hi. rewrite Eg, (Hin i Hi), Nat.eqb_refl. reflexivity.
    + intros Hc. contradiction.
Qed.

Lemma slide_correct_slides k ids w : (k < w_dims w)%nat -> NoDup ids ->
  forall i, In i ids -> let w' := snd (slide_correct k ids w) in
    (forall d, (d < w_dims w)%nat -> d <> k -> w_im w i * w_f w' i d = 0) /\
    (forall j, In j ids -> w_im w i * w_f w' i k = w_im w j * w_f w' j k).
Proof.
  intros Hk Hn i Hi w'. destruct (slide_correct_spec k ids w Hk Hn) as (_ & _ & _ & H4 & H5 & H6). cbv zeta in *. fold w' in H4, H5, H6. split.
  - intros d Hd Hdk. rewrite H4 by assumption. ring.
  - intros j Hj. destruct (existsb (fun i => if Rlt_dec 0 (w_im w i) then false else true) ids) eqn:E.
    + assert (Hnf : ~ finite_masses w ids) by (intros Hf; apply finite_existsb in Hf; congruence). rewrite !H6 by assumption. ring.
    + apply finite_existsb in E. rewrite !H5 by assumption. pose proof (E i Hi). pose proof (E j Hj). unfold mass_of. pose proof (total_mass_pos w ids E). 
      assert (0 < total_mass w ids) by (apply total_mass_pos; [exact E|destruct ids; [destruct Hi|discriminate]]). field. lra.
Qed.

Lemma slide_step_slides k ids dt forces w : (k < w_dims w)%nat -> NoDup ids -> slides w k ids ->
  let w' := slide_step k ids dt forces w in w_dims w' = w_dims w /\ slides w' k ids /\
  (forall i d, In i ids -> (d < w_dims w)%nat -> d <> k -> w_x w' i d = w_x w i d) /\
  (forall i j, In i ids -> In j ids -> w_x w' i k - w_x w' j k = w_x w i k - w_x w j k).
Proof.
  intros Hk Hn Hs w'. unfold w', slide_step. cbv zeta. set (w1 := drift dt (kick dt w)). set (w2 := with_f (forces w1) w1).
  destruct (slide_correct_spec k ids w2 Hk Hn) as (_ & Hsame & _). cbv zeta in Hsame. pose proof (slide_correct_slides k ids w2 Hk Hn) as Hsl. cbv zeta in Hsl.
  set (w3 := snd (slide_correct k ids w2)) in *.
  assert (Ed : w_dims w3 = w_dims w) by (rewrite Hsame; reflexivity). assert (Ei : w_im w3 = w_im w) by (rewrite Hsame; reflexivity).
  assert (Ex : w_x w3 = w_x w1) by (rewrite Hsame; reflexivity). assert (Ev : w_v w3 = w_v w1) by (rewrite Hsame; reflexivity).
  split; [cbn; exact Ed|]. split; [|split].
  - intros i Hi. cbn [w_dims kick with_v w_v w_im w_f]. rewrite Ed, Ei, Ev. cbn [w1 drift kick with_v w_v w_im w_f].
    destruct (Hs i Hi) as [Ha Hb]. destruct (Hsl i Hi) as [Hc Hd]. change (w_im w2) with (w_im w) in *. split.
    + intros d Hd1 Hdk. destruct (Ha d Hd1 Hdk) as [A1 A2]. specialize (Hc d Hd1 Hdk). split; [|exact Hc].
      rewrite A1. rewrite !Rmult_assoc, A2, Hc. ring.
    + intros j Hj. destruct (Hb j Hj) as [B1 B2]. specialize (Hd j Hj). split; [|exact Hd]. rewrite B1, !Rmult_assoc, B2, Hd. ring.
  - intros i d Hi Hd Hdk. destruct (Hs i Hi) as [Ha _]. destruct (Ha d Hd Hdk) as [A1 A2]. cbn [kick with_v w_x]. rewrite Ex. cbn [w1 drift kick with_v w_v w_im w_f w_x].
    rewrite A1, !Rmult_assoc, A2. ring.
  - intros i j Hi Hj. destruct (Hs i Hi) as [_ Hb]. destruct (Hb j Hj) as [B1 B2]. cbn [kick with_v w_x]. rewrite Ex. cbn [w1 drift kick with_v w_v w_im w_f w_x].
    rewrite B1, !Rmult_assoc, B2. ring.
Qed.

(* ---------- the spring between two groups ---------- *)
Lemma push_spec s d c n w : NoDup (sp_a s) -> NoDup (sp_b s) -> (forall i, In i (sp_a s) -> ~ In i (sp_b s)) ->
  finite_masses w (sp_a s) -> finite_masses w (sp_b s) -> sp_a s <> [] -> sp_b s <> [] ->
  sp_massA s = total_mass w (sp_a s) -> sp_massB s = total_mass w (sp_b s) ->
  let w' := spring_push s d c n w in same_but_f w w' /\
  (forall e, (e < w_dims w)%nat -> force_on w' (sp_a s) e = force_on w (sp_a s) e + sp_k s * (d - c) * n e) /\
  (forall e, (e < w_dims w)%nat -> force_on w' (sp_b s) e = force_on w (sp_b s) e - sp_k s * (d - c) * n e) /\
  (forall i e, ~ In i (sp_a s) -> ~ In i (sp_b s) -> w_f w' i e = w_f w i e).
Proof.
  intros Na Nb Hd Fa Fb Ea Eb Ma Mb w'. unfold w', spring_push. set (A1 := vscale (1 / sp_massA s) _). set (B1 := vscale (1 / sp_massB s) _).
  set (w1 := addAcceleration A1 (sp_a s) w). pose proof (total_mass_pos w _ Fa Ea). pose proof (total_mass_pos w _ Fb Eb).
  split; [reflexivity|]. split; [|split].
  - intros e He. assert (Eo : force_on (addAcceleration B1 (sp_b s) w1) (sp_a s) e = force_on w1 (sp_a s) e); [|rewrite Eo].
    2:{ unfold w1. rewrite addAcc_total by assumption. unfold A1, vscale. rewrite Ma. field. lra. }
    + unfold force_on. apply so_ext. intros i Hi. apply addAcc_other; [exact Nb|now apply Hd].
  - intros e He. rewrite addAcc_total by assumption. change (total_mass w1 (sp_b s)) with (total_mass w (sp_b s)).
    assert (Eo : force_on w1 (sp_b s) e = force_on w (sp_b s) e); [|rewrite Eo].
    2:{ unfold B1, vscale, vneg. rewrite Mb. field. lra. }
    + unfold force_on. apply so_ext. intros i Hi. apply addAcc_other; [exact Na|intros Hc; exact (Hd i Hc Hi)].
  - intros i e Ha Hb. rewrite addAcc_other by assumption. now apply addAcc_other.
Qed.

Lemma spring_spec s0 w : let s := spring_pre_integrate w s0 in
  NoDup (sp_a s) -> NoDup (sp_b s) -> (forall i, In i (sp_a s) -> ~ In i (sp_b s)) ->
  finite_masses w (sp_a s) -> finite_masses w (sp_b s) -> sp_a s <> [] -> sp_b s <> [] ->
  exists c1 c2 w' t, findCenterOfMass w (sp_a s) = Some c1 /\ findCenterOfMass w (sp_b s) = Some c2 /\ spring_interact s w = Some w' /\ same_but_f w w' /\
   let D := disp w c2 c1 in let r := norm (w_dims w) D in
   (forall d, (d < w_dims w)%nat -> force_on w' (sp_a s) d = force_on w (sp_a s) d + t * D d /\ force_on w' (sp_b s) d = force_on w (sp_b s) d - t * D d) /\
   (forall i d, ~ In i (sp_a s) -> ~ In i (sp_b s) -> w_f w' i d = w_f w i d) /\
   t * r = sp_k s * ((if Rlt_dec r (sp_min s) then r - sp_min s else 0) + (if Rlt_dec (sp_max s) r then r - sp_max s else 0)) * (if Req_EM_T r 0 then 0 else 1).
Proof.
  intros s Na Nb Hd Fa Fb Ea Eb. unfold spring_interact.
  assert (Ma : sp_massA s = total_mass w (sp_a s)) by (apply total_mass_spec; intros i Hi; specialize (Fa i Hi); lra).
  assert (Mb : sp_massB s = total_mass w (sp_b s)) by (apply total_mass_spec; intros i Hi; specialize (Fb i Hi); lra).
  pose proof (total_mass_pos w _ Fa Ea). pose proof (total_mass_pos w _ Fb Eb).
  destruct (com_spec w (sp_a s) Fa Ea) as (c1 & C1 & _). destruct (com_spec w (sp_b s) Fb Eb) as (c2 & C2 & _).
  exists c1, c2.
  set (D := disp w c2 c1). set (r := norm (w_dims w) D).
  set (q := sp_k s * ((if Rlt_dec r (sp_min s) then r - sp_min s else 0) + (if Rlt_dec (sp_max s) r then r - sp_max s else 0))).
  set (n := unit_of (w_dims w) D).
  set (w1 := if Rlt_dec r (sp_min s) then spring_push s r (sp_min s) n w else w).
  set (w2 := if Rlt_dec (sp_max s) r then spring_push s r (sp_max s) n w1 else w1).
  exists w2, (if Req_EM_T r 0 then 0 else q / r). rewrite C1, C2.
  assert (Hn : forall d, (d < w_dims w)%nat -> (if Req_EM_T r 0 then 0 else q / r) * D d = q * n d).
  { intros d Hdd. unfold n, unit_of. fold (norm (w_dims w) D). fold r. cbv zeta. destruct (Req_EM_T r 0) as [Ez|Nz].
    - assert (Dz : dot (w_dims w) D D = 0). { unfold r, norm in Ez. apply sqrt_eq_0; [apply dot_nonneg|exact Ez]. }
      rewrite (dot_zero _ _ Dz d Hdd). ring.
    - field. exact Nz. }
  split; [reflexivity|]. split; [reflexivity|]. split.
  { destruct (sp_a s) eqn:E1; [congruence|]. destruct (sp_b s) eqn:E2; [congruence|]. destruct (Rle_dec (sp_massA s) 0); [lra|]. destruct (Rle_dec (sp_massB s) 0); [lra|]. reflexivity. }
  assert (P1 : same_but_f w w1 /\ (forall e, (e < w_dims w)%nat -> force_on w1 (sp_a s) e = force_on w (sp_a s) e + sp_k s * (if Rlt_dec r (sp_min s) then r - sp_min s else 0) * n e /\
      force_on w1 (sp_b s) e = force_on w (sp_b s) e - sp_k s * (if Rlt_dec r (sp_min s) then r - sp_min s else 0) * n e) /\
      (forall i e, ~ In i (sp_a s) -> ~ In i (sp_b s) -> w_f w1 i e = w_f w i e)).
  { unfold w1. destruct (Rlt_dec r (sp_min s)).
    - destruct (push_spec s r (sp_min s) n w Na Nb Hd Fa Fb Ea Eb Ma Mb) as (Q1 & Q2 & Q3 & Q4). split; [exact Q1|]. split; [|exact Q4]. intros e He. split; [now apply Q2|now apply Q3].
    - split; [destruct w; reflexivity|]. split; [|reflexivity]. intros e He. split; ring. }
  destruct P1 as (S1 & T1 & U1).
  assert (P2 : same_but_f w1 w2 /\ (forall e, (e < w_dims w)%nat -> force_on w2 (sp_a s) e = force_on w1 (sp_a s) e + sp_k s * (if Rlt_dec (sp_max s) r then r - sp_max s else 0) * n e /\
      force_on w2 (sp_b s) e = force_on w1 (sp_b s) e - sp_k s * (if Rlt_dec (sp_max s) r then r - sp_max s else 0) * n e) /\
      (forall i e, ~ In i (sp_a s) -> ~ In i (sp_b s) -> w_f w2 i e = w_f w1 i e)).
  { assert (Ei : w_im w1 = w_im w) by (rewrite S1; reflexivity). assert (Ed : w_dims w1 = w_dims w) by (rewrite S1; reflexivity).
    unfold w2. destruct (Rlt_dec (sp_max s) r).
    - destruct (push_spec s r (sp_max s) n w1 Na Nb Hd) as (Q1 & Q2 & Q3 & Q4).
      + intros i Hi. rewrite Ei. now apply Fa.
      + intros i Hi. rewrite Ei. now apply Fb.
      + exact Ea.
      + exact Eb.
      + rewrite Ma. unfold total_mass, mass_of. now rewrite Ei.
      + rewrite Mb. unfold total_mass, mass_of. now rewrite Ei.
      + split; [exact Q1|]. split; [|exact Q4]. intros e He. rewrite Ed in *. split; [now apply Q2|now apply Q3].
    - split; [destruct w1; reflexivity|]. split; [|reflexivity]. intros e He. split; ring. }
  destruct P2 as (S2 & T2 & U2).
  split; [unfold same_but_f in *; rewrite S2, S1; reflexivity|]. cbv zeta. fold D. fold r. split; [|split].
  - intros d Hdd. rewrite (Hn d Hdd). destruct (T2 d Hdd) as [-> ->]. destruct (T1 d Hdd) as [-> ->]. unfold q. split; ring.
  - intros i d Ha Hb. rewrite U2 by assumption. now apply U1.
  - fold q. destruct (Req_EM_T r 0) as [->|Nz]; [ring|field; exact Nz].
Qed.

(* ---------- the rigid body ---------- *)
Lemma rigid_loop_spec w r0 ids : finite_masses w ids -> forall fx fy J tau, rigid_loop w r0 ids fx fy J tau =
  Some (fx + force_on w ids 0%nat, fy + force_on w ids 1%nat, J + inertia w r0 ids, tau - torque_about w r0 ids).
Proof.
  induction ids as [|a l IH]; intros Hf fx fy J tau; cbn [rigid_loop].
  - unfold force_on, inertia, torque_about, sum_over. cbn. now rewrite !Rplus_0_r, Rminus_0_r.
  - rewrite recip_pos by (apply Hf; now left). rewrite IH by (intros i Hi; apply Hf; now right). unfold force_on, inertia, torque_about. rewrite !so_cons. cbv zeta.
    f_equal. f_equal; [f_equal; [f_equal; ring|ring]|ring].
Qed.
Lemma set2_fold (g h : nat -> R) ids : NoDup ids -> forall f i d,
  fold_left (fun f id => set_at id 1 (h id) (set_at id 0 (g id) f)) ids f i d =
  if member i ids then match d with 0%nat => g i | 1%nat => h i | _ => f i d end else f i d.
Proof.
  intros Hn f i d. rewrite (fold_local (fun id d a => match d with 0%nat => g id | 1%nat => h id | _ => a end) (fun id f => set_at id 1 (h id) (set_at id 0 (g id) f))); [reflexivity| |exact Hn].
  intros id f0 i0 d0. unfold set_at. destruct (Nat.eqb_spec i0 id) as [->|]; [|reflexivity]. destruct d0 as [|[|d0]]; reflexivity.
Qed.
