(* C133-C135: rotation of particles and friction in two dimensions. *)
From Coq Require Import Reals List Bool Arith Lia Lra ZifyBool.
Import ListNotations.
From Verif Require Import Model_Forces Spec_Forces Proofs_Forces2 Model_Spin Spec_Spin.
Local Open Scope R_scope.

(* ---------- C133 *)
Lemma kick_rest_spec : forall fuel i size dt im sg tq om k, (size - i < fuel)%nat ->
  kick_rest fuel i size dt im sg tq om k = if ((i <=? k) && (k <? size))%nat then om k + dt * (im k / (sg k * sg k)) * tq k else om k.
Proof.
  induction fuel as [|f IH]; intros i size dt im sg tq om k H; [lia|]. cbn [kick_rest]. destruct (i <? size)%nat eqn:E.
  - rewrite IH by lia. unfold set_at. destruct (k =? i)%nat eqn:K.
    + assert (k = i) by lia. subst k. assert ((i + 1 <=? i)%nat = false) as -> by lia. assert ((i <=? i)%nat = true) as -> by lia. rewrite E. reflexivity.
    + assert ((i + 1 <=? k)%nat = (i <=? k)%nat) as -> by lia. reflexivity.
  - assert (((i <=? k) && (k <? size))%nat = false) as -> by lia. reflexivity.
Qed.
Lemma kick_simd_spec : forall fuel i w size dt im sg tq om k, (0 < w)%nat -> (size - i < fuel)%nat -> (i <= size)%nat ->
  kick_simd fuel i w size dt im sg tq om k = if ((i <=? k) && (k <? size))%nat then om k + dt * (im k / (sg k * sg k)) * tq k else om k.
Proof.
  induction fuel as [|f IH]; intros i w size dt im sg tq om k Hw H Hi; [lia|]. cbn [kick_simd]. destruct (i + w <=? size)%nat eqn:E.
  - rewrite IH by lia. unfold kick_vector. destruct ((i <=? k) && (k <? i + w))%nat eqn:K.
    + assert (((i + w <=? k) && (k <? size))%nat = false) as -> by lia. assert (((i <=? k) && (k <? size))%nat = true) as -> by lia. reflexivity.
    + assert (((i + w <=? k) && (k <? size))%nat = ((i <=? k) && (k <? size))%nat) as -> by lia. reflexivity.
  - apply kick_rest_spec. lia.
Qed.
Lemma kick_plain_spec : forall fuel i size hdt im sg tq om k, (size - i < fuel)%nat ->
  kick_plain fuel i size hdt im sg tq om k = if ((i <=? k) && (k <? size) && Nat.even (k - i))%nat then om k + hdt * (2 * im k / (sg k * sg k)) * tq k else om k.
Proof.
  induction fuel as [|f IH]; intros i size hdt im sg tq om k H; [lia|]. cbn [kick_plain]. destruct (i <? size)%nat eqn:E.
  - rewrite IH by lia. unfold set_at. destruct (k =? i)%nat eqn:K.
    + assert (k = i) by lia. subst k. assert ((i + 2 <=? i)%nat = false) as -> by lia. assert ((i <=? i)%nat = true) as -> by lia. rewrite E, Nat.sub_diag. reflexivity.
    + destruct (k =? i + 1)%nat eqn:K1.
      * assert (k = (i + 1)%nat) by lia. subst k. assert ((i + 2 <=? i + 1)%nat = false) as -> by lia. replace (i + 1 - i)%nat with 1%nat by lia. cbn [Nat.even]. rewrite Bool.andb_false_r. reflexivity.
      * assert ((i + 2 <=? k)%nat = (i <=? k)%nat) as -> by lia. destruct (i <=? k)%nat eqn:L; [|reflexivity].
        replace (k - i)%nat with (S (S (k - (i + 2)))) by lia. reflexivity.
  - assert (((i <=? k) && (k <? size))%nat = false) as -> by lia. reflexivity.
Qed.
Lemma turn_rest_spec : forall fuel i size dt om th k, (size - i < fuel)%nat ->
  turn_rest fuel i size dt om th k = if ((i <=? k) && (k <? size))%nat then th k + dt * om k else th k.
Proof.
  induction fuel as [|f IH]; intros i size dt om th k H; [lia|]. cbn [turn_rest]. destruct (i <? size)%nat eqn:E.
  - rewrite IH by lia. unfold set_at. destruct (k =? i)%nat eqn:K.
    + assert (k = i) by lia. subst k. assert ((i + 1 <=? i)%nat = false) as -> by lia. assert ((i <=? i)%nat = true) as -> by lia. rewrite E. reflexivity.
    + assert ((i + 1 <=? k)%nat = (i <=? k)%nat) as -> by lia. reflexivity.
  - assert (((i <=? k) && (k <? size))%nat = false) as -> by lia. reflexivity.
Qed.
Lemma turn_simd_spec : forall fuel i w size dt om th k, (0 < w)%nat -> (size - i < fuel)%nat -> (i <= size)%nat ->
  turn_simd fuel i w size dt om th k = if ((i <=? k) && (k <? size))%nat then th k + dt * om k else th k.
Proof.
  induction fuel as [|f IH]; intros i w size dt om th k Hw H Hi; [lia|]. cbn [turn_simd]. destruct (i + w <=? size)%nat eqn:E.
  - rewrite IH by lia. unfold turn_vector. destruct ((i <=? k) && (k <? i + w))%nat eqn:K.
    + assert (((i + w <=? k) && (k <? size))%nat = false) as -> by lia. assert (((i <=? k) && (k <? size))%nat = true) as -> by lia. ring.
    + assert (((i + w <=? k) && (k <? size))%nat = ((i <=? k) && (k <? size))%nat) as -> by lia. reflexivity.
  - apply turn_rest_spec. lia.
Qed.
Lemma acc_eq im sg tq : sg <> 0 -> 1 / 2 * acceleration im sg tq = im / (sg * sg) * tq.
Proof.
  intros H. unfold acceleration. destruct (Req_EM_T im 0) as [E|N]; [subst im; field; exact H|]. unfold inertia. field. auto.
Qed.
Lemma velocity_simd simd size dt im sg tq om k : (0 < simd)%nat -> sg k <> 0 ->
  update_velocity simd size dt im sg tq om k = if (k <? size)%nat then om k + dt / 2 * acceleration (im k) (sg k) (tq k) else om k.
Proof.
  intros H N. unfold update_velocity. destruct (size =? 0)%nat eqn:E; [assert ((k <? size)%nat = false) as -> by lia; reflexivity|].
  assert ((simd =? 0)%nat = false) as -> by lia. rewrite kick_simd_spec by lia. cbn [Nat.leb andb]. destruct (k <? size)%nat; [|reflexivity].
  assert (A := acc_eq (im k) (sg k) (tq k) N). replace (dt / 2 * acceleration (im k) (sg k) (tq k)) with (dt * (1 / 2 * acceleration (im k) (sg k) (tq k))) by field. rewrite A. field. exact N.
Qed.
Lemma velocity_plain size dt im sg tq om k : sg k <> 0 ->
  update_velocity 0 size dt im sg tq om k = if ((k <? size) && Nat.even k)%nat then om k + dt / 2 * acceleration (im k) (sg k) (tq k) else om k.
Proof.
  intros N. unfold update_velocity. destruct (size =? 0)%nat eqn:E; [assert ((k <? size)%nat = false) as -> by lia; reflexivity|].
  cbn [Nat.eqb]. rewrite kick_plain_spec by lia. cbn [Nat.leb andb]. rewrite Nat.sub_0_r. destruct ((k <? size) && Nat.even k)%nat; [|reflexivity].
  assert (A := acc_eq (im k) (sg k) (tq k) N). replace (dt / 2 * acceleration (im k) (sg k) (tq k)) with (dt * (1 / 2 * acceleration (im k) (sg k) (tq k))) by field. rewrite A. unfold Rdiv. field. exact N.
Qed.
Lemma position_any simd size dt om th k : update_position simd size dt om th k = if (k <? size)%nat then th k + dt * om k else th k.
Proof.
  unfold update_position. destruct (size =? 0)%nat eqn:E; [assert ((k <? size)%nat = false) as -> by lia; reflexivity|].
  destruct (simd =? 0)%nat eqn:S0; [rewrite turn_rest_spec by lia|rewrite turn_simd_spec by lia]; reflexivity.
Qed.

(* C133. One Hooke interaction, compiled with SIMD instructions of any width: in a step every particle is kicked for half the time
   with the torque before, turned, and kicked for the other half with the new torque. *)
Theorem C133_step_partial : forall simd size dt im sg tq tq' om th om' th', (0 < simd)%nat -> (forall k, (k < size)%nat -> 0 < sg k) ->
  spin_step 1 simd size dt im sg tq tq' (om, th) = (om', th') ->
  forall k, ((k < size)%nat ->
    let half := om k + dt / 2 * acceleration (im k) (sg k) (tq k) in
    th' k = th k + dt * half /\ om' k = half + dt / 2 * acceleration (im k) (sg k) (tq' k)) /\
  ((size <= k)%nat -> th' k = th k /\ om' k = om k).
Proof.
  intros simd size dt im sg tq tq' om th om' th' Hw Hsg E k. cbn [spin_step post_forces pre_forces] in E. unfold spin_step in E. cbn [post_forces pre_forces] in E. injection E as <- <-.
  split; intros Hk.
  - assert (N : sg k <> 0) by (assert (A := Hsg k Hk); lra). assert (L : (k <? size)%nat = true) by lia. rewrite position_any, !velocity_simd, L by assumption. auto.
  - assert (L : (k <? size)%nat = false) by lia. rewrite position_any, L. split; [reflexivity|].
    unfold update_velocity. destruct (size =? 0)%nat eqn:E; [reflexivity|]. assert ((simd =? 0)%nat = false) as -> by lia. rewrite !kick_simd_spec by lia. rewrite L. cbn [Nat.leb andb]. reflexivity.
Qed.
Print Assumptions C133_step_partial.
Example C133_step_case : exists om' th', spin_step 1 4 5 (1/10) (fun _ => 1) (fun _ => 2) (fun _ => 4) (fun k => INR k) (fun _ => 0, fun _ => 0) = (om', th') /\
  om' 3%nat = 7 / 40 /\ th' 4%nat = 1 / 100 /\ om' 4%nat = 1 / 5.
Proof.
  destruct (spin_step 1 4 5 (1/10) (fun _ => 1) (fun _ => 2) (fun _ => 4) (fun k => INR k) (fun _ => 0, fun _ => 0)) as [om' th'] eqn:E. exists om', th'. split; [reflexivity|].
  assert (H := C133_step_partial 4 5 (1/10) (fun _ => 1) (fun _ => 2) (fun _ => 4) (fun k => INR k) (fun _ => 0) (fun _ => 0) om' th' ltac:(lia) ltac:(intros; lra) E).
  destruct (H 3%nat) as [A _]. destruct (H 4%nat) as [B _]. cbv zeta in A, B. destruct (A ltac:(lia)) as [_ A2]. destruct (B ltac:(lia)) as [B1 B2]. rewrite A2, B1, B2.
  unfold acceleration. destruct (Req_EM_T 1 0) as [Z|_]; [lra|]. unfold inertia. cbn [INR]. repeat split; field.
Qed.

(* The spin angular momentum changes by the time step times the mean of the total torques before and after. *)
Theorem C133_momentum_partial : forall simd size dt im sg tq tq' om th om' th', (0 < simd)%nat -> (forall k, (k < size)%nat -> 0 < sg k /\ 0 < im k) ->
  spin_step 1 simd size dt im sg tq tq' (om, th) = (om', th') ->
  sum_to size (fun k => inertia (im k) (sg k) * om' k) = sum_to size (fun k => inertia (im k) (sg k) * om k) + dt * ((sum_to size tq + sum_to size tq') / 2).
Proof.
  intros simd size dt im sg tq tq' om th om' th' Hw Hsg E.
  assert (G : forall m, (m <= size)%nat -> sum_to m (fun k => inertia (im k) (sg k) * om' k) = sum_to m (fun k => inertia (im k) (sg k) * om k) + dt * ((sum_to m tq + sum_to m tq') / 2)); [|apply G; lia].
  induction m as [|m IH]; intros Hm; cbn [sum_to]; [field|]. rewrite IH by lia.
  destruct (C133_step_partial simd size dt im sg tq tq' om th om' th' Hw (fun k Hk => proj1 (Hsg k Hk)) E m) as [A _]. cbv zeta in A. destruct (A ltac:(lia)) as [_ B]. rewrite B.
  destruct (Hsg m ltac:(lia)) as [H1 H2]. unfold acceleration. destruct (Req_EM_T (im m) 0) as [Z|_]; [lra|]. unfold inertia. field. split; lra.
Qed.
Print Assumptions C133_momentum_partial.

(* C133 fails when compiled without SIMD instructions, as the Makefile does on common machines: the loop makes steps of two, and the
   particles at odd places never change their angular velocity. *)
Theorem C133_without_simd_refuted : forall hookes size dt im sg tq tq' om th om' th' k, Nat.odd k = true ->
  spin_step hookes 0 size dt im sg tq tq' (om, th) = (om', th') -> om' k = om k.
Proof.
  intros hookes size dt im sg tq tq' om th om' th' k Ho E.
  assert (U : forall dt tq om, update_velocity 0 size dt im sg tq om k = om k).
  { intros dt0 tq0 om0. unfold update_velocity. destruct (size =? 0)%nat; [reflexivity|]. cbn [Nat.eqb]. rewrite kick_plain_spec by lia. rewrite Nat.sub_0_r.
    rewrite <- Nat.negb_odd, Ho. cbn [negb]. rewrite Bool.andb_false_r. reflexivity. }
  assert (P : forall h s, fst (pre_forces h 0 size dt im sg tq s) k = fst s k).
  { induction h as [|h IH]; intros [o t]; [reflexivity|]. cbn [pre_forces]. rewrite IH. cbn [fst]. apply U. }
  assert (Q : forall h s, fst (post_forces h 0 size dt im sg tq' s) k = fst s k).
  { induction h as [|h IH]; intros [o t]; [reflexivity|]. cbn [post_forces]. rewrite IH. cbn [fst]. apply U. }
  unfold spin_step in E. change om' with (fst (om', th')). rewrite <- E, Q, P. reflexivity.
Qed.
Print Assumptions C133_without_simd_refuted.
Example C133_without_simd_case : exists om' th', spin_step 1 0 2 (1/10) (fun _ => 1) (fun _ => 1) (fun _ => 4) (fun _ => 4) (fun _ => 0, fun _ => 0) = (om', th') /\
  om' 1%nat = 0 /\ om' 0%nat = 4 / 5.
Proof.
  destruct (spin_step 1 0 2 (1/10) (fun _ => 1) (fun _ => 1) (fun _ => 4) (fun _ => 4) (fun _ => 0, fun _ => 0)) as [om' th'] eqn:E. exists om', th'. split; [reflexivity|].
  split; [exact (C133_without_simd_refuted _ _ _ _ _ _ _ _ _ _ _ 1%nat eq_refl E)|].
  unfold spin_step in E. cbn [post_forces pre_forces] in E. injection E as <- _. rewrite !velocity_plain by lra. cbn [Nat.ltb Nat.leb Nat.even andb].
  unfold acceleration. destruct (Req_EM_T 1 0) as [Z|_]; [lra|]. unfold inertia. field.
Qed.
(* C133 fails with several Hooke interactions (different pairs of types): each of them has an integrator of its own, and the torques
   act as many times. *)
Theorem C133_several_interactions_refuted : forall hookes simd size dt im sg tq tq' om th om' th', (0 < simd)%nat -> (forall k, (k < size)%nat -> 0 < sg k) ->
  spin_step hookes simd size dt im sg tq tq' (om, th) = (om', th') ->
  forall k, (k < size)%nat -> om' k = om k + INR hookes * (dt / 2 * acceleration (im k) (sg k) (tq k) + dt / 2 * acceleration (im k) (sg k) (tq' k)).
Proof.
  intros hookes simd size dt im sg tq tq' om th om' th' Hw Hsg E k Hk.
  assert (N : sg k <> 0) by (assert (A := Hsg k Hk); lra). assert (L : (k <? size)%nat = true) by lia.
  assert (P : forall h s, fst (pre_forces h simd size dt im sg tq s) k = fst s k + INR h * (dt / 2 * acceleration (im k) (sg k) (tq k))).
  { induction h as [|h IH]; intros [o t]; [cbn; ring|]. cbn [pre_forces]. rewrite IH. cbn [fst]. rewrite velocity_simd, L, S_INR by assumption. ring. }
  assert (Q : forall h s, fst (post_forces h simd size dt im sg tq' s) k = fst s k + INR h * (dt / 2 * acceleration (im k) (sg k) (tq' k))).
  { induction h as [|h IH]; intros [o t]; [cbn; ring|]. cbn [post_forces]. rewrite IH. cbn [fst]. rewrite velocity_simd, L, S_INR by assumption. ring. }
  unfold spin_step in E. change om' with (fst (om', th')). rewrite <- E, Q, P. cbn [fst]. ring.
Qed.
Print Assumptions C133_several_interactions_refuted.

(* ---------- C134 *)
Lemma m_eff_reduced a b : 0 <= a -> 0 <= b -> m_eff a b = reduced_mass a b.
Proof.
  intros Ha Hb. unfold m_eff, reduced_mass. destruct (Req_EM_T a 0) as [|Na]; [reflexivity|]. destruct (Req_EM_T b 0) as [|Nb]; [reflexivity|]. field. repeat split; lra.
Qed.
Lemma hooke_run kn gn gt mu c e w i j st : e_dims e = 2%nat -> i <> j -> 0 <= e_sg e i -> 0 <= e_sg e j -> 0 <= e_im e i -> 0 <= e_im e j -> 0 <= gt -> 0 <= mu ->
  let X := shift_of e w i j in let r := norm 2 X in let n := vscale (1 / r) X in let t := tangent n in
  0 < r < (e_sg e i + e_sg e j) * c ->
  exists f0 Ft st', do_pair (Hooke kn gn gt mu) c e w i j st = Some st' /\
    (forall a d, f0 a d = F st a d) /\
    (forall a d, F st' a d = f0 a d + (if ((a =? i) && (d <? 2))%nat then Ft * t d else 0) + (if ((a =? j) && (d <? 2))%nat then - Ft * t d else 0)) /\
    (forall a, Tq st' a = Tq st a - (if (a =? i)%nat then Ft * e_sg e i else 0) - (if (a =? j)%nat then Ft * e_sg e j else 0)) /\
    pot st' = pot st /\
    let N := Rmax 0 (kn * (e_sg e i + e_sg e j - r) - reduced_mass (e_im e i) (e_im e j) * gn * dot 2 (vsub (e_v e i) (e_v e j)) n) in
    Rabs Ft <= mu * N /\ Ft * dot 2 (surface_velocity e i j n) t <= 0 /\ (mu = 0 -> Ft = 0) /\ (dot 2 (surface_velocity e i j n) t = 0 -> Ft = 0).
Proof.
  intros HD Hij Hi Hj Mi Mj Hg Hm X r n t Hr.
  assert (IR : do_pair (Hooke kn gn gt mu) c e w i j st = kernel (Hooke kn gn gt mu) c e i j (e_sg e i) (e_sg e j) (dot (e_dims e) X X) X st).
  { destruct Hr as [Hr1 Hr2]. apply in_range_pair; [apply Rlt_le, (Rlt_trans _ _ _ Hr1 Hr2)|]. rewrite HD. exact Hr2. }
  assert (RN : r <> 0) by (apply Rgt_not_eq; apply Hr).
  rewrite IR. cbn [kernel]. unfold hooke. rewrite HD. assert (Q : dot 2 X X = r * r) by (unfold r; now rewrite norm_sq).
  destruct (Req_EM_T (dot 2 X X) 0) as [Z|_]; [exfalso; rewrite Q in Z; assert (P0 : 0 < r * r) by (apply Rmult_lt_0_compat; apply Hr); rewrite Z in P0; exact (Rlt_irrefl _ P0)|]. fold r. change (sqrt (dot 2 X X)) with r. fold n. cbn [Nat.eqb].
  rewrite m_eff_reduced by assumption. set (M := reduced_mass (e_im e i) (e_im e j)).
  assert (HM : 0 <= M). { unfold M, reduced_mass. destruct (Req_EM_T _ 0); [lra|]. destruct (Req_EM_T _ 0); [lra|]. unfold Rdiv. rewrite Rmult_1_l. left. apply Rinv_0_lt_compat. lra. }
  set (V := vsub (e_v e i) (e_v e j)). set (vn := dot 2 V n). set (Fn := Rmax 0 (kn * (e_sg e i + e_sg e j - r) - M * gn * vn)).
  change (fun d : nat => match d with | 0%nat => - n 1%nat | S _ => n 0%nat end) with t.
  assert (U : n 0%nat * n 0%nat + n 1%nat * n 1%nat = 1).
  { unfold n, vscale. cbn [dot] in Q. replace (1 / r * X 0%nat * (1 / r * X 0%nat) + 1 / r * X 1%nat * (1 / r * X 1%nat)) with ((X 1%nat * X 1%nat + (X 0%nat * X 0%nat + 0)) / (r * r)) by (field; exact RN). rewrite Q. field. exact RN. }
  set (slip := dot 2 (surface_velocity e i j n) t).
  assert (HV : dot 2 (vsub V (vscale vn n)) t - (e_om e i * e_sg e i + e_om e j * e_sg e j) = slip).
  { unfold slip, surface_velocity, vn, V, t, tangent, spin_at, vadd, vsub, vscale. cbn [dot].
    set (a := n 0%nat) in *. set (b := n 1%nat) in *. set (p := e_v e i 0%nat). set (q := e_v e i 1%nat). set (p' := e_v e j 0%nat). set (q' := e_v e j 1%nat).
    set (A := e_sg e i). set (B := e_sg e j). set (o := e_om e i). set (o' := e_om e j).
    match goal with |- ?l = ?r => cut (l - r = (o * A + o' * B) * (a * a + b * b - 1)); [intros K; rewrite U in K; lra|ring] end. }
  rewrite HV. set (Ft0 := - (M * gt * slip)). assert (HN : 0 <= Fn) by apply Rmax_l.
  set (Ft := if Rlt_dec Ft0 (- (mu * Fn)) then - mu * Fn else if Rlt_dec (mu * Fn) Ft0 then mu * Fn else Ft0).
  exists (fun a d => F st a d), Ft. eexists. split; [reflexivity|]. cbn [book F Tq pot].
  split; [reflexivity|]. split; [|split; [|split]].
  - intros a d. unfold add_scaled. rewrite ?HD. destruct (a =? i)%nat eqn:Ai, (a =? j)%nat eqn:Aj, (d <? 2)%nat eqn:D2; cbn [andb]; try ring; exfalso; apply Hij; apply Nat.eqb_eq in Ai, Aj; congruence.
  - intros a. destruct (a =? i)%nat eqn:Ai, (a =? j)%nat eqn:Aj; try ring; try (exfalso; apply Hij; apply Nat.eqb_eq in Ai, Aj; congruence).
  - destruct (e_pot e); cbn; ring.
  - assert (HB : 0 <= mu * Fn) by (apply Rmult_le_pos; assumption). assert (HK : 0 <= M * gt) by (apply Rmult_le_pos; assumption).
    assert (C : (Ft = - (mu * Fn) /\ Ft0 < - (mu * Fn)) \/ (Ft = mu * Fn /\ mu * Fn < Ft0) \/ (Ft = Ft0 /\ - (mu * Fn) <= Ft0 <= mu * Fn)).
    { unfold Ft. destruct (Rlt_dec _ _) as [L|L]; [left; split; [ring|exact L]|]. destruct (Rlt_dec _ _) as [L'|L']; [right; left; auto|right; right; split; [reflexivity|lra]]. }
    assert (S2 : Ft0 * slip <= 0). { unfold Ft0. assert (0 <= slip * slip) by nra. assert (0 <= M * gt * (slip * slip)) by (apply Rmult_le_pos; assumption). lra. }
    clearbody Ft. split; [|split; [|split]].
    + apply Rabs_le. lra.
    + set (kk := M * gt) in *. set (B := mu * Fn) in *. unfold Ft0 in C, S2. fold kk in C, S2. clearbody kk B slip. clear - C S2 HB HK.
      destruct C as [[-> L]|[[-> L]|[-> _]]]; [| |exact S2].
      * destruct (Rle_lt_dec 0 slip) as [P|P]; [nra|]. exfalso. assert (kk * slip <= 0) by nra. lra.
      * destruct (Rle_lt_dec slip 0) as [P|P]; [nra|]. exfalso. assert (0 <= kk * slip) by nra. lra.
    + intros ->. lra.
    + intros Z. assert (F0 : Ft0 = 0) by (unfold Ft0; rewrite Z; ring). lra.
Qed.

(* C134. Friction of a Hooke contact in two dimensions, that is, what is added to the same contact without friction (mu = 0): opposite
   forces along the surfaces, whose moments about the centres are the torques; nothing happens to other particles. The force is at most
   mu times the normal force, does not push the surfaces in the direction in which they slide already, so the power is never positive,
   and is absent if they do not slide. *)
Theorem C134_friction : forall kn gn gt mu c e w i j st, e_dims e = 2%nat -> i <> j -> 0 <= e_sg e i -> 0 <= e_sg e j -> 0 <= e_im e i -> 0 <= e_im e j -> 0 <= gt -> 0 <= mu ->
  let X := shift_of e w i j in let r := norm 2 X in let n := vscale (1 / r) X in let t := tangent n in
  0 < r < (e_sg e i + e_sg e j) * c ->
  exists Ft st0 st1, do_pair (Hooke kn gn gt 0) c e w i j st = Some st0 /\ do_pair (Hooke kn gn gt mu) c e w i j st = Some st1 /\
    opposite 2 i j (vscale Ft t) (F st0) (F st1) /\
    Tq st1 i = Tq st0 i + cross (vscale (- e_sg e i) n) (vscale Ft t) /\
    Tq st1 j = Tq st0 j + cross (vscale (e_sg e j) n) (vscale (- Ft) t) /\
    (forall a, a <> i -> a <> j -> Tq st1 a = Tq st0 a) /\ (forall a, Tq st0 a = Tq st a) /\
    Rabs Ft <= mu * Rmax 0 (kn * (e_sg e i + e_sg e j - r) - reduced_mass (e_im e i) (e_im e j) * gn * dot 2 (vsub (e_v e i) (e_v e j)) n) /\
    dot 2 (vscale Ft t) (surface_velocity e i j n) <= 0 /\
    (dot 2 (surface_velocity e i j n) t = 0 -> Ft = 0).
Proof.
  intros kn gn gt mu c e w i j st HD Hij Hi Hj Mi Mj Hg Hm X r n t Hr.
  destruct (hooke_run kn gn gt 0 c e w i j st HD Hij Hi Hj Mi Mj Hg ltac:(lra) Hr) as (f0 & Ft0 & st0 & E0 & F0 & FF0 & T0 & _ & _ & _ & Z & _).
  destruct (hooke_run kn gn gt mu c e w i j st HD Hij Hi Hj Mi Mj Hg Hm Hr) as (f1 & Ft & st1 & E1 & F1 & FF1 & T1 & _ & B & PW & _ & NS).
  specialize (Z eq_refl). subst Ft0.
  assert (U : n 0%nat * n 0%nat + n 1%nat * n 1%nat = 1).
  { assert (RN : r <> 0) by (apply Rgt_not_eq; apply Hr). assert (Q : dot 2 X X = r * r) by (unfold r; now rewrite norm_sq). unfold n, vscale. cbn [dot] in Q.
    replace (1 / r * X 0%nat * (1 / r * X 0%nat) + 1 / r * X 1%nat * (1 / r * X 1%nat)) with ((X 1%nat * X 1%nat + (X 0%nat * X 0%nat + 0)) / (r * r)) by (field; exact RN). rewrite Q. field. exact RN. }
  assert (CR : forall u v, cross (vscale u n) (vscale v t) = u * v).
  { intros u v. unfold cross, vscale at 1 2 3 4, t, tangent. replace (u * n 0%nat * (v * n 0%nat) - u * n 1%nat * (v * - n 1%nat)) with (u * v * (n 0%nat * n 0%nat + n 1%nat * n 1%nat)) by ring. rewrite U. ring. }
  exists Ft, st0, st1. split; [exact E0|]. split; [exact E1|].
  split. { intros a d. fold t in FF0, FF1. fold n in FF0, FF1. rewrite FF1, FF0, F0, F1. change (tangent (vscale (1 / norm 2 (shift_of e w i j)) (shift_of e w i j))) with t. unfold vscale.
    destruct (a =? i)%nat, (a =? j)%nat, (d <? 2)%nat; cbn [andb]; ring. }
  assert (Eij : (i =? j)%nat = false) by (apply Nat.eqb_neq; exact Hij). assert (Eji : (j =? i)%nat = false) by (rewrite Nat.eqb_sym; exact Eij).
  split. { rewrite T1, T0, CR, Nat.eqb_refl, Eij. ring. } split. { rewrite T1, T0, CR, Nat.eqb_refl, Eji. ring. }
  split. { intros a Na Nb. rewrite T1, T0. apply Nat.eqb_neq in Na, Nb. rewrite Na, Nb. ring. }
  split. { intros a. rewrite T0. destruct (a =? i)%nat, (a =? j)%nat; ring. }
  split; [exact B|]. split; [|exact NS].
  unfold vscale. cbn [dot]. cbn [dot] in PW. change (tangent (vscale (1 / norm 2 (shift_of e w i j)) (shift_of e w i j))) with t in PW. change (vscale (1 / norm 2 (shift_of e w i j)) (shift_of e w i j)) with n in PW. change (fun d : nat => 1 / r * X d) with n. eapply Rle_trans; [|exact PW]. right. ring.
Qed.
Print Assumptions C134_friction.

(* A disk at rest on which a spinning one rolls. *)
Definition spin_env : env := mkEnv 2 (fun i d => match i, d with O, O => 3 / 2 | _, _ => 0 end) (fun _ _ => 0) (fun _ => 1) (fun _ => 1)
  (fun i => match i with O => 1 | _ => 0 end) (fun _ => false) (fun _ => 0) true true.
Lemma spin_norm : norm 2 (shift_of spin_env false 0 1) = 3 / 2.
Proof. unfold norm, shift_of, vsub, spin_env. cbn [dot e_x]. replace ((0 - 0) * (0 - 0) + ((3 / 2 - 0) * (3 / 2 - 0) + 0)) with ((3 / 2) * (3 / 2)) by field. apply sqrt_square. lra. Qed.
Example C134_case : exists st, do_pair (Hooke 100 1 1 (1 / 2)) 1 spin_env false 0 1 (mkF (fun _ _ => 0) (fun _ => 0) 0 0) = Some st /\
  F st 0%nat 1%nat = 1 / 2 /\ F st 1%nat 1%nat = - (1 / 2) /\ Tq st 0%nat = - (1 / 2) /\ Tq st 1%nat = - (1 / 2).
Proof.
  rewrite in_range_pair by (change (e_dims spin_env) with 2%nat; rewrite ?spin_norm; cbn; lra). cbn [kernel]. unfold hooke. change (e_dims spin_env) with 2%nat. cbn [Nat.eqb].
  assert (Q : dot 2 (shift_of spin_env false 0 1) (shift_of spin_env false 0 1) = 9 / 4) by (rewrite <- norm_sq, spin_norm; field). rewrite Q. destruct (Req_EM_T _ 0) as [Z|_]; [lra|].
  assert (SQ : sqrt (9 / 4) = 3 / 2) by (rewrite <- Q; exact spin_norm). rewrite SQ.
  assert (ME : m_eff (e_im spin_env 0) (e_im spin_env 1) = 1 / 2). { unfold m_eff. cbn [e_im spin_env]. destruct (Req_EM_T 1 0); [lra|]. field. } rewrite ME.
  set (vt := dot 2 (vsub _ _) _ - _). assert (VT : vt = - 1). { unfold vt, vsub, vscale, shift_of, vsub. cbn [dot e_v e_x e_om e_sg spin_env]. field. }
  set (Fn := Rmax 0 _). assert (FN : Fn = 50). { unfold Fn, vsub, vscale, shift_of, vsub. cbn [dot e_v e_x e_om e_sg spin_env]. rewrite Rmax_right; field_simplify; lra. }
  rewrite VT, FN. destruct (Rlt_dec _ _) as [L|_]; [lra|]. destruct (Rlt_dec _ _) as [L|_]; [lra|]. eexists. split; [reflexivity|]. cbn [book F Tq e_sg spin_env]. unfold add_scaled, vscale, shift_of, vsub. cbn [Nat.eqb Nat.ltb Nat.leb andb e_x spin_env]. repeat split; field.
Qed.

(* ---------- C135 *)
(* C135. What the friction of a contact adds to the angular momentum of the two particles, orbital and spin, about any origin: it would
   be nothing if the surfaces touched at one point, and is the friction force times the overlap. *)
Theorem C135_overlap_partial : forall kn gn gt mu c e i j st, e_dims e = 2%nat -> i <> j -> 0 <= e_sg e i -> 0 <= e_sg e j -> 0 <= e_im e i -> 0 <= e_im e j -> 0 <= gt -> 0 <= mu ->
  let X := shift_of e false i j in let r := norm 2 X in let n := vscale (1 / r) X in let t := tangent n in
  0 < r < (e_sg e i + e_sg e j) * c ->
  exists Ft st0 st1, do_pair (Hooke kn gn gt 0) c e false i j st = Some st0 /\ do_pair (Hooke kn gn gt mu) c e false i j st = Some st1 /\
    opposite 2 i j (vscale Ft t) (F st0) (F st1) /\
    pair_torque (e_x e) (F st1) (Tq st1) i j = pair_torque (e_x e) (F st0) (Tq st0) i j - Ft * (e_sg e i + e_sg e j - r).
Proof.
  intros kn gn gt mu c e i j st HD Hij Hi Hj Mi Mj Hg Hm X r n t Hr.
  destruct (C134_friction kn gn gt mu c e false i j st HD Hij Hi Hj Mi Mj Hg Hm Hr) as (Ft & st0 & st1 & E0 & E1 & O & T1 & T2 & _).
  exists Ft, st0, st1. split; [exact E0|]. split; [exact E1|]. split; [exact O|].
  assert (RN : r <> 0) by (apply Rgt_not_eq; apply Hr).
  assert (U : X 0%nat * X 0%nat + X 1%nat * X 1%nat = r * r).
  { assert (Q : dot 2 X X = r * r) by (unfold r; now rewrite norm_sq). cbn [dot] in Q. rewrite <- Q. ring. }
  unfold pair_torque. rewrite T1, T2. clear T1 T2. unfold cross.
  assert (Eij : (i =? j)%nat = false) by (apply Nat.eqb_neq; exact Hij). assert (Eji : (j =? i)%nat = false) by (rewrite Nat.eqb_sym; exact Eij).
  rewrite (O i 0%nat), (O i 1%nat), (O j 0%nat), (O j 1%nat). rewrite !Nat.eqb_refl, Eij, Eji. cbn [Nat.ltb Nat.leb].
  change (tangent (vscale (1 / norm 2 (shift_of e false i j)) (shift_of e false i j))) with t. change (vscale (1 / norm 2 (shift_of e false i j)) (shift_of e false i j)) with n.
  assert (X0 : X 0%nat = e_x e i 0%nat - e_x e j 0%nat) by reflexivity. assert (X1 : X 1%nat = e_x e i 1%nat - e_x e j 1%nat) by reflexivity.
  unfold vscale, t, tangent, n, vscale. clearbody r. 
  assert (E : e_x e i 0%nat = X 0%nat + e_x e j 0%nat) by (rewrite X0; ring). assert (E' : e_x e i 1%nat = X 1%nat + e_x e j 1%nat) by (rewrite X1; ring). rewrite E, E'. clear X0 X1 E E' O.
  set (a := X 0%nat) in *. set (b := X 1%nat) in *. clearbody a b. set (A := e_sg e i). set (B := e_sg e j).
  match goal with |- ?l = ?rr => cut (l - rr = Ft * (a * a + b * b) / r - Ft * r + (Ft * (A + B)) * (1 - (a * a + b * b) / (r * r))) end.
  - rewrite U. intros K. replace (Ft * (r * r) / r - Ft * r + Ft * (A + B) * (1 - r * r / (r * r))) with 0 in K by (field; exact RN). lra.
  - field. exact RN.
Qed.
Print Assumptions C135_overlap_partial.
(* C135 fails: in range the surfaces always overlap (cutoff 1), and a spinning disk on one at rest gains 1/4 of angular momentum per time. *)
Theorem C135_conserved_refuted : exists st0 st1, do_pair (Hooke 100 1 1 0) 1 spin_env false 0 1 (mkF (fun _ _ => 0) (fun _ => 0) 0 0) = Some st0 /\
  do_pair (Hooke 100 1 1 (1 / 2)) 1 spin_env false 0 1 (mkF (fun _ _ => 0) (fun _ => 0) 0 0) = Some st1 /\
  pair_torque (e_x spin_env) (F st1) (Tq st1) 0 1 - pair_torque (e_x spin_env) (F st0) (Tq st0) 0 1 = - (1 / 4).
Proof.
  destruct (C135_overlap_partial 100 1 1 (1 / 2) 1 spin_env 0 1 (mkF (fun _ _ => 0) (fun _ => 0) 0 0)) as (Ft & st0 & st1 & E0 & E1 & O & T); try reflexivity; try discriminate; try (cbn; lra).
  { rewrite spin_norm. cbn. lra. }
  exists st0, st1. split; [exact E0|]. split; [exact E1|]. rewrite T, spin_norm.
  destruct C134_case as (s & E & A & _ & B & _). rewrite E1 in E. injection E as E. subst s.
  destruct (C134_friction 100 1 1 (1 / 2) 1 spin_env false 0 1 (mkF (fun _ _ => 0) (fun _ => 0) 0 0)) as (Ft' & s0 & s1 & G0 & G1 & O' & T1 & _ & _ & Z & _); try reflexivity; try discriminate; try (cbn; lra).
  { rewrite spin_norm. cbn. lra. }
  assert (s0 = st0) by congruence. assert (s1 = st1) by congruence. subst s0 s1.
  assert (FT : Ft = 1 / 2).
  { assert (K := O 1%nat 1%nat). assert (K' := O' 0%nat 1%nat). rewrite A in K'. cbn [Nat.eqb Nat.ltb Nat.leb] in K, K'. rewrite spin_norm in K, K'.
    assert (TT : forall f, vscale f (tangent (vscale (1 / (3 / 2)) (shift_of spin_env false 0 1))) 1%nat = f). { intros f. unfold vscale, tangent, shift_of, vsub. cbn [e_x spin_env]. field. }
    rewrite TT in K, K'. assert (T1' := T1). rewrite B, Z in T1'. cbn [Tq e_sg spin_env] in T1'.
    assert (K2 := O 0%nat 1%nat). rewrite A in K2. cbn [Nat.eqb Nat.ltb Nat.leb] in K2. rewrite spin_norm, TT in K2.
    assert (CR : cross (vscale (- (1)) (vscale (1 / norm 2 (shift_of spin_env false 0 1)) (shift_of spin_env false 0 1))) (vscale Ft' (tangent (vscale (1 / norm 2 (shift_of spin_env false 0 1)) (shift_of spin_env false 0 1)))) = - Ft').
    { rewrite spin_norm. unfold cross, vscale, tangent, shift_of, vsub. cbn [e_x spin_env]. field. }
    rewrite CR in T1'. lra. }
  rewrite FT. cbn [e_sg spin_env]. field.
Qed.
Print Assumptions C135_conserved_refuted.
