(* Claims about data objects of groups: C117 (rotation), C118 (persistence length), C119 (forces between polymers). *)
From Coq Require Import Reals List Bool Arith ZArith Lia Lra Permutation.
From Verif Require Import Model_Forces Spec_Forces Proofs_Forces Model_GroupMeasure Spec_GroupMeasure Proofs_GroupMeasure Proofs_GroupMeasure2
  Model_GroupData Spec_GroupData.
Import ListNotations.
Local Open Scope R_scope.

(* ---------- C117 ---------- *)
Lemma angular_loop_spec w c ids : finite_masses w ids -> forall J L T, angular_loop w c ids (J, L, T) =
  Some (J + sum_over (fun i => mass_of w i * dot (w_dims w) (disp w (w_x w i) c) (disp w (w_x w i) c)) ids,
        L + angular_momentum_about w c ids, T + torque_about w c ids).
Proof.
  induction ids as [|a l IH]; intros Hf J L T; cbn [angular_loop].
  - unfold angular_momentum_about, torque_about, sum_over. cbn. now rewrite !Rplus_0_r.
  - rewrite recip_pos by (apply Hf; now left). rewrite IH by (intros i Hi; apply Hf; now right).
    unfold angular_momentum_about, torque_about. rewrite !so_cons. f_equal. unfold cross2, vscale. f_equal; [f_equal|]; ring.
Qed.
Lemma torque_fold w c ids : forall T, fold_left (fun T id => T + cross2 (disp w (w_x w id) c) (w_f w id)) ids T = T + torque_about w c ids.
Proof.
  induction ids as [|a l IH]; intros T; cbn [fold_left].
  - unfold torque_about, sum_over. cbn. ring.
  - rewrite IH. unfold torque_about. rewrite so_cons. unfold cross2. ring.
Qed.

(* Moment of inertia, angular momentum and torque about the centre of mass; both objects report the same torque. *)
Theorem C117_angular_partial : forall w ids c, finite_masses w ids -> w_dims w = 2%nat -> findCenterOfMass w ids = Some c ->
  angular w ids = Some (inertia_about w c ids, angular_momentum_about w c ids, torque_about w c ids) /\
  group_torque w ids = Some (torque_about w c ids).
Proof.
  intros w ids c Hf H2 Hc. unfold angular, group_torque. rewrite Hc, (angular_loop_spec w c ids Hf), torque_fold.
  rewrite (inertia_dot w c ids H2). change (inertia w c ids) with (inertia_about w c ids). rewrite !Rplus_0_l. split; reflexivity.
Qed.
Print Assumptions C117_angular_partial.

(* A group that moves with velocity V and turns with angular velocity om about its centre of mass: the angular momentum is om times the
   moment of inertia. Forces that are the same acceleration g for all, plus forces towards or away from the centre: no torque. *)
Theorem C117_rotation_partial : forall w ids u c, finite_masses w ids -> w_dims w = 2%nat -> ids <> [] ->
  (forall d, (d < w_dims w)%nat -> w_lo w d < w_hi w d) -> (forall i, In i ids -> in_box w i) -> unwrapped w ids u -> compact w ids u ->
  findCenterOfMass w ids = Some c ->
  forall Vx Vy om gx gy (k : nat -> R),
  (forall i, In i ids -> w_v w i 0%nat = Vx - om * disp w (w_x w i) c 1%nat /\ w_v w i 1%nat = Vy + om * disp w (w_x w i) c 0%nat) ->
  (forall i, In i ids -> w_f w i 0%nat = mass_of w i * gx + k i * disp w (w_x w i) c 0%nat /\
                         w_f w i 1%nat = mass_of w i * gy + k i * disp w (w_x w i) c 1%nat) ->
  exists J, angular w ids = Some (J, om * J, 0) /\ J = inertia_about w c ids.
Proof.
  intros w ids u c Hf H2 He Hw Hb Hu Hcm Hc Vx Vy om gx gy k HV HF. exists (inertia_about w c ids). split; [|reflexivity].
  destruct (C117_angular_partial w ids c Hf H2 Hc) as [-> _].
  pose proof (com_relative w ids u Hf He Hw Hb Hu Hcm c Hc) as Hz. rewrite H2 in Hz.
  pose proof (Hz 0%nat ltac:(lia)) as Z0. pose proof (Hz 1%nat ltac:(lia)) as Z1.
  f_equal. f_equal; [f_equal|].
  - unfold angular_momentum_about, inertia_about.
    rewrite (so_ext _ (fun i => (Vy * (mass_of w i * disp w (w_x w i) c 0%nat) + - Vx * (mass_of w i * disp w (w_x w i) c 1%nat)) +
      om * (mass_of w i * (disp w (w_x w i) c 0%nat * disp w (w_x w i) c 0%nat + disp w (w_x w i) c 1%nat * disp w (w_x w i) c 1%nat)))).
    + rewrite !so_plus, !so_scale, Z0, Z1. ring.
    + intros i Hi. destruct (HV i Hi) as [-> ->]. ring.
  - unfold torque_about.
    rewrite (so_ext _ (fun i => gy * (mass_of w i * disp w (w_x w i) c 0%nat) + - gx * (mass_of w i * disp w (w_x w i) c 1%nat))).
    + rewrite so_plus, !so_scale, Z0, Z1. ring.
    + intros i Hi. destruct (HF i Hi) as [-> ->]. ring.
Qed.
Print Assumptions C117_rotation_partial.

(* Two particles of mass 1 at (-1, 0) and (1, 0) of a box without periodic axes that turn about (0, 0) with angular velocity 3. *)
Definition pair_world : world :=
  mkW 2 (fun i d => match d with 0%nat => (match i with 0%nat => -1 | _ => 1 end) | _ => 0 end)
      (fun i d => match d with 1%nat => (match i with 0%nat => -3 | _ => 3 end) | _ => 0 end)
      (fun _ _ => 0) (fun _ => 1) (fun _ => 1) (fun _ => -10) (fun _ => 10) (fun _ => false).
Lemma pair_com : exists c, findCenterOfMass pair_world [0;1]%nat = Some c /\ c 0%nat = 0 /\ c 1%nat = 0.
Proof.
  destruct (com_place pair_world [0;1]%nat (w_x pair_world)) as (c & Hc & Hd); try easy.
  - intros i _. cbn. lra.
  - intros d _. cbn. lra.
  - intros i [<-|[<-|[]]] [|[|]] _; cbn; lra.
  - exists c. split; [exact Hc|]. destruct (Hd 0%nat ltac:(cbn; lia)) as [_ A]. destruct (Hd 1%nat ltac:(cbn; lia)) as [_ B].
    cbn [w_bc pair_world] in A, B. rewrite A, B. unfold weighted_mean, total_mass, mass_of, sum_over. cbn. split; field.
Qed.
Example C117_case : angular pair_world [0;1]%nat = Some (2, 6, 0).
Proof.
  destruct pair_com as (c & Hc & C0 & C1).
  assert (Hf : finite_masses pair_world [0;1]%nat) by (intros i _; cbn; lra).
  destruct (C117_angular_partial _ _ _ Hf eq_refl Hc) as [-> _].
  unfold inertia_about, angular_momentum_about, torque_about, mass_of, sum_over, disp, correction, vsub. cbn [fold_right w_bc pair_world w_im w_x w_v w_f].
  rewrite C0, C1. f_equal. f_equal; [f_equal|]; field.
Qed.

(* ---------- C118 ---------- *)
Lemma dot_line n a b s t : dot n (fun d => s * a d + t * b d) (fun d => s * a d + t * b d) = s * s * dot n a a + 2 * s * t * dot n a b + t * t * dot n b b.
Proof. induction n as [|n IH]; cbn [dot]; [ring|]. rewrite IH. ring. Qed.
Lemma unit_small n p : dot n (unit_of n p) (unit_of n p) <= 1.
Proof.
  pose proof (dot_nonneg n p) as N. destruct (Rlt_dec 0 (dot n p p)) as [L|L].
  - destruct (unit_spec n p L) as [E _]. rewrite E. lra.
  - unfold unit_of. assert (E : dot n p p = 0) by lra. rewrite E, sqrt_0. destruct (Req_EM_T 0 0); [|lra]. rewrite E. lra.
Qed.
Lemma unit_dot n p q : -1 <= dot n (unit_of n p) (unit_of n q) <= 1.
Proof.
  pose proof (unit_small n p) as A. pose proof (unit_small n q) as B.
  pose proof (dot_nonneg n (fun d => 1 * unit_of n p d + 1 * unit_of n q d)) as C. pose proof (dot_nonneg n (fun d => 1 * unit_of n p d + (-1) * unit_of n q d)) as D.
  rewrite dot_line in C, D. lra.
Qed.
Lemma unit_dot_cos n p q : 0 < norm n p -> 0 < norm n q -> dot n (unit_of n p) (unit_of n q) = dot n p q / (norm n p * norm n q).
Proof.
  unfold norm. intros P Q. assert (P' : 0 < dot n p p). { destruct (Rlt_dec 0 (dot n p p)); [assumption|]. rewrite sqrt_neg_0 in P by lra. lra. }
  assert (Q' : 0 < dot n q q). { destruct (Rlt_dec 0 (dot n q q)); [assumption|]. rewrite sqrt_neg_0 in Q by lra. lra. }
  destruct (unit_spec n p P') as [_ Ep]. destruct (unit_spec n q Q') as [_ Eq].
  set (a := sqrt (dot n p p)) in *. set (b := sqrt (dot n q q)) in *.
  rewrite (dot_ext n _ (fun d => / a * p d) _ (fun d => / b * q d)) by (intros; rewrite ?Ep, ?Eq; unfold Rdiv; ring).
  rewrite dot_scale_r, dot_comm, dot_scale_r, dot_comm. field. lra.
Qed.

Lemma map_nth_seq {A} (f : nat -> A) n k d : (k < n)%nat -> nth k (map f (seq 0 n)) d = f k.
Proof. intros H. rewrite (nth_indep _ d (f 0%nat)) by (rewrite map_length, seq_length; exact H). rewrite map_nth, seq_nth by exact H. reflexivity. Qed.

Lemma persist_fold n samples : (3 <= n)%nat -> (forall s, In s samples -> length (snd s) = n) -> forall d0 c0, length d0 = (n - 2)%nat ->
  let d := fold_left (fun d s => persist_step (fst s) (snd s) d) samples (d0, c0) in
  length (fst d) = (n - 2)%nat /\ snd d = (c0 + length samples)%nat /\
  forall k, (k < n - 2)%nat -> snd (nth k (fst d) (0, 0)) = snd (nth k d0 (0, 0)) +
    sum_over (fun s => dot (w_dims (fst s)) (bond_dir (fst s) (snd s) (k + 1)) (bond_dir (fst s) (snd s) 0)) samples.
Proof.
  intros N. induction samples as [|s l IH]; intros HL d0 c0 L0; cbn [fold_left].
  - cbn [fst snd length]. split; [exact L0|]. split; [lia|]. intros k Hk. unfold sum_over. cbn. ring.
  - assert (E : length (snd s) = n) by (apply HL; now left).
    unfold persist_step at 2 4 6. rewrite E. replace (n <? 3)%nat with false by (symmetry; apply Nat.ltb_ge; exact N). cbn [fst snd].
    set (d1 := map _ (seq 0 (n - 2))). assert (L1 : length d1 = (n - 2)%nat) by (unfold d1; rewrite map_length, seq_length; reflexivity).
    destruct (IH (fun s' H => HL s' (or_intror H)) d1 (S c0) L1) as (A & B & C). split; [exact A|]. split; [rewrite B; cbn [length]; lia|].
    intros k Hk. rewrite (C k Hk). unfold d1. rewrite (map_nth_seq _ _ _ (0, 0) Hk). cbn [snd]. rewrite so_cons. ring.
Qed.

(* Entry k is the number k+1 with the average over the samples of the cosine of the angle between the first bond and the bond k+1 bonds later. *)
Theorem C118_average_partial : forall n samples, (3 <= n)%nat -> samples <> [] ->
  (forall s, In s samples -> length (snd s) = n /\
     forall i, (S i < n)%nat -> 0 < norm (w_dims (fst s)) (bond (fst s) (nth i (snd s) 0%nat) (nth (S i) (snd s) 0%nat))) ->
  let r := persist_run n samples in
  length r = (n - 2)%nat /\
  forall k, (k < n - 2)%nat ->
    let y := snd (nth k r (0, 0)) in
    fst (nth k r (0, 0)) = INR (k + 1) /\ -1 <= y <= 1 /\
    y = sum_over (fun s => cosine (fst s) (nth 0 (snd s) 0%nat) (nth 1 (snd s) 0%nat) (nth (k + 1) (snd s) 0%nat) (nth (k + 2) (snd s) 0%nat)) samples / INR (length samples).
Proof.
  intros n samples N NE HS r. subst r. unfold persist_run.
  destruct (persist_pre n) as [d0 c0] eqn:EP.
  assert (L0 : length d0 = (n - 2)%nat /\ c0 = 0%nat /\ forall k, snd (nth k d0 (0, 0)) = 0).
  { unfold persist_pre in EP. injection EP as <- <-. split; [rewrite map_length, seq_length; reflexivity|]. split; [reflexivity|].
    intros k. destruct (Nat.lt_ge_cases k (n - 2)) as [L|L]; [rewrite map_nth_seq by exact L; reflexivity|].
    rewrite nth_overflow by (rewrite map_length, seq_length; exact L). reflexivity. }
  destruct L0 as (L0 & -> & Z).
  destruct (persist_fold n samples N (fun s H => proj1 (HS s H)) d0 0%nat L0) as (A & B & C).
  set (d := fold_left _ samples (d0, 0%nat)) in *. clearbody d. unfold persist_post. rewrite B, A. cbn [plus].
  assert (SP : (0 < length samples)%nat) by (destruct samples; [congruence|cbn; lia]).
  replace (0 <? length samples)%nat with true by (symmetry; apply Nat.ltb_lt; exact SP).
  split; [rewrite map_length, seq_length; reflexivity|]. intros k Hk. rewrite (map_nth_seq _ _ _ (0, 0) Hk). cbn [fst snd]. cbv zeta.
  rewrite (C k Hk), Z, Rplus_0_l.
  assert (SR : 0 < INR (length samples)) by (apply lt_0_INR; exact SP).
  assert (BD : forall l, - INR (length l) <= sum_over (fun s => dot (w_dims (fst s)) (bond_dir (fst s) (snd s) (k + 1)) (bond_dir (fst s) (snd s) 0)) l <= INR (length l)).
  { induction l as [|s l IH]; [cbn; lra|]. rewrite so_cons. cbn [length]. rewrite S_INR.
    pose proof (unit_dot (w_dims (fst s)) (disp (fst s) (w_x (fst s) (nth (S (k + 1)) (snd s) 0%nat)) (w_x (fst s) (nth (k + 1) (snd s) 0%nat)))
       (disp (fst s) (w_x (fst s) (nth 1 (snd s) 0%nat)) (w_x (fst s) (nth 0 (snd s) 0%nat)))) as U.
    unfold bond_dir in *. lra. }
  split; [reflexivity|]. split.
  - specialize (BD samples). split; [apply Rmult_le_reg_r with (INR (length samples)); [exact SR|]|apply Rmult_le_reg_r with (INR (length samples)); [exact SR|]];
      unfold Rdiv; rewrite Rmult_assoc, Rinv_l by lra; lra.
  - f_equal. apply so_ext. intros s Hs. destruct (HS s Hs) as [_ P]. unfold bond_dir, cosine. rewrite dot_comm.
    replace (k + 2)%nat with (S (k + 1)) by lia. apply unit_dot_cos; [apply (P 0%nat); lia|apply (P (k + 1)%nat); lia].
Qed.
Print Assumptions C118_average_partial.

(* A straight chain: 1 everywhere. *)
Theorem C118_straight : forall w a b c e (s : R), 0 < s -> 0 < norm (w_dims w) (bond w a b) ->
  (forall d, bond w c e d = s * bond w a b d) -> cosine w a b c e = 1.
Proof.
  intros w a b c e s S N E. unfold cosine, norm in *.
  rewrite (dot_ext _ (bond w a b) (bond w a b) (bond w c e) (fun d => s * bond w a b d)) by (intros; auto).
  rewrite (dot_ext _ (bond w c e) (fun d => s * bond w a b d) (bond w c e) (fun d => s * bond w a b d)) by (intros; auto).
  rewrite !dot_scale_r, (dot_comm _ (fun d => s * bond w a b d)), dot_scale_r.
  set (q := dot _ (bond w a b) (bond w a b)) in *.
  assert (Q : 0 < q). { destruct (Rlt_dec 0 q); [assumption|]. rewrite sqrt_neg_0 in N by lra. lra. }
  replace (sqrt (s * (s * q))) with (s * sqrt q).
  - replace (s * q) with (s * (sqrt q * sqrt q)) by (rewrite sqrt_sqrt by lra; reflexivity). field. lra.
  - rewrite <- Rmult_assoc, sqrt_mult by nra. rewrite sqrt_square by lra. reflexivity.
Qed.
Print Assumptions C118_straight.

(* Without samples the numbers of the bonds are wrong. *)
Theorem C118_no_samples_refuted : map fst (persist_run 5 []) = [1; 7 / 2; 6].
Proof. unfold persist_run, persist_post, persist_pre. cbn [fold_left snd Nat.ltb Nat.leb fst map seq Nat.sub INR]. repeat (f_equal; try lra). Qed.
Print Assumptions C118_no_samples_refuted.

(* A bent chain of three in the plane: (0,0), (1,0), (1,1): one entry, 0. *)
Definition corner_world : world :=
  mkW 2 (fun i d => match i, d with 0%nat, _ => 0 | 1%nat, 0%nat => 1 | 1%nat, _ => 0 | _, _ => 1 end)
      (fun _ _ => 0) (fun _ _ => 0) (fun _ => 1) (fun _ => 1) (fun _ => -10) (fun _ => 10) (fun _ => false).
Example C118_case : persist_run 3 [(corner_world, [0;1;2]%nat)] = [(1, 0)].
Proof.
  destruct (C118_average_partial 3 [(corner_world, [0;1;2]%nat)]) as [L H]; [lia|discriminate| |].
  - intros s [<-|[]]. split; [reflexivity|]. intros [|[|i]] Hi; [| |lia];
    unfold norm, bond, disp, correction, vsub; cbn [fst snd nth corner_world w_bc w_dims w_x dot]; apply sqrt_lt_R0; lra.
  - destruct (persist_run 3 _) as [|[x y] [|]]; [discriminate| |discriminate]. destruct (H 0%nat) as (A & _ & B); [lia|]. cbn [nth fst snd] in A, B.
    rewrite A, B. assert (E1 : INR (0 + 1) = 1) by reflexivity. rewrite E1. clear. f_equal. apply f_equal2; [reflexivity|]. unfold sum_over. cbn [fold_right fst snd plus nth length INR].
    unfold cosine. cbn [w_dims corner_world]. unfold bond, disp, correction, vsub. cbn [dot w_bc corner_world w_x]. unfold Rdiv.
    replace ((0 - 0) * (1 - 0) + ((1 - 0) * (1 - 1) + 0)) with 0 by ring. ring.
Qed.

(* ---------- C119 ---------- *)
Definition near_inv (w : world) (X A0 : vec) (l : list nat) (st : near) : Prop :=
  match l with
  | [] => n_d1 st = 10000 /\ n_d2 st = 10000 /\ n_A st = A0
  | [a] => n_d1 st = distance_from w X a /\ n_d2 st = 10000 /\ n_A st = disp w (w_x w a) X
  | _ => exists a b rest, Permutation l (a :: b :: rest) /\ distance_from w X a <= distance_from w X b /\
           (forall j, In j rest -> distance_from w X b <= distance_from w X j) /\
           n_d1 st = distance_from w X a /\ n_d2 st = distance_from w X b /\ n_A st = disp w (w_x w a) X /\ n_B st = disp w (w_x w b) X
  end.
Lemma near_step_eq w X st i : near_step w X st i =
  if Rlt_dec (distance_from w X i) (n_d1 st) then mkNear (distance_from w X i) (n_d1 st) (disp w (w_x w i) X) (n_A st)
  else if Rlt_dec (distance_from w X i) (n_d2 st) then mkNear (n_d1 st) (distance_from w X i) (n_A st) (disp w (w_x w i) X) else st.
Proof. reflexivity. Qed.
Lemma near_loop_inv w X A0 B0 l : (forall j, In j l -> distance_from w X j < 10000) -> near_inv w X A0 l (near_loop w X A0 B0 l).
Proof.
  unfold near_loop. induction l as [|x l IH] using rev_ind; intros H; [cbn; auto|].
  rewrite fold_left_app. cbn [fold_left]. set (st := fold_left _ l _) in *.
  assert (Hx : distance_from w X x < 10000) by (apply H; apply in_or_app; right; now left).
  specialize (IH (fun j Hj => H j (in_or_app _ _ _ (or_introl Hj)))). rewrite near_step_eq.
  destruct l as [|a [|b l]].
  - cbn [near_inv app] in *. destruct IH as (-> & _ & ->). destruct (Rlt_dec (distance_from w X x) 10000); [|lra]. cbn. auto.
  - cbn [near_inv app] in *. destruct IH as (-> & -> & ->). destruct (Rlt_dec (distance_from w X x) (distance_from w X a)) as [L|L]; cbn [n_d1 n_d2 n_A n_B].
    + exists x, a, []. split; [apply perm_swap|]. split; [lra|]. split; [intros j []|]. auto.
    + destruct (Rlt_dec (distance_from w X x) 10000); [|lra]. exists a, x, []. cbn [n_d1 n_d2 n_A n_B]. split; [reflexivity|]. split; [lra|]. split; [intros j []|]. auto.
  - remember (a :: b :: l) as l' eqn:El. assert (IH' : exists a b rest, Permutation l' (a :: b :: rest) /\ distance_from w X a <= distance_from w X b /\
           (forall j, In j rest -> distance_from w X b <= distance_from w X j) /\
           n_d1 st = distance_from w X a /\ n_d2 st = distance_from w X b /\ n_A st = disp w (w_x w a) X /\ n_B st = disp w (w_x w b) X)
      by (rewrite El in IH |- *; exact IH).
    clear IH. destruct IH' as (p & q & rest & P & PQ & R & E1 & E2 & EA & EB). rewrite ?E1, ?E2, ?EA, ?EB.
    rewrite El. cbn [app near_inv]. change (a :: b :: l ++ [x]) with ((a :: b :: l) ++ [x]). rewrite <- El.
    assert (P' : Permutation (l' ++ [x]) (x :: p :: q :: rest)).
    { etransitivity; [apply Permutation_app_comm|]. cbn [app]. constructor. exact P. }
    destruct (Rlt_dec (distance_from w X x) (distance_from w X p)) as [L|L]; [|destruct (Rlt_dec (distance_from w X x) (distance_from w X q)) as [L2|L2]]; cbn [n_d1 n_d2 n_A n_B].
    + exists x, p, (q :: rest). split; [exact P'|]. split; [lra|]. split; [intros j [<-|Hj]; [lra|specialize (R j Hj); lra]|]. auto.
    + exists p, x, (q :: rest). split; [etransitivity; [exact P'|apply perm_swap]|]. split; [lra|]. split; [intros j [<-|Hj]; [lra|specialize (R j Hj); lra]|]. auto.
    + exists p, q, (x :: rest). split; [etransitivity; [exact P'|]; etransitivity; [apply perm_swap|]; constructor; apply perm_swap|]. split; [lra|]. split; [intros j [<-|Hj]; [lra|specialize (R j Hj); lra]|]. rewrite E1, E2, EA, EB. auto.
Qed.

(* The vector used for a particle points to the closest point of the line between the two closest particles of the other polymer. *)
Theorem C119_distance_partial : forall w X second A0 B0, second <> [] -> (forall j, In j second -> distance_from w X j < 10000) ->
  let DA := onto_line w (1 <? length second)%nat (near_loop w X A0 B0 second) in
  points_to_closest w X second (fst DA) (snd DA).
Proof.
  intros w X second A0 B0 NE H DA. pose proof (near_loop_inv w X A0 B0 second H) as I. set (st := near_loop w X A0 B0 second) in *. clearbody st. subst DA.
  destruct second as [|a [|b l]]; [congruence| |].
  - cbn [near_inv length Nat.ltb Nat.leb] in *. unfold onto_line. cbn [fst snd]. destruct I as (-> & _ & ->). split; [reflexivity|]. intros d. reflexivity.
  - cbn [near_inv] in I. destruct I as (p & q & rest & P & PQ & R & E1 & E2 & EA & EB).
    replace (1 <? length (a :: b :: l))%nat with true by reflexivity. unfold onto_line.
    set (n := w_dims w). set (u := disp w (w_x w p) X) in *. set (v := disp w (w_x w q) X) in *.
    assert (LE : dot n u u <= dot n v v).
    { unfold distance_from, norm in PQ. fold u v in PQ. apply sqrt_le_0; [apply dot_nonneg|apply dot_nonneg|exact PQ]. }
    set (e := vsub (n_B st) (n_A st)). assert (Ee : forall d, e d = v d - u d) by (intros; unfold e, vsub; rewrite EA, EB; reflexivity).
    set (Q := dot n e e). assert (Q0 : 0 <= Q) by apply dot_nonneg.
    assert (F : forall t, dot n (between w X p q t) (between w X p q t) = dot n u u + 2 * t * dot n u e + t * t * Q).
    { intros t. unfold between. fold u v. unfold Q. rewrite (dot_ext n _ (fun d => 1 * u d + t * e d) _ (fun d => 1 * u d + t * e d)) by (intros; rewrite Ee; ring).
      rewrite dot_line. ring. }
    assert (F1 : dot n v v = dot n u u + 2 * dot n u e + Q).
    { specialize (F 1). rewrite <- (Rmult_1_r 2) at 1. rewrite (dot_ext n v (between w X p q 1) v (between w X p q 1)) by (intros; unfold between; fold u v; ring). rewrite F. ring. }
    assert (RES : forall t0, 0 <= t0 <= 1 -> (forall t, 0 <= t <= 1 -> dot n u u + 2 * t0 * dot n u e + t0 * t0 * Q <= dot n u u + 2 * t * dot n u e + t * t * Q) ->
      forall D A, D = norm n A -> (forall d, A d = between w X p q t0 d) -> points_to_closest w X (a :: b :: l) D A).
    { intros t0 T0 M D A ED EAd. split; [exact ED|]. exists p, q, rest. split; [exact P|]. split; [exact PQ|]. split; [exact R|]. split; [exists t0; auto|].
      intros t T. rewrite ED. fold n. unfold norm. apply sqrt_le_1; [apply dot_nonneg|apply dot_nonneg|].
      rewrite (dot_ext n A (between w X p q t0) A (between w X p q t0)) by (intros; apply EAd). rewrite !F. apply M. exact T. }
    assert (AT0 : forall d, u d = between w X p q 0 d) by (intros; unfold between; fold u; ring).
    fold n Q. destruct (Req_EM_T Q 0) as [EQ|NQ].
    + cbn [fst snd]. rewrite E1, EA. apply (RES 0); [lra| |reflexivity|exact AT0]. intros t T.
      assert (ZE : forall d, (d < n)%nat -> e d = 0) by (apply dot_zero; exact EQ).
      assert (UE : dot n u e = 0). { rewrite (dot_ext n u u e (fun d => 0 * e d)) by (intros; rewrite ?ZE by assumption; ring). rewrite dot_scale_r. ring. }
      rewrite UE, EQ. lra.
    + assert (QP : 0 < Q) by lra. set (lam := - dot n e (n_A st) / Q).
      assert (LQ : lam * Q = - dot n u e). { unfold lam. rewrite EA, dot_comm. field. lra. }
      destruct (Rle_dec 0 lam) as [L0|L0]; [destruct (Rle_dec lam 1) as [L1|L1]|].
      * cbn [fst snd]. apply (RES lam); [lra| |reflexivity|].
        -- intros t T. assert (0 <= (t - lam) * (t - lam) * Q) by (apply Rmult_le_pos; [apply Rle_0_sqr|lra]). nra.
        -- intros d. unfold vplus, vscale, between. fold u v. rewrite Ee, EA. reflexivity.
      * exfalso. nra.
      * cbn [fst snd]. rewrite E1, EA. apply (RES 0); [lra| |reflexivity|exact AT0]. intros t T. assert (0 <= dot n u e) by nra.
        assert (0 <= t * dot n u e) by (apply Rmult_le_pos; lra). assert (0 <= t * t * Q) by (apply Rmult_le_pos; [apply Rle_0_sqr|lra]). lra.
Qed.
Print Assumptions C119_distance_partial.

(* Particles farther than 10000 away are left out: with the other one at 20000 the distance is 0 and not 1. *)
Definition far_world : world :=
  mkW 1 (fun i _ => match i with 0%nat => 0 | 1%nat => 1 | _ => 20000 end) (fun _ _ => 0) (fun _ _ => 0) (fun _ => 1) (fun _ => 1)
      (fun _ => -100000) (fun _ => 100000) (fun _ => false).
Theorem C119_far_refuted : fst (onto_line far_world true (near_loop far_world (w_x far_world 0) zerov zerov [1;2]%nat)) = 0 /\
  distance_from far_world (w_x far_world 0) 1 = 1 /\ distance_from far_world (w_x far_world 0) 2 = 20000.
Proof.
  assert (D1 : distance_from far_world (w_x far_world 0) 1 = 1).
  { unfold distance_from, norm, disp, correction, vsub. cbn [far_world w_bc w_dims w_x dot].
    replace ((1 - 0) * (1 - 0) + 0) with (1 * 1) by ring. apply sqrt_square. lra. }
  assert (D2 : distance_from far_world (w_x far_world 0) 2 = 20000).
  { unfold distance_from, norm, disp, correction, vsub. cbn [far_world w_bc w_dims w_x dot].
    replace ((20000 - 0) * (20000 - 0) + 0) with (20000 * 20000) by ring. apply sqrt_square. lra. }
  split; [|split; [exact D1|exact D2]].
  unfold near_loop. cbn [fold_left]. rewrite !near_step_eq. cbn [n_d1 n_d2]. rewrite D1, D2.
  destruct (Rlt_dec 1 10000); [|lra]. cbn [n_d1 n_d2 n_A n_B]. destruct (Rlt_dec 20000 1); [lra|]. destruct (Rlt_dec 20000 10000); [lra|].
  unfold onto_line. cbn [n_d1 n_d2 n_A n_B w_dims far_world].
  set (A := disp _ _ _). assert (EA : A 0%nat = 1). { unfold A, disp, correction, vsub. cbn. ring. }
  unfold vsub, vplus, vscale, zerov. cbn [dot]. rewrite EA.
  replace ((0 - 1) * (0 - 1) + 0) with 1 by ring. destruct (Req_EM_T 1 0); [lra|]. replace (- ((0 - 1) * 1 + 0) / 1) with 1 by field.
  destruct (Rle_dec 0 1); [|lra]. destruct (Rle_dec 1 1); [|lra]. cbn [fst]. replace ((1 + 1 * (0 - 1)) * (1 + 1 * (0 - 1)) + 0) with 0 by ring. apply sqrt_0.
Qed.
Print Assumptions C119_far_refuted.

(* the bins *)
Lemma int_bin lo dr D k : 0 < dr -> (Int_part ((D - lo) / dr) = k <-> lo + IZR k * dr <= D < lo + (IZR k + 1) * dr).
Proof.
  intros P. set (x := (D - lo) / dr). assert (E : D = lo + x * dr) by (unfold x; field; lra). pose proof (base_Int_part x) as [B1 B2].
  split.
  - intros <-. rewrite E. nra.
  - rewrite E. intros [L U]. assert (IZR k <= x) by nra. assert (x < IZR k + 1) by nra.
    assert (IZR (Int_part x) < IZR (k + 1)) by (rewrite plus_IZR; lra). assert (IZR k < IZR (Int_part x + 1)) by (rewrite plus_IZR; lra).
    apply lt_IZR in H1, H2. lia.
Qed.

Lemma in_bin_range p k D : (0 <= k < p_bins p)%Z -> p_lo p < p_hi p -> in_bin p k D -> p_lo p <= D < p_hi p.
Proof.
  intros K L [A B]. assert (NB : 0 < IZR (p_bins p)) by (apply IZR_lt; lia). set (dr := (p_hi p - p_lo p) / IZR (p_bins p)) in *.
  assert (P : 0 < dr) by (apply Rdiv_lt_0_compat; lra). assert (E : p_hi p = p_lo p + IZR (p_bins p) * dr) by (unfold dr; field; lra).
  assert (0 <= IZR k) by (apply IZR_le; lia). assert (IZR k + 1 <= IZR (p_bins p)) by (rewrite <- plus_IZR; apply IZR_le; lia). rewrite E. nra.
Qed.

Lemma force_loop_sampled w p second k : second <> [] -> p_lo p < p_hi p -> (0 <= k < p_bins p)%Z ->
  forall first, (forall i j, In i first -> In j second -> distance_from w (w_x w i) j < 10000) -> forall t A B, exists a b c,
  sampled w p second k first (a, b, c) /\
  fst (fst (force_loop w p second first (t, A, B))) k = (fst (fst (t k)) + a, snd (fst (t k)) + b, snd (t k) + c).
Proof.
  intros NE L K. assert (NB : 0 < IZR (p_bins p)) by (apply IZR_lt; lia). set (dr := (p_hi p - p_lo p) / IZR (p_bins p)).
  assert (P : 0 < dr) by (apply Rdiv_lt_0_compat; lra).
  induction first as [|i l IH]; intros H t A B.
  - exists 0, 0, 0. split; [constructor|]. cbn [force_loop fst]. destruct (t k) as [[x y] z]. cbn [fst snd]. f_equal; [f_equal|]; ring.
  - assert (H' : forall i j, In i l -> In j second -> distance_from w (w_x w i) j < 10000) by (intros; apply H; [now right|assumption]).
    specialize (IH H'). cbn [force_loop]. destruct (Z.eqb_spec (p_type p i) (p_ctype p)) as [ET|NT].
    + destruct (IH t A B) as (a & b & c & S & E). exists a, b, c. split; [apply sampled_chain; assumption|exact E].
    + pose proof (C119_distance_partial w (w_x w i) second A B NE (fun j Hj => H i j (or_introl eq_refl) Hj)) as PC. cbv zeta in PC.
      destruct (onto_line w (1 <? length second)%nat (near_loop w (w_x w i) A B second)) as [D A1] eqn:EO. cbn [fst snd] in PC.
      unfold bin_force. fold dr.
      assert (OUT : forall t1 A2 B2, ~ in_bin p k D -> t1 k = t k -> exists a b c, sampled w p second k (i :: l) (a, b, c) /\
         fst (fst (force_loop w p second l (t1, A2, B2))) k = (fst (fst (t k)) + a, snd (fst (t k)) + b, snd (t k) + c)).
      { intros t1 A2 B2 NI ET. destruct (IH t1 A2 B2) as (a & b & c & S & E). exists a, b, c. split; [eapply sampled_other; eassumption|]. etransitivity; [exact E|]. rewrite ET. reflexivity. }
      destruct (Rle_dec (p_lo p) D) as [L1|L1].
      2:{ apply OUT; [|reflexivity]. intros C. pose proof (in_bin_range p k D K L C). lra. }
      destruct (Rlt_dec D (p_hi p)) as [L2|L2].
      2:{ apply OUT; [|reflexivity]. intros C. pose proof (in_bin_range p k D K L C). lra. }
      set (bx := Int_part ((D - p_lo p) / dr)).
      destruct (Z.eq_dec k bx) as [EK|NK].
      * assert (IB : in_bin p k D) by (rewrite EK; unfold in_bin; fold dr; apply int_bin; [exact P|reflexivity]).
        destruct (p_chain p) as [fr|] eqn:EC;
        (match goal with |- context [force_loop w p second l (?t1, ?A2, ?B2)] => destruct (IH t1 A2 B2) as (a & b & c & S & E) end;
         eexists _, _, _; split; [eapply sampled_in; [exact NT|exact PC|exact IB|reflexivity|exact S]|];
         rewrite E, EC; unfold bump; rewrite (proj2 (Z.eqb_eq k bx) EK); destruct (t k) as [[x y] z]; cbn [fst snd]; f_equal; [f_equal|]; ring).
      * assert (NI : ~ in_bin p k D) by (intros C; apply NK; symmetry; unfold bx; apply int_bin; [exact P|exact C]).
        destruct (p_chain p) as [fr|]; apply OUT; try exact NI; unfold bump; rewrite (proj2 (Z.eqb_neq k bx) NK); reflexivity.
Qed.

Theorem C119_bins_partial : forall w p first second t k, second <> [] -> p_lo p < p_hi p -> (0 <= k < p_bins p)%Z ->
  (forall i j, In i first -> In j second -> distance_from w (w_x w i) j < 10000) ->
  exists a b c, sampled w p second k first (a, b, c) /\
  find_forces w p first second t k = (fst (fst (t k)) + a, snd (fst (t k)) + b, snd (t k) + c).
Proof. intros w p first second t k NE L K H. unfold find_forces. apply force_loop_sampled; assumption. Qed.
Print Assumptions C119_bins_partial.

(* every distance from the least to the largest is in exactly one bin *)
Theorem C119_one_bin : forall p D, (0 < p_bins p)%Z -> p_lo p <= D < p_hi p -> exists! k, (0 <= k < p_bins p)%Z /\ in_bin p k D.
Proof.
  intros p D B [L U]. assert (NB : 0 < IZR (p_bins p)) by (apply IZR_lt; lia). set (dr := (p_hi p - p_lo p) / IZR (p_bins p)).
  assert (P : 0 < dr) by (apply Rdiv_lt_0_compat; lra). exists (Int_part ((D - p_lo p) / dr)).
  assert (IB : in_bin p (Int_part ((D - p_lo p) / dr)) D) by (unfold in_bin; fold dr; apply int_bin; [exact P|reflexivity]).
  split.
  - split; [|exact IB]. unfold in_bin in IB. fold dr in IB. set (k := Int_part _) in *. assert (E : p_hi p = p_lo p + IZR (p_bins p) * dr) by (unfold dr; field; lra).
    assert (0 < IZR k + 1) by nra. assert (IZR k < IZR (p_bins p)) by nra. apply lt_IZR in H0. rewrite <- plus_IZR in H. apply lt_IZR in H. lia.
  - intros k [_ C]. apply int_bin; [exact P|exact C].
Qed.
Print Assumptions C119_one_bin.

(* The rows of the result: the middle of the bin and the means over its samples, per diameter. *)
Theorem C119_rows : forall p radius t k a b c, t k = (a, b, c) -> 0 < c -> radius <> 0 ->
  let dr := (p_hi p - p_lo p) / IZR (p_bins p) in
  poly_row p radius t k = (((p_lo p + IZR k * dr) + (p_lo p + (IZR k + 1) * dr)) / 2, a / c / (2 * radius), b / c / (2 * radius), c).
Proof.
  intros p radius t k a b c E C NR dr. unfold poly_row. fold dr. rewrite E. destruct (Rlt_dec 0 c); [|lra].
  replace (a / c / (2 * radius)) with (a / (2 * radius * c)) by (field; lra). replace (b / c / (2 * radius)) with (b / (2 * radius * c)) by (field; lra).
  replace ((p_lo p + IZR k * dr + (p_lo p + (IZR k + 1) * dr)) / 2) with ((IZR k + / 2) * dr + p_lo p) by field. reflexivity.
Qed.
Print Assumptions C119_rows.

(* A particle at the origin with force (0, 3), the other polymer at (-1, 2) and (1, 2), bins from 0 to 4 of width 1, no normalisation:
   the distance is 2, so that bin 2 has one sample, 3. *)
Definition ladder_world : world :=
  mkW 2 (fun i d => match i, d with 0%nat, _ => 0 | 1%nat, 0%nat => -1 | 1%nat, _ => 2 | _, 0%nat => 1 | _, _ => 2 end)
      (fun _ _ => 0) (fun _ d => match d with 0%nat => 0 | _ => 3 end) (fun _ => 1) (fun _ => 1) (fun _ => -10) (fun _ => 10) (fun _ => false).
Definition ladder : poly := mkPoly 0 4 4 1 (fun _ => 0%Z) 1 None.
Example C119_case : find_forces ladder_world ladder [0%nat] [1;2]%nat (fun _ => (0, 0, 0)) 2%Z = (3, 0, 1).
Proof.
  assert (DD : forall i, i = 1%nat \/ i = 2%nat -> distance_from ladder_world (w_x ladder_world 0) i = sqrt 5).
  { intros i [-> | ->]; unfold distance_from, norm, disp, correction, vsub; cbn [ladder_world w_bc w_dims w_x dot]; f_equal; lra. }
  assert (B5 : sqrt 5 < 10000). { rewrite <- (sqrt_square 10000) by lra. apply sqrt_lt_1; lra. }
  destruct (C119_bins_partial ladder_world ladder [0%nat] [1;2]%nat (fun _ => (0, 0, 0)) 2%Z) as (a & b & c & SM & ->).
  - discriminate.
  - cbn. lra.
  - cbn. lia.
  - intros i j [<-|[]] [<-|[<-|[]]]; rewrite DD; auto.
  - cbn [fst snd].
    assert (PC : forall D A, points_to_closest ladder_world (w_x ladder_world 0) [1;2]%nat D A -> D = 2 /\ A 0%nat = 0 /\ A 1%nat = 2).
    { intros D A [ED (p & q & rest & P & _ & _ & (t & T & EA) & M)].
      assert (X : (p = 1 /\ q = 2 \/ p = 2 /\ q = 1)%nat).
      { pose proof (Permutation_length P) as LP. destruct rest; [|discriminate].
        apply Permutation_length_2_inv in P. destruct P as [P|P]; injection P; auto. }
      specialize (M (/ 2) ltac:(lra)). rewrite ED in M. unfold norm in M. cbn [w_dims ladder_world] in M.
      apply sqrt_le_0 in M; [|apply dot_nonneg|apply dot_nonneg]. pose proof (EA 0%nat) as E0. pose proof (EA 1%nat) as E1.
      assert (A 0%nat = 0 /\ A 1%nat = 2) as [EA0 EA1].
      { destruct X as [[-> ->]|[-> ->]]; unfold between, disp, correction, vsub in E0, E1, M; cbn [ladder_world w_bc w_dims w_x dot] in E0, E1, M;
        assert (A 1%nat = 2) by lra; rewrite H in M; split; try assumption; nra. }
      split; [|auto]. rewrite ED. unfold norm. cbn [w_dims ladder_world dot]. rewrite EA0, EA1.
      replace (2 * 2 + (0 * 0 + 0)) with (2 * 2) by ring. apply sqrt_square. lra. }
    inversion SM as [|? ? ? ET|i l D A s NT PD NI|i l D A a' b' c' n NT PD IB En S0]; subst.
    + exfalso. cbn in ET. lia.
    + exfalso. apply NI. destruct (PC _ _ PD) as (-> & _). unfold in_bin. cbn. lra.
    + inversion S0; subst. destruct (PC _ _ PD) as (_ & A0 & A1). cbn [ladder p_chain p_norm].
      assert (U : dot (w_dims ladder_world) (unit_of (w_dims ladder_world) A) (w_f ladder_world 0) = 3).
      { unfold unit_of. cbn [w_dims ladder_world dot w_f]. rewrite A0, A1. replace (2 * 2 + (0 * 0 + 0)) with (2 * 2) by ring.
        rewrite sqrt_square by lra. destruct (Req_EM_T 2 0); [lra|]. rewrite A0, A1. lra. }
      cbn [w_dims ladder_world dot w_f] in U |- *. rewrite U. f_equal; [f_equal|]; ring.
Qed.
