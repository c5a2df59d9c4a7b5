(* C26 (Newton's third law), C27 (contact forces), C28 (cut-off potentials), C55 (force and potential), C56 (energy across
   processors), C57 (virial). *)
From Coq Require Import ZArith Reals List Bool Arith Lia Lra.
From Verif Require Import Model_Forces Spec_Forces Proofs_Forces Proofs_Forces2.
Import ListNotations.
Local Open Scope R_scope.

(* ------------------------------------------------------------------ the vocabulary of the statements below *)
(* shift_of is the difference of the positions, replaced on a periodic axis (for a wrapped pair whose positions are in the box)
   by the shortest of its periodic images; vscale, dot and norm are the usual operations. *)
Theorem C26_vocabulary :
  (forall e i j d, shift_of e false i j d = e_x e i d - e_x e j d) /\
  (forall e i j d, e_bc e d = false -> shift_of e true i j d = e_x e i d - e_x e j d) /\
  (forall e i j d, e_bc e d = true -> Rabs (e_x e i d - e_x e j d) <= e_width e d ->
     (exists m : Z, shift_of e true i j d = e_x e i d - e_x e j d + IZR m * e_width e d) /\
     forall m : Z, Rabs (shift_of e true i j d) <= Rabs (e_x e i d - e_x e j d + IZR m * e_width e d)) /\
  (forall s x d, vscale s x d = s * x d) /\
  (forall n x y, dot n x y = sum_to n (fun d => x d * y d)) /\
  (forall n x, 0 <= norm n x /\ norm n x * norm n x = sum_to n (fun d => x d * x d)).
Proof.
  assert (HD : forall n x y, dot n x y = sum_to n (fun d => x d * y d)) by (induction n; intros; cbn; [reflexivity|rewrite IHn; ring]).
  split; [reflexivity|]. split; [|split; [|split; [reflexivity|split; [exact HD|]]]].
  - intros e i j d H. unfold shift_of, correction. rewrite H. reflexivity.
  - intros e i j d H. unfold shift_of, correction. rewrite H. unfold vsub. set (x := e_x e i d - e_x e j d). set (w := e_width e d). intros HX.
    assert (HW : 0 <= w) by (assert (A := Rabs_pos x); lra).
    assert (far : forall m : Z, m = 0%Z \/ m = 1%Z \/ m = (-1)%Z \/ 2 * w <= IZR m * w \/ IZR m * w <= - (2 * w)).
    { intros m. destruct (Z_lt_le_dec m 2) as [L|L]; [destruct (Z_lt_le_dec (-2) m) as [L'|L']; [lia|]|].
      - do 3 right. right. apply IZR_le in L'. replace (- (2 * w)) with (-2 * w) by ring. now apply Rmult_le_compat_r.
      - do 3 right. left. apply IZR_le in L. now apply Rmult_le_compat_r. }
    destruct (Rlt_dec (w - Rabs x) (Rabs x)) as [A|A]; [destruct (Rlt_dec 0 x) as [B|B]|].
    + split; [exists (-1)%Z; rewrite (Rabs_right x) in * by lra; ring|]. intros m.
      rewrite (Rabs_right x) in * by lra. destruct (far m) as [-> | [-> | [-> | [F1|F1]]]]; unfold Rabs; repeat destruct (Rcase_abs _); lra.
    + split; [exists 1%Z; rewrite (Rabs_left1 x) in * by lra; ring|]. intros m.
      rewrite (Rabs_left1 x) in * by lra. destruct (far m) as [-> | [-> | [-> | [F1|F1]]]]; unfold Rabs; repeat destruct (Rcase_abs _); lra.
    + split; [exists 0%Z; ring|]. intros m.
      destruct (far m) as [-> | [-> | [-> | [F1|F1]]]]; revert A HX; unfold Rabs; repeat destruct (Rcase_abs _); lra.
  - intros n x. split; [apply sqrt_pos|]. unfold norm. rewrite sqrt_sqrt by apply dot_nonneg. apply HD.
Qed.
Print Assumptions C26_vocabulary.

(* ------------------------------------------------------------------ C26 *)
(* Every pair force, any particles, any dimension: what one particle gets the other loses, and nobody else gets anything. *)
Theorem C26_pair : forall k c e w i j st st', do_pair k c e w i j st = Some st' -> exists g, opposite (e_dims e) i j g (F st) (F st').
Proof. exact pair_opposite. Qed.
Print Assumptions C26_pair.
(* All but Hooke act along the line between the particles. *)
Theorem C26_central : forall k c e w i j st st', (forall kn gn gt mu, k <> Hooke kn gn gt mu) ->
  do_pair k c e w i j st = Some st' -> exists s, opposite (e_dims e) i j (vscale s (shift_of e w i j)) (F st) (F st').
Proof.
  intros k c e w i j st st' NH H. unfold do_pair in H. fold (shift_of e w i j) in H. destruct (Rlt_dec _ _).
  - destruct (kernel_central _ _ _ _ _ _ _ _ _ _ _ NH H) as (Fn & O). exists (Fn * (1 / sqrt (dot (e_dims e) (shift_of e w i j) (shift_of e w i j)))). intros a d. rewrite (O a d). unfold vscale.
    destruct (a =? i)%nat, (a =? j)%nat, (d <? e_dims e)%nat; ring.
  - injection H as <-. exists 0. intros a d. unfold vscale. destruct (a =? i)%nat, (a =? j)%nat, (d <? e_dims e)%nat; ring.
Qed.
Print Assumptions C26_central.
(* An interaction sweep over any pairs of the particles 0..n-1, wrapped or not, leaves the total force unchanged. *)
Theorem C26_sweep : forall k c e n p0 p1 st st' d,
  (forall i j, In (i, j) (p0 ++ p1) -> (i < n)%nat /\ (j < n)%nat) -> interact_forces k c e p0 p1 st = Some st' ->
  total n d (F st') = total n d (F st).
Proof.
  intros k c e n p0 p1 st st' d HP H. unfold interact_forces in H. destruct (do_list k c e false p0 _) as [s1|] eqn:E; [|discriminate].
  rewrite (list_total k c e true n d p1 s1 st'); [|intros; apply HP, in_or_app; now right|exact H].
  rewrite (list_total k c e false n d p0 (mkF (F st) (Tq st) 0 0) s1); [reflexivity|intros; apply HP, in_or_app; now left|exact E].
Qed.
Print Assumptions C26_sweep.
(* The sweep goes through (no NaN) unless two particles of a pair coincide; radii are not negative. *)
Theorem C26_defined : forall k c e p0 p1 st, (forall i, 0 <= e_sg e i) ->
  (forall i j, In (i, j) p0 -> 0 < norm (e_dims e) (shift_of e false i j)) -> (forall i j, In (i, j) p1 -> 0 < norm (e_dims e) (shift_of e true i j)) ->
  exists st', interact_forces k c e p0 p1 st = Some st'.
Proof.
  intros k c e p0 p1 st HS H0 H1.
  assert (HK : forall w i j s, 0 < norm (e_dims e) (shift_of e w i j) -> exists s', do_pair k c e w i j s = Some s').
  { intros w i j s Hn. unfold do_pair. fold (shift_of e w i j). destruct (Rlt_dec _ _); [|eauto]. assert (HD := norm_pos_dot _ _ Hn).
    destruct k; cbn [kernel]; [unfold hard_sphere|unfold hard_sphere_ds|unfold lennard_jones|unfold coulomb|unfold buckingham|unfold hertz|unfold hooke];
      (destruct (Req_EM_T _ 0); [contradiction|]); try (eexists; reflexivity).
    - destruct (Rlt_dec _ 0) as [|Hd]; [eauto|]. destruct (Rlt_dec _ 0) as [L|]; [|eauto]. exfalso. apply Rlt_not_le in L. apply L. clear L.
      assert (A := HS i). assert (B := HS j). apply Rmult_le_pos; [lra|]. destruct (Req_EM_T (e_sg e i + e_sg e j) 0) as [Z|NZ].
      + replace (e_sg e i) with 0 by lra. unfold Rdiv. rewrite !Rmult_0_l. lra.
      + apply Rmult_le_pos; [now apply Rmult_le_pos|]. apply Rlt_le, Rinv_0_lt_compat. lra.
    - destruct (e_dims e =? 2)%nat; eauto. }
  assert (HL : forall w ps s, (forall i j, In (i, j) ps -> 0 < norm (e_dims e) (shift_of e w i j)) -> exists s', do_list k c e w ps s = Some s').
  { intros w. induction ps as [|[i j] ps IH]; intros s H; cbn [do_list]; [eauto|]. destruct (HK w i j s (H i j (or_introl eq_refl))) as (s1 & ->). apply IH. intros a b Hab. apply H. now right. }
  unfold interact_forces. destruct (HL false p0 (mkF (F st) (Tq st) 0 0) H0) as (s1 & ->). now apply HL.
Qed.
Print Assumptions C26_defined.
Example C26_case : let e := line 1 1 1 in
  (forall i, 0 <= e_sg e i) /\ 0 < norm (e_dims e) (shift_of e false 0 1) /\
  exists st', interact_forces (HardSphere 50) 1 e [(0%nat, 1%nat)] [] (mkF (fun _ _ => 0) (fun _ => 0) 0 0) = Some st' /\ F st' 0%nat 0%nat = 50 /\ F st' 1%nat 0%nat = -50.
Proof.
  cbv zeta. assert (HN : norm 1 (shift_of (line 1 1 1) false 0 1) = 1) by (apply line_norm; lra). split; [intros [|i]; cbn; lra|]. cbn [e_dims line]. split; [change (mkEnv 1 _ _ _ _ _ _ _ _ _) with (line 1 1 1); lra|].
  destruct (hs_describes 50 1 (line 1 1 1) false 0%nat 1%nat (mkF (fun _ _ => 0) (fun _ => 0) 0 0)) as (s & E & _ & O); [reflexivity|cbn; lra|cbn; lra|change (e_dims (line 1 1 1)) with 1%nat; rewrite HN; cbn; lra|].
  exists s. unfold interact_forces. cbn [F Tq do_list]. rewrite E. split; [reflexivity|]. change (e_dims (line 1 1 1)) with 1%nat in O. rewrite HN in O.
  rewrite (O 0%nat 0%nat), (O 1%nat 0%nat). cbn. unfold vscale, hs_F, shift_of, vsub. cbn. split; field.
Qed.

(* ------------------------------------------------------------------ C27 *)
(* Contact forces (cutoff 1, the default) do nothing to particles that do not overlap. *)
Theorem C27_local : forall k e w i j st, 0 <= e_sg e i -> 0 <= e_sg e j -> e_sg e i + e_sg e j <= norm (e_dims e) (shift_of e w i j) ->
  do_pair k 1 e w i j st = Some st.
Proof. intros. apply out_of_range_pair; lra. Qed.
Print Assumptions C27_local.

(* Hard spheres that overlap are pushed apart, with a force proportional to the overlap. *)
Theorem C27_hard_sphere : forall k e w i j st, 0 <= e_sg e i -> 0 <= e_sg e j -> let r := norm (e_dims e) (shift_of e w i j) in
  0 < r < e_sg e i + e_sg e j ->
  exists st', do_pair (HardSphere k) 1 e w i j st = Some st' /\
    opposite (e_dims e) i j (vscale (k * (e_sg e i + e_sg e j - r) / r) (shift_of e w i j)) (F st) (F st').
Proof.
  intros k e w i j st Hi Hj r Hr. rewrite in_range_pair by (fold r; lra). cbn [kernel]. unfold hard_sphere.
  destruct (Req_EM_T _ 0) as [Z|_]; [exfalso; revert Z; apply norm_pos_dot; fold r; lra|]. eexists. split; [reflexivity|]. cbn [book F].
  fold (norm (e_dims e) (shift_of e w i j)). fold r. intros a d. rewrite (push_opposite e i j _ _ (F st) a d). unfold vscale.
  destruct (a =? i)%nat, (a =? j)%nat, (d <? e_dims e)%nat; field; lra.
Qed.
Print Assumptions C27_hard_sphere.

Lemma m_eff_nonneg a b : 0 <= a -> 0 <= b -> 0 <= m_eff a b.
Proof.
  intros Ha Hb. unfold m_eff. destruct (Req_EM_T a 0); [lra|]. destruct (Req_EM_T b 0); [lra|].
  assert (0 < 1 / a) by (apply Rdiv_lt_0_compat; lra). assert (0 < 1 / b) by (apply Rdiv_lt_0_compat; lra).
  apply Rlt_le, Rdiv_lt_0_compat; [now apply Rmult_lt_0_compat|lra].
Qed.
Lemma contact_kernel k e w i j st : 0 <= e_sg e i -> 0 <= e_sg e j -> 0 < norm (e_dims e) (shift_of e w i j) < e_sg e i + e_sg e j ->
  match k with HardSphere a => 0 <= a | HardSphereDs _ _ => True | Hertz _ _ => True | _ => False end ->
  exists s st', do_pair k 1 e w i j st = Some st' /\ 0 <= s /\ opposite (e_dims e) i j (vscale s (shift_of e w i j)) (F st) (F st').
Proof.
  intros Hi Hj Hr HK. set (r := norm (e_dims e) (shift_of e w i j)) in *. rewrite in_range_pair by (fold r; lra).
  assert (ND : dot (e_dims e) (shift_of e w i j) (shift_of e w i j) <> 0) by (apply norm_pos_dot; fold r; lra).
  assert (G : forall Fn, 0 <= Fn -> 0 <= Fn / r /\ opposite (e_dims e) i j (vscale (Fn / r) (shift_of e w i j)) (F st) (push e i j (vscale (1 / r) (shift_of e w i j)) Fn (F st))).
  { intros Fn HF. split; [apply Rmult_le_pos; [exact HF|apply Rlt_le, Rinv_0_lt_compat; lra]|]. intros a d. rewrite (push_opposite e i j _ _ (F st) a d). unfold vscale.
    destruct (a =? i)%nat, (a =? j)%nat, (d <? e_dims e)%nat; field; lra. }
  destruct k; try contradiction; cbn [kernel]; [unfold hard_sphere|unfold hard_sphere_ds|unfold hertz]; (destruct (Req_EM_T _ 0); [contradiction|]);
    fold (norm (e_dims e) (shift_of e w i j)); fold r.
  - eexists. eexists. split; [reflexivity|]. apply G. apply Rmult_le_pos; lra.
  - eexists. eexists. split; [reflexivity|]. apply G. apply Rmax_l.
  - destruct (Rlt_dec _ 0); [lra|]. destruct (Rlt_dec _ 0) as [L|_].
    + exfalso. apply Rlt_not_le in L. apply L. apply Rmult_le_pos; [lra|]. apply Rmult_le_pos; [now apply Rmult_le_pos|]. apply Rlt_le, Rinv_0_lt_compat. lra.
    + eexists. eexists. split; [reflexivity|]. apply G. apply Rmax_l.
Qed.
(* Contact forces never attract, whatever the velocities and the dissipation: the force on the first particle is a
   non-negative multiple of the vector from the second to the first. *)
Theorem C27_never_attract : forall k e w i j st, 0 <= e_sg e i -> 0 <= e_sg e j -> 0 < norm (e_dims e) (shift_of e w i j) < e_sg e i + e_sg e j ->
  (exists a, 0 <= a /\ k = HardSphere a) \/ (exists a b, k = HardSphereDs a b) \/ (exists a b, k = Hertz a b) ->
  exists s st', do_pair k 1 e w i j st = Some st' /\ 0 <= s /\ opposite (e_dims e) i j (vscale s (shift_of e w i j)) (F st) (F st').
Proof. intros k e w i j st Hi Hj Hr [(a & Ha & ->)|[(a & b & ->)|(a & b & ->)]]; now apply contact_kernel. Qed.
Print Assumptions C27_never_attract.

(* The dissipative part takes energy away: compared with the same force without dissipation, the power delivered to the pair
   is not larger. *)
Theorem C27_dissipates : forall e w i j st rep diss, 0 <= e_sg e i -> 0 <= e_sg e j -> 0 <= rep -> 0 <= diss ->
  let X := shift_of e w i j in 0 < norm (e_dims e) X < e_sg e i + e_sg e j ->
  exists s0 s st0 st', do_pair (HardSphereDs rep 0) 1 e w i j st = Some st0 /\ do_pair (HardSphereDs rep diss) 1 e w i j st = Some st' /\
    opposite (e_dims e) i j (vscale s0 X) (F st) (F st0) /\ opposite (e_dims e) i j (vscale s X) (F st) (F st') /\
    dot (e_dims e) (vscale s X) (vsub (e_v e i) (e_v e j)) <= dot (e_dims e) (vscale s0 X) (vsub (e_v e i) (e_v e j)).
Proof.
  intros e w i j st rep diss Hi Hj Hrep Hdiss X Hr. set (r := norm (e_dims e) X) in *. rewrite !in_range_pair by (fold X; fold r; lra). fold X.
  assert (ND : dot (e_dims e) X X <> 0) by (apply norm_pos_dot; fold r; lra). cbn [kernel]. unfold hard_sphere_ds. destruct (Req_EM_T _ 0); [contradiction|].
  fold (norm (e_dims e) X). fold r. set (vn := dot (e_dims e) (vsub (e_v e j) (e_v e i)) (vscale (1 / r) X)). set (K := rep * (e_sg e i + e_sg e j - r)).
  assert (HK : 0 <= K) by (apply Rmult_le_pos; lra).
  exists (Rmax 0 (K + 0 * vn) / r), (Rmax 0 (K + diss * vn) / r). eexists. eexists. split; [reflexivity|]. split; [reflexivity|]. cbn [book F].
  assert (O : forall Fn, opposite (e_dims e) i j (vscale (Fn / r) X) (F st) (push e i j (vscale (1 / r) X) Fn (F st))).
  { intros Fn a d. rewrite (push_opposite e i j _ _ (F st) a d). unfold vscale. destruct (a =? i)%nat, (a =? j)%nat, (d <? e_dims e)%nat; field; lra. }
  split; [apply O|]. split; [apply O|]. rewrite !dot_scale_l.
  assert (EV : dot (e_dims e) X (vsub (e_v e i) (e_v e j)) = - r * vn).
  { unfold vn. rewrite dot_scale_r. replace (- r * (1 / r * dot (e_dims e) (vsub (e_v e j) (e_v e i)) X)) with (- dot (e_dims e) (vsub (e_v e j) (e_v e i)) X) by (field; lra).
    clear. induction (e_dims e) as [|n IH]; cbn; [ring|]. rewrite IH. unfold vsub. ring. }
  rewrite EV. replace (Rmax 0 (K + diss * vn) / r * (- r * vn)) with (- (Rmax 0 (K + diss * vn) * vn)) by (field; lra).
  replace (Rmax 0 (K + 0 * vn) / r * (- r * vn)) with (- (Rmax 0 (K + 0 * vn) * vn)) by (field; lra).
  rewrite Rmult_0_l, Rplus_0_r. rewrite (Rmax_right 0 K HK). apply Ropp_le_contravar.
  unfold Rmax. destruct (Rle_dec 0 (K + diss * vn)) as [L|L]; [nra|]. apply Rnot_le_lt in L. assert (vn < 0) by nra. nra.
Qed.
Print Assumptions C27_dissipates.
Example C27_case : 0 < norm 1 (shift_of (line 1 1 1) false 0 1) < e_sg (line 1 1 1) 0 + e_sg (line 1 1 1) 1.
Proof. rewrite line_norm by lra. cbn. lra. Qed.

(* C27 fails for Hooke forces: in any dimension but 2 no force is ever applied, and in 2 dimensions none along the line between
   the particles (the second particle's share goes to the first). *)
Theorem C27_hooke_refuted : forall kn gn gt mu e w i j st st', e_dims e <> 2%nat -> do_pair (Hooke kn gn gt mu) 1 e w i j st = Some st' ->
  forall a d, F st' a d = F st a d.
Proof.
  intros kn gn gt mu e w i j st st' H2 H a d. unfold do_pair in H. destruct (Rlt_dec _ _); [|now injection H as <-]. cbn [kernel] in H. unfold hooke in H.
  destruct (Req_EM_T _ 0); [discriminate|]. destruct (Nat.eqb_spec (e_dims e) 2); [contradiction|]. injection H as <-. cbn [book F]. unfold add_scaled.
  destruct (a =? i)%nat, (d <? e_dims e)%nat; cbn [andb]; ring.
Qed.
Print Assumptions C27_hooke_refuted.
Theorem C27_hooke_2d_refuted : forall kn gn gt mu e w i j st, e_dims e = 2%nat -> i <> j -> (forall a d, e_v e a d = 0) -> (forall a, e_om e a = 0) -> 0 <= mu ->
  0 <= e_sg e i -> 0 <= e_sg e j -> 0 < norm 2 (shift_of e w i j) < e_sg e i + e_sg e j ->
  exists st', do_pair (Hooke kn gn gt mu) 1 e w i j st = Some st' /\ forall a d, F st' a d = F st a d.
Proof.
  intros kn gn gt mu e w i j st E2 Hij HV HO Hmu Hi Hj Hr. rewrite in_range_pair by (rewrite ?E2; lra). cbn [kernel]. unfold hooke.
  destruct (Req_EM_T _ 0) as [Z|_]; [exfalso; rewrite E2 in Z; revert Z; apply norm_pos_dot; lra|]. rewrite E2. cbn [Nat.eqb]. eexists. split; [reflexivity|].
  cbn [book F]. set (n := vscale _ _). set (vn := dot 2 _ n). set (Fn := Rmax 0 _).
  assert (Evn : vn = 0). { unfold vn, dot, vsub. rewrite !HV. ring. }
  set (Nt := fun d : nat => _). set (vt := dot 2 _ Nt - _). assert (Evt : vt = 0). { unfold vt, dot, vsub, vscale. rewrite !HV, !HO, Evn. ring. }
  rewrite Evt. rewrite !Rmult_0_r, Ropp_0.
  assert (HF : 0 <= mu * Fn) by (apply Rmult_le_pos; [exact Hmu|apply Rmax_l]). destruct (Rlt_dec 0 (- (mu * Fn))); [lra|]. destruct (Rlt_dec (mu * Fn) 0); [lra|].
  intros a d. unfold add_scaled. destruct (a =? i)%nat, (a =? j)%nat, (d <? 2)%nat; cbn [andb]; ring.
Qed.
Print Assumptions C27_hooke_2d_refuted.

(* ------------------------------------------------------------------ C28 *)
(* No pair force beyond the cutoff. *)
Theorem C28_no_force_beyond : forall k c e w i j st, 0 <= (e_sg e i + e_sg e j) * c -> (e_sg e i + e_sg e j) * c <= norm (e_dims e) (shift_of e w i j) ->
  do_pair k c e w i j st = Some st.
Proof. exact out_of_range_pair. Qed.
Print Assumptions C28_no_force_beyond.

Definition vanishes_at_cutoff (U : R -> R -> R -> R) (c R1 R2 : R) : Prop :=
  forall eps, 0 < eps -> exists delta, 0 < delta /\ forall r, 0 < r < (R1 + R2) * c -> (R1 + R2) * c - delta < r -> Rabs (U R1 R2 r) < eps.
Lemma vanishes_of U V c R1 R2 l : (forall r, 0 < r < (R1 + R2) * c -> U R1 R2 r = V R1 R2 r) -> derivable_pt_lim (V R1 R2) ((R1 + R2) * c) l -> V R1 R2 ((R1 + R2) * c) = 0 ->
  vanishes_at_cutoff U c R1 R2.
Proof.
  intros HE HD HZ eps He. destruct (derives_continuous _ _ _ HD eps He) as (d & Hd & HC). exists d. split; [exact Hd|]. intros r H1 H2. rewrite HE by exact H1.
  specialize (HC r). rewrite HZ, Rminus_0_r in HC. apply HC. apply Rabs_def1; lra.
Qed.
(* Lennard-Jones, however built: the energy of a pair tends to 0 at the cutoff distance, for all radii. *)
Theorem C28_lennard_jones : forall p, lj_built p -> let k := LennardJones (c_strength p) (c_shift p) in
  (exists U Fm, describes k (c_cutoff p) U Fm) /\
  forall U Fm, describes k (c_cutoff p) U Fm -> forall R1 R2, 0 <= R1 -> 0 <= R2 -> 0 < R1 + R2 -> vanishes_at_cutoff U (c_cutoff p) R1 R2.
Proof.
  intros p Hp k. destruct (lj_facts p Hp) as [Hc Hs]. split; [do 2 eexists; apply lj_describes|]. intros U Fm HD R1 R2 H1 H2 H12.
  assert (Hpos : 0 < (R1 + R2) * c_cutoff p) by now apply Rmult_lt_0_compat.
  apply (vanishes_of _ (lj_U (c_strength p) (c_shift p)) _ _ _ _ (fun r Hr => proj1 (describes_unique _ _ _ _ _ _ HD (lj_describes _ _ _) R1 R2 r H1 H2 Hr)) (lj_derives _ _ _ _ _ Hpos)).
  rewrite Hs. unfold lj_U. replace ((R1 + R2) * (1 / ((R1 + R2) * c_cutoff p))) with ((1 + 0) * (1 / c_cutoff p)) by (field; lra). ring.
Qed.
Print Assumptions C28_lennard_jones.
Theorem C28_hard_sphere : forall a, (exists U Fm, describes (HardSphere a) 1 U Fm) /\
  forall U Fm, describes (HardSphere a) 1 U Fm -> forall R1 R2, 0 <= R1 -> 0 <= R2 -> 0 < R1 + R2 -> vanishes_at_cutoff U 1 R1 R2.
Proof.
  intros a. split; [do 2 eexists; apply hs_describes|]. intros U Fm HD R1 R2 H1 H2 H12.
  apply (vanishes_of _ (hs_U a) _ _ _ _ (fun r Hr => proj1 (describes_unique _ _ _ _ _ _ HD (hs_describes _ _) R1 R2 r H1 H2 Hr)) (hs_derives _ _ _ _)). unfold hs_U. ring.
Qed.
Print Assumptions C28_hard_sphere.
(* Coulomb: only for particles whose radii add up to 1. *)
Theorem C28_coulomb_partial : forall p, coulomb_built p -> forall U Fm, describes (Coulomb (c_strength p) (c_shift p)) (c_cutoff p) U Fm ->
  forall R1 R2, 0 <= R1 -> 0 <= R2 -> R1 + R2 = 1 -> vanishes_at_cutoff U (c_cutoff p) R1 R2.
Proof.
  intros p Hp U Fm HD R1 R2 H1 H2 H12. destruct (coulomb_facts p Hp) as [Hc Hs].
  assert (Hpos : 0 < (R1 + R2) * c_cutoff p) by (rewrite H12; lra).
  apply (vanishes_of _ (co_U (c_strength p) (c_shift p)) _ _ _ _ (fun r Hr => proj1 (describes_unique _ _ _ _ _ _ HD (co_describes _ _ _) R1 R2 r H1 H2 Hr)) (co_derives _ _ _ _ _ Hpos)).
  rewrite Hs, H12. unfold co_U. rewrite Rmult_1_l. ring.
Qed.
Print Assumptions C28_coulomb_partial.
(* C28 fails for Coulomb: the shift is computed for the cutoff factor, not for the cutoff distance. *)
Theorem C28_coulomb_refuted : forall s U Fm, s <> 0 -> describes (Coulomb s (c_shift (coulomb_new s))) (c_cutoff (coulomb_new s)) U Fm ->
  ~ vanishes_at_cutoff U (c_cutoff (coulomb_new s)) 1 1.
Proof.
  intros s U Fm Hs HD HV. unfold coulomb_new, coulomb_setCutoff in *. cbn [c_strength c_cutoff c_shift] in *. destruct (Rlt_dec 0 3) as [_|]; [|lra].
  assert (He : 0 < Rabs s / 12) by (apply Rdiv_lt_0_compat; [now apply Rabs_pos_lt|lra]). destruct (HV _ He) as (d & Hd & H).
  set (r := Rmax 4 (6 - d / 2)). assert (Hr : 4 <= r < 6) by (unfold r, Rmax; destruct (Rle_dec 4 (6 - d / 2)); lra).
  assert (Hr2 : (1 + 1) * 3 - d < r) by (unfold r, Rmax; destruct (Rle_dec 4 (6 - d / 2)); lra).
  specialize (H r ltac:(lra) Hr2). rewrite (proj1 (describes_unique _ _ _ _ _ _ HD (co_describes _ _ _) 1 1 r ltac:(lra) ltac:(lra) ltac:(lra))) in H. unfold co_U in H.
  replace (s / r - s / 3) with (s * (1 / r - 1 / 3)) in H by (field; lra). rewrite Rabs_mult in H.
  assert (Ha := Rabs_pos_lt s Hs). assert (1 / r <= 1 / 4) by (apply Rmult_le_compat_l; [lra|apply Rinv_le_contravar; lra]).
  rewrite (Rabs_left (1 / r - 1 / 3)) in H by lra. nra.
Qed.
Print Assumptions C28_coulomb_refuted.
(* C28 fails for Buckingham: the shift is never computed. *)
Theorem C28_buckingham_refuted : forall s U Fm, s <> 0 ->
  describes (Buckingham s 1 (-1) (c_shift (buckingham_new s))) (c_cutoff (buckingham_new s)) U Fm -> ~ vanishes_at_cutoff U (c_cutoff (buckingham_new s)) 1 1.
Proof.
  intros s U Fm Hs HD HV. unfold buckingham_new, buckingham_setCutoff in *. cbn [c_strength c_cutoff c_shift] in *. destruct (Rlt_dec 0 3) as [_|]; [|lra].
  assert (Ha := Rabs_pos_lt s Hs).
  assert (HL : derivable_pt_lim (bu_U s 1 0 1 1) 6 _) by (apply bu_derives; lra).
  assert (HZ : Rabs (bu_U s 1 0 1 1 6) > Rabs s / 50).
  { unfold bu_U. rewrite Rminus_0_r, Rabs_mult. replace (- (1) / ((1 + 1) * (1 / 6))) with (- (3)) by field.
    assert (E3 : exp 3 <= 27). { replace 3 with (1 + (1 + 1)) by ring. rewrite !exp_plus. assert (A := exp_le_3). assert (B := exp_pos 1). assert (exp 1 * exp 1 <= 9) by nra. nra. }
    rewrite exp_Ropp. assert (P3 := exp_pos 3). assert (/ 27 <= / exp 3) by (apply Rinv_le_contravar; lra).
    assert (HB : / 50 < / exp 3 - (1 + 1) * (1 / 6) * ((1 + 1) * (1 / 6)) * ((1 + 1) * (1 / 6) * ((1 + 1) * (1 / 6))) * ((1 + 1) * (1 / 6) * ((1 + 1) * (1 / 6)))) by lra.
    rewrite (Rabs_right (_ - _)) by lra. unfold Rdiv at 1. apply Rmult_lt_compat_l; assumption. }
  assert (He : 0 < Rabs s / 100) by lra. destruct (HV _ He) as (d & Hd & H). destruct (derives_continuous _ _ _ HL _ He) as (d' & Hd' & H').
  set (m := Rmin d d'). assert (0 < m) by (unfold m, Rmin; destruct (Rle_dec d d'); lra). assert (m <= d) by apply Rmin_l. assert (m <= d') by apply Rmin_r.
  set (r := Rmax 4 (6 - m / 2)). assert (Hr : 4 <= r < 6 /\ 6 - m < r) by (unfold r, Rmax; destruct (Rle_dec 4 (6 - m / 2)); lra).
  specialize (H r ltac:(lra) ltac:(lra)). rewrite (proj1 (describes_unique _ _ _ _ _ _ HD (bu_describes _ _ _ _ _) 1 1 r ltac:(lra) ltac:(lra) ltac:(lra))) in H.
  specialize (H' r ltac:(apply Rabs_def1; lra)). assert (T := Rabs_triang_inv (bu_U s 1 0 1 1 6) (bu_U s 1 0 1 1 r)). rewrite Rabs_minus_sym in T. lra.
Qed.
Print Assumptions C28_buckingham_refuted.
Example C28_case : lj_built (lj_parse (Some (1 / 100)) None (lj_setCutoff 3 (lj_new 1))).
Proof. apply LJ_parse, LJ_cut, LJ_new. Qed.

(* ------------------------------------------------------------------ C55 *)
(* The force is minus the derivative of the reported energy: hard spheres and Lennard-Jones. *)
Theorem C55_hard_sphere : forall a, exists U Fm, describes (HardSphere a) 1 U Fm /\
  forall R1 R2 r, 0 < r -> derivable_pt_lim (U R1 R2) r (- Fm R1 R2 r).
Proof. intros a. exists (hs_U a), (hs_F a). split; [apply hs_describes|]. intros. apply hs_derives. Qed.
Print Assumptions C55_hard_sphere.
Theorem C55_lennard_jones : forall s shift c, exists U Fm, describes (LennardJones s shift) c U Fm /\
  forall R1 R2 r, 0 < r -> derivable_pt_lim (U R1 R2) r (- Fm R1 R2 r).
Proof. intros s sh c. exists (lj_U s sh), (lj_F s). split; [apply lj_describes|]. intros. now apply lj_derives. Qed.
Print Assumptions C55_lennard_jones.
(* C55 fails for Coulomb (the force is shifted, the energy is not) at every distance ... *)
Theorem C55_coulomb_refuted : forall p U Fm, coulomb_built p -> c_strength p <> 0 -> describes (Coulomb (c_strength p) (c_shift p)) (c_cutoff p) U Fm ->
  forall R1 R2 r, 0 <= R1 -> 0 <= R2 -> 0 < r < (R1 + R2) * c_cutoff p -> ~ derivable_pt_lim (U R1 R2) r (- Fm R1 R2 r).
Proof.
  intros p U Fm Hp Hs HD R1 R2 r H1 H2 Hr HL. destruct (coulomb_facts p Hp) as [Hc _].
  assert (A := fun x Hx => describes_unique _ _ _ _ _ _ HD (co_describes _ _ _) R1 R2 x H1 H2 Hx). rewrite (proj2 (A r Hr)) in HL.
  apply (derivable_pt_lim_locally_ext _ (co_U (c_strength p) (c_shift p) R1 R2) r 0 ((R1 + R2) * c_cutoff p)) in HL; [|exact Hr|intros z Hz; apply A; exact Hz].
  assert (E := uniqueness_limite _ _ _ _ HL (co_derives (c_strength p) (c_shift p) R1 R2 r ltac:(lra))). unfold co_F in E.
  assert (c_strength p / (c_cutoff p * c_cutoff p) = 0) by lra. apply Hs. replace (c_strength p) with (c_strength p / (c_cutoff p * c_cutoff p) * (c_cutoff p * c_cutoff p)) by (field; lra). rewrite H. ring.
Qed.
Print Assumptions C55_coulomb_refuted.
(* ... and for Buckingham with the default parameters, whose force is never above -1: never repulsive at any distance. *)
Theorem C55_buckingham_refuted : forall U Fm, describes (Buckingham (1 / 400) 1 (-1) 0) 3 U Fm ->
  (forall R1 R2 r, 0 <= R1 -> 0 <= R2 -> 0 < r < (R1 + R2) * 3 -> Fm R1 R2 r <= -1) /\
  exists R1 R2 r, 0 < r < (R1 + R2) * 3 /\ 0 <= R1 /\ 0 <= R2 /\ ~ derivable_pt_lim (U R1 R2) r (- Fm R1 R2 r).
Proof.
  intros U Fm HD. assert (A := fun R1 R2 x H1 H2 Hx => describes_unique _ _ _ _ _ _ HD (bu_describes _ _ _ _ _) R1 R2 x H1 H2 Hx).
  assert (HF : forall R1 R2 r, 0 <= R1 -> 0 <= R2 -> 0 < r < (R1 + R2) * 3 -> Fm R1 R2 r <= -1).
  { intros R1 R2 r H1 H2 Hr. rewrite (proj2 (A R1 R2 r H1 H2 Hr)). unfold bu_F. apply Rmin_l. }
  split; [exact HF|]. exists 1, 1, 2. split; [lra|]. split; [lra|]. split; [lra|]. intros HL. assert (HF2 := HF 1 1 2 ltac:(lra) ltac:(lra) ltac:(lra)).
  apply (derivable_pt_lim_locally_ext _ (bu_U (1 / 400) 1 0 1 1) 2 0 6) in HL; [|lra|intros z Hz; apply A; lra].
  assert (E := uniqueness_limite _ _ _ _ HL (bu_derives (1 / 400) 1 0 1 1 2 ltac:(lra) ltac:(lra))).
  assert (P := exp_pos (- (1) / ((1 + 1) * (1 / 2)))). set (x := exp _) in *.
  replace (6 * (1 / 400) * (1 + 1) ^ 6 * / 2 ^ 7) with (3 / 400) in E by (field). lra.
Qed.
Print Assumptions C55_buckingham_refuted.

(* ------------------------------------------------------------------ C57 *)
(* The virial is increased by the scalar product of the displacement and the force, for every pair force but Hooke. *)
Theorem C57_virial : forall k c e w i j st st', (forall kn gn gt mu, k <> Hooke kn gn gt mu) -> e_vir e = true ->
  do_pair k c e w i j st = Some st' ->
  exists g, opposite (e_dims e) i j g (F st) (F st') /\ vir st' = vir st + dot (e_dims e) (shift_of e w i j) g.
Proof.
  intros k c e w i j st st' NH HV H. unfold do_pair in H. fold (shift_of e w i j) in H. destruct (Rlt_dec _ _) as [_|_].
  2:{ injection H as <-. exists (fun _ => 0). split; [apply opposite_refl|]. replace (dot (e_dims e) (shift_of e w i j) (fun _ => 0)) with 0; [ring|]. clear. induction (e_dims e); cbn; lra. }
  set (X := shift_of e w i j) in *. set (q := dot (e_dims e) X X) in *.
  assert (G : forall Fn, q <> 0 -> dot (e_dims e) X (vscale Fn (vscale (1 / sqrt q) X)) = Fn * sqrt q).
  { intros Fn Hq. rewrite !dot_scale_r. fold q. assert (0 < q) by (assert (N := dot_nonneg (e_dims e) X); fold q in N; lra).
    assert (S := sqrt_lt_R0 q H0). replace q with (sqrt q * sqrt q) at 2 by (apply sqrt_sqrt; lra). field. lra. }
  destruct k; cbn [kernel] in H;
    [unfold hard_sphere in H|unfold hard_sphere_ds in H|unfold lennard_jones in H|unfold coulomb in H|unfold buckingham in H|unfold hertz in H|exfalso; now apply (NH K_n gamma_n gamma_t mu)];
    (destruct (Req_EM_T q 0); [discriminate|]).
  1-5: injection H as <-; cbn [book F vir]; rewrite HV; eexists; split; [apply push_opposite|]; rewrite G by assumption; reflexivity.
  destruct (Rlt_dec _ 0) in H.
  - injection H as <-. exists (fun _ => 0). split; [apply opposite_refl|]. replace (dot (e_dims e) X (fun _ => 0)) with 0; [ring|]. clear. induction (e_dims e); cbn; lra.
  - destruct (Rlt_dec _ 0) in H; [discriminate|]. injection H as <-. cbn [book F vir]. rewrite HV. eexists. split; [apply push_opposite|]. rewrite G by assumption. reflexivity.
Qed.
Print Assumptions C57_virial.
(* C57 fails for Hooke forces (1 dimension, particles at rest): a virial is reported although no force acts. *)
Theorem C57_hooke_refuted : exists e st st', do_pair (Hooke 1 0 0 0) 1 e false 0 1 st = Some st' /\ e_vir e = true /\
  (forall a d, F st' a d = F st a d) /\ vir st = 0 /\ vir st' = 1.
Proof.
  exists (line 1 1 1), (mkF (fun _ _ => 0) (fun _ => 0) 0 0). 
  assert (HN : norm 1 (shift_of (line 1 1 1) false 0 1) = 1) by (apply line_norm; lra).
  rewrite in_range_pair by (change (e_dims (line 1 1 1)) with 1%nat; rewrite ?HN; cbn; lra). cbn [kernel]. unfold hooke.
  change (e_dims (line 1 1 1)) with 1%nat. rewrite <- norm_sq, HN.
  destruct (Req_EM_T (1 * 1) 0); [lra|]. cbn [Nat.eqb]. eexists. split; [reflexivity|]. split; [reflexivity|]. rewrite Rmult_1_r, sqrt_1. split.
  - intros a d. cbn [book F]. unfold add_scaled. destruct (a =? 0)%nat, (d <? 1)%nat; cbn [andb]; ring.
  - cbn. split; [reflexivity|]. unfold Rmax, m_eff. destruct (Rle_dec 0 _); destruct (Req_EM_T 1 0); cbn in *; lra.
Qed.
Print Assumptions C57_hooke_refuted.

(* ------------------------------------------------------------------ C56 *)
(* C56 fails: a pair whose particles live on two processors is counted in full by both (ghosts are numbered after the one real
   particle of each processor), whatever the interaction, so that the sum over the processors is twice the energy of the pair. *)
Theorem C56_energy_doubled_refuted : forall k c U Fm R1 R2 r, describes k c U Fm -> 0 <= R1 -> 0 <= R2 -> 0 < r < (R1 + R2) * c ->
  (forall x, U R2 R1 x = U R1 R2 x) ->
  let st0 := mkF (fun _ _ => 0) (fun _ => 0) 0 0 in
  exists one a b,
    interact_forces k c (line R1 R2 r) [(0%nat, 1%nat)] [] st0 = Some one /\
    (* processor A owns the particle of radius R1 (id 0); its ghost (id 1) is at distance r *)
    interact_ghost_forces k c (line R1 R2 r) [(1%nat, 0%nat)] st0 = Some a /\
    (* processor B owns the particle of radius R2 (id 0); its ghost (id 1) is at distance r *)
    interact_ghost_forces k c (line R2 R1 r) [(1%nat, 0%nat)] st0 = Some b /\
    pot a + pot b = 2 * pot one.
Proof.
  intros k c U Fm R1 R2 r HD H1 H2 Hr HS st0.
  assert (N0 : forall A B, norm 1 (shift_of (line A B r) true 1 0) = r).
  { intros A B. unfold norm, shift_of, line, correction, vsub. cbn. replace ((0 - r) * (0 - r) + 0) with (r * r) by ring. apply sqrt_square. lra. }
  destruct (HD (line R1 R2 r) false 0%nat 1%nat st0) as (one & E1 & P1 & _); [reflexivity|exact H1|exact H2|change (e_dims (line R1 R2 r)) with 1%nat; rewrite line_norm by lra; cbn; lra|].
  destruct (HD (line R1 R2 r) true 1%nat 0%nat st0) as (a & E2 & P2 & _); [reflexivity|exact H2|exact H1|change (e_dims (line R1 R2 r)) with 1%nat; rewrite N0; cbn; lra|].
  destruct (HD (line R2 R1 r) true 1%nat 0%nat st0) as (b & E3 & P3 & _); [reflexivity|exact H1|exact H2|change (e_dims (line R2 R1 r)) with 1%nat; rewrite N0; cbn; lra|].
  exists one, a, b. unfold interact_forces, interact_ghost_forces. cbn [do_list F Tq st0]. fold st0. unfold st0 in *. cbn [do_list]. rewrite E1, E2, E3. split; [reflexivity|]. split; [reflexivity|]. split; [reflexivity|].
  change (e_dims (line R1 R2 r)) with 1%nat in *. change (e_dims (line R2 R1 r)) with 1%nat in *. rewrite P1, P2, P3, !N0, line_norm by lra. cbn. rewrite HS. ring.
Qed.
Print Assumptions C56_energy_doubled_refuted.
Example C56_case : exists U Fm, describes (HardSphere 50) 1 U Fm /\ (forall x, U 2 1 x = U 1 2 x) /\ U 1 2 2 = 25.
Proof. exists (hs_U 50), (hs_F 50). split; [apply hs_describes|]. unfold hs_U. split; [intros x; ring|field]. Qed.
