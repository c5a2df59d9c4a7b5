From Coq Require Import Reals List Bool Arith Lia Lra.
From Verif Require Import Model_Forces Spec_Forces Proofs_Forces.
Import ListNotations.
Local Open Scope R_scope.

Lemma norm_sq n x : norm n x * norm n x = dot n x x.
Proof. unfold norm. apply sqrt_sqrt, dot_nonneg. Qed.
Lemma norm_nonneg n x : 0 <= norm n x.
Proof. apply sqrt_pos. Qed.
Lemma norm_pos_dot n x : 0 < norm n x -> dot n x x <> 0.
Proof. intros H. rewrite <- norm_sq. nra. Qed.

(* do_pair in terms of the distance *)
Lemma in_range_pair k c e w i j st : 0 <= (e_sg e i + e_sg e j) * c -> norm (e_dims e) (shift_of e w i j) < (e_sg e i + e_sg e j) * c ->
  do_pair k c e w i j st = kernel k c e i j (e_sg e i) (e_sg e j) (dot (e_dims e) (shift_of e w i j) (shift_of e w i j)) (shift_of e w i j) st.
Proof.
  intros H0 H. unfold do_pair. fold (shift_of e w i j). destruct (Rlt_dec _ _) as [L|L]; [reflexivity|]. exfalso. apply L. rewrite <- norm_sq.
  assert (N := norm_nonneg (e_dims e) (shift_of e w i j)). apply Rmult_le_0_lt_compat; lra.
Qed.
Lemma out_of_range_pair k c e w i j st : 0 <= (e_sg e i + e_sg e j) * c -> (e_sg e i + e_sg e j) * c <= norm (e_dims e) (shift_of e w i j) ->
  do_pair k c e w i j st = Some st.
Proof.
  intros H0 H. unfold do_pair. fold (shift_of e w i j). destruct (Rlt_dec _ _) as [L|L]; [|reflexivity]. exfalso. rewrite <- norm_sq in L.
  assert ((e_sg e i + e_sg e j) * c * ((e_sg e i + e_sg e j) * c) <= norm (e_dims e) (shift_of e w i j) * norm (e_dims e) (shift_of e w i j)) by (apply Rmult_le_compat; lra). lra.
Qed.

Definition hs_U k (R1 R2 r : R) := 1 / 2 * k * ((r - R1 - R2) * (r - R1 - R2)).
Definition hs_F k (R1 R2 r : R) := k * (R1 + R2 - r).
Definition lj_U s sh (R1 R2 r : R) := let g := (R1 + R2) * (1 / r) in let g3 := g * g * g in let g6 := g3 * g3 in 4 * s * (g6 * g6 - g6) - sh.
Definition lj_F s (R1 R2 r : R) := let g := (R1 + R2) * (1 / r) in let g3 := g * g * g in let g6 := g3 * g3 in 24 * s * (2 * (g6 * g6) - g6) * (1 / r).
Definition co_U s sh (R1 R2 r : R) := s / r - sh.
Definition co_F s c (R1 R2 r : R) := s / (r * r) - s / (c * c).
Definition bu_U s ra sh (R1 R2 r : R) := let x := (R1 + R2) * (1 / r) in s * (exp (- ra / x) - x * x * (x * x) * (x * x)) - sh.
Definition bu_F s ra inner (R1 R2 r : R) := let x := (R1 + R2) * (1 / r) in Rmin inner (s * (1 / r) * (ra * exp (- ra / x) - 6 * (x * x * (x * x) * (x * x)))).

Ltac describe := intros e w i j st X r HP Hi Hj [H0 H1];
  rewrite in_range_pair by (fold X; fold r; lra); fold X; cbn [kernel];
  assert (Hr : sqrt (dot (e_dims e) X X) = r) by reflexivity;
  assert (Hn : dot (e_dims e) X X <> 0) by now apply norm_pos_dot.
Lemma hs_describes k c : describes (HardSphere k) c (hs_U k) (hs_F k).
Proof.
  describe. unfold hard_sphere. destruct (Req_EM_T _ 0); [contradiction|]. eexists. split; [reflexivity|]. cbn [book pot F]. rewrite HP, Hr.
  split; [reflexivity|]. apply push_opposite.
Qed.
Lemma lj_describes s sh c : describes (LennardJones s sh) c (lj_U s sh) (lj_F s).
Proof.
  describe. unfold lennard_jones. destruct (Req_EM_T _ 0); [contradiction|]. eexists. split; [reflexivity|]. cbn [book pot F]. rewrite HP, Hr.
  split; [reflexivity|]. apply push_opposite.
Qed.
Lemma co_describes s sh c : describes (Coulomb s sh) c (co_U s sh) (co_F s c).
Proof.
  describe. unfold coulomb. destruct (Req_EM_T _ 0); [contradiction|]. eexists. split; [reflexivity|]. cbn [book pot F]. rewrite HP, Hr.
  split; [reflexivity|]. rewrite <- norm_sq. apply push_opposite.
Qed.
Lemma bu_describes s ra inner sh c : describes (Buckingham s ra inner sh) c (bu_U s ra sh) (bu_F s ra inner).
Proof.
  describe. unfold buckingham. destruct (Req_EM_T _ 0); [contradiction|]. eexists. split; [reflexivity|]. cbn [book pot F]. rewrite HP, Hr.
  split; [reflexivity|]. apply push_opposite.
Qed.

(* Anything that describes k agrees with the energy and force of a concrete pair. *)
Definition line (R1 R2 r : R) : env :=
  mkEnv 1 (fun i _ => match i with O => r | _ => 0 end) (fun _ _ => 0) (fun _ => 1) (fun i => match i with O => R1 | _ => R2 end) (fun _ => 0) (fun _ => false) (fun _ => 0) true true.
Lemma norm1 x : 0 <= x -> norm 1 (fun _ => x) = x.
Proof. intros H. unfold norm. cbn. replace (x * x + 0) with (x * x) by ring. now apply sqrt_square. Qed.
Lemma line_norm R1 R2 r : 0 < r -> norm 1 (shift_of (line R1 R2 r) false 0 1) = r.
Proof. intros H. unfold norm, shift_of, line, vsub. cbn. replace ((r - 0) * (r - 0) + 0) with (r * r) by ring. apply sqrt_square. lra. Qed.
Lemma describes_unique k c U Fm U' Fm' : describes k c U Fm -> describes k c U' Fm' -> forall R1 R2 r, 0 <= R1 -> 0 <= R2 -> 0 < r < (R1 + R2) * c ->
  U R1 R2 r = U' R1 R2 r /\ Fm R1 R2 r = Fm' R1 R2 r.
Proof.
  intros D D' R1 R2 r H1 H2 Hr. set (st := mkF (fun _ _ => 0) (fun _ => 0) 0 0). specialize (D (line R1 R2 r) false 0%nat 1%nat st). specialize (D' (line R1 R2 r) false 0%nat 1%nat st).
  cbv zeta in D, D'. change (e_dims (line R1 R2 r)) with 1%nat in *. rewrite line_norm in D, D' by lra. change (e_sg (line R1 R2 r) 0%nat) with R1 in *. change (e_sg (line R1 R2 r) 1%nat) with R2 in *.
  destruct (D eq_refl H1 H2 Hr) as (s1 & E1 & P1 & O1). destruct (D' eq_refl H1 H2 Hr) as (s2 & E2 & P2 & O2). assert (s1 = s2) by congruence. subst s2. split; [lra|].
  specialize (O1 0%nat 0%nat). specialize (O2 0%nat 0%nat). rewrite O1 in O2. cbn in O2. unfold vscale, shift_of, vsub, line in O2. cbn in O2.
  replace (1 / r * (r - 0)) with 1 in O2 by (field; lra). lra.
Qed.

Lemma lj_facts p : lj_built p -> 0 < c_cutoff p /\ c_shift p = lj_U (c_strength p) 0 1 0 (c_cutoff p).
Proof.
  assert (G : forall c p, (0 < c \/ 0 < c_cutoff p) -> 0 < c_cutoff (lj_setCutoff c p) /\ c_shift (lj_setCutoff c p) = lj_U (c_strength (lj_setCutoff c p)) 0 1 0 (c_cutoff (lj_setCutoff c p))).
  { intros c q H. unfold lj_setCutoff, lj_U. cbn. destruct (Rlt_dec 0 c); (split; [lra|]); rewrite Rplus_0_r, Rmult_1_l; ring. }
  intros H. induction H as [s|c p H [IH _]|s c p H [IH _]]; [unfold lj_new|..|unfold lj_parse]; apply G; [left; lra|auto..].
Qed.
Lemma coulomb_facts p : coulomb_built p -> 0 < c_cutoff p /\ c_shift p = c_strength p / c_cutoff p.
Proof.
  assert (G : forall c p, (0 < c \/ 0 < c_cutoff p) -> 0 < c_cutoff (coulomb_setCutoff c p) /\ c_shift (coulomb_setCutoff c p) = c_strength (coulomb_setCutoff c p) / c_cutoff (coulomb_setCutoff c p)).
  { intros c q H. unfold coulomb_setCutoff. cbn. destruct (Rlt_dec 0 c); (split; [lra|reflexivity]). }
  intros H. induction H as [s|c p H [IH _]]; apply G; [left; lra|auto].
Qed.
Lemma buckingham_facts p : buckingham_built p -> 0 < c_cutoff p /\ c_shift p = 0.
Proof.
  assert (G : forall c p, (0 < c \/ 0 < c_cutoff p) -> 0 < c_cutoff (buckingham_setCutoff c p) /\ c_shift (buckingham_setCutoff c p) = 0).
  { intros c q H. unfold buckingham_setCutoff. cbn. destruct (Rlt_dec 0 c); (split; [lra|reflexivity]). }
  intros H. induction H as [s|c p H [IH _]]; apply G; [left; lra|auto].
Qed.

(* derivatives *)
Lemma hs_derives k R1 R2 r : derivable_pt_lim (hs_U k R1 R2) r (- hs_F k R1 R2 r).
Proof.
  apply (derivable_pt_lim_ext (fun x => (1 / 2 * k) * ((x - (R1 + R2)) * (x - (R1 + R2))))); [intros z; unfold hs_U; ring|].
  replace (- hs_F k R1 R2 r) with ((1 / 2 * k) * ((1 - 0) * (r - (R1 + R2)) + (r - (R1 + R2)) * (1 - 0))) by (unfold hs_F; field).
  apply (derivable_pt_lim_scal (fun x => (x - (R1 + R2)) * (x - (R1 + R2)))).
  apply (derivable_pt_lim_mult (fun x => x - (R1 + R2)) (fun x => x - (R1 + R2)));
    (apply (derivable_pt_lim_minus id (fct_cte (R1 + R2))); [apply derivable_pt_lim_id|apply derivable_pt_lim_const]).
Qed.
Lemma inv_pow_derives n r : 0 < r -> derivable_pt_lim (fun x => / x ^ n) r (- INR n * / r ^ (S n)).
Proof.
  intros Hr. apply (derivable_pt_lim_ext (fct_cte 1 / (fun x => x ^ n))%F); [intros z; unfold div_fct, fct_cte; unfold Rdiv; ring|].
  replace (- INR n * / r ^ S n) with ((0 * r ^ n - INR n * r ^ pred n * fct_cte 1 r) / Rsqr (r ^ n)).
  2:{ unfold fct_cte, Rsqr. destruct n as [|n]; [cbn; field; lra|]. cbn [pred]. assert (r ^ n <> 0) by (apply pow_nonzero; lra). cbn [pow]. field. lra. }
  apply derivable_pt_lim_div; [apply derivable_pt_lim_const|apply derivable_pt_lim_pow|]. apply pow_nonzero. lra.
Qed.
Lemma lj_derives s sh R1 R2 r : 0 < r -> derivable_pt_lim (lj_U s sh R1 R2) r (- lj_F s R1 R2 r).
Proof.
  intros Hr. set (a := (R1 + R2)).
  apply (derivable_pt_lim_locally_ext (fun x => (4 * s * a ^ 12) * (/ x ^ 12) - (4 * s * a ^ 6) * (/ x ^ 6) - sh) _ r 0 (r + 1)); [lra| |].
  { intros z Hz. unfold lj_U. fold a. field. lra. }
  replace (- lj_F s R1 R2 r) with ((4 * s * a ^ 12) * (- INR 12 * / r ^ 13) - (4 * s * a ^ 6) * (- INR 6 * / r ^ 7) - 0).
  2:{ unfold lj_F. fold a. cbn [INR]. field. lra. }
  apply (derivable_pt_lim_minus (fun x => (4 * s * a ^ 12) * (/ x ^ 12) - (4 * s * a ^ 6) * (/ x ^ 6)) (fct_cte sh)); [|apply derivable_pt_lim_const].
  apply (derivable_pt_lim_minus (fun x => (4 * s * a ^ 12) * (/ x ^ 12)) (fun x => (4 * s * a ^ 6) * (/ x ^ 6))).
  - apply (derivable_pt_lim_scal (fun x => / x ^ 12)). now apply inv_pow_derives.
  - apply (derivable_pt_lim_scal (fun x => / x ^ 6)). now apply inv_pow_derives.
Qed.
Lemma co_derives s sh R1 R2 r : 0 < r -> derivable_pt_lim (co_U s sh R1 R2) r (- (s / (r * r))).
Proof.
  intros Hr. apply (derivable_pt_lim_ext (fun x => s * (/ x ^ 1) - sh)); [intros z; unfold co_U, Rdiv; cbn [pow]; now rewrite Rmult_1_r|].
  replace (- (s / (r * r))) with (s * (- INR 1 * / r ^ 2) - 0) by (cbn; field; lra).
  apply (derivable_pt_lim_minus (fun x => s * / x ^ 1) (fct_cte sh)); [|apply derivable_pt_lim_const]. apply (derivable_pt_lim_scal (fun x => / x ^ 1)). now apply inv_pow_derives.
Qed.
Lemma bu_derives s ra sh R1 R2 r : 0 < r -> 0 < R1 + R2 ->
  derivable_pt_lim (bu_U s ra sh R1 R2) r (- s * (ra / (R1 + R2)) * exp (- ra / ((R1 + R2) * (1 / r))) + 6 * s * (R1 + R2) ^ 6 * / r ^ 7).
Proof.
  intros Hr Ha. set (a := R1 + R2) in *.
  apply (derivable_pt_lim_locally_ext (fun x => s * exp ((- ra / a) * x) - (s * a ^ 6) * (/ x ^ 6) - sh) _ r 0 (r + 1)); [lra| |].
  { intros z Hz. unfold bu_U. fold a. replace (- ra / (a * (1 / z))) with (- ra / a * z) by (field; lra). field. lra. }
  replace (- ra / (a * (1 / r))) with (- ra / a * r) by (field; lra).
  replace (- s * (ra / a) * exp (- ra / a * r) + 6 * s * a ^ 6 * / r ^ 7) with (s * (exp (- ra / a * r) * (- ra / a * 1)) - (s * a ^ 6) * (- INR 6 * / r ^ 7) - 0).
  2:{ cbn [INR]. field. lra. }
  apply (derivable_pt_lim_minus (fun x => s * exp ((- ra / a) * x) - (s * a ^ 6) * (/ x ^ 6)) (fct_cte sh)); [|apply derivable_pt_lim_const].
  apply (derivable_pt_lim_minus (fun x => s * exp ((- ra / a) * x)) (fun x => (s * a ^ 6) * (/ x ^ 6))).
  - apply (derivable_pt_lim_scal (fun x => exp ((- ra / a) * x))). apply (derivable_pt_lim_comp (fun x => (- ra / a) * x) exp); [|apply derivable_pt_lim_exp].
    apply (derivable_pt_lim_scal id). apply derivable_pt_lim_id.
  - apply (derivable_pt_lim_scal (fun x => / x ^ 6)). now apply inv_pow_derives.
Qed.
Lemma derives_continuous f x l : derivable_pt_lim f x l -> forall eps, 0 < eps -> exists delta, 0 < delta /\ forall y, Rabs (y - x) < delta -> Rabs (f y - f x) < eps.
Proof.
  intros H eps He. assert (C : continuity_pt f x) by (apply derivable_continuous_pt; now exists l).
  destruct (C eps He) as (d & Hd & HC). exists d. split; [exact Hd|]. intros y Hy. destruct (Req_EM_T y x) as [->|N]; [unfold Rminus; rewrite Rplus_opp_r, Rabs_R0; exact He|].
  apply (HC y). split; [split; [exact I|auto]|exact Hy].
Qed.
