(* C138, C139: motion that does not speed up. *)
From Coq Require Import Reals Qreals.
From Verif Require Import Lib Model_Geometry Model_Handlers Spec_Handlers Model_Cells Spec_Cells Properties_Cells Model_Verlet
  Model_Sweep Spec_Sweep Properties_Sweep Model_Steps Spec_Steps Proofs_Steps Proofs_Steady Properties_Steps.
From Verif Require Import Model_Forces Spec_Forces Proofs_Forces2.
From Coq Require Import Lra Lqa ZifyBool.
Local Open Scope Q_scope.

(* C138. Particles that do not speed up, a constant time step, and nobody else asks for searches: at every step of a run, whatever the number of
   steps, the pairs in use were found by a search since which no particle has moved farther than half of mv_ratio_tolerance * motion_factor *
   skin_depth. The handler has to learn how long it can wait; it does so without ever waiting too long. *)
Theorem C138_no_search_comes_too_late : forall b its n ss fm sk mss gs ps0 tol fac maxdel dt clock ms every old k,
  let e := handler_env its fm sk mss gs (map wd b) in
  let s := mkSetup b fm e tol fac maxdel 2 in
  interactions_set its n ss fm -> fm_list fm <> [] -> small_particles b e n ps0 -> ps0 <> [] -> moves_for b ps0 ms ->
  even_clock dt clock -> dt <= maxdel -> (1#10000) <= maxdel -> 0 < tol * fac < 10 ->
  not_speeding_up (length b) (length ps0) ms -> short_steps (length b) (length ps0) clock ms (1#10000) ((1#2) * (tol * fac * sk)) ->
  (forall it, some_lists (old it)) ->
  exists t a, run s every ps0 old clock ms (fun _ => false) k = Some t /\ (a <= k)%nat /\
    (forall i, (i < length ps0)%nat -> sqr_length (length b) (fun d => travel ms i d a k) <= Qsqr ((1#2) * (tol * fac * sk))) /\
    (exists before, forall it, In it (fm_list fm) -> some_lists (before it) /\ construct_lists fm e (t_found t) it (before it) = Some (t_lists t it)) /\
    map (fun q => (prd q, ptype q)) (t_found t) = map (fun q => (prd q, ptype q)) ps0 /\
    forall i q, nth_error (t_found t) i = Some q -> wrapped b (px q) /\ exists x, nth_error (t_xs t) i = Some x /\
      forall d, (d < length b)%nat -> nth d x 0 == nth d (px q) 0 + travel ms i d a k.
Proof.
  intros b its n ss fm sk mss gs ps0 tol fac maxdel dt clock ms every old k e s (HV & HR & HC & fm0 & HA & Hfm) HI HSP HNE HM HEC HD1 HD0 HT HNS HSH HO. subst fm.
  destruct (run_steady b its n ss fm0 sk mss gs ps0 tol fac maxdel clock dt ms HV HR HC HA HSP HM HI HEC HD0 HD1 HNE HT HNS HSH every old k HO) as (t & E & IV).
  destruct (steady_moved b its fm0 sk mss gs ps0 tol fac maxdel clock dt ms HC k t IV) as (a & Ha & [W1 W2 W3 W4] & F & Y). exists t, a.
  split; [exact E|]. split; [exact Ha|]. split; [exact Y|]. destruct F as [(L & T) F2 (bf & B1 & B2) F4]. split; [exists bf; intros it Hit; split; [apply B1|exact (B2 it Hit)]|].
  split.
  - assert (MN : forall l : list particle, forall i, nth i (map (fun q => (prd q, ptype q)) l) (0, 0%Z) = (prd (nth i l (mkPart [] 0 0%Z)), ptype (nth i l (mkPart [] 0 0%Z)))).
    { induction l as [|q l IH]; intros [|i]; try reflexivity. cbn [map nth]. apply IH. }
    apply (nth_ext _ _ (0, 0%Z) (0, 0%Z)); [rewrite !map_length; exact L|]. intros i Hi. rewrite map_length, L in Hi. rewrite !MN. destruct (T i Hi) as [T1 T2]. rewrite T1, T2. reflexivity.
  - intros i q Hq. assert (Hi : (i < length ps0)%nat) by (rewrite <- L; apply nth_error_Some; congruence).
    assert (Q1 := nth_error_nth (t_found t) i (mkPart [] 0 0%Z) Hq). split; [rewrite <- Q1; exact (F2 i Hi)|]. exists (nth i (t_xs t) []).
    split; [apply nth_error_nth'; rewrite W1; exact Hi|]. intros d Hd. rewrite <- Q1. exact (W3 i d Hi Hd).
Qed.
Print Assumptions C138_no_search_comes_too_late.

(* Particles with constant velocities do not speed up. *)
Lemma constant_travel v i d a j : travel (fun _ => v) i d a (a + j) == inject_Z (Z.of_nat j) * nth d (nth i v []) 0.
Proof.
  induction j as [|j IH]; [rewrite Nat.add_0_r, travel_here; change (Z.of_nat 0) with 0%Z; unfold inject_Z; ring|].
  rewrite Nat.add_succ_r, travel_on by lia. rewrite IH, Nat2Z.inj_succ. unfold Z.succ. rewrite inject_Z_plus. change (inject_Z 1) with 1. ring.
Qed.
Lemma constant_far n v i a j : sqr_length n (fun d => travel (fun _ => v) i d a (a + j)) == Qsqr (inject_Z (Z.of_nat j)) * sqr_length n (fun d => nth d (nth i v []) 0).
Proof. induction n as [|n IH]; cbn [sqr_length]; [ring|]. rewrite IH. unfold Qsqr. rewrite (constant_travel v i n a j). ring. Qed.
Theorem C138_constant_velocities : forall n np v, not_speeding_up n np (fun _ => v).
Proof. intros n np v a a' c j i _ _ Hi. exists i. split; [exact Hi|]. rewrite !constant_far. apply Qle_lteq. right. ring. Qed.
Print Assumptions C138_constant_velocities.

(* C139. If the tolerated motion is at most the skin depth (mv_ratio_tolerance * motion_factor <= 1), then at every step of such a run interact() gives
   each particle the sum of the forces of all others, each as if the two were alone at their nearest images; and the energies add up. *)
Theorem C139_forces_of_steady_motion_partial : forall b its n ss fm sk mss gs ps0 tol fac maxdel dt clock ms every old k,
  let e := handler_env its fm sk mss gs (map wd b) in
  let s := mkSetup b fm e tol fac maxdel 2 in
  interactions_set its n ss fm -> fm_list fm <> [] -> small_particles b e n ps0 -> ps0 <> [] -> moves_for b ps0 ms ->
  even_clock dt clock -> dt <= maxdel -> (1#10000) <= maxdel -> 0 < tol * fac <= 1 ->
  not_speeding_up (length b) (length ps0) ms -> short_steps (length b) (length ps0) clock ms (1#10000) ((1#2) * (tol * fac * sk)) ->
  (forall it, some_lists (old it)) ->
  exists t, run s every ps0 old clock ms (fun _ => false) k = Some t /\
    length (t_xs t) = length ps0 /\
    (forall i p, nth_error ps0 i = Some p -> exists x, nth_error (t_xs t) i = Some x /\ length x = length b /\
      forall d a, nth_error b d = Some a -> exists z : Z, nth d x 0 == nth d (px p) 0 + travel ms i d 0 k + inject_Z z * wd a /\ (bc a <> WRAP -> z = 0%Z)) /\
    forall v im om p w, let fe := force_env b ps0 (t_xs t) v im om p w in apart fm ps0 fe ->
      exists st us, sweep its fe (t_lists t) (fm_list fm) cleared = Some (st, us) /\
        (forall a d, (a < length ps0)%nat -> F st a d = sum_to (length ps0) (fun j => if (j =? a)%nat then 0%R else alone_force its fm ps0 fe d a j)) /\
        total_potential us = sum_to (length ps0) (fun j => sum_to j (fun i => alone_energy its fm ps0 fe i j)).
Proof.
  intros b its n ss fm sk mss gs ps0 tol fac maxdel dt clock ms every old k e s (HV & HR & HC & fm0 & HA & Hfm) HI HSP HNE HM HEC HD1 HD0 HT HNS HSH HO. subst fm.
  assert (HT' : 0 < tol * fac < 10) by lra.
  destruct (run_steady b its n ss fm0 sk mss gs ps0 tol fac maxdel clock dt ms HV HR HC HA HSP HM HI HEC HD0 HD1 HNE HT' HNS HSH every old k HO) as (t & E & IV).
  destruct (steady_moved b its fm0 sk mss gs ps0 tol fac maxdel clock dt ms HC k t IV) as (a & Ha & W & F & Y).
  exists t. split; [exact E|]. assert (W' := W). destruct W' as [W1 W2 W3 W4]. split; [exact W1|]. split.
  - intros i p Hp. assert (Hi : (i < length ps0)%nat) by (apply nth_error_Some; congruence). exists (nth i (t_xs t) []).
    split; [apply nth_error_nth'; rewrite W1; exact Hi|]. split; [exact (W2 i Hi)|]. intros d c Hc. destruct (W4 i d c Hi Hc) as (z & Ez & K).
    rewrite (nth_error_nth ps0 i _ Hp) in Ez. exists z. auto.
  - intros v im om p w fe AP. apply (forces_from b its n ss fm0 sk mss gs ps0 HV HR HC HA HSP t v im om p w F); [|exact AP].
    apply (moved_by b its n fm0 sk mss gs ps0 ms HC HSP a k t W F). intros i Hi. eapply Qle_trans; [exact (Y i Hi)|].
    assert (SK : 0 < sk) by (destruct HSP as (_ & _ & _ & SK & _); exact SK). set (q := tol * fac) in *. clearbody q. clear - HT SK. unfold Qsqr.
    assert (0 < q * sk) by (apply Qmult_lt_0_compat; lra). assert (q * sk <= 1 * sk) by (apply Qmult_le_r; lra). nra.
Qed.
Print Assumptions C139_forces_of_steady_motion_partial.

(* ------------------------------------------------------------------ cases *)
(* Two particles of radius 2/5 in a periodic box of width 20, skin depth 1/10, fly towards each other with constant velocity. *)
Definition sd_ps (x : Q) : list particle := [P [x] (2#5); P [10] (2#5)].
Definition sd_v (v : Q) : list (list Q) := [[v]; [-v]].
Definition sd_s (tol fac : Q) : setup := mkSetup sw_b sw_fm sw_e tol fac 1000 2.
Lemma sd_even : even_clock 1 st_clock.
Proof. split; [reflexivity|]. intros k. unfold st_clock. ring. Qed.
Lemma sd_short x v l : 0 <= v -> v <= l -> short_steps (length sw_b) (length (sd_ps x)) st_clock (fun _ => sd_v v) (1#10000) l.
Proof.
  intros Hv Hl a b i Hab H Hi. assert (B : (b <= S a)%nat).
  { destruct H as [H|H]; [exact H|]. destruct (Nat.le_gt_cases b (S a)) as [L|L]; [exact L|]. exfalso. unfold st_clock in H.
    assert (Z : inject_Z (Z.of_nat a + 1) <= inject_Z (Z.of_nat b)) by (rewrite <- Zle_Qle; lia). rewrite inject_Z_plus in Z. change (inject_Z 1) with 1 in Z. lra. }
  assert (J : exists j, (j <= 1)%nat /\ b = (a + j)%nat) by (exists (b - a)%nat; lia). destruct J as (j & Hj & ->). rewrite constant_far. cbn [length sw_b sqr_length].
  assert (V : Qsqr (nth 0 (nth i (sd_v v) []) 0) == v * v). { cbn in Hi. destruct i as [|[|i]]; [reflexivity|unfold Qsqr; cbn [nth sd_v]; ring|lia]. }
  assert (V2 : 0 + Qsqr (nth 0 (nth i (sd_v v) []) 0) == v * v) by (rewrite V; ring). rewrite V2.
  assert (J2 : Qsqr (inject_Z (Z.of_nat j)) * (v * v) <= v * v). { destruct j as [|[|j]]; [change (Qsqr (inject_Z (Z.of_nat 0))) with 0; nra|change (Qsqr (inject_Z (Z.of_nat 1))) with 1; lra|lia]. }
  unfold Qsqr at 2. nra.
Qed.
Lemma sd_moves x v : moves_for sw_b (sd_ps x) (fun _ => sd_v v).
Proof. intros k. split; [reflexivity|]. intros y Hy. repeat (destruct Hy as [<-|Hy]; [reflexivity|]). destruct Hy. Qed.

(* A pair in contact, alone. *)
Lemma sd_force x t y y' r : t_xs t = [[y]; [y']] -> min_image1 (mkAxis 0 20 WRAP) (y - y') == - r -> 0 < r -> r < 4#5 ->
  alone_force sw_its sw_fm (sd_ps x) (st_fe x t) 0 0 1 = (- (50 * (4 / 5 - Q2R r)))%R.
Proof.
  intros HX HM H0 H1. set (fe := st_fe x t).
  assert (X : shift_of fe true 0 1 0%nat = (- Q2R r)%R). { unfold fe, st_fe. rewrite sw_x, HX. cbn [nth]. rewrite (Qeq_eqR _ _ HM). apply Q2R_opp. }
  assert (R0 : (0 < Q2R r)%R) by (rewrite <- RMicromega.Q2R_0; apply Qlt_Rlt; exact H0).
  assert (N : norm 1 (shift_of fe true 0 1) = Q2R r). { rewrite sw_norm, X, Rabs_Ropp. apply Rabs_pos_eq. apply Rlt_le. exact R0. }
  assert (V : Q2R (2#5) = (2 / 5)%R) by (unfold Q2R; cbn; field).
  assert (S0 : e_sg fe 0%nat = (2 / 5)%R) by (rewrite <- V; reflexivity). assert (S1 : e_sg fe 1%nat = (2 / 5)%R) by (rewrite <- V; reflexivity).
  assert (C1 : Q2R (i_cut (sw_its 0)) = 1%R) by (unfold Q2R; cbn [i_cut sw_its Qnum Qden]; field).
  assert (R1 : (Q2R r < 4 / 5)%R) by (replace (4 / 5)%R with (Q2R (4#5)) by (unfold Q2R; cbn; field); apply Qlt_Rlt; exact H1).
  rewrite (C131_force_of_two sw_its sw_fm (sd_ps x) fe 0 1 0 (hs_U 50) (hs_F 50) 0).
  - change (e_dims fe) with 1%nat. rewrite N, X, S0, S1, C1. destruct (Rlt_dec _ _) as [_|B]; [unfold hs_F; field; Lra.lra|exfalso; apply B; Lra.lra].
  - apply hs_describes.
  - vm_compute. reflexivity.
  - discriminate.
  - intros [|[|i]]; [rewrite S0; Lra.lra|rewrite S1; Lra.lra|]. unfold fe, st_fe, force_env. cbn [e_sg]. destruct i; apply Rle_refl.
  - rewrite C1. Lra.lra.
  - change (e_dims fe) with 1%nat. rewrite N. exact R0.
  - cbn. lia.
Qed.

(* C139 fails with the values of the code (mv_ratio_tolerance 0.95, motion_factor 1.2): the two fly towards each other with velocity 0.011 per step. The
   handler learns to search every sixth step; five steps after a search that did not find the pair they overlap, and no force acts. All conditions of
   C138 are met. *)
Definition sd_x : Q := 8633#1000.
Definition sd_run : option state := run (sd_s (95#100) (12#10)) 1 (sd_ps sd_x) (fun _ => new_pairs) st_clock (fun _ => sd_v (11#1000)) (fun _ => false) 26.
Definition sd_y (o : option state) (i : nat) : Q := match o with Some t => nth 0 (nth i (t_xs t) []) 0 | None => 0 end.
Definition sd_y0 : Q := Eval vm_compute in sd_y sd_run 0.
Definition sd_y1 : Q := Eval vm_compute in sd_y sd_run 1.
Theorem C139_default_tolerance_refuted :
  even_clock 1 st_clock /\ not_speeding_up (length sw_b) (length (sd_ps sd_x)) (fun _ => sd_v (11#1000)) /\
  short_steps (length sw_b) (length (sd_ps sd_x)) st_clock (fun _ => sd_v (11#1000)) (1#10000) ((1#2) * ((95#100) * (12#10) * (1#10))) /\
  small_particles sw_b sw_e 1 (sd_ps sd_x) /\
  exists t st us, sd_run = Some t /\
    sweep sw_its (st_fe sd_x t) (t_lists t) (fm_list sw_fm) cleared = Some (st, us) /\ F st 0%nat 0%nat = 0%R /\
    alone_force sw_its sw_fm (sd_ps sd_x) (st_fe sd_x t) 0 0 1 = (- (1 / 4))%R.
Proof.
  split; [exact sd_even|]. split; [apply C138_constant_velocities|]. split; [apply sd_short; lra|]. split; [exact (st_small sd_x ltac:(vm_compute; discriminate))|].
  assert (L : exists t, sd_run = Some t /\ t_xs t = [[sd_y0]; [sd_y1]] /\ pairs_visit 0 (t_lists t 0%nat) = Some [] /\ pairs_visit 1 (t_lists t 0%nat) = Some []).
  { assert (LL : st_look sd_run = Some ([[sd_y0]; [sd_y1]], Some [], Some [])) by (vm_compute; reflexivity). destruct sd_run as [t|]; [|discriminate]. cbn [st_look] in LL. injection LL as A B C. exists t. auto. }
  destruct L as (t & E & X & L0 & L1). destruct (st_nothing sd_x t L0 L1) as (st & us & A & B). exists t, st, us. split; [exact E|]. split; [exact A|]. split; [exact B|].
  rewrite (sd_force sd_x t sd_y0 sd_y1 (795#1000) X) by (first [vm_compute; reflexivity|lra]). unfold Q2R. cbn [Qnum Qden]. Lra.lra.
Qed.
Print Assumptions C139_default_tolerance_refuted.

(* The conditions are met by these two particles: of C138 with the values of the code, of C139 with mv_ratio_tolerance 5/6. *)
Example C138_case : exists t a, sd_run = Some t /\ (a <= 26)%nat /\
  forall i, (i < 2)%nat -> sqr_length 1 (fun d => travel (fun _ => sd_v (11#1000)) i d a 26) <= Qsqr ((1#2) * ((95#100) * (12#10) * (1#10))).
Proof.
  destruct (C138_no_search_comes_too_late sw_b sw_its 1 sw_ss sw_fm (1#10) (1#2) sw_gs (sd_ps sd_x) (95#100) (12#10) 1000 1 st_clock (fun _ => sd_v (11#1000)) 1 (fun _ => new_pairs) 26 sw_set ltac:(discriminate)
    (st_small sd_x ltac:(vm_compute; discriminate)) ltac:(discriminate) (sd_moves sd_x (11#1000)) sd_even ltac:(lra) ltac:(lra) ltac:(lra) (C138_constant_velocities _ _ _) (sd_short sd_x (11#1000) ((1#2) * ((95#100) * (12#10) * (1#10))) ltac:(lra) ltac:(lra)) sw_old) as (t & a & A & B & C & _).
  exists t, a. split; [exact A|]. split; [exact B|exact C].
Qed.
Definition sd_run2 : option state := run (sd_s (5#6) (12#10)) 1 (sd_ps sd_x) (fun _ => new_pairs) st_clock (fun _ => sd_v (11#1000)) (fun _ => false) 26.
Definition sd_y20 : Q := Eval vm_compute in sd_y sd_run2 0.
Definition sd_y21 : Q := Eval vm_compute in sd_y sd_run2 1.
Example C139_case : exists t st us, sd_run2 = Some t /\ sweep sw_its (st_fe sd_x t) (t_lists t) (fm_list sw_fm) cleared = Some (st, us) /\ F st 0%nat 0%nat = (- (1 / 4))%R.
Proof.
  destruct (C139_forces_of_steady_motion_partial sw_b sw_its 1 sw_ss sw_fm (1#10) (1#2) sw_gs (sd_ps sd_x) (5#6) (12#10) 1000 1 st_clock (fun _ => sd_v (11#1000)) 1 (fun _ => new_pairs) 26 sw_set ltac:(discriminate)
    (st_small sd_x ltac:(vm_compute; discriminate)) ltac:(discriminate) (sd_moves sd_x (11#1000)) sd_even ltac:(lra) ltac:(lra) ltac:(lra) (C138_constant_velocities _ _ _) (sd_short sd_x (11#1000) ((1#2) * ((5#6) * (12#10) * (1#10))) ltac:(lra) ltac:(lra)) sw_old) as (t & E & _ & _ & A). assert (E2 : sd_run2 = Some t) by exact E. clear E. rename E2 into E.
  assert (HX : t_xs t = [[sd_y20]; [sd_y21]]).
  { assert (L : option_map t_xs sd_run2 = Some [[sd_y20]; [sd_y21]]) by (vm_compute; reflexivity). rewrite E in L. injection L as L. exact L. }
  assert (AP : apart sw_fm (sd_ps sd_x) (st_fe sd_x t)).
  { intros i j it N B. change (e_dims (st_fe sd_x t)) with 1%nat. rewrite sw_norm. apply Rabs_pos_lt. unfold st_fe. rewrite sw_x. rewrite <- RMicromega.Q2R_0. intros Z. apply eqR_Qeq in Z.
    rewrite HX in Z. unfold between in B.
    destruct i as [|[|i]]; destruct j as [|[|j]]; clear - N Z B; try (exfalso; apply N; reflexivity); cbn [nth] in Z; cbn [nth_error sd_ps] in B; try (destruct i; discriminate B); try (destruct j; discriminate B); revert Z; clear; vm_compute; discriminate. }
  destruct (A (fun _ _ => 0%R) (fun _ => 1%R) (fun _ => 0%R) true true AP) as (st & us & B & C & _). exists t, st, us. split; [exact E|]. split; [exact B|].
  rewrite (C 0%nat 0%nat) by (cbn; lia). change (length (sd_ps sd_x)) with 2%nat. cbn [sum_to Nat.eqb]. change (force_env sw_b (sd_ps sd_x) (t_xs t) (fun _ _ => 0%R) (fun _ => 1%R) (fun _ => 0%R) true true) with (st_fe sd_x t).
  rewrite (sd_force sd_x t sd_y20 sd_y21 (795#1000) HX) by (first [vm_compute; reflexivity|lra]). unfold Q2R. cbn [Qnum Qden]. Lra.lra.
Qed.
