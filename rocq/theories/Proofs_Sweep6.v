(* The sweep computes the forces of all pairs: every visited pair acts as alone, every pair not visited is out of range. *)
From Coq Require Import Reals Qreals.
From Verif Require Import Lib Model_Geometry Spec_Geometry Proofs_Geometry Model_Handlers Spec_Handlers Properties_Handlers
  Model_Cells Spec_Cells Proofs_Cells2 Proofs_Cells3 Proofs_Cells4 Proofs_Cells6 Properties_Cells Model_Verlet Proofs_Verlet Properties_Verlet
  Model_Sweep Spec_Sweep Proofs_Sweep2 Proofs_Sweep3 Proofs_Sweep4 Proofs_Sweep5.
From Verif Require Model_Forces Spec_Forces Proofs_Forces2 Proofs_Sweep1 Properties_Forces.
From Coq Require Import ZifyBool.
Local Open Scope Q_scope.

Section ALL.
Variables (b : box) (its : nat -> inter) (n : nat) (ss : list setting) (fm0 : force_master) (sk mss : Q) (gs : list gaxis)
  (ps : list particle) (xs : list (list Q)) (v : nat -> nat -> R) (im om : nat -> R) (pt vr : bool) (tol fac maxdel since : Q).
Hypothesis HV : valid_types n ss.
Hypothesis HR : forall s, In s ss -> s_refl s = true.
Hypothesis HC : forall it, 0 <= i_cut (its it) <= 1.
Hypothesis HA : apply_settings (fun i => i_cut (its i)) ss (new_fm n) = Some fm0.
Let fm := initialize fm0.
Let e := handler_env its fm sk mss gs (map wd b).
Let fe := force_env b ps xs v im om pt vr.
Hypothesis HB : search_built b e.
Hypothesis HL : box_large_enough (min_small_cutoff e) b.
Hypothesis HS : stencil_range (min_small_cutoff e) b.
Hypothesis HK : 0 < sk.
Hypothesis HP : forall p, In p ps -> 0 <= prd p /\ wrapped b (px p).
Hypothesis HF : large_fit b e ps.
Hypothesis HN : large_different e ps.
Hypothesis HH : short_ranges b e ps.
Hypothesis HX : length xs = length ps.
Hypothesis HXB : forall x, In x xs -> length x = length b.
Hypothesis HT : 0 <= tol * fac <= 1.
Hypothesis HCK : check_needs_remake tol fac sk maxdel since (combine (map px ps) xs) = false.
Hypothesis HFAR : forall m, In m (combine (map px ps) xs) -> dist2 (fst m) (snd m) < Qsqr (10 * sk).
Hypothesis HZ : forall i j it, i <> j -> between fm ps i j = Some it -> (0 < Spec_Forces.norm (length b) (Spec_Forces.shift_of fe true i j))%R.

Lemma grid_cut t t' : 0 <= cutoff_grid e t t' <= 1.
Proof. unfold e, handler_env. cbn [cutoff_grid]. destruct (getInteraction t t' fm); [apply HC|lra]. Qed.
Lemma grid_sym t t' : cutoff_grid e t t' = cutoff_grid e t' t.
Proof. unfold e, handler_env. cbn [cutoff_grid]. unfold fm. now rewrite (table_sym its n ss fm0 HV HR HA t t'). Qed.
Lemma grid_max t : 1 <= max_cutoff e t.
Proof. unfold e, handler_env. cbn [max_cutoff]. apply (table_max its n ss fm0 HV HA). Qed.

Lemma between_sym i j : between fm ps i j = between fm ps j i.
Proof. unfold between. destruct (nth_error ps i), (nth_error ps j); try reflexivity. unfold fm. now rewrite (table_sym its n ss fm0 HV HR HA). Qed.

Lemma between_some i j k : between fm ps i j = Some k -> exists pi pj, nth_error ps i = Some pi /\ nth_error ps j = Some pj /\
  getInteraction (ptype pi) (ptype pj) fm = Some k /\ (0 <= ptype pi)%Z /\ (0 <= ptype pj)%Z /\ interacts e (ptype pi) = true /\ interacts e (ptype pj) = true /\
  cutoff_grid e (ptype pi) (ptype pj) = i_cut (its k).
Proof.
  unfold between. destruct (nth_error ps i) as [pi|] eqn:Ei; [|discriminate]. destruct (nth_error ps j) as [pj|] eqn:Ej; [|discriminate]. intros H.
  exists pi, pj. assert (A := table_some its n ss fm0 HV HA _ _ _ H). destruct (table_interacts its n ss fm0 HV HA _ _ _ H) as [B C].
  fold fm in B, C. repeat split; try tauto; try lia; unfold e, handler_env; cbn [interacts cutoff_grid]; [now rewrite B|now rewrite C|now rewrite H].
Qed.

Lemma nth_xs i pi : nth_error ps i = Some pi -> exists xi, nth_error xs i = Some xi /\ length xi = length b /\
  nth i xs [] = xi /\ dist2 (px pi) xi <= ((1#2) * sk) * ((1#2) * sk).
Proof.
  intros Hi. assert (L : (i < length xs)%nat) by (rewrite HX; apply nth_error_Some; congruence).
  destruct (nth_error xs i) as [xi|] eqn:E; [|apply nth_error_None in E; lia]. exists xi. repeat split.
  - apply HXB. eapply nth_error_In; eauto.
  - apply nth_error_nth with (d := []) in E. exact E.
  - assert (Hm : In (px pi, xi) (combine (map px ps) xs)).
    { revert Hi E. clear. revert xs i. induction ps as [|p l IH]; intros [|x xs] [|k] H1 H2; try discriminate.
      - injection H1 as <-. injection H2 as <-. now left.
      - right. eapply IH; eauto. }
    exact (no_remake_bound tol fac sk maxdel since _ _ HK HT HCK Hm (HFAR _ Hm)).
Qed.

Lemma fe_x i d : Model_Forces.e_x fe i d = Q2R (nth d (nth i xs []) 0).
Proof. reflexivity. Qed.

(* Displacements at the nearest image. *)
Lemma shift_nearest i j pi pj : nth_error ps i = Some pi -> nth_error ps j = Some pj ->
  Model_Forces.dot (length b) (Spec_Forces.shift_of fe true i j) (Spec_Forces.shift_of fe true i j) = Q2R (getDistanceSqr b (nth i xs []) (nth j xs [])).
Proof.
  intros Hi Hj. destruct (nth_xs i pi Hi) as (xi & Ei & Li & Ni & _). destruct (nth_xs j pj Hj) as (xj & Ej & Lj & Nj & _).
  apply dot_nearest; [now rewrite Ni|now rewrite Nj|]. intros d a xd yd Ha Hx Hy. rewrite <- (correction_Q a).
  unfold Spec_Forces.shift_of, Model_Forces.correction, Model_Forces.vsub. cbn [Model_Forces.e_bc Model_Forces.e_width fe force_env]. unfold fe, force_env. cbn [Model_Forces.e_bc Model_Forces.e_width Model_Forces.e_x].
  rewrite Ha. rewrite (nth_error_nth _ _ 0 Hx), (nth_error_nth _ _ 0 Hy). reflexivity.
Qed.

Lemma width_pos d : Model_Forces.e_bc fe d = true -> (0 <= Model_Forces.e_width fe d)%R.
Proof.
  unfold fe, force_env. cbn [Model_Forces.e_bc Model_Forces.e_width]. destruct (nth_error b d) as [a|] eqn:E; [|discriminate]. intros _.
  apply nth_error_In in E. assert (A := proj1 (Forall_forall _ _) HL _ E). destruct A as [A _]. destruct HB as (_ & _ & C).
  rewrite <- Q2R_0. apply Qle_Rle. lra.
Qed.

Lemma visit_in vs i j w : traversePairs e ps = Some vs -> In (i, j, w) vs -> i <> j /\ (i < length ps)%nat /\ (j < length ps)%nat.
Proof.
  intros Hvs Hin. destruct (C21_no_pair_twice_partial b e ps vs HB HL HS) as [_ H]; auto.
  - unfold e; cbn; lra.
  - intros p Hp. apply HP; auto.
  - intros t. assert (A := grid_max t). lra.
  - destruct (H i j w Hin) as (A & pi & pj & Hi & Hj & _). split; [exact A|]. split; apply nth_error_Some; congruence.
Qed.
Lemma visit_nodup vs : traversePairs e ps = Some vs -> NoDup (map upair vs).
Proof.
  intros Hvs. destruct (C21_no_pair_twice_partial b e ps vs HB HL HS) as [H _]; auto.
  - unfold e; cbn; lra.
  - intros p Hp. apply HP; auto.
  - intros t. assert (A := grid_max t). lra.
Qed.

Lemma good : goodenv e.
Proof. apply (built_good b e HB HL HS). Qed.

Lemma visit_flag vs i j w : traversePairs e ps = Some vs -> In (i, j, w) vs -> w = 0%Z \/ w = 1%Z.
Proof.
  intros Hvs Hin. apply (visit_close e ps vs i j w good); auto; [unfold e; cbn; lra|intros p Hp; apply HP; auto|intros; apply grid_cut|apply grid_max].
Qed.

(* A pair found without wrapping is at its nearest image. *)
Lemma visit_direct vs i j : traversePairs e ps = Some vs -> In (i, j, 0%Z) vs ->
  forall d, Spec_Forces.shift_of fe true i j d = Spec_Forces.shift_of fe false i j d.
Proof.
  intros Hvs Hin.
  destruct (visit_close e ps vs i j 0%Z good) as [_ H]; auto; [unfold e; cbn; lra|intros p Hp; apply HP; auto|intros; apply grid_cut|apply grid_max|].
  destruct (H eq_refl) as (pi & pj & Hi & Hj & D & G). clear H.
  destruct (nth_xs i pi Hi) as (xi & Ei & Li & Ni & Di). destruct (nth_xs j pj Hj) as (xj & Ej & Lj & Nj & Dj).
  intros d. unfold Spec_Forces.shift_of, Model_Forces.correction, Model_Forces.vsub. destruct (Model_Forces.e_bc fe d) eqn:Hb; [|reflexivity].
  unfold fe, force_env in Hb. cbn [Model_Forces.e_bc] in Hb. destruct (nth_error b d) as [a|] eqn:Ea; [|discriminate].
  assert (W : bc a = WRAP) by (revert Hb; clear; destruct (bc a); cbn; congruence).
  unfold fe, force_env. cbn [Model_Forces.e_width Model_Forces.e_x]. rewrite Ea, Ni, Nj.
  destruct (HP pi (nth_error_In _ _ Hi)) as [Ri Wi]. destruct (HP pj (nth_error_In _ _ Hj)) as [Rj Wj].
  assert (ND : forall A (l : list A), length l = length b -> exists y, nth_error l d = Some y).
  { intros A l Hl. assert (d < length b)%nat by (apply nth_error_Some; congruence). destruct (nth_error l d) eqn:E; [eauto|apply nth_error_None in E; lia]. }
  destruct (ND _ xi Li) as (xid & Exi). destruct (ND _ xj Lj) as (xjd & Exj).
  assert (Lpi : length (px pi) = length b) by (symmetry; eapply Forall2_len; exact Wi). assert (Lpj : length (px pj) = length b) by (symmetry; eapply Forall2_len; exact Wj).
  destruct (ND _ _ Lpi) as (pid & Epi). destruct (ND _ _ Lpj) as (pjd & Epj).
  rewrite (nth_error_nth _ _ 0 Exi), (nth_error_nth _ _ 0 Exj).
  assert (A1 : Qabs (pid - xid) <= (1#2) * sk).
  { apply Qsqr_abs_le; [lra|]. eapply Qle_trans; [exact (dist2_nth _ _ d _ _ Epi Exi)|]. exact Di. }
  assert (A2 : Qabs (pjd - xjd) <= (1#2) * sk).
  { apply Qsqr_abs_le; [lra|]. eapply Qle_trans; [exact (dist2_nth _ _ d _ _ Epj Exj)|]. exact Dj. }
  assert (Si : 0 <= sigma e pi) by (assert (M := sigma_ge e pi Ri (grid_max _)); lra).
  assert (Sj : 0 <= sigma e pj) by (assert (M := sigma_ge e pj Rj (grid_max _)); lra).
  change (skin e) with sk in D.
  assert (A3 : Qabs (pid - pjd) <= sigma e pi + sigma e pj + sk).
  { apply Qsqr_abs_le; [lra|]. eapply Qle_trans; [exact (dist2_nth _ _ d _ _ Epi Epj)|]. lra. }
  assert (A4 : Qabs (xid - xjd) <= sigma e pi + sigma e pj + 2 * sk).
  { apply Qabs_Qle_condition in A1, A2, A3. apply Qabs_Qle_condition. lra. }
  assert (A5 : 2 * Qabs (xid - xjd) <= wd a).
  { assert (Ba := proj1 (Forall_forall _ _) HL _ (nth_error_In _ _ Ea)). destruct Ba as [_ Ba]. specialize (Ba W). unfold min_small_cutoff in Ba. change (skin e) with sk in Ba.
    destruct G as [[G1 G2]|G].
    - unfold is_large in G1, G2. destruct (Qltb_spec (max_small_sigma e) (sigma e pi)) as [|G1']; [discriminate|]. destruct (Qltb_spec (max_small_sigma e) (sigma e pj)) as [|G2']; [discriminate|].
      change (max_small_sigma e) with mss in *. lra.
    - unfold is_large in G. destruct (Qltb_spec (max_small_sigma e) (sigma e pi)) as [G1|]; [|discriminate].
      assert (B := HH pi pj a (nth_error_In _ _ Hi) (nth_error_In _ _ Hj) (nth_error_In _ _ Ea) W G1). change (skin e) with sk in B. lra. }
  destruct (Rlt_dec _ _) as [L|]; [|reflexivity]. exfalso. rewrite <- Q2R_minus, <- Q2R_abs, <- Q2R_minus in L. apply Rlt_Qlt in L. lra.
Qed.

Lemma all_sg i : (0 <= Model_Forces.e_sg fe i)%R.
Proof.
  unfold fe, force_env. cbn [Model_Forces.e_sg]. destruct (nth_error ps i) as [p|] eqn:E; [|lia || apply Rle_refl].
  rewrite <- Q2R_0. apply Qle_Rle. apply HP. eapply nth_error_In; eauto.
Qed.

Lemma alone_defined i j k : i <> j -> between fm ps i j = Some k -> exists s, alone (its k) fe i j = Some s.
Proof.
  intros N B. assert (Z := HZ i j k N B).
  destruct (Properties_Forces.C26_defined (i_kind (its k)) (Q2R (i_cut (its k))) fe [] [(i, j)] cleared) as (s & Es).
  - apply all_sg.
  - intros a c [].
  - intros a c [E|[]]. injection E as <- <-. exact Z.
  - unfold Model_Forces.interact_forces in Es. cbn [Model_Forces.do_list Model_Forces.F Model_Forces.Tq cleared] in Es. unfold alone.
    change (Model_Forces.mkF (fun _ _ => 0%R) (fun _ => 0%R) 0 0) with cleared in Es. destruct (Model_Forces.do_pair _ _ _ _ _ _ _); [eauto|discriminate].
Qed.

(* Every visited pair acts as alone. *)
Lemma visit_alone vs i j w k : traversePairs e ps = Some vs -> In (i, j, w) vs ->
  Proofs_Sweep1.same (lone (its k) fe (wrapb w) i j) (alone (its k) fe i j).
Proof.
  intros Hvs Hin. destruct (visit_flag vs i j w Hvs Hin) as [-> | ->]; cbn [wrapb Z.eqb negb].
  - apply Proofs_Sweep1.pair_direct. exact (visit_direct vs i j Hvs Hin).
  - unfold lone, alone. destruct (Model_Forces.do_pair _ _ _ _ _ _ _); cbn; auto.
Qed.

(* A pair that is not visited is out of range. *)
Lemma unvisited_far vs i j k : traversePairs e ps = Some vs -> i <> j -> ~ visited vs i j -> between fm ps i j = Some k ->
  alone (its k) fe i j = Some cleared.
Proof.
  intros Hvs N NV B. destruct (between_some i j k B) as (pi & pj & Hi & Hj & _ & Ti & Tj & Ii & Ij & Ec).
  destruct (C22_skin_safety_partial b e ps xs tol fac maxdel since HB HL HS) as (vs' & Hvs' & H); auto.
  - intros. split; [apply grid_sym|apply grid_cut].
  - apply grid_max.
  - assert (vs' = vs) by congruence. subst vs'.
    destruct (nth_xs i pi Hi) as (xi & Ei & Li & Ni & Di). destruct (nth_xs j pj Hj) as (xj & Ej & Lj & Nj & Dj).
    destruct (nearest_is_image b xi xj Li Lj) as (ks & Lk & Im).
    unfold alone. apply Proofs_Sweep1.pair_far. cbn [Model_Forces.e_dims]. change (Model_Forces.e_dims fe) with (length b).
    rewrite (shift_nearest i j pi pj Hi Hj), Ni, Nj.
    unfold fe, force_env. cbn [Model_Forces.e_sg]. rewrite Hi, Hj. rewrite <- Q2R_plus, <- !Q2R_mult.
    intros L. apply Rlt_Qlt in L. apply NV. apply (H i j pi pj xi xj ks); auto. rewrite Ec. unfold Qsqr. rewrite <- Im. exact L.
Qed.

Lemma visit_force vs a d i j w : traversePairs e ps = Some vs -> In (i, j, w) vs ->
  visit_F its fm ps fe a d (i, j, w) = ((if (a =? i)%nat then alone_force its fm ps fe d a j else 0) + (if (a =? j)%nat then alone_force its fm ps fe d a i else 0))%R.
Proof.
  intros Hvs Hin. destruct (visit_in vs i j w Hvs Hin) as (N & _ & _). cbn [visit_F].
  destruct (between fm ps i j) as [k|] eqn:B.
  - assert (V := visit_alone vs i j w k Hvs Hin). destruct (alone_defined i j k N B) as (s & Es). rewrite Es in V. unfold lone_F.
    destruct (lone (its k) fe (wrapb w) i j) as [s0|]; [|contradiction]. destruct V as [V _]. rewrite V.
    destruct (Nat.eqb_spec a i) as [Ea|Na].
    + subst a. destruct (Nat.eqb_spec i j); [contradiction|]. unfold alone_force. rewrite B, Es. now rewrite Rplus_0_r.
    + destruct (Nat.eqb_spec a j) as [Eb|Nb].
      * subst a. unfold alone_force. rewrite (between_sym j i), B.
        assert (W := Proofs_Sweep1.pair_swap (i_kind (its k)) (Q2R (i_cut (its k))) fe true i j width_pos).
        change (Proofs_Sweep1.same (alone (its k) fe j i) (alone (its k) fe i j)) in W. rewrite Es in W. destruct (alone (its k) fe j i); [|contradiction]. destruct W as [W _]. now rewrite W, Rplus_0_l.
      * rewrite Rplus_0_l. unfold alone in Es. exact (Proofs_Sweep1.pair_others _ _ _ _ _ _ _ a d Es Na Nb).
  - assert (A : forall x y, (x = i /\ y = j) \/ (x = j /\ y = i) -> alone_force its fm ps fe d x y = 0%R).
    { intros x y [[-> ->]|[-> ->]]; unfold alone_force; [now rewrite B|now rewrite between_sym, B]. }
    destruct (Nat.eqb_spec a i) as [Ea|Na], (Nat.eqb_spec a j) as [Eb|Nb]; subst; try rewrite A by auto; try rewrite A by auto; now rewrite ?Rplus_0_l, ?Rplus_0_r.
Qed.

Lemma energy_sym i j : alone_energy its fm ps fe i j = alone_energy its fm ps fe j i.
Proof.
  unfold alone_energy. rewrite (between_sym j i). destruct (between fm ps i j) as [k|]; [|reflexivity].
  assert (W := Proofs_Sweep1.pair_swap (i_kind (its k)) (Q2R (i_cut (its k))) fe true i j width_pos).
  change (Proofs_Sweep1.same (alone (its k) fe j i) (alone (its k) fe i j)) in W. destruct (alone (its k) fe j i), (alone (its k) fe i j); try contradiction; [|reflexivity]. destruct W as [_ W]. now rewrite W.
Qed.

Lemma visit_energy vs i j w : traversePairs e ps = Some vs -> In (i, j, w) vs ->
  visit_U its fm ps fe (i, j, w) = alone_energy its fm ps fe i j.
Proof.
  intros Hvs Hin. destruct (visit_in vs i j w Hvs Hin) as (N & _ & _). cbn [visit_U]. unfold alone_energy.
  destruct (between fm ps i j) as [k|] eqn:B; [|reflexivity].
  assert (V := visit_alone vs i j w k Hvs Hin). unfold lone_U. destruct (lone _ _ _ _ _), (alone (its k) fe i j); try contradiction; [|reflexivity]. destruct V as [_ V]. now rewrite V.
Qed.

Variable old : nat -> pair_lists.
Hypothesis HO : forall it, exists hist, valid_lists hist /\ calls pairs_call hist new_pairs = Some (old it).

Lemma sweep_all : exists lists s us,
  (forall it, In it (fm_list fm) -> construct_lists fm e ps it (old it) = Some (lists it)) /\
  sweep its fe lists (fm_list fm) cleared = Some (s, us) /\
  (forall a d, (a < length ps)%nat -> Model_Forces.F s a d = Spec_Forces.sum_to (length ps) (fun j => if (j =? a)%nat then 0%R else alone_force its fm ps fe d a j)) /\
  total_potential us = Spec_Forces.sum_to (length ps) (fun j => Spec_Forces.sum_to j (fun i => alone_energy its fm ps fe i j)).
Proof.
  destruct (C22_skin_safety_partial b e ps xs tol fac maxdel since HB HL HS) as (vs & Hvs & _); auto.
  { intros. split; [apply grid_sym|apply grid_cut]. } { apply grid_max. }
  assert (FL : forall i j w, In (i, j, w) vs -> w = 0%Z \/ w = 1%Z) by (intros i j w; apply visit_flag; exact Hvs).
  set (lists := fun it => match construct_lists fm e ps it (old it) with Some L => L | None => new_pairs end).
  assert (LS : forall it, construct_lists fm e ps it (old it) = Some (lists it) /\
    pairs_visit 0 (lists it) = Some (pairs_of fm ps it 0 vs) /\ pairs_visit 1 (lists it) = Some (pairs_of fm ps it 1 vs)).
  { intros it. destruct (HO it) as (hist & V & C). destruct (construct_visits fm e ps it hist (old it) vs 0 V C Hvs FL ltac:(lia)) as (L0 & E0 & P0).
    destruct (construct_visits fm e ps it hist (old it) vs 1 V C Hvs FL ltac:(lia)) as (L1 & E1 & P1). unfold lists. rewrite E0.
    assert (L1 = L0) by congruence. subst L1. auto. }
  assert (DEF : forall i j w k, In (i, j, w) vs -> between fm ps i j = Some k -> lone (its k) fe (wrapb w) i j <> None).
  { intros i j w k Hin B. assert (V := visit_alone vs i j w k Hvs Hin). destruct (visit_in vs i j w Hvs Hin) as (N & _ & _).
    destruct (alone_defined i j k N B) as (s & Es). rewrite Es in V. destruct (lone _ _ _ _ _); [discriminate|contradiction]. }
  destruct (sweep_visits its fm ps fe vs FL DEF lists (fm_list fm) (fun it _ => proj2 (LS it)) cleared) as (s & us & E & HFs & HUs).
  exists lists, s, us. split; [intros it _; apply LS|]. split; [exact E|].
  assert (LI : forall i j k, between fm ps i j = Some k -> In k (fm_list fm)).
  { intros i j k B. destruct (between_some i j k B) as (pi & pj & _ & _ & G & _). exact (table_listed its n ss fm0 HV HA _ _ _ G). }
  assert (ND := table_nodup its n ss fm0 HV HA). fold fm in ND.
  split.
  - intros a d La. rewrite HFs. cbn [cleared Model_Forces.F]. rewrite Rplus_0_l.
    rewrite (all_interactions fm ps vs (fm_list fm) (visit_F its fm ps fe a d) ND LI).
    2:{ intros i j w B. cbn [visit_F]. now rewrite B. }
    rewrite <- (visits_of a (length ps) (fun j => alone_force its fm ps fe d a j) vs (visit_nodup vs Hvs)).
    + apply sum_ext. intros [[i j] w] Hin. exact (visit_force vs a d i j w Hvs Hin).
    + intros i j w Hin. exact (visit_in vs i j w Hvs Hin).
    + intros j Lj Nj NV. unfold alone_force. destruct (between fm ps a j) as [k|] eqn:B; [|reflexivity].
      rewrite (unvisited_far vs a j k Hvs); auto.
  - unfold total_potential. rewrite HUs, Rplus_0_l.
    rewrite (all_interactions fm ps vs (fm_list fm) (visit_U its fm ps fe) ND LI).
    2:{ intros i j w B. cbn [visit_U]. now rewrite B. }
    rewrite <- (visits_all (length ps) (alone_energy its fm ps fe) vs (visit_nodup vs Hvs)).
    + apply sum_ext. intros [[i j] w] Hin. exact (visit_energy vs i j w Hvs Hin).
    + intros i j w Hin. exact (visit_in vs i j w Hvs Hin).
    + intros i j. apply energy_sym.
    + intros i j Li Lj N NV. unfold alone_energy. destruct (between fm ps i j) as [k|] eqn:B; [|reflexivity].
      rewrite (unvisited_far vs i j k Hvs); auto.
Qed.
End ALL.
