(* Motion that does not speed up: the interaction handler searches before any particle has moved farther than tolerated. *)
From Coq Require Import Reals Qreals.
From Verif Require Import Lib Model_Geometry Spec_Geometry Proofs_Geometry Model_Handlers Spec_Handlers Model_Cells Spec_Cells Properties_Cells
  Model_Verlet Proofs_Verlet Model_Field Model_Sweep Spec_Sweep Proofs_Sweep3 Proofs_Sweep6 Properties_Sweep Model_Steps Spec_Steps Proofs_Steps.
From Coq Require Import ZifyBool Lqa.
Local Open Scope Q_scope.

Lemma even_steady dt clock : even_clock dt clock -> steady_clock clock.
Proof.
  intros (P & E). split; [rewrite E; change (Z.of_nat 0) with 0%Z; unfold inject_Z; lra|]. intros k. rewrite !E, !Nat2Z.inj_succ. unfold Z.succ. rewrite !inject_Z_plus. change (inject_Z 1) with 1. split; lra.
Qed.
Lemma even_diff dt clock a j : even_clock dt clock -> clock (a + j)%nat - clock a == inject_Z (Z.of_nat j) * dt.
Proof. intros (P & E). rewrite !E, Nat2Z.inj_add, inject_Z_plus. ring. Qed.

Lemma max_motion_ge sk' : forall mv m, (forall m, In m mv -> dist2 (fst m) (snd m) < Qsqr (10 * sk')) -> In m mv ->
  dist2 (fst m) (snd m) <= find_max_motion_sqr sk' mv.
Proof.
  intros mv m H Hin. unfold find_max_motion_sqr.
  set (f := fun (maxD : Q) (p : list Q * list Q) => let dsqr := dist2 (fst p) (snd p) in if Qltb dsqr (Qsqr (10 * sk')) && Qltb maxD dsqr then dsqr else maxD).
  assert (G : forall l acc, acc <= fold_left f l acc).
  { induction l as [|x l IH]; intros acc; [cbn; lra|]. cbn [fold_left]. eapply Qle_trans; [|apply IH]. unfold f. cbv zeta.
    destruct (Qltb_spec (dist2 (fst x) (snd x)) (Qsqr (10 * sk'))); cbn [andb]; [|lra]. destruct (Qltb_spec acc (dist2 (fst x) (snd x))); lra. }
  enough (A : forall l acc, (forall x, In x l -> dist2 (fst x) (snd x) < Qsqr (10 * sk')) -> In m l -> dist2 (fst m) (snd m) <= fold_left f l acc) by (apply A; auto).
  induction l as [|x l IH]; intros acc Hl Hm; [destruct Hm|]. cbn [fold_left]. destruct Hm as [-> | Hm].
  - eapply Qle_trans; [|apply G]. unfold f. cbv zeta. specialize (Hl m (or_introl eq_refl)). destruct (Qltb_spec (dist2 (fst m) (snd m)) (Qsqr (10 * sk'))) as [B|B]; [|contradiction].
    cbn [andb]. destruct (Qltb_spec acc (dist2 (fst m) (snd m))); lra.
  - apply IH; [intros y Hy; apply Hl; now right|exact Hm].
Qed.

Lemma construct_counters s now every last d t t' : construct s now every last d t = Some t' -> t_c t' = mkC 0 every false last now d.
Proof. unfold construct. destruct (wrap_all _ _); [|discriminate]. destruct (forallb _ _); [|discriminate]. intros H. injection H as <-. reflexivity. Qed.

Lemma ratio_le (c j A B : Q) : 0 < c -> c <= j -> j <= 2 * c -> 0 <= B -> c * c * A <= j * j * B -> A <= 4 * B.
Proof.
  intros Hc Hcj Hj HB H. destruct (Qlt_le_dec (4 * B) A) as [L|L]; [|exact L]. exfalso.
  assert (j * j <= 4 * (c * c)) by nra. assert (j * j * B <= 4 * (c * c) * B) by (apply Qmult_le_compat_r; assumption).
  assert (c * c * (4 * B) < c * c * A) by (apply Qmult_lt_l; [apply Qmult_lt_0_compat; assumption|exact L]). lra.
Qed.
Lemma sqr_length_nonneg n x : 0 <= sqr_length n x.
Proof. induction n as [|n IH]; cbn [sqr_length]; [lra|]. assert (A := Qsq_nonneg (x n)). unfold Qsqr. lra. Qed.

Lemma here0 ms i a n : sqr_length n (fun d => travel ms i d a a) == 0.
Proof. induction n as [|n0 IH]; cbn [sqr_length]; [reflexivity|]. rewrite IH. unfold Qsqr. rewrite (travel_here ms i n0 a). reflexivity. Qed.

Section STEADY.
Variables (b : box) (its : nat -> inter) (n : nat) (ss : list setting) (fm0 : force_master) (sk mss : Q) (gs : list gaxis)
  (ps0 : list particle) (tol fac maxdel : Q) (clock : nat -> Q) (dt : Q) (ms : nat -> list (list Q)).
Hypothesis HV : valid_types n ss.
Hypothesis HR : forall s, In s ss -> s_refl s = true.
Hypothesis HC : forall it, 0 <= i_cut (its it) <= 1.
Hypothesis HA : apply_settings (fun i => i_cut (its i)) ss (new_fm n) = Some fm0.
Let fm := initialize fm0.
Let e := handler_env its fm sk mss gs (map wd b).
Hypothesis HSP : small_particles b e n ps0.
Hypothesis HM : moves_for b ps0 ms.
Let s := mkSetup b fm e tol fac maxdel 2.
Let dp := mkPart [] 0 0.
Hypothesis HI : fm_list fm <> [].
Hypothesis HEC : even_clock dt clock.
Hypothesis HD0 : (1#10000) <= maxdel.
Hypothesis HD1 : dt <= maxdel.
Hypothesis HNE : ps0 <> [].
Hypothesis HT : 0 < tol * fac < 10.
Hypothesis HNS : not_speeding_up (length b) (length ps0) ms.
Hypothesis HSH : short_steps (length b) (length ps0) clock ms (1#10000) ((1#2) * (tol * fac * sk)).

(* How far particle i has moved in j steps after a moves, squared; whether that is more than tolerated. *)
Let far (i a j : nat) : Q := sqr_length (length b) (fun d => travel ms i d a (a + j)).
Let tolerated : Q := Qsqr ((1#2) * (tol * fac * sk)).
Let calm (a m : nat) : Prop := forall i j, (i < length ps0)%nat -> (j < m)%nat -> far i a j <= tolerated.
Let wakes (a : nat) (d : delay) : Prop := forall a' i j, (a <= a')%nat -> (i < length ps0)%nat -> (1 <= j)%nat -> tolerated < far i a' j ->
  later (inject_Z (Z.of_nat j) * dt) d = true.
Definition sinv (k : nat) (t : state) : Prop := inv b its fm0 sk mss gs ps0 maxdel clock ms k t /\
  let a := (k - Z.to_nat (c_steps (t_c t)))%nat in calm a (Z.to_nat (c_every (t_c t))) /\ wakes a (c_delay (t_c t)).

Lemma skpos : 0 < sk.
Proof. destruct HSP as (_ & _ & _ & SK & _). exact SK. Qed.
Lemma tol_pos : 0 <= tolerated.
Proof. apply Qsq_nonneg. Qed.
Lemma far0 i a : far i a 0 == 0.
Proof. unfold far. rewrite Nat.add_0_r. apply here0. Qed.
Lemma far1 i a : (i < length ps0)%nat -> far i a 1 <= tolerated.
Proof. intros Hi. unfold far, tolerated. apply (HSH a (a + 1)%nat i); [lia| left; lia|exact Hi]. Qed.
Lemma nat_pos j : (1 <= j)%nat -> 1 <= inject_Z (Z.of_nat j).
Proof. clear. intros H. change (inject_Z 1 <= inject_Z (Z.of_nat j)); rewrite <- Zle_Qle; lia. Qed.
Lemma no_faster a a' c j i : (a <= a')%nat -> (1 <= c <= j)%nat -> (i < length ps0)%nat -> exists i', (i' < length ps0)%nat /\
  Qsqr (inject_Z (Z.of_nat c)) * far i a' j <= Qsqr (inject_Z (Z.of_nat j)) * far i' a c.
Proof. exact (HNS a a' c j i). Qed.
Lemma far_later a a' j i : (a <= a')%nat -> (i < length ps0)%nat -> tolerated < far i a' j -> exists i', (i' < length ps0)%nat /\ tolerated < far i' a j.
Proof.
  intros H Hi T. destruct j as [|j]; [exfalso; rewrite far0 in T; assert (A := tol_pos); lra|]. destruct (no_faster a a' (S j) (S j) i H ltac:(lia) Hi) as (i' & Hi' & L).
  exists i'. split; [exact Hi'|]. assert (P := nat_pos (S j) ltac:(lia)). set (z := inject_Z (Z.of_nat (S j))) in *. clearbody z. unfold Qsqr in L.
  assert (0 < z * z) by (apply Qmult_lt_0_compat; lra). apply Qmult_le_l in L; [lra|assumption].
Qed.
Lemma calm_later a a' m : (a <= a')%nat -> calm a m -> calm a' m.
Proof.
  intros H CA i j Hi Hj. destruct (Qlt_le_dec tolerated (far i a' j)) as [L|L]; [|exact L]. exfalso. destruct (far_later a a' j i H Hi L) as (i' & Hi' & L').
  specialize (CA i' j Hi' Hj). lra.
Qed.
Lemma wakes_later a a' d : (a <= a')%nat -> wakes a d -> wakes a' d.
Proof. intros H W a'' i j Ha. apply W. lia. Qed.
(* One step after a calm time, nothing has gone too far to be looked at. *)
Lemma far_small a m i : calm a m -> (1 <= m)%nat -> (i < length ps0)%nat -> far i a m < Qsqr (10 * sk).
Proof.
  intros CA Hm Hi. assert (SK := skpos). assert (B : far i a m <= 4 * tolerated).
  { destruct (Nat.eq_dec m 1) as [-> | N]; [assert (A := far1 i a Hi); assert (B := tol_pos); lra|].
    destruct (no_faster a a (m - 1)%nat m i ltac:(lia) ltac:(lia) Hi) as (i' & Hi' & L). assert (C := CA i' (m - 1)%nat Hi' ltac:(lia)).
    assert (R : far i a m <= 4 * far i' a (m - 1)).
    { apply (ratio_le (inject_Z (Z.of_nat (m - 1))) (inject_Z (Z.of_nat m))).
      - assert (P := nat_pos (m - 1) ltac:(lia)). lra.
      - rewrite <- Zle_Qle. lia.
      - change 2 with (inject_Z 2). rewrite <- inject_Z_mult, <- Zle_Qle. lia.
      - apply sqr_length_nonneg.
      - exact L. }
    lra. }
  assert (T : 4 * tolerated == Qsqr (tol * fac * sk)) by (unfold tolerated, Qsqr; ring). rewrite T in B. eapply Qle_lt_trans; [exact B|].
  set (q := tol * fac) in *. clearbody q. unfold Qsqr. assert (q * sk < 10 * sk) by (apply Qmult_lt_r; lra). assert (0 < q * sk) by (apply Qmult_lt_0_compat; lra). nra.
Qed.

(* What the check sees after k + 1 moves. *)
Lemma seen a k t i : (a <= k)%nat -> where_ok b ps0 ms a k t -> found_ok b its fm0 sk mss gs ps0 t -> (i < length ps0)%nat ->
  exists m, In m (combine (map px (t_found t)) (move (t_xs t) (ms k))) /\ dist2 (fst m) (snd m) == far i a (S k - a).
Proof.
  intros Ha W F Hi. assert (W' := moved_where b its ps0 ms HC HM a k t Ha W). destruct W' as [W1 W2 W3 _]. cbn [t_xs t_found] in *.
  destruct (fo_like b its fm0 sk mss gs ps0 t F) as [LF _]. assert (WV := fo_wrapped b its fm0 sk mss gs ps0 t F i Hi). fold dp in WV.
  exists (px (nth i (t_found t) dp), nth i (move (t_xs t) (ms k)) []). split.
  - change (@nil Q) with (px dp) at 1. rewrite <- (map_nth px). rewrite <- combine_nth by (rewrite map_length; lia). apply nth_In. rewrite combine_length, map_length. lia.
  - cbn [fst snd]. assert (LW : length (px (nth i (t_found t) dp)) = length b) by (symmetry; eapply Forall2_len; exact WV).
    rewrite (dist2_length (length b)) by (auto).
    etransitivity; [apply (sqr_length_ext (length b) _ (fun d => - travel ms i d a (S k))); intros d Hd; cbv beta; rewrite (W3 i d Hi Hd); fold dp; ring|].
    assert (NG : forall n0 x, sqr_length n0 (fun d => - x d) == sqr_length n0 x) by (intros n0 x; induction n0 as [|n0 IH]; cbn [sqr_length]; [reflexivity|rewrite IH; unfold Qsqr; ring]).
    rewrite NG. unfold far. replace (a + (S k - a))%nat with (S k) by lia. reflexivity.
Qed.
Lemma seen_all a k t m : (a <= k)%nat -> where_ok b ps0 ms a k t -> found_ok b its fm0 sk mss gs ps0 t ->
  In m (combine (map px (t_found t)) (move (t_xs t) (ms k))) -> exists i, (i < length ps0)%nat /\ dist2 (fst m) (snd m) == far i a (S k - a).
Proof.
  intros Ha W F Hm. assert (W' := moved_where b its ps0 ms HC HM a k t Ha W). destruct W' as [W1 W2 W3 _]. cbn [t_xs t_found] in *.
  destruct (fo_like b its fm0 sk mss gs ps0 t F) as [LF _].
  destruct (In_nth _ _ ([], []) Hm) as (i & Hi & E). rewrite combine_length, map_length in Hi. rewrite combine_nth in E by (rewrite map_length; lia).
  assert (Li : (i < length ps0)%nat) by lia. exists i. split; [exact Li|]. rewrite <- E. cbn [fst snd]. change (@nil Q) with (px dp) at 1. rewrite map_nth.
  assert (WV := fo_wrapped b its fm0 sk mss gs ps0 t F i Li). fold dp in WV.
  assert (LW : length (px (nth i (t_found t) dp)) = length b) by (symmetry; eapply Forall2_len; exact WV).
  rewrite (dist2_length (length b)) by (auto).
  etransitivity; [apply (sqr_length_ext (length b) _ (fun d => - travel ms i d a (S k))); intros d Hd; cbv beta; rewrite (W3 i d Li Hd); fold dp; ring|].
  assert (NG : forall n0 x, sqr_length n0 (fun d => - x d) == sqr_length n0 x) by (intros n0 x; induction n0 as [|n0 IH]; cbn [sqr_length]; [reflexivity|rewrite IH; unfold Qsqr; ring]).
  rewrite NG. unfold far. replace (a + (S k - a))%nat with (S k) by lia. reflexivity.
Qed.

Lemma max_seen a k t m i : (a <= k)%nat -> where_ok b ps0 ms a k t -> found_ok b its fm0 sk mss gs ps0 t -> calm a m -> (S k - a <= m)%nat ->
  (i < length ps0)%nat -> far i a (S k - a) <= find_max_motion_sqr sk (combine (map px (t_found t)) (move (t_xs t) (ms k))).
Proof.
  intros Ha W F CA Hm Hi. destruct (seen a k t i Ha W F Hi) as (x & Hx & E). rewrite <- E. apply max_motion_ge; [|exact Hx].
  intros y Hy. destruct (seen_all a k t y Ha W F Hy) as (i' & Hi' & ->). apply (far_small a (S k - a)); [|lia|exact Hi']. intros i0 j H0 Hj. apply CA; [exact H0|lia].
Qed.

Lemma step_steady k t t' : sinv k t -> step s (clock k) (ms k) false t = Some t' -> sinv (S k) t'.
Proof.
  intros (IV & CA & WK) ST. cbv zeta in CA, WK. split.
  { destruct (step_ok b its n ss fm0 sk mss gs ps0 tol fac maxdel clock ms HV HR HC HA HSP HM HI (even_steady dt clock HEC) HD0) with (k := k) (t := t) as (t2 & E2 & I2); auto.
    - destruct HEC as (_ & E). rewrite E. change (Z.of_nat 1) with 1%Z. unfold inject_Z. lra.
    - fold fm e s in E2. rewrite ST in E2. injection E2 as <-. exact I2. }
  destruct IV as (a & m & Ha & W & F & [[Hm1 Hm2] Hst Hf Hy]). rewrite Hst, Nat2Z.id in CA, WK. replace (k - (k - a))%nat with a in CA, WK by lia. rewrite Hm2, Nat2Z.id in CA.
  unfold step in ST.
  assert (NE : t_found t <> []). { destruct (fo_like b its fm0 sk mss gs ps0 t F) as [L _]. intros E. rewrite E in L. destruct ps0; [now apply HNE|discriminate]. }
  destruct (t_found t) as [|p0 pr] eqn:EF; [now elim NE|]. clear NE. rewrite <- EF in *. clear p0 pr EF.
  set (t1 := mkSt (t_c t) (t_found t) (t_lists t) (move (t_xs t) (ms k))) in *.
  cbn [s s_fm s_env s_tol s_fac s_maxdel s_type] in ST. change (2 =? 0)%Z with false in ST. change (2 =? 1)%Z with false in ST. change (2 =? 2)%Z with true in ST. cbn [andb orb] in ST.
  assert (IL : (0 <? length (fm_list fm))%nat = true) by (destruct (fm_list fm); [now elim HI|reflexivity]). rewrite IL in ST. rewrite andb_true_r in ST.
  change (skin e) with sk in ST.
  set (since := clock k - c_update (t_c t)) in *. set (mv := combine (map px (t_found t)) (move (t_xs t) (ms k))) in *.
  set (rc := negb (c_requires (t_c t)) && later since (c_delay (t_c t))) in *.
  set (ck := check_needs_remake tol fac sk maxdel since mv) in *. set (ex := c_requires (t_c t) || (rc && ck)) in *.
  set (d := if rc then next_delay tol fac sk maxdel since mv else c_delay (t_c t)) in *.
  set (last := if ex && negb (c_requires (t_c t)) then (c_steps (t_c t) + 1)%Z else c_last (t_c t)) in *.
  destruct (Nat.eq_dec a 0) as [A0|A0].
  - (* the first search after the start of the run *)
    destruct (Hf A0) as (K0 & M1 & R & D & U).
    assert (RC : rc = false). { unfold rc. rewrite R. cbn [negb andb]. unfold since. rewrite K0, U, D. unfold later. cbn [d_cap d_sqr].
      destruct (even_steady dt clock HEC) as (C0 & _). destruct (Qltb_spec (1#10000) (clock 0%nat - 0)) as [B|B]; [exfalso; lra|reflexivity]. }
    assert (EX : ex = false) by (unfold ex; rewrite R, RC; reflexivity).
    assert (Due : (c_every (t_c t) <=? c_steps (t_c t) + 1)%Z = true) by lia. rewrite Due, EX in ST. cbn [negb] in ST.
    apply construct_counters in ST. rewrite ST. cbn [c_steps c_every c_delay]. change (Z.to_nat 0) with 0%nat. rewrite Nat.sub_0_r.
    rewrite Hm2, M1. change (Z.to_nat (Z.of_nat 1 + 1)) with 2%nat. split.
    + intros i j Hi Hj. destruct j as [|[|j]]; [rewrite far0; apply tol_pos|apply far1; exact Hi|lia].
    + apply (wakes_later a); [lia|]. unfold d. rewrite RC. exact WK.
  - destruct (Hy ltac:(lia)) as (Y1 & Y2 & _ & _ & Y5).
    assert (SE : since == inject_Z (Z.of_nat (S k - a)) * dt).
    { unfold since. rewrite Y2. rewrite <- (even_diff dt clock (a - 1)%nat (S k - a)%nat HEC). replace (a - 1 + (S k - a))%nat with k by lia. reflexivity. }
    assert (LE : forall d0, later since d0 = later (inject_Z (Z.of_nat (S k - a)) * dt) d0).
    { intros d0. unfold later. assert (Q1 : forall x, Qltb x since = Qltb x (inject_Z (Z.of_nat (S k - a)) * dt)) by (intros x; destruct (Qltb_spec x since), (Qltb_spec x (inject_Z (Z.of_nat (S k - a)) * dt)); auto; exfalso; rewrite SE in *; auto).
      rewrite Q1. f_equal. destruct (d_sqr d0) as [q|]; [|reflexivity]. f_equal.
      - destruct (Qle_bool 0 since) eqn:X, (Qle_bool 0 (inject_Z (Z.of_nat (S k - a)) * dt)) eqn:Y; auto; exfalso.
        + apply Qle_bool_iff in X. rewrite SE in X. apply Qle_bool_iff in X. congruence.
        + apply Qle_bool_iff in Y. rewrite <- SE in Y. apply Qle_bool_iff in Y. congruence.
      - destruct (Qltb_spec q (Qsqr since)) as [X|X], (Qltb_spec q (Qsqr (inject_Z (Z.of_nat (S k - a)) * dt))) as [Y|Y]; auto; exfalso; unfold Qsqr in *; rewrite SE in X; auto. }
    assert (MX : forall i, (i < length ps0)%nat -> far i a (S k - a) <= find_max_motion_sqr sk mv) by (intros i Hi; apply (max_seen a k t m); auto; lia).
    (* the new delay *)
    assert (WD : wakes a d).
    { unfold d. destruct rc; [|exact WK]. intros a' i j Ha' Hi Hj T. unfold next_delay. set (M := find_max_motion_sqr sk mv) in *.
      set (c := (S k - a)%nat) in *. assert (Hcm : (1 <= c <= m)%nat) by (unfold c; lia).
      destruct (Nat.lt_ge_cases j c) as [Hjc|Hjc].
      { exfalso. destruct (far_later a a' j i Ha' Hi T) as (i' & Hi' & T'). specialize (CA i' j Hi' ltac:(lia)). lra. }
      destruct (no_faster a a' c j i Ha' ltac:(lia) Hi) as (i' & Hi' & L). specialize (MX i' Hi').
      assert (Pc := nat_pos c ltac:(lia)). assert (Pj := nat_pos j Hj). set (zc := inject_Z (Z.of_nat c)) in *. set (zj := inject_Z (Z.of_nat j)) in *.
      set (f1 := far i a' j) in *. set (f2 := far i' a c) in *. assert (TP := tol_pos). assert (DT : 0 < dt) by (destruct HEC; assumption).
      assert (S2 : since == zc * dt) by exact SE. clearbody zc zj f1 f2 M since c. unfold Qsqr in L.
      assert (C0 : 0 < zc * zc) by (apply Qmult_lt_0_compat; lra). assert (J0 : 0 < zj * zj) by (apply Qmult_lt_0_compat; lra).
      assert (L1 : zc * zc * tolerated < zc * zc * f1) by (apply Qmult_lt_l; [exact C0|exact T]).
      assert (L2 : zj * zj * f2 <= zj * zj * M) by (apply Qmult_le_l; [exact J0|exact MX]).
      assert (MP : 0 < M). { destruct (Qlt_le_dec 0 M) as [P|P]; [exact P|]. exfalso. assert (zj * zj * M <= 0) by nra. assert (0 <= zc * zc * tolerated) by nra. lra. }
      unfold later. cbn [d_cap d_sqr]. destruct (Qeq_bool M 0) eqn:Q0; [apply Qeq_bool_iff in Q0; exfalso; lra|].
      assert (NN : Qle_bool 0 (zj * dt) = true) by (apply Qle_bool_iff; apply Qmult_le_0_compat; lra). rewrite NN. cbn [andb].
      destruct (Qltb_spec (Qsqr (tol * fac * since * sk) / (4 * M)) (Qsqr (zj * dt))) as [B|B]; [apply orb_true_r|]. exfalso. apply B.
      apply Qlt_shift_div_r; [lra|]. unfold Qsqr. rewrite S2. unfold tolerated, Qsqr in L1. set (q := tol * fac) in *. clearbody q.
      assert (D2 : 0 < dt * dt) by (apply Qmult_lt_0_compat; exact DT).
      assert (L3 : zc * zc * ((1 # 2) * (q * sk) * ((1 # 2) * (q * sk))) < zj * zj * M) by lra.
      assert (L4 : 4 * (dt * dt) * (zc * zc * ((1 # 2) * (q * sk) * ((1 # 2) * (q * sk)))) < 4 * (dt * dt) * (zj * zj * M)) by (apply Qmult_lt_l; [lra|exact L3]).
      assert (E1 : 4 * (dt * dt) * (zc * zc * ((1 # 2) * (q * sk) * ((1 # 2) * (q * sk)))) == q * (zc * dt) * sk * (q * (zc * dt) * sk)) by ring.
      assert (E2 : 4 * (dt * dt) * (zj * zj * M) == zj * dt * (zj * dt) * (4 * M)) by ring. rewrite E1, E2 in L4. exact L4. }
    destruct (Z.leb_spec (c_every (t_c t)) (c_steps (t_c t) + 1)) as [Due|NotDue].
    + apply construct_counters in ST. rewrite ST. cbn [c_steps c_every c_delay]. change (Z.to_nat 0) with 0%nat. rewrite Nat.sub_0_r.
      split; [|apply (wakes_later a); [lia|exact WD]]. assert (KM : (S k - a)%nat = m) by lia.
      apply (calm_later a); [lia|]. destruct ex eqn:EX; cbn [negb].
      * unfold last. cbn [andb]. destruct (c_requires (t_c t)) eqn:R; cbn [negb].
        -- destruct (Y5 eq_refl) as [Y6 Y7]. intros i j Hi Hj. apply CA; [exact Hi|lia].
        -- intros i j Hi Hj. apply CA; [exact Hi|lia].
      * intros i j Hi Hj. destruct (Nat.eq_dec j m) as [-> | NJ]; [|apply CA; [exact Hi|lia]].
        destruct (Qlt_le_dec tolerated (far i a m)) as [L|L]; [|exact L]. exfalso.
        assert (LT := WK a i m (le_n a) Hi Hm1 L). rewrite <- KM, <- LE in LT.
        unfold ex in EX. apply orb_false_elim in EX. destruct EX as [R EX]. unfold rc in EX. rewrite R, LT in EX. cbn [negb andb] in EX.
        unfold ck, check_needs_remake in EX. apply orb_false_elim in EX. destruct EX as [_ EX].
        destruct (Qltb_spec (Qsqr (tol * fac * sk)) (4 * find_max_motion_sqr sk mv)) as [B|B]; [discriminate|]. apply B.
        specialize (MX i Hi). rewrite KM in MX. assert (T4 : 4 * tolerated == Qsqr (tol * fac * sk)) by (unfold tolerated, Qsqr; ring). lra.
    + injection ST as <-. cbn [t_c c_steps c_every c_delay]. assert (KA : (S k - Z.to_nat (c_steps (t_c t) + 1))%nat = a) by lia. rewrite KA, Hm2, Nat2Z.id. split; [exact CA|exact WD].
Qed.

Lemma run_steady every old k : (forall it, some_lists (old it)) -> exists t, run s every ps0 old clock ms (fun _ => false) k = Some t /\ sinv k t.
Proof.
  intros HO. assert (C1 : clock 1%nat <= maxdel) by (destruct HEC as (_ & E); rewrite E; change (Z.of_nat 1) with 1%Z; unfold inject_Z; lra).
  assert (HCL := even_steady dt clock HEC). unfold run. destruct (start_ok b its n ss fm0 sk mss gs ps0 tol fac maxdel clock ms HV HR HC HA HSP every old HO) as (t0 & E & I0).
  fold fm e s in E. rewrite E.
  assert (S0 : sinv 0 t0).
  { split; [exact I0|]. cbv zeta. destruct I0 as (a & m & Ha & _ & _ & [[Hm1 Hm2] Hst Hf Hy]). assert (A0 : a = 0%nat) by lia. destruct (Hf A0) as (_ & M1 & _ & D & _). rewrite Hm2, M1, D. split.
    - intros i j Hi Hj. assert (J0 : j = 0%nat) by lia. rewrite J0, far0. apply tol_pos.
    - intros a' i j _ Hi Hj T. unfold later. cbn [d_cap d_sqr]. destruct (Qltb_spec (1#10000) (inject_Z (Z.of_nat j) * dt)) as [B|B]; [reflexivity|]. exfalso.
      assert (L := HSH a' (a' + j)%nat i ltac:(lia)). assert (E2 := even_diff dt clock a' j HEC). unfold tolerated, far in T.
      assert (CL : clock (a' + j)%nat - clock a' <= 1#10000) by lra. specialize (L (or_intror CL) Hi). lra. }
  induction k as [|k IH]; cbn [steps]; [exists t0; auto|]. destruct IH as (t & Et & It). rewrite Et.
  destruct (step_ok b its n ss fm0 sk mss gs ps0 tol fac maxdel clock ms HV HR HC HA HSP HM HI HCL HD0 C1 HNE k t (proj1 It)) as (t2 & E2 & _).
  exists t2. split; [exact E2|]. exact (step_steady k t t2 It E2).
Qed.

Lemma steady_moved k t : sinv k t -> exists a, (a <= k)%nat /\ where_ok b ps0 ms a k t /\ found_ok b its fm0 sk mss gs ps0 t /\
  forall i, (i < length ps0)%nat -> sqr_length (length b) (fun d => travel ms i d a k) <= tolerated.
Proof.
  intros (IV & CA & _). cbv zeta in CA. destruct IV as (a & m & Ha & W & F & [[Hm1 Hm2] Hst Hf Hy]). rewrite Hst, Nat2Z.id in CA. replace (k - (k - a))%nat with a in CA by lia. rewrite Hm2, Nat2Z.id in CA.
  exists a. split; [exact Ha|]. split; [exact W|]. split; [exact F|]. intros i Hi. assert (KM : (k - a < m)%nat) by (destruct (Nat.eq_dec a 0) as [A0|A0]; [destruct (Hf A0); lia|destruct (Hy ltac:(lia)); lia]).
  specialize (CA i (k - a)%nat Hi KM). unfold far in CA. replace (a + (k - a))%nat with k in CA by lia. exact CA.
Qed.
End STEADY.
