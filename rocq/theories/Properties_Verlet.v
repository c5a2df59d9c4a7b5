(* C22 (skin safety) and C25 (overlap removal). *)
From Verif Require Import Lib Model_Geometry Spec_Geometry Model_Cells Spec_Cells Model_Verlet Proofs_Geometry
  Proofs_Verlet Properties_Cells.
From Coq Require Import ZifyBool.
Local Open Scope Q_scope.

(* C22. Lists built for the particles ps; later they are at positions xs. If the remake check (with
   tolerance*factor <= 1, unlike the defaults) does not ask for a remake and no particle moved 10 skin depths,
   then every pair that is now closer than its cutoff (in any periodic image) is in the list. *)
Theorem C22_skin_safety_partial (b : box) (e : env) (ps : list particle) (xs : list (list Q))
  (tol fac maxdel since : Q) :
  search_built b e -> box_large_enough (min_small_cutoff e) b -> stencil_range (min_small_cutoff e) b ->
  0 < skin e -> (forall p, In p ps -> 0 <= prd p /\ wrapped b (px p)) ->
  (forall t t', cutoff_grid e t t' = cutoff_grid e t' t /\ 0 <= cutoff_grid e t t' <= 1) ->
  (forall t, 1 <= max_cutoff e t) -> large_fit b e ps ->
  length xs = length ps -> (forall x, In x xs -> length x = length b) ->
  0 <= tol * fac <= 1 ->
  check_needs_remake tol fac (skin e) maxdel since (combine (map px ps) xs) = false ->
  (forall m, In m (combine (map px ps) xs) -> dist2 (fst m) (snd m) < Qsqr (10 * skin e)) ->
  exists vs, traversePairs e ps = Some vs /\
    forall i j pi pj xi xj ks, i <> j -> nth_error ps i = Some pi -> nth_error ps j = Some pj ->
      nth_error xs i = Some xi -> nth_error xs j = Some xj ->
      (0 <= ptype pi)%Z -> (0 <= ptype pj)%Z ->
      interacts e (ptype pi) = true -> interacts e (ptype pj) = true -> length ks = length b ->
      imageSqr b ks xi xj < Qsqr ((prd pi + prd pj) * cutoff_grid e (ptype pi) (ptype pj)) ->
      visited vs i j.
Proof.
  intros Hbuilt Hlarge Hst Hskin Hps Hcut Hmc Hfit Hlen Hxs Htol Hchk Hfar.
  destruct (C20_no_pair_is_missed_partial b e ps Hbuilt Hlarge Hst ltac:(lra) Hps Hcut Hmc Hfit) as (vs & Hvs & Hall).
  exists vs. split; [exact Hvs|].
  intros i j pi pj xi xj ks Hij Hi Hj Hxi Hxj Hti Htj Hii Hjj Hk Him.
  apply (Hall i j pi pj); auto.
  destruct (Hps pi (nth_error_In _ _ Hi)) as [Hri Hwi]. destruct (Hps pj (nth_error_In _ _ Hj)) as [Hrj Hwj].
  destruct (Hcut (ptype pi) (ptype pj)) as [_ Hc01].
  assert (Hm : forall k pk xk, nth_error ps k = Some pk -> nth_error xs k = Some xk ->
    In (px pk, xk) (combine (map px ps) xs)).
  { clear. revert xs. induction ps as [|p ps IH]; intros [|x xs] [|k] pk xk H1 H2; try discriminate.
    - injection H1 as <-. injection H2 as <-. now left.
    - right. eapply IH; eauto. }
  assert (Hb : Forall (fun a => lo a <= hi a) b).
  { eapply Forall_impl; [|exact Hlarge]. intros a [H _]. destruct Hbuilt as (_ & _ & Hc). unfold wd in H. lra. }
  pose proof (Hm i pi xi Hi Hxi) as Hmi. pose proof (Hm j pj xj Hj Hxj) as Hmj.
  pose proof (no_remake_bound tol fac (skin e) maxdel since _ _ Hskin Htol Hchk Hmi (Hfar _ Hmi)) as Hdi.
  pose proof (no_remake_bound tol fac (skin e) maxdel since _ _ Hskin Htol Hchk Hmj (Hfar _ Hmj)) as Hdj.
  cbn [fst snd] in Hdi, Hdj.
  set (C := (prd pi + prd pj) * cutoff_grid e (ptype pi) (ptype pj)) in *.
  assert (HC : 0 <= C) by (unfold C; nra).
  pose proof (moved_pair b (px pi) xi (px pj) xj ks C ((1#2) * skin e) Hb Hwi Hwj
    (Hxs xi (nth_error_In _ _ Hxi)) (Hxs xj (nth_error_In _ _ Hxj)) Hk HC ltac:(lra) Hdi Hdj Him) as H.
  unfold Qsqr. eapply Qlt_le_trans; [exact H|]. apply Qle_lteq. right. ring.
Qed.
Print Assumptions C22_skin_safety_partial.

(* C22. Under update type 0 a check that asks for a remake rebuilds the lists in the same step, before forces. *)
Theorem C22_checked_remake_is_immediate_partial (sim_needs : bool) (now new_delay : Q) (s : hstate) :
  update_delay s < now - last_update s ->
  fst (pre_forces 0 true sim_needs now true true new_delay s) = true.
Proof.
  intros H. unfold pre_forces. cbn [negb]. destruct (Qltb_spec (update_delay s) (now - last_update s)); [|contradiction].
  destruct (requires_remake s); cbn; destruct sim_needs; reflexivity.
Qed.
Print Assumptions C22_checked_remake_is_immediate_partial.

(* C22 for the periodic update types: the lists are rebuilt after at most delay_steps calls. *)
Theorem C22_rebuilt_within_delay_partial (dtype : Z) (sim_needs inter check : bool) (now new_delay : Q) (s : hstate) :
  dtype = 1%Z \/ dtype = 2%Z -> (delay_steps s <= steps_since s + 1)%Z ->
  fst (pre_forces dtype true sim_needs now inter check new_delay s) = true.
Proof.
  intros Hd H. unfold pre_forces. cbn [negb].
  assert (E : (delay_steps s <=? steps_since s + 1)%Z = true) by lia. rewrite E.
  destruct Hd as [-> | ->]; cbn [Z.eqb andb orb]; destruct sim_needs; cbn [orb]; try reflexivity;
    rewrite ?orb_true_r; reflexivity.
Qed.
Print Assumptions C22_rebuilt_within_delay_partial.

Example C22_hypotheses_met :
  exists xs, length xs = length ex_ps /\ (forall x, In x xs -> length x = length ex_box) /\
    check_needs_remake (95#100) 1 (skin ex_env) 1 (1#2) (combine (map px ex_ps) xs) = false /\
    (forall m, In m (combine (map px ex_ps) xs) -> dist2 (fst m) (snd m) < Qsqr (10 * skin ex_env)) /\
    (* the pair 3,4 approaches by 8/100 *)
    nth_error xs 3 = Some [10; 1204#100] /\ nth_error xs 4 = Some [10; 1496#100].
Proof.
  exists [[1#4; 5]; [79#4; 5]; [1; 11#2]; [10; 1204#100]; [10; 1496#100]; [1;-1]].
  split; [reflexivity|]. split. { intros x Hx. repeat (destruct Hx as [<-|Hx]; [reflexivity|]). destruct Hx. }
  split; [vm_compute; reflexivity|].
  split. { intros m Hm. vm_compute in Hm. repeat (destruct Hm as [<-|Hm]; [vm_compute; reflexivity|]). destruct Hm. }
  split; reflexivity.
Qed.

(* C22 fails with the default constants: tolerance * factor = 1.14 > 1, so two particles may approach each other by
   more than the skin without a remake. *)
Theorem C22_default_constants_refuted :
  exists (b : box) (e : env) (ps : list particle) (xs : list (list Q)) pi pj xi xj,
    search_built b e /\ box_large_enough (min_small_cutoff e) b /\ stencil_range (min_small_cutoff e) b /\
    cutoff_grid e 0 0 = 1 /\ max_cutoff e 0 = 1 /\
    nth_error ps 0 = Some pi /\ nth_error ps 1 = Some pj /\ nth_error xs 0 = Some xi /\ nth_error xs 1 = Some xj /\
    check_needs_remake DEFAULT_MV_RATIO_TOLERANCE DEFAULT_MOTION_FACTOR (skin e) 1 0 (combine (map px ps) xs) = false /\
    getDistanceSqr b xi xj < Qsqr ((prd pi + prd pj) * cutoff_grid e 0 0) /\
    exists vs, traversePairs e ps = Some vs /\ ~ visited vs 0 1.
Proof.
  pose (b := [mkAxis 0 20 OPEN; mkAxis 0 20 OPEN]).
  exists b, (mk_env 1 1 1 1 (map box_paxis b)), [P [5;5] 1; P [805#100;5] 1], [[555#100;5]; [75#10;5]],
    (P [5;5] 1), (P [805#100;5] 1), [555#100;5], [75#10;5].
  split; [split; [qc|split; qc]|]. split; [repeat constructor; qc; intros; discriminate|].
  split. { left. split; [repeat constructor; qc|]. left. qc. }
  do 6 (split; [reflexivity|]). split; [vm_compute; reflexivity|]. split; [vm_compute; reflexivity|].
  eexists. split; [vm_compute; reflexivity|]. intros (w & [[]|[]]).
Qed.
Print Assumptions C22_default_constants_refuted.

(* C22 fails when a particle moves at least 10 skin depths: the displacement is taken for a periodic jump and
   ignored. *)
Theorem C22_fast_particle_refuted :
  exists (tol fac skin_depth : Q) (x0 x1 : list Q), tol * fac <= 1 /\ 0 < skin_depth /\
    Qsqr (10 * skin_depth) <= dist2 x0 x1 /\ check_needs_remake tol fac skin_depth 1 0 [(x0, x1)] = false.
Proof. exists 1, 1, (1#10), [0;0], [1;0]. vm_compute. repeat split; discriminate. Qed.
Print Assumptions C22_fast_particle_refuted.

(* C22 fails with the default update type 2: once the delay has grown, a step in which the check finds the skin
   exceeded does not rebuild the lists (here not until two steps later). *)
Fixpoint run_pre (dtype : Z) (checks : list (Q * bool)) (s : hstate) : list bool :=
  match checks with
  | [] => []
  | (now, c) :: checks' =>
      let '(r, s') := pre_forces dtype true false now true c 0 s in r :: run_pre dtype checks' s'
  end.
Theorem C22_update_type_2_is_late_refuted :
  run_pre 2 [(1, false); (2, false); (3, false); (4, true); (5, true); (6, true)] (mkH 0 1 false 1 0 0)
  = [true; false; true; false; false; true].
Proof. reflexivity. Qed.
Print Assumptions C22_update_type_2_is_late_refuted.

(* ------------------------------------------------------------------ C25 *)
(* Only particles overlapping some visited partner by more than the fraction are marked, and afterwards no visited
   pair with a movable first particle keeps such an overlap. *)
Theorem C25_overlap_removal_partial (factor : Q) (im : nat -> Q) (calls : list (nat * nat * Q * Q * Q)) :
  let marked := overlap_marks factor im calls [] in
  (forall k, In k marked -> exists i r1 r2 rsqr, In (i, k, r1, r2, rsqr) calls /\
      0 < r1 + r2 - factor * Qminb r1 r2 /\ rsqr < Qsqr (r1 + r2 - factor * Qminb r1 r2)) /\
  (forall i j r1 r2 rsqr, In (i, j, r1, r2, rsqr) calls -> 0 < im i -> ~ In i marked -> ~ In j marked ->
      ~ (0 < r1 + r2 - factor * Qminb r1 r2 /\ rsqr < Qsqr (r1 + r2 - factor * Qminb r1 r2))).
Proof.
  cbv zeta.
  assert (Ho : forall r1 r2 rs, overlaps factor r1 r2 rs = true <->
     (0 < r1 + r2 - factor * Qminb r1 r2 /\ rs < Qsqr (r1 + r2 - factor * Qminb r1 r2))).
  { intros r1 r2 rs. unfold overlaps.
    destruct (Qltb_spec 0 (r1 + r2 - factor * Qminb r1 r2)); destruct (Qltb_spec rs (Qsqr (r1 + r2 - factor * Qminb r1 r2)));
      cbn [andb]; split; try tauto; discriminate. }
  split.
  - intros k Hk. destruct (marks_sound factor im calls [] k Hk) as [[]|(i & r1 & r2 & rs & Hin & H & _)].
    exists i, r1, r2, rs. split; [exact Hin|]. now apply Ho.
  - intros i j r1 r2 rs Hin Him Hi Hj Hov. apply Ho in Hov.
    destruct (marks_complete factor im calls [] i j r1 r2 rs Hin Hov Him); contradiction.
Qed.
Print Assumptions C25_overlap_removal_partial.

Example C25_case :
  overlap_marks (1#4) (fun _ => 1) [(0%nat, 1%nat, 1, 1, 1); (1%nat, 2%nat, 1, 1, 1); (0%nat, 2%nat, 1, 1, 4)] [] = [1%nat].
Proof. reflexivity. Qed.

(* C25 fails for an immovable first particle (infinite mass): a particle inside a wall stays. *)
Theorem C25_immovable_partner_refuted :
  exists calls, overlap_marks (1#4) (fun i => match i with O => 0 | _ => 1 end) calls [] = [] /\
    exists i j r1 r2 rsqr, In (i, j, r1, r2, rsqr) calls /\ rsqr < Qsqr (r1 + r2 - (1#4) * Qminb r1 r2).
Proof.
  exists [(0%nat, 1%nat, 1, 1, 1#4)]. split; [reflexivity|].
  exists 0%nat, 1%nat, 1, 1, (1#4). split; [now left|]. vm_compute. reflexivity.
Qed.
Print Assumptions C25_immovable_partner_refuted.

(* C25 fails across a periodic border: the distance used is not the minimum image distance. *)
Theorem C25_periodic_overlap_refuted :
  exists (b : box) (x y : list Q), in_closed b x /\ in_closed b y /\
    getDistanceSqr b x y < Qsqr (1 + 1 - (1#4) * 1) /\ overlaps (1#4) 1 1 (dist2 x y) = false.
Proof.
  exists [mkAxis 0 10 WRAP; mkAxis 0 10 WRAP], [1#4;5], [39#4;5].
  split; [repeat constructor; vm_compute; discriminate|]. split; [repeat constructor; vm_compute; discriminate|].
  split; vm_compute; reflexivity.
Qed.
Print Assumptions C25_periodic_overlap_refuted.
