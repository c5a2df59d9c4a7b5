(* C136, C137: the neighbour lists, and the forces that use them, during a run. *)
From Coq Require Import Reals Qreals.
From Verif Require Import Lib Model_Geometry Model_Handlers Spec_Handlers Model_Cells Spec_Cells Properties_Cells Model_Verlet
  Model_Sweep Spec_Sweep Properties_Sweep Model_Steps Spec_Steps Proofs_Steps.
From Verif Require Import Model_Forces Spec_Forces Proofs_Forces2.
From Coq Require Import Lra Lqa ZifyBool.
Local Open Scope Q_scope.

(* C136. Whatever the particles do, as long as none of them moves farther than half the skin depth within max_update_delay: at every step of a run
   the particles are where their motion took them (up to whole widths of periodic axes) and interact() gives each of them the sum of the forces that
   each other particle exerts on it when they are alone at their nearest images; the reported potential energies add up to that of all pairs. This
   holds for every tolerance and motion factor, with update_decision_type 2 (the only one that can be chosen), as long as nobody else asks for a new
   search and the time step does not grow. *)
Theorem C136_forces_of_every_step_partial : forall b its n ss fm sk mss gs ps0 tol fac maxdel clock ms every old k,
  let e := handler_env its fm sk mss gs (map wd b) in
  let s := mkSetup b fm e tol fac maxdel 2 in
  interactions_set its n ss fm -> fm_list fm <> [] -> small_particles b e n ps0 -> ps0 <> [] -> moves_for b ps0 ms ->
  steady_clock clock -> clock 1%nat <= maxdel -> (1#10000) <= maxdel -> slow (length b) (length ps0) clock ms maxdel ((1#2) * sk) ->
  (forall it, some_lists (old it)) ->
  exists t, run s every ps0 old clock ms (fun _ => false) k = Some t /\
    length (t_xs t) = length ps0 /\
    (forall i p, nth_error ps0 i = Some p -> exists x, nth_error (t_xs t) i = Some x /\ length x = length b /\
      forall d a, nth_error b d = Some a -> exists z : Z, nth d x 0 == nth d (px p) 0 + travel ms i d 0 k + inject_Z z * wd a /\ (bc a <> WRAP -> z = 0%Z)) /\
    forall v im om p w, let fe := force_env b ps0 (t_xs t) v im om p w in apart fm ps0 fe ->
      exists st us, sweep its fe (t_lists t) (fm_list fm) cleared = Some (st, us) /\
        (forall a d, (a < length ps0)%nat -> F st a d = sum_to (length ps0) (fun j => if (j =? a)%nat then 0%R else alone_force its fm ps0 fe d a j)) /\
        total_potential us = sum_to (length ps0) (fun j => sum_to j (fun i => alone_energy its fm ps0 fe i j)).
Proof.
  intros b its n ss fm sk mss gs ps0 tol fac maxdel clock ms every old k e s (HV & HR & HC & fm0 & HA & Hfm) HI HSP HNE HM HCL HD1 HD0 SL HO. subst fm.
  destruct (run_ok b its n ss fm0 sk mss gs ps0 tol fac maxdel clock ms HV HR HC HA HSP HM HI HCL HD0 HD1 HNE every old k HO) as (t & E & IV).
  exists t. split; [exact E|]. assert (IV' := IV). destruct IV' as (a & m & _ & [W1 W2 W3 W4] & _). split; [exact W1|]. split.
  - intros i p Hp. assert (Hi : (i < length ps0)%nat) by (apply nth_error_Some; congruence). exists (nth i (t_xs t) []).
    split; [apply nth_error_nth'; rewrite W1; exact Hi|]. split; [exact (W2 i Hi)|]. intros d c Hc. destruct (W4 i d c Hi Hc) as (z & Ez & K).
    rewrite (nth_error_nth ps0 i _ Hp) in Ez. exists z. auto.
  - intros v im om p w fe AP.
    exact (forces_ok b its n ss fm0 sk mss gs ps0 maxdel clock ms HV HR HC HA HSP HCL HD0 k t v im om p w IV SL AP).
Qed.
Print Assumptions C136_forces_of_every_step_partial.

(* C137. However the particles move, the pairs used in a step were found by a search at most max_update_delay ago: the search saw the particles
   (t_found) after a moves, and the clock advanced by at most max_update_delay since. *)
Theorem C137_lists_are_young_partial : forall b its n ss fm sk mss gs ps0 tol fac maxdel clock ms every old k,
  let e := handler_env its fm sk mss gs (map wd b) in
  let s := mkSetup b fm e tol fac maxdel 2 in
  interactions_set its n ss fm -> fm_list fm <> [] -> small_particles b e n ps0 -> ps0 <> [] -> moves_for b ps0 ms ->
  steady_clock clock -> clock 1%nat <= maxdel -> (1#10000) <= maxdel -> (forall it, some_lists (old it)) ->
  exists t a, run s every ps0 old clock ms (fun _ => false) k = Some t /\ (a <= k)%nat /\ clock k - clock a <= maxdel /\
    (exists before, forall it, In it (fm_list fm) -> some_lists (before it) /\ construct_lists fm e (t_found t) it (before it) = Some (t_lists t it)) /\
    map (fun q => (prd q, ptype q)) (t_found t) = map (fun q => (prd q, ptype q)) ps0 /\
    forall i q, nth_error (t_found t) i = Some q -> wrapped b (px q) /\ exists x, nth_error (t_xs t) i = Some x /\
      forall d, (d < length b)%nat -> nth d x 0 == nth d (px q) 0 + travel ms i d a k.
Proof.
  intros b its n ss fm sk mss gs ps0 tol fac maxdel clock ms every old k e s (HV & HR & HC & fm0 & HA & Hfm) HI HSP HNE HM HCL HD1 HD0 HO. subst fm.
  destruct (run_ok b its n ss fm0 sk mss gs ps0 tol fac maxdel clock ms HV HR HC HA HSP HM HI HCL HD0 HD1 HNE every old k HO) as (t & E & IV).
  destruct (inv_young b its fm0 sk mss gs ps0 maxdel clock ms HC HCL HD0 k t IV) as (a & Ha & [W1 W2 W3 W4] & F & Y). exists t, a.
  split; [exact E|]. split; [exact Ha|]. split; [exact Y|]. destruct F as [(L & T) F2 (bf & B1 & B2) F4]. split; [exists bf; intros it Hit; split; [apply B1|exact (B2 it Hit)]|].
  split.
  - assert (MN : forall l : list particle, forall i, nth i (map (fun q => (prd q, ptype q)) l) (0, 0%Z) = (prd (nth i l (mkPart [] 0 0%Z)), ptype (nth i l (mkPart [] 0 0%Z)))).
    { induction l as [|q l IH]; intros [|i]; try reflexivity. cbn [map nth]. apply IH. }
    apply (nth_ext _ _ (0, 0%Z) (0, 0%Z)); [rewrite !map_length; exact L|]. intros i Hi. rewrite map_length, L in Hi. rewrite !MN. destruct (T i Hi) as [T1 T2]. rewrite T1, T2. reflexivity.
  - intros i q Hq. assert (Hi : (i < length ps0)%nat) by (rewrite <- L; apply nth_error_Some; congruence).
    assert (Q1 := nth_error_nth (t_found t) i (mkPart [] 0 0%Z) Hq). split; [rewrite <- Q1; exact (F2 i Hi)|]. exists (nth i (t_xs t) []).
    split; [apply nth_error_nth'; rewrite W1; exact Hi|]. intros d Hd. rewrite <- Q1. exact (W3 i d Hi Hd).
Qed.
Print Assumptions C137_lists_are_young_partial.

(* What the modelled delay means: the minimum of max_update_delay and the time after which the fastest particle, going on as before, reaches the
   tolerated distance. *)
Definition delay_value (d : delay) : R := match d_sqr d with Some q => Rmin (Q2R (d_cap d)) (R_sqrt.sqrt (Q2R q)) | None => Q2R (d_cap d) end.
Theorem C137_delay_compared : forall d since, 0 <= since -> (forall q, d_sqr d = Some q -> 0 <= q) ->
  (later since d = true <-> (delay_value d < Q2R since)%R).
Proof.
  intros d since Hs Hq. unfold later, delay_value. assert (HC : Qltb (d_cap d) since = true <-> (Q2R (d_cap d) < Q2R since)%R).
  { destruct (Qltb_spec (d_cap d) since) as [B|B]; split; try congruence; intros; try reflexivity; [now apply Qlt_Rlt|]. exfalso. apply B. apply Rlt_Qlt. assumption. }
  destruct (d_sqr d) as [q|] eqn:E; [|rewrite orb_false_r; exact HC]. specialize (Hq q eq_refl).
  assert (S0 : Qle_bool 0 since = true) by (apply Qle_bool_iff; exact Hs). rewrite S0. cbn [andb]. rewrite orb_true_iff, HC.
  assert (HS : Qltb q (Qsqr since) = true <-> (R_sqrt.sqrt (Q2R q) < Q2R since)%R).
  { assert (R0 : (0 <= Q2R since)%R) by (rewrite <- RMicromega.Q2R_0; apply Qle_Rle; exact Hs). assert (R1 : (0 <= Q2R q)%R) by (rewrite <- RMicromega.Q2R_0; apply Qle_Rle; exact Hq).
    destruct (Qltb_spec q (Qsqr since)) as [B|B]; split; try congruence; intros H; try reflexivity.
    - apply Qlt_Rlt in B. unfold Qsqr in B. rewrite Q2R_mult in B. rewrite <- (R_sqrt.sqrt_square (Q2R since) R0). apply R_sqrt.sqrt_lt_1; [exact R1|apply Rmult_le_pos; exact R0|exact B].
    - exfalso. apply B. apply Rlt_Qlt. unfold Qsqr. rewrite Q2R_mult. rewrite <- (R_sqrt.sqrt_sqrt (Q2R q) R1). assert (Z := R_sqrt.sqrt_pos (Q2R q)). apply Rmult_le_0_lt_compat; assumption. }
  rewrite HS. split; [intros [H|H]|intros H].
  - eapply Rle_lt_trans; [apply Rmin_l|exact H].
  - eapply Rle_lt_trans; [apply Rmin_r|exact H].
  - unfold Rmin in H. destruct (Rle_dec _ _); [now left|now right].
Qed.
Print Assumptions C137_delay_compared.

(* ------------------------------------------------------------------ cases *)
(* Two particles of radius 2/5 in a periodic box of width 20 (see Properties_Sweep), skin depth 1/10, max_update_delay 2; one moves towards the other. *)
Definition st_ps (x : Q) : list particle := [P [x] (2#5); P [10] (2#5)].
Definition st_s (maxdel : Q) : setup := mkSetup sw_b sw_fm sw_e (95#100) (12#10) maxdel 2.
Definition st_ms (from : nat) (m : Q) : nat -> list (list Q) := fun j => [[if (from <=? j)%nat then m else 0]; [0]].
Definition st_clock : nat -> Q := fun k => inject_Z (Z.of_nat k).
Definition st_fe (x : Q) (t : state) : Model_Forces.env := force_env sw_b (st_ps x) (t_xs t) (fun _ _ => 0%R) (fun _ => 1%R) (fun _ => 0%R) true true.

Lemma st_small x : 0 <= x -> small_particles sw_b sw_e 1 (st_ps x).
Proof.
  intros Hx. destruct sw_built as (A & B & C). split; [exact A|]. split; [exact B|]. split; [exact C|]. split; [vm_compute; reflexivity|].
  intros p Hp. repeat (destruct Hp as [<-|Hp]; [split; [vm_compute; discriminate|split; [reflexivity|split; [cbn; lia|vm_compute; discriminate]]]|]). destruct Hp.
Qed.
Lemma st_moves x from m : moves_for sw_b (st_ps x) (st_ms from m).
Proof. intros k. split; [reflexivity|]. intros y Hy. repeat (destruct Hy as [<-|Hy]; [reflexivity|]). destruct Hy. Qed.
(* each move is at most 1/40 of the time step *)
Lemma st_slow x from m clock : 0 <= m -> (forall k, clock k <= clock (S k)) -> (forall k, (from <= k)%nat -> m <= (clock (S k) - clock k) * (1#40)) ->
  slow (length sw_b) (length (st_ps x)) clock (st_ms from m) 2 ((1#2) * (1#10)).
Proof.
  intros Hm Hc H a b i Hab Hcl Hi. cbn [length sw_b sqr_length].
  assert (G : 0 <= travel (st_ms from m) i 0 a b <= (clock b - clock a) * (1#40)).
  { clear Hcl. induction Hab as [|b Hab IH]; [rewrite travel_here; lra|]. rewrite travel_on by exact Hab.
    assert (E : 0 <= nth 0 (nth i (st_ms from m b) []) 0 <= (clock (S b) - clock b) * (1#40)).
    { unfold st_ms. cbn in Hi. assert (Z := Hc b). destruct i as [|[|i]]; cbn [nth]; [|lra|exfalso; lia].
      destruct (from <=? b)%nat eqn:E; [|lra]. assert (B := H b ltac:(lia)). lra. }
    lra. }
  set (v := travel _ _ _ _ _) in *. unfold Qsqr. nra.
Qed.
Lemma st_steady : steady_clock st_clock.
Proof.
  split; [reflexivity|]. intros k. unfold st_clock. rewrite !Nat2Z.inj_succ. unfold Z.succ. rewrite !inject_Z_plus. change (inject_Z 1) with 1. lra.
Qed.
Lemma st_clock_S k : st_clock (S k) - st_clock k == 1.
Proof. unfold st_clock. rewrite Nat2Z.inj_succ. unfold Z.succ. rewrite inject_Z_plus. change (inject_Z 1) with 1. ring. Qed.
Lemma st_old it : some_lists ((fun _ : nat => new_pairs) it).
Proof. exact (sw_old it). Qed.

(* a pair in contact that is not in the lists does not act *)
Lemma st_force x t y r : t_xs t = [[y]; [10]] -> min_image1 (mkAxis 0 20 WRAP) (y - 10) == - r -> 0 < r -> r < 4#5 ->
  alone_force sw_its sw_fm (st_ps x) (st_fe x t) 0 0 1 = (- (50 * (4 / 5 - Q2R r)))%R.
Proof.
  intros HX HM H0 H1. set (fe := st_fe x t).
  assert (X : shift_of fe true 0 1 0%nat = (- Q2R r)%R). { unfold fe, st_fe. rewrite sw_x, HX. cbn [nth]. rewrite (Qeq_eqR _ _ HM). apply Q2R_opp. }
  assert (R0 : (0 < Q2R r)%R) by (rewrite <- RMicromega.Q2R_0; apply Qlt_Rlt; exact H0).
  assert (N : norm 1 (shift_of fe true 0 1) = Q2R r). { rewrite sw_norm, X, Rabs_Ropp. apply Rabs_pos_eq. apply Rlt_le. exact R0. }
  assert (V : Q2R (2#5) = (2 / 5)%R) by (unfold Q2R; cbn; field).
  assert (S0 : e_sg fe 0%nat = (2 / 5)%R) by (rewrite <- V; reflexivity). assert (S1 : e_sg fe 1%nat = (2 / 5)%R) by (rewrite <- V; reflexivity).
  assert (C1 : Q2R (i_cut (sw_its 0)) = 1%R) by (unfold Q2R; cbn [i_cut sw_its Qnum Qden]; field).
  assert (R1 : (Q2R r < 4 / 5)%R) by (replace (4 / 5)%R with (Q2R (4#5)) by (unfold Q2R; cbn; field); apply Qlt_Rlt; exact H1).
  rewrite (C131_force_of_two sw_its sw_fm (st_ps x) fe 0 1 0 (hs_U 50) (hs_F 50) 0).
  - change (e_dims fe) with 1%nat. rewrite N, X, S0, S1, C1. destruct (Rlt_dec _ _) as [_|B]; [unfold hs_F; field; Lra.lra|exfalso; apply B; Lra.lra].
  - apply hs_describes.
  - vm_compute. reflexivity.
  - discriminate.
  - intros [|[|i]]; [rewrite S0; Lra.lra|rewrite S1; Lra.lra|]. unfold fe, st_fe, force_env. cbn [e_sg]. destruct i; apply Rle_refl.
  - rewrite C1. Lra.lra.
  - change (e_dims fe) with 1%nat. rewrite N. exact R0.
  - cbn. lia.
Qed.
Lemma st_nothing x t : pairs_visit 0 (t_lists t 0%nat) = Some [] -> pairs_visit 1 (t_lists t 0%nat) = Some [] ->
  exists st us, sweep sw_its (st_fe x t) (t_lists t) (fm_list sw_fm) cleared = Some (st, us) /\ F st 0%nat 0%nat = 0%R.
Proof.
  intros E0 E1. cbn [fm_list sw_fm sweep]. unfold interact_one, interact. rewrite E0, E1. cbn [fold_left]. eexists. eexists. split; [reflexivity|]. reflexivity.
Qed.
Definition st_look (o : option state) := match o with Some t => Some (t_xs t, pairs_visit 0 (t_lists t 0%nat), pairs_visit 1 (t_lists t 0%nat)) | None => None end.
Lemma st_looked o y : st_look o = Some ([[y]; [10]], Some [], Some []) -> exists t, o = Some t /\ t_xs t = [[y]; [10]] /\ pairs_visit 0 (t_lists t 0%nat) = Some [] /\ pairs_visit 1 (t_lists t 0%nat) = Some [].
Proof. destruct o as [t|]; [|discriminate]. cbn [st_look]. intros H. injection H as A B C. exists t. auto. Qed.

Example C136_case :
  interactions_set sw_its 1 sw_ss sw_fm /\ fm_list sw_fm <> [] /\ small_particles sw_b sw_e 1 (st_ps (227#25)) /\ st_ps (227#25) <> [] /\ moves_for sw_b (st_ps (227#25)) (st_ms 0 (1#40)) /\
  steady_clock st_clock /\ st_clock 1 <= 2 /\ (1#10000) <= 2 /\ slow (length sw_b) (length (st_ps (227#25))) st_clock (st_ms 0 (1#40)) 2 ((1#2) * (1#10)) /\
  exists t, run (st_s 2) 1 (st_ps (227#25)) (fun _ => new_pairs) st_clock (st_ms 0 (1#40)) (fun _ => false) 6 = Some t /\
    apart sw_fm (st_ps (227#25)) (st_fe (227#25) t) /\
    exists st us, sweep sw_its (st_fe (227#25) t) (t_lists t) (fm_list sw_fm) cleared = Some (st, us) /\ F st 0%nat 0%nat = (- (3 / 2))%R.
Proof.
  assert (H3 := st_small (227#25) ltac:(lra)). assert (H5 := st_moves (227#25) 0 (1#40)).
  assert (H9 : slow (length sw_b) (length (st_ps (227#25))) st_clock (st_ms 0 (1#40)) 2 ((1#2) * (1#10))).
  { apply st_slow; [lra| |]; intros k; [assert (E := st_clock_S k); lra|]. intros _. rewrite st_clock_S. lra. }
  assert (HN : st_ps (227#25) <> []) by discriminate. assert (HF : fm_list sw_fm <> []) by discriminate.
  split; [exact sw_set|]. split; [exact HF|]. split; [exact H3|]. split; [exact HN|]. split; [exact H5|]. split; [exact st_steady|]. split; [vm_compute; discriminate|]. split; [lra|]. split; [exact H9|].
  destruct (C136_forces_of_every_step_partial sw_b sw_its 1 sw_ss sw_fm (1#10) (1#2) sw_gs (st_ps (227#25)) (95#100) (12#10) 2 st_clock (st_ms 0 (1#40)) 1 (fun _ => new_pairs) 6 sw_set HF H3 HN H5 st_steady ltac:(vm_compute; discriminate) ltac:(lra) H9 sw_old) as (t & E & _ & _ & A).
  exists t. split; [exact E|].
  assert (HX : t_xs t = [[945152000000 # 102400000000]; [10]]).
  { assert (L : option_map t_xs (run (st_s 2) 1 (st_ps (227#25)) (fun _ => new_pairs) st_clock (st_ms 0 (1#40)) (fun _ => false) 6) = Some [[945152000000 # 102400000000]; [10]]) by (vm_compute; reflexivity).
    unfold st_s, sw_e in L. rewrite E in L. injection L as L. exact L. }
  assert (AP : apart sw_fm (st_ps (227#25)) (st_fe (227#25) t)).
  { intros i j it N B. change (e_dims (st_fe (227#25) t)) with 1%nat. rewrite sw_norm. apply Rabs_pos_lt. unfold st_fe. rewrite sw_x. rewrite <- RMicromega.Q2R_0. intros Z. apply eqR_Qeq in Z.
    rewrite HX in Z. unfold between in B.
    destruct i as [|[|i]]; destruct j as [|[|j]]; clear - N Z B; try (exfalso; apply N; reflexivity); cbn [nth] in Z; cbn [nth_error st_ps] in B; try (destruct i; discriminate B); try (destruct j; discriminate B); revert Z; clear; vm_compute; discriminate. }
  split; [exact AP|]. destruct (A (fun _ _ => 0%R) (fun _ => 1%R) (fun _ => 0%R) true true AP) as (st & us & B & C & _). exists st, us. split; [exact B|].
  rewrite (C 0%nat 0%nat) by (cbn; lia). change (length (st_ps (227#25))) with 2%nat. cbn [sum_to Nat.eqb]. fold (st_fe (227#25) t).
  rewrite (st_force (227#25) t _ (77#100) HX) by (first [vm_compute; reflexivity|lra]). unfold Q2R. cbn [Qnum Qden]. Lra.lra.
Qed.
Example C137_case : exists t a, run (st_s 2) 1 (st_ps (227#25)) (fun _ => new_pairs) st_clock (st_ms 0 (1#40)) (fun _ => false) 6 = Some t /\ (a <= 6)%nat /\ st_clock 6 - st_clock a <= 2.
Proof.
  destruct (C137_lists_are_young_partial sw_b sw_its 1 sw_ss sw_fm (1#10) (1#2) sw_gs (st_ps (227#25)) (95#100) (12#10) 2 st_clock (st_ms 0 (1#40)) 1 (fun _ => new_pairs) 6 sw_set ltac:(discriminate) (st_small (227#25) ltac:(lra)) ltac:(discriminate)
    (st_moves (227#25) 0 (1#40)) st_steady ltac:(vm_compute; discriminate) ltac:(lra) sw_old) as (t & a & A & B & C & _). exists t, a. auto.
Qed.

(* C136 fails when others ask for searches: each of them makes the handler wait a step longer for the next, although no motion was observed. After six
   steps with such requests (and no motion) the particles move as slowly as in C136_case, and the pair is in contact while the lists do not have it.
   *)
Theorem C136_requested_searches_refuted :
  slow (length sw_b) (length (st_ps (227#25))) st_clock (st_ms 6 (1#40)) 2 ((1#2) * (1#10)) /\ steady_clock st_clock /\
  exists t st us, run (st_s 2) 1 (st_ps (227#25)) (fun _ => new_pairs) st_clock (st_ms 6 (1#40)) (fun j => (j <? 6)%nat) 12 = Some t /\
    sweep sw_its (st_fe (227#25) t) (t_lists t) (fm_list sw_fm) cleared = Some (st, us) /\ F st 0%nat 0%nat = 0%R /\
    alone_force sw_its sw_fm (st_ps (227#25)) (st_fe (227#25) t) 0 0 1 = (- (3 / 2))%R.
Proof.
  split. { apply st_slow; [lra| |]; intros k; [assert (E := st_clock_S k); lra|]. intros _. rewrite st_clock_S. lra. } split; [exact st_steady|].
  destruct (st_looked (run (st_s 2) 1 (st_ps (227#25)) (fun _ => new_pairs) st_clock (st_ms 6 (1#40)) (fun j => (j <? 6)%nat) 12) (945152000000 # 102400000000)) as (t & E & X & L0 & L1); [vm_compute; reflexivity|].
  destruct (st_nothing (227#25) t L0 L1) as (st & us & A & B). exists t, st, us. split; [exact E|]. split; [exact A|]. split; [exact B|].
  rewrite (st_force (227#25) t _ (77#100) X) by (first [vm_compute; reflexivity|lra]). unfold Q2R. cbn [Qnum Qden]. Lra.lra.
Qed.
Print Assumptions C136_requested_searches_refuted.
(* C136 fails when the time step grows: the handler counts steps, not time. *)
Definition st_clock2 : nat -> Q := fun k => inject_Z (Z.of_nat (Nat.min k 21)) * (1#4) + inject_Z (Z.of_nat (k - 21)).
Theorem C136_growing_time_step_refuted :
  slow (length sw_b) (length (st_ps (227#25))) st_clock2 (st_ms 21 (1#40)) 2 ((1#2) * (1#10)) /\
  (forall k, st_clock2 k < st_clock2 (S k)) /\
  exists t st us, run (st_s 2) 1 (st_ps (227#25)) (fun _ => new_pairs) st_clock2 (st_ms 21 (1#40)) (fun j => false) 27 = Some t /\
    sweep sw_its (st_fe (227#25) t) (t_lists t) (fm_list sw_fm) cleared = Some (st, us) /\ F st 0%nat 0%nat = 0%R /\
    alone_force sw_its sw_fm (st_ps (227#25)) (st_fe (227#25) t) 0 0 1 = (- (3 / 2))%R.
Proof.
  assert (C1 : forall k, st_clock2 k < st_clock2 (S k)).
  { intros k. unfold st_clock2. destruct (Nat.le_gt_cases 21 k) as [H|H].
    - rewrite !Nat.min_r by lia. replace (S k - 21)%nat with (S (k - 21)) by lia. rewrite (Nat2Z.inj_succ (k - 21)). unfold Z.succ. rewrite inject_Z_plus. change (inject_Z 1) with 1. lra.
    - rewrite !Nat.min_l by lia. replace (S k - 21)%nat with 0%nat by lia. replace (k - 21)%nat with 0%nat by lia. rewrite (Nat2Z.inj_succ k). unfold Z.succ. rewrite inject_Z_plus. change (inject_Z 1) with 1. lra. }
  split. { apply st_slow; [lra| |]; intros k; [assert (E := C1 k); lra|]. intros H. unfold st_clock2. rewrite !Nat.min_r by lia. replace (S k - 21)%nat with (S (k - 21)) by lia. rewrite (Nat2Z.inj_succ (k - 21)). unfold Z.succ. rewrite inject_Z_plus. change (inject_Z 1) with 1. lra. }
  split; [exact C1|].
  destruct (st_looked (run (st_s 2) 1 (st_ps (227#25)) (fun _ => new_pairs) st_clock2 (st_ms 21 (1#40)) (fun j => false) 27) (945152000000 # 102400000000)) as (t & E & X & L0 & L1); [vm_compute; reflexivity|].
  destruct (st_nothing (227#25) t L0 L1) as (st & us & A & B). exists t, st, us. split; [exact E|]. split; [exact A|]. split; [exact B|].
  rewrite (st_force (227#25) t _ (77#100) X) by (first [vm_compute; reflexivity|lra]). unfold Q2R. cbn [Qnum Qden]. Lra.lra.
Qed.
Print Assumptions C136_growing_time_step_refuted.

(* C136 fails for particles that start to move within max_update_delay: the handler expects them to go on as before. *)
Theorem C136_starting_to_move_refuted :
  exists t st us, run (st_s 1000) 1 (st_ps (227#25)) (fun _ => new_pairs) st_clock (st_ms 10 (1#20)) (fun j => false) 14 = Some t /\
    sweep sw_its (st_fe (227#25) t) (t_lists t) (fm_list sw_fm) cleared = Some (st, us) /\ F st 0%nat 0%nat = 0%R /\
    alone_force sw_its sw_fm (st_ps (227#25)) (st_fe (227#25) t) 0 0 1 = (- 4)%R.
Proof.
  destruct (st_looked (run (st_s 1000) 1 (st_ps (227#25)) (fun _ => new_pairs) st_clock (st_ms 10 (1#20)) (fun j => false) 14) (37120000 # 4000000)) as (t & E & X & L0 & L1); [vm_compute; reflexivity|].
  destruct (st_nothing (227#25) t L0 L1) as (st & us & A & B). exists t, st, us. split; [exact E|]. split; [exact A|]. split; [exact B|].
  rewrite (st_force (227#25) t _ (72#100) X) by (first [vm_compute; reflexivity|lra]). unfold Q2R. cbn [Qnum Qden]. Lra.lra.
Qed.
Print Assumptions C136_starting_to_move_refuted.
(* C137 fails in the same run as C136: max_update_delay is 2, the forces of the twelfth step (time 11) use the lists of the search at time 5; and when
   the time step grows, those of time 10.25 use the search at time 5. *)
Theorem C137_old_lists_refuted :
  option_map (fun t => c_update (t_c t)) (run (st_s 2) 1 (st_ps (227#25)) (fun _ => new_pairs) st_clock (st_ms 6 (1#40)) (fun j => (j <? 6)%nat) 12) = Some 5 /\ st_clock 11 == 11 /\
  option_map (fun t => Qred (c_update (t_c t))) (run (st_s 2) 1 (st_ps (227#25)) (fun _ => new_pairs) st_clock2 (st_ms 21 (1#40)) (fun j => false) 27) = Some 5 /\ st_clock2 26 == 41#4.
Proof. repeat split; vm_compute; reflexivity. Qed.
Print Assumptions C137_old_lists_refuted.
