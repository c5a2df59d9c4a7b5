(* C101-C103: the neighbour search on one of several processors. *)
From Coq Require Import String.
From Verif Require Import Lib Model_Geometry Model_Store Model_Cells Model_Buffer Model_Topology Model_Messages Model_Ghosts Model_GhostPairs
  Spec_Geometry Spec_Cells Spec_Topology Spec_GhostPairs Proofs_Geometry Proofs_Cells1 Proofs_Cells2
  Proofs_Cells3 Proofs_Cells4 Proofs_Cells5 Proofs_Cells6 Proofs_GhostPairs Proofs_GhostPairs2 Proofs_GhostPairs3 Properties_Cells.
From Coq Require Import ZifyBool.
Local Open Scope list_scope.
Local Open Scope Q_scope.

(* ------------------------------------------------------------------ C101 *)
Lemma inside_owned p : forall x, Spec_Cells.inside (region_box p) x -> owned p x.
Proof.
  induction p as [|a p IH]; intros x H; inversion H as [|? x0 ? x' H0 H']; subst; constructor; [|exact (IH x' H')].
  cbn [lo hi] in H0. repeat split; intros; lra.
Qed.

Theorem C101_own_pairs_partial (p : list paxis) (e : env) (ps : list particle) :
  search_on p e -> region_in_simulation p -> region_large_enough (min_small_cutoff e) p ->
  stencil_range (min_small_cutoff e) (region_box p) ->
  0 <= skin e -> (forall q, In q ps -> 0 <= prd q /\ owned p (px q)) ->
  (forall t t', cutoff_grid e t t' = cutoff_grid e t' t /\ 0 <= cutoff_grid e t t' <= 1) ->
  (forall t, 1 <= max_cutoff e t) -> large_fit_on p e ps ->
  exists vs, traversePairs e ps = Some vs /\
    (forall i j pi pj, i <> j -> nth_error ps i = Some pi -> nth_error ps j = Some pj ->
      (0 <= ptype pi)%Z -> (0 <= ptype pj)%Z ->
      interacts e (ptype pi) = true -> interacts e (ptype pj) = true ->
      split_wide (range_of e pi pj) p -> getDistanceSqr (sim_box p) (px pi) (px pj) < Qsqr (range_of e pi pj) ->
      visited vs i j) /\
    (large_different e ps -> NoDup (map upair vs)) /\
    (forall i j w, In (i, j, w) vs -> i <> j /\
      exists pi pj, nth_error ps i = Some pi /\ nth_error ps j = Some pj /\ (0 <= ptype pi)%Z /\ (0 <= ptype pj)%Z /\
        interacts e (ptype pi) = true /\ interacts e (ptype pj) = true).
Proof.
  intros Hon Hsim Hl Hst Hskin Hps Hcut Hmc Hfit.
  destruct (region_facts p e Hon Hl) as [F Hg]. pose proof (region_goodenv p e Hon Hl Hst) as Hgood.
  pose proof (ext_traverse _ p e ps F ltac:(intros q Hq; now apply Hps) Hgood) as Eq.
  assert (Hlg : large_ok (ext_env e) ps).
  { apply (own_large p e ps Hon F Hskin); auto; [intros q Hq; now apply Hps|intros t; specialize (Hmc t); lra]. }
  exists (flat_map (fun l => visit_cell (ext_env e) ps (cell_adj (ext_env e) l) (cell_ids (ext_env e) ps l)) (zrange (prodZ (dims_of (grid (ext_env e)))))).
  pose proof (traverse_total (ext_env e) ps Hgood) as Ht. rewrite Eq. split; [exact Ht|].
  split; [|split].
  - intros i j pi pj Hij Hi Hj Hti Htj Hii Hjj Hsp Hd.
    destruct (Hps pi (nth_error_In _ _ Hi)) as [Hri Hwi]. destruct (Hps pj (nth_error_In _ _ Hj)) as [Hrj Hwj].
    destruct (Hcut (ptype pi) (ptype pj)) as [Hsym Hc01].
    assert (Hr0 : 0 <= range_of e pi pj).
    { unfold range_of. clear - Hri Hrj Hc01 Hskin. set (k := cutoff_grid e (ptype pi) (ptype pj)) in *. clearbody k.
      assert (0 <= (prd pi + prd pj) * k) by (apply Qmult_le_0_compat; lra). lra. }
    eapply (traversal_complete_all (ext_env e) ps _ i j pi pj); eauto.
    + intros g Hgin HW. destruct (proj1 (Forall_forall _ _) Hg g Hgin) as (_ & H2 & _ & H4 & H5). specialize (H5 HW).
      destruct (sweep1_nonneg _ g H2 H4) as [H6 _]. lia.
    + eapply own_wrapped; eauto.
    + eapply own_wrapped; eauto.
    + change (grid (ext_env e)) with (map ext (grid e)). rewrite (ext_distance _ p (grid e) F).
      rewrite (region_distance (range_of e pi pj) p Hr0); auto.
      eapply Forall_impl; [|exact Hsim]. intros a (Ha1 & Ha2 & Ha3). split; lra.
  - intros Hdiff. eapply traversal_nodup_all; eauto. exact (different_distinct (ext_env e) ps Hdiff).
  - intros i j w Hin. split; [eapply traversal_no_self_all; eauto|]. exact (visited_live (ext_env e) ps _ i j w Hgood Ht Hin).
Qed.
Print Assumptions C101_own_pairs_partial.

(* ------------------------------------------------------------------ C102 *)
Lemma visit_ghosts_spec p e ps gh : search_on p e -> region_large_enough (min_small_cutoff e) p -> cells_wide p e ->
  forall n, (forall g, In g gh -> ghost_position p (px g) /\ (0 <= ptype g)%Z) ->
  exists vs, visit_ghosts e ps n gh = Some vs /\ NoDup vs /\
    (forall i j w, In (i, j, w) vs -> (n <= i < n + length gh)%nat /\ w = 2%Z /\
       exists q, nth_error ps j = Some q /\ (0 <= ptype q)%Z /\ interacts e (ptype q) = true) /\
    (forall i g, nth_error gh i = Some g -> exists us, visit_ghost e ps (n + i) g = Some us /\ incl us vs).
Proof.
  intros Hon Hl Hw. induction gh as [|g gh IH]; intros n Hgh.
  - exists []. split; [reflexivity|]. split; [constructor|]. split; [intros i j w []|]. intros [|i] g H; discriminate.
  - destruct (Hgh g (or_introl eq_refl)) as [Hp Ht].
    destruct (visit_ghost_some p e ps Hon Hl Hw n g Hp Ht) as [E1 _].
    set (us := flat_map _ _) in E1. destruct (ghost_visits p e ps Hon Hl Hw n g us Hp Ht E1) as [U1 U2].
    destruct (IH (S n) ltac:(intros g' Hg'; apply Hgh; now right)) as (vs & E2 & V1 & V2 & V3).
    exists (us ++ vs). cbn [visit_ghosts]. rewrite E1, E2. split; [reflexivity|]. split; [|split].
    + apply NoDup_app; auto. intros [[i j] w] H1 H2. destruct (U2 i j w H1) as [Hi _]. destruct (V2 i j w H2) as [Hi2 _]. lia.
    + intros i j w H. apply in_app_iff in H as [H|H].
      * destruct (U2 i j w H) as (Hi & Hj & Hq). cbn [length]. split; [lia|]. auto.
      * destruct (V2 i j w H) as (Hi & Hj & Hq). cbn [length]. split; [lia|]. auto.
    + intros [|i] g' H.
      * injection H as <-. rewrite Nat.add_0_r. exists us. split; [exact E1|]. apply incl_appl, incl_refl.
      * destruct (V3 i g' H) as (us' & Eu & Iu). exists us'. replace (n + S i)%nat with (S n + i)%nat by lia.
        split; [exact Eu|]. now apply incl_appr.
Qed.

Theorem C102_ghost_pairs_partial (p : list paxis) (e : env) (ps gh : list particle) :
  search_on p e -> region_large_enough (min_small_cutoff e) p ->
  stencil_full (min_small_cutoff e) p -> cells_wide p e ->
  (forall q, In q ps -> owned p (px q)) -> (forall g, In g gh -> ghost_position p (px g) /\ (0 <= ptype g)%Z) ->
  exists vs, traverseGhostPairs e ps gh = Some vs /\ NoDup vs /\
    (forall i j w, In (i, j, w) vs -> (i < length gh)%nat /\ w = 2%Z /\
       exists q, nth_error ps j = Some q /\ (0 <= ptype q)%Z /\ interacts e (ptype q) = true) /\
    (forall i j g q, nth_error gh i = Some g -> nth_error ps j = Some q -> (0 <= ptype q)%Z -> interacts e (ptype q) = true ->
       0 <= range_of e g q <= min_small_cutoff e ->
       getDistanceSqr (region_box p) (px g) (px q) < Qsqr (range_of e g q) -> In (i, j, 2%Z) vs).
Proof.
  intros Hon Hl Hst Hw Hps Hgh. destruct (visit_ghosts_spec p e ps gh Hon Hl Hw 0 Hgh) as (vs & E & H1 & H2 & H3).
  exists vs. split; [exact E|]. split; [exact H1|]. split; [intros i j w H; destruct (H2 i j w H) as [Hi Hr]; split; [lia|exact Hr]|].
  intros i j g q Hi Hj Htq Hint Hr Hd. destruct (H3 i g Hi) as (us & Eu & Iu). apply Iu.
  destruct (Hgh g (nth_error_In _ _ Hi)) as [Hp Ht].
  apply (ghost_complete p e ps Hon Hl Hw (0 + i) g us j q); auto. eapply Hps, nth_error_In; eauto.
Qed.
Print Assumptions C102_ghost_pairs_partial.

(* The list into which a ghost pair is put: it is the right one if all particles are of one type and no ghost has a larger
   id than the own particles. *)
Theorem C102_types_partial (p : list paxis) (e : env) (ps gh : list particle) (t : Z) (vs : list visit) :
  search_on p e -> region_large_enough (min_small_cutoff e) p -> cells_wide p e ->
  (forall g, In g gh -> ghost_position p (px g) /\ (0 <= ptype g)%Z) ->
  (forall q, In q (ps ++ gh) -> ptype q = t) -> (length gh <= length ps)%nat ->
  traverseGhostPairs e ps gh = Some vs ->
  forall i j w, In (i, j, w) vs -> exists g q, nth_error gh i = Some g /\ nth_error ps j = Some q /\
    pair_types ps (i, j, w) = Some (ptype g, ptype q).
Proof.
  intros Hon Hl Hw Hgh Ht Hlen E i j w H. destruct (visit_ghosts_spec p e ps gh Hon Hl Hw 0 Hgh) as (vs' & E' & _ & H2 & _).
  unfold traverseGhostPairs in E. rewrite E in E'. injection E' as <-.
  destruct (H2 i j w H) as (Hi & _ & q & Hq & _).
  destruct (nth_error gh i) as [g|] eqn:Eg; [|apply nth_error_None in Eg; lia].
  destruct (nth_error ps i) as [q1|] eqn:E1; [|apply nth_error_None in E1; lia].
  exists g, q. split; [reflexivity|]. split; [exact Hq|]. unfold pair_types. rewrite E1, Hq.
  assert (I1 : In q1 (ps ++ gh)) by (apply in_or_app; left; eapply nth_error_In; eauto).
  assert (I2 : In g (ps ++ gh)) by (apply in_or_app; right; eapply nth_error_In; eauto).
  rewrite (Ht q1 I1), (Ht g I2). reflexivity.
Qed.
Print Assumptions C102_types_partial.

(* ------------------------------------------------------------------ C103 *)
Lemma inside_closed_bounds p : forall y, Spec_Cells.inside (region_box p) y -> inside_closed (region_bounds p) y.
Proof.
  induction p as [|a p IH]; intros y H; inversion H as [|? y0 ? y' H0 H']; subst; constructor; [|exact (IH y' H')].
  cbn [lo hi fst snd] in *. lra.
Qed.
Lemma inside_in_closed b : forall x, Spec_Cells.inside b x -> in_closed b x.
Proof. induction b as [|a b IH]; intros x H; inversion H as [|? x0 ? x' H0 H']; subst; constructor; [lra|exact (IH x' H')]. Qed.
Lemma region_sim p : region_in_simulation p -> forall y, Spec_Cells.inside (region_box p) y -> in_closed (sim_box p) y.
Proof.
  induction p as [|a p IH]; intros Ho y H; inversion H as [|? y0 ? y' H0 H']; inversion Ho as [|? ? Ho0 Ho']; subst; constructor; [|exact (IH Ho' y' H')].
  cbn [lo hi] in *. lra.
Qed.

Theorem C103_across_processors_partial (p : list paxis) (e : env) (ps gh : list particle) (far : particle) (j : nat) (q : particle) (cut : Q) :
  search_on p e -> region_in_simulation p -> region_large_enough (min_small_cutoff e) p ->
  stencil_full (min_small_cutoff e) p -> cells_wide p e ->
  (forall q, In q ps -> owned p (px q)) -> (forall g, In g gh -> ghost_position p (px g) /\ (0 <= ptype g)%Z) ->
  Spec_Cells.inside (sim_box p) (px far) -> ~ Spec_Cells.inside (region_box p) (px far) ->
  nth_error ps j = Some q -> Spec_Cells.inside (region_box p) (px q) -> (0 <= ptype q)%Z -> interacts e (ptype q) = true ->
  0 < range_of e far q <= min_small_cutoff e -> range_of e far q <= cut ->
  Forall (fun a => pbc a = WRAP -> ~ whole a -> pmax a - pmin a + 2 * range_of e far q <= smax a - smin a) p ->
  getDistanceSqr (sim_box p) (px far) (px q) < Qsqr (range_of e far q) ->
  Spec_Topology.within (sim_box p) (region_bounds p) (px far) cut /\
  (forall z, map Some z = relative_position (sim_box p) (map Some (px far)) (center (region_bounds p)) -> ghost_position p z) /\
  exists vs, traverseGhostPairs e ps gh = Some vs /\
    forall i g, nth_error gh i = Some g -> prd g = prd far -> ptype g = ptype far ->
      map Some (px g) = relative_position (sim_box p) (map Some (px far)) (center (region_bounds p)) -> In (i, j, 2%Z) vs.
Proof.
  intros Hon Hsim Hl Hst Hw Hps Hgh Hx Hnx Hj Hy Htq Hint Hr Hcut Hsp Hd. split; [|split].
  - split; [lra|]. destruct (getDistanceSqr_attained (sim_box p) (px far) (px q)) as (ks & Hk & Ek).
    { now apply inside_in_closed. } { now apply region_sim. }
    exists ks, (px q). split; [exact Hk|]. split; [now apply inside_closed_bounds|]. rewrite <- Ek.
    eapply Qlt_le_trans; [exact Hd|]. unfold Qsqr. clear - Hr Hcut. set (r := range_of e far q) in *. clearbody r. nra.
  - intros z Hz. eapply ghost_of_outside; eauto.
  - destruct (C102_ghost_pairs_partial p e ps gh Hon Hl Hst Hw Hps Hgh) as (vs & E & _ & _ & H). exists vs. split; [exact E|].
    intros i g Hi Hrd Hty Hz. assert (Er : range_of e g q = range_of e far q) by (unfold range_of; now rewrite Hrd, Hty).
    apply (H i j g q); auto; rewrite Er; [lra|].
    rewrite (ghost_distance (range_of e far q) p ltac:(lra) Hsim Hsp (px far) (px q) (px g)); auto.
    clear - Hy. revert Hy. generalize (px q) as y. induction p as [|a p IH]; intros y H; inversion H as [|? y0 ? y' H0 H']; subst; constructor; [|exact (IH y' H')].
    cbn [lo hi] in H0. lra.
Qed.
Print Assumptions C103_across_processors_partial.

(* ------------------------------------------------------------------ a concrete region: half of a periodic box *)
Definition mk_on (mss sk : Q) (p : list paxis) : env :=
  mkEnv (fun _ _ => 1) (fun _ => 1) (fun _ => true) sk mss (grid_for (2 * mss + sk) p) (map (fun a => smax a - smin a) p).
Definition ex_region : list paxis := [mkP 0 16 0 40 WRAP; mkP 0 31 0 31 OPEN].
Definition ex_on : env := mk_on (7#5) (1#5) ex_region.
Definition ex_own : list particle := [P [1; 5] (7#5); P [2; 6] (7#5); P [31#2; 5] (6#5); P [8; -2] (1#2)].
Definition ex_ghosts : list particle := [P [-1; 5] (7#5); P [33#2; 6] 1; P [-1; 29] 1].

Example C101_C102_hypotheses_met :
  search_on ex_region ex_on /\ region_in_simulation ex_region /\ region_large_enough (min_small_cutoff ex_on) ex_region /\
  stencil_range (min_small_cutoff ex_on) (region_box ex_region) /\ stencil_full (min_small_cutoff ex_on) ex_region /\
  cells_wide ex_region ex_on /\
  (forall q, In q ex_own -> 0 <= prd q /\ owned ex_region (px q)) /\ large_fit_on ex_region ex_on ex_own /\ large_different ex_on ex_own /\
  split_wide 3 ex_region /\
  (forall g, In g ex_ghosts -> ghost_position ex_region (px g) /\ (0 <= ptype g)%Z) /\
  traversePairs ex_on ex_own = Some [(0, 1, 0%Z)]%nat /\
  traverseGhostPairs ex_on ex_own ex_ghosts = Some [(0, 0, 2%Z); (1, 2, 2%Z)]%nat.
Proof.
  split; [split; [vm_compute; reflexivity|split; [reflexivity|vm_compute; reflexivity]]|].
  split; [repeat constructor; qc|].
  split. { repeat constructor; try (vm_compute; discriminate); intros; try discriminate; vm_compute; discriminate. }
  split. { left. split; [repeat constructor; vm_compute; discriminate|]. right. vm_compute. reflexivity. }
  split. { left. split; [repeat constructor; vm_compute; discriminate|]. right. vm_compute. reflexivity. }
  split. { unfold cells_wide. let g := eval vm_compute in (grid ex_on) in change (grid ex_on) with g.
    repeat (apply Forall2_cons || apply Forall2_nil); (split; [vm_compute; discriminate|intros; vm_compute; discriminate]). }
  split. { intros q Hq. repeat (destruct Hq as [<-|Hq]; [split; [vm_compute; discriminate|]; repeat constructor; cbn [pmin pmax smin smax pbc px P];
      intros; try discriminate; try (vm_compute; (reflexivity || discriminate))|]); [..|destruct Hq].
    all: try (match goal with H : below _ |- _ => unfold below, whole in H | H : above _ |- _ => unfold above, whole in H end;
      cbn in H; exfalso; destruct H as [[H _]|[_ H]]; [discriminate|apply H; reflexivity]). }
  split. { intros q Hq Hlt. exfalso. repeat (destruct Hq as [<-|Hq]; [revert Hlt; vm_compute; discriminate|]). destruct Hq. }
  split. { intros i j pi pj Hij Hi Hj Hli. exfalso. apply nth_error_In in Hi.
    repeat (destruct Hi as [<-|Hi]; [revert Hli; vm_compute; discriminate|]). destruct Hi. }
  split. { repeat constructor; intros; try discriminate; vm_compute; discriminate. }
  split. { intros g Hg. assert (W : ~ whole (mkP 0 16 0 40 WRAP)) by (vm_compute; discriminate).
    repeat (destruct Hg as [<-|Hg]; [split; [|vm_compute; discriminate]; split;
      [repeat constructor; intros; try discriminate; exfalso; apply W; assumption|
       exists 0%nat; eexists; eexists; split; [reflexivity|]; split; [reflexivity|]; unfold below, above;
       first [left; split; [left; split; [reflexivity|exact W]|vm_compute; reflexivity]|
              right; split; [left; split; [reflexivity|exact W]|vm_compute; discriminate]]]|]). destruct Hg. }
  split; vm_compute; reflexivity.
Qed.

(* a particle of the other processor at the periodic border: its image here is [-1;5], the first ghost *)
Example C103_case : let far := P [39; 5] (7#5) in
  Spec_Cells.inside (sim_box ex_region) (px far) /\ ~ Spec_Cells.inside (region_box ex_region) (px far) /\
  Spec_Cells.inside (region_box ex_region) [1; 5] /\
  0 < range_of ex_on far (P [1; 5] (7#5)) <= min_small_cutoff ex_on /\
  getDistanceSqr (sim_box ex_region) (px far) [1; 5] < Qsqr (range_of ex_on far (P [1; 5] (7#5))) /\
  Forall (fun a => pbc a = WRAP -> ~ whole a -> pmax a - pmin a + 2 * range_of ex_on far (P [1; 5] (7#5)) <= smax a - smin a) ex_region /\
  map (option_map Qred) (relative_position (sim_box ex_region) (map Some (px far)) (center (region_bounds ex_region))) = map Some [-1; 5].
Proof.
  split; [repeat constructor; qc|]. split. { intros H. inversion H as [|? ? ? ? [_ H0] _]; subst. revert H0. vm_compute. discriminate. }
  split; [repeat constructor; qc|]. split; [split; [vm_compute; reflexivity|vm_compute; discriminate]|]. split; [vm_compute; reflexivity|].
  split; [repeat constructor; intros; try discriminate; vm_compute; discriminate|]. vm_compute. reflexivity.
Qed.

(* ------------------------------------------------------------------ where C102 / C103 fail *)
(* Region width a multiple of the cutoff: a ghost up to 1/1000 inside the border is put into the halo cell, one cell further
   away than it is, and the pair is missed. *)
Theorem C102_exact_cells_refuted : exists (p : list paxis) (e : env) (own g : particle),
  search_on p e /\ region_large_enough (min_small_cutoff e) p /\ stencil_full (min_small_cutoff e) p /\
  owned p (px own) /\ ghost_position p (px g) /\ range_of e g own <= min_small_cutoff e /\
  getDistanceSqr (region_box p) (px g) (px own) < Qsqr (range_of e g own) /\
  traverseGhostPairs e [own] [g] = Some [].
Proof.
  pose (p := [mkP 0 16 0 32 OPEN; mkP 0 16 0 32 OPEN]).
  exists p, (mk_on (19#10) (1#5) p), (P [119997#10000; 15999#1000] (19#10)), (P [159995#10000; 16] (19#10)).
  split; [split; [vm_compute; reflexivity|split; [reflexivity|vm_compute; reflexivity]]|].
  split. { repeat constructor; try (vm_compute; discriminate); intros; discriminate. }
  split. { left. split; [repeat constructor; vm_compute; discriminate|]. right. vm_compute. reflexivity. }
  split. { repeat constructor; intros; try discriminate; vm_compute; (reflexivity || discriminate). }
  split. { split; [repeat constructor; intros; discriminate|]. exists 1%nat. eexists. eexists. split; [reflexivity|]. split; [reflexivity|].
    right. split; [right; split; [discriminate|vm_compute; discriminate]|vm_compute; discriminate]. }
  split; [vm_compute; discriminate|]. split; vm_compute; reflexivity.
Qed.
Print Assumptions C102_exact_cells_refuted.

(* Cell size 1 in two dimensions: the stencil filter drops the neighbours of the halo cell that hold the own particle. *)
Theorem C102_stencil_filter_refuted : exists (p : list paxis) (e : env) (own g : particle),
  search_on p e /\ region_large_enough (min_small_cutoff e) p /\ cells_wide p e /\
  owned p (px own) /\ ghost_position p (px g) /\ range_of e g own <= min_small_cutoff e /\
  getDistanceSqr (region_box p) (px g) (px own) < Qsqr (range_of e g own) /\
  traverseGhostPairs e [own] [g] = Some [].
Proof.
  pose (p := [mkP 4 (42#5) 0 (42#5) OPEN; mkP 4 (42#5) 0 (42#5) OPEN]).
  exists p, (mk_on (2#5) (1#5) p), (P [41#10; 6] (2#5)), (P [39#10; 6] (2#5)).
  split; [split; [vm_compute; reflexivity|split; [reflexivity|vm_compute; reflexivity]]|].
  split. { repeat constructor; try (vm_compute; discriminate); intros; discriminate. }
  split. { unfold cells_wide. let g := eval vm_compute in (grid (mk_on (2#5) (1#5) p)) in change (grid (mk_on (2#5) (1#5) p)) with g.
    repeat (apply Forall2_cons || apply Forall2_nil); (split; [vm_compute; discriminate|intros; vm_compute; discriminate]). }
  split. { repeat constructor; intros; try discriminate; vm_compute; (reflexivity || discriminate). }
  split. { split; [repeat constructor; intros; discriminate|]. exists 0%nat. eexists. eexists. split; [reflexivity|]. split; [reflexivity|].
    left. split; [right; split; [discriminate|vm_compute; discriminate]|vm_compute; reflexivity]. }
  split; [vm_compute; discriminate|]. split; vm_compute; reflexivity.
Qed.
Print Assumptions C102_stencil_filter_refuted.

(* Ghosts and own particles of different types: the interaction is chosen with the type of the own particle that has the
   same id as the ghost; a ghost with a larger id than all own particles is looked up outside the data. *)
Theorem C102_types_refuted : exists (p : list paxis) (e : env) (own g h : particle),
  search_on p e /\ region_large_enough (min_small_cutoff e) p /\ stencil_full (min_small_cutoff e) p /\ cells_wide p e /\
  owned p (px own) /\ ghost_position p (px g) /\ ghost_position p (px h) /\ ptype own = 0%Z /\ ptype g = 1%Z /\
  traverseGhostPairs e [own] [g; h] = Some [(0, 0, 2%Z); (1, 0, 2%Z)]%nat /\
  pair_types [own] (0%nat, 0%nat, 2%Z) = Some (0%Z, 0%Z) /\ pair_types [own] (1%nat, 0%nat, 2%Z) = None.
Proof.
  exists ex_region, ex_on, (P [1; 5] (7#5)), (mkPart [-1; 5] (7#5) 1), (P [-1; 6] (7#5)).
  destruct C101_C102_hypotheses_met as (H1 & H2 & H3 & _ & H4 & H5 & H6 & _ & _ & _ & H7 & _).
  assert (Hy : forall y, ghost_position ex_region [-1; y]).
  { intros y. destruct (H7 (P [-1; 5] (7#5)) (or_introl eq_refl)) as [[A1 A2] _]. split.
    - inversion A1; subst. constructor; [assumption|]. constructor; [intros; discriminate|constructor].
    - exists 0%nat. eexists. eexists. split; [reflexivity|]. split; [reflexivity|]. left. split; [|vm_compute; reflexivity].
      left. split; [reflexivity|vm_compute; discriminate]. }
  split; [exact H1|]. split; [exact H3|]. split; [exact H4|]. split; [exact H5|].
  split; [exact (proj2 (H6 (P [1; 5] (7#5)) (or_introl eq_refl)))|]. split; [apply Hy|]. split; [apply Hy|].
  split; [reflexivity|]. split; [reflexivity|]. split; [vm_compute; reflexivity|]. split; reflexivity.
Qed.
Print Assumptions C102_types_refuted.

(* The cutoff for ghosts is that of the particle sent: twice its radius times the largest cutoff factor of its type, plus
   skin. A small particle in reach of a large one of another processor has no ghost there, although the large one has one
   here: one of the two feels the other. *)
Theorem C103_small_next_to_large_refuted : exists bx gs gs' small large kb0 kb1 g0 g1 h0 h1,
  let t := topology_tree 2 (bounds_of bx) in let cut := fun p => 2 * (match p_sg p with Some r => r | None => 0 end) * 1 + (1#10) in
  rounds_all [create_round bx t 10 cut (fun _ _ => [])] gs = Some gs' /\
  process_bounds 0 t = Some kb0 /\ process_bounds 1 t = Some kb1 /\
  nth_error gs 0 = Some g0 /\ stored (g_own g0) = [small] /\ p_x small = map Some [3#2; 1] /\ p_sg small = Some (1#10) /\
  Spec_Topology.inside kb0 [3#2; 1] /\
  nth_error gs 1 = Some g1 /\ stored (g_own g1) = [large] /\ p_x large = map Some [41#20; 1] /\ p_sg large = Some (3#5) /\
  Spec_Topology.inside kb1 [41#20; 1] /\
  getDistanceSqr bx [3#2; 1] [41#20; 1] < Qsqr ((1#10) + (3#5)) /\
  nth_error gs' 0 = Some h0 /\ length (stored (g_gho h0)) = 1%nat /\
  nth_error gs' 1 = Some h1 /\ stored (g_gho h1) = [].
Proof.
  pose (st := fun o => match run [o] (empty_store 2 0 0 0) with Some s => s | None => empty_store 2 0 0 0 end).
  pose (num := fun q : Q => Some q : num).
  exists [mkAxis 0 4 OPEN; mkAxis 0 2 OPEN].
  exists [mkG (st (OpAdd (map Some [3#2; 1]) [num 0; num 0] (num (1#10)) (num 1) 0)) (empty_store 2 0 0 0) [] [] 0;
          mkG (st (OpAdd (map Some [41#20; 1]) [num 0; num 0] (num (3#5)) (num 1) 0)) (empty_store 2 0 0 0) [] [] 0].
  eexists. eexists. eexists. eexists. eexists. eexists. eexists. eexists. eexists.
  split; [vm_compute; reflexivity|]. split; [vm_compute; reflexivity|]. split; [vm_compute; reflexivity|].
  split; [reflexivity|]. split; [vm_compute; reflexivity|]. split; [reflexivity|]. split; [reflexivity|].
  split; [repeat constructor; vm_compute; (reflexivity || discriminate)|].
  split; [reflexivity|]. split; [vm_compute; reflexivity|]. split; [reflexivity|]. split; [reflexivity|].
  split; [repeat constructor; vm_compute; (reflexivity || discriminate)|].
  split; [vm_compute; reflexivity|]. split; [reflexivity|]. split; [reflexivity|]. split; reflexivity.
Qed.
Print Assumptions C103_small_next_to_large_refuted.
