(* The pair traversal with large particles. *)
From Verif Require Import Lib Model_Geometry Model_Cells Proofs_Geometry Proofs_Cells1 Proofs_Cells2 Proofs_Cells3
  Proofs_Cells4 Proofs_Cells5 Spec_Cells.
From Coq Require Import ZifyBool ZifyNat.
Local Open Scope Q_scope.

Definition reach (e : env) (p : particle) : Q := 2 * sigma e p + skin e.

(* large particles lie in the box and their search window does not outgrow a non-periodic axis *)
Definition large_ok (e : env) (ps : list particle) : Prop :=
  forall p, In p ps -> is_large e p = true ->
    inside_g (grid e) (px p) /\ Forall (wide_enough (reach e p)) (grid e) /\ 0 < reach e p.

Lemma good_reg c gs : good_grid c gs -> Forall reg_axis gs.
Proof. intros H. eapply Forall_impl; [|exact H]. intros g (Hp & Hw & Hm & _). unfold reg_axis. auto. Qed.

Lemma large_visited e ps vs i j pi pj : goodenv e -> traversePairs e ps = Some vs -> large_ok e ps -> i <> j ->
  nth_error ps i = Some pi -> nth_error ps j = Some pj ->
  (0 <= ptype pi)%Z -> (0 <= ptype pj)%Z ->
  interacts e (ptype pi) = true -> interacts e (ptype pj) = true ->
  is_large e pi = true -> prd pj <= sigma e pi -> prd pi <= sigma e pi -> 0 <= prd pi -> 0 <= prd pj ->
  wrapped_g (grid e) (px pj) -> 0 <= skin e ->
  0 <= cutoff_grid e (ptype pi) (ptype pj) <= 1 ->
  getDistanceSqr (box_of (grid e)) (px pi) (px pj) <
    Qsqr ((prd pi + prd pj) * cutoff_grid e (ptype pi) (ptype pj) + skin e) ->
  exists w, In (i, j, w) vs.
Proof.
  intros He Hvs Hlo Hij Hi Hj Hti Htj Hii Hij' Hlarge Hrj Hri Hri0 Hrj0 Hwj Hskin Hcut Hd.
  destruct (Hlo pi (nth_error_In _ _ Hi) Hlarge) as (Hin & Hwide & Hreach).
  assert (Li : length (px pi) = length (grid e)) by (symmetry; eapply Forall2_len; exact Hin).
  assert (Lj : length (px pj) = length (grid e)) by (symmetry; eapply Forall2_len; exact Hwj).
  pose proof He as (Hg & _ & _ & Hsw). pose proof (good_reg _ _ Hg) as Hreg.
  destruct (cell_of_particle e ps i pi He Hi Hti Hii Li) as (Hli & Hbi & _).
  destruct (cell_of_particle e ps j pj He Hj Htj Hij' Lj) as (_ & Hbj & _).
  destruct (in_tails_of (cell_ids e ps (get_cell_index (grid e) (px pi))) i) as (r & Hr); [now apply in_cell_ids|].
  set (cut := cutoff_grid e (ptype pi) (ptype pj)) in *.
  set (R1 := (prd pi + prd pj) * cut + skin e) in *.
  set (R2 := (sigma e pi + prd pj) * cut + skin e).
  assert (H12 : 0 <= R1 <= R2) by (unfold R1, R2; split; nra).
  assert (H2r : R2 <= reach e pi) by (unfold R2, reach; nra).
  assert (Hv : exists w, visit_large e ps pi i j = [(i, j, w)]).
  { unfold visit_large. rewrite Hj. destruct (Nat.eqb_spec i j) as [|_]; [contradiction|].
    destruct (Qltb_spec (sigma e pi) (prd pj)) as [|_]; [lra|]. cbn [orb]. fold cut. fold R2.
    destruct (dist2_or_large (grid e) _ Hg (px pi) (px pj) Li Lj) as [E|(g & Hg' & Hb' & Hl)].
    - destruct (Qltb_spec (dist2 (px pi) (px pj)) (Qsqr R2)) as [|Hn]; [eauto|].
      exfalso. apply Hn. rewrite E. eapply Qlt_le_trans; [exact Hd|]. unfold Qsqr. nra.
    - destruct (Qltb_spec (dist2 (px pi) (px pj)) (Qsqr R2)); [eauto|].
      assert (max_reasonable e <= Qsqr ((1 # 2) * (gmax g - gmin g))).
      { now apply max_reasonable_axis. }
      destruct (Qltb_spec (max_reasonable e) (dist2 (px pi) (px pj))); [eauto|lra]. }
  destruct Hv as (w & Hw). exists w. apply (in_visits e ps vs); auto.
  exists (get_cell_index (grid e) (px pi)), i, r. split; [exact Hli|]. split; [exact Hr|].
  unfold visit_particle. rewrite Hi, Hlarge. destruct (Z.ltb_spec (ptype pi) 0); [lia|]. cbn [negb].
  apply in_flat_map. fold (reach e pi).
  destruct (query_vec (reach e pi) (large_search1 (reach e pi)) (grid e) Hreach (window_large _) Hreg Hwide
              (px pi) (px pj) Hin Hwj) as (t & Ht & Hc).
  { eapply Qlt_le_trans; [exact Hd|]. unfold Qsqr. nra. }
  exists (get_cell_index (grid e) (px pj)). split.
  - apply in_hypercube; [apply (sd_pos (grid e)); eapply search_sd_ok; eauto; apply window_large|].
    exists t, (cell_tuple (grid e) (px pj)). auto.
  - apply in_flat_map. exists j. split; [now apply in_cell_ids|]. rewrite Hw. now left.
Qed.

Lemma traversal_complete_all e ps vs i j pi pj : goodenv e -> traversePairs e ps = Some vs ->
  (forall g, In g (grid e) -> gbc g = WRAP -> (2 <= gdim g)%Z) -> large_ok e ps ->
  i <> j -> nth_error ps i = Some pi -> nth_error ps j = Some pj ->
  (0 <= ptype pi)%Z -> (0 <= ptype pj)%Z ->
  interacts e (ptype pi) = true -> interacts e (ptype pj) = true ->
  wrapped_g (grid e) (px pi) -> wrapped_g (grid e) (px pj) ->
  0 <= prd pi -> 0 <= prd pj -> 0 <= skin e ->
  cutoff_grid e (ptype pi) (ptype pj) = cutoff_grid e (ptype pj) (ptype pi) ->
  0 <= cutoff_grid e (ptype pi) (ptype pj) <= 1 ->
  1 <= max_cutoff e (ptype pi) -> 1 <= max_cutoff e (ptype pj) ->
  getDistanceSqr (box_of (grid e)) (px pi) (px pj) <
    Qsqr ((prd pi + prd pj) * cutoff_grid e (ptype pi) (ptype pj) + skin e) ->
  visited vs i j.
Proof.
  intros He Hvs Hdim Hlo Hij Hi Hj Hti Htj Hii Hij' Hwi Hwj Hri Hrj Hskin Hsym Hcut Hci Hcj Hd.
  assert (Hsi : prd pi <= sigma e pi) by (unfold sigma; nra).
  assert (Hsj : prd pj <= sigma e pj) by (unfold sigma; nra).
  assert (Hg := proj1 He).
  assert (Hdsym : getDistanceSqr (box_of (grid e)) (px pj) (px pi) == getDistanceSqr (box_of (grid e)) (px pi) (px pj)).
  { apply getDistanceSqr_sym. unfold box_of. apply Forall_map.
    eapply Forall_impl; [|exact Hg]. intros g (Hp & Hw & Hmax & _). cbn [axis_of lo hi].
    assert (0 <= inject_Z (gdim g)) by (change 0 with (inject_Z 0); apply Zle_Q; destruct Hp as (_ & _ & ?); lia).
    nra. }
  assert (Hd' : getDistanceSqr (box_of (grid e)) (px pj) (px pi) <
    Qsqr ((prd pj + prd pi) * cutoff_grid e (ptype pj) (ptype pi) + skin e)).
  { rewrite Hdsym, <- Hsym. unfold Qsqr in *. setoid_replace (prd pj + prd pi) with (prd pi + prd pj) by ring. exact Hd. }
  assert (Hcut' : 0 <= cutoff_grid e (ptype pj) (ptype pi) <= 1) by now rewrite <- Hsym.
  assert (Hi2j : is_large e pi = true -> prd pj <= sigma e pi -> visited vs i j).
  { intros H1 H2. destruct (large_visited e ps vs i j pi pj) as (w & Hw); auto. exists w. now left. }
  assert (Hj2i : is_large e pj = true -> prd pi <= sigma e pj -> visited vs i j).
  { intros H1 H2. destruct (large_visited e ps vs j i pj pi) as (w & Hw); auto. exists w. now right. }
  destruct (is_large e pi) eqn:Li; destruct (is_large e pj) eqn:Lj.
  - destruct (Qlt_le_dec (prd pi) (prd pj)); [apply Hj2i|apply Hi2j]; auto; lra.
  - apply Hi2j; auto. unfold is_large in Li, Lj.
    destruct (Qltb_spec (max_small_sigma e) (sigma e pi)); [|discriminate].
    destruct (Qltb_spec (max_small_sigma e) (sigma e pj)); [discriminate|]. lra.
  - apply Hj2i; auto. unfold is_large in Li, Lj.
    destruct (Qltb_spec (max_small_sigma e) (sigma e pi)); [discriminate|].
    destruct (Qltb_spec (max_small_sigma e) (sigma e pj)); [|discriminate]. lra.
  - eapply traversal_complete; eauto; lra.
Qed.

(* ---------------------------------------------------------------- no duplicates *)
Definition large_distinct (e : env) (ps : list particle) : Prop :=
  forall i j pi pj, i <> j -> nth_error ps i = Some pi -> nth_error ps j = Some pj ->
    is_large e pi = true -> is_large e pj = true -> sigma e pi < prd pj \/ sigma e pj < prd pi.

Lemma visit_origin_all e ps l i r v : In (i, r) (tails (cell_ids e ps l)) -> In v (visit_particle e ps (cell_adj e l) i r) ->
  exists j w pi pj, v = (i, j, w) /\ nth_error ps i = Some pi /\ nth_error ps j = Some pj /\ binned_in e ps l i = true /\
    ((is_large e pi = false /\ is_large e pj = false /\ In j r /\ (i < j)%nat /\ binned_in e ps l j = true) \/
     (is_large e pi = false /\ is_large e pj = false /\ exists l', In l' (cell_adj e l) /\ binned_in e ps l' j = true) \/
     (is_large e pi = true /\ i <> j /\ prd pj <= sigma e pi)).
Proof.
  intros Hir Hv.
  assert (Hi : In i (cell_ids e ps l)).
  { apply in_tails in Hir. destruct Hir as (l1 & ->). apply in_app_iff; right; now left. }
  unfold visit_particle in Hv. destruct (nth_error ps i) as [p1|] eqn:E1; [|destruct Hv].
  destruct (ptype p1 <? 0)%Z; [destruct Hv|].
  destruct (is_large e p1) eqn:Hsm; cbn [negb] in Hv.
  - apply in_flat_map in Hv. destruct Hv as (l' & Hl' & Hv). apply in_flat_map in Hv.
    destruct Hv as (j & Hj & Hv). unfold visit_large in Hv. destruct (nth_error ps j) as [p2|] eqn:E2; [|destruct Hv].
    destruct (Nat.eqb_spec i j) as [|Hne]; [destruct Hv|]. cbn [orb] in Hv.
    destruct (Qltb_spec (sigma e p1) (prd p2)) as [|Hle]; [destruct Hv|].
    assert (exists w, v = (i, j, w)) as (w & ->).
    { match type of Hv with context [if ?b then _ else _] => destruct b end;
        [destruct Hv as [<-|[]]; eauto|].
      match type of Hv with context [if ?b then _ else _] => destruct b end; [destruct Hv as [<-|[]]; eauto|destruct Hv]. }
    exists j, w, p1, p2. split; [reflexivity|]. split; [reflexivity|]. split; [exact E2|].
    split; [now apply in_cell_ids|]. right. right. split; [exact Hsm|]. split; [exact Hne|lra].
  - apply in_app_iff in Hv. destruct Hv as [Hv|Hv].
    + apply in_flat_map in Hv. destruct Hv as (j & Hj & Hv).
      unfold visit_same in Hv. destruct (nth_error ps j) as [p2|] eqn:E2; [|destruct Hv].
      destruct (ptype p1 <? 0)%Z; [destruct Hv|]. destruct (is_large e p2) eqn:L2; [destruct Hv|]. cbn [orb] in Hv.
      match type of Hv with context [if ?b then _ else _] => destruct b end; [|destruct Hv].
      destruct Hv as [<-|[]]. exists j, 0%Z, p1, p2. split; [reflexivity|]. split; [reflexivity|]. split; [exact E2|].
      split; [now apply in_cell_ids|].
      left. split; [exact Hsm|]. split; [exact L2|]. split; [exact Hj|].
      split; [eapply filter_tail_lt; [exact Hir|exact Hj]|].
      apply in_cell_ids. apply in_tails in Hir. destruct Hir as (l1 & ->). apply in_app_iff; right; now right.
    + apply in_flat_map in Hv. destruct Hv as (l' & Hl' & Hv). apply in_flat_map in Hv.
      destruct Hv as (j & Hj & Hv). apply in_cell_ids in Hj.
      unfold visit_adj in Hv. destruct (nth_error ps j) as [p2|] eqn:E2; [|destruct Hv].
      destruct (ptype p2 <? 0)%Z; [destruct Hv|]. destruct (is_large e p2) eqn:L2; [destruct Hv|]. cbn [orb] in Hv.
      assert (exists w, v = (i, j, w)) as (w & ->).
      { match type of Hv with context [if ?b then _ else _] => destruct b end;
          [destruct Hv as [<-|[]]; eauto|].
        match type of Hv with context [if ?b then _ else _] => destruct b end; [destruct Hv as [<-|[]]; eauto|destruct Hv]. }
      exists j, w, p1, p2. split; [reflexivity|]. split; [reflexivity|]. split; [exact E2|].
      split; [now apply in_cell_ids|]. right. left. split; [exact Hsm|]. split; [exact L2|]. eauto.
Qed.

Lemma visit_oriented_all e ps l i r v l' i' r' v' : goodenv e -> large_distinct e ps ->
  (0 <= l < prodZ (dims_of (grid e)))%Z -> (0 <= l' < prodZ (dims_of (grid e)))%Z ->
  In (i, r) (tails (cell_ids e ps l)) -> In v (visit_particle e ps (cell_adj e l) i r) ->
  In (i', r') (tails (cell_ids e ps l')) -> In v' (visit_particle e ps (cell_adj e l') i' r') ->
  upair v = upair v' -> l = l' /\ i = i'.
Proof.
  intros He Hs Hl Hl' H1 H2 H1' H2' E.
  destruct (visit_origin_all e ps l i r v H1 H2) as (j & w & pi & pj & -> & Ei & Ej & Hb & Ho).
  destruct (visit_origin_all e ps l' i' r' v' H1' H2') as (j' & w' & pi' & pj' & -> & Ei' & Ej' & Hb' & Ho').
  apply upair_eq in E. destruct E as [[<- <-]|[-> ->]].
  - split; [|reflexivity]. eapply binned_unique; eauto.
  - exfalso. rewrite Ej' in Ei. injection Ei as ->. rewrite Ei' in Ej. injection Ej as ->.
    destruct Ho as [(La & Lb & _ & Hlt & Hbj)|[(La & Lb & l1 & Hl1 & Hbj)|(La & Hne & Hle)]];
    destruct Ho' as [(La' & Lb' & _ & Hlt' & Hbj')|[(La' & Lb' & l2 & Hl2 & Hbj')|(La' & Hne' & Hle')]];
    try congruence.
    + lia.
    + pose proof (binned_unique _ _ _ _ _ Hbj Hb'). pose proof (binned_unique _ _ _ _ _ Hbj' Hb). subst.
      eapply cell_adj_asym; [exact He| | |exact Hl2|exact Hl2]; assumption.
    + pose proof (binned_unique _ _ _ _ _ Hbj' Hb). pose proof (binned_unique _ _ _ _ _ Hbj Hb'). subst.
      eapply cell_adj_asym; [exact He| | |exact Hl1|exact Hl1]; assumption.
    + pose proof (binned_unique _ _ _ _ _ Hbj' Hb). pose proof (binned_unique _ _ _ _ _ Hbj Hb'). subst.
      eapply cell_adj_asym; [exact He| | |exact Hl1|exact Hl2]; assumption.
    + destruct (Hs _ _ _ _ Hne Ej' Ei' La La'); lra.
Qed.

Lemma visit_particle_nodup_all e ps l i r : goodenv e -> large_ok e ps ->
  (0 <= l < prodZ (dims_of (grid e)))%Z -> In (i, r) (tails (cell_ids e ps l)) ->
  NoDup (map upair (visit_particle e ps (cell_adj e l) i r)).
Proof.
  intros He Hlo Hl Hir. unfold visit_particle. destruct (nth_error ps i) as [p1|] eqn:E1; [|constructor].
  destruct (ptype p1 <? 0)%Z eqn:Et; [constructor|].
  assert (Hcells : forall L, NoDup L -> NoDup (flat_map (cell_ids e ps) L)).
  { intros L HL. apply NoDup_flat_map; [exact HL|intros; apply cell_ids_nodup|].
    intros a a' b _ _ Hb Hb'. apply in_cell_ids in Hb. apply in_cell_ids in Hb'. eapply binned_unique; eauto. }
  destruct (is_large e p1) eqn:Hsm; cbn [negb]; rewrite flat_map_flat_map.
  - destruct (Hlo p1 (nth_error_In _ _ E1) Hsm) as (Hin & Hwide & Hreach).
    pose proof (good_reg _ _ (proj1 He)) as Hreg.
    apply (single_nodup (visit_large e ps p1 i) i).
    + intros j. unfold visit_large. destruct (nth_error ps j); [|now left].
      destruct (Nat.eqb i j || Qltb (sigma e p1) (prd p)); [now left|].
      match goal with |- context [if ?b then _ else _] => destruct b end; eauto.
      match goal with |- context [if ?b then _ else _] => destruct b end; eauto.
    + apply Hcells. apply hypercube_nodup; auto. eapply search_sd_ok; eauto. apply window_large.
  - rewrite map_app.
    assert (Hcr : forall j, In j r -> binned_in e ps l j = true).
    { intros j Hj. apply in_cell_ids. apply in_tails in Hir. destruct Hir as (l1 & ->).
      apply in_app_iff; right; now right. }
    assert (Hndr : NoDup r).
    { pose proof (cell_ids_nodup e ps l) as Hnd. apply in_tails in Hir. destruct Hir as (l1 & E). rewrite E in Hnd.
      clear E. induction l1 as [|b l1 IH]; simpl in Hnd; inversion Hnd; subst; auto. }
    destruct (single_nodup (visit_same e ps p1 i) i r) as [N1 M1]; auto.
    { intros j. unfold visit_same. destruct (nth_error ps j); [|now left].
      destruct ((ptype p1 <? 0)%Z || is_large e p); [now left|].
      match goal with |- context [if ?b then _ else _] => destruct b end; eauto. }
    destruct (single_nodup (visit_adj e ps p1 i) i (flat_map (cell_ids e ps) (cell_adj e l))) as [N2 M2].
    { intros j. unfold visit_adj. destruct (nth_error ps j); [|now left].
      destruct ((ptype p <? 0)%Z || is_large e p); [now left|].
      match goal with |- context [if ?b then _ else _] => destruct b end; eauto.
      match goal with |- context [if ?b then _ else _] => destruct b end; eauto. }
    { apply Hcells. destruct He as (Hg & _). destruct (linear_of_address _ (dims_pos _ _ Hg) l Hl) as [R E].
      now apply adj_list_nodup. }
    apply NoDup_app; auto.
    intros b Hb Hb'. apply in_map_iff in Hb. destruct Hb as (v & <- & Hv).
    apply in_map_iff in Hb'. destruct Hb' as (v' & Ev & Hv').
    destruct (M1 v Hv) as (j & w & -> & Hj). destruct (M2 v' Hv') as (j' & w' & -> & Hj').
    apply upair_eq in Ev. assert (j = j') by lia. subst j'.
    apply in_flat_map in Hj'. destruct Hj' as (l' & Hl' & Hj'). apply in_cell_ids in Hj'.
    assert (l = l') by (eapply binned_unique; eauto). subst l'.
    eapply cell_adj_asym; [exact He| | |exact Hl'|exact Hl']; assumption.
Qed.

Lemma traversal_nodup_all e ps vs : goodenv e -> large_ok e ps -> large_distinct e ps ->
  traversePairs e ps = Some vs -> NoDup (map upair vs).
Proof.
  intros He Hlo Hs H. rewrite (traverse_total e ps He) in H. injection H as <-.
  rewrite map_flat_map. apply NoDup_flat_map; [apply NoDup_zrange| |].
  - intros l Hl. apply in_zrange in Hl. rewrite visit_cell_tails, map_flat_map.
    apply NoDup_flat_map.
    + apply tails_nodup, cell_ids_nodup.
    + intros [i r] Hir. now apply visit_particle_nodup_all.
    + intros [i r] [i' r'] b Hir Hir' Hb Hb'. cbn [fst snd] in *.
      apply in_map_iff in Hb. destruct Hb as (v & Ev & Hv).
      apply in_map_iff in Hb'. destruct Hb' as (v' & Ev' & Hv').
      destruct (visit_oriented_all e ps l i r v l i' r' v') as [_ <-]; auto; [congruence|].
      f_equal. eapply tails_unique; eauto. apply cell_ids_nodup.
  - intros l l' b Hl Hl' Hb Hb'. apply in_zrange in Hl. apply in_zrange in Hl'.
    rewrite visit_cell_tails in Hb, Hb'.
    apply in_map_iff in Hb. destruct Hb as (v & Ev & Hv). apply in_flat_map in Hv. destruct Hv as ([i r] & Hir & Hv).
    apply in_map_iff in Hb'. destruct Hb' as (v' & Ev' & Hv'). apply in_flat_map in Hv'. destruct Hv' as ([i' r'] & Hir' & Hv').
    destruct (visit_oriented_all e ps l i r v l' i' r' v') as [<- _]; auto; congruence.
Qed.

Lemma traversal_no_self_all e ps vs i j w : goodenv e -> traversePairs e ps = Some vs ->
  In (i, j, w) vs -> i <> j.
Proof.
  intros He H Hin <-. apply (in_visits e ps vs) in Hin; auto. destruct Hin as (l & i' & r & Hl & Hir & Hv).
  destruct (visit_origin_all e ps l i' r _ Hir Hv) as (j & w' & pi & pj & E & _ & _ & Hb & Ho). injection E as <- <- <-.
  destruct Ho as [(_ & _ & _ & Hlt & _)|[(_ & _ & l' & Hl' & Hb')|(_ & Hne & _)]]; [lia| |congruence].
  assert (l = l') by (eapply binned_unique; eauto). subst l'.
  eapply cell_adj_asym; [exact He| | |exact Hl'|exact Hl']; assumption.
Qed.

Lemma visited_live e ps vs i j w : goodenv e -> traversePairs e ps = Some vs -> In (i, j, w) vs ->
  exists pi pj, nth_error ps i = Some pi /\ nth_error ps j = Some pj /\ (0 <= ptype pi)%Z /\ (0 <= ptype pj)%Z /\
    interacts e (ptype pi) = true /\ interacts e (ptype pj) = true.
Proof.
  intros He H Hin. apply (in_visits e ps vs) in Hin; auto. destruct Hin as (l & i' & r & Hl & Hir & Hv).
  assert (Hi' : In i' (cell_ids e ps l)).
  { apply in_tails in Hir. destruct Hir as (l1 & ->). apply in_app_iff; right; now left. }
  assert (L : exists l2, In j (cell_ids e ps l2) /\ i = i').
  { unfold visit_particle in Hv. destruct (nth_error ps i') as [p1|] eqn:E1; [|destruct Hv].
    destruct (ptype p1 <? 0)%Z; [destruct Hv|].
    destruct (is_large e p1); cbn [negb] in Hv.
    - apply in_flat_map in Hv. destruct Hv as (l' & _ & Hv). apply in_flat_map in Hv. destruct Hv as (j' & Hj & Hv).
      exists l'. unfold visit_large in Hv. destruct (nth_error ps j'); [|destruct Hv].
      repeat match type of Hv with context [if ?b then _ else _] => destruct b end; destruct Hv as [E|[]] || destruct Hv;
        injection E as <- <- <-; auto.
    - apply in_app_iff in Hv. destruct Hv as [Hv|Hv].
      + apply in_flat_map in Hv. destruct Hv as (j' & Hj & Hv). exists l.
        assert (Hj' : In j' (cell_ids e ps l)).
        { apply in_tails in Hir. destruct Hir as (l1 & ->). apply in_app_iff; right; now right. }
        unfold visit_same in Hv. destruct (nth_error ps j'); [|destruct Hv].
        repeat match type of Hv with context [if ?b then _ else _] => destruct b end; destruct Hv as [E|[]] || destruct Hv;
          injection E as <- <- <-; auto.
      + apply in_flat_map in Hv. destruct Hv as (l' & _ & Hv). apply in_flat_map in Hv. destruct Hv as (j' & Hj & Hv).
        exists l'. unfold visit_adj in Hv. destruct (nth_error ps j'); [|destruct Hv].
        repeat match type of Hv with context [if ?b then _ else _] => destruct b end; destruct Hv as [E|[]] || destruct Hv;
          injection E as <- <- <-; auto. }
  destruct L as (l2 & Hj & ->). apply in_cell_ids in Hi'. apply in_cell_ids in Hj. unfold binned_in in *.
  destruct (nth_error ps i') as [pi|]; [|discriminate]. destruct (nth_error ps j) as [pj|]; [|discriminate].
  exists pi, pj. apply andb_prop in Hi'. apply andb_prop in Hj. destruct Hi' as [Hi' _]. destruct Hj as [Hj _].
  apply andb_prop in Hi'. apply andb_prop in Hj. destruct Hi' as [A1 A2]. destruct Hj as [B1 B2].
  repeat split; auto; lia.
Qed.
