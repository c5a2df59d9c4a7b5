(* The pair traversal: completeness and no duplicates. *)
From Verif Require Import Lib Model_Geometry Model_Cells Proofs_Geometry Proofs_Cells1 Proofs_Cells2 Spec_Cells.
From Coq Require Import ZifyBool ZifyNat FinFun Sorting.Sorted.
Local Open Scope Q_scope.

(* ---------------------------------------------------------------- list helpers *)
Lemma NoDup_app {A} (l1 l2 : list A) : NoDup l1 -> NoDup l2 -> (forall b, In b l1 -> ~ In b l2) -> NoDup (l1 ++ l2).
Proof.
  induction l1 as [|x l1 IH]; intros H1 H2 Hd; simpl; [exact H2|].
  inversion H1; subst. constructor.
  - rewrite in_app_iff. intros [H|H]; [contradiction|]. apply (Hd x); [now left|exact H].
  - apply IH; auto. intros b Hb. apply Hd. now right.
Qed.

Lemma map_flat_map {A B C} (f : B -> C) (g : A -> list B) l :
  map f (flat_map g l) = flat_map (fun a => map f (g a)) l.
Proof. induction l; simpl; [reflexivity|]. now rewrite map_app, IHl. Qed.

Fixpoint tails {A} (l : list A) : list (A * list A) :=
  match l with [] => [] | a :: r => (a, r) :: tails r end.

Lemma visit_cell_tails e ps adj ids :
  visit_cell e ps adj ids = flat_map (fun ir => visit_particle e ps adj (fst ir) (snd ir)) (tails ids).
Proof. induction ids as [|i ids IH]; simpl; [reflexivity|]. now rewrite IH. Qed.

Lemma in_tails {A} (l : list A) a r : In (a, r) (tails l) <-> exists l1, l = l1 ++ a :: r.
Proof.
  induction l as [|b l IH]; simpl.
  - split; [intros []|]. intros (l1 & H). destruct l1; discriminate.
  - rewrite IH. split.
    + intros [E|(l1 & ->)]; [injection E as -> ->; exists []; reflexivity|exists (b :: l1); reflexivity].
    + intros ([|b' l1] & E); simpl in E; injection E as -> ->; [now left|right; eauto].
Qed.

Lemma tails_unique {A} (l : list A) a r r' : NoDup l -> In (a, r) (tails l) -> In (a, r') (tails l) -> r = r'.
Proof.
  induction l as [|b l IH]; simpl; intros Hnd H H'; [destruct H|]. inversion Hnd; subst.
  destruct H as [E|H]; destruct H' as [E'|H'].
  - congruence.
  - injection E as -> ->. exfalso. apply in_tails in H'. destruct H' as (l1 & ->). apply H2.
    apply in_app_iff; right; now left.
  - injection E' as -> ->. exfalso. apply in_tails in H. destruct H as (l1 & ->). apply H2.
    apply in_app_iff; right; now left.
  - auto.
Qed.

Lemma tails_nodup {A} (l : list A) : NoDup l -> NoDup (tails l).
Proof.
  induction l as [|b l IH]; simpl; intros Hnd; constructor; inversion Hnd; subst; auto.
  intros H. apply in_tails in H. destruct H as (l1 & H). apply (f_equal (@length A)) in H.
  rewrite app_length in H. simpl in H. lia.
Qed.

Lemma seq_pairs i j n : (i < j < n)%nat -> exists l1 l2 l3, seq 0 n = l1 ++ i :: l2 ++ j :: l3.
Proof.
  intros H. exists (seq 0 i), (seq (S i) (j - S i)), (seq (S j) (n - S j)).
  replace n with (i + (1 + ((j - S i) + (1 + (n - S j)))))%nat at 1 by lia.
  rewrite seq_app. f_equal. rewrite seq_app. cbn [seq]. simpl. f_equal.
  replace (i + 1)%nat with (S i) by lia. rewrite seq_app. f_equal.
  replace (S i + (j - S i))%nat with j by lia. reflexivity.
Qed.

Lemma filter_tail (f : nat -> bool) i j n : (i < j < n)%nat -> f i = true -> f j = true ->
  exists r, In (i, r) (tails (filter f (seq 0 n))) /\ In j r.
Proof.
  intros H Hi Hj. destruct (seq_pairs i j n H) as (l1 & l2 & l3 & ->).
  exists (filter f (l2 ++ j :: l3)). split.
  - apply in_tails. exists (filter f l1). rewrite filter_app. simpl. now rewrite Hi.
  - apply filter_In. split; [|exact Hj]. apply in_app_iff; right; now left.
Qed.

Lemma filter_tail_lt (f : nat -> bool) n i r j : In (i, r) (tails (filter f (seq 0 n))) -> In j r -> (i < j)%nat.
Proof.
  intros H Hj. apply in_tails in H. destruct H as (l1 & E).
  assert (G : forall k m, StronglySorted lt (filter f (seq k m))).
  { intros k m. revert k. induction m as [|m IH]; intros k; simpl; [constructor|].
    destruct (f k); [|apply IH]. constructor; [apply IH|]. apply Forall_forall. intros z Hz.
    apply filter_In in Hz. destruct Hz as [Hz _]. apply in_seq in Hz. lia. }
  specialize (G 0%nat n). rewrite E in G. clear E.
  induction l1 as [|a l1 IH]; simpl in G; inversion G; subst; auto.
  rewrite Forall_forall in H2. auto.
Qed.

(* ---------------------------------------------------------------- distances *)
Lemma dist2_nonneg x : forall y, 0 <= dist2 x y.
Proof.
  unfold dist2. induction x as [|a x IH]; intros [|b y]; cbn [combine fold_right fst snd]; try lra.
  specialize (IH y). pose proof (Qsq_nonneg (a - b)). unfold Qsqr in *. lra.
Qed.

Lemma dist2_sym x : forall y, dist2 x y == dist2 y x.
Proof.
  unfold dist2. induction x as [|a x IH]; intros [|b y]; cbn [combine fold_right fst snd]; try reflexivity.
  rewrite IH. unfold Qsqr. ring.
Qed.

(* components at most half a box: no correction; otherwise the direct distance is large *)
Lemma min_image_small a d : lo a <= hi a -> (bc a = WRAP -> Qabs d <= wd a - Qabs d) -> min_image1 a d = d.
Proof.
  intros Hw H. unfold min_image1. bcs; [|reflexivity]. specialize (H e). qcases; solve [lra|reflexivity].
Qed.

Lemma dist2_or_large gs c : good_grid c gs -> forall x y, length x = length gs -> length y = length gs ->
  dist2 x y == getDistanceSqr (box_of gs) x y \/
  exists g, In g gs /\ gbc g = WRAP /\ Qsqr ((1#2) * (gmax g - gmin g)) < dist2 x y.
Proof.
  induction 1 as [|g gs Hg Hgs IH]; intros [|x0 x] [|y0 y] Hx Hy; try discriminate.
  - left. reflexivity.
  - simpl in Hx, Hy. injection Hx as Hx. injection Hy as Hy.
    unfold dist2. cbn [combine fold_right fst snd box_of map getDistanceSqr].
    fold (dist2 x y) (box_of gs).
    pose proof (dist2_nonneg x y) as Hn. pose proof (Qsq_nonneg (x0 - y0)) as Hm. fold (Qsqr (x0 - y0)) in Hm.
    destruct (IH x y Hx Hy) as [E|(g' & Hg' & Hb' & Hl)].
    + assert (Hw : gmin g <= gmax g).
      { destruct Hg as (Hp & Hw & Hmax & _). assert (0 <= inject_Z (gdim g)).
        { change 0 with (inject_Z 0). apply Zle_Q. destruct Hp as (_ & _ & ?). lia. } nra. }
      destruct (bc_eqb_spec (gbc g) WRAP) as [Eb|Nb].
      2:{ left. rewrite E. rewrite min_image_small; [reflexivity|exact Hw|cbn [axis_of bc]; intros; contradiction]. }
      destruct (Qlt_le_dec (wd (axis_of g) - Qabs (x0 - y0)) (Qabs (x0 - y0))) as [Hlt|Hle].
      * right. exists g. split; [now left|]. split; [exact Eb|].
        unfold wd in Hlt; cbn [axis_of lo hi] in Hlt. unfold Qsqr in *.
        set (D := gmax g - gmin g) in *. assert (0 <= D) by (unfold D; lra).
        qabs (x0 - y0); rewrite Habs in Hlt; nra.
      * left. rewrite E. rewrite min_image_small; [reflexivity|exact Hw|intros; lra].
    + right. exists g'. split; [now right|]. split; [exact Hb'|]. lra.
Qed.

Lemma same_cell_direct c gs : good_grid c gs -> (forall g, In g gs -> gbc g = WRAP -> (2 <= gdim g)%Z) ->
  forall x y, wrapped_g gs x -> wrapped_g gs y -> cell_tuple gs x = cell_tuple gs y ->
  dist2 x y == getDistanceSqr (box_of gs) x y.
Proof.
  induction 1 as [|g gs Hg Hgs IH]; intros Hdim x y Hx Hy Hc;
    inversion Hx as [|? x0 ? x' Hx0 Hx']; inversion Hy as [|? y0 ? y' Hy0 Hy']; subst.
  - reflexivity.
  - change (cell_tuple (g :: gs) (x0 :: x')) with (cell_index1 g x0 :: cell_tuple gs x') in Hc.
    change (cell_tuple (g :: gs) (y0 :: y')) with (cell_index1 g y0 :: cell_tuple gs y') in Hc.
    injection Hc as Hk Hc.
    unfold dist2. cbn [combine fold_right fst snd box_of map getDistanceSqr].
    fold (dist2 x' y') (box_of gs).
    rewrite (IH (fun g' H => Hdim g' (or_intror H)) x' y' Hx' Hy' Hc).
    destruct Hg as (Hp & Hw & Hmax & Hc0 & _).
    rewrite min_image_small; [reflexivity| |].
    + cbn [axis_of lo hi]. assert (0 <= inject_Z (gdim g)).
      { change 0 with (inject_Z 0). apply Zle_Q. destruct Hp as (_ & _ & ?). lia. } nra.
    + intros E. cbn [axis_of bc] in E. specialize (Hx0 E). specialize (Hy0 E).
      specialize (Hdim g (or_introl eq_refl) E).
      destruct (cell_index1_spec g x0 Hp) as (Hr & Hx1 & Hx2).
      destruct (cell_index1_spec g y0 Hp) as (_ & Hy1 & Hy2). rewrite <- Hk in Hy1, Hy2.
      set (k := cell_index1 g x0) in *.
      assert (Enx : ncoord g x0 * gw g == x0 - gmin g) by (unfold ncoord; field; lra).
      assert (Eny : ncoord g y0 * gw g == y0 - gmin g) by (unfold ncoord; field; lra).
      set (a := ncoord g x0) in *. set (b := ncoord g y0) in *.
      set (D := inject_Z (gdim g)) in *.
      assert (Ha : 0 <= a <= D) by (split; nra). assert (Hb : 0 <= b <= D) by (split; nra).
      assert (HD : 2 <= D) by (change 2 with (inject_Z 2); now apply Zle_Q).
      assert (HD1 : inject_Z (gdim g - 1) == D - 1).
      { unfold D, Z.sub. rewrite inject_Z_plus. reflexivity. }
      assert (Ek : inject_Z k <= a /\ a <= inject_Z k + 1 /\ inject_Z k <= b /\ b <= inject_Z k + 1).
      { repeat split.
        - destruct Hx1 as [->|]; [change (inject_Z 0) with 0|]; lra.
        - destruct Hx2 as [->|]; lra.
        - destruct Hy1 as [->|]; [change (inject_Z 0) with 0|]; lra.
        - destruct Hy2 as [->|]; lra. }
      unfold wd; cbn [axis_of lo hi].
      assert (Hab : Qabs (x0 - y0) <= gw g).
      { apply Qabs_Qle_condition. set (K := inject_Z k) in *. split; nra. }
      nra.
Qed.

Lemma fold_min_le : forall l acc,
  fold_left (fun acc mr => if Qltb mr acc then mr else acc) l acc <= acc /\
  forall m, In m l -> fold_left (fun acc mr => if Qltb mr acc then mr else acc) l acc <= m.
Proof.
  induction l as [|x l IH]; intros acc; simpl; [split; [lra|intros m []]|].
  destruct (IH (if Qltb x acc then x else acc)) as [H1 H2].
  assert (H3 : (if Qltb x acc then x else acc) <= acc /\ (if Qltb x acc then x else acc) <= x) by (qcases; lra).
  split; [lra|]. intros m [->|Hm]; [lra|auto].
Qed.

Lemma max_reasonable_le e w : In w (sim_wd e) -> max_reasonable e <= Qsqr ((1#2) * w).
Proof.
  unfold max_reasonable. intros H.
  apply (in_map (fun w => Qsqr ((1#2) * w))) in H.
  destruct (map (fun w0 => Qsqr ((1#2) * w0)) (sim_wd e)) as [|m ms]; [destruct H|].
  destruct (fold_min_le ms m) as [H1 H2]. destruct H as [<-|H]; auto.
Qed.

(* ---------------------------------------------------------------- cells *)
Lemma in_cell_ids e ps l i : In i (cell_ids e ps l) <-> binned_in e ps l i = true.
Proof.
  unfold cell_ids. rewrite filter_In. split; [tauto|]. intros H. split; [|exact H].
  apply in_seq. unfold binned_in in H. destruct (nth_error ps i) eqn:E; [|discriminate].
  assert (i < length ps)%nat by (apply nth_error_Some; congruence). lia.
Qed.

Lemma cell_ids_nodup e ps l : NoDup (cell_ids e ps l).
Proof. apply NoDup_filter, seq_NoDup. Qed.

Lemma binned_unique e ps l l' i : binned_in e ps l i = true -> binned_in e ps l' i = true -> l = l'.
Proof.
  unfold binned_in. destruct (nth_error ps i); [|discriminate].
  intros H H'. apply andb_prop in H. apply andb_prop in H'. destruct H as [_ H]. destruct H' as [_ H'].
  apply Z.eqb_eq in H. apply Z.eqb_eq in H'. congruence.
Qed.

Definition goodenv (e : env) : Prop :=
  good_grid (min_small_cutoff e) (grid e) /\ keep_half (min_small_cutoff e) (grid e) /\
  0 < min_small_cutoff e /\
  (forall g, In g (grid e) -> gbc g = WRAP -> exists w, In w (sim_wd e) /\ w == gmax g - gmin g).

Lemma max_reasonable_axis e g : goodenv e -> In g (grid e) -> gbc g = WRAP ->
  max_reasonable e <= Qsqr ((1 # 2) * (gmax g - gmin g)).
Proof.
  intros (_ & _ & _ & H) Hg Hb. destruct (H g Hg Hb) as (w & Hw & E).
  eapply Qle_trans; [apply max_reasonable_le; exact Hw|]. unfold Qsqr. rewrite E. lra.
Qed.

Definition cell_adj (e : env) (l : Z) : list Z :=
  adj_list (min_small_cutoff e) (grid e) (getAddressCM l (dims_of (grid e))).

Lemma dims_pos c gs : good_grid c gs -> Forall (fun d => 0 < d)%Z (dims_of gs).
Proof. induction 1 as [|g gs Hg]; simpl; constructor; auto. apply Hg. Qed.

Lemma traverse_total e ps : goodenv e ->
  traversePairs e ps = Some (flat_map (fun l => visit_cell e ps (cell_adj e l) (cell_ids e ps l))
                               (zrange (prodZ (dims_of (grid e))))).
Proof.
  intros (Hg & Hk & Hc & _). unfold traversePairs.
  assert (G : forall cs, (forall l, In l cs -> (0 <= l < prodZ (dims_of (grid e)))%Z) ->
    traverse_cells e ps cs = Some (flat_map (fun l => visit_cell e ps (cell_adj e l) (cell_ids e ps l)) cs)).
  { induction cs as [|l cs IH]; intros Hin; [reflexivity|]. cbn [traverse_cells flat_map].
    destruct (linear_of_address (dims_of (grid e)) (dims_pos _ _ Hg) l (Hin l (or_introl eq_refl))) as [R E].
    rewrite <- E at 1. rewrite (adjacent_some _ _ Hg Hk _ R).
    rewrite IH by (intros; apply Hin; now right). reflexivity. }
  apply G. intros l. apply in_zrange.
Qed.

Lemma in_visits e ps vs v : goodenv e -> traversePairs e ps = Some vs ->
  (In v vs <-> exists l i r, (0 <= l < prodZ (dims_of (grid e)))%Z /\ In (i, r) (tails (cell_ids e ps l)) /\
     In v (visit_particle e ps (cell_adj e l) i r)).
Proof.
  intros He H. rewrite (traverse_total e ps He) in H. injection H as <-.
  rewrite in_flat_map. split.
  - intros (l & Hl & Hv). apply in_zrange in Hl. rewrite visit_cell_tails in Hv. apply in_flat_map in Hv.
    destruct Hv as ((i & r) & Hir & Hv). exists l, i, r. auto.
  - intros (l & i & r & Hl & Hir & Hv). exists l. split; [now apply in_zrange|].
    rewrite visit_cell_tails. apply in_flat_map. exists (i, r). auto.
Qed.

Lemma cell_of_particle e ps i p : goodenv e -> nth_error ps i = Some p ->
  (0 <= ptype p)%Z -> interacts e (ptype p) = true -> length (px p) = length (grid e) ->
  (0 <= get_cell_index (grid e) (px p) < prodZ (dims_of (grid e)))%Z /\
  binned_in e ps (get_cell_index (grid e) (px p)) i = true /\
  getAddressCM (get_cell_index (grid e) (px p)) (dims_of (grid e)) = cell_tuple (grid e) (px p).
Proof.
  intros (Hg & _) Hp Ht Hi Hl. pose proof (cell_tuple_range _ _ Hg (px p) Hl) as R.
  split; [|split].
  - now apply linear_bound.
  - unfold binned_in. rewrite Hp, Hi. apply andb_true_intro. split; [|apply Z.eqb_refl].
    apply andb_true_intro. split; [now apply Z.leb_le|reflexivity].
  - now apply address_of_linear.
Qed.

Lemma in_tails_of {A} (l : list A) a : In a l -> exists r, In (a, r) (tails l).
Proof. intros H. apply in_split in H. destruct H as (l1 & l2 & ->). exists l2. apply in_tails. eauto. Qed.

(* a pair whose cells are adjacent is visited *)
Lemma adjacent_visited e ps vs i j pi pj : goodenv e -> traversePairs e ps = Some vs ->
  nth_error ps i = Some pi -> nth_error ps j = Some pj ->
  (0 <= ptype pi)%Z -> (0 <= ptype pj)%Z ->
  interacts e (ptype pi) = true -> interacts e (ptype pj) = true ->
  is_large e pi = false -> is_large e pj = false ->
  length (px pi) = length (grid e) -> length (px pj) = length (grid e) ->
  In (get_cell_index (grid e) (px pj)) (cell_adj e (get_cell_index (grid e) (px pi))) ->
  getDistanceSqr (box_of (grid e)) (px pi) (px pj) <
    Qsqr ((prd pi + prd pj) * cutoff_grid e (ptype pi) (ptype pj) + skin e) ->
  exists w, In (i, j, w) vs.
Proof.
  intros He Hvs Hi Hj Hti Htj Hii Hij Hsi Hsj Hli Hlj Hadj Hd.
  destruct (cell_of_particle e ps i pi He Hi Hti Hii Hli) as (Hli' & Hbi & _).
  destruct (cell_of_particle e ps j pj He Hj Htj Hij Hlj) as (_ & Hbj & _).
  destruct (in_tails_of (cell_ids e ps (get_cell_index (grid e) (px pi))) i) as (r & Hr).
  { now apply in_cell_ids. }
  assert (Hv : exists w, visit_adj e ps pi i j = [(i, j, w)]).
  { unfold visit_adj. rewrite Hj, Hsj.
    destruct (Z.ltb_spec (ptype pj) 0); [lia|]. cbn [orb].
    pose proof He as (Hg & _ & _ & Hsw).
    destruct (dist2_or_large (grid e) _ Hg (px pi) (px pj) Hli Hlj) as [E|(g & Hg' & Hb' & Hl)].
    - destruct (Qltb_spec (dist2 (px pi) (px pj))
        (Qsqr ((prd pi + prd pj) * cutoff_grid e (ptype pi) (ptype pj) + skin e))); [eauto|lra].
    - destruct (Qltb_spec (dist2 (px pi) (px pj))
        (Qsqr ((prd pi + prd pj) * cutoff_grid e (ptype pi) (ptype pj) + skin e))); [eauto|].
      assert (max_reasonable e <= Qsqr ((1 # 2) * (gmax g - gmin g))).
      { now apply max_reasonable_axis. }
      destruct (Qltb_spec (max_reasonable e) (dist2 (px pi) (px pj))); [eauto|lra]. }
  destruct Hv as (w & Hw). exists w. apply (in_visits e ps vs); auto.
  exists (get_cell_index (grid e) (px pi)), i, r. split; [exact Hli'|]. split; [exact Hr|].
  unfold visit_particle. rewrite Hi, Hsi. destruct (Z.ltb_spec (ptype pi) 0); [lia|]. cbn [negb].
  apply in_app_iff. right. apply in_flat_map. exists (get_cell_index (grid e) (px pj)).
  split; [exact Hadj|]. apply in_flat_map. exists j. split; [now apply in_cell_ids|]. rewrite Hw. now left.
Qed.

(* a pair in one cell is visited, if close enough for the (narrower) test used inside a cell *)
Lemma same_visited e ps vs i j pi pj : goodenv e -> traversePairs e ps = Some vs -> (i < j)%nat ->
  nth_error ps i = Some pi -> nth_error ps j = Some pj ->
  (0 <= ptype pi)%Z -> (0 <= ptype pj)%Z ->
  interacts e (ptype pi) = true -> interacts e (ptype pj) = true ->
  is_large e pi = false -> is_large e pj = false ->
  length (px pi) = length (grid e) -> length (px pj) = length (grid e) ->
  get_cell_index (grid e) (px pi) = get_cell_index (grid e) (px pj) ->
  dist2 (px pi) (px pj) < Qsqr (prd pi + prd pj * cutoff_grid e (ptype pi) (ptype pj) + skin e) ->
  In (i, j, 0%Z) vs.
Proof.
  intros He Hvs Hlt Hi Hj Hti Htj Hii Hij Hsi Hsj Hli Hlj Hcell Hd.
  destruct (cell_of_particle e ps i pi He Hi Hti Hii Hli) as (Hli' & Hbi & _).
  destruct (cell_of_particle e ps j pj He Hj Htj Hij Hlj) as (_ & Hbj & _).
  rewrite <- Hcell in Hbj.
  destruct (filter_tail (binned_in e ps (get_cell_index (grid e) (px pi))) i j (length ps)) as (r & Hr & Hjr); auto.
  { assert (j < length ps)%nat by (apply nth_error_Some; congruence). lia. }
  apply (in_visits e ps vs); auto.
  exists (get_cell_index (grid e) (px pi)), i, r. split; [exact Hli'|]. split; [exact Hr|].
  unfold visit_particle. rewrite Hi, Hsi. destruct (Z.ltb_spec (ptype pi) 0) as [|Hge]; [lia|]. cbn [negb].
  apply in_app_iff. left. apply in_flat_map. exists j. split; [exact Hjr|].
  unfold visit_same. rewrite Hj, Hsj. destruct (Z.ltb_spec (ptype pi) 0); [lia|]. cbn [orb].
  destruct (Qltb_spec (dist2 (px pi) (px pj))
     (Qsqr (prd pi + prd pj * cutoff_grid e (ptype pi) (ptype pj) + skin e))); [now left|lra].
Qed.

Lemma traversal_complete e ps vs i j pi pj : goodenv e -> traversePairs e ps = Some vs ->
  (forall g, In g (grid e) -> gbc g = WRAP -> (2 <= gdim g)%Z) ->
  i <> j -> nth_error ps i = Some pi -> nth_error ps j = Some pj ->
  (0 <= ptype pi)%Z -> (0 <= ptype pj)%Z ->
  interacts e (ptype pi) = true -> interacts e (ptype pj) = true ->
  is_large e pi = false -> is_large e pj = false ->
  wrapped_g (grid e) (px pi) -> wrapped_g (grid e) (px pj) ->
  0 <= prd pi -> 0 <= prd pj -> 0 <= skin e ->
  cutoff_grid e (ptype pi) (ptype pj) = cutoff_grid e (ptype pj) (ptype pi) ->
  0 <= cutoff_grid e (ptype pi) (ptype pj) <= 1 ->
  cutoff_grid e (ptype pi) (ptype pj) <= max_cutoff e (ptype pi) ->
  cutoff_grid e (ptype pi) (ptype pj) <= max_cutoff e (ptype pj) ->
  getDistanceSqr (box_of (grid e)) (px pi) (px pj) <
    Qsqr ((prd pi + prd pj) * cutoff_grid e (ptype pi) (ptype pj) + skin e) ->
  visited vs i j.
Proof.
  intros He Hvs Hdim Hij Hi Hj Hti Htj Hii Hij' Hsi Hsj Hwi Hwj Hri Hrj Hskin Hsym Hcut Hci Hcj Hd.
  assert (Li : length (px pi) = length (grid e)) by (symmetry; eapply Forall2_len; exact Hwi).
  assert (Lj : length (px pj) = length (grid e)) by (symmetry; eapply Forall2_len; exact Hwj).
  pose proof He as (Hg & Hk & Hc & Hsw).
  set (cut := cutoff_grid e (ptype pi) (ptype pj)) in *.
  (* radii within the small cutoff *)
  assert (Hs1 : prd pi * cut <= max_small_sigma e).
  { unfold is_large in Hsi. destruct (Qltb_spec (max_small_sigma e) (sigma e pi)); [discriminate|].
    unfold sigma in *. nra. }
  assert (Hs2 : prd pj * cut <= max_small_sigma e).
  { unfold is_large in Hsj. destruct (Qltb_spec (max_small_sigma e) (sigma e pj)); [discriminate|].
    unfold sigma in *. nra. }
  assert (Hle : (prd pi + prd pj) * cut + skin e <= min_small_cutoff e) by (unfold min_small_cutoff; lra).
  assert (Hnn : 0 <= (prd pi + prd pj) * cut + skin e) by nra.
  assert (Hdc : getDistanceSqr (box_of (grid e)) (px pi) (px pj) < Qsqr (min_small_cutoff e)).
  { eapply Qlt_le_trans; [exact Hd|]. unfold Qsqr. nra. }
  assert (Hdsym : getDistanceSqr (box_of (grid e)) (px pj) (px pi) == getDistanceSqr (box_of (grid e)) (px pi) (px pj)).
  { apply getDistanceSqr_sym. unfold box_of. apply Forall_map.
    eapply Forall_impl; [|exact Hg]. intros g (Hp & Hw & Hmax & _). cbn [axis_of lo hi].
    assert (0 <= inject_Z (gdim g)) by (change 0 with (inject_Z 0); apply Zle_Q; destruct Hp as (_ & _ & ?); lia).
    nra. }
  destruct (cell_of_particle e ps i pi He Hi Hti Hii Li) as (_ & _ & Ei).
  destruct (cell_of_particle e ps j pj He Hj Htj Hij' Lj) as (_ & _ & Ej).
  destruct (close_cells (min_small_cutoff e) (grid e) (px pi) (px pj) Hg Hc Hwi Hwj Hdc) as [Hsame|[Hadj|Hadj]].
  - assert (Hcell : get_cell_index (grid e) (px pi) = get_cell_index (grid e) (px pj)).
    { unfold get_cell_index. now rewrite Hsame. }
    pose proof (same_cell_direct _ _ Hg Hdim _ _ Hwi Hwj Hsame) as Hdir.
    destruct (Nat.lt_total i j) as [Hlt|[Heq|Hlt]]; [|congruence|].
    + exists 0%Z. left. eapply same_visited; eauto. rewrite Hdir. eapply Qlt_le_trans; [exact Hd|].
      fold cut. unfold Qsqr. assert ((prd pi + prd pj) * cut + skin e <= prd pi + prd pj * cut + skin e) by nra. nra.
    + exists 0%Z. right. eapply same_visited; eauto. rewrite dist2_sym, Hdir. eapply Qlt_le_trans; [exact Hd|].
      rewrite <- Hsym. fold cut. unfold Qsqr.
      assert ((prd pi + prd pj) * cut + skin e <= prd pj + prd pi * cut + skin e) by nra. nra.
  - destruct (adjacent_visited e ps vs i j pi pj) as (w & Hw); auto.
    { unfold cell_adj. rewrite Ei. exact Hadj. }
    exists w. now left.
  - destruct (adjacent_visited e ps vs j i pj pi) as (w & Hw); auto.
    { unfold cell_adj. rewrite Ej. exact Hadj. }
    { rewrite Hdsym. rewrite <- Hsym. fold cut. unfold Qsqr in *. setoid_replace (prd pj + prd pi) with (prd pi + prd pj) by ring. exact Hd. }
    exists w. now right.
Qed.

(* ---------------------------------------------------------------- no duplicates *)
Definition all_small (e : env) (ps : list particle) : Prop :=
  Forall (fun p => is_large e p = false) ps.

(* where a visit can come from *)
Lemma visit_origin e ps l i r v : goodenv e -> all_small e ps ->
  In (i, r) (tails (cell_ids e ps l)) -> In v (visit_particle e ps (cell_adj e l) i r) ->
  exists j w, v = (i, j, w) /\ binned_in e ps l i = true /\
    ((In j r /\ (i < j)%nat /\ binned_in e ps l j = true) \/
     (exists l', In l' (cell_adj e l) /\ binned_in e ps l' j = true)).
Proof.
  intros He Hs Hir Hv.
  assert (Hi : In i (cell_ids e ps l)).
  { apply in_tails in Hir. destruct Hir as (l1 & ->). apply in_app_iff; right; now left. }
  unfold visit_particle in Hv. destruct (nth_error ps i) as [p1|] eqn:E1; [|destruct Hv].
  destruct (ptype p1 <? 0)%Z; [destruct Hv|].
  assert (Hsm : is_large e p1 = false).
  { eapply Forall_forall in Hs; [exact Hs|]. eapply nth_error_In; eauto. }
  rewrite Hsm in Hv. cbn [negb] in Hv. apply in_app_iff in Hv. destruct Hv as [Hv|Hv].
  - apply in_flat_map in Hv. destruct Hv as (j & Hj & Hv).
    unfold visit_same in Hv. destruct (nth_error ps j) as [p2|]; [|destruct Hv].
    destruct ((ptype p1 <? 0)%Z || is_large e p2); [destruct Hv|].
    match type of Hv with context [if ?b then _ else _] => destruct b end; [|destruct Hv].
    destruct Hv as [<-|[]]. exists j, 0%Z. split; [reflexivity|]. split; [now apply in_cell_ids|].
    left. split; [exact Hj|]. split; [eapply filter_tail_lt; [exact Hir|exact Hj]|].
    apply in_cell_ids. apply in_tails in Hir. destruct Hir as (l1 & ->). apply in_app_iff; right; now right.
  - apply in_flat_map in Hv. destruct Hv as (l' & Hl' & Hv). apply in_flat_map in Hv.
    destruct Hv as (j & Hj & Hv). apply in_cell_ids in Hj.
    unfold visit_adj in Hv. destruct (nth_error ps j) as [p2|]; [|destruct Hv].
    destruct ((ptype p2 <? 0)%Z || is_large e p2); [destruct Hv|].
    match type of Hv with context [if ?b then _ else _] => destruct b end.
    + destruct Hv as [<-|[]]. exists j, 0%Z. split; [reflexivity|]. split; [now apply in_cell_ids|]. right. eauto.
    + match type of Hv with context [if ?b then _ else _] => destruct b end; [|destruct Hv].
      destruct Hv as [<-|[]]. exists j, 1%Z. split; [reflexivity|]. split; [now apply in_cell_ids|]. right. eauto.
Qed.

Lemma cell_adj_asym e l l' : goodenv e -> (0 <= l < prodZ (dims_of (grid e)))%Z ->
  (0 <= l' < prodZ (dims_of (grid e)))%Z -> In l' (cell_adj e l) -> In l (cell_adj e l') -> False.
Proof.
  intros (Hg & _) Hl Hl' H H'. pose proof (dims_pos _ _ Hg) as Hd.
  destruct (linear_of_address _ Hd l Hl) as [R E]. destruct (linear_of_address _ Hd l' Hl') as [R' E'].
  eapply (adj_asym _ _ Hg _ _ R R').
  - rewrite E'. exact H.
  - rewrite E. exact H'.
Qed.

Lemma cell_adj_range e l l' : goodenv e -> (0 <= l < prodZ (dims_of (grid e)))%Z -> In l' (cell_adj e l) ->
  (0 <= l' < prodZ (dims_of (grid e)))%Z.
Proof.
  intros (Hg & _) Hl H. destruct (linear_of_address _ (dims_pos _ _ Hg) l Hl) as [R E].
  apply adj_list_spec in H; auto. destruct H as (o & t' & Hw & _ & Hc & ->).
  apply linear_bound. eapply correct_range; eauto. now apply good_sweeps.
Qed.

Lemma upair_eq i j w i' j' w' : upair (i, j, w) = upair (i', j', w') ->
  (i = i' /\ j = j') \/ (i = j' /\ j = i').
Proof. unfold upair. intros H. injection H as H1 H2. lia. Qed.

(* two visits of the same unordered pair have the same first particle *)
Lemma visit_oriented e ps l i r v l' i' r' v' : goodenv e -> all_small e ps ->
  (0 <= l < prodZ (dims_of (grid e)))%Z -> (0 <= l' < prodZ (dims_of (grid e)))%Z ->
  In (i, r) (tails (cell_ids e ps l)) -> In v (visit_particle e ps (cell_adj e l) i r) ->
  In (i', r') (tails (cell_ids e ps l')) -> In v' (visit_particle e ps (cell_adj e l') i' r') ->
  upair v = upair v' -> l = l' /\ i = i'.
Proof.
  intros He Hs Hl Hl' H1 H2 H1' H2' E.
  destruct (visit_origin e ps l i r v He Hs H1 H2) as (j & w & -> & Hb & Ho).
  destruct (visit_origin e ps l' i' r' v' He Hs H1' H2') as (j' & w' & -> & Hb' & Ho').
  apply upair_eq in E. destruct E as [[<- <-]|[-> ->]].
  - split; [|reflexivity]. eapply binned_unique; eauto.
  - exfalso. destruct Ho as [(_ & Hlt & Hbj)|(l1 & Hl1 & Hbj)]; destruct Ho' as [(_ & Hlt' & Hbj')|(l2 & Hl2 & Hbj')].
    + lia.
    + pose proof (binned_unique _ _ _ _ _ Hbj Hb'). pose proof (binned_unique _ _ _ _ _ Hbj' Hb). subst.
      eapply cell_adj_asym; [exact He| | |exact Hl2|exact Hl2]; assumption.
    + pose proof (binned_unique _ _ _ _ _ Hbj' Hb). pose proof (binned_unique _ _ _ _ _ Hbj Hb'). subst.
      eapply cell_adj_asym; [exact He| | |exact Hl1|exact Hl1]; assumption.
    + pose proof (binned_unique _ _ _ _ _ Hbj' Hb). pose proof (binned_unique _ _ _ _ _ Hbj Hb'). subst.
      eapply cell_adj_asym; [exact He| | |exact Hl1|exact Hl2]; assumption.
Qed.

Lemma single_nodup (f : nat -> list visit) i L :
  (forall j, f j = [] \/ exists w, f j = [(i, j, w)]) -> NoDup L ->
  NoDup (map upair (flat_map f L)) /\ forall v, In v (flat_map f L) -> exists j w, v = (i, j, w) /\ In j L.
Proof.
  intros Hf. induction L as [|j L IH]; intros Hnd; simpl; [split; [constructor|intros v []]|].
  inversion Hnd; subst. destruct (IH H2) as [IH1 IH2].
  destruct (Hf j) as [->|(w & ->)]; simpl.
  - split; [exact IH1|]. intros v Hv. destruct (IH2 v Hv) as (j' & w' & -> & Hj'). exists j', w'. auto.
  - split.
    + constructor; [|exact IH1]. rewrite in_map_iff. intros (v & Ev & Hv).
      destruct (IH2 v Hv) as (j' & w' & -> & Hj').
      change (Nat.min i j, Nat.max i j) with (upair (i, j, w)) in Ev.
      apply upair_eq in Ev. assert (j = j') by lia. subst. contradiction.
    + intros v [<-|Hv]; [exists j, w; auto|]. destruct (IH2 v Hv) as (j' & w' & -> & Hj'). exists j', w'. auto.
Qed.

Lemma flat_map_flat_map {A B C} (f : B -> list C) (g : A -> list B) l :
  flat_map (fun a => flat_map f (g a)) l = flat_map f (flat_map g l).
Proof. induction l; simpl; [reflexivity|]. now rewrite flat_map_app, IHl. Qed.

Lemma visit_particle_nodup e ps l i r : goodenv e -> all_small e ps ->
  (0 <= l < prodZ (dims_of (grid e)))%Z -> In (i, r) (tails (cell_ids e ps l)) ->
  NoDup (map upair (visit_particle e ps (cell_adj e l) i r)).
Proof.
  intros He Hs Hl Hir. unfold visit_particle. destruct (nth_error ps i) as [p1|] eqn:E1; [|constructor].
  destruct (ptype p1 <? 0)%Z eqn:Et; [constructor|].
  assert (Hsm : is_large e p1 = false).
  { eapply Forall_forall in Hs; [exact Hs|]. eapply nth_error_In; eauto. }
  rewrite Hsm. cbn [negb]. rewrite flat_map_flat_map. rewrite map_app.
  assert (Hcr : forall j, In j r -> binned_in e ps l j = true).
  { intros j Hj. apply in_cell_ids. apply in_tails in Hir. destruct Hir as (l1 & ->).
    apply in_app_iff; right; now right. }
  assert (Hndr : NoDup r).
  { pose proof (cell_ids_nodup e ps l) as Hnd. apply in_tails in Hir. destruct Hir as (l1 & E). rewrite E in Hnd.
    clear E. induction l1 as [|b l1 IH]; simpl in Hnd; inversion Hnd; subst; auto. }
  destruct (single_nodup (visit_same e ps p1 i) i r) as [N1 M1]; auto.
  { intros j. unfold visit_same. destruct (nth_error ps j); [|now left].
    destruct ((ptype p1 <? 0)%Z || is_large e p); [now left|].
    match goal with |- context [if ?b then _ else _] => destruct b end; eauto. }
  destruct (single_nodup (visit_adj e ps p1 i) i (flat_map (cell_ids e ps) (cell_adj e l))) as [N2 M2].
  { intros j. unfold visit_adj. destruct (nth_error ps j); [|now left].
    destruct ((ptype p <? 0)%Z || is_large e p); [now left|].
    match goal with |- context [if ?b then _ else _] => destruct b end; eauto.
    match goal with |- context [if ?b then _ else _] => destruct b end; eauto. }
  { apply NoDup_flat_map.
    - destruct He as (Hg & _). destruct (linear_of_address _ (dims_pos _ _ Hg) l Hl) as [R E].
      now apply adj_list_nodup.
    - intros; apply cell_ids_nodup.
    - intros a a' b _ _ Hb Hb'. apply in_cell_ids in Hb. apply in_cell_ids in Hb'. eapply binned_unique; eauto. }
  apply NoDup_app; auto.
  intros b Hb Hb'. apply in_map_iff in Hb. destruct Hb as (v & <- & Hv).
  apply in_map_iff in Hb'. destruct Hb' as (v' & Ev & Hv').
  destruct (M1 v Hv) as (j & w & -> & Hj). destruct (M2 v' Hv') as (j' & w' & -> & Hj').
  apply upair_eq in Ev. assert (j = j') by lia. subst j'.
  apply in_flat_map in Hj'. destruct Hj' as (l' & Hl' & Hj'). apply in_cell_ids in Hj'.
  assert (l = l') by (eapply binned_unique; eauto). subst l'.
  eapply cell_adj_asym; [exact He| | |exact Hl'|exact Hl']; assumption.
Qed.

Lemma traversal_nodup e ps vs : goodenv e -> all_small e ps -> traversePairs e ps = Some vs ->
  NoDup (map upair vs).
Proof.
  intros He Hs H. rewrite (traverse_total e ps He) in H. injection H as <-.
  rewrite map_flat_map. apply NoDup_flat_map; [apply NoDup_zrange| |].
  - intros l Hl. apply in_zrange in Hl. rewrite visit_cell_tails, map_flat_map.
    apply NoDup_flat_map.
    + apply tails_nodup, cell_ids_nodup.
    + intros [i r] Hir. now apply visit_particle_nodup.
    + intros [i r] [i' r'] b Hir Hir' Hb Hb'. cbn [fst snd] in *.
      apply in_map_iff in Hb. destruct Hb as (v & Ev & Hv).
      apply in_map_iff in Hb'. destruct Hb' as (v' & Ev' & Hv').
      destruct (visit_oriented e ps l i r v l i' r' v') as [_ <-]; auto; [congruence|].
      f_equal. eapply tails_unique; eauto. apply cell_ids_nodup.
  - intros l l' b Hl Hl' Hb Hb'. apply in_zrange in Hl. apply in_zrange in Hl'.
    rewrite visit_cell_tails in Hb, Hb'.
    apply in_map_iff in Hb. destruct Hb as (v & Ev & Hv). apply in_flat_map in Hv. destruct Hv as ([i r] & Hir & Hv).
    apply in_map_iff in Hb'. destruct Hb' as (v' & Ev' & Hv'). apply in_flat_map in Hv'. destruct Hv' as ([i' r'] & Hir' & Hv').
    destruct (visit_oriented e ps l i r v l' i' r' v') as [<- _]; auto; congruence.
Qed.

Lemma traversal_no_self e ps vs i j w : goodenv e -> all_small e ps -> traversePairs e ps = Some vs ->
  In (i, j, w) vs -> i <> j.
Proof.
  intros He Hs H Hin <-. apply (in_visits e ps vs) in Hin; auto. destruct Hin as (l & i' & r & Hl & Hir & Hv).
  destruct (visit_origin e ps l i' r _ He Hs Hir Hv) as (j & w' & E & Hb & Ho). injection E as <- <- <-.
  destruct Ho as [(_ & Hlt & _)|(l' & Hl' & Hb')]; [lia|].
  assert (l = l') by (eapply binned_unique; eauto). subst l'.
  eapply cell_adj_asym; [exact He| | |exact Hl'|exact Hl']; assumption.
Qed.
