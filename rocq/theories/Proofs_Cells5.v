(* Range queries: the hypercube of cells around a point. *)
From Verif Require Import Lib Model_Geometry Model_Cells Proofs_Geometry Proofs_Cells1 Proofs_Cells2 Proofs_Cells3
  Proofs_Cells4 Spec_Cells.
From Coq Require Import ZifyBool ZifyNat.
Local Open Scope Q_scope.
Arguments Z.mul : simpl never.
Arguments Z.add : simpl never.
Arguments Z.sub : simpl never.

(* search dims sd acceptable on axis g for queries reaching s cells away *)
Definition sd_of (d : Q) (g : gaxis) : Z := within_search1 d g.

Lemma within_search_sweep d g : within_search1 d g = Z.min (2 * (1 + sweep1 d g) + 1) (gdim g).
Proof.
  unfold within_search1, sweep1. f_equal. f_equal. f_equal. f_equal. apply Qceiling_comp.
  unfold Qdiv. ring.
Qed.

(* one axis: position of the query is inside the box *)
Lemma raw_is_cell g x : plain g -> 0 < gw g -> gmax g == gmin g + inject_Z (gdim g) * gw g ->
  gmin g <= x < gmax g -> raw_index1 g x = cell_index1 g x.
Proof.
  intros Hp Hw Hmax Hx. destruct Hp as (Hu & Hd & Hp).
  unfold raw_index1, cell_index1, shift_up, shift_down. rewrite Hu, Hd. cbn [Z.eqb].
  set (a := (x - gmin g) * (1 / gw g)).
  assert (Ea : a * gw g == x - gmin g) by (unfold a; field; lra).
  assert (Ha : 0 <= a) by nra.
  unfold to_int. rewrite Qtrunc_nonneg by exact Ha.
  assert (0 <= Qfloor a)%Z by (change 0%Z with (Qfloor 0); now apply Qfloor_resp_le).
  assert (Qfloor a < gdim g)%Z.
  { pose proof (Qfloor_le a). rewrite Zlt_Qlt. set (D := inject_Z (gdim g)) in *. apply Qle_lt_trans with a; [lra|]. nra. }
  destruct (Z.leb_spec (gdim g - 0) (Qfloor a + 0)); [lia|].
  destruct (Z.ltb_spec (Qfloor a + 0) 0); [lia|]. reflexivity.
Qed.

Definition wide_enough (d : Q) (g : gaxis) : Prop := gbc g <> WRAP -> (2 * sweep1 d g + 2 <= gdim g)%Z.

Lemma half_up_bound n : (1 <= n)%Z -> (0 < half_up n <= n)%Z /\ (2 * half_up n = n \/ 2 * half_up n = n + 1)%Z.
Proof. intros H. unfold half_up. Z.to_euclidean_division_equations. lia. Qed.

(* every cell within reach is hit by an offset of the search window sd = min(m, dim), m = 2s+2 or 2s+3 *)
Lemma query_axis d m g x y : plain g -> 0 < gw g -> gmax g == gmin g + inject_Z (gdim g) * gw g -> 0 < d ->
  (2 * sweep1 d g + 2 <= m <= 2 * sweep1 d g + 3)%Z ->
  wide_enough d g -> gmin g <= x < gmax g -> (gbc g = WRAP -> gmin g <= y <= gmax g) ->
  Qabs (min_image1 (axis_of g) (x - y)) < d ->
  exists j, (0 <= j < Z.min m (gdim g))%Z /\
    correct1 g (j - half_up (Z.min m (gdim g)) + raw_index1 g x)%Z = Some (cell_index1 g y).
Proof.
  intros Hp Hw Hmax Hd Hm Hwe Hx Hy Hdist.
  rewrite raw_is_cell by assumption.
  destruct (sweep1_nonneg d g Hw Hd) as [Hs1 _].
  set (s := sweep1 d g) in *.
  destruct (cell_index1_spec g x Hp) as (Hi & _). destruct (cell_index1_spec g y Hp) as (Hk & _).
  destruct (Z_le_gt_dec (2 * s + 1) (gdim g)) as [Hle|Hgt].
  - (* close pairs are at most s cells apart *)
    destruct (axis_step d g x y) as (o & Ho & Hc); auto.
    { unfold good_axis. repeat split; auto; try apply Hp. }
    { intros E. split; [lra|auto]. }
    fold s in Ho. set (i := cell_index1 g x) in *. set (k := cell_index1 g y) in *.
    set (sd := Z.min m (gdim g)).
    destruct (half_up_bound sd) as [Hh1 Hh2]; [unfold sd; lia|]. set (h := half_up sd) in *.
    destruct (bc_eqb_spec (gbc g) WRAP) as [E|E].
    + apply correct1_spec in Hc; auto; [|lia].
      destruct (Z_lt_le_dec (o + h) sd) as [Hb|Hb].
      * exists (o + h)%Z. split; [unfold sd in *; lia|]. apply correct1_spec; auto; [unfold sd in *; lia|].
        split; [exact Hk|]. replace (o + h - h + i)%Z with (i + o)%Z by lia. tauto.
      * (* capped: reach the cell from the other side *)
        assert (sd = gdim g) by (unfold sd in *; lia).
        exists (o + h - gdim g)%Z. split; [lia|]. apply correct1_spec; auto; [lia|].
        split; [exact Hk|]. destruct Hc as [_ [Hc|[_ [Hc|Hc]]]]; solve [left; lia|right; split; [exact E|lia]].
    + specialize (Hwe E). fold s in Hwe. rewrite correct1_nowrap in Hc by assumption.
      destruct (Z.leb_spec 0 (i + o)); destruct (Z.ltb_spec (i + o) (gdim g)); simpl in Hc; try discriminate.
      injection Hc as Hc.
      exists (o + h)%Z. split; [unfold sd in *; lia|]. rewrite correct1_nowrap by assumption.
      replace (o + h - h + i)%Z with (i + o)%Z by lia.
      destruct (Z.leb_spec 0 (i + o)); destruct (Z.ltb_spec (i + o) (gdim g)); simpl; try lia. now rewrite Hc.
  - (* the whole periodic axis is searched *)
    assert (E : gbc g = WRAP).
    { destruct (bc_eqb_spec (gbc g) WRAP) as [E|E]; [exact E|]. specialize (Hwe E). fold s in Hwe. lia. }
    replace (Z.min m (gdim g)) with (gdim g) by lia.
    set (i := cell_index1 g x) in *. set (k := cell_index1 g y) in *.
    destruct (half_up_bound (gdim g)) as [Hh1 Hh2]; [lia|]. set (h := half_up (gdim g)) in *.
    destruct (Z_lt_le_dec (k - i + h) 0) as [Hb|Hb]; [|destruct (Z_lt_le_dec (k - i + h) (gdim g)) as [Hb'|Hb']].
    + exists (k - i + h + gdim g)%Z. split; [lia|]. apply correct1_spec; auto; [lia|]. split; [lia|].
      right. split; [exact E|lia].
    + exists (k - i + h)%Z. split; [lia|]. apply correct1_spec; auto; [lia|]. split; [lia|]. left. lia.
    + exists (k - i + h - gdim g)%Z. split; [lia|]. apply correct1_spec; auto; [lia|]. split; [lia|].
      right. split; [exact E|lia].
Qed.

Lemma query_axis_unique g sd i j j' k : plain g -> (0 < sd <= gdim g)%Z -> (0 <= i < gdim g)%Z ->
  (0 <= j < sd)%Z -> (0 <= j' < sd)%Z ->
  correct1 g (j - half_up sd + i)%Z = Some k -> correct1 g (j' - half_up sd + i)%Z = Some k -> j = j'.
Proof.
  intros Hp Hsd Hi Hj Hj' H H'. destruct (half_up_bound sd) as [Hh1 Hh2]; [lia|].
  apply correct1_spec in H; auto; [|lia]. apply correct1_spec in H'; auto; lia.
Qed.

Lemma query_axis_range g sd i j k : plain g -> (0 < sd <= gdim g)%Z -> (0 <= i < gdim g)%Z ->
  (0 <= j < sd)%Z -> correct1 g (j - half_up sd + i)%Z = Some k -> (0 <= k < gdim g)%Z.
Proof.
  intros Hp Hsd Hi Hj H. destruct (half_up_bound sd) as [Hh1 Hh2]; [lia|].
  apply correct1_spec in H; auto; lia.
Qed.

(* ---------------------------------------------------------------- vectors *)
Definition inside_g (gs : list gaxis) (x : list Q) : Prop :=
  Forall2 (fun g xd => gmin g <= xd < gmax g) gs x.

Definition reg_axis (g : gaxis) : Prop :=
  plain g /\ 0 < gw g /\ gmax g == gmin g + inject_Z (gdim g) * gw g.

Definition hc_tuple (gs : list gaxis) (sd : list Z) (x : list Q) (t : list Z) : option (list Z) :=
  correct_index gs (zadd (zsub t (map half_up sd)) (raw_tuple gs x)).

Lemma hc_cons g gs s sd x0 x i t : hc_tuple (g :: gs) (s :: sd) (x0 :: x) (i :: t) =
  match correct1 g (i - half_up s + raw_index1 g x0)%Z, hc_tuple gs sd x t with
  | Some j, Some t'' => Some (j :: t'') | _, _ => None end.
Proof. reflexivity. Qed.

(* both search windows of the code *)
Definition window (d : Q) (f : gaxis -> Z) : Prop :=
  forall g, exists m, f g = Z.min m (gdim g) /\ (2 * sweep1 d g + 2 <= m <= 2 * sweep1 d g + 3)%Z.

Lemma window_within d : window d (within_search1 d).
Proof. intros g. exists (2 * (1 + sweep1 d g) + 1)%Z. split; [apply within_search_sweep|lia]. Qed.
Lemma window_large d : window d (large_search1 d).
Proof. intros g. exists (2 * (sweep1 d g + 1))%Z. split; [reflexivity|lia]. Qed.

Lemma query_vec d f gs : 0 < d -> window d f -> Forall reg_axis gs -> Forall (wide_enough d) gs ->
  forall x y, inside_g gs x -> wrapped_g gs y -> getDistanceSqr (box_of gs) x y < Qsqr d ->
  exists t, in_range (map f gs) t /\
    hc_tuple gs (map f gs) x t = Some (cell_tuple gs y).
Proof.
  intros Hd Hf Hreg. induction Hreg as [|g gs Hg Hgs IH]; intros Hwe x y Hx Hy Hdist;
    inversion Hx as [|? x0 ? x' Hx0 Hx']; inversion Hy as [|? y0 ? y' Hy0 Hy']; subst.
  - exists []. split; [constructor|reflexivity].
  - inversion Hwe as [|? ? Hwe0 Hwe']; subst.
    cbn [box_of map getDistanceSqr] in Hdist. fold (box_of gs) in Hdist.
    pose proof (getDistanceSqr_nonneg (box_of gs) x' y') as Hn.
    pose proof (Qsq_nonneg (min_image1 (axis_of g) (x0 - y0))) as Hm.
    fold (Qsqr (min_image1 (axis_of g) (x0 - y0))) in Hm.
    destruct (IH Hwe' x' y' Hx' Hy') as (t & Ht & Hc'); [lra|].
    destruct Hg as (Hp & Hw & Hmax). destruct (Hf g) as (m & Em & Hmm).
    destruct (query_axis d m g x0 y0) as (j & Hj & Hc); auto.
    { apply Qsq_lt_abs; [exact Hd|lra]. }
    rewrite <- Em in Hj, Hc.
    exists (j :: t). split; [constructor; auto|]. cbn [map]. rewrite hc_cons, Hc, Hc'. reflexivity.
Qed.

Lemma raw_range gs : Forall reg_axis gs -> forall x, inside_g gs x -> in_range (dims_of gs) (raw_tuple gs x).
Proof.
  induction 1 as [|g gs Hg Hgs IH]; intros x Hx; inversion Hx; subst; [constructor|].
  unfold raw_tuple; cbn [combine map fst snd dims_of]. constructor; [|now apply IH].
  destruct Hg as (Hp & Hw & Hmax). rewrite raw_is_cell by assumption. now apply cell_index1_spec.
Qed.

Definition sd_ok (gs : list gaxis) (sd : list Z) : Prop := Forall2 (fun g s => (0 < s <= gdim g)%Z) gs sd.

Lemma hc_range gs sd : sd_ok gs sd -> Forall reg_axis gs -> forall x t t', inside_g gs x -> in_range sd t ->
  hc_tuple gs sd x t = Some t' -> in_range (dims_of gs) t'.
Proof.
  induction 1 as [|g s gs sd Hs Hsd IH]; intros Hreg x t t' Hx Ht H;
    inversion Hx as [|? x0 ? x' Hx0 Hx']; inversion Ht as [|? i ? t0 Hi Ht0]; subst.
  - injection H as <-. constructor.
  - inversion Hreg as [|? ? Hg Hgs]; subst. rewrite hc_cons in H.
    destruct (correct1 g (i - half_up s + raw_index1 g x0)%Z) as [k|] eqn:E; [|discriminate].
    destruct (hc_tuple gs sd x' t0) as [t''|] eqn:E'; [|discriminate]. injection H as <-.
    destruct Hg as (Hp & Hw & Hmax). rewrite raw_is_cell in E by assumption.
    constructor; [eapply query_axis_range; [exact Hp|exact Hs| |exact Hi|exact E]; now apply cell_index1_spec|].
    eapply IH; eauto.
Qed.

Lemma hc_unique gs sd : sd_ok gs sd -> Forall reg_axis gs -> forall x t1 t2 t', inside_g gs x ->
  in_range sd t1 -> in_range sd t2 ->
  hc_tuple gs sd x t1 = Some t' -> hc_tuple gs sd x t2 = Some t' -> t1 = t2.
Proof.
  induction 1 as [|g s gs sd Hs Hsd IH]; intros Hreg x t1 t2 t' Hx H1 H2 E1 E2;
    inversion Hx as [|? x0 ? x' Hx0 Hx']; inversion H1 as [|? i ? t1' Hi Ht1]; inversion H2 as [|? j ? t2' Hj Ht2]; subst.
  - reflexivity.
  - inversion Hreg as [|? ? Hg Hgs]; subst. rewrite hc_cons in E1, E2.
    destruct (correct1 g (i - half_up s + raw_index1 g x0)%Z) as [k|] eqn:C1; [|discriminate].
    destruct (hc_tuple gs sd x' t1') as [u1|] eqn:D1; [|discriminate]. injection E1 as <-.
    destruct (correct1 g (j - half_up s + raw_index1 g x0)%Z) as [k'|] eqn:C2; [|discriminate].
    destruct (hc_tuple gs sd x' t2') as [u2|] eqn:D2; [|discriminate]. injection E2 as -> ->.
    destruct Hg as (Hp & Hw & Hmax). rewrite raw_is_cell in C1, C2 by assumption.
    f_equal.
    + eapply query_axis_unique; [exact Hp|exact Hs| |exact Hi|exact Hj|exact C1|exact C2]. now apply cell_index1_spec.
    + eapply IH; eauto.
Qed.

Lemma in_hypercube gs sd x l : Forall (fun d => 0 < d)%Z sd ->
  In l (hypercube gs sd x) <-> exists t t', in_range sd t /\ hc_tuple gs sd x t = Some t' /\
    l = tuple_to_linear (dims_of gs) t'.
Proof.
  intros Hsd. unfold hypercube. rewrite in_flat_map. split.
  - intros (j & Hj & Hl). apply in_zrange in Hj. destruct (linear_of_address sd Hsd j Hj) as [R _].
    exists (getAddressCM j sd). unfold hc_tuple.
    destruct (correct_index gs (zadd (zsub (getAddressCM j sd) (map half_up sd)) (raw_tuple gs x))) as [t'|]; [|destruct Hl].
    destruct Hl as [<-|[]]. exists t'. auto.
  - intros (t & t' & Ht & Hc & ->). exists (tuple_to_linear sd t). split.
    + apply in_zrange. now apply linear_bound.
    + rewrite address_of_linear by exact Ht. unfold hc_tuple in Hc. rewrite Hc. now left.
Qed.

Lemma hypercube_nodup gs sd x : sd_ok gs sd -> Forall reg_axis gs -> inside_g gs x -> NoDup (hypercube gs sd x).
Proof.
  intros Hs Hreg Hx.
  assert (Hsd : Forall (fun d => 0 < d)%Z sd) by (clear -Hs; induction Hs; constructor; auto; lia).
  unfold hypercube. apply NoDup_flat_map; [apply NoDup_zrange| |].
  - intros j _. destruct (correct_index gs (zadd (zsub (getAddressCM j sd) (map half_up sd)) (raw_tuple gs x)));
      repeat constructor. intros [].
  - intros j j' l Hj Hj' Hl Hl'. apply in_zrange in Hj. apply in_zrange in Hj'.
    destruct (linear_of_address sd Hsd j Hj) as [R E]. destruct (linear_of_address sd Hsd j' Hj') as [R' E'].
    fold (hc_tuple gs sd x (getAddressCM j sd)) in Hl. fold (hc_tuple gs sd x (getAddressCM j' sd)) in Hl'.
    destruct (hc_tuple gs sd x (getAddressCM j sd)) as [t1|] eqn:C1; [|destruct Hl].
    destruct (hc_tuple gs sd x (getAddressCM j' sd)) as [t2|] eqn:C2; [|destruct Hl'].
    destruct Hl as [<-|[]]. destruct Hl' as [El|[]].
    pose proof (hc_range gs sd Hs Hreg x _ _ Hx R C1). pose proof (hc_range gs sd Hs Hreg x _ _ Hx R' C2).
    apply linear_injective in El; auto. subst t2.
    rewrite <- E, <- E'. f_equal. eapply hc_unique; eauto.
Qed.

Lemma search_sd_ok d f gs : 0 < d -> window d f -> Forall reg_axis gs -> sd_ok gs (map f gs).
Proof.
  intros Hd Hf. induction 1 as [|g gs Hg Hgs IH]; constructor; auto.
  destruct Hg as (Hp & Hw & _). destruct (sweep1_nonneg d g Hw Hd) as [Hs _]. destruct Hp as (_ & _ & Hp).
  destruct (Hf g) as (m & -> & Hm). lia.
Qed.

Lemma sd_pos gs sd : sd_ok gs sd -> Forall (fun d => 0 < d)%Z sd.
Proof. induction 1; constructor; auto; lia. Qed.

Lemma getAllWithin_nodup e b ps excl x d : 0 < d -> Forall reg_axis (grid e) -> inside_g (grid e) x ->
  NoDup (getAllWithin e b ps excl x d).
Proof.
  intros Hd Hreg Hx. unfold getAllWithin. destruct (Qltb_spec d 0); [lra|].
  apply NoDup_flat_map.
  - apply hypercube_nodup; auto. apply (search_sd_ok d); auto; apply window_within.
  - intros. apply NoDup_filter, cell_ids_nodup.
  - intros l l' i _ _ Hi Hi'. apply filter_In in Hi. apply filter_In in Hi'.
    destruct Hi as [Hi _]. destruct Hi' as [Hi' _]. apply in_cell_ids in Hi. apply in_cell_ids in Hi'.
    eapply binned_unique; eauto.
Qed.

Lemma getAllWithin_spec e b ps excl x d i : 0 < d -> Forall reg_axis (grid e) -> Forall (wide_enough d) (grid e) ->
  box_of (grid e) = b -> inside_g (grid e) x ->
  (forall p, In p ps -> wrapped_g (grid e) (px p)) ->
  (In i (getAllWithin e b ps excl x d) <->
   exists p, nth_error ps i = Some p /\ (0 <= ptype p)%Z /\ interacts e (ptype p) = true /\ excl <> Some i /\
     getDistanceSqr b x (px p) < Qsqr d).
Proof.
  intros Hd Hreg Hwe Hb Hx Hps. unfold getAllWithin. destruct (Qltb_spec d 0) as [|_]; [lra|].
  assert (Hexc : negb (match excl with Some k => Nat.eqb i k | None => false end) = true <-> excl <> Some i).
  { destruct excl as [k|]; [|split; [discriminate|reflexivity]]. destruct (Nat.eqb_spec i k) as [->|Hn]; simpl;
      split; congruence. }
  rewrite in_flat_map. split.
  - intros (l & Hl & Hi). apply filter_In in Hi. destruct Hi as [Hi Hw]. apply andb_prop in Hw. destruct Hw as [He Hw].
    apply in_cell_ids in Hi. unfold binned_in in Hi. unfold within in Hw.
    destruct (nth_error ps i) as [p|]; [|discriminate]. exists p. split; [reflexivity|].
    apply andb_prop in Hi. destruct Hi as [Hi _]. apply andb_prop in Hi. destruct Hi as [Ht Hi].
    apply andb_prop in Hw. destruct Hw as [_ Hw]. split; [lia|]. split; [exact Hi|]. split; [now apply Hexc|].
    destruct (Qltb_spec (getDistanceSqr b x (px p)) (Qsqr d)); [assumption|discriminate].
  - intros (p & Hp & Ht & Hi & He & Hdist).
    assert (Hy : wrapped_g (grid e) (px p)) by (apply Hps; eapply nth_error_In; eauto).
    rewrite <- Hb in Hdist. destruct (query_vec d (within_search1 d) (grid e) Hd (window_within d) Hreg Hwe x (px p) Hx Hy Hdist) as (t & Ht' & Hc).
    exists (get_cell_index (grid e) (px p)). split.
    + apply in_hypercube; [apply (sd_pos (grid e)); apply (search_sd_ok d); auto; apply window_within|].
      exists t, (cell_tuple (grid e) (px p)). auto.
    + apply filter_In. split.
      * apply in_cell_ids. unfold binned_in. rewrite Hp, Hi, Z.eqb_refl.
        destruct (Z.leb_spec 0 (ptype p)); [reflexivity|lia].
      * apply andb_true_intro. split; [now apply Hexc|]. unfold within. rewrite Hp. rewrite <- Hb.
        destruct (Qltb_spec 0 d); [|lra].
        destruct (Qltb_spec (getDistanceSqr (box_of (grid e)) x (px p)) (Qsqr d)); [reflexivity|contradiction].
Qed.
