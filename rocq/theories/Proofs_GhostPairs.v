(* The grid of a region with halo cells behaves like a plain grid that is one cell larger on the sides with other
   processors. *)
From Verif Require Import Lib Model_Geometry Model_Cells Model_GhostPairs Spec_Cells Spec_GhostPairs Proofs_Geometry
  Proofs_Cells1 Proofs_Cells2 Proofs_Cells3 Proofs_Cells4 Proofs_Cells5 Proofs_Cells6.
From Coq Require Import ZifyBool ZifyNat.
Local Open Scope Q_scope.

(* ---------------------------------------------------------------- borders *)
Lemma whole_dec a : whole a \/ ~ whole a.
Proof. unfold whole. destruct (Qeq_dec (pmax a - pmin a) (smax a - smin a)); auto. Qed.
Lemma spanned_spec a : spanned a = true <-> pbc a = WRAP /\ whole a.
Proof.
  unfold spanned, whole. rewrite andb_true_iff, Qeq_bool_iff.
  destruct (bc_eqb_spec (pbc a) WRAP) as [E|E]; split; intros [H1 H2]; auto; try discriminate; contradiction.
Qed.
Lemma border_down_spec a : border_down a = 0%Z <-> ~ below a.
Proof.
  unfold border_down, below, whole. destruct (bc_eqb_spec (pbc a) WRAP) as [E|E].
  - destruct (Qeq_bool (pmax a - pmin a) (smax a - smin a)) eqn:K.
    + apply Qeq_bool_iff in K. split; [intros _ [[_ H]|[H _]]; contradiction|reflexivity].
    + apply Qeq_bool_neq in K. destruct (Qeq_bool (pmin a) (smin a)); (split; [discriminate|intros H; exfalso; apply H; auto]).
  - destruct (Qeq_bool (pmin a) (smin a)) eqn:K.
    + apply Qeq_bool_iff in K. split; [intros _ [[H _]|[_ H]]; contradiction|reflexivity].
    + apply Qeq_bool_neq in K. split; [discriminate|intros H; exfalso; apply H; auto].
Qed.
Lemma border_up_spec a : border_up a = 0%Z <-> ~ above a.
Proof.
  unfold border_up, above, whole. destruct (bc_eqb_spec (pbc a) WRAP) as [E|E].
  - destruct (Qeq_bool (pmax a - pmin a) (smax a - smin a)) eqn:K.
    + apply Qeq_bool_iff in K. split; [intros _ [[_ H]|[H _]]; contradiction|reflexivity].
    + apply Qeq_bool_neq in K. destruct (Qeq_bool (pmax a) (smax a)); (split; [discriminate|intros H; exfalso; apply H; auto]).
  - destruct (Qeq_bool (pmax a) (smax a)) eqn:K.
    + apply Qeq_bool_iff in K. split; [intros _ [[H _]|[_ H]]; contradiction|reflexivity].
    + apply Qeq_bool_neq in K. split; [discriminate|intros H; exfalso; apply H; auto].
Qed.

(* ---------------------------------------------------------------- the grid of a region *)
Record pfacts (c : Q) (a : paxis) (g : gaxis) : Prop := {
  pf_min : gmin g = pmin a; pf_max : gmax g = pmax a; pf_bc : gbc g = pbc a;
  pf_down : (gdown g = 0%Z <-> ~ below a) /\ (shift_down g = 0%Z \/ shift_down g = 1%Z);
  pf_up : (gup g = 0%Z <-> ~ above a) /\ (shift_up g = 0%Z \/ shift_up g = 1%Z);
  pf_dim4 : (4 <= gdim g - shift_down g - shift_up g)%Z;
  pf_w : gw g * inject_Z (gdim g - shift_down g - shift_up g) == pmax a - pmin a;
  pf_wpos : 0 < gw g; pf_hi : gw g < (5#4) * c; pf_lo : 4 * c <= pmax a - pmin a -> c <= gw g; pf_lo4 : c <= 4 * gw g }.

Definition inner (a : paxis) : axis := mkAxis (pmin a) (pmax a) (pbc a).

Lemma cell_axis_inner c a : cell_axis c a =
  match cell_axis c (box_paxis (inner a)) with
  | None => None
  | Some g0 => Some (mkG (pmin a) (pmax a)
      (gdim g0 + (if (border_down a =? 0)%Z then 0 else 1) + (if (border_up a =? 0)%Z then 0 else 1))%Z
      (gw g0) (pbc a) (border_up a) (border_down a))
  end.
Proof.
  unfold cell_axis. destruct (border_box (inner a)) as [E1 E2]. rewrite E1, E2.
  cbn [box_paxis inner pmax pmin pbc lo hi bc]. rewrite Z.eqb_refl.
  destruct (to_int ((pmax a - pmin a) / c) <=? 0)%Z; [reflexivity|]. cbn [gdim gw].
  do 2 f_equal. destruct (border_down a =? 0)%Z; destruct (border_up a =? 0)%Z; lia.
Qed.

Lemma cell_axis_pfacts c a : 0 < c -> c <= pmax a - pmin a ->
  exists g0 g, cell_axis c a = Some g /\ pfacts c a g /\ axis_facts c (inner a) g0 /\ gw g0 = gw g.
Proof.
  intros Hc Hw. destruct (cell_axis_facts c (inner a) Hc Hw) as (g0 & E & F).
  exists g0. rewrite cell_axis_inner, E. eexists. split; [reflexivity|]. split; [|split; [exact F|reflexivity]].
  destruct F as [E1 E2 E3 Hp H4 Hwd Hwp Hhi Hlo Hlo4].
  assert (Esd : shift_down (mkG (pmin a) (pmax a)
      (gdim g0 + (if (border_down a =? 0)%Z then 0 else 1) + (if (border_up a =? 0)%Z then 0 else 1))%Z
      (gw g0) (pbc a) (border_up a) (border_down a)) = (if (border_down a =? 0)%Z then 0 else 1)%Z) by reflexivity.
  assert (Esu : shift_up (mkG (pmin a) (pmax a)
      (gdim g0 + (if (border_down a =? 0)%Z then 0 else 1) + (if (border_up a =? 0)%Z then 0 else 1))%Z
      (gw g0) (pbc a) (border_up a) (border_down a)) = (if (border_up a =? 0)%Z then 0 else 1)%Z) by reflexivity.
  constructor; rewrite ?Esd, ?Esu; cbn [gmin gmax gbc gdim gw gup gdown]; auto.
  - split; [apply border_down_spec|]. destruct (border_down a =? 0)%Z; auto.
  - split; [apply border_up_spec|]. destruct (border_up a =? 0)%Z; auto.
  - lia.
  - match goal with |- _ * inject_Z ?z == _ => replace z with (gdim g0) by lia end. exact Hwd.
Qed.

Lemma cell_dims_pfacts c p : 0 < c -> Forall (fun a => c <= pmax a - pmin a) p ->
  exists gs0 gs, cell_dimensions c p = Some gs /\ Forall2 (pfacts c) p gs /\
    Forall2 (axis_facts c) (map inner p) gs0 /\ map gw gs0 = map gw gs.
Proof.
  intros Hc. induction 1 as [|a p Ha Hp (gs0 & gs & E & F & F0 & Ew)].
  - exists [], []. repeat split; constructor.
  - destruct (cell_axis_pfacts c a Hc Ha) as (g0 & g & Eg & Fg & Fg0 & Ewg). exists (g0 :: gs0), (g :: gs).
    cbn [map cell_dimensions]. rewrite Eg, E. repeat split; try constructor; auto. congruence.
Qed.

(* ---------------------------------------------------------------- the extended grid *)
Definition ext (g : gaxis) : gaxis :=
  mkG (gmin g - inject_Z (shift_down g) * gw g) (gmax g + inject_Z (shift_up g) * gw g) (gdim g) (gw g)
    (if bc_eqb (gbc g) WRAP && (gup g =? 0)%Z && (gdown g =? 0)%Z then WRAP else OPEN) 0 0.
Definition ext_env (e : env) : env :=
  mkEnv (cutoff_grid e) (max_cutoff e) (interacts e) (skin e) (max_small_sigma e) (map ext (grid e)) (sim_wd e).

Lemma pf_wrap_borders c a g : pfacts c a g -> gbc g = WRAP -> (gup g = 0%Z <-> gdown g = 0%Z).
Proof.
  intros F E. destruct (pf_down _ _ _ F) as [Hd _]. destruct (pf_up _ _ _ F) as [Hu _]. rewrite Hd, Hu.
  rewrite (pf_bc _ _ _ F) in E. unfold above, below. split; intros H K; apply H; destruct K as [[? ?]|[? ?]]; auto; contradiction.
Qed.
Lemma ext_bc c a g : pfacts c a g -> gbc (ext g) = (if spanned a then WRAP else OPEN).
Proof.
  intros F. unfold ext; cbn [gbc]. rewrite (pf_bc _ _ _ F). destruct (spanned a) eqn:S.
  - apply spanned_spec in S. destruct S as [S1 S2]. rewrite S1. cbn [bc_eqb].
    destruct (pf_down _ _ _ F) as [[_ Hd] _]. destruct (pf_up _ _ _ F) as [[_ Hu] _].
    rewrite Hd, Hu; [reflexivity| |]; intros [[_ K]|[K _]]; contradiction.
  - destruct (bc_eqb_spec (pbc a) WRAP) as [E|E]; [|reflexivity]. cbn [andb].
    destruct (Z.eqb_spec (gup g) 0) as [Eu|]; [|reflexivity]. exfalso.
    destruct (pf_up _ _ _ F) as [[Hu _] _]. apply (Hu Eu). left. split; [exact E|].
    intros W. assert (spanned a = true) by (apply spanned_spec; auto). congruence.
Qed.

Lemma ext_correct1 c a g i : pfacts c a g -> correct1 (ext g) i = correct1 g i.
Proof.
  intros F. unfold correct1, ext; cbn [gdim gbc gup gdown]. pose proof (pf_wrap_borders c a g F) as Hb.
  destruct (bc_eqb_spec (gbc g) WRAP) as [E|E].
  - specialize (Hb E). destruct (Z.eqb_spec (gup g) 0) as [Eu|Nu]; destruct (Z.eqb_spec (gdown g) 0) as [Ed|Nd]; cbn [andb bc_eqb].
    + reflexivity.
    + exfalso; tauto.
    + exfalso; tauto.
    + reflexivity.
  - cbn [andb bc_eqb]. reflexivity.
Qed.
Lemma ext_correct c p gs : Forall2 (pfacts c) p gs -> forall t, correct_index (map ext gs) t = correct_index gs t.
Proof.
  induction 1 as [|a g p gs Fa F IH]; intros [|i t]; try reflexivity. cbn [map]. rewrite !correct_cons.
  now rewrite (ext_correct1 c a g i Fa), IH.
Qed.
Lemma ext_dims gs : dims_of (map ext gs) = dims_of gs.
Proof. unfold dims_of. now rewrite map_map. Qed.
Lemma ext_gw gs : map gw (map ext gs) = map gw gs.
Proof. now rewrite map_map. Qed.

Lemma gw_centers c gs gs' : map gw gs = map gw gs' -> centers c gs = centers c gs'.
Proof.
  revert gs'. induction gs as [|g gs IH]; intros [|g' gs'] H; try discriminate; [reflexivity|].
  injection H as H1 H2. unfold centers in *. simpl. rewrite (IH gs' H2). f_equal. unfold sweep1. now rewrite H1.
Qed.
Lemma gw_keep c gs gs' : map gw gs = map gw gs' -> keep_half c gs -> keep_half c gs'.
Proof.
  intros H Hk o Ho Hi. rewrite <- (gw_centers c gs gs' H) in *. unfold stencil_keep. rewrite <- H. now apply Hk.
Qed.
Lemma gw_neighbors c gs gs' : map gw gs = map gw gs' -> neighbor_indices c gs = neighbor_indices c gs'.
Proof.
  intros H. pose proof (gw_centers c gs gs' H) as Hc. unfold neighbor_indices, stencil_volume.
  rewrite !little_dims_odd, Hc.
  assert (E : map (stencil_offset c gs) (zrange (prodZ (odd_dims (centers c gs')))) =
              map (stencil_offset c gs') (zrange (prodZ (odd_dims (centers c gs'))))).
  { apply map_ext. intros i. unfold stencil_offset. now rewrite !little_dims_odd, Hc. }
  rewrite E. apply filter_ext. intros o. unfold stencil_keep. now rewrite H.
Qed.

(* ---------------------------------------------------------------- cells of own particles *)
Lemma to_int_shift (q r : Q) (k : Z) : r == q + inject_Z k -> (k = 0%Z \/ (0 <= q /\ (0 <= k)%Z)) -> to_int r = (to_int q + k)%Z.
Proof.
  intros E H. unfold to_int.
  assert (G : forall u v, u == v -> Qtrunc u = Qtrunc v).
  { intros u v Huv. unfold Qtrunc. qcases; try lra; [f_equal|]; apply Qfloor_comp; rewrite ?Huv; reflexivity. }
  rewrite (G _ _ E). destruct H as [->|[Hq Hk]].
  - rewrite Z.add_0_r. apply G. change (inject_Z 0) with 0. ring.
  - assert (0 <= inject_Z k) by (change 0 with (inject_Z 0); now apply Zle_Q).
    rewrite !Qtrunc_nonneg by lra. rewrite Qfloor_add_inject_Z_r || apply Z.le_antisymm.
    + assert (H1 := Qfloor_le (q + inject_Z k)). assert (H2 := Qlt_floor q). rewrite inject_Z_plus in H2.
      change (inject_Z 1) with 1 in H2.
      assert (H3 : inject_Z (Qfloor (q + inject_Z k)) < inject_Z (Qfloor q + k + 1)).
      { rewrite !inject_Z_plus. change (inject_Z 1) with 1. lra. }
      rewrite <- Zlt_Qlt in H3. lia.
    + assert (H1 := Qfloor_le q). assert (H2 := Qlt_floor (q + inject_Z k)).
      rewrite inject_Z_plus in H2. change (inject_Z 1) with 1 in H2.
      assert (H3 : inject_Z (Qfloor q + k) < inject_Z (Qfloor (q + inject_Z k) + 1)).
      { rewrite !inject_Z_plus. change (inject_Z 1) with 1. lra. }
      rewrite <- Zlt_Qlt in H3. lia.
Qed.

Lemma shift_down_below c a g : pfacts c a g -> (shift_down g = 0%Z /\ ~ below a) \/ (shift_down g = 1%Z /\ below a).
Proof.
  intros F. destruct (pf_down _ _ _ F) as [H _]. unfold shift_down. destruct (Z.eqb_spec (gdown g) 0) as [E|E].
  - left. tauto.
  - right. split; [reflexivity|]. unfold below, whole in *. destruct (bc_eqb_spec (pbc a) WRAP) as [W|W].
    + left. split; [exact W|]. intros K. apply E, H. intros [[_ ?]|[? _]]; contradiction.
    + right. split; [exact W|]. intros K. apply E, H. intros [[? _]|[_ ?]]; contradiction.
Qed.
Lemma shift_up_above c a g : pfacts c a g -> (shift_up g = 0%Z /\ ~ above a) \/ (shift_up g = 1%Z /\ above a).
Proof.
  intros F. destruct (pf_up _ _ _ F) as [H _]. unfold shift_up. destruct (Z.eqb_spec (gup g) 0) as [E|E].
  - left. tauto.
  - right. split; [reflexivity|]. unfold above, whole in *. destruct (bc_eqb_spec (pbc a) WRAP) as [W|W].
    + left. split; [exact W|]. intros K. apply E, H. intros [[_ ?]|[? _]]; contradiction.
    + right. split; [exact W|]. intros K. apply E, H. intros [[? _]|[_ ?]]; contradiction.
Qed.

Lemma ext_raw1 c a g x : pfacts c a g -> (below a -> pmin a <= x) -> raw_index1 (ext g) x = raw_index1 g x.
Proof.
  intros F Hx. unfold raw_index1. cbn [ext gmin gw]. change (shift_down (ext g)) with 0%Z.
  pose proof (pf_wpos _ _ _ F) as Hw.
  rewrite (to_int_shift ((x - gmin g) * (1 / gw g)) _ (shift_down g)); [lia| |].
  - field. lra.
  - destruct (shift_down_below c a g F) as [[E _]|[E Hb]]; rewrite E; [now left|right]. specialize (Hx Hb).
    rewrite <- (pf_min _ _ _ F) in Hx. split; [|lia].
    apply Qmult_le_0_compat; [lra|]. apply Qle_shift_div_l; lra.
Qed.

(* inner coordinates lie in the inner cells *)
Lemma raw_upper c a g x : pfacts c a g -> x < pmax a -> (raw_index1 g x < gdim g - shift_up g)%Z.
Proof.
  intros F Hx. unfold raw_index1. pose proof (pf_wpos _ _ _ F) as Hw. pose proof (pf_w _ _ _ F) as Ew.
  pose proof (pf_min _ _ _ F) as E1. pose proof (pf_dim4 _ _ _ F) as H4.
  set (D := (gdim g - shift_down g - shift_up g)%Z) in *.
  assert (En : (x - gmin g) * (1 / gw g) * gw g == x - gmin g) by (field; lra).
  set (q := (x - gmin g) * (1 / gw g)) in *. rewrite E1 in En.
  assert (HD : 4 <= inject_Z D) by (change 4 with (inject_Z 4); now apply Zle_Q).
  assert (Hq : q < inject_Z D) by nra. unfold to_int.
  destruct (Qlt_le_dec q 0) as [Hn|Hp].
  - destruct (Qtrunc_neg q Hn) as [K _]. change 0 with (inject_Z 0) in K. rewrite <- Zle_Qle in K. lia.
  - rewrite Qtrunc_nonneg by exact Hp. pose proof (Qfloor_le q) as K.
    assert (K2 : inject_Z (Qfloor q) < inject_Z D) by lra. rewrite <- Zlt_Qlt in K2. lia.
Qed.
Lemma raw_lower c a g x : pfacts c a g -> pmin a <= x -> (shift_down g <= raw_index1 g x)%Z.
Proof.
  intros F Hx. unfold raw_index1. pose proof (pf_wpos _ _ _ F) as Hw. rewrite <- (pf_min _ _ _ F) in Hx.
  assert (Hq : 0 <= (x - gmin g) * (1 / gw g)) by (apply Qmult_le_0_compat; [lra|apply Qle_shift_div_l; lra]).
  unfold to_int. rewrite Qtrunc_nonneg by exact Hq.
  assert (0 <= Qfloor ((x - gmin g) * (1 / gw g)))%Z by (change 0%Z with (Qfloor 0); now apply Qfloor_resp_le). lia.
Qed.

Lemma ext_cell1 c a g x : pfacts c a g -> own1 a x -> cell_index1 (ext g) x = cell_index1 g x.
Proof.
  intros F (Hb & Ha & _). pose proof (ext_raw1 c a g x F Hb) as E. unfold raw_index1 in E. unfold cell_index1.
  rewrite E. fold (raw_index1 g x). cbn [ext gdim]. change (shift_up (ext g)) with 0%Z. change (shift_down (ext g)) with 0%Z.
  pose proof (pf_dim4 _ _ _ F) as H4.
  destruct (shift_down_below c a g F) as [[Ed _]|[Ed Hb']];
  destruct (shift_up_above c a g F) as [[Eu _]|[Eu Ha']];
  try (pose proof (raw_lower c a g x F (Hb Hb'))); try (pose proof (raw_upper c a g x F (Ha Ha')));
  rewrite ?Ed, ?Eu in *; 
  repeat match goal with |- context [(?u <=? ?v)%Z] => destruct (Z.leb_spec u v) | |- context [(?u <? ?v)%Z] => destruct (Z.ltb_spec u v) end; lia.
Qed.
Lemma cell1_inner c a g x : pfacts c a g -> (shift_down g <= cell_index1 g x < gdim g - shift_up g)%Z.
Proof.
  intros F. pose proof (pf_dim4 _ _ _ F) as H4. unfold cell_index1.
  repeat match goal with |- context [(?u <=? ?v)%Z] => destruct (Z.leb_spec u v) | |- context [(?u <? ?v)%Z] => destruct (Z.ltb_spec u v) end; lia.
Qed.

Lemma ext_cells c p gs : Forall2 (pfacts c) p gs -> forall x, owned p x -> cell_tuple (map ext gs) x = cell_tuple gs x.
Proof.
  induction 1 as [|a g p gs Fa F IH]; intros x Hx; inversion Hx as [|? x0 ? x' Hx0 Hx']; subst; [reflexivity|].
  change (cell_tuple (map ext (g :: gs)) (x0 :: x')) with (cell_index1 (ext g) x0 :: cell_tuple (map ext gs) x').
  change (cell_tuple (g :: gs) (x0 :: x')) with (cell_index1 g x0 :: cell_tuple gs x').
  now rewrite (ext_cell1 c a g x0 Fa Hx0), (IH x' Hx').
Qed.
Lemma ext_raw c p gs : Forall2 (pfacts c) p gs -> forall x, owned p x -> raw_tuple (map ext gs) x = raw_tuple gs x.
Proof.
  induction 1 as [|a g p gs Fa F IH]; intros x Hx; inversion Hx as [|? x0 ? x' Hx0 Hx']; subst; [reflexivity|].
  change (raw_tuple (map ext (g :: gs)) (x0 :: x')) with (raw_index1 (ext g) x0 :: raw_tuple (map ext gs) x').
  change (raw_tuple (g :: gs) (x0 :: x')) with (raw_index1 g x0 :: raw_tuple gs x').
  now rewrite (ext_raw1 c a g x0 Fa (proj1 Hx0)), (IH x' Hx').
Qed.
Lemma own_not_halo c p gs : Forall2 (pfacts c) p gs -> forall x, length x = length gs -> is_halo_cell gs (cell_tuple gs x) = false.
Proof.
  induction 1 as [|a g p gs Fa F IH]; intros [|x0 x'] Hl; try discriminate; [reflexivity|].
  change (cell_tuple (g :: gs) (x0 :: x')) with (cell_index1 g x0 :: cell_tuple gs x').
  unfold is_halo_cell. cbn [combine existsb fst snd]. fold (is_halo_cell gs (cell_tuple gs x')).
  rewrite IH by (simpl in Hl; lia). pose proof (cell1_inner c a g x0 Fa). unfold is_halo1.
  destruct (Z.ltb_spec (cell_index1 g x0) (shift_down g)); [lia|].
  destruct (Z.leb_spec (gdim g - shift_up g) (cell_index1 g x0)); [lia|reflexivity].
Qed.

Lemma ext_binned c p e ps : Forall2 (pfacts c) p (grid e) -> (forall q, In q ps -> owned p (px q)) ->
  forall l, cell_ids (ext_env e) ps l = cell_ids e ps l.
Proof.
  intros F Hp l. unfold cell_ids. apply filter_ext_in. intros i _. unfold binned_in.
  destruct (nth_error ps i) as [q|] eqn:E; [|reflexivity]. cbn [ext_env interacts grid]. unfold get_cell_index.
  rewrite ext_dims, (ext_cells c p (grid e) F) by (apply Hp; eapply nth_error_In; exact E). reflexivity.
Qed.

Lemma ext_hypercube c p gs : Forall2 (pfacts c) p gs -> forall d x, owned p x ->
  hypercube (map ext gs) (map (large_search1 d) (map ext gs)) x = hypercube gs (map (large_search1 d) gs) x.
Proof.
  intros F d x Hx. unfold hypercube.
  assert (E : map (large_search1 d) (map ext gs) = map (large_search1 d) gs) by (rewrite map_map; reflexivity).
  rewrite E. apply flat_map_ext. intros j. rewrite (ext_correct c p gs F), (ext_raw c p gs F x Hx), ext_dims. reflexivity.
Qed.

Lemma ext_visit_particle c p e ps adj : Forall2 (pfacts c) p (grid e) -> (forall q, In q ps -> owned p (px q)) ->
  forall i r, visit_particle (ext_env e) ps adj i r = visit_particle e ps adj i r.
Proof.
  intros F Hp i r. unfold visit_particle. destruct (nth_error ps i) as [q|] eqn:E; [|reflexivity].
  change (is_large (ext_env e) q) with (is_large e q). destruct (ptype q <? 0)%Z; [reflexivity|].
  destruct (negb (is_large e q)).
  - f_equal. apply flat_map_ext. intros d. rewrite (ext_binned c p e ps F Hp). reflexivity.
  - cbn [ext_env grid]. change (sigma (ext_env e) q) with (sigma e q). change (skin (ext_env e)) with (skin e).
    rewrite (ext_hypercube c p (grid e) F) by (apply Hp; eapply nth_error_In; exact E).
    apply flat_map_ext. intros d. change (mkEnv (cutoff_grid e) (max_cutoff e) (interacts e) (skin e) (max_small_sigma e)
      (map ext (grid e)) (sim_wd e)) with (ext_env e). rewrite (ext_binned c p e ps F Hp). reflexivity.
Qed.
Lemma ext_visit_cell c p e ps adj : Forall2 (pfacts c) p (grid e) -> (forall q, In q ps -> owned p (px q)) ->
  forall ids, visit_cell (ext_env e) ps adj ids = visit_cell e ps adj ids.
Proof.
  intros F Hp. induction ids as [|i r IH]; [reflexivity|]. cbn [visit_cell].
  now rewrite (ext_visit_particle c p e ps adj F Hp), IH.
Qed.

(* a halo cell holds no particle *)
Lemma halo_empty c p e ps l : Forall2 (pfacts c) p (grid e) -> (forall q, In q ps -> owned p (px q)) ->
  is_halo_cell (grid e) (getAddressCM l (dims_of (grid e))) = true -> cell_ids e ps l = [].
Proof.
  intros F Hp H. unfold cell_ids.
  destruct (filter (binned_in e ps l) (seq 0 (length ps))) as [|i r] eqn:E; [reflexivity|exfalso].
  assert (Hi : In i (cell_ids e ps l)) by (unfold cell_ids; rewrite E; now left).
  apply in_cell_ids in Hi. unfold binned_in in Hi. destruct (nth_error ps i) as [q|] eqn:Eq; [|discriminate].
  apply andb_prop in Hi. destruct Hi as [_ Hi]. apply Z.eqb_eq in Hi. subst l.
  pose proof (Hp q (nth_error_In _ _ Eq)) as Ho.
  assert (Hl : length (px q) = length (grid e)).
  { transitivity (length p); [symmetry; eapply Forall2_len; exact Ho|eapply Forall2_len; exact F]. }
  unfold get_cell_index in H. rewrite address_of_linear in H.
  - rewrite (own_not_halo c p (grid e) F _ Hl) in H. discriminate.
  - clear - F Hl. revert Hl. generalize (px q). intros x. revert x.
    induction F as [|a g p gs Fa F IH]; intros [|x0 x] Hl; try discriminate; constructor.
    + pose proof (cell1_inner c a g x0 Fa) as H. destruct (pf_down _ _ _ Fa) as [_ Hd]. destruct (pf_up _ _ _ Fa) as [_ Hu].
      cbn [fst snd]. lia.
    + apply IH. simpl in Hl. lia.
Qed.

Lemma ext_traverse c p e ps : Forall2 (pfacts c) p (grid e) -> (forall q, In q ps -> owned p (px q)) ->
  goodenv (ext_env e) -> traversePairs e ps = traversePairs (ext_env e) ps.
Proof.
  intros F Hp Hg. unfold traversePairs. cbn [ext_env grid]. rewrite ext_dims.
  change (mkEnv (cutoff_grid e) (max_cutoff e) (interacts e) (skin e) (max_small_sigma e)
      (map ext (grid e)) (sim_wd e)) with (ext_env e).
  assert (G : forall cs, (forall l, In l cs -> (0 <= l < prodZ (dims_of (grid e)))%Z) ->
    traverse_cells e ps cs = traverse_cells (ext_env e) ps cs).
  { induction cs as [|l cs IH]; intros Hin; [reflexivity|]. cbn [traverse_cells].
    rewrite <- IH by (intros; apply Hin; now right).
    change (min_small_cutoff (ext_env e)) with (min_small_cutoff e). cbn [ext_env grid].
    change (mkEnv (cutoff_grid e) (max_cutoff e) (interacts e) (skin e) (max_small_sigma e)
      (map ext (grid e)) (sim_wd e)) with (ext_env e).
    destruct Hg as (Hgg & Hk & Hc & _). change (min_small_cutoff (ext_env e)) with (min_small_cutoff e) in *.
    cbn [ext_env grid] in Hgg, Hk.
    destruct (linear_of_address (dims_of (map ext (grid e))) (dims_pos _ _ Hgg) l) as [R E].
    { rewrite ext_dims. apply Hin. now left. }
    destruct (is_halo_cell (grid e) (getAddressCM l (dims_of (grid e)))) eqn:Hh.
    - pose proof (halo_empty c p e ps l F Hp Hh) as Hempty.
      pose proof (adjacent_some _ _ Hgg Hk _ R) as Had. rewrite E in Had.
      change (grid (ext_env e)) with (map ext (grid e)). rewrite Had.
      rewrite (ext_binned c p e ps F Hp), Hempty. unfold adjacent. rewrite Hh. reflexivity.
    - assert (Ea : adjacent (min_small_cutoff e) (grid e) l = adjacent (min_small_cutoff e) (map ext (grid e)) l).
      { unfold adjacent. rewrite Hh. rewrite (not_halo _ _ Hgg _ R). rewrite ext_dims.
        unfold stencil_volume. rewrite !little_dims_odd, (gw_centers _ _ _ (ext_gw (grid e))).
        rewrite (gw_neighbors _ _ _ (ext_gw (grid e))).
        match goal with |- (if ?b then _ else _) = _ => destruct b; [|reflexivity] end.
        f_equal. apply flat_map_ext. intros o. unfold adj_of_offset. now rewrite (ext_correct c p (grid e) F), ext_dims. }
      change (grid (ext_env e)) with (map ext (grid e)). rewrite <- Ea.
      destruct (adjacent (min_small_cutoff e) (grid e) l) as [adj|]; [|reflexivity].
      rewrite (ext_binned c p e ps F Hp), (ext_visit_cell c p e ps adj F Hp). reflexivity. }
  apply G. intros l. apply in_zrange.
Qed.

(* ---------------------------------------------------------------- the set-up gives a good extended grid *)
Lemma ext_good_axis c a g : 0 < c -> pfacts c a g -> (pbc a = WRAP -> whole a -> 4 * c <= pmax a - pmin a) -> good_axis c (ext g).
Proof.
  intros Hc F H4. pose proof (pf_wpos _ _ _ F) as Hw. pose proof (pf_dim4 _ _ _ F) as Hd.
  assert (Hp : (0 < gdim g)%Z) by (destruct (pf_down _ _ _ F) as [_ ?]; destruct (pf_up _ _ _ F) as [_ ?]; lia).
  split; [unfold plain; cbn [ext gup gdown gdim]; auto|]. split; [exact Hw|]. split; [|split; [exact Hc|]].
  - cbn [ext gmax gmin gdim gw]. pose proof (pf_w _ _ _ F) as Ew. rewrite <- (pf_min _ _ _ F), <- (pf_max _ _ _ F) in Ew.
    unfold Z.sub in Ew. rewrite !inject_Z_plus, !inject_Z_opp in Ew. lra.
  - intros E. rewrite (ext_bc c a g F) in E. destruct (spanned a) eqn:S; [|discriminate]. apply spanned_spec in S.
    destruct S as [S1 S2]. pose proof (pf_lo _ _ _ F (H4 S1 S2)) as Hlo.
    assert (sweep1 c (ext g) <= 1)%Z.
    { unfold sweep1. cbn [ext gw]. change 1%Z with (Qceiling 1). apply Qceiling_resp_le. apply Qle_shift_div_r; lra. }
    cbn [ext gdim]. destruct (pf_down _ _ _ F) as [_ ?]; destruct (pf_up _ _ _ F) as [_ ?]. lia.
Qed.

Lemma region_facts p e : search_on p e -> region_large_enough (min_small_cutoff e) p ->
  Forall2 (pfacts (min_small_cutoff e)) p (grid e) /\ good_grid (min_small_cutoff e) (map ext (grid e)).
Proof.
  intros (E & Hs & Hc) Hl.
  destruct (cell_dims_pfacts _ p Hc) as (gs0 & gs & E' & F & _ & _).
  { eapply Forall_impl; [|exact Hl]. intros a [H _]. exact H. }
  rewrite E in E'. injection E' as E'. rewrite <- E' in F. split; [exact F|].
  clear E E' gs0 Hs. unfold region_large_enough in Hl. revert Hl. induction F as [|a g p gs' Fa F IH]; intros Hl; [constructor|].
  inversion Hl as [|? ? [_ H4] Hl']; subst. constructor; [eapply ext_good_axis; eauto|exact (IH Hl')].
Qed.

Lemma region_goodenv p e : search_on p e -> region_large_enough (min_small_cutoff e) p ->
  stencil_range (min_small_cutoff e) (region_box p) -> goodenv (ext_env e).
Proof.
  intros Hon Hl Hst. destruct (region_facts p e Hon Hl) as [F Hg]. destruct Hon as (E & Hs & Hc).
  unfold goodenv. change (min_small_cutoff (ext_env e)) with (min_small_cutoff e). cbn [ext_env grid sim_wd].
  split; [exact Hg|]. split; [|split; [exact Hc|]].
  - destruct (cell_dims_pfacts _ p Hc) as (gs0 & gs & E' & _ & F0 & Ew).
    { eapply Forall_impl; [|exact Hl]. intros a [H _]. exact H. }
    rewrite E in E'. injection E' as E'. rewrite <- E' in Ew.
    apply (gw_keep _ gs0); [rewrite ext_gw; exact Ew|]. apply (facts_keep _ (map inner p) gs0 Hc); [|exact F0].
    unfold stencil_ok, nq. unfold stencil_range, region_box in Hst. rewrite map_length in *.
    destruct Hst as [[H1 H2]|H2]; [left; split; [|exact H2]|right; exact H2].
    apply Forall_forall. intros a' Ha'. apply in_map_iff in Ha'. destruct Ha' as (a & <- & Ha).
    rewrite Forall_forall in H1.
    exact (H1 (mkAxis (pmin a) (pmax a) (if spanned a then WRAP else OPEN))
      (in_map (fun a => mkAxis (pmin a) (pmax a) (if spanned a then WRAP else OPEN)) p a Ha)).
  - intros g' Hg' Hb. apply in_map_iff in Hg'. destruct Hg' as (g & <- & Hin).
    apply In_nth_error in Hin. destruct Hin as (k & Hk).
    assert (G : exists a, nth_error p k = Some a /\ pfacts (min_small_cutoff e) a g).
    { clear - F Hk. revert k Hk. induction F as [|a g0 p gs Fa F IH]; intros [|k] Hk; try discriminate.
      - injection Hk as <-. exists a. auto.
      - exact (IH k Hk). }
    destruct G as (a & Ha & Fa). rewrite (ext_bc _ a g Fa) in Hb.
    destruct (spanned a) eqn:Sp; [|discriminate]. apply spanned_spec in Sp. destruct Sp as [S1 S2].
    exists (smax a - smin a). split.
    + rewrite Hs. apply (in_map (fun a => smax a - smin a)). eapply nth_error_In; exact Ha.
    + cbn [ext gmax gmin]. rewrite (pf_min _ _ _ Fa), (pf_max _ _ _ Fa).
      destruct (shift_down_below _ a g Fa) as [[E1 _]|[_ K]]; [|exfalso; destruct K as [[_ K]|[K _]]; contradiction].
      destruct (shift_up_above _ a g Fa) as [[E2 _]|[_ K]]; [|exfalso; destruct K as [[_ K]|[K _]]; contradiction].
      rewrite E1, E2. change (inject_Z 0) with 0. unfold whole in S2. lra.
Qed.

(* distances *)
Lemma ext_distance c p gs : Forall2 (pfacts c) p gs -> forall x y,
  getDistanceSqr (box_of (map ext gs)) x y == getDistanceSqr (region_box p) x y.
Proof.
  induction 1 as [|a g p gs Fa F IH]; intros [|x0 x] [|y0 y]; try reflexivity.
  cbn [map box_of region_box getDistanceSqr]. fold (box_of (map ext gs)) (region_box p). rewrite IH.
  enough (E : min_image1 (axis_of (ext g)) (x0 - y0) ==
     min_image1 {| lo := pmin a; hi := pmax a; bc := if spanned a then WRAP else OPEN |} (x0 - y0)).
  { unfold Qsqr. rewrite E. reflexivity. }
  unfold min_image1. cbn [axis_of bc]. rewrite (ext_bc c a g Fa).
  destruct (spanned a) eqn:Sp; [|reflexivity]. cbn [bc_eqb].
  apply spanned_spec in Sp. destruct Sp as [S1 S2].
  assert (Ew : wd (axis_of (ext g)) == pmax a - pmin a).
  { unfold wd. cbn [axis_of lo hi ext gmin gmax]. rewrite (pf_min _ _ _ Fa), (pf_max _ _ _ Fa).
    destruct (shift_down_below _ a g Fa) as [[E1 _]|[_ K]]; [|exfalso; destruct K as [[_ K]|[K _]]; contradiction].
    destruct (shift_up_above _ a g Fa) as [[E2 _]|[_ K]]; [|exfalso; destruct K as [[_ K]|[K _]]; contradiction].
    rewrite E1, E2. change (inject_Z 0) with 0. lra. }
  set (W := wd (axis_of (ext g))) in *. unfold wd; cbn [lo hi].
  qcases; rewrite ?Ew in *; try reflexivity; try lra.
Qed.

Lemma own_wrapped c p gs : Forall2 (pfacts c) p gs -> forall x, owned p x -> wrapped_g (map ext gs) x.
Proof.
  induction 1 as [|a g p gs Fa F IH]; intros x Hx; inversion Hx as [|? x0 ? x' Hx0 Hx']; subst; [constructor|].
  cbn [map]. constructor; [|apply IH; exact Hx'].
  intros E. rewrite (ext_bc c a g Fa) in E. destruct (spanned a) eqn:Sp; [|discriminate]. apply spanned_spec in Sp.
  destruct Sp as [S1 S2]. destruct Hx0 as (_ & _ & H). specialize (H S1). cbn [ext gmin gmax].
  rewrite (pf_min _ _ _ Fa), (pf_max _ _ _ Fa).
  destruct (shift_down_below _ a g Fa) as [[E1 _]|[_ K]]; [|exfalso; destruct K as [[_ K]|[K _]]; contradiction].
  destruct (shift_up_above _ a g Fa) as [[E2 _]|[_ K]]; [|exfalso; destruct K as [[_ K]|[K _]]; contradiction].
  rewrite E1, E2. change (inject_Z 0) with 0. lra.
Qed.

Lemma own_inside c p gs : Forall2 (pfacts c) p gs -> forall x, inside (region_box p) x -> inside_g (map ext gs) x.
Proof.
  induction 1 as [|a g p gs Fa F IH]; intros x Hx; inversion Hx as [|? x0 ? x' Hx0 Hx']; subst; [constructor|].
  cbn [map]. constructor; [|apply IH; exact Hx']. cbn [lo hi ext gmin gmax] in *.
  rewrite (pf_min _ _ _ Fa), (pf_max _ _ _ Fa). pose proof (pf_wpos _ _ _ Fa).
  destruct (pf_down _ _ _ Fa) as [_ [E1|E1]]; destruct (pf_up _ _ _ Fa) as [_ [E2|E2]]; rewrite E1, E2;
    change (inject_Z 0) with 0; change (inject_Z 1) with 1; lra.
Qed.

Lemma own_large p e ps : search_on p e -> Forall2 (pfacts (min_small_cutoff e)) p (grid e) -> 0 <= skin e ->
  (forall q, In q ps -> 0 <= prd q) -> (forall t, 0 <= max_cutoff e t) -> large_fit_on p e ps -> large_ok (ext_env e) ps.
Proof.
  intros Hon F Hsk Hr Hm Hfit q Hq HL. change (is_large (ext_env e) q) with (is_large e q) in HL. unfold is_large in HL.
  destruct (Qltb_spec (max_small_sigma e) (sigma e q)) as [Hlt|]; [|discriminate].
  destruct (Hfit q Hq Hlt) as [Hin Hlong]. split; [eapply own_inside; eauto|].
  change (reach (ext_env e) q) with (reach e q). split.
  - cbn [ext_env grid]. apply Forall_map. clear Hin Hon Hfit. revert Hlong. induction F as [|a g p0 gs Fa F IH]; intros Hlong; [constructor|].
    inversion Hlong as [|? ? ? ? Hl1 Hl2]; subst. constructor; [|exact (IH Hl2)]. intros Nb. change (gdim (ext g)) with (gdim g).
    change (sweep1 (reach e q) (ext g)) with (Qceiling ((2 * sigma e q + skin e) / gw g)).
    apply Hl1.
    intros K. apply Nb. rewrite (ext_bc _ a g Fa). apply spanned_spec in K. now rewrite K.
  - unfold reach. destruct Hon as (_ & _ & Hc). unfold min_small_cutoff in Hc. lra.
Qed.

(* min-image in the simulation box = distance in the region *)
Lemma region_distance r p : 0 <= r -> Forall (fun a => pmin a <= pmax a /\ smin a <= smax a) p -> split_wide r p ->
  forall x y, owned p x -> owned p y -> getDistanceSqr (sim_box p) x y < Qsqr r ->
  getDistanceSqr (region_box p) x y == getDistanceSqr (sim_box p) x y.
Proof.
  intros Hr Hord. revert Hord. induction p as [|a p IH]; intros Hord Hsw x y Hx Hy Hd;
    inversion Hx as [|? x0 ? x' Hx0 Hx']; inversion Hy as [|? y0 ? y' Hy0 Hy']; subst; [reflexivity|].
  inversion Hord as [|? ? [Hpo Hso] Hord']; subst. inversion Hsw as [|? ? Hs1 Hsw']; subst.
  cbn [sim_box region_box map getDistanceSqr] in *. fold (sim_box p) (region_box p) in *.
  set (m := min_image1 {| lo := smin a; hi := smax a; bc := pbc a |} (x0 - y0)) in *.
  pose proof (getDistanceSqr_nonneg (sim_box p) x' y') as Hn. pose proof (Qsq_nonneg m) as Hm. fold (Qsqr m) in Hm.
  rewrite (IH Hord' Hsw' x' y' Hx' Hy') by lra.
  enough (E : min_image1 {| lo := pmin a; hi := pmax a; bc := if spanned a then WRAP else OPEN |} (x0 - y0) == m).
  { unfold Qsqr. rewrite E. reflexivity. }
  assert (Hmr : Qsqr m < Qsqr r) by lra.
  destruct (Qlt_le_dec 0 r) as [Hr0|Hr0]; [|exfalso; unfold Qsqr in *; assert (r == 0) by lra; nra].
  pose proof (Qsq_lt_abs m r Hr0 Hmr) as Hab. clear Hmr Hm Hn IH Hd. unfold m in *. clear m.
  destruct (spanned a) eqn:Sp.
  - apply spanned_spec in Sp. destruct Sp as [S1 S2]. unfold min_image1. cbn [bc]. rewrite S1. cbn [bc_eqb].
    unfold wd; cbn [lo hi]. unfold whole in S2. clear Hab. qcases; rewrite ?S2 in *; try reflexivity; try lra.
  - assert (Nw : pbc a = WRAP -> ~ whole a). { intros E W. assert (spanned a = true) by (apply spanned_spec; auto). congruence. }
    destruct (bc_eqb_spec (pbc a) WRAP) as [E|E].
    + specialize (Hs1 E (Nw E)). destruct Hx0 as (_ & _ & Bx). destruct Hy0 as (_ & _ & By).
      specialize (Bx E). specialize (By E).
      unfold min_image1 in *. cbn [bc] in *. rewrite E in *. cbn [bc_eqb] in *. unfold wd in *; cbn [lo hi] in *.
      apply Qabs_Qlt_condition in Hab.
      qabs (x0 - y0); qcases; try reflexivity; exfalso; lra.
    + unfold min_image1. cbn [bc]. destruct (bc_eqb_spec (pbc a) WRAP); [contradiction|]. reflexivity.
Qed.
