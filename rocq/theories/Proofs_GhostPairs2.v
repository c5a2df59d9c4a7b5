(* Pairs of ghost and own particles. *)
From Verif Require Import Lib Model_Geometry Model_Cells Model_GhostPairs Spec_Cells Spec_GhostPairs Proofs_Geometry
  Proofs_Cells1 Proofs_Cells2 Proofs_Cells3 Proofs_Cells4 Proofs_Cells5 Proofs_Cells6 Proofs_GhostPairs.
From Coq Require Import ZifyBool ZifyNat.
Local Open Scope Q_scope.

(* the halo index in extended coordinates *)
Lemma halo_index_spec c a g x : pfacts c a g -> let k := halo_index1 g x in let n := ncoord (ext g) x in
  let u := (1#1000) / gw g in
  (0 <= k < gdim g)%Z /\
  ((k = (gdim g - 1)%Z /\ inject_Z (gdim g) - inject_Z (shift_up g) - u <= n) \/
   (k = 0%Z /\ n <= inject_Z (shift_down g) + u) \/ (inject_Z k <= n /\ n < inject_Z k + 1)).
Proof.
  intros F k n u. pose proof (pf_wpos _ _ _ F) as Hw. pose proof (pf_w _ _ _ F) as Ew. pose proof (pf_dim4 _ _ _ F) as H4.
  assert (Hsd : shift_down g = 0%Z \/ shift_down g = 1%Z) by apply (pf_down _ _ _ F).
  assert (Hsu : shift_up g = 0%Z \/ shift_up g = 1%Z) by apply (pf_up _ _ _ F).
  assert (En : n * gw g == x - gmin g + inject_Z (shift_down g) * gw g).
  { unfold n, ncoord. cbn [ext gmin gw]. field. lra. }
  assert (Eu : u * gw g == 1#1000) by (unfold u; field; lra).
  rewrite <- (pf_min _ _ _ F), <- (pf_max _ _ _ F) in Ew. unfold Z.sub in Ew. rewrite !inject_Z_plus, !inject_Z_opp in Ew.
  unfold k, halo_index1. clear k.
  destruct (Qle_bool (gmax g) (x + (1 # 1000))) eqn:B1.
  - apply Qle_bool_iff in B1. split; [lia|]. left. split; [reflexivity|].
    set (D := inject_Z (gdim g)) in *. set (sd := inject_Z (shift_down g)) in *. set (su := inject_Z (shift_up g)) in *.
    clearbody D sd su n u. nra.
  - assert (N1 : ~ gmax g <= x + (1#1000)) by (rewrite <- Qle_bool_iff; congruence).
    destruct (Qle_bool (x - (1 # 1000)) (gmin g)) eqn:B2.
    + apply Qle_bool_iff in B2. split; [lia|]. right. left. split; [reflexivity|].
      set (sd := inject_Z (shift_down g)) in *. clearbody sd n u. nra.
    + assert (N2 : ~ x - (1#1000) <= gmin g) by (rewrite <- Qle_bool_iff; congruence).
      set (q := (x - gmin g) * (1 / gw g) + inject_Z (shift_down g)).
      assert (Eq : q == n).
      { unfold q, n, ncoord. cbn [ext gmin gw]. field. lra. }
      assert (Hn : 0 <= n).
      { assert (0 <= inject_Z (shift_down g)) by (destruct Hsd as [-> | ->]; vm_compute; discriminate).
        set (sd := inject_Z (shift_down g)) in *. clearbody sd n u. nra. }
      assert (HnD : n < inject_Z (gdim g)).
      { assert (0 <= inject_Z (shift_up g)) by (destruct Hsu as [-> | ->]; vm_compute; discriminate).
        set (D := inject_Z (gdim g)) in *. set (sd := inject_Z (shift_down g)) in *. set (su := inject_Z (shift_up g)) in *.
        clearbody D sd su n u. nra. }
      unfold to_int. rewrite Qtrunc_nonneg by lra.
      assert (H1 := Qfloor_le q). assert (H2 := Qlt_floor q). rewrite inject_Z_plus in H2. change (inject_Z 1) with 1 in H2.
      assert (H0 : (0 <= Qfloor q)%Z) by (change 0%Z with (Qfloor 0); apply Qfloor_resp_le; lra).
      rewrite Z.max_l by exact H0.
      assert (HD : inject_Z (Qfloor q) < inject_Z (gdim g)) by lra. rewrite <- Zlt_Qlt in HD.
      split; [lia|]. right. right. lra.
Qed.

Lemma halo_step c a g x y : 0 < c -> pfacts c a g -> (pbc a = WRAP -> whole a -> 4 * c <= pmax a - pmin a) ->
  (pbc a = WRAP -> whole a -> pmin a <= x <= pmax a) -> own1 a y -> 1#1000 <= gw g ->
  (below a \/ above a -> c + (1#1000) <= inject_Z (Qceiling (c / gw g)) * gw g) ->
  Qabs (min_image1 (axis_of (ext g)) (x - y)) < c ->
  exists o, (- sweep1 c g <= o <= sweep1 c g)%Z /\ correct1 (ext g) (halo_index1 g x + o)%Z = Some (cell_index1 g y).
Proof.
  intros Hc F H4 Hx Hy Heps Hwide Hd.
  pose proof (ext_good_axis c a g Hc F H4) as Hgood. destruct Hgood as (Hp & Hw & Hmax & _ & Hdim).
  cbn [ext gw] in Hw. change (sweep1 c (ext g)) with (sweep1 c g) in Hdim. change (gdim (ext g)) with (gdim g) in *.
  destruct (sweep1_nonneg c g Hw Hc) as [Hs Hcs]. fold (sweep1 c g) in Hwide.
  destruct (halo_index_spec c a g x F) as (Hk0 & Hk). cbv zeta in Hk.
  set (k := halo_index1 g x) in *. set (s := sweep1 c g) in *.
  destruct (cell_index1_spec (ext g) y Hp) as (Hy0 & Hy1 & Hy2). rewrite (ext_cell1 c a g y F Hy) in *.
  change (gdim (ext g)) with (gdim g) in *.
  set (ky := cell_index1 g y) in *.
  assert (Enx : ncoord (ext g) x * gw g == x - gmin (ext g)) by (unfold ncoord; cbn [ext gw]; field; lra).
  assert (Eny : ncoord (ext g) y * gw g == y - gmin (ext g)) by (unfold ncoord; cbn [ext gw]; field; lra).
  set (n := ncoord (ext g) x) in *. set (m := ncoord (ext g) y) in *.
  assert (Eu : (1#1000) / gw g * gw g == 1#1000) by (field; lra).
  set (u := (1#1000) / gw g) in *.
  assert (Hu1 : 0 <= u <= 1).
  { clearbody u n m. split; nra. }
  change (gw (ext g)) with (gw g) in *.
  assert (Hcase : Qabs (x - y) < c \/ (gbc (ext g) = WRAP /\ wd (axis_of (ext g)) - Qabs (x - y) < c)).
  { apply (min_image_cases (axis_of (ext g))); auto.
    - cbn [axis_of lo hi]. assert (0 <= inject_Z (gdim g)) by (change 0 with (inject_Z 0); apply Zle_Q; lia). nra.
    - destruct (bc_eqb_spec (gbc (ext g)) WRAP) as [E|E]; [left|right; exact E].
      rewrite (ext_bc c a g F) in E. destruct (spanned a) eqn:Sp; [|discriminate]. apply spanned_spec in Sp.
      destruct Sp as [S1 S2]. specialize (Hx S1 S2). destruct Hy as (_ & _ & Hyb). specialize (Hyb S1).
      unfold wd; cbn [axis_of lo hi ext gmin gmax]. rewrite (pf_min _ _ _ F), (pf_max _ _ _ F).
      assert (0 <= inject_Z (shift_down g) /\ 0 <= inject_Z (shift_up g)).
      { destruct (pf_down _ _ _ F) as [_ [-> | ->]]; destruct (pf_up _ _ _ F) as [_ [-> | ->]]; split; vm_compute; discriminate. }
      apply Qabs_Qle_condition. split; nra. }
  assert (HcS : c <= inject_Z s * gw g) by exact Hcs.
  destruct Hcase as [Hdir|[Hwrap Hind]].
  - exists (ky - k)%Z. apply Qabs_Qlt_condition in Hdir.
    assert (Hnm : n - m < inject_Z s /\ m - n < inject_Z s).
    { set (S := inject_Z s) in *. clearbody n m u. split; nra. }
    assert (Hrange : (- s <= ky - k <= s)%Z).
    { destruct Hk as [[Ek Hn]|[[Ek Hn]|[Hn1 Hn2]]].
      - (* upper halo or last cell *)
        split; [|lia]. rewrite Ek.
        destruct Hy2 as [->|Hy2]; [lia|].
        assert (Hb : inject_Z (gdim g) - 1 - inject_Z s < m).
        { destruct (shift_up_above c a g F) as [[Eu1 _]|[Eu1 Ha]]; rewrite Eu1 in Hn.
          - change (inject_Z 0) with 0 in Hn. lra.
          - change (inject_Z 1) with 1 in Hn. specialize (Hwide (or_intror Ha)).
            set (S := inject_Z s) in *. clearbody n m u.
            assert (n - m + u < S) by nra. lra. }
        assert (Hb2 : inject_Z (gdim g - 1 - s) < inject_Z (ky + 1)).
        { unfold Z.sub. rewrite !inject_Z_plus, !inject_Z_opp. change (inject_Z 1) with 1. lra. }
        rewrite <- Zlt_Qlt in Hb2. lia.
      - split; [lia|]. rewrite Ek. destruct Hy1 as [->|Hy1]; [lia|].
        assert (Hb : m < inject_Z s + 1).
        { destruct (shift_down_below c a g F) as [[Eu1 _]|[Eu1 Ha]]; rewrite Eu1 in Hn.
          - change (inject_Z 0) with 0 in Hn. lra.
          - change (inject_Z 1) with 1 in Hn. specialize (Hwide (or_introl Ha)).
            set (S := inject_Z s) in *. clearbody n m u.
            assert (m - n + u < S) by nra. lra. }
        assert (Hb2 : inject_Z ky < inject_Z (s + 1)).
        { rewrite !inject_Z_plus. change (inject_Z 1) with 1. lra. }
        rewrite <- Zlt_Qlt in Hb2. lia.
      - split.
        + assert (k - ky <= s)%Z; [|lia]. apply (norm_direct ky k (gdim g) s m n); auto; lia || apply Hnm.
        + apply (norm_direct k ky (gdim g) s n m); auto; lia || apply Hnm. }
    split; [exact Hrange|]. replace (k + (ky - k))%Z with ky by lia.
    destruct (bc_eqb_spec (gbc (ext g)) WRAP) as [E|E].
    + apply correct1_spec; auto; change (gdim (ext g)) with (gdim g); lia.
    + rewrite correct1_nowrap by auto. change (gdim (ext g)) with (gdim g).
      destruct (Z.leb_spec 0 ky); destruct (Z.ltb_spec ky (gdim g)); simpl; try reflexivity; lia.
  - specialize (Hdim Hwrap). pose proof Hwrap as Hsp. rewrite (ext_bc c a g F) in Hsp.
    destruct (spanned a) eqn:Sp; [|discriminate]. apply spanned_spec in Sp. destruct Sp as [S1 S2].
    specialize (Hx S1 S2). destruct Hy as (_ & _ & Hyb). specialize (Hyb S1).
    assert (Esd : shift_down g = 0%Z).
    { destruct (shift_down_below _ a g F) as [[E1 _]|[_ K]]; [exact E1|exfalso; destruct K as [[_ K]|[K _]]; contradiction]. }
    assert (Esu : shift_up g = 0%Z).
    { destruct (shift_up_above _ a g F) as [[E1 _]|[_ K]]; [exact E1|exfalso; destruct K as [[_ K]|[K _]]; contradiction]. }
    rewrite Esd, Esu in Hk. change (inject_Z 0) with 0 in Hk.
    unfold wd in Hind; cbn [axis_of lo hi] in Hind.
    assert (Hbx : gmin (ext g) <= x <= gmax (ext g) /\ gmin (ext g) <= y <= gmax (ext g)).
    { cbn [ext gmin gmax]. rewrite Esd, Esu, (pf_min _ _ _ F), (pf_max _ _ _ F). change (inject_Z 0) with 0. lra. }
    set (D := inject_Z (gdim g)) in *. set (S := inject_Z s) in *.
    assert (HDS : 2 * S + 1 <= D).
    { unfold D, S. pose proof Hdim as Hz. apply Zle_Q in Hz. rewrite inject_Z_plus, inject_Z_mult in Hz. exact Hz. }
    assert (HS1 : 1 <= S) by (unfold S; change 1 with (inject_Z 1); now apply Zle_Q).
    set (lo' := gmin (ext g)) in *. set (hi' := gmax (ext g)) in *.
    assert (Hn : 0 <= n <= D) by (clearbody n m u lo' hi' D S; split; nra).
    assert (Hm : 0 <= m <= D) by (clearbody n m u lo' hi' D S; split; nra).
    destruct (Qabs_cases (x - y)) as [[Hs1 Habs]|[Hs1 Habs]]; rewrite Habs in Hind.
    + assert (Hnm : D - S < n - m) by (clearbody n m u lo' hi' D S; nra).
      exists (ky + gdim g - k)%Z.
      assert (Ho : (ky + gdim g - k <= s)%Z).
      { destruct Hk as [[Ek Hkn]|[[Ek Hkn]|[Hn1 Hn2]]].
        - rewrite Ek. assert (Hb : (ky < s)%Z); [|lia]. rewrite Zlt_Qlt. fold S.
          destruct Hy1 as [->|Hy1]; [change (inject_Z 0) with 0; lra|lra].
        - exfalso. lra.
        - apply (norm_wrap k ky (gdim g) s n m); auto; try lia; try apply Hn; try apply Hm; try exact Hnm. }
      split; [lia|]. apply correct1_spec; auto; change (gdim (ext g)) with (gdim g); [lia|]. split; [lia|].
      right. split; [exact Hwrap|lia].
    + assert (Hnm : D - S < m - n) by (clearbody n m u lo' hi' D S; nra).
      exists (ky - gdim g - k)%Z.
      assert (Ho : (k + gdim g - ky <= s)%Z).
      { destruct Hk as [[Ek Hkn]|[[Ek Hkn]|[Hn1 Hn2]]].
        - exfalso. lra.
        - rewrite Ek. assert (Hb : (gdim g - s <= ky)%Z); [|lia].
          destruct Hy2 as [->|Hy2]; [lia|].
          assert (Hb2 : inject_Z (gdim g - s) < inject_Z (ky + 1)).
          { unfold Z.sub. rewrite !inject_Z_plus, !inject_Z_opp. change (inject_Z 1) with 1. fold D S. lra. }
          rewrite <- Zlt_Qlt in Hb2. lia.
        - apply (norm_wrap ky k (gdim g) s m n); auto; try lia; try apply Hn; try apply Hm; try exact Hnm. }
      split; [lia|]. apply correct1_spec; auto; change (gdim (ext g)) with (gdim g); [lia|]. split; [lia|].
      right. split; [exact Hwrap|lia].
Qed.

Lemma halo_tuple_range c p gs : Forall2 (pfacts c) p gs -> forall x, length x = length gs ->
  in_range (dims_of gs) (halo_tuple gs x).
Proof.
  induction 1 as [|a g p gs Fa F IH]; intros [|x0 x] Hl; try discriminate; constructor.
  - cbn [fst snd]. exact (proj1 (halo_index_spec c a g x0 Fa)).
  - apply IH. simpl in Hl. lia.
Qed.

Lemma ghost_is_halo c p gs : Forall2 (pfacts c) p gs -> Forall (fun g => 1#1000 <= gw g) gs -> forall x, ghost_position p x -> is_halo_cell gs (halo_tuple gs x) = true.
Proof.
  intros F Heps x [_ (k & a & xd & Ha & Hx & Hout)]. unfold is_halo_cell. apply existsb_exists.
  assert (G : exists g, nth_error gs k = Some g /\ pfacts c a g).
  { clear Hx Hout Heps. revert k Ha. induction F as [|a0 g p gs Fa F IH]; intros [|k] Ha; try discriminate.
    - injection Ha as <-. exists g. auto.
    - exact (IH k Ha). }
  destruct G as (g & Hg & Fg). exists (g, halo_index1 g xd). split.
  - clear - Hg Hx. revert k x Hg Hx. induction gs as [|g0 gs IH]; intros [|k] [|x0 x] Hg Hx; try discriminate.
    + injection Hg as <-. injection Hx as <-. left. reflexivity.
    + right. exact (IH k x Hg Hx).
  - cbn [fst snd]. unfold is_halo1, halo_index1. pose proof (pf_min _ _ _ Fg) as E1. pose proof (pf_max _ _ _ Fg) as E2.
    pose proof (pf_dim4 _ _ _ Fg) as H4.
    assert (Hpm : gmin g <= gmax g).
    { pose proof (pf_w _ _ _ Fg) as Ew. pose proof (pf_wpos _ _ _ Fg). apply Zle_Q in H4.
      rewrite E1, E2. set (I := inject_Z (gdim g - shift_down g - shift_up g)) in *. change (inject_Z 4) with 4 in H4. nra. }
    destruct Hout as [[Hb Hlt]|[Hb Hge]].
    + destruct (shift_down_below c a g Fg) as [[_ K]|[Ed _]]; [contradiction|]. rewrite Ed.
      destruct (Qle_bool (gmax g) (xd + (1 # 1000))) eqn:B1.
      * destruct (shift_up_above c a g Fg) as [[Eu _]|[Eu _]]; rewrite Eu in *; [|apply orb_true_iff; right; apply Z.leb_le; lia].
        exfalso. apply Qle_bool_iff in B1.
        assert (K : gmax g - gmin g < 1#1000) by (rewrite E1 in *; lra).
        rewrite Forall_forall in Heps. specialize (Heps g (nth_error_In _ _ Hg)).
        pose proof (pf_w _ _ _ Fg) as Ew. apply Zle_Q in H4. rewrite Ed, Eu in *.
        set (I := inject_Z (gdim g - 1 - 0)) in *. change (inject_Z 4) with 4 in H4. rewrite <- E1, <- E2 in Ew. nra.
      * assert (B2 : Qle_bool (xd - (1 # 1000)) (gmin g) = true) by (apply Qle_bool_iff; rewrite E1; lra).
        rewrite B2. reflexivity.
    + destruct (shift_up_above c a g Fg) as [[_ K]|[Eu _]]; [contradiction|]. rewrite Eu.
      assert (B1 : Qle_bool (gmax g) (xd + (1 # 1000)) = true) by (apply Qle_bool_iff; rewrite E2; lra).
      rewrite B1. apply orb_true_iff; right; apply Z.leb_le; lia.
Qed.

Lemma halo_vector c p gs : 0 < c -> Forall2 (pfacts c) p gs -> region_large_enough c p ->
  Forall2 (fun a g => 1#1000 <= gw g /\ (below a \/ above a ->
     c + (1#1000) <= inject_Z (Qceiling (c / gw g)) * gw g)) p gs ->
  forall x y, Forall2 (fun a xd => pbc a = WRAP -> whole a -> pmin a <= xd <= pmax a) p x -> owned p y ->
  getDistanceSqr (box_of (map ext gs)) x y < Qsqr c ->
  exists o, within_s (centers c gs) o /\ correct_index gs (zadd (halo_tuple gs x) o) = Some (cell_tuple gs y).
Proof.
  intros Hc F. induction F as [|a g p gs Fa F IH]; intros Hl Hwide x y Hx Hy Hd.
  - exists []. split; [constructor|reflexivity].
  - inversion Hx as [|? x0 ? x' Hx0 Hx']; inversion Hy as [|? y0 ? y' Hy0 Hy']; subst.
    inversion Hl as [|? ? [_ H4] Hl']; subst. inversion Hwide as [|? ? ? ? [He Hw1] Hwide']; subst.
    cbn [map box_of getDistanceSqr] in Hd. fold (box_of (map ext gs)) in Hd.
    pose proof (getDistanceSqr_nonneg (box_of (map ext gs)) x' y') as Hn.
    pose proof (Qsq_nonneg (min_image1 (axis_of (ext g)) (x0 - y0))) as Hm.
    fold (Qsqr (min_image1 (axis_of (ext g)) (x0 - y0))) in Hm.
    destruct (IH Hl' Hwide' x' y' Hx' Hy') as (o & Ho & Hc'); [lra|].
    destruct (halo_step c a g x0 y0 Hc Fa H4 Hx0 Hy0 He Hw1) as (k & Hk & Hck).
    { apply Qsq_lt_abs; [exact Hc|lra]. }
    exists (k :: o). split; [constructor; auto|].
    change (cell_tuple (g :: gs) (y0 :: y')) with (cell_index1 g y0 :: cell_tuple gs y').
    change (zadd (halo_tuple (g :: gs) (x0 :: x')) (k :: o)) with (halo_index1 g x0 + k :: zadd (halo_tuple gs x') o)%Z.
    rewrite (ext_correct1 c a g _ Fa) in Hck. rewrite correct_cons, Hck, Hc'. reflexivity.
Qed.

(* ---------------------------------------------------------------- the adjacent cells of a halo cell *)
Definition keep_all (c : Q) (gs : list gaxis) : Prop := forall o, within_s (centers c gs) o -> stencil_keep c gs o = true.

Definition halo_adj (c : Q) (gs : list gaxis) (t : list Z) : list Z :=
  flat_map (adj_halo_offset gs t) (neighbor_indices c gs).

Lemma neighbor_within c gs o : Forall (fun s => 0 <= s)%Z (centers c gs) -> In o (neighbor_indices c gs) -> within_s (centers c gs) o.
Proof.
  intros Hss H. unfold neighbor_indices in H. apply filter_In in H. destruct H as [H _]. apply in_map_iff in H.
  destruct H as (i & <- & Hi). apply in_zrange in Hi. unfold stencil_volume in Hi. unfold stencil_offset. rewrite little_dims_odd in *.
  now apply offset_within.
Qed.

Lemma halo_adj_in c gs t o t' : keep_all c gs -> within_s (centers c gs) o ->
  correct_index gs (zadd t o) = Some t' -> is_halo_cell gs t' = false ->
  In (tuple_to_linear (dims_of gs) t') (halo_adj c gs t).
Proof.
  intros Hk Ho Hc Hh. unfold halo_adj. apply in_flat_map. exists o. split.
  - unfold neighbor_indices. apply filter_In. split; [|now apply Hk]. apply in_map_iff. exists (oidx (centers c gs) o).
    unfold stencil_volume, stencil_offset. rewrite little_dims_odd. split; [now apply offset_of_oidx|].
    apply in_zrange. now apply oidx_bound.
  - unfold adj_halo_offset. rewrite Hc, Hh. now left.
Qed.

Lemma neighbors_nodup c gs : Forall (fun s => 0 <= s)%Z (centers c gs) -> NoDup (neighbor_indices c gs).
Proof.
  intros Hss. unfold neighbor_indices. apply NoDup_filter.
  assert (Hoff : forall i, (0 <= i < stencil_volume c gs)%Z -> oidx (centers c gs) (stencil_offset c gs i) = i).
  { intros i Hi. unfold stencil_offset, stencil_volume in *. rewrite little_dims_odd in *. now apply offset_within. }
  assert (G : forall l, NoDup l -> (forall i, In i l -> (0 <= i < stencil_volume c gs)%Z) -> NoDup (map (stencil_offset c gs) l)).
  { induction l as [|i l IH]; intros Hnd Hin; simpl; constructor; inversion Hnd; subst.
    - rewrite in_map_iff. intros (j & Ej & Hj).
      pose proof (Hoff i (Hin i (or_introl eq_refl))) as Hi'. pose proof (Hoff j (Hin j (or_intror Hj))) as Hj'.
      rewrite Ej in Hj'. congruence.
    - apply IH; auto. intros; apply Hin; now right. }
  apply G; [apply NoDup_zrange|]. intros i. apply in_zrange.
Qed.

Lemma halo_adj_nodup c p gs t : 0 < c -> Forall2 (pfacts c) p gs -> good_grid c (map ext gs) -> in_range (dims_of gs) t ->
  NoDup (halo_adj c gs t).
Proof.
  intros Hc F Hg Ht. pose proof (centers_nonneg c _ Hg) as Hss. rewrite (gw_centers c _ _ (ext_gw gs)) in Hss.
  pose proof (good_sweeps c _ Hg) as Hok. rewrite (gw_centers c _ _ (ext_gw gs)) in Hok.
  unfold halo_adj. apply NoDup_flat_map.
  - now apply neighbors_nodup.
  - intros o _. unfold adj_halo_offset. destruct (correct_index gs (zadd t o)) as [t'|]; [|constructor].
    destruct (is_halo_cell gs t'); repeat constructor. intros [].
  - intros o o' l Ho Ho' Hl Hl'. apply neighbor_within in Ho; auto. apply neighbor_within in Ho'; auto.
    unfold adj_halo_offset in Hl, Hl'.
    destruct (correct_index gs (zadd t o)) as [t1|] eqn:E1; [|destruct Hl].
    destruct (correct_index gs (zadd t o')) as [t2|] eqn:E2; [|destruct Hl'].
    destruct (is_halo_cell gs t1); [destruct Hl|]. destruct (is_halo_cell gs t2); [destruct Hl'|].
    destruct Hl as [<-|[]]. destruct Hl' as [E|[]].
    rewrite <- (ext_correct c p gs F) in E1, E2. rewrite <- ext_dims in Ht.
    pose proof (correct_range _ _ Hok t _ t1 Ht Ho E1) as R1. pose proof (correct_range _ _ Hok t _ t2 Ht Ho' E2) as R2.
    rewrite ext_dims in R1, R2. apply linear_injective in E; auto. subst t2.
    exact (correct_unique _ _ Hok t _ _ t1 Ht Ho Ho' E1 E2).
Qed.

Lemma keep_all_of_bounds c m M gs : 0 < c -> Forall2 (bounded_axis m M) gs (centers c gs) ->
  (forall K, inject_Z (Z.of_nat (length gs)) * M == K * c -> K * c < 1 \/ K < c) -> keep_all c gs.
Proof.
  intros Hc F HK o Ho. unfold stencil_keep. pose proof (dot_upper m M gs (centers c gs) F o Ho) as Hd.
  apply (keep_of_bound c _ (inject_Z (Z.of_nat (length gs)) * M / c)); auto.
  - field_simplify; [|lra]. lra.
  - apply HK. field. lra.
Qed.

Lemma pf_sweep c a g : 0 < c -> pfacts c a g ->
  inject_Z (sweep1 c g) * gw g <= (9#4) * c /\ (1 <= sweep1 c g)%Z /\ (4 * c <= pmax a - pmin a -> sweep1 c g = 1%Z).
Proof.
  intros Hc F. pose proof (pf_wpos _ _ _ F) as Hwp. pose proof (pf_hi _ _ _ F) as Hhi.
  destruct (sweep1_nonneg c g Hwp Hc) as [Hs1 Hs2].
  split; [|split; [exact Hs1|]].
  - unfold sweep1. pose proof (Qceiling_lt (c / gw g)) as Hlt. unfold Z.sub in Hlt. rewrite inject_Z_plus in Hlt.
    change (inject_Z (-(1))) with (-1) in Hlt.
    assert (E : c / gw g * gw g == c) by (field; lra).
    set (S := inject_Z (Qceiling (c / gw g))) in *. set (r := c / gw g) in *. nra.
  - intros Hwide. pose proof (pf_lo _ _ _ F Hwide) as Hlo.
    assert (sweep1 c g <= 1)%Z; [|lia]. unfold sweep1.
    change 1%Z with (Qceiling 1). apply Qceiling_resp_le. apply Qle_shift_div_r; lra.
Qed.

Lemma region_keep_all c p gs : 0 < c -> Forall2 (pfacts c) p gs -> stencil_full c p -> keep_all c gs.
Proof.
  intros Hc F Hst. assert (Hlen : length p = length gs) by (eapply Forall2_len; exact F).
  unfold stencil_full in Hst. rewrite Hlen in Hst.
  destruct Hst as [[Hw HK]|HK].
  - apply (keep_all_of_bounds c c ((5#4) * c)); auto.
    + clear HK Hlen. unfold centers. induction F as [|a g p gs Fa F IH]; constructor.
      * inversion Hw as [|? ? Hwa _]; subst. destruct (pf_sweep c a g Hc Fa) as (_ & _ & Hs).
        rewrite (Hs Hwa). pose proof (pf_hi _ _ _ Fa). pose proof (pf_lo _ _ _ Fa Hwa). pose proof (pf_wpos _ _ _ Fa).
        unfold bounded_axis. repeat split; auto; [change (inject_Z 1) with 1; lra|lia].
      * apply IH. now inversion Hw.
    + intros K EK. set (N := inject_Z (Z.of_nat (length gs))) in *.
      assert (E : K == 5 * N / 4). { apply (Qmult_inj_r _ _ c); [lra|]. rewrite <- EK. field. }
      rewrite E. exact HK.
  - apply (keep_all_of_bounds c ((1#4) * c) ((9#4) * c)); auto.
    + clear HK Hlen. unfold centers. induction F as [|a g p gs Fa F IH]; constructor; auto.
      destruct (pf_sweep c a g Hc Fa) as (Hs & Hs1 & _). pose proof (pf_lo4 _ _ _ Fa). pose proof (pf_wpos _ _ _ Fa).
      unfold bounded_axis. repeat split; auto; [lra|lia].
    + intros K EK. set (N := inject_Z (Z.of_nat (length gs))) in *.
      assert (E : K == 9 * N / 4). { apply (Qmult_inj_r _ _ c); [lra|]. rewrite <- EK. field. }
      rewrite E. exact HK.
Qed.

Lemma pf_nth c p gs : Forall2 (pfacts c) p gs -> forall k g, nth_error gs k = Some g ->
  exists a, nth_error p k = Some a /\ pfacts c a g.
Proof.
  induction 1 as [|a g p gs Fa F IH]; intros [|k] g0 Hk; try discriminate.
  - injection Hk as <-. exists a. auto.
  - exact (IH k g0 Hk).
Qed.

(* ---------------------------------------------------------------- the visits of one ghost *)
Section Ghost.
Context (p : list paxis) (e : env) (ps : list particle).
Hypotheses (Hon : search_on p e) (Hl : region_large_enough (min_small_cutoff e) p) (Hwide : cells_wide p e).

Let c := min_small_cutoff e.
Let F : Forall2 (pfacts c) p (grid e) := proj1 (region_facts p e Hon Hl).
Let Hg : good_grid c (map ext (grid e)) := proj2 (region_facts p e Hon Hl).
Let Hc : 0 < c := proj2 (proj2 Hon).

Lemma wide_eps : Forall (fun g => 1#1000 <= gw g) (grid e).
Proof.
  unfold cells_wide in Hwide. clear - Hwide. revert Hwide. generalize (grid e). intros gs H. induction H as [|a g p gs [H _] _ IH]; constructor; auto.
Qed.

Lemma visit_ghost_some id pg : ghost_position p (px pg) -> (0 <= ptype pg)%Z ->
  visit_ghost e ps id pg = Some (flat_map (fun l => flat_map (visit_ghost_own e ps pg id) (cell_ids e ps l))
    (halo_adj c (grid e) (halo_tuple (grid e) (px pg)))) /\ in_range (dims_of (grid e)) (halo_tuple (grid e) (px pg)).
Proof.
  intros Hp Ht.
  assert (L : length (px pg) = length (grid e)).
  { transitivity (length p); [symmetry; eapply Forall2_len; exact (proj1 Hp)|eapply Forall2_len; exact F]. }
  pose proof (halo_tuple_range c p (grid e) F _ L) as R. split; [|exact R].
  unfold visit_ghost, get_halo_cell_index. pose proof (linear_bound _ _ R) as B.
  destruct (Z.ltb_spec (tuple_to_linear (dims_of (grid e)) (halo_tuple (grid e) (px pg))) 0); [lia|].
  destruct (Z.leb_spec (prodZ (dims_of (grid e))) (tuple_to_linear (dims_of (grid e)) (halo_tuple (grid e) (px pg)))); [lia|].
  destruct (Z.ltb_spec (ptype pg) 0); [lia|]. cbn [orb]. unfold adjacent. rewrite (address_of_linear _ _ R).
  rewrite (ghost_is_halo c p (grid e) F wide_eps _ Hp). reflexivity.
Qed.

Lemma ghost_visits id pg vs : ghost_position p (px pg) -> (0 <= ptype pg)%Z -> visit_ghost e ps id pg = Some vs ->
  NoDup vs /\ forall i j w, In (i, j, w) vs -> i = id /\ w = 2%Z /\
    exists q, nth_error ps j = Some q /\ (0 <= ptype q)%Z /\ interacts e (ptype q) = true.
Proof.
  intros Hp Ht H. destruct (visit_ghost_some id pg Hp Ht) as [E R]. rewrite E in H. injection H as <-. clear E.
  assert (Hv : forall j i j' w, In (i, j', w) (visit_ghost_own e ps pg id j) -> i = id /\ j' = j /\ w = 2%Z).
  { intros j i j' w. unfold visit_ghost_own. destruct (nth_error ps j); [|intros []].
    match goal with |- context [if ?b then _ else _] => destruct b end; [intros [K|[]]; injection K as <- <- <-; auto|intros []]. }
  split.
  - apply NoDup_flat_map.
    + eapply halo_adj_nodup; eauto.
    + intros l _. apply NoDup_flat_map; [apply cell_ids_nodup| |].
      * intros j _. unfold visit_ghost_own. destruct (nth_error ps j); [|constructor].
        match goal with |- context [if ?b then _ else _] => destruct b end; repeat constructor. intros [].
      * intros j j' [[i1 j1] w1] _ _ H1 H2. apply Hv in H1. apply Hv in H2. destruct H1 as (_ & H1 & _). destruct H2 as (_ & H2 & _). congruence.
    + intros l l' [[i1 j1] w1] _ _ H1 H2. apply in_flat_map in H1. apply in_flat_map in H2.
      destruct H1 as (j & Hj & H1). destruct H2 as (j' & Hj' & H2). apply Hv in H1. apply Hv in H2.
      destruct H1 as (_ & H1 & _). destruct H2 as (_ & H2 & _). subst j j'. apply in_cell_ids in Hj. apply in_cell_ids in Hj'.
      eapply binned_unique; eauto.
  - intros i j w H. apply in_flat_map in H. destruct H as (l & _ & H). apply in_flat_map in H. destruct H as (j0 & Hj & H).
    apply Hv in H. destruct H as (-> & -> & ->). split; [reflexivity|]. split; [reflexivity|].
    apply in_cell_ids in Hj. unfold binned_in in Hj. destruct (nth_error ps j0) as [q|]; [|discriminate]. exists q.
    apply andb_prop in Hj. destruct Hj as [Hj _]. apply andb_prop in Hj. destruct Hj as [H1 H2]. repeat split; auto. lia.
Qed.

Lemma ghost_complete id pg vs j q : stencil_full c p -> ghost_position p (px pg) -> (0 <= ptype pg)%Z ->
  visit_ghost e ps id pg = Some vs -> nth_error ps j = Some q -> (0 <= ptype q)%Z -> interacts e (ptype q) = true ->
  owned p (px q) -> 0 <= (prd pg + prd q) * cutoff_grid e (ptype pg) (ptype q) + skin e <= c ->
  getDistanceSqr (region_box p) (px pg) (px q) < Qsqr ((prd pg + prd q) * cutoff_grid e (ptype pg) (ptype q) + skin e) ->
  In (id, j, 2%Z) vs.
Proof.
  intros Hst Hp Ht Hvs Hj Htq Hiq Hoq Hle Hd. destruct (visit_ghost_some id pg Hp Ht) as [E R].
  rewrite E in Hvs. injection Hvs as <-. clear E.
  assert (L : length (px pg) = length (grid e)).
  { transitivity (length p); [symmetry; eapply Forall2_len; exact (proj1 Hp)|eapply Forall2_len; exact F]. }
  assert (Lq : length (px q) = length (grid e)).
  { transitivity (length p); [symmetry; eapply Forall2_len; exact Hoq|eapply Forall2_len; exact F]. }
  set (r := (prd pg + prd q) * cutoff_grid e (ptype pg) (ptype q) + skin e) in *.
  assert (Hd' : getDistanceSqr (box_of (map ext (grid e))) (px pg) (px q) < Qsqr r).
  { rewrite (ext_distance c p (grid e) F). exact Hd. }
  assert (Hdc : getDistanceSqr (box_of (map ext (grid e))) (px pg) (px q) < Qsqr c).
  { eapply Qlt_le_trans; [exact Hd'|]. unfold Qsqr. nra. }
  destruct (halo_vector c p (grid e) Hc F Hl Hwide (px pg) (px q) (proj1 Hp) Hoq Hdc) as (o & Ho & Hcor).
  apply in_flat_map. exists (get_cell_index (grid e) (px q)). split.
  - unfold get_cell_index. eapply halo_adj_in; [eapply region_keep_all; eauto|exact Ho|exact Hcor|].
    eapply own_not_halo; eauto.
  - apply in_flat_map. exists j. split.
    + apply in_cell_ids. unfold binned_in. rewrite Hj, Hiq, Z.eqb_refl. destruct (Z.leb_spec 0 (ptype q)); [reflexivity|lia].
    + unfold visit_ghost_own. rewrite Hj. fold r.
      destruct (dist2_or_large (map ext (grid e)) c Hg (px pg) (px q)) as [E|(g & Hg' & Hb' & Hlg)]; try (rewrite map_length; assumption).
      * destruct (Qltb_spec (dist2 (px pg) (px q)) (Qsqr r)) as [|N]; [now left|]. exfalso. apply N. rewrite E. exact Hd'.
      * destruct (Qltb_spec (dist2 (px pg) (px q)) (Qsqr r)); [now left|].
        assert (Hmr : max_reasonable e <= Qsqr ((1 # 2) * (gmax g - gmin g))).
        { apply in_map_iff in Hg'. destruct Hg' as (g0 & <- & Hin). apply In_nth_error in Hin. destruct Hin as (k & Hk).
          destruct (pf_nth c p (grid e) F k g0 Hk) as (a & Ha & Fa). rewrite (ext_bc _ a g0 Fa) in Hb'.
          destruct (spanned a) eqn:Sp; [|discriminate]. apply spanned_spec in Sp. destruct Sp as [S1 S2].
          eapply Qle_trans; [apply (max_reasonable_le e (smax a - smin a))|].
          { rewrite (proj1 (proj2 Hon)). apply (in_map (fun a => smax a - smin a)). eapply nth_error_In; exact Ha. }
          cbn [ext gmax gmin]. rewrite (pf_min _ _ _ Fa), (pf_max _ _ _ Fa).
          destruct (shift_down_below _ a g0 Fa) as [[E1 _]|[_ K]]; [|exfalso; destruct K as [[_ K]|[K _]]; contradiction].
          destruct (shift_up_above _ a g0 Fa) as [[E2 _]|[_ K]]; [|exfalso; destruct K as [[_ K]|[K _]]; contradiction].
          rewrite E1, E2. change (inject_Z 0) with 0. unfold whole in S2. unfold Qsqr.
          assert (Eq : pmax a + 0 * gw g0 - (pmin a - 0 * gw g0) == smax a - smin a) by (rewrite <- S2; ring).
          rewrite Eq. lra. }
        destruct (Qltb_spec (max_reasonable e) (dist2 (px pg) (px q))); [now left|lra].
Qed.
End Ghost.
