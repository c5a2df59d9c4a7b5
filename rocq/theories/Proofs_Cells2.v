(* Binning geometry and adjacency. *)
From Verif Require Import Lib Model_Geometry Model_Cells Proofs_Geometry Proofs_Cells1 Spec_Cells.
From Coq Require Import ZifyBool ZifyNat FinFun.
Local Open Scope Q_scope.

Lemma Qtrunc_neg q : q < 0 -> inject_Z (Qtrunc q) <= 0 /\ q <= inject_Z (Qtrunc q).
Proof.
  intros H. unfold Qtrunc. qcases; [|lra].
  rewrite inject_Z_opp. pose proof (Qfloor_le (- q)). split; [|lra].
  assert (0 <= Qfloor (- q))%Z. { change 0%Z with (Qfloor 0). apply Qfloor_resp_le. lra. }
  apply Zle_Q in H1. change (inject_Z 0) with 0 in H1. lra.
Qed.

(* normalised coordinate *)
Definition ncoord (g : gaxis) (x : Q) : Q := (x - gmin g) * (1 / gw g).

Lemma cell_index1_spec g x : plain g ->
  (0 <= cell_index1 g x < gdim g)%Z /\
  (cell_index1 g x = 0%Z \/ inject_Z (cell_index1 g x) <= ncoord g x) /\
  (cell_index1 g x = (gdim g - 1)%Z \/ ncoord g x < inject_Z (cell_index1 g x) + 1).
Proof.
  intros (Hu & Hd & Hp). unfold cell_index1, shift_up, shift_down. rewrite Hu, Hd. cbn [Z.eqb].
  fold (ncoord g x). set (a := ncoord g x). unfold to_int.
  replace (Qtrunc a + 0)%Z with (Qtrunc a) by lia. replace (gdim g - 0)%Z with (gdim g) by lia.
  destruct (Qlt_le_dec a 0) as [Hneg|Hpos].
  - destruct (Qtrunc_neg a Hneg) as [H1 H2].
    assert (Qtrunc a <= 0)%Z. { change 0 with (inject_Z 0) in H1. now rewrite <- Zle_Qle in H1. }
    destruct (Z.leb_spec (gdim g) (Qtrunc a)); [lia|].
    destruct (Z.ltb_spec (Qtrunc a) 0).
    + split; [lia|]. split; [left; reflexivity|]. right. change (inject_Z 0) with 0. lra.
    + assert (E : Qtrunc a = 0%Z) by lia. rewrite E. split; [lia|]. split; [left; reflexivity|].
      right. change (inject_Z 0) with 0. lra.
  - rewrite Qtrunc_nonneg by exact Hpos.
    pose proof (Qfloor_le a) as H1. pose proof (Qlt_floor a) as H2. rewrite inject_Z_plus in H2.
    change (inject_Z 1) with 1 in H2.
    assert (0 <= Qfloor a)%Z. { change 0%Z with (Qfloor 0). apply Qfloor_resp_le. exact Hpos. }
    destruct (Z.leb_spec (gdim g) (Qfloor a)) as [Hle|Hlt].
    + split; [lia|]. split; [right|left; lia].
      assert (H3 : (gdim g - 1 <= Qfloor a)%Z) by lia. apply Zle_Q in H3. lra.
    + destruct (Z.ltb_spec (Qfloor a) 0); [lia|]. split; [lia|]. split; right; lra.
Qed.

Definition good_axis (c : Q) (g : gaxis) : Prop :=
  plain g /\ 0 < gw g /\ gmax g == gmin g + inject_Z (gdim g) * gw g /\ 0 < c /\
  (gbc g = WRAP -> (2 * sweep1 c g + 1 <= gdim g)%Z).

Definition axis_of (g : gaxis) : axis := mkAxis (gmin g) (gmax g) (gbc g).

Lemma sweep1_nonneg c g : 0 < gw g -> 0 < c -> (1 <= sweep1 c g)%Z /\ c <= inject_Z (sweep1 c g) * gw g.
Proof.
  intros Hw Hc. unfold sweep1. pose proof (Qle_ceiling (c / gw g)) as H.
  assert (E : c / gw g * gw g == c) by (field; lra).
  assert (0 < c / gw g) by (apply Qlt_shift_div_l; lra).
  split.
  - assert (0 < Qceiling (c / gw g))%Z; [|lia]. rewrite Zlt_Qlt. change (inject_Z 0) with 0. lra.
  - set (k := inject_Z (Qceiling (c / gw g))) in *. nra.
Qed.

Lemma good_sweep_ok c g : good_axis c g -> sweep_ok g (sweep1 c g).
Proof.
  intros (Hp & Hw & _ & Hc & Hd). pose proof (sweep1_nonneg c g Hw Hc). split; [exact Hp|]. split; [lia|exact Hd].
Qed.

(* Q <-> Z transfer *)
Lemma ZQ_le a b : (a <= b)%Z -> inject_Z a <= inject_Z b.
Proof. apply Zle_Q. Qed.

Ltac zq H := apply ZQ_le in H; repeat rewrite ?inject_Z_plus, ?inject_Z_opp, ?inject_Z_mult in H;
  unfold Z.sub in H; repeat rewrite ?inject_Z_plus, ?inject_Z_opp, ?inject_Z_mult in H;
  change (inject_Z 0) with 0 in H; change (inject_Z 1) with 1 in H; change (inject_Z 2) with 2 in H.

Lemma norm_direct (ka kb dim s : Z) (a b : Q) :
  (0 <= ka < dim)%Z -> (0 <= kb < dim)%Z -> (0 <= s)%Z ->
  (kb = 0%Z \/ inject_Z kb <= b) -> (ka = (dim - 1)%Z \/ a < inject_Z ka + 1) ->
  b - a < inject_Z s -> (kb - ka <= s)%Z.
Proof.
  intros Ha Hb Hs Hkb Hka Hab. destruct (Z_le_gt_dec (kb - ka) s) as [|Hgt]; [assumption|exfalso].
  assert (H : (s + 1 <= kb - ka)%Z) by lia.
  destruct Hkb as [->|Hkb]; [lia|]. destruct Hka as [->|Hka]; [lia|].
  zq H. lra.
Qed.

Lemma norm_wrap (ka kb dim s : Z) (a b : Q) :
  (0 <= ka < dim)%Z -> (0 <= kb < dim)%Z -> (0 <= s)%Z -> 
  (kb = 0%Z \/ inject_Z kb <= b) -> (ka = (dim - 1)%Z \/ a < inject_Z ka + 1) ->
  0 <= b -> a <= inject_Z dim ->
  inject_Z dim - inject_Z s < a - b -> (kb + dim - ka <= s)%Z.
Proof.
  intros Ha Hb Hs Hkb Hka Hb0 Had Hab.
  destruct (Z_le_gt_dec (kb + dim - ka) s) as [|Hgt]; [assumption|exfalso].
  assert (H : (s + 1 <= kb + dim - ka)%Z) by lia.
  destruct Hkb as [->|Hkb]; destruct Hka as [->|Hka].
  - assert (H' : (s <= 0)%Z) by lia. zq H'. lra.
  - zq H. lra.
  - assert (H' : (s <= kb)%Z) by lia. zq H'. lra.
  - zq H. lra.
Qed.

Lemma min_image_cases a d c : lo a <= hi a -> Qabs d <= wd a \/ bc a <> WRAP ->
  Qabs (min_image1 a d) < c -> Qabs d < c \/ (bc a = WRAP /\ wd a - Qabs d < c).
Proof.
  intros Hw Hd. unfold min_image1. bcs; [|intros; left; assumption].
  destruct Hd as [Hd|Hd]; [|congruence]. intros H.
  qabs d; qcases; try (left; assumption);
  match type of H with Qabs ?t < _ => qabs t end; solve [left; lra|right; split; [assumption|lra]].
Qed.

Lemma axis_step c g x y : good_axis c g ->
  (gbc g = WRAP -> gmin g <= x <= gmax g /\ gmin g <= y <= gmax g) ->
  Qabs (min_image1 (axis_of g) (x - y)) < c ->
  exists o, (- sweep1 c g <= o <= sweep1 c g)%Z /\
    correct1 g (cell_index1 g x + o)%Z = Some (cell_index1 g y).
Proof.
  intros Hg Hin Hd. pose proof (good_sweep_ok c g Hg) as Hok.
  destruct Hg as (Hp & Hw & Hmax & Hc & Hdim).
  destruct (sweep1_nonneg c g Hw Hc) as [Hs Hcs].
  set (s := sweep1 c g) in *.
  destruct (cell_index1_spec g x Hp) as (Hx0 & Hx1 & Hx2).
  destruct (cell_index1_spec g y Hp) as (Hy0 & Hy1 & Hy2).
  set (kx := cell_index1 g x) in *. set (ky := cell_index1 g y) in *.
  assert (Hdimpos : (0 < gdim g)%Z) by apply Hp.
  assert (Hdq : 0 < inject_Z (gdim g)) by (change 0 with (inject_Z 0); rewrite <- Zlt_Qlt; lia).
  assert (Enx : ncoord g x * gw g == x - gmin g) by (unfold ncoord; field; lra).
  assert (Eny : ncoord g y * gw g == y - gmin g) by (unfold ncoord; field; lra).
  set (a := ncoord g x) in *. set (b := ncoord g y) in *.
  set (S := inject_Z s) in *. set (D := inject_Z (gdim g)) in *.
  assert (Hcase : Qabs (x - y) < c \/ (gbc g = WRAP /\ wd (axis_of g) - Qabs (x - y) < c)).
  { apply (min_image_cases (axis_of g)); auto.
    - cbn [axis_of lo hi]. nra.
    - destruct (bc_eqb_spec (gbc g) WRAP) as [E|E]; [left|right; exact E].
      specialize (Hin E). unfold wd; cbn [axis_of lo hi]. apply Qabs_Qle_condition. lra. }
  destruct Hcase as [Hdir|[Hwrap Hind]].
  - (* direct *)
    exists (ky - kx)%Z.
    assert (Hab : a - b < S /\ b - a < S).
    { apply Qabs_Qlt_condition in Hdir. split; nra. }
    split.
    + split.
      * assert (kx - ky <= s)%Z by (apply (norm_direct ky kx (gdim g) s b a); auto; lia || apply Hab). lia.
      * apply (norm_direct kx ky (gdim g) s a b); auto; lia || apply Hab.
    + replace (kx + (ky - kx))%Z with ky by lia.
      destruct (bc_eqb_spec (gbc g) WRAP) as [E|E].
      * apply correct1_spec; auto; lia.
      * rewrite correct1_nowrap by auto.
        destruct (Z.leb_spec 0 ky); destruct (Z.ltb_spec ky (gdim g)); simpl; try reflexivity; lia.
  - specialize (Hin Hwrap). specialize (Hdim Hwrap). unfold wd in Hind; cbn [axis_of lo hi] in Hind.
    assert (HW : gmax g - gmin g == D * gw g) by lra.
    assert (Hax : 0 <= a <= D) by (split; nra). assert (Hbx : 0 <= b <= D) by (split; nra).
    destruct (Qabs_cases (x - y)) as [[Hs1 Habs]|[Hs1 Habs]]; rewrite Habs in Hind.
    + (* x above y: go up *)
      assert (Hab : D - S < a - b) by nra.
      exists (ky + gdim g - kx)%Z.
      assert (Ho : (ky + gdim g - kx <= s)%Z) by (apply (norm_wrap kx ky (gdim g) s a b); auto; try lia; try apply Hax; try apply Hbx; exact Hab).
      split; [lia|]. apply correct1_spec; auto; [lia|]. split; [lia|]. right. split; [exact Hwrap|lia].
    + assert (Hab : D - S < b - a) by nra.
      exists (ky - gdim g - kx)%Z.
      assert (Ho : (kx + gdim g - ky <= s)%Z) by (apply (norm_wrap ky kx (gdim g) s b a); auto; try lia; try apply Hax; try apply Hbx; exact Hab).
      split; [lia|]. apply correct1_spec; auto; [lia|]. split; [lia|]. right. split; [exact Hwrap|lia].
Qed.

(* ---------------------------------------------------------------- vector level *)
Definition good_grid (c : Q) (gs : list gaxis) : Prop := Forall (good_axis c) gs.
Definition box_of (gs : list gaxis) : box := map axis_of gs.

Lemma good_sweeps c gs : good_grid c gs -> sweeps_ok gs (centers c gs).
Proof. induction 1; simpl; constructor; auto. now apply good_sweep_ok. Qed.

Lemma little_dims_odd c gs : little_dims c gs = odd_dims (centers c gs).
Proof. unfold little_dims, odd_dims, centers. now rewrite map_map. Qed.

Lemma cell_tuple_range c gs : good_grid c gs -> forall x, length x = length gs ->
  in_range (dims_of gs) (cell_tuple gs x).
Proof.
  induction 1 as [|g gs Hg Hgs IH]; intros [|x0 x] Hl; simpl in *; try discriminate; constructor.
  - apply cell_index1_spec. apply Hg.
  - apply IH. lia.
Qed.

Definition wrapped_g (gs : list gaxis) (x : list Q) : Prop :=
  Forall2 (fun g xd => gbc g = WRAP -> gmin g <= xd <= gmax g) gs x.

Lemma Qsq_lt_abs u c : 0 < c -> Qsqr u < Qsqr c -> Qabs u < c.
Proof. intros Hc H. unfold Qsqr in H. qabs u; rewrite Habs; nra. Qed.

Lemma vector_step c gs : good_grid c gs -> 0 < c -> forall x y,
  wrapped_g gs x -> wrapped_g gs y ->
  getDistanceSqr (box_of gs) x y < Qsqr c ->
  exists o, within_s (centers c gs) o /\ correct_index gs (zadd (cell_tuple gs x) o) = Some (cell_tuple gs y).
Proof.
  intros H Hc. induction H as [|g gs Hg Hgs IH]; intros x y Hx Hy Hd.
  - exists []. split; [constructor|reflexivity].
  - inversion Hx as [|? x0 ? x' Hx0 Hx']; inversion Hy as [|? y0 ? y' Hy0 Hy']; subst.
    cbn [box_of map getDistanceSqr] in Hd. fold (box_of gs) in Hd.
    pose proof (getDistanceSqr_nonneg (box_of gs) x' y') as Hn.
    pose proof (Qsq_nonneg (min_image1 (axis_of g) (x0 - y0))) as Hm.
    fold (Qsqr (min_image1 (axis_of g) (x0 - y0))) in Hm.
    destruct (IH x' y' Hx' Hy') as (o & Ho & Hc'); [lra|].
    destruct (axis_step c g x0 y0 Hg) as (k & Hk & Hck).
    + intros E. split; auto.
    + apply Qsq_lt_abs; [exact Hc|lra].
    + exists (k :: o). split; [constructor; auto|].
      change (cell_tuple (g :: gs) (x0 :: x')) with (cell_index1 g x0 :: cell_tuple gs x').
      change (zadd (cell_index1 g x0 :: cell_tuple gs x') (k :: o)) with
        (cell_index1 g x0 + k :: zadd (cell_tuple gs x') o)%Z.
      rewrite correct_cons, Hck, Hc'. reflexivity.
Qed.

Lemma not_halo c gs : good_grid c gs -> forall t, in_range (dims_of gs) t -> is_halo_cell gs t = false.
Proof.
  unfold is_halo_cell. induction 1 as [|g gs Hg Hgs IH]; intros t Ht; [destruct t; reflexivity|].
  inversion Ht as [|? i ? t0 Hi Ht0]; subst. cbn [combine existsb fst snd]. rewrite (IH t0 Ht0).
  unfold is_halo1, shift_up, shift_down. destruct Hg as ((Hu & Hd & _) & _). rewrite Hu, Hd. cbn [Z.eqb].
  destruct (Z.ltb_spec i 0); destruct (Z.leb_spec (gdim g - 0) i); simpl; try reflexivity; simpl in Hi; lia.
Qed.

(* ---------------------------------------------------------------- adjacency *)
Definition keep_half (c : Q) (gs : list gaxis) : Prop :=
  forall o, within_s (centers c gs) o -> (oidx (centers c gs) o < half_of (centers c gs))%Z ->
    stencil_keep c gs o = true.

Lemma firstn_filter_map {A B} (f : A -> B) (keep : B -> bool) : forall l1 l2,
  (forall a, In a l1 -> keep (f a) = true) ->
  firstn (length l1) (filter keep (map f (l1 ++ l2))) = map f l1 /\
  (length l1 <= length (filter keep (map f (l1 ++ l2))))%nat.
Proof.
  induction l1 as [|a l1 IH]; intros l2 H; simpl; [split; [reflexivity|lia]|].
  rewrite (H a (or_introl eq_refl)). simpl.
  destruct (IH l2) as [H1 H2]; [intros; apply H; now right|]. split; [f_equal; exact H1|lia].
Qed.

Lemma adjacent_some c gs : good_grid c gs -> keep_half c gs -> forall t, in_range (dims_of gs) t ->
  adjacent c gs (tuple_to_linear (dims_of gs) t) =
  Some (flat_map (adj_of_offset gs t)
          (map (stencil_offset c gs) (zrange (half_of (centers c gs))))).
Proof.
  intros Hg Hk t Ht. unfold adjacent. rewrite address_of_linear by exact Ht.
  rewrite (not_halo c gs Hg t Ht).
  unfold stencil_volume, neighbor_indices, stencil_volume. rewrite little_dims_odd.
  set (ss := centers c gs) in *. fold (half_of ss).
  assert (Hss : Forall (fun s => 0 <= s)%Z ss).
  { pose proof (good_sweeps c gs Hg) as Hs. fold ss in Hs. clear -Hs.
    induction Hs as [|g s gs ss H Hs IH]; constructor; auto. destruct H as (_ & H & _). exact H. }
  destruct (odd_dims_odd ss Hss) as (h & Eh & Hh).
  assert (Hhalf : half_of ss = h). { unfold half_of. rewrite Eh. rewrite Z.add_comm, Z.mul_comm, Z.div_add by lia. reflexivity. }
  assert (Hsplit : zrange (prodZ (odd_dims ss)) = zrange h ++ skipn (Z.to_nat h) (zrange (prodZ (odd_dims ss)))).
  { rewrite <- (firstn_skipn (Z.to_nat h) (zrange (prodZ (odd_dims ss)))) at 1. f_equal.
    apply zrange_firstn. lia. }
  rewrite Hsplit. rewrite Hhalf.
  destruct (firstn_filter_map (stencil_offset c gs) (stencil_keep c gs) (zrange h)
             (skipn (Z.to_nat h) (zrange (prodZ (odd_dims ss))))) as [H1 H2].
  { intros i Hi. apply in_zrange in Hi.
    unfold stencil_offset. rewrite little_dims_odd. fold ss.
    destruct (offset_within ss i Hss) as [Hw Hidx]; [lia|].
    apply Hk; fold ss; [exact Hw|]. rewrite Hidx, Hhalf. lia. }
  rewrite zrange_length in *.
  destruct (Nat.leb_spec (Z.to_nat h) (length (filter (stencil_keep c gs)
    (map (stencil_offset c gs) (zrange h ++ skipn (Z.to_nat h) (zrange (prodZ (odd_dims ss)))))))); [|lia].
  rewrite H1. reflexivity.
Qed.

Definition adj_list (c : Q) (gs : list gaxis) (t : list Z) : list Z :=
  flat_map (adj_of_offset gs t) (map (stencil_offset c gs) (zrange (half_of (centers c gs)))).

Lemma centers_nonneg c gs : good_grid c gs -> Forall (fun s => 0 <= s)%Z (centers c gs).
Proof.
  intros Hg. pose proof (good_sweeps c gs Hg) as Hs. revert Hs. generalize (centers c gs). intros ss Hs.
  clear Hg. induction Hs as [|g s gs0 ss H Hs IH]; constructor; auto. destruct H as (_ & H & _). exact H.
Qed.

Lemma adj_list_spec c gs : good_grid c gs -> forall t l, in_range (dims_of gs) t ->
  (In l (adj_list c gs t) <-> exists o t', within_s (centers c gs) o /\
     (oidx (centers c gs) o < half_of (centers c gs))%Z /\
     correct_index gs (zadd t o) = Some t' /\ l = tuple_to_linear (dims_of gs) t').
Proof.
  intros Hg t l Ht. set (ss := centers c gs).
  pose proof (centers_nonneg c gs Hg) as Hss. fold ss in Hss.
  destruct (odd_dims_odd ss Hss) as (h & Eh & Hh).
  assert (Hhalf : half_of ss = h). { unfold half_of. rewrite Eh. rewrite Z.add_comm, Z.mul_comm, Z.div_add by lia. reflexivity. }
  unfold adj_list. fold ss. rewrite in_flat_map. split.
  - intros (o & Ho & Hl). apply in_map_iff in Ho. destruct Ho as (i & <- & Hi). apply in_zrange in Hi.
    unfold stencil_offset in *. rewrite little_dims_odd in *. fold ss in Hl |- *.
    destruct (offset_within ss i Hss) as [Hw Hidx]; [lia|].
    unfold adj_of_offset in Hl.
    destruct (correct_index gs (zadd t (zsub (getAddressCM i (odd_dims ss)) ss))) as [t'|] eqn:E; [|destruct Hl].
    destruct Hl as [<-|[]]. exists (zsub (getAddressCM i (odd_dims ss)) ss), t'.
    repeat split; auto. rewrite Hidx. lia.
  - intros (o & t' & Hw & Hi & Hc & ->). exists o. split.
    + apply in_map_iff. exists (oidx ss o). split.
      * unfold stencil_offset. rewrite little_dims_odd. fold ss. now apply offset_of_oidx.
      * apply in_zrange. pose proof (oidx_bound ss o Hw). lia.
    + unfold adj_of_offset. rewrite Hc. now left.
Qed.

Lemma NoDup_flat_map {A B} (f : A -> list B) (l : list A) :
  NoDup l -> (forall a, In a l -> NoDup (f a)) ->
  (forall a a' b, In a l -> In a' l -> In b (f a) -> In b (f a') -> a = a') ->
  NoDup (flat_map f l).
Proof.
  induction l as [|a l IH]; intros Hnd Hf Hd; simpl; [constructor|].
  inversion Hnd; subst. 
  assert (Happ : forall (l1 l2 : list B), NoDup l1 -> NoDup l2 -> (forall b, In b l1 -> ~ In b l2) -> NoDup (l1 ++ l2)).
  { clear. induction l1 as [|x l1 IH]; intros l2 H1 H2 Hd; simpl; [exact H2|].
    inversion H1; subst. constructor.
    - rewrite in_app_iff. intros [H|H]; [contradiction|]. apply (Hd x); [now left|exact H].
    - apply IH; auto. intros b Hb. apply Hd. now right. }
  apply Happ.
  - apply Hf. now left.
  - apply IH; auto.
    + intros; apply Hf; now right.
    + intros a1 a2 b H3 H4. apply Hd; now right.
  - intros b Hb Hb'. apply in_flat_map in Hb'. destruct Hb' as (a' & Ha' & Hb').
    assert (a = a') by (eapply Hd; eauto; [now left|now right]). subst. contradiction.
Qed.

Lemma adj_list_nodup c gs : good_grid c gs -> forall t, in_range (dims_of gs) t -> NoDup (adj_list c gs t).
Proof.
  intros Hg t Ht. set (ss := centers c gs).
  pose proof (centers_nonneg c gs Hg) as Hss. fold ss in Hss.
  pose proof (good_sweeps c gs Hg) as Hok. fold ss in Hok.
  destruct (odd_dims_odd ss Hss) as (h & Eh & Hh).
  assert (Hhalf : half_of ss = h). { unfold half_of. rewrite Eh. rewrite Z.add_comm, Z.mul_comm, Z.div_add by lia. reflexivity. }
  assert (Hoff : forall i, (0 <= i < h)%Z -> within_s ss (stencil_offset c gs i) /\ oidx ss (stencil_offset c gs i) = i).
  { intros i Hi. unfold stencil_offset. rewrite little_dims_odd. fold ss. apply offset_within; auto. lia. }
  unfold adj_list. fold ss. rewrite Hhalf. apply NoDup_flat_map.
  - assert (G : forall l, NoDup l -> (forall i, In i l -> (0 <= i < h)%Z) -> NoDup (map (stencil_offset c gs) l)).
    { induction l as [|i l IH]; intros Hnd Hin; simpl; constructor; inversion Hnd; subst.
      - rewrite in_map_iff. intros (j & Ej & Hj).
        assert (Hi' := proj2 (Hoff i (Hin i (or_introl eq_refl)))).
        assert (Hj' := proj2 (Hoff j (Hin j (or_intror Hj)))). rewrite Ej in Hj'. congruence.
      - apply IH; auto. intros; apply Hin; now right. }
    apply G; [apply NoDup_zrange|]. intros i. apply in_zrange.
  - intros o _. unfold adj_of_offset. destruct (correct_index gs (zadd t o)); repeat constructor. intros [].
  - intros o o' l Ho Ho' Hl Hl'. apply in_map_iff in Ho. destruct Ho as (i & <- & Hi). apply in_zrange in Hi.
    apply in_map_iff in Ho'. destruct Ho' as (i' & <- & Hi'). apply in_zrange in Hi'.
    destruct (Hoff i Hi) as [Hw _]. destruct (Hoff i' Hi') as [Hw' _].
    unfold adj_of_offset in Hl, Hl'.
    destruct (correct_index gs (zadd t (stencil_offset c gs i))) as [t1|] eqn:E1; [|destruct Hl].
    destruct (correct_index gs (zadd t (stencil_offset c gs i'))) as [t2|] eqn:E2; [|destruct Hl'].
    destruct Hl as [<-|[]]. destruct Hl' as [E|[]].
    pose proof (correct_range gs ss Hok t _ t1 Ht Hw E1) as R1.
    pose proof (correct_range gs ss Hok t _ t2 Ht Hw' E2) as R2.
    apply linear_injective in E; auto. subst t2.
    exact (correct_unique gs ss Hok t _ _ t1 Ht Hw Hw' E1 E2).
Qed.

(* adjacency is antisymmetric and irreflexive *)
Lemma adj_asym c gs : good_grid c gs -> forall t t', in_range (dims_of gs) t -> in_range (dims_of gs) t' ->
  In (tuple_to_linear (dims_of gs) t') (adj_list c gs t) ->
  In (tuple_to_linear (dims_of gs) t) (adj_list c gs t') -> False.
Proof.
  intros Hg t t' Ht Ht' H1 H2. set (ss := centers c gs).
  pose proof (good_sweeps c gs Hg) as Hok. fold ss in Hok.
  apply adj_list_spec in H1; auto. apply adj_list_spec in H2; auto.
  destruct H1 as (o & t1 & Hw & Hi & Hc & E). destruct H2 as (o' & t2 & Hw' & Hi' & Hc' & E').
  fold ss in Hw, Hi, Hw', Hi'.
  pose proof (correct_range gs ss Hok t _ t1 Ht Hw Hc) as R1.
  pose proof (correct_range gs ss Hok t' _ t2 Ht' Hw' Hc') as R2.
  apply linear_injective in E; auto. apply linear_injective in E'; auto. subst t1 t2.
  pose proof (correct_inverse gs ss Hok t o t' Ht Hw Hc) as Hinv.
  pose proof (correct_unique gs ss Hok t' _ _ t Ht' (within_neg ss o Hw) Hw' Hinv Hc') as Eo.
  rewrite <- Eo in Hi'. destruct (oidx_trichotomy ss o Hw) as [(A & B & C)|[(A & B & C)|(A & B)]]; lia.
Qed.

Lemma adj_irrefl c gs : good_grid c gs -> forall t, in_range (dims_of gs) t ->
  In (tuple_to_linear (dims_of gs) t) (adj_list c gs t) -> False.
Proof. intros Hg t Ht H. eapply adj_asym; eauto. Qed.

(* coverage: close points are in the same cell or one of the cells lists the other as adjacent *)
Lemma close_cells c gs x y : good_grid c gs -> 0 < c -> wrapped_g gs x -> wrapped_g gs y ->
  getDistanceSqr (box_of gs) x y < Qsqr c ->
  cell_tuple gs x = cell_tuple gs y \/
  In (get_cell_index gs y) (adj_list c gs (cell_tuple gs x)) \/
  In (get_cell_index gs x) (adj_list c gs (cell_tuple gs y)).
Proof.
  intros Hg Hc Hx Hy Hd.
  assert (Lx : length x = length gs) by (symmetry; eapply Forall2_len; exact Hx).
  assert (Ly : length y = length gs) by (symmetry; eapply Forall2_len; exact Hy).
  pose proof (cell_tuple_range c gs Hg x Lx) as Rx. pose proof (cell_tuple_range c gs Hg y Ly) as Ry.
  destruct (vector_step c gs Hg Hc x y Hx Hy Hd) as (o & Ho & Hco).
  set (ss := centers c gs) in *. pose proof (good_sweeps c gs Hg) as Hok. fold ss in Hok.
  destruct (oidx_trichotomy ss o Ho) as [(A & B & C)|[(A & B & C)|(A & B)]].
  - right; left. unfold get_cell_index. apply adj_list_spec; auto. exists o, (cell_tuple gs y). auto.
  - right; right. unfold get_cell_index. apply adj_list_spec; auto.
    exists (zneg o), (cell_tuple gs x). split; [now apply within_neg|]. split; [exact A|].
    split; [|reflexivity]. eapply correct_inverse; eauto.
  - left. rewrite A in Hco. rewrite (correct_zero gs ss Hok _ Rx) in Hco. congruence.
Qed.
