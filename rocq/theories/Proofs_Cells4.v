(* The grid built by the code's own set-up satisfies the conditions used in Proofs_Cells2/3. *)
From Verif Require Import Lib Model_Geometry Model_Cells Proofs_Geometry Proofs_Cells1 Proofs_Cells2 Proofs_Cells3 Spec_Cells.
From Coq Require Import ZifyBool ZifyNat.
Local Open Scope Q_scope.

Lemma Qeqb_refl q : Qeq_bool q q = true.
Proof. apply Qeq_bool_iff. reflexivity. Qed.

Lemma border_box a : border_up (box_paxis a) = 0%Z /\ border_down (box_paxis a) = 0%Z.
Proof.
  unfold border_up, border_down, box_paxis; cbn [pbc pmax pmin smax smin]. rewrite !Qeqb_refl.
  destruct (bc_eqb (bc a) WRAP); auto.
Qed.

(* facts about one axis *)
Record axis_facts (c : Q) (a : axis) (g : gaxis) : Prop := {
  af_min : gmin g = lo a; af_max : gmax g = hi a; af_bc : gbc g = bc a; af_plain : plain g;
  af_dim4 : (4 <= gdim g)%Z;
  af_w : gw g * inject_Z (gdim g) == wd a;
  af_wpos : 0 < gw g;
  af_hi : gw g < (5#4) * c;
  af_lo : 4 * c <= wd a -> c <= gw g;
  af_lo4 : c <= 4 * gw g }.

Lemma cell_axis_facts c a : 0 < c -> c <= wd a ->
  exists g, cell_axis c (box_paxis a) = Some g /\ axis_facts c a g.
Proof.
  intros Hc Hw. unfold cell_axis. cbn [box_paxis pmax pmin pbc]. fold (wd a).
  destruct (border_box a) as [-> ->]. cbn [Z.eqb].
  set (q := wd a / c).
  assert (Hq : 1 <= q) by (unfold q; apply Qle_shift_div_l; lra).
  assert (Eq : q * c == wd a) by (unfold q; field; lra).
  unfold to_int. rewrite Qtrunc_nonneg by lra.
  pose proof (Qfloor_le q) as H1. pose proof (Qlt_floor q) as H2. rewrite inject_Z_plus in H2.
  change (inject_Z 1) with 1 in H2.
  assert (Hd : (1 <= Qfloor q)%Z) by (change 1%Z with (Qfloor 1); apply Qfloor_resp_le; exact Hq).
  destruct (Z.leb_spec (Qfloor q) 0); [lia|].
  eexists. split; [reflexivity|].
  set (d := (if (Qfloor q <? 4)%Z then 4%Z else Qfloor q)).
  assert (Hd4 : (4 <= d)%Z) by (unfold d; destruct (Z.ltb_spec (Qfloor q) 4); lia).
  assert (HdQ : 4 <= inject_Z d) by (change 4 with (inject_Z 4); now apply Zle_Q).
  assert (Hdf : inject_Z (Qfloor q) <= inject_Z d).
  { apply Zle_Q. unfold d. destruct (Z.ltb_spec (Qfloor q) 4); lia. }
  assert (Ew : wd a / inject_Z d * inject_Z d == wd a) by (field; lra).
  set (w := wd a / inject_Z d) in *. set (D := inject_Z d) in *.
  constructor; cbn [gmin gmax gbc gdim gw]; try reflexivity; auto.
  - unfold plain; cbn [gup gdown gdim]. repeat split; lia.
  - nra.
  - set (F := inject_Z (Qfloor q)) in *. apply Qnot_le_lt. intros Hge. nra.
  - intros H4.
    assert (Hq4 : 4 <= q) by (unfold q; apply Qle_shift_div_l; lra).
    assert (Hf4 : (4 <= Qfloor q)%Z) by (change 4%Z with (Qfloor 4); apply Qfloor_resp_le; exact Hq4).
    assert (Ed : d = Qfloor q) by (unfold d; destruct (Z.ltb_spec (Qfloor q) 4); lia).
    unfold D in *; rewrite Ed in *. set (F := inject_Z (Qfloor q)) in *. nra.
  - unfold D in *. clearbody w. unfold d in *. destruct (Z.ltb_spec (Qfloor q) 4).
    + change (inject_Z 4) with 4 in *. lra.
    + set (F := inject_Z (Qfloor q)) in *. nra.
Qed.

Lemma cell_dims_facts c b : 0 < c -> Forall (fun a => c <= wd a) b ->
  exists gs, cell_dimensions c (map box_paxis b) = Some gs /\ Forall2 (axis_facts c) b gs.
Proof.
  intros Hc. induction 1 as [|a b Ha Hb (gs & E & F)]; [exists []; split; [reflexivity|constructor]|].
  destruct (cell_axis_facts c a Hc Ha) as (g & Eg & Fg). exists (g :: gs).
  cbn [map cell_dimensions]. rewrite Eg, E. split; [reflexivity|constructor; auto].
Qed.

Lemma facts_box c b gs : Forall2 (axis_facts c) b gs -> box_of gs = b.
Proof.
  induction 1 as [|a g b gs Ha Hb IH]; [reflexivity|]. simpl. fold (box_of gs). rewrite IH. f_equal.
  destruct Ha. unfold axis_of. rewrite af_min0, af_max0, af_bc0. now destruct a.
Qed.

Lemma facts_good_axis c a g : 0 < c -> (bc a = WRAP -> 4 * c <= wd a) -> axis_facts c a g -> good_axis c g.
Proof.
  intros Hc Hwr [E1 E2 E3 Hp H4 Hw Hwp Hhi Hlo]. unfold good_axis.
  split; [exact Hp|]. split; [exact Hwp|]. split; [|split; [exact Hc|]].
  - rewrite E1, E2. unfold wd in Hw. lra.
  - intros E. rewrite E3 in E. specialize (Hlo (Hwr E)).
    assert (sweep1 c g <= 1)%Z; [|lia]. unfold sweep1.
    change 1%Z with (Qceiling 1). apply Qceiling_resp_le. apply Qle_shift_div_r; lra.
Qed.

Definition searchable (c : Q) (b : box) : Prop :=
  Forall (fun a => c <= wd a /\ (bc a = WRAP -> 4 * c <= wd a)) b.

Lemma facts_good_grid c b gs : 0 < c -> searchable c b -> Forall2 (axis_facts c) b gs -> good_grid c gs.
Proof.
  intros Hc Hs F. unfold searchable in Hs. induction F as [|a g b gs Fa F IH]; constructor.
  - inversion Hs as [|? ? [_ H] _]; subst. eapply facts_good_axis; eauto.
  - apply IH. now inversion Hs.
Qed.

(* ---------------------------------------------------------------- the stencil filter *)
Lemma dotZQ_cons o os w ws : dotZQ (o :: os) (w :: ws) = inject_Z o * w + dotZQ os ws.
Proof. reflexivity. Qed.

  Definition bounded_axis (m M : Q) (g : gaxis) (s : Z) : Prop :=
    0 < gw g /\ m <= gw g /\ inject_Z s * gw g <= M /\ (0 <= s)%Z.

  Lemma dot_upper m M gs ss : Forall2 (bounded_axis m M) gs ss -> forall o, within_s ss o ->
    dotZQ o (map gw gs) <= inject_Z (Z.of_nat (length gs)) * M.
  Proof.
    induction 1 as [|g s gs ss (Hw & Hm & HM & Hs) F IH]; intros o Ho; inversion Ho as [|? i ? o' Hi Ho']; subst.
    - change (0 <= 0 * M). lra.
    - cbn [map length]. rewrite dotZQ_cons, Nat2Z.inj_succ, <- Z.add_1_l, inject_Z_plus.
      change (inject_Z 1) with 1. specialize (IH o' Ho').
      assert (Hi2 : inject_Z i <= inject_Z s) by (apply Zle_Q; lia).
      set (N := inject_Z (Z.of_nat (length gs))) in *. nra.
  Qed.

  Lemma dot_negative m M gs ss : Forall2 (bounded_axis m M) gs ss -> forall o, within_s ss o ->
    Exists (fun i => i < 0)%Z o ->
    dotZQ o (map gw gs) <= inject_Z (Z.of_nat (length gs) - 1) * M - m.
  Proof.
    induction 1 as [|g s gs ss (Hw & Hm & HM & Hs) F IH]; intros o Ho Hex; inversion Ho as [|? i ? o' Hi Ho']; subst.
    - inversion Hex.
    - cbn [map length]. rewrite dotZQ_cons, Nat2Z.inj_succ.
      replace (Z.succ (Z.of_nat (length gs)) - 1)%Z with (Z.of_nat (length gs)) by lia.
      inversion Hex as [? ? Hneg|? ? Hex']; subst.
      + pose proof (dot_upper m M gs ss F o' Ho') as Hu.
        assert (Hi2 : inject_Z i <= -1) by (change (-1) with (inject_Z (-1)); apply Zle_Q; lia).
        set (N := inject_Z (Z.of_nat (length gs))) in *. nra.
      + specialize (IH o' Ho' Hex'). unfold Z.sub in IH. rewrite inject_Z_plus in IH.
        change (inject_Z (-(1))) with (-1) in IH.
        assert (Hi2 : inject_Z i <= inject_Z s) by (apply Zle_Q; lia).
        set (N := inject_Z (Z.of_nat (length gs))) in *. nra.
  Qed.

Lemma linear_mono ds : Forall (fun d => 0 < d)%Z ds -> forall t t', length t = length ds -> Forall2 Z.le t t' ->
  (tuple_to_linear ds t <= tuple_to_linear ds t')%Z.
Proof.
  induction 1 as [|d ds Hd Hds IH]; intros t t' Hl Hle; [simpl; lia|].
  inversion Hle as [|x y t0 t0' Hxy Hle0]; subst; [discriminate|]. simpl. simpl in Hl.
  pose proof (IH t0 t0' ltac:(lia) Hle0). pose proof (prodZ_pos ds Hds). nia.
Qed.

Lemma half_is_center ss : Forall (fun s => 0 <= s)%Z ss -> tuple_to_linear (odd_dims ss) ss = half_of ss.
Proof.
  intros H. destruct (odd_dims_odd ss H) as (h & E & Hh). unfold half_of. rewrite E.
  rewrite Z.add_comm, Z.mul_comm, Z.div_add by lia. change (1 / 2)%Z with 0%Z.
  enough (2 * tuple_to_linear (odd_dims ss) ss + 1 = prodZ (odd_dims ss))%Z by lia.
  clear h E Hh. induction H as [|s ss Hs Hss IH]; [reflexivity|].
  change (odd_dims (s :: ss)) with ((2 * s + 1) :: odd_dims ss)%Z. cbn [tuple_to_linear prodZ]. nia.
Qed.

Lemma first_half_negative ss o : within_s ss o -> (oidx ss o < half_of ss)%Z -> Exists (fun i => i < 0)%Z o.
Proof.
  intros Ho Hlt. pose proof (within_s_nonneg ss o Ho) as Hnn.
  destruct (Exists_dec (fun i => i < 0)%Z o) as [H|H]; [intros; apply Z_lt_dec|exact H|].
  exfalso. rewrite <- Forall_Exists_neg in H. unfold oidx in Hlt. rewrite <- half_is_center in Hlt by exact Hnn.
  assert (G : Forall2 Z.le ss (zadd ss o)).
  { clear Hlt Hnn. induction Ho as [|s i ss o Hi Ho IH]; [constructor|]. inversion H; subst.
    unfold zadd; cbn [combine map fst snd]. constructor; [lia|]. now apply IH. }
  assert (Hp : Forall (fun d => 0 < d)%Z (odd_dims ss)).
  { unfold odd_dims. apply Forall_map. eapply Forall_impl; [|exact Hnn]. intros; simpl in *; lia. }
  pose proof (linear_mono (odd_dims ss) Hp ss (zadd ss o) ltac:(unfold odd_dims; now rewrite map_length) G). lia.
Qed.

Lemma keep_of_bound c q K : 0 < c -> q <= K * c -> K * c < 1 \/ K < c ->
  Qltb (inject_Z (to_int q)) (Qsqr c) = true.
Proof.
  intros Hc Hq HK.
  destruct (Qltb_spec (inject_Z (to_int q)) (Qsqr c)) as [|Hn]; [reflexivity|]. exfalso. apply Hn.
  unfold to_int, Qsqr. destruct (Qlt_le_dec q 0) as [Hneg|Hpos].
  - destruct (Qtrunc_neg q Hneg) as [H1 _]. nra.
  - rewrite Qtrunc_nonneg by exact Hpos. pose proof (Qfloor_le q).
    destruct HK as [HK|HK]; [|nra].
    assert (Qfloor q <= 0)%Z.
    { assert (Hlt : inject_Z (Qfloor q) < inject_Z 1) by (change (inject_Z 1) with 1; lra).
      rewrite <- Zlt_Qlt in Hlt. lia. }
    assert (inject_Z (Qfloor q) <= 0) by (change 0 with (inject_Z 0); now apply Zle_Q). nra.
Qed.

Lemma keep_half_of_bounds c m M gs : 0 < c -> Forall2 (bounded_axis m M) gs (centers c gs) ->
  (forall K, inject_Z (Z.of_nat (length gs) - 1) * M - m == K * c -> K * c < 1 \/ K < c) -> keep_half c gs.
Proof.
  intros Hc F HK o Ho Hlt. unfold stencil_keep.
  pose proof (dot_negative m M gs (centers c gs) F o Ho (first_half_negative _ _ Ho Hlt)) as Hd.
  apply (keep_of_bound c _ ((inject_Z (Z.of_nat (length gs) - 1) * M - m) / c)); auto.
  - field_simplify; [|lra]. lra.
  - apply HK. field. lra.
Qed.

Definition nq (b : box) : Q := inject_Z (Z.of_nat (length b)).

(* sufficient condition for the stencil filter to be harmless *)
Definition stencil_ok (c : Q) (b : box) : Prop :=
  (Forall (fun a => 4 * c <= wd a) b /\ ((5 * nq b - 9) / 4 * c < 1 \/ (5 * nq b - 9) / 4 < c)) \/
  ((9 * nq b - 10) / 4 * c < 1 \/ (9 * nq b - 10) / 4 < c).

Lemma facts_sweep1 c a g : 0 < c -> axis_facts c a g ->
  inject_Z (sweep1 c g) * gw g <= (9#4) * c /\ (1 <= sweep1 c g)%Z /\ (4 * c <= wd a -> sweep1 c g = 1%Z).
Proof.
  intros Hc [E1 E2 E3 Hp H4 Hw Hwp Hhi Hlo Hlo4].
  destruct (sweep1_nonneg c g Hwp Hc) as [Hs1 Hs2].
  split; [|split; [exact Hs1|]].
  - unfold sweep1. pose proof (Qceiling_lt (c / gw g)) as Hlt. unfold Z.sub in Hlt. rewrite inject_Z_plus in Hlt.
    change (inject_Z (-(1))) with (-1) in Hlt.
    assert (E : c / gw g * gw g == c) by (field; lra).
    set (S := inject_Z (Qceiling (c / gw g))) in *. set (r := c / gw g) in *. nra.
  - intros Hwide. specialize (Hlo Hwide).
    assert (sweep1 c g <= 1)%Z; [|lia]. unfold sweep1.
    change 1%Z with (Qceiling 1). apply Qceiling_resp_le. apply Qle_shift_div_r; lra.
Qed.

Lemma facts_length c b gs : Forall2 (axis_facts c) b gs -> length gs = length b.
Proof. intros F. symmetry. eapply Forall2_len; exact F. Qed.

Lemma facts_keep c b gs : 0 < c -> stencil_ok c b -> Forall2 (axis_facts c) b gs -> keep_half c gs.
Proof.
  intros Hc Hst F. pose proof (facts_length c b gs F) as Hl. unfold stencil_ok, nq in Hst.
  rewrite <- Hl in Hst.
  assert (Hm1 : inject_Z (Z.of_nat (length gs) - 1) == inject_Z (Z.of_nat (length gs)) - 1).
  { unfold Z.sub. rewrite inject_Z_plus. reflexivity. }
  destruct Hst as [[Hw HK]|HK].
  - apply (keep_half_of_bounds c c ((5#4) * c)); auto.
    + clear HK Hl Hm1. unfold centers. induction F as [|a g b gs Fa F IH]; constructor.
      * inversion Hw as [|? ? Hwa _]; subst. destruct (facts_sweep1 c a g Hc Fa) as (_ & _ & Hs).
        destruct Fa. rewrite (Hs Hwa). unfold bounded_axis. repeat split; auto; [change (inject_Z 1) with 1; lra|lia].
      * apply IH. now inversion Hw.
    + intros K EK. rewrite Hm1 in EK. set (N := inject_Z (Z.of_nat (length gs))) in *.
      assert (E : K == (5 * N - 9) / 4).
      { apply (Qmult_inj_r _ _ c); [lra|]. rewrite <- EK. field. }
      rewrite E. exact HK.
  - apply (keep_half_of_bounds c ((1#4) * c) ((9#4) * c)); auto.
    + clear HK Hl Hm1. unfold centers. induction F as [|a g b gs Fa F IH]; constructor; auto.
      destruct (facts_sweep1 c a g Hc Fa) as (Hs & Hs1 & _).
      destruct Fa. unfold bounded_axis. repeat split; auto; [lra|lia].
    + intros K EK. rewrite Hm1 in EK. set (N := inject_Z (Z.of_nat (length gs))) in *.
      assert (E : K == (9 * N - 10) / 4).
      { apply (Qmult_inj_r _ _ c); [lra|]. rewrite <- EK. field. }
      rewrite E. exact HK.
Qed.

Lemma facts_sim_wd c b gs : Forall2 (axis_facts c) b gs -> map (fun g => gmax g - gmin g) gs = map wd b.
Proof.
  induction 1 as [|a g b gs Fa F IH]; [reflexivity|]. simpl. rewrite IH. f_equal.
  destruct Fa. unfold wd. now rewrite af_min0, af_max0.
Qed.

Lemma facts_wrapped c b gs : Forall2 (axis_facts c) b gs -> forall x, wrapped b x -> wrapped_g gs x.
Proof.
  induction 1 as [|a g b gs Fa F IH]; intros x Hx; inversion Hx; subst; constructor.
  - intros E. destruct Fa. rewrite af_min0, af_max0. rewrite af_bc0 in E. auto.
  - apply IH. assumption.
Qed.

Lemma facts_dim2 c b gs : Forall2 (axis_facts c) b gs -> forall g, In g gs -> (4 <= gdim g)%Z.
Proof.
  induction 1 as [|a g b gs Fa F IH]; intros g' Hg'; [destruct Hg'|].
  destruct Hg' as [<-|Hg']; [destruct Fa; assumption|auto].
Qed.
