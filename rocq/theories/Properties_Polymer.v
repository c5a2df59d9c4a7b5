(* C88-C90: polymers, lines of particles, boxes. *)
From Verif Require Import Lib Model_Geometry Proofs_Geometry Model_Fill Spec_Fill Proofs_Fill Model_Polymer Spec_Polymer Proofs_Polymer.
From Coq Require Import Qround Qpower.
Local Open Scope Q_scope.

Definition third : stream := fun _ => 1 # 3.
Lemma third_draws : Draws third. Proof. intros k. unfold third. lra. Qed.

(* ------------------------------------------------------------------------------------------ C88 polymers *)
(* a polymer has the number of primary particles that its packing asks for, whatever the random numbers: the least n with n 2R >= phi length *)
Theorem C88_primaries rnd phi len rP rC : 0 < rP -> 0 <= phi * len -> exists n, length (filter (fun t => t) (arrangement rnd phi len rP rC)) = n /\ phi * len <= N2Q n * (2 * rP) < phi * len + 2 * rP.
Proof.
  intros H P. exists (primaries phi len rP). split; [|exact (primaries_bound phi len rP H P)]. unfold arrangement. cbv zeta. pose proof (ordering_count rnd rP rC (marks rnd phi len (primaries phi len rP)) (primaries phi len rP) true) as C. unfold count in C. rewrite C, marks_length. lia.
Qed.
Print Assumptions C88_primaries.
Example C88_primaries_case : 0 < 1 /\ 0 <= (1 # 2) * 10 /\ arrangement third (1 # 2) 10 1 (1 # 2) = [false; true; false; true; false; true; false; false; false].
Proof. split; [lra|]. split; [lra|]. vm_compute. reflexivity. Qed.
(* neighbours are dx apart, 2r <= dx < 4r, and primary particles never overlap: any two are at least 2R apart along the chain *)
Theorem C88_no_overlap_partial rnd phi len rP rC : Draws rnd -> 0 < rC -> rC <= rP -> exists dx, link_distance rP rC = Some dx /\ 2 * rC <= dx < 4 * rC /\
  forall i j, (i < j)%nat -> nth_error (arrangement rnd phi len rP rC) i = Some true -> nth_error (arrangement rnd phi len rP rC) j = Some true -> 2 * rP <= dx * (N2Q j - N2Q i).
Proof.
  intros D H L. destruct (link_distance_spec rP rC H L) as (dx & E & F & G). exists dx. split; [exact E|]. split; [exact G|]. intros i j Hij Hi Hj. destruct (extra_spec rP rC H L) as (Z0 & _).
  unfold arrangement in *. cbv zeta in *. destruct (ordering_gap rnd rP rC H (fun k => proj1 (D k)) Z0 (marks rnd phi len (primaries phi len rP)) (primaries phi len rP) (isort_sorted _)) as [_ K]. specialize (K true i j Hij Hi Hj).
  rewrite <- F. apply N2Q_le in K. rewrite !N2Q_plus, N2Q_to_nat in K by exact Z0. change (N2Q 1) with 1 in K. rewrite inject_Z_plus. change (inject_Z 1) with 1. set (e := inject_Z (extra rP rC)) in *. set (a := N2Q i) in *. set (b := N2Q j) in *. clearbody e a b.
  setoid_replace (dx * (b - a)) with ((b - a) * dx) by ring. setoid_replace (dx * (e + 1)) with ((e + 1) * dx) by ring. apply Qmult_le_compat_r; lra.
Qed.
Print Assumptions C88_no_overlap_partial.
Example C88_no_overlap_case : Draws third /\ 0 < 1 # 2 /\ (1 # 2) <= 1 /\ nth_error (arrangement third (1 # 2) 10 1 (1 # 2)) 1 = Some true /\ nth_error (arrangement third (1 # 2) 10 1 (1 # 2)) 3 = Some true.
Proof. split; [exact third_draws|]. split; [lra|]. split; [lra|]. split; reflexivity. Qed.
(* the chain is not longer than asked for (up to a primary particle), if the radius of the primaries is a multiple of that of the links *)
Theorem C88_length_partial rnd phi len rP rC m : Draws rnd -> 0 < rC -> (1 <= m)%Z -> rP == inject_Z m * rC -> 0 <= phi <= 1 -> 0 <= len ->
  exists dx, link_distance rP rC = Some dx /\ dx == 2 * rC /\ N2Q (length (arrangement rnd phi len rP rC)) * dx <= len + 2 * rP.
Proof.
  intros D H Hm E Hp Hl. assert (M1 : 1 <= inject_Z m) by (change 1 with (inject_Z 1); rewrite <- Zle_Qle; exact Hm). assert (L : rC <= rP) by (rewrite E; nra). destruct (link_distance_spec rP rC H L) as (dx & F & G & _). destruct (extra_spec rP rC H L) as (Z0 & A & B).
  assert (X : (extra rP rC + 1 = m)%Z). { apply Z.le_antisymm.
    - rewrite Zle_Qle. apply (Qmult_le_r _ _ rC H). lra.
    - assert (K : inject_Z m < inject_Z (extra rP rC + 1 + 1)); [|rewrite <- Zlt_Qlt in K; lia]. apply (Qmult_lt_r _ _ rC H). rewrite (inject_Z_plus (extra rP rC + 1) 1). change (inject_Z 1) with 1. lra. }
  rewrite X in G, A, B. exists dx. split; [exact F|]. assert (DX : dx == 2 * rC). { apply (Qmult_inj_r _ _ (inject_Z m)); [lra|]. rewrite G, E. ring. } split; [exact DX|]. rewrite DX.
  pose proof (ordering_length rnd rP rC H (fun k => proj1 (D k)) Z0 (marks rnd phi len (primaries phi len rP)) (primaries phi len rP) true (isort_sorted _)) as O. pose proof (marks_length rnd phi len (primaries phi len rP)) as ML.
  assert (NE : marks rnd phi len (primaries phi len rP) <> []) by (intros Q0; rewrite Q0 in ML; discriminate). specialize (O NE). rewrite ML in O. replace (S (S (primaries phi len rP)) - 2)%nat with (primaries phi len rP) in O by lia.
  pose proof (marks_span rnd phi len (primaries phi len rP) D Hp Hl) as SP. assert (P0 : 0 <= phi * len) by (apply Qmult_le_0_compat; lra). assert (RP : 0 < rP) by lra. destruct (primaries_bound phi len rP RP P0) as [_ PB]. unfold arrangement. cbv zeta. rewrite X in O.
  set (n := N2Q (primaries phi len rP)) in *. assert (T : n * (inject_Z m * (2 * rC)) == n * (2 * rP)) by (rewrite E; ring). rewrite T in O. lra.
Qed.
Print Assumptions C88_length_partial.
Example C88_length_case : Draws third /\ 0 < 1 # 2 /\ (1 <= 2)%Z /\ 1 == inject_Z 2 * (1 # 2) /\ 0 <= 1 # 2 <= 1 /\ 0 <= 10.
Proof. split; [exact third_draws|]. repeat split; try lra; lia. Qed.
(* the beads: consecutive ids, the group and (in 2 and 3 dimensions) the bonded chain list them in order; each lies one more step along the direction, up to the periods of the box, and in the box *)
Theorem C88_beads_partial dims b dx rP rC imP imC idP idC v gid x l : (dims = 2 \/ dims = 3)%nat -> length b = length x -> length v = length x ->
  let p := make_beads (bond_objects dims true) b dx rP rC imP imC idP idC v None gid x l in
  length (p_beads p) = length l /\ p_group p = map b_id (p_beads p) /\ p_chain p = map b_id (p_beads p) /\
  forall i q, nth_error (p_beads p) i = Some q -> b_id q = (gid + Z.of_nat i)%Z /\
    (nth_error l i = Some true -> b_sg q = rP /\ b_im q = imP /\ b_type q = idP) /\ (nth_error l i = Some false -> b_sg q = rC /\ b_im q = imC /\ b_type q = idC) /\
    forall d mn mx xd vd, nth_error b d = Some (mn, mx) -> nth_error x d = Some xd -> nth_error v d = Some vd -> exists yd, nth_error (b_x q) d = Some yd /\ Modulo (mx - mn) yd (xd + N2Q i * dx * vd) /\
      (mn < mx -> mn <= xd < mx -> - (mx - mn) <= vd * dx <= mx - mn -> mn <= yd < mx).
Proof.
  intros Hd Lb Lv p. unfold p. destruct (beads_ids (bond_objects dims true) b dx rP rC imP imC idP idC v l None gid x) as (A & B & C & _ & E). cbv zeta in *. split; [exact A|]. split; [exact B|]. split; [rewrite C, <- B; destruct Hd as [-> | ->]; reflexivity|].
  intros i q H. destruct (E i q H) as (E1 & t & E2 & E3). split; [exact E1|]. split; [intros K; assert (t = true) by congruence; subst t; exact E3|]. split; [intros K; assert (t = false) by congruence; subst t; exact E3|].
  intros d mn mx xd vd Hb Hx Hv. destruct (beads_positions (bond_objects dims true) b dx rP rC imP imC idP idC v l None gid x Lb Lv i q H) as (_ & P). destruct (P d (mn, mx) xd vd Hb Hx Hv) as (yd & Y1 & Y2 & Y3). exists yd. split; [exact Y1|]. split; [|exact Y3].
  eapply Modulo_eq; [exact Y2|]. ring.
Qed.
Print Assumptions C88_beads_partial.
Example C88_beads_case : length [(0, 4); (0, 4)] = length [1; 3] /\ length [0; 1] = length [1; 3] /\ map b_x (p_beads (make_beads (bond_objects 2 true) [(0, 4); (0, 4)] 1 1 (1 # 2) 1 2 0 1 [0; 1] None 7 [1; 3] [true; false])) = [[1 + 0 * 0; 3 + 1 * 0]; [1 + 0 * 0 + 0 * 1; 3 + 1 * 0 + 1 * 1 - (4 - 0)]].
Proof. split; [reflexivity|]. split; [reflexivity|]. vm_compute. reflexivity. Qed.
(* in four dimensions a polymer is not bonded at all *)
Theorem C88_unbonded_refuted dims b dx rP rC imP imC idP idC v gid x l : (4 <= dims)%nat -> let p := make_beads (bond_objects dims true) b dx rP rC imP imC idP idC v None gid x l in
  length (p_beads p) = length l /\ p_chain p = [] /\ p_bonds p = [].
Proof.
  intros Hd p. unfold p. destruct (beads_ids (bond_objects dims true) b dx rP rC imP imC idP idC v l None gid x) as (A & B & C & D & _). cbv zeta in *. split; [exact A|]. split; [rewrite C; unfold bond_objects; destruct dims as [|[|[|[|n]]]]; try lia; reflexivity|apply D; reflexivity].
Qed.
Print Assumptions C88_unbonded_refuted.
Example C88_unbonded_case : (4 <= 4)%nat. Proof. lia. Qed.
(* links larger than the primary particles: division by zero *)
Theorem C88_large_links_refuted rP rC : 0 < rP -> rP < rC -> link_distance rP rC = None.
Proof.
  intros H L. unfold link_distance, extra. assert (E : Qfloor ((rP - rC) / rC) = (-1)%Z). { set (q := (rP - rC) / rC). assert (X : q * rC == rP - rC) by (unfold q; field; lra). clearbody q. pose proof (Qfloor_le q) as A. pose proof (Qlt_floor q) as B.
    assert (q < 0) by nra. assert (-1 < q) by nra. assert (A1 : inject_Z (Qfloor q) < inject_Z 0) by (change (inject_Z 0) with 0; lra). assert (B1 : inject_Z (-1) < inject_Z (Qfloor q + 1)) by (change (inject_Z (-1)) with (-1); lra). rewrite <- Zlt_Qlt in A1, B1. lia. }
  rewrite E. reflexivity.
Qed.
Print Assumptions C88_large_links_refuted.
Example C88_large_case : 0 < 1 /\ 1 < 2. Proof. lra. Qed.

(* ------------------------------------------------------------------------------------------ C89 lines of particles *)
(* a random line: as many particles as fit in phi of the length; they do not overlap and lie within the length *)
Theorem C89_random_line rnd phi len s rP y0 : Draws rnd -> 0 <= phi <= 1 -> 0 <= len -> 0 < s * rP -> let h := random_line rnd phi len s rP y0 in
  N2Q (length h) * (2 * s * rP) <= phi * len < (N2Q (length h) + 1) * (2 * s * rP) /\
  (forall i a b, nth_error h i = Some a -> nth_error h (S i) = Some b -> 2 * s * rP <= b - a) /\
  (forall a, In a h -> y0 + s * rP <= a <= y0 + len - s * rP).
Proof.
  intros D Hp Hl Hs h. unfold h, random_line. set (n := line_number phi len s rP). set (l := line_marks rnd phi len n). assert (LL : length l = S n) by apply line_marks_length. assert (LH : length (line_heights true s rP y0 l) = n) by (rewrite line_length, LL; lia). rewrite LH.
  assert (P0 : 0 <= phi * len) by (apply Qmult_le_0_compat; lra). pose proof (line_number_bound phi len s rP Hs P0) as NB. fold n in NB. split; [exact NB|].
  assert (SO : Sorted.Sorted Qle l) by apply isort_sorted. destruct (nth_error l 0) as [a0|] eqn:E0; [|apply nth_error_None in E0; lia].
  assert (M : forall i a, nth_error (line_heights true s rP y0 l) i = Some a -> exists m, nth_error l (S i) = Some m /\ a == y0 + (m - a0) + s * rP + N2Q i * (2 * s * rP) /\ (i < n)%nat).
  { intros i a Hi. assert (Li : (i < n)%nat) by (rewrite <- LH; apply nth_error_Some; congruence). destruct (nth_error l (S i)) as [m|] eqn:Em; [|apply nth_error_None in Em; lia]. exists m. split; [reflexivity|]. destruct (line_nth s rP l true y0 i m a0 E0 Em) as (h0 & H0 & E). assert (h0 = a) by congruence. subst h0. split; [exact E|exact Li]. }
  split.
  - intros i a b Ha Hb. destruct (M i a Ha) as (m1 & M1 & A & _). destruct (M (S i) b Hb) as (m2 & M2 & B & _). pose proof (sorted_nth l SO (S i) (S (S i)) m1 m2 ltac:(lia) M1 M2) as O. rewrite A, B, N2Q_S. lra.
  - intros a Ha. apply In_nth_error in Ha. destruct Ha as [i Hi]. destruct (M i a Hi) as (m & Em & A & Li). pose proof (sorted_nth l SO 0 (S i) a0 m ltac:(lia) E0 Em) as O. apply nth_error_In in Em. apply nth_error_In in E0. apply line_marks_in in Em; auto. apply line_marks_in in E0; auto.
    apply N2Q_le in Li. rewrite N2Q_S in Li. pose proof (N2Q_nonneg i) as Ni. set (ni := N2Q i) in *. set (nn := N2Q n) in *. rewrite A. assert (K : (ni + 1) * (2 * s * rP) <= nn * (2 * s * rP)) by (apply Qmult_le_compat_r; lra). assert (K2 : 0 <= ni * (2 * s * rP)) by (apply Qmult_le_0_compat; lra). split; lra.
Qed.
Print Assumptions C89_random_line.
Example C89_case : Draws third /\ 0 <= 1 # 2 <= 1 /\ 0 <= 10 /\ 0 < 1 * 1 /\ length (random_line third (1 # 2) 10 1 1 0) = 2%nat.
Proof. split; [exact third_draws|]. repeat split; try lra. Qed.
(* an ordered line: the same number, evenly spaced over the whole length *)
Theorem C89_ordered_line phi len s rP y0 : 0 <= phi <= 1 -> 0 <= len -> 0 < s * rP -> let h := ordered_line phi len s rP y0 in
  N2Q (length h) * (2 * s * rP) <= phi * len < (N2Q (length h) + 1) * (2 * s * rP) /\
  (forall i a, nth_error h i = Some a -> a == y0 + (N2Q i + (1 # 2)) * (len / N2Q (length h)) /\ y0 + s * rP <= a <= y0 + len - s * rP) /\
  (forall i a b, nth_error h i = Some a -> nth_error h (S i) = Some b -> 2 * s * rP <= b - a).
Proof.
  intros Hp Hl Hs h. unfold h, ordered_line. cbv zeta. rewrite ordered_length. set (n := line_number phi len s rP). assert (P0 : 0 <= phi * len) by (apply Qmult_le_0_compat; lra). pose proof (line_number_bound phi len s rP Hs P0) as NB. fold n in NB. split; [exact NB|].
  change (inject_Z (Z.of_nat n)) with (N2Q n). set (g := len / N2Q n).
  assert (M : forall i a, nth_error (ordered_heights true g y0 n) i = Some a -> a == y0 + (N2Q i + (1 # 2)) * g /\ (i < n)%nat).
  { intros i a Hi. assert (Li : (i < n)%nat) by (rewrite <- (ordered_length g n true y0); apply nth_error_Some; congruence). destruct (ordered_nth g n true y0 i Li) as (h0 & H0 & E). assert (h0 = a) by congruence. subst h0. split; [rewrite E; ring|exact Li]. }
  assert (G : (0 < n)%nat -> 2 * s * rP <= g /\ g * N2Q n == len). { intros Hn. apply N2Q_le in Hn. change (N2Q 1) with 1 in Hn. assert (E : g * N2Q n == len) by (unfold g; field; lra). split; [|exact E]. apply (Qmult_le_r _ _ (N2Q n)); [lra|]. rewrite E. nra. }
  split.
  - intros i a Hi. destruct (M i a Hi) as [A Li]. split; [exact A|]. rewrite A. destruct (G ltac:(lia)) as [G1 G2]. apply N2Q_le in Li. rewrite N2Q_S in Li. pose proof (N2Q_nonneg i) as Ni. set (ni := N2Q i) in *. set (nn := N2Q n) in *. clearbody ni nn g. assert (0 <= ni * g) by (apply Qmult_le_0_compat; lra). assert ((ni + 1) * g <= nn * g) by (apply Qmult_le_compat_r; lra). split; lra.
  - intros i a b Ha Hb. destruct (M i a Ha) as [A Li]. destruct (M (S i) b Hb) as [B _]. rewrite A, B, N2Q_S. destruct (G ltac:(lia)) as [G1 _]. lra.
Qed.
Print Assumptions C89_ordered_line.
Example C89_ordered_case : 0 <= 1 # 2 <= 1 /\ 0 <= 10 /\ 0 < 1 * 1 /\ length (ordered_line (1 # 2) 10 1 1 0) = 2%nat.
Proof. repeat split; try lra. Qed.

(* ------------------------------------------------------------------------------------------ C90 boxes *)
(* the number of particles: the largest that does not exceed the volume fraction, for a box as high as wide *)
Theorem C90_number_partial dims phi width sv : 0 < sv -> 0 <= phi -> 0 <= width -> vol (box_bounds dims width width) == width ^ Z.of_nat dims /\
  N2Q (box_number dims phi width sv) * sv <= phi * vol (box_bounds dims width width) < (N2Q (box_number dims phi width sv) + 1) * sv.
Proof.
  intros Hs Hp Hw. assert (V : vol (box_bounds dims width width) == width ^ Z.of_nat dims).
  { unfold box_bounds, vol. assert (G : forall k v, fold_left (fun (v : Q) (mM : Q * Q) => v * (snd mM - fst mM)) (map (fun d => if (d =? 1)%nat then (- (1 # 2) * width, (1 # 2) * width) else (- (1 # 2) * width, (1 # 2) * width)) (seq k dims)) v == v * width ^ Z.of_nat dims).
    { induction dims as [|d IH]; intros k v; [cbn; ring|]. cbn [seq map fold_left]. rewrite IH. rewrite Nat2Z.inj_succ. unfold Z.succ.
      assert (E : width ^ (Z.of_nat d + 1) == width ^ Z.of_nat d * width) by (destruct (Qeq_dec width 0) as [W|W]; [|rewrite Qpower_plus by exact W; reflexivity]; rewrite W; rewrite Qpower_0 by lia; ring).
      rewrite E. destruct (k =? 1)%nat; cbn [fst snd]; ring. }
    rewrite G. ring. }
  split; [exact V|]. rewrite V. unfold box_number. assert (P : 0 <= width ^ Z.of_nat dims) by (apply Qpower_pos; exact Hw). assert (Q0 : 0 <= phi * width ^ Z.of_nat dims) by (apply Qmult_le_0_compat; assumption). set (q := phi * width ^ Z.of_nat dims) in *. clearbody q.
  assert (Q1 : 0 <= q / sv) by (apply Qle_shift_div_l; lra). assert (E : q / sv * sv == q) by (field; lra). assert (Z0 : (0 <= Qfloor (q / sv))%Z) by (change 0%Z with (Qfloor 0); apply Qfloor_resp_le; exact Q1). rewrite N2Q_to_nat by exact Z0. pose proof (Qfloor_le (q / sv)) as A. pose proof (Qlt_floor (q / sv)) as B. rewrite inject_Z_plus in B. change (inject_Z 1) with 1 in B.
  set (f := inject_Z (Qfloor (q / sv))) in *. set (z := q / sv) in *. clearbody f z. rewrite <- E. split; [apply Qmult_le_compat_r; lra|apply Qmult_lt_r; lra].
Qed.
Print Assumptions C90_number_partial.
Example C90_number_case : 0 < 1 # 3 /\ 0 <= 1 # 2 /\ 0 <= 4 /\ box_number 2 (1 # 2) 4 (1 # 3) = 24%nat.
Proof. repeat split; try lra. Qed.
(* particles are placed in the box if it is at least as high as wide *)
Theorem C90_inside_partial dims width height rnd k : Draws rnd -> 0 < width <= height -> In_rect (box_bounds dims width height) (box_position dims width rnd k).
Proof.
  intros D H. unfold In_rect, box_bounds, box_position. generalize (seq 0 dims) as l. induction l as [|d l IH]; cbn [map]; constructor; [|exact IH]. destruct (D (k + d)%nat) as [A B]. set (u := rnd (k + d)%nat) in *. clearbody u. destruct (d =? 1)%nat; cbn [fst snd]; split; nra.
Qed.
Print Assumptions C90_inside_partial.
Example C90_inside_case : Draws third /\ 0 < 4 <= 6. Proof. split; [exact third_draws|lra]. Qed.
(* a box lower than wide: particles outside *)
Theorem C90_low_box_refuted : exists width height rnd, Draws rnd /\ 0 < height /\ 0 < width /\ ~ In_rect (box_bounds 2 width height) (box_position 2 width rnd 0).
Proof. exists 4, 1, (fun _ => 0). split; [intros k; lra|]. split; [lra|]. split; [lra|]. intros F. inversion F as [|? ? ? ? _ F2]; subst. inversion F2; subst. cbn in *. lra. Qed.
Print Assumptions C90_low_box_refuted.
(* a box of another height: not the volume fraction asked for *)
Theorem C90_fraction_refuted : exists phi width height sv, 0 < phi /\ 0 < width /\ 0 < height /\ 0 < sv /\ N2Q (box_number 2 phi width sv) * sv == (1 # 2) * (phi * vol (box_bounds 2 width height)).
Proof. exists (1 # 2), 4, 8, 1. repeat split. Qed.
Print Assumptions C90_fraction_refuted.
