(* C50: histograms. Each of the histograms of the library is compared with the half open intervals of its bins.
   Proved: samples inside of the range (for some: not on its upper end, not below it) are counted in the bin that contains them and in no
   other, the others are dropped and no memory outside of the bins is used. Refuted: a sample on the upper end (kinetic energy bins, group
   correlation), just below the range (two dimensional binning), volume plots with different numbers of bins along x and y, writing twice. *)
From Coq Require Import QArith List Bool ZArith Lia Lqa.
From Verif Require Import Lib Model_Geometry Model_Series Model_Bins Spec_Bins Proofs_Bins.
Import ListNotations.
Local Open Scope Q_scope.

Lemma width_pos a n : 0 < a -> (0 < n)%Z -> 0 < a / inject_Z n.
Proof. intros H Hn. apply Qlt_shift_div_l; [change 0 with (inject_Z 0); now rewrite <- Zlt_Qlt|lra]. Qed.
Lemma width_all a n : (0 < n)%Z -> inject_Z n * (a / inject_Z n) == a.
Proof. intros Hn. assert (0 < inject_Z n) by (change 0 with (inject_Z 0); now rewrite <- Zlt_Qlt). field. lra. Qed.
Lemma Qtrunc_eq p q : p == q -> Qtrunc p = Qtrunc q.
Proof.
  intros E. unfold Qtrunc. assert (F : Qfloor p = Qfloor q /\ Qfloor (- p) = Qfloor (- q)) by (split; apply Qfloor_comp; rewrite E; reflexivity).
  destruct F as [F1 F2]. rewrite F1, F2. destruct (Qltb_spec p 0), (Qltb_spec q 0); try reflexivity; exfalso; lra.
Qed.
Lemma bin_is0 w v i : 0 < w -> 0 <= v -> (Qtrunc (v / w) =? Z.of_nat i)%Z = in_bin 0 w i v.
Proof. intros Hw Hv. rewrite <- (bin_is 0 w v i Hw Hv). rewrite (Qtrunc_eq (v / w) ((v - 0) / w)); [reflexivity|]. apply Qdiv_comp; [ring|reflexivity]. Qed.
Lemma bin_of0 w v : 0 < w -> 0 <= v -> (0 <= Qtrunc (v / w))%Z /\ inject_Z (Qtrunc (v / w)) * w <= v.
Proof.
  intros Hw Hv. rewrite (Qtrunc_eq (v / w) ((v - 0) / w)) by (apply Qdiv_comp; [ring|reflexivity]). destruct (bin_of 0 w v Hw Hv) as (A & B & _). split; [exact A|]. lra.
Qed.
Lemma bin_below0 w v n : 0 < w -> 0 <= v -> v < inject_Z n * w -> (Qtrunc (v / w) < n)%Z.
Proof. intros Hw Hv Hn. rewrite (Qtrunc_eq (v / w) ((v - 0) / w)) by (apply Qdiv_comp; [ring|reflexivity]). apply bin_below; try assumption. lra. Qed.
Lemma nth_map_seq {B} (f : nat -> B) n i d : (i < n)%nat -> nth i (map f (seq 0 n)) d = f i.
Proof. intros H. rewrite (nth_indep _ d (f 0%nat)) by (rewrite map_length, seq_length; exact H). now rewrite map_nth, seq_nth. Qed.
Lemma nth_rep {A} (a d : A) n i : (i < n)%nat -> nth i (repeat a n) d = a.
Proof. revert i. induction n as [|n IH]; intros [|i] H; cbn; try lia; [reflexivity|]. apply IH. lia. Qed.

(* Ticks *)
Theorem C50_ticks mn mx n : let l := makeBins mn mx n in
  length l = Z.to_nat n /\ (forall p, In p l -> snd p = 0) /\
  (n = 1%Z -> fst (nth 0 l (0, 0)) == (mn + mx) / 2) /\
  ((2 <= n)%Z -> fst (nth 0 l (0, 0)) == mn /\ fst (nth (Z.to_nat n - 1) l (0, 0)) == mx /\
     forall i, (S i < Z.to_nat n)%nat -> fst (nth (S i) l (0, 0)) - fst (nth i l (0, 0)) == (mx - mn) / inject_Z (n - 1)).
Proof.
  unfold makeBins. cbv zeta. destruct (Z.ltb_spec 0 n).
  - destruct (Z.ltb_spec 1 n).
    + split; [now rewrite map_length, seq_length|]. split; [|split].
      * intros p Hp. apply in_map_iff in Hp as (i & <- & _). reflexivity.
      * lia.
      * intros _. assert (Hq : 0 < inject_Z (n - 1)) by (change 0 with (inject_Z 0); rewrite <- Zlt_Qlt; lia). split; [|split].
        -- rewrite nth_map_seq by lia. cbn [fst Z.of_nat]. change (inject_Z 0) with 0. ring.
        -- rewrite nth_map_seq by lia. cbn [fst]. replace (Z.of_nat (Z.to_nat n - 1)) with (n - 1)%Z by lia. field. lra.
        -- intros i Hi. rewrite !nth_map_seq by lia. cbn [fst]. replace (Z.of_nat (S i)) with (Z.of_nat i + 1)%Z by lia. rewrite inject_Z_plus. change (inject_Z 1) with 1. ring.
    + assert (n = 1%Z) by lia. subst. split; [reflexivity|]. split; [intros p [<- |[]]; reflexivity|]. split; [|lia]. intros _. cbn [nth fst]. field.
  - split; [cbn; lia|]. split; [intros p []|]. split; lia.
Qed.
Print Assumptions C50_ticks.
Example C50_ticks_case : map fst (makeBins 1 3 3) = [1 + (3 - 1) / inject_Z (3 - 1) * 0; 1 + (3 - 1) / inject_Z (3 - 1) * 1; 1 + (3 - 1) / inject_Z (3 - 1) * 2].
Proof. reflexivity. Qed.

(* Kinetic energy by distance *)
Theorem C50_kinetic_partial radius n l : 0 < radius -> (0 < n)%Z -> (forall r ke mob, In (r, ke, mob) l -> 0 <= r /\ (mob = true -> ~ r == radius)) ->
  let w := radius / inject_Z n in exists res, ke_bins radius n l = Some res /\ length res = Z.to_nat n /\
  (forall i, (i < Z.to_nat n)%nat -> fst (nth i res (0, 0)) == (inject_Z (Z.of_nat i) + (1#2)) * w /\
     snd (nth i res (0, 0)) == sum (fun '(_, ke, _) => ke) (filter (fun '(r, _, mob) => mob && in_bin 0 w i r) l)) /\
  sum snd res == sum (fun '(_, ke, _) => ke) (filter (fun '(r, _, mob) => mob && Qltb r radius) l).
Proof.
  intros Hr Hn Hl w. assert (Hw : 0 < w) by now apply width_pos. pose proof (width_all radius n Hn) as Hall. fold w in Hall.
  set (ix := ke_ix radius n). set (base := map (fun i => ((inject_Z (Z.of_nat i) + (1#2)) * w, 0)) (seq 0 (Z.to_nat n))).
  assert (Hlen : length base = Z.to_nat n) by (unfold base; now rewrite map_length, seq_length).
  assert (Hix : forall r ke mob, In (r, ke, mob) l -> match ix (r, ke, mob) with None => mob && Qltb r radius = false | Some b => mob = true /\ r < radius /\ b = Qtrunc (r / w) /\ (0 <= b < n)%Z end).
  { intros r ke mob Hin. destruct (Hl _ _ _ Hin) as [H0 H1]. unfold ix, ke_ix. destruct mob; cbn [andb]; [|reflexivity].
    destruct (Qleb_spec r radius) as [L|L].
    - assert (r < radius) by (specialize (H1 eq_refl); destruct (Qlt_le_dec r radius); [assumption|exfalso; apply H1; lra]). fold w. split; [reflexivity|]. split; [assumption|]. split; [reflexivity|].
      split; [now apply bin_of0|]. apply bin_below0; try assumption. lra.
    - destruct (Qltb_spec r radius); [exfalso; lra|reflexivity]. }
  destruct (tally_some ix (fun s d => let '(_, ke, _) := s in (fst d, snd d + ke)) l base) as (res & E & L & N).
  { intros [[r ke] mob] b Hin Eb. specialize (Hix _ _ _ Hin). rewrite Eb in Hix. rewrite Hlen. lia. }
  assert (F : forall (s : list (Q * Q * bool)) d, fst (fold_left (fun a s => let '(_, ke, _) := s in (fst a, snd a + ke)) s d) = fst d /\
      snd (fold_left (fun (a : Q * Q) s => let '(_, ke, _) := s in (fst a, snd a + ke)) s d) == snd d + sum (fun '(_, ke, _) => ke) s).
  { clear. induction s as [|[[r ke] mob] s IH]; intros d; cbn [fold_left]; [split; [reflexivity|unfold sum; cbn [fold_right]; ring]|].
    destruct (IH (fst d, snd d + ke)) as [A B]. rewrite A, B. cbn [fst snd]. rewrite sum_cons. split; [reflexivity|ring]. }
  assert (V : forall i, (i < Z.to_nat n)%nat -> fst (nth i res (0, 0)) == (inject_Z (Z.of_nat i) + (1#2)) * w /\ snd (nth i res (0, 0)) == sum (fun '(_, ke, _) => ke) (filter (hits ix i) l)).
  { intros i Hi. rewrite N by lia. destruct (F (filter (hits ix i) l) (nth i base (0, 0))) as [A B].
    assert (Eb : nth i base (0, 0) = ((inject_Z (Z.of_nat i) + (1#2)) * w, 0)) by (unfold base; now rewrite nth_map_seq). rewrite Eb in *.
    split; [rewrite A; reflexivity|]. rewrite B. cbn [snd]. ring. }
  exists res. split; [exact E|]. split; [congruence|]. split.
  - intros i Hi. destruct (V i Hi) as [A B]. split; [exact A|]. rewrite B. rewrite (filter_ext_in' (hits ix i) (fun '(r, _, mob) => mob && in_bin 0 w i r)); [reflexivity|].
    intros [[r ke] mob] Hin. specialize (Hix _ _ _ Hin). destruct (Hl _ _ _ Hin) as [H0 _]. unfold hits. destruct (ix (r, ke, mob)) as [b|] eqn:Eb.
    + destruct Hix as (-> & H1 & -> & _). cbn [andb]. now apply bin_is0.
    + destruct mob; [|reflexivity]. cbn [andb] in *. symmetry. apply not_true_is_false. intros C. destruct (in_bin_range 0 w i (Z.to_nat n) r Hw C) as [_ C2]. specialize (C2 Hi).
      rewrite Z2Nat.id in C2 by lia. destruct (Qltb_spec r radius); [discriminate|lra].
  - assert (S1 : sum snd res == sum (fun i => sum (fun '(_, ke, _) => ke) (filter (hits ix i) l)) (seq 0 (Z.to_nat n))).
    { assert (G : forall (f : nat -> Q) k (r : list (Q * Q)) a, length r = k -> (forall i, (i < k)%nat -> snd (nth i r (0, 0)) == f (a + i)%nat) -> sum snd r == sum f (seq a k)).
      { clear. induction k as [|k IH]; intros [|p r] a Hl H; cbn [length] in Hl; try lia; [reflexivity|]. cbn [seq]. rewrite !sum_cons. rewrite (IH r (S a)); [|lia|].
        - specialize (H 0%nat ltac:(lia)). cbn [nth] in H. rewrite Nat.add_0_r in H. rewrite H. reflexivity.
        - intros i Hi. specialize (H (S i) ltac:(lia)). cbn [nth] in H. rewrite H, Nat.add_succ_comm. reflexivity. }
      apply G; [congruence|]. intros i Hi. apply V. exact Hi. }
    rewrite S1. rewrite (sum_bins (fun '(_, ke, _) => ke) ix (Z.to_nat n) l).
    + rewrite (filter_ext_in' _ (fun '(r, _, mob) => mob && Qltb r radius)); [reflexivity|]. intros [[r ke] mob] Hin. specialize (Hix _ _ _ Hin). destruct (ix (r, ke, mob)).
      * destruct Hix as (-> & H1 & _). destruct (Qltb_spec r radius); [reflexivity|contradiction].
      * now symmetry.
    + intros [[r ke] mob] b Hin Eb. specialize (Hix _ _ _ Hin). rewrite Eb in Hix. lia.
Qed.
Print Assumptions C50_kinetic_partial.
Example C50_kinetic_case : (forall r ke mob, In (r, ke, mob) [(1#3, 2, true); (3, 5, true); (2, 7, false)] -> 0 <= r /\ (mob = true -> ~ r == 2)) /\
  exists res, ke_bins 2 4 [(1#3, 2, true); (3, 5, true); (2, 7, false)] = Some res /\ map snd res = [0 + 2; 0; 0; 0].
Proof.
  split.
  - intros r ke mob [E|[E|[E|[]]]]; inversion E; subst; (split; [lra|]); intros C; try discriminate; lra.
  - eexists. split; [vm_compute; reflexivity|]. reflexivity.
Qed.
(* A mobile particle exactly on the radius ends the program. *)
Theorem C50_kinetic_edge_refuted radius n ke l : 0 < radius -> (0 < n)%Z -> In (radius, ke, true) l -> ke_bins radius n l = None.
Proof.
  intros Hr Hn Hin. unfold ke_bins. eapply tally_none; [exact Hin| |].
  - unfold ke_ix. destruct (Qleb_spec radius radius); [reflexivity|exfalso; lra].
  - rewrite map_length, seq_length. assert (E : Qtrunc (radius / (radius / inject_Z n)) = n).
    { assert (0 < inject_Z n) by (change 0 with (inject_Z 0); now rewrite <- Zlt_Qlt). rewrite (Qtrunc_eq _ (inject_Z n)) by (field; lra). rewrite trunc_floor by lra. apply Qfloor_Z. }
    rewrite E. lia.
Qed.
Print Assumptions C50_kinetic_edge_refuted.

(* Forces by distance: no condition on the samples. c is what a sample adds to the count. *)
Theorem C50_forces lo hi n c l : (0 < n)%Z -> let w := (hi - lo) / inject_Z n in
  exists bins, force_bins lo hi n c l = Some bins /\ length bins = Z.to_nat n /\
  (hi <= lo -> bins = repeat (0, 0) (Z.to_nat n)) /\
  (lo < hi -> forall i, (i < Z.to_nat n)%nat -> let inside := filter (fun s => in_bin lo w i (fst s)) l in
     fst (nth i bins (0, 0)) == sum snd inside /\ snd (nth i bins (0, 0)) == inject_Z (Z.of_nat (length inside)) * c /\
     fst (nth i (force_result lo hi n bins) (0, 0)) == lo + (inject_Z (Z.of_nat i) + (1#2)) * w /\
     (0 < c -> snd (nth i (force_result lo hi n bins) (0, 0)) == match inside with [] => 0 | _ => sum snd inside / (inject_Z (Z.of_nat (length inside)) * c) end)).
Proof.
  intros Hn w. set (ix := force_ix lo hi n).
  assert (Hlen : length (repeat (0, 0) (Z.to_nat n)) = Z.to_nat n) by apply repeat_length.
  assert (Hix : forall s, match ix s with None => ~ (lo <= fst s /\ fst s < hi) | Some b => lo <= fst s /\ fst s < hi /\ b = Qtrunc ((fst s - lo) / w) end).
  { intros s. unfold ix, force_ix. fold w. destruct (Qleb_spec lo (fst s)), (Qltb_spec (fst s) hi); cbn [andb]; tauto. }
  assert (Hb : forall s b, ix s = Some b -> (0 <= b < n)%Z).
  { intros s b E. specialize (Hix s). rewrite E in Hix. destruct Hix as (A & B & ->). assert (Hw : 0 < w) by (apply width_pos; [lra|exact Hn]).
    split; [now apply bin_of|]. apply bin_below; try assumption. unfold w. rewrite width_all by exact Hn. lra. }
  destruct (tally_some ix (fun s d => (fst d + snd s, snd d + c)) l (repeat (0, 0) (Z.to_nat n))) as (bins & E & L & N).
  { intros s b _ Eb. rewrite Hlen. specialize (Hb s b Eb). lia. }
  exists bins. split; [exact E|]. split; [congruence|]. split.
  - intros Hle. assert (Hno : forall s, ix s = None) by (intros s; specialize (Hix s); destruct (ix s); [exfalso; lra|reflexivity]).
    clear - E Hno. unfold force_bins in E. revert E. generalize (repeat (0, 0) (Z.to_nat n)) as b. induction l as [|s l IH]; intros b E; cbn [tally] in E; [congruence|].
    rewrite Hno in E. now apply IH.
  - intros Hlt i Hi inside. assert (Hw : 0 < w) by (apply width_pos; [lra|exact Hn]).
    assert (Ei : filter (hits ix i) l = inside).
    { apply filter_ext_in'. intros s _. unfold hits. specialize (Hix s). destruct (ix s).
      - destruct Hix as (A & B & ->). now apply bin_is.
      - symmetry. apply not_true_is_false. intros C. apply Hix. destruct (in_bin_range lo w i (Z.to_nat n) _ Hw C) as [C1 C2]. specialize (C2 Hi). rewrite Z2Nat.id in C2 by lia.
        unfold w in C2. rewrite width_all in C2 by exact Hn. split; [exact C1|]. lra. }
    assert (F : forall (s : list (Q * Q)) d, fst (fold_left (fun (a : Q * Q) s => (fst a + snd s, snd a + c)) s d) == fst d + sum snd s /\
      snd (fold_left (fun (a : Q * Q) s => (fst a + snd s, snd a + c)) s d) == snd d + inject_Z (Z.of_nat (length s)) * c).
    { clear. induction s as [|p s IH]; intros d; cbn [fold_left]; [split; [unfold sum; cbn [fold_right]; ring|cbn [length Z.of_nat]; change (inject_Z 0) with 0; ring]|].
      destruct (IH (fst d + snd p, snd d + c)) as [A B]. rewrite A, B. cbn [fst snd length]. rewrite sum_cons. split; [ring|]. rewrite Nat2Z.inj_succ. unfold Z.succ. rewrite inject_Z_plus. change (inject_Z 1) with 1. ring. }
    assert (V : fst (nth i bins (0, 0)) == sum snd inside /\ snd (nth i bins (0, 0)) == inject_Z (Z.of_nat (length inside)) * c).
    { rewrite N by (rewrite repeat_length; exact Hi). rewrite nth_rep by exact Hi. rewrite Ei. destruct (F inside (0, 0)) as [A B]. rewrite A, B. cbn [fst snd]. split; ring. }
    destruct V as [V1 V2]. split; [exact V1|]. split; [exact V2|].
    unfold force_result. rewrite nth_map_seq by exact Hi. cbn [fst snd]. fold w. split; [ring|]. intros Hc.
    destruct inside as [|p inside]; cbn [length] in V2.
    + destruct (Qltb_spec 0 (snd (nth i bins (0, 0)))) as [A|A]; [|reflexivity]. exfalso. rewrite V2 in A. change (inject_Z (Z.of_nat 0)) with 0 in A. lra.
    + destruct (Qltb_spec 0 (snd (nth i bins (0, 0)))) as [A|A]; [apply Qdiv_comp; assumption|]. exfalso. apply A. rewrite V2. apply Qmult_lt_0_compat; [|exact Hc]. change 0 with (inject_Z 0). rewrite <- Zlt_Qlt. lia.
Qed.
Print Assumptions C50_forces.
Example C50_forces_case : exists bins, force_bins 0 2 2 2 [(1#2, 3); (3#2, 4); (2, 9); (-1#4, 8); (1, 5)] = Some bins /\ bins = [(0 + 3, 0 + 2); (0 + 4 + 5, 0 + 2 + 2)].
Proof. eexists. split; [vm_compute; reflexivity|reflexivity]. Qed.

(* Group correlation: the settings keep the width right; distances other than the radius itself are counted in their bins. *)
Definition corr_ok (k : corr) : Prop := 0 < k_radius k /\ (0 < k_n k)%Z /\ k_width k == k_radius k / inject_Z (k_n k) /\ length (k_bins k) = Z.to_nat (k_n k).
Theorem C50_group_settings k : corr_ok corr0 /\ (corr_ok k -> corr_ok (corr_pre k)) /\
  (forall r, corr_ok k -> 0 < r -> corr_ok (corr_setRadius r k) /\ k_radius (corr_setRadius r k) = r) /\
  (forall n, corr_ok k -> (0 < n)%Z -> corr_ok (corr_setNBins n k) /\ k_n (corr_setNBins n k) = n /\ k_bins (corr_setNBins n k) = repeat 0%Z (Z.to_nat n)).
Proof.
  split; [|split; [|split]].
  - split; [reflexivity|]. split; [reflexivity|]. split; reflexivity.
  - intros (A & B & C & D). repeat split; try assumption. cbn. apply repeat_length.
  - intros r (A & B & C & D) Hr. split; [|reflexivity]. repeat split; try assumption.
  - intros n (A & B & C & D) Hn. repeat split; try assumption. cbn. apply repeat_length.
Qed.
Print Assumptions C50_group_settings.
Theorem C50_group_partial k l : corr_ok k -> (forall d, In d l -> 0 <= d /\ ~ d == k_radius k) ->
  exists k', corr_step l k = Some k' /\ k_radius k' = k_radius k /\ k_n k' = k_n k /\ k_width k' = k_width k /\ corr_ok k' /\
  forall i, (i < Z.to_nat (k_n k))%nat -> nth i (k_bins k') 0%Z = (nth i (k_bins k) 0 + number (in_bin 0 (k_radius k / inject_Z (k_n k)) i) l)%Z.
Proof.
  intros (Hr & Hn & Hwd & Hlen) Hl. set (w := k_radius k / inject_Z (k_n k)) in *. assert (Hw : 0 < w) by now apply width_pos. pose proof (width_all (k_radius k) (k_n k) Hn) as Hall. fold w in Hall.
  assert (Hix : forall d, In d l -> match corr_ix k d with None => k_radius k < d | Some b => d < k_radius k /\ b = Qtrunc (d / w) /\ (0 <= b < k_n k)%Z end).
  { intros d Hd. destruct (Hl d Hd) as [H0 H1]. unfold corr_ix. destruct (Qleb_spec d (k_radius k)) as [L|L]; [|lra].
    assert (d < k_radius k) by (destruct (Qlt_le_dec d (k_radius k)); [assumption|exfalso; apply H1; lra]). split; [assumption|].
    rewrite (Qtrunc_eq (d / k_width k) (d / w)) by (apply Qdiv_comp; [reflexivity|exact Hwd]). split; [reflexivity|]. split; [now apply bin_of0|]. apply bin_below0; try assumption. lra. }
  destruct (tally_some (corr_ix k) (fun _ c => (c + 1)%Z) l (k_bins k)) as (bins & E & L & N).
  { intros d b Hd Eb. specialize (Hix d Hd). rewrite Eb in Hix. rewrite Hlen. lia. }
  unfold corr_step. rewrite E. eexists. split; [reflexivity|]. cbn. split; [reflexivity|]. split; [reflexivity|]. split; [reflexivity|]. split; [repeat split; cbn; try assumption; congruence|].
  intros i Hi. rewrite N by lia. rewrite fold_count. unfold number. do 3 f_equal. apply filter_ext_in'. intros d Hd. specialize (Hix d Hd). destruct (Hl d Hd) as [H0 _]. unfold hits. destruct (corr_ix k d).
  - destruct Hix as (A & -> & _). now apply bin_is0.
  - symmetry. apply not_true_is_false. intros C. destruct (in_bin_range 0 w i (Z.to_nat (k_n k)) d Hw C) as [_ C2]. specialize (C2 Hi). rewrite Z2Nat.id in C2 by lia. lra.
Qed.
Print Assumptions C50_group_partial.
Example C50_group_case : exists k', corr_step [1#100; 14#100; 3#10] corr0 = Some k' /\ nth 6 (k_bins k') 0%Z = 1%Z /\ nth 93 (k_bins k') 0%Z = 1%Z.
Proof. eexists. split; [vm_compute; reflexivity|]. split; reflexivity. Qed.
(* A distance equal to the radius uses memory outside of the bins. *)
Theorem C50_group_edge_refuted : corr_step [15#100] corr0 = None.
Proof. vm_compute. reflexivity. Qed.
Print Assumptions C50_group_edge_refuted.

(* Center correlation: all distances. *)
Theorem C50_center radius n l bins : 0 < radius -> (0 < n)%Z -> length bins = Z.to_nat n -> (forall d, In d l -> 0 <= d) ->
  exists bins', center_step radius n l bins = Some bins' /\ length bins' = Z.to_nat n /\
  forall i, (i < Z.to_nat n)%nat -> nth i bins' 0%Z = (nth i bins 0 + number (in_bin 0 (radius / inject_Z n) i) l)%Z.
Proof.
  intros Hr Hn Hlen Hl. set (w := radius / inject_Z n). assert (Hw : 0 < w) by now apply width_pos. pose proof (width_all radius n Hn) as Hall. fold w in Hall.
  assert (Hix : forall d, In d l -> match center_ix radius n d with None => radius <= d | Some b => d < radius /\ b = Qtrunc (d / w) /\ (0 <= b < n)%Z end).
  { intros d Hd. pose proof (Hl d Hd) as H0. unfold center_ix. fold w. destruct (Qltb_spec (d * d) (radius * radius)) as [L|L].
    - assert (Hd1 : d < radius) by (apply Qnot_le_lt; intros C; apply (Qlt_not_le _ _ L); nra). assert (Hb : (Qtrunc (d / w) < n)%Z) by (apply bin_below0; try assumption; lra).
      destruct (Z.ltb_spec (Qtrunc (d / w)) n); [|lia]. split; [exact Hd1|]. split; [reflexivity|]. split; [now apply bin_of0|exact Hb].
    - apply Qnot_lt_le. intros C. apply L. nra. }
  destruct (tally_some (center_ix radius n) (fun _ c => (c + 1)%Z) l bins) as (b' & E & L & N).
  { intros d b Hd Eb. specialize (Hix d Hd). rewrite Eb in Hix. rewrite Hlen. lia. }
  exists b'. split; [exact E|]. split; [congruence|]. intros i Hi. rewrite N by lia. rewrite fold_count. unfold number. do 3 f_equal. apply filter_ext_in'. intros d Hd. specialize (Hix d Hd).
  pose proof (Hl d Hd) as H0. unfold hits. destruct (center_ix radius n d).
  - destruct Hix as (A & -> & _). now apply bin_is0.
  - symmetry. apply not_true_is_false. intros C. destruct (in_bin_range 0 w i (Z.to_nat n) d Hw C) as [_ C2]. specialize (C2 Hi). rewrite Z2Nat.id in C2 by lia. lra.
Qed.
Print Assumptions C50_center.
Example C50_center_case : center_step 1 2 [0; 1#4; 1#2; 1; 7] [0%Z; 10%Z] = Some [2%Z; 11%Z].
Proof. vm_compute. reflexivity. Qed.
(* Writing the same bins twice gives every bin twice. *)
Theorem C50_write_twice_refuted radius n bins : let d := center_write radius n bins [] in
  length d = length bins /\ length (center_write radius n bins d) = (2 * length bins)%nat.
Proof. unfold center_write. cbv zeta. cbn [app]. rewrite app_length, !map_length, !seq_length. split; lia. Qed.
Print Assumptions C50_write_twice_refuted.

(* ---------- two dimensional binning ---------- *)
Lemma upd_at {A} b (f : A -> A) l l' : upd b f l = Some l' -> (0 <= b < Z.of_nat (length l))%Z.
Proof. unfold upd. destruct (_ && _) eqn:E; [lia|discriminate]. Qed.
Lemma filter_combine {A} (P : nat -> A -> bool) (l : list A) : forall a,
  map fst (filter (fun s => P (Z.to_nat (fst s)) (snd s)) (combine (map Z.of_nat (seq a (length l))) l)) =
  map Z.of_nat (filter (fun k => match nth_error l (k - a) with Some p => P k p | None => false end) (seq a (length l))).
Proof.
  induction l as [|p l IH]; intros a; [reflexivity|]. cbn [length seq map combine filter fst snd]. rewrite Nat2Z.id, Nat.sub_diag. cbn [nth_error].
  assert (E : filter (fun k => match nth_error (p :: l) (k - a) with Some p0 => P k p0 | None => false end) (seq (S a) (length l)) =
              filter (fun k => match nth_error l (k - S a) with Some p0 => P k p0 | None => false end) (seq (S a) (length l))).
  { apply filter_ext_in'. intros k Hk. apply in_seq in Hk. replace (k - a)%nat with (S (k - S a)) by lia. reflexivity. }
  destruct (P a p); cbn [map fst]; rewrite IH, E; reflexivity.
Qed.
Lemma fold_push {S} (l : list (Z * S)) b : fold_left (fun a s => a ++ [fst s]) l b = b ++ map fst l.
Proof. revert b. induction l as [|s l IH]; intros b; cbn [fold_left map]; [now rewrite app_nil_r|]. rewrite IH, <- app_assoc. reflexivity. Qed.

(* The points are reported, with their numbers in order, in the cell that contains them, if no point is below the lower bounds.
   For all points: no memory outside of the bins is used. Points binned earlier stay. *)
Theorem C50_grid_partial nx ny x0 x1 y0 y1 : (0 < nx)%Z -> (0 < ny)%Z -> x0 < x1 -> y0 < y1 ->
  exists g, grid_new nx ny x0 x1 y0 y1 = Some g /\
  forall l1, exists g1, bin_data l1 g = Some g1 /\ forall l, exists g2, bin_data l g1 = Some g2 /\
  forall cx cy, (cx < Z.to_nat nx)%nat -> (cy < Z.to_nat ny)%nat ->
    let cell := cell_points x0 ((x1 - x0) / inject_Z nx) y0 ((y1 - y0) / inject_Z ny) cx cy in
    ((forall x y, In (x, y) l1 -> x0 <= x /\ y0 <= y) -> grid_at (Z.of_nat cx) (Z.of_nat cy) g1 = Some (cell l1)) /\
    ((forall x y, In (x, y) (l1 ++ l) -> x0 <= x /\ y0 <= y) -> grid_at (Z.of_nat cx) (Z.of_nat cy) g2 = Some (cell l1 ++ cell l)).
Proof.
  intros Hnx Hny Hx Hy. unfold grid_new. destruct (Z.leb_spec nx 0); [lia|]. destruct (Z.leb_spec ny 0); [lia|]. cbn [orb].
  eexists. split; [reflexivity|].
  assert (M : forall l b, length b = Z.to_nat (nx * ny) -> exists b', bin_data l (mkG nx ny x0 x1 y0 y1 b) = Some (mkG nx ny x0 x1 y0 y1 b') /\ length b' = Z.to_nat (nx * ny) /\
    forall cx cy, (cx < Z.to_nat nx)%nat -> (cy < Z.to_nat ny)%nat -> (forall x y, In (x, y) l -> x0 <= x /\ y0 <= y) -> forall old,
      grid_at (Z.of_nat cx) (Z.of_nat cy) (mkG nx ny x0 x1 y0 y1 b) = Some old ->
      grid_at (Z.of_nat cx) (Z.of_nat cy) (mkG nx ny x0 x1 y0 y1 b') = Some (old ++ map Z.of_nat (filter (fun k => match nth_error l k with
        | Some (x, y) => in_bin x0 ((x1 - x0) / inject_Z nx) cx x && in_bin y0 ((y1 - y0) / inject_Z ny) cy y | None => false end) (seq 0 (length l))))).
  { intros l b Hb. set (g := mkG nx ny x0 x1 y0 y1 b). unfold bin_data. cbn [g_x0 g_x1 g_y0 g_y1 g g_bins g_nx g_ny].
    destruct (Qleb_spec x1 x0); [exfalso; lra|]. destruct (Qleb_spec y1 y0); [exfalso; lra|]. cbn [orb]. fold g.
    set (wx := (x1 - x0) / inject_Z nx). set (wy := (y1 - y0) / inject_Z ny).
    assert (Hwx : 0 < wx) by (apply width_pos; [lra|assumption]). assert (Hwy : 0 < wy) by (apply width_pos; [lra|assumption]).
    destruct (tally_some (grid_ix g) (fun s b => b ++ [fst s]) (combine (map Z.of_nat (seq 0 (length l))) l) b) as (b' & E & L & N).
    { intros [k [x y]] i _. unfold grid_ix. cbn [fst snd g g_x0 g_x1 g_y0 g_y1 g_nx g_ny]. fold wx wy.
      set (bx := Qtrunc ((x - x0) / wx)). set (by_ := Qtrunc ((y - y0) / wy)). destruct (_ && _) eqn:Er; [|discriminate]. intros Ei. injection Ei as <-.
      rewrite !andb_true_iff, !Z.leb_le, !Z.ltb_lt in Er. rewrite Hb, Z2Nat.id by nia. nia. }
    rewrite E. exists b'. split; [reflexivity|]. split; [congruence|]. intros cx cy Hcx Hcy Hl old. unfold grid_at. cbn [g g_nx g_bins].
    assert (Hk : (0 <= Z.of_nat cy * nx + Z.of_nat cx < nx * ny)%Z) by nia.
    destruct (Z.leb_spec 0 (Z.of_nat cy * nx + Z.of_nat cx)); [|lia]. intros Eo. set (k := Z.to_nat (Z.of_nat cy * nx + Z.of_nat cx)) in *.
    assert (Hkl : (k < length b)%nat) by (rewrite Hb; unfold k; lia).
    rewrite (nth_error_nth' b' []) by (rewrite L; exact Hkl). rewrite N by exact Hkl. rewrite (nth_error_nth _ _ [] Eo). rewrite fold_push. do 2 f_equal.
    transitivity (map fst (filter (fun s => let '(x, y) := snd s in in_bin x0 wx cx x && in_bin y0 wy cy y) (combine (map Z.of_nat (seq 0 (length l))) l))).
    - f_equal. apply filter_ext_in'. intros [j [x y]] Hin. apply in_combine_r in Hin. destruct (Hl _ _ Hin) as [Lx Ly].
      cbn [snd]. rewrite <- (bin_is x0 wx x cx Hwx Lx), <- (bin_is y0 wy y cy Hwy Ly). unfold hits, grid_ix. cbn [fst snd g g_x0 g_x1 g_y0 g_y1 g_nx g_ny]. fold wx wy.
      set (bx := Qtrunc ((x - x0) / wx)). set (by_ := Qtrunc ((y - y0) / wy)).
      destruct (bin_of x0 wx x Hwx Lx) as (Bx & _). destruct (bin_of y0 wy y Hwy Ly) as (By & _). fold bx in Bx. fold by_ in By.
      destruct (_ && _) eqn:Er.
      + rewrite !andb_true_iff, !Z.leb_le, !Z.ltb_lt in Er. unfold k. rewrite Z2Nat.id by lia. apply eq_true_iff_eq. rewrite andb_true_iff, !Z.eqb_eq. split; [|intros [-> ->]; reflexivity].
        intros Ei. assert (by_ = Z.of_nat cy) by nia. split; [nia|assumption].
      + symmetry. apply not_true_is_false. rewrite andb_true_iff, !Z.eqb_eq. intros [-> ->]. apply not_true_iff_false in Er. apply Er. rewrite !andb_true_iff, !Z.leb_le, !Z.ltb_lt. lia.
    - rewrite (filter_combine (fun _ '(x, y) => in_bin x0 wx cx x && in_bin y0 wy cy y) l 0). f_equal. apply filter_ext_in'. intros j _. rewrite Nat.sub_0_r. reflexivity. }
  intros l1. destruct (M l1 _ (repeat_length [] _)) as (b1 & E1 & L1 & N1). eexists. split; [exact E1|]. intros l. destruct (M l b1 L1) as (b2 & E2 & L2 & N2). eexists. split; [exact E2|].
  intros cx cy Hcx Hcy.
  assert (K1 : (forall x y, In (x, y) l1 -> x0 <= x /\ y0 <= y) -> grid_at (Z.of_nat cx) (Z.of_nat cy) (mkG nx ny x0 x1 y0 y1 b1) = Some (cell_points x0 ((x1 - x0) / inject_Z nx) y0 ((y1 - y0) / inject_Z ny) cx cy l1)).
  { intros Hl. apply (N1 cx cy Hcx Hcy Hl []). unfold grid_at. cbn [g_nx g_bins]. destruct (Z.leb_spec 0 (Z.of_nat cy * nx + Z.of_nat cx)); [|lia].
    apply nth_error_repeat. nia. }
  split; [exact K1|]. intros Hl. apply (N2 cx cy Hcx Hcy); [intros; apply Hl, in_or_app; now right|]. apply K1. intros; apply Hl, in_or_app; now left.
Qed.
Print Assumptions C50_grid_partial.
Example C50_grid_case : exists g g1, grid_new 2 3 0 1 0 3 = Some g /\ bin_data [(1#4, 0); (3#4, 5#2); (1#4, 1#2); (1, 1)] g = Some g1 /\
  grid_at 0 0 g1 = Some [0%Z; 2%Z] /\ grid_at 1 2 g1 = Some [1%Z] /\ grid_at 1 1 g1 = Some [].
Proof. eexists. eexists. split; [reflexivity|]. split; [vm_compute; reflexivity|]. repeat split. Qed.
(* A point less than one bin below the lower bound is reported in the first bin. *)
Theorem C50_grid_below_refuted x : -1 < x -> x < 0 -> exists g g1, grid_new 2 2 0 2 0 2 = Some g /\ bin_data [(x, 1#2)] g = Some g1 /\ grid_at 0 0 g1 = Some [0%Z].
Proof.
  intros A B. eexists. eexists. split; [reflexivity|].
  assert (E : Qtrunc ((x - 0) / ((2 - 0) / inject_Z 2)) = 0%Z).
  { rewrite (Qtrunc_eq _ x) by field. unfold Qtrunc. destruct (Qltb_spec x 0); [|contradiction]. assert (Qfloor (- x) = 0%Z); [|lia].
    pose proof (Qfloor_le (- x)) as F1. pose proof (Qlt_floor (- x)) as F2. assert (inject_Z (Qfloor (- x)) < inject_Z 1) by (change (inject_Z 1) with 1; lra). assert (inject_Z 0 < inject_Z (Qfloor (- x) + 1)) by (change (inject_Z 0) with 0; lra).
    rewrite <- Zlt_Qlt in *. lia. }
  split.
  - unfold bin_data. cbn [g_x0 g_x1 g_y0 g_y1 g_bins]. change (Qle_bool 2 0) with false. cbn [orb length seq map combine tally]. unfold grid_ix. cbn [fst snd g_x0 g_x1 g_y0 g_y1 g_nx g_ny]. rewrite E.
    change (Qtrunc (((1#2) - 0) / ((2 - 0) / inject_Z 2))) with 0%Z. cbn. reflexivity.
  - reflexivity.
Qed.
Print Assumptions C50_grid_below_refuted.

(* ---------- volume plots ---------- *)
Definition vinv (n : Z) (x0 wx y0 wy : Q) (seen : list (Q * Q * Q)) (v : vol) : Prop :=
  v_bx v = n /\ v_by v = n /\ v_x0 v = x0 /\ v_wx v = wx /\ v_y0 v = y0 /\ v_wy v = wy /\ (Z.to_nat n <= length (v_cells v))%nat /\
  (forall x, (x < Z.to_nat n)%nat -> length (nth x (v_cells v) []) = Z.to_nat n) /\
  forall x y, (x < Z.to_nat n)%nat -> (y < Z.to_nat n)%nat -> let c := nth y (nth x (v_cells v) []) (0, 0%Z) in
    let inside := filter (fun '(px, py, _) => in_bin x0 (wx / inject_Z n) x px && in_bin y0 (wy / inject_Z n) y py) seen in
    fst c == sum snd inside /\ snd c = Z.of_nat (length inside).
Lemma in_bin_out lo w n i v : 0 < w -> (0 < n)%Z -> (i < Z.to_nat n)%nat -> (v < lo \/ lo + w <= v) -> in_bin lo (w / inject_Z n) i v = false.
Proof.
  intros Hw Hn Hi H. apply not_true_is_false. intros C. assert (H' : 0 < w / inject_Z n) by now apply width_pos. destruct (in_bin_range lo (w / inject_Z n) i (Z.to_nat n) v H' C) as [C1 C2].
  specialize (C2 Hi). rewrite Z2Nat.id in C2 by lia. rewrite width_all in C2 by exact Hn. lra.
Qed.
Lemma vol_ix lo w n v : 0 < w -> (0 < n)%Z -> lo <= v -> v < lo + w ->
  let b := Qtrunc (inject_Z n / w * (v - lo)) in (0 <= b < n)%Z /\ forall i, (b =? Z.of_nat i)%Z = in_bin lo (w / inject_Z n) i v.
Proof.
  intros Hw Hn L H b. assert (Hq : 0 < inject_Z n) by (change 0 with (inject_Z 0); now rewrite <- Zlt_Qlt). assert (H' : 0 < w / inject_Z n) by now apply width_pos.
  assert (E : b = Qtrunc ((v - lo) / (w / inject_Z n))) by (unfold b; apply Qtrunc_eq; field; split; lra).
  rewrite E. split; [split; [now apply bin_of|]|intros i; now apply bin_is]. apply bin_below; try assumption. rewrite width_all by exact Hn. lra.
Qed.
Lemma nth_error_Some_nth {A} (l : list A) k d : (k < length l)%nat -> nth_error l k = Some (nth k l d).
Proof. apply nth_error_nth'. Qed.
Lemma vinv_step n x0 wx y0 wy l : 0 < wx -> 0 < wy -> (0 < n)%Z -> forall seen v, vinv n x0 wx y0 wy seen v ->
  exists v', vol_post_step l v = Some v' /\ vinv n x0 wx y0 wy (seen ++ l) v'.
Proof.
  intros Hwx Hwy Hn. induction l as [|[[px py] q] l IH]; intros seen v I.
  - exists v. split; [reflexivity|]. now rewrite app_nil_r.
  - cbn [vol_post_step]. pose proof I as I0. destruct I as (Bx & By & X0 & WX & Y0 & WY & Lc & Lr & Hc). rewrite X0, WX, Y0, WY.
    assert (Skip : forall v1, vinv n x0 wx y0 wy (seen ++ [(px, py, q)]) v1 -> exists v', vol_post_step l v1 = Some v' /\ vinv n x0 wx y0 wy (seen ++ (px, py, q) :: l) v').
    { intros v1 I1. destruct (IH _ _ I1) as (v' & E & I'). exists v'. split; [exact E|]. rewrite <- app_assoc in I'. exact I'. }
    destruct (_ && _) eqn:Ein.
    + rewrite !andb_true_iff, !Qle_bool_iff in Ein. destruct Ein as [[[Ex1 Ex2] Ey1] Ey2].
      destruct (Qltb_spec px (x0 + wx)) as [Ex2'|]; [clear Ex2|discriminate]. destruct (Qltb_spec py (y0 + wy)) as [Ey2'|]; [clear Ey2|discriminate].
      destruct (vol_ix x0 wx n px Hwx Hn Ex1 Ex2') as [Rx Ix]. destruct (vol_ix y0 wy n py Hwy Hn Ey1 Ey2') as [Ry Iy].
      unfold addToBin. rewrite Bx, By, X0, WX, Y0, WY. set (x := Qtrunc (inject_Z n / wx * (px - x0))) in *. set (y := Qtrunc (inject_Z n / wy * (py - y0))) in *.
      replace ((0 <=? x)%Z && (x <? n)%Z && (0 <=? y)%Z && (y <? n)%Z) with true by (symmetry; rewrite !andb_true_iff, !Z.leb_le, !Z.ltb_lt; lia).
      rewrite (nth_error_Some_nth _ _ []) by lia. set (col := nth (Z.to_nat x) (v_cells v) []).
      assert (Hcol : length col = Z.to_nat n) by (apply Lr; lia).
      destruct (upd_some y (fun d => (fst d + q, (snd d + 1)%Z)) col) as (col' & E1 & L1 & N1); [lia|]. rewrite E1.
      destruct (upd_some x (fun _ => col') (v_cells v)) as (cells' & E2 & L2 & N2); [lia|]. rewrite E2. apply Skip.
      assert (Hcolx : forall i, (x =? Z.of_nat i)%Z = true -> nth i (v_cells v) [] = col) by (intros i E; apply Z.eqb_eq in E; unfold col; rewrite E, Nat2Z.id; reflexivity).
      unfold vinv. cbn [with_cells v_bx v_by v_x0 v_wx v_y0 v_wy v_cells]. do 6 (split; [assumption|]). split; [lia|]. split.
      * intros i Hi. rewrite N2. destruct (x =? Z.of_nat i)%Z; [congruence|now apply Lr].
      * intros i j Hi Hj. cbv zeta. rewrite filter_app. cbn [filter]. rewrite <- Ix, <- Iy. rewrite N2. destruct (Hc i j Hi Hj) as [C1 C2]. destruct (x =? Z.of_nat i)%Z eqn:Exi; cbn [andb].
        -- rewrite N1. rewrite (Hcolx i Exi) in C1, C2. destruct (y =? Z.of_nat j)%Z.
           ++ cbn [fst snd]. rewrite sum_app, app_length, C1, C2. unfold sum at 3. cbn [fold_right snd length]. split; [ring|lia].
           ++ rewrite app_nil_r. split; assumption.
        -- rewrite app_nil_r. split; assumption.
    + apply Skip. unfold vinv. do 8 (split; [assumption|]). intros i j Hi Hj. cbv zeta. rewrite filter_app. cbn [filter].
      assert (F : in_bin x0 (wx / inject_Z n) i px && in_bin y0 (wy / inject_Z n) j py = false).
      { destruct (Qleb_spec x0 px); [|rewrite (in_bin_out x0 wx n i px Hwx Hn Hi) by (left; lra); reflexivity].
        destruct (Qltb_spec px (x0 + wx)); [|rewrite (in_bin_out x0 wx n i px Hwx Hn Hi) by (right; lra); reflexivity].
        destruct (Qleb_spec y0 py); [|rewrite (in_bin_out y0 wy n j py Hwy Hn Hj) by (left; lra); apply andb_false_r].
        destruct (Qltb_spec py (y0 + wy)); [discriminate|rewrite (in_bin_out y0 wy n j py Hwy Hn Hj) by (right; lra); apply andb_false_r]. }
      rewrite F, app_nil_r. now apply Hc.
Qed.
Lemma vinv_run n x0 wx y0 wy steps : 0 < wx -> 0 < wy -> (0 < n)%Z -> forall seen v, vinv n x0 wx y0 wy seen v ->
  exists v', vol_run steps v = Some v' /\ vinv n x0 wx y0 wy (seen ++ concat steps) v'.
Proof.
  intros Hwx Hwy Hn. induction steps as [|l steps IH]; intros seen v I; cbn [vol_run concat]; [exists v; rewrite app_nil_r; tauto|].
  destruct (vinv_step n x0 wx y0 wy l Hwx Hwy Hn seen v I) as (v1 & E1 & I1). rewrite E1. destruct (IH _ _ I1) as (v2 & E2 & I2). exists v2. split; [exact E2|]. now rewrite app_assoc.
Qed.
Lemma vinv_fresh n m x0 wx y0 wy : (0 < n <= m)%Z -> vinv n x0 wx y0 wy [] (mkV n n x0 wx y0 wy (repeat (repeat (0, 0%Z) (Z.to_nat n)) (Z.to_nat m))).
Proof.
  intros H. unfold vinv. cbn. do 6 (split; [reflexivity|]). rewrite repeat_length. split; [lia|]. split.
  - intros x Hx. rewrite nth_rep by lia. apply repeat_length.
  - intros x y Hx Hy. rewrite !nth_rep by lia. split; reflexivity.
Qed.
Lemma flat_map_nth {A} (f : nat -> nat -> A) n x y d : (x < n)%nat -> (y < n)%nat -> forall a, nth (x * n + y) (flat_map (fun i => map (f i) (seq 0 n)) (seq a n)) d = f (a + x)%nat y.
Proof.
  intros Hx Hy. assert (G : forall k a x, (x < k)%nat -> nth (x * n + y) (flat_map (fun i => map (f i) (seq 0 n)) (seq a k)) d = f (a + x)%nat y).
  { clear x Hx. induction k as [|k IH]; intros a [|x] H; try lia; cbn [seq flat_map].
    - rewrite app_nth1 by (rewrite map_length, seq_length; lia). cbn [Nat.mul Nat.add]. rewrite nth_map_seq by exact Hy. now rewrite Nat.add_0_r.
    - rewrite app_nth2 by (rewrite map_length, seq_length; lia). rewrite map_length, seq_length. replace (S x * n + y - n)%nat with (x * n + y)%nat by lia. rewrite IH by lia. f_equal. lia. }
  intros a. now apply G.
Qed.
Lemma flat_map_len {A} (f : nat -> nat -> A) n l : length (flat_map (fun i => map (f i) (seq 0 n)) l) = (length l * n)%nat.
Proof. induction l as [|a l IH]; [reflexivity|]. cbn [flat_map length]. rewrite app_length, map_length, seq_length, IH. reflexivity. Qed.
Lemma map_rep {A B} (f : A -> B) a n : map f (repeat a n) = repeat (f a) n.
Proof. induction n as [|n IH]; cbn; [reflexivity|now rewrite IH]. Qed.
Definition vol_good (n : Z) (x0 wx y0 wy : Q) (v0 : vol) : Prop :=
  forall steps, exists v, vol_run steps v0 = Some v /\ length (vol_lines (Z.of_nat (length steps)) v) = (Z.to_nat n * Z.to_nat n)%nat /\
  forall x y, (x < Z.to_nat n)%nat -> (y < Z.to_nat n)%nat ->
    let inside := filter (fun '(px, py, _) => in_bin x0 (wx / inject_Z n) x px && in_bin y0 (wy / inject_Z n) y py) (concat steps) in
    let '(cx, cy, mean, count) := nth (x * Z.to_nat n + y) (vol_lines (Z.of_nat (length steps)) v) (0, 0, 0, 0) in
    cx == x0 + (inject_Z (Z.of_nat x) + (1#2)) * (wx / inject_Z n) /\ cy == y0 + (inject_Z (Z.of_nat y) + (1#2)) * (wy / inject_Z n) /\
    mean == match inside with [] => 0 | _ => sum snd inside / inject_Z (Z.of_nat (length inside)) end /\
    (steps <> [] -> count == inject_Z (Z.of_nat (length inside)) / inject_Z (Z.of_nat (length steps))).
Lemma vinv_good n x0 wx y0 wy v0 : 0 < wx -> 0 < wy -> (0 < n)%Z -> vinv n x0 wx y0 wy [] v0 -> vol_good n x0 wx y0 wy v0.
Proof.
  intros Hwx Hwy Hn I steps. destruct (vinv_run n x0 wx y0 wy steps Hwx Hwy Hn [] v0 I) as (v & E & (Bx & By & X0 & WX & Y0 & WY & Lc & Lr & Hc)). cbn [app] in Hc.
  exists v. split; [exact E|]. unfold vol_lines. rewrite Bx, By, X0, WX, Y0, WY. split.
  - rewrite (flat_map_len _ (Z.to_nat n) (seq 0 (Z.to_nat n))), seq_length. reflexivity.
  - intros x y Hx Hy. cbv zeta. destruct (Hc x y Hx Hy) as [C1 C2].
    rewrite (flat_map_nth (fun bx b => let c := nth b (nth bx (v_cells v) []) (0, 0%Z) in
       (x0 + (inject_Z (Z.of_nat bx) + (1#2)) * (wx / inject_Z n), y0 + (inject_Z (Z.of_nat b) + (1#2)) * (wy / inject_Z n),
        (if (0 <? snd c)%Z then fst c / inject_Z (snd c) else 0), if (0 <? Z.of_nat (length steps))%Z then inject_Z (snd c) / inject_Z (Z.of_nat (length steps)) else inject_Z (snd c))) (Z.to_nat n) x y _ Hx Hy 0).
    cbv zeta. cbn [Nat.add]. set (inside := filter _ (concat steps)) in *. set (c := nth y (nth x (v_cells v) []) (0, 0%Z)) in *. split; [reflexivity|]. split; [reflexivity|]. split.
    + destruct inside as [|s inside]; cbn [length] in C2; rewrite C2.
      * reflexivity.
      * destruct (Z.ltb_spec 0 (Z.of_nat (S (length inside)))); [|lia]. rewrite C1. reflexivity.
    + intros Hs. rewrite C2. destruct (Z.ltb_spec 0 (Z.of_nat (length steps))); [reflexivity|]. exfalso. apply Hs. destruct steps; [reflexivity|cbn [length] in *; lia].
Qed.
Lemma vinv_again n x0 wx y0 wy mx seen v : (0 < n)%Z -> vinv n x0 wx y0 wy seen v -> vinv n x0 wx y0 wy [] (vol_pre mx v).
Proof.
  intros Hn (Bx & By & X0 & WX & Y0 & WY & Lc & Lr & Hc). unfold vol_pre. rewrite Bx, By. destruct (Z.eqb_spec n 0); [lia|]. cbn [orb]. unfold setBins. rewrite Bx, By, Z.eqb_refl. cbn [negb orb].
  unfold vinv. cbn [v_bx v_by v_x0 v_wx v_y0 v_wy v_cells]. do 2 (split; [reflexivity|]). do 4 (split; [assumption|]). rewrite map_length. split; [exact Lc|].
  assert (E : forall x, nth x (map (map (fun _ : Q * Z => (0, 0%Z))) (v_cells v)) [] = map (fun _ => (0, 0%Z)) (nth x (v_cells v) [])) by (intros x; apply (map_nth (map (fun _ : Q * Z => (0, 0%Z))) (v_cells v) [])).
  split; [intros x Hx; rewrite E, map_length; now apply Lr|]. intros x y Hx Hy. rewrite E. cbn. rewrite (map_nth (fun _ : Q * Z => (0, 0%Z)) (nth x (v_cells v) []) (0, 0%Z)). split; reflexivity.
Qed.
(* a plot that is right in a first run and again, from zero, in a second run *)
Definition vol_good2 (n : Z) (x0 wx y0 wy : Q) (mx : Z) (v0 : vol) : Prop :=
  vol_good n x0 wx y0 wy v0 /\ forall steps v, vol_run steps v0 = Some v -> vol_good n x0 wx y0 wy (vol_pre mx v).
Lemma vinv_good2 n x0 wx y0 wy mx v0 : 0 < wx -> 0 < wy -> (0 < n)%Z -> vinv n x0 wx y0 wy [] v0 -> vol_good2 n x0 wx y0 wy mx v0.
Proof.
  intros Hwx Hwy Hn I. split; [now apply vinv_good|]. intros steps v E. destruct (vinv_run n x0 wx y0 wy steps Hwx Hwy Hn [] v0 I) as (v' & E' & I'). rewrite E in E'. injection E' as <-.
  apply vinv_good; try assumption. eapply vinv_again; eassumption.
Qed.
(* With by <= bx bins set before the first run, or with the automatic choice for a region at least as wide as high, the plot is a correct
   histogram, but one with by bins along both axes. *)
Theorem C50_volume_partial x0 wx y0 wy mx : 0 < wx -> 0 < wy -> (0 < mx)%Z ->
  (forall bx by_, (0 < by_ <= bx)%Z -> vol_good2 by_ x0 wx y0 wy mx (vol_pre mx (setBins bx by_ (vol_new x0 wx y0 wy)))) /\
  (wy <= wx -> forall n, (0 < n)%Z -> inject_Z n <= wy * inject_Z mx / wx -> wy * inject_Z mx / wx < inject_Z (n + 1) ->
     vol_good2 n x0 wx y0 wy mx (vol_pre mx (vol_new x0 wx y0 wy))).
Proof.
  intros Hwx Hwy Hmx. split.
  - intros bx by_ H. apply vinv_good2; try assumption; [lia|]. unfold setBins at 1, vol_new. cbn [v_bx v_by v_x0 v_wx v_y0 v_wy v_cells].
    destruct (Z.eqb_spec 0 bx); [lia|]. cbn [negb orb]. unfold vol_pre. cbn [v_bx v_by v_x0 v_wx v_y0 v_wy v_cells]. destruct (Z.eqb_spec by_ 0); [lia|]. cbn [orb].
    unfold setBins. cbn [v_bx v_by v_x0 v_wx v_y0 v_wy v_cells]. rewrite Z.eqb_refl. cbn [negb orb]. rewrite !map_rep. now apply vinv_fresh.
  - intros Hle n Hn L U. apply vinv_good2; try assumption. unfold vol_pre, vol_new. cbn [v_bx v_by v_x0 v_wx v_y0 v_wy v_cells Z.eqb orb].
    destruct (Qltb_spec wx wy); [exfalso; lra|]. assert (Hq : 0 < inject_Z mx) by (change 0 with (inject_Z 0); now rewrite <- Zlt_Qlt).
    assert (En : Qtrunc (wy / (wx / inject_Z mx)) = n).
    { rewrite (Qtrunc_eq _ (wy * inject_Z mx / wx)) by (field; split; lra). assert (0 <= wy * inject_Z mx / wx) by (apply Qle_shift_div_l; [exact Hwx|]; assert (0 < wy * inject_Z mx) by (apply Qmult_lt_0_compat; assumption); lra).
      rewrite trunc_floor by assumption. pose proof (Qfloor_le (wy * inject_Z mx / wx)) as F1. pose proof (Qlt_floor (wy * inject_Z mx / wx)) as F2.
      assert (A : inject_Z n < inject_Z (Qfloor (wy * inject_Z mx / wx) + 1)) by lra. assert (B : inject_Z (Qfloor (wy * inject_Z mx / wx)) < inject_Z (n + 1)) by lra. rewrite <- Zlt_Qlt in A, B. lia. }
    rewrite En. unfold setBins. cbn [v_bx v_by v_x0 v_wx v_y0 v_wy v_cells]. destruct (Z.eqb_spec 0 mx); [lia|]. cbn [negb orb]. apply vinv_fresh. split; [exact Hn|].
    assert (inject_Z n <= inject_Z mx) as K; [|rewrite <- Zle_Qle in K; exact K]. eapply Qle_trans; [exact L|]. apply Qle_shift_div_r; [exact Hwx|]. rewrite Qmult_comm. apply Qmult_le_l; [exact Hq|exact Hle].
Qed.
Print Assumptions C50_volume_partial.
Example C50_volume_case : exists v, vol_run [[(1#2, 1#2, 3); (1#4, 1#4, 5)]; [(3#2, 1#2, 7); (9, 9, 9)]] (vol_pre 100 (setBins 3 2 (vol_new 0 2 0 2))) = Some v /\
  map (fun '(_, _, m, c) => (Qred m, Qred c)) (vol_lines 2 v) = [(4, 1); (0, 0); (7, 1#2); (0, 0)].
Proof. eexists. split; vm_compute; reflexivity. Qed.
(* The requested number of bins along x is ignored; with fewer bins along x than along y, memory outside of the bins is used, also with the
   automatic choice for a region higher than wide. *)
Theorem C50_volume_resolution_refuted x0 wx y0 wy bx by_ fr : length (vol_lines fr (setBins bx by_ (vol_new x0 wx y0 wy))) = (Z.to_nat by_ * Z.to_nat by_)%nat.
Proof.
  unfold vol_lines, setBins, vol_new. cbn [v_bx v_by v_x0 v_wx v_y0 v_wy].
  rewrite (flat_map_len _ (Z.to_nat by_) (seq 0 (Z.to_nat by_))), seq_length. reflexivity.
Qed.
Print Assumptions C50_volume_resolution_refuted.
Theorem C50_volume_memory_refuted :
  vol_run [[(3#2, 1#2, 1)]] (vol_pre 100 (setBins 1 2 (vol_new 0 2 0 2))) = None /\ vol_run [[(9#10, 1#2, 1)]] (vol_pre 100 (vol_new 0 1 0 2)) = None.
Proof. split; vm_compute; reflexivity. Qed.
Print Assumptions C50_volume_memory_refuted.
