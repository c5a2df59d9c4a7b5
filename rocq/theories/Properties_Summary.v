(* C130: the summary of a run. *)
From Coq Require Import QArith List Bool ZArith Lia Lqa.
From Verif Require Import Lib Model_Bins Spec_Bins Proofs_Bins Model_Summary Spec_Summary.
Import ListNotations.
Local Open Scope Q_scope.

Lemma tidy_total ntypes rs : (forall r, In r rs -> tidy ntypes r) -> total_particles rs = Z.of_nat (length (everything rs)).
Proof.
  induction rs as [|r rs IH]; intros H; [reflexivity|]. cbn [total_particles fold_right everything flat_map]. rewrite app_length. fold (total_particles rs). fold (everything rs). rewrite IH by (intros; apply H; now right).
  destruct (H r (or_introl eq_refl)) as (E & _). lia.
Qed.
Lemma tidy_types ntypes rs : (forall r, In r rs -> tidy ntypes r) -> exists l, summary_types ntypes rs = Some l /\ length l = ntypes /\
  forall i, (i < ntypes)%nat -> nth i l 0%Z = number (fun s => (s_type s =? Z.of_nat i)%Z) (everything rs).
Proof.
  induction rs as [|r rs IH]; intros H.
  - exists (repeat 0%Z ntypes). split; [reflexivity|]. split; [apply repeat_length|]. intros i Hi. rewrite nth_repeat. reflexivity.
  - destruct IH as (b & Eb & Lb & Nb); [intros; apply H; now right|]. destruct (H r (or_introl eq_refl)) as (Eo & En & Ht).
    unfold summary_types. cbn [map sum_counts]. fold (summary_types ntypes rs). rewrite Eb. unfold type_counts. rewrite Eo. destruct (Z.ltb_spec (Z.of_nat (length (d_slots r))) (Z.of_nat (length (d_slots r)))); [lia|].
    rewrite Nat2Z.id, firstn_all. destruct (tally_some (fun s => Some (s_type s)) (fun _ c => (c + 1)%Z) (d_slots r) (repeat 0%Z ntypes)) as (a & Ea & La & Na).
    { intros s k Hs Ek. injection Ek as <-. rewrite repeat_length. now apply Ht. }
    rewrite Ea. rewrite repeat_length in La, Na. eexists. split; [reflexivity|]. split; [rewrite map_length, combine_length; lia|]. intros i Hi.
    transitivity (nth i (map (fun p => (fst p + snd p)%Z) (combine a b)) ((fun p => (fst p + snd p)%Z) (0%Z, 0%Z))); [reflexivity|]. rewrite (map_nth (fun p => (fst p + snd p)%Z)), combine_nth by congruence. cbn [fst snd]. rewrite Na, Nb by exact Hi. rewrite fold_count, nth_repeat.
    unfold number, everything. cbn [flat_map]. rewrite filter_app, app_length. fold (everything rs). unfold hits. lia.
Qed.
Lemma fold_sum {A} (f : A -> Q) l : forall v, fold_left (fun v s => v + f s) l v == v + sum f l.
Proof. induction l as [|a l IH]; intros v; cbn [fold_left sum fold_right]; [ring|]. rewrite IH. unfold sum. ring. Qed.
Lemma sum_app {A} (f : A -> Q) l1 l2 : sum f (l1 ++ l2) == sum f l1 + sum f l2.
Proof. unfold sum. induction l1 as [|a l1 IH]; cbn [app fold_right]; [ring|]. rewrite IH. ring. Qed.
Lemma tidy_volume ntypes ball rs : (forall r, In r rs -> tidy ntypes r) -> exists v, summary_volume ball rs = Some v /\ v == sum (fun s => ball (s_sg s)) (everything rs).
Proof.
  induction rs as [|r rs IH]; intros H; [exists 0; split; reflexivity|]. destruct IH as (v & Ev & Hv); [intros; apply H; now right|]. destruct (H r (or_introl eq_refl)) as (Eo & En & _).
  cbn [summary_volume]. rewrite Ev. unfold rank_volume. rewrite En, Eo. destruct (Z.ltb_spec (Z.of_nat (length (d_slots r))) (Z.of_nat (length (d_slots r)))); [lia|]. rewrite Nat2Z.id, firstn_all.
  eexists. split; [reflexivity|]. unfold everything. cbn [flat_map]. rewrite sum_app. fold (everything rs). rewrite <- Hv, (fold_sum (fun s => ball (s_sg s))). ring.
Qed.
(* The number of particles, the numbers for each type and the packing fraction are those of all particles on all processors, if no processor has removed particles
   among its particles, or ghosts. *)
Theorem C130_numbers_partial ntypes ball rs vol : (forall r, In r rs -> tidy ntypes r) ->
  total_particles rs = Z.of_nat (length (everything rs)) /\
  (exists l, summary_types ntypes rs = Some l /\ length l = ntypes /\ forall i, (i < ntypes)%nat -> nth i l 0%Z = number (fun s => (s_type s =? Z.of_nat i)%Z) (everything rs)) /\
  (exists phi, packing ball rs vol = Some phi /\ phi == sum (fun s => ball (s_sg s)) (everything rs) / vol).
Proof.
  intros H. split; [now apply (tidy_total ntypes)|]. split; [now apply tidy_types|]. destruct (tidy_volume ntypes ball rs H) as (v & Ev & Hv). unfold packing. rewrite Ev. eexists. split; [reflexivity|]. cbn. now rewrite Hv.
Qed.
Print Assumptions C130_numbers_partial.
Example C130_numbers_case : let rs := [mkRD [mkSl 0 1 1 0; mkSl 1 2 1 0] 2 2; mkRD [mkSl 1 3 1 0] 1 1] in (forall r, In r rs -> tidy 2 r) /\
  total_particles rs = 3%Z /\ summary_types 2 rs = Some [1%Z; 2%Z] /\ packing (fun s => s * s) rs 28 = Some (14 # 28).
Proof.
  split; [|repeat split; vm_compute; reflexivity]. intros r [<-|[<-|[]]]; repeat split; cbn in *; intuition (subst; cbn; lia).
Qed.
(* A removed particle among the first makes the count write outside of the vector. *)
Theorem C130_removed_refuted ntypes s r : (s_type s = -1)%Z -> (0 < d_owned r <= Z.of_nat (length (s :: d_slots r)))%Z -> type_counts ntypes (mkRD (s :: d_slots r) (d_owned r) (d_number r)) = None.
Proof.
  intros E H. unfold type_counts. cbn [d_slots d_owned]. destruct (Z.ltb_spec (Z.of_nat (length (s :: d_slots r))) (d_owned r)); [lia|].
  replace (Z.to_nat (d_owned r)) with (S (Z.to_nat (d_owned r) - 1)) by lia. cbn [firstn tally]. rewrite E. reflexivity.
Qed.
Print Assumptions C130_removed_refuted.
(* With ghosts and no free places, the volume reads places behind the particles. *)
Theorem C130_ghosts_refuted ball slots ghosts : (0 < ghosts)%Z -> let n := Z.of_nat (length slots) in rank_volume ball (mkRD slots n (n + ghosts)) = None.
Proof. intros H n. unfold rank_volume. cbn [d_slots d_number]. destruct (Z.ltb_spec (Z.of_nat (length slots)) (n + ghosts)); [reflexivity|unfold n in *; lia]. Qed.
Print Assumptions C130_ghosts_refuted.

(* ---------- the particles of processor 0 *)
Definition movableb (s : slot) : bool := (0 <=? s_type s)%Z && Qltb 0 (s_im s).
Lemma kept_movable s : kept s = movableb s.
Proof. unfold kept, movableb. destruct (Z.ltb_spec (s_type s) 0), (Z.leb_spec 0 (s_type s)); try lia; reflexivity. Qed.
Lemma movable_spec s : movableb s = true <-> movable s.
Proof. unfold movableb, movable. rewrite andb_true_iff, Z.leb_le. destruct (Qltb_spec 0 (s_im s)); intuition discriminate. Qed.
Lemma stat_filter q l : forall t c, stat_loop q l t c = (fold_left (fun t s => add_stat (q s) t) (filter movableb l) t, (c + Z.of_nat (length (filter movableb l)))%Z).
Proof.
  induction l as [|s l IH]; intros t c; cbn [stat_loop filter]; [cbn; f_equal; lia|]. rewrite kept_movable. destruct (movableb s); rewrite IH; cbn [fold_left length]; f_equal; lia.
Qed.
Lemma fold_stat (q : slot -> Q) l : forall t, let u := fold_left (fun t s => add_stat (q s) t) l t in
  st_sum u == st_sum t + sum q l /\ (st_min u = st_min t \/ exists s, In s l /\ st_min u = q s) /\ st_min u <= st_min t /\ (forall s, In s l -> st_min u <= q s) /\
  (st_max u = st_max t \/ exists s, In s l /\ st_max u = q s) /\ st_max t <= st_max u /\ (forall s, In s l -> q s <= st_max u).
Proof.
  induction l as [|s l IH]; intros t u.
  - subst u. cbn [fold_left sum fold_right]. split; [ring|]. split; [left; reflexivity|]. split; [apply Qle_refl|]. split; [intros ? []|]. split; [left; reflexivity|]. split; [apply Qle_refl|]. intros ? [].
  - subst u. cbn [fold_left]. destruct (IH (add_stat (q s) t)) as (E1 & E2 & E3 & E4 & E5 & E6 & E7). set (u := fold_left _ l _) in *. clearbody u. unfold add_stat in *. cbn [st_sum st_min st_max] in *.
    split; [rewrite E1; unfold sum; cbn [fold_right]; ring|]. destruct (Qltb_spec (q s) (st_min t)) as [A|A], (Qltb_spec (st_max t) (q s)) as [B|B]; (refine (conj _ (conj _ (conj _ (conj _ (conj _ _)))));
      [destruct E2 as [E2|(s' & H1 & H2)]; [|right; exists s'; split; [now right|exact H2]]; first [left; exact E2|right; exists s; split; [now left|exact E2]]
      |lra
      |intros s' [<-|Hs]; [lra|now apply E4]
      |destruct E5 as [E5|(s' & H1 & H2)]; [|right; exists s'; split; [now right|exact H2]]; first [left; exact E5|right; exists s; split; [now left|exact E5]]
      |lra
      |intros s' [<-|Hs]; [lra|now apply E7]]).
Qed.
(* Processor 0 reports the mean (times the factor), the smallest and the largest value for its movable particles, if its first particle is one of them. *)
Theorem C130_extremes_partial q factor s0 l owned number : number <> 0%Z -> movable s0 ->
  forall f, (forall s, In s (s0 :: l) -> f s = true <-> movable s) -> let ps := filter f (s0 :: l) in
  exists mean mn mx, report_stat q factor (mkRD (s0 :: l) owned number) = Some (mean, mn, mx) /\
    mean == factor * (sum q ps / inject_Z (Z.of_nat (length ps))) /\ smallest q ps mn /\ largest q ps mx.
Proof.
  intros Hn H0 f Hf. assert (Ef : filter f (s0 :: l) = filter movableb (s0 :: l)). { apply filter_ext_in. intros a Ha. apply eq_true_iff_eq. rewrite movable_spec. now apply Hf. }
  cbv zeta. rewrite Ef. unfold report_stat. cbn [d_slots d_number]. destruct (Z.eqb_spec number 0); [contradiction|]. rewrite stat_filter. set (ps := filter movableb (s0 :: l)).
  assert (Hin : In s0 ps) by (apply filter_In; split; [now left|now apply movable_spec]). assert (L : (0 < length ps)%nat) by (destruct ps; [destruct Hin|cbn; lia]).
  destruct (fold_stat q ps (mkSt 0 (q s0) (q s0))) as (E1 & E2 & E3 & E4 & E5 & E6 & E7). set (u := fold_left _ ps _) in *. clearbody u. cbn [st_sum st_min st_max] in *.
  rewrite Z.add_0_l. destruct (Z.eqb_spec (Z.of_nat (length ps)) 0); [lia|]. do 3 eexists. split; [reflexivity|].
  split; [|split].
  - rewrite E1. field. change 0 with (inject_Z 0). rewrite inject_Z_injective. lia.
  - split; [|exact E4]. destruct E2 as [E2|(s & H1 & H2)]; [exists s0|exists s]; (split; [assumption|]); [rewrite E2|rewrite H2]; reflexivity.
  - split; [|exact E7]. destruct E5 as [E5|(s & H1 & H2)]; [exists s0|exists s]; (split; [assumption|]); [rewrite E5|rewrite H2]; reflexivity.
Qed.
Print Assumptions C130_extremes_partial.
Example C130_extremes_case : movable (mkSl 0 2 1 3) /\ report_stat q_sigma 1 (mkRD [mkSl 0 2 1 3; mkSl 0 5 0 0; mkSl 1 4 1 0] 3 3) = Some (6 # 2, 2, 4).
Proof. split; [split; [reflexivity|reflexivity]|vm_compute; reflexivity]. Qed.
(* The means do not depend on the first particle. *)
Theorem C130_means_partial q factor s0 l owned number : number <> 0%Z -> (exists s, In s (s0 :: l) /\ movable s) ->
  exists mean mn mx, report_stat q factor (mkRD (s0 :: l) owned number) = Some (mean, mn, mx) /\
    forall f, (forall s, In s (s0 :: l) -> f s = true <-> movable s) -> let ps := filter f (s0 :: l) in mean == factor * (sum q ps / inject_Z (Z.of_nat (length ps))).
Proof.
  intros Hn (s & Hs & Hm). unfold report_stat. cbn [d_slots d_number]. destruct (Z.eqb_spec number 0); [contradiction|]. rewrite stat_filter. set (ps := filter movableb (s0 :: l)).
  assert (Hin : In s ps) by (apply filter_In; split; [exact Hs|now apply movable_spec]). assert (L : (0 < length ps)%nat) by (destruct ps; [destruct Hin|cbn; lia]).
  destruct (fold_stat q ps (mkSt 0 (q s0) (q s0))) as (E1 & _). set (u := fold_left _ ps _) in *. clearbody u. cbn [st_sum] in *.
  rewrite Z.add_0_l. destruct (Z.eqb_spec (Z.of_nat (length ps)) 0); [lia|]. do 3 eexists. split; [reflexivity|]. intros f Hf.
  assert (Ef : filter f (s0 :: l) = ps). { unfold ps. apply filter_ext_in. intros a Ha. apply eq_true_iff_eq. rewrite movable_spec. now apply Hf. }
  cbv zeta. rewrite Ef, E1. field. change 0 with (inject_Z 0). rewrite inject_Z_injective. lia.
Qed.
Print Assumptions C130_means_partial.
Example C130_means_case : report_stat q_ke (1 # 2) (mkRD [mkSl 0 5 0 0; mkSl 0 2 (1#3) 2] 2 2) = Some (12 # 2, 0, 12).
Proof. vm_compute. reflexivity. Qed.
(* If the first particle cannot be moved, it can be the reported largest radius, although it does not count. *)
Theorem C130_first_refuted a b owned number : number <> 0%Z -> b < a ->
  exists mean mn mx, report_stat q_sigma 1 (mkRD [mkSl 0 a 0 0; mkSl 0 b 1 0] owned number) = Some (mean, mn, mx) /\ mean == b /\ mx == a.
Proof.
  intros Hn H. unfold report_stat. cbn [d_slots d_number]. destruct (Z.eqb_spec number 0); [contradiction|]. cbn [stat_loop kept s_type s_im]. unfold kept. cbn [s_type s_im].
  change (Qle_bool 0 0) with true. change (Qle_bool 1 0) with false. change (0 <? 0)%Z with false. cbn [orb negb]. unfold add_stat, q_sigma. cbn [s_sg st_sum st_min st_max]. destruct (Qltb_spec b a); [|contradiction]. destruct (Qltb_spec a b); [exfalso; lra|].
  change (0 + 1 =? 0)%Z with false. cbn [st_sum st_min st_max]. do 3 eexists. split; [reflexivity|]. change (inject_Z (0 + 1)) with 1. split; [field|reflexivity].
Qed.
Print Assumptions C130_first_refuted.
(* The smallest and largest kinetic energies are twice the real ones: for a single moving particle the mean is half of both. *)
Theorem C130_energy_refuted ty sg im v owned number : number <> 0%Z -> movable (mkSl ty sg im v) ->
  exists mean mn mx, report_stat q_ke (1 # 2) (mkRD [mkSl ty sg im v] owned number) = Some (mean, mn, mx) /\ mean == (1 # 2) * (1 / im) * (v * v) /\ mn == 2 * mean /\ mx == 2 * mean.
Proof.
  intros Hn [Ht Hi]. cbn [s_type s_im] in *. unfold report_stat. cbn [d_slots d_number]. destruct (Z.eqb_spec number 0); [contradiction|]. cbn [stat_loop]. rewrite kept_movable.
  assert (E : movableb (mkSl ty sg im v) = true) by (apply movable_spec; split; assumption). rewrite E. unfold add_stat. cbn [st_sum st_min st_max].
  destruct (Qltb_spec (q_ke (mkSl ty sg im v)) (q_ke (mkSl ty sg im v))) as [A|A]; [exfalso; lra|]. change (0 + 1 =? 0)%Z with false. cbn [st_sum st_min st_max]. do 3 eexists. split; [reflexivity|].
  unfold q_ke. cbn [s_speed s_im]. change (inject_Z (0 + 1)) with 1. repeat split; field; lra.
Qed.
Print Assumptions C130_energy_refuted.
(* What is reported for a particle: radius, mass, mass over volume, speed, mass times speed squared. *)
Theorem C130_quantities ball s : movable s -> ~ ball (s_sg s) == 0 -> let m := 1 / s_im s in
  q_sigma s = s_sg s /\ q_mass s == m /\ s_im s * m == 1 /\ q_density ball s == m / ball (s_sg s) /\ q_speed s = s_speed s /\ q_ke s == m * (s_speed s * s_speed s).
Proof.
  intros [_ Hi] Hb m. unfold m, q_sigma, q_mass, q_density, q_speed, q_ke. assert (~ s_im s == 0) by lra. split; [reflexivity|]. split; [reflexivity|]. split; [now field|]. split; [now field|]. split; [reflexivity|now field].
Qed.
Print Assumptions C130_quantities.
Example C130_quantities_case : movable (mkSl 0 2 (1#4) 3) /\ q_density (fun r => r * r) (mkSl 0 2 (1#4) 3) == 1 /\ q_ke (mkSl 0 2 (1#4) 3) == 36.
Proof. repeat split; reflexivity. Qed.
