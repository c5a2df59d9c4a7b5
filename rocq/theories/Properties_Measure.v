(* C74: recorded energies and means. C75: recorded numbers, volume fraction, energies by type. C76: temperature and pressure. C77: averages over regions.
   procs: the slots of the stores of the processors; particles, movables: those that were not removed, and those of them with a finite mass (Spec_Measure.v). *)
From Coq Require Import QArith List Bool ZArith Lia Lqa Permutation Setoid.
From Verif Require Import Lib Model_Measure Spec_Measure Proofs_Measure.
Import ListNotations.
Local Open Scope Q_scope.

Definition sl (t : Z) (x v : list Q) (im sg om : Q) : slot := mkSlot t x v im sg om.
(* two processors; a wall; a removed particle in the store of the second *)
Definition ex_a : list slot := [sl 0 [1; 1] [3; 4] (1#2) 2 1; sl 1 [2; 2] [0; 2] 1 1 2; sl 1 [0; 0] [0; 0] 0 1 0].
Definition ex_b : list slot := [sl 0 [5; 5] [1; 0] (1#4) 2 (-1)].
Definition ex_dead : list slot := [sl (-1) [5; 5] [10; 0] 1 1 0].

(* ---------- C74 *)
Theorem C74_kinetic_partial procs : no_removed procs -> rec_kinetic procs == Sum kinetic_energy (movables procs).
Proof.
  intros H. unfold rec_kinetic, kinetic. rewrite (sum_procs (fun s => (1#2) * ((1 / s_im s) * sqr (s_v s))) (filter moves)) by (intros l; rewrite loop_Sum, Sum_scale; reflexivity).
  rewrite flat_filter, moves_movables by exact H. apply Sum_ext. intros s _. unfold kinetic_energy, mass. rewrite sqr_Sum. ring.
Qed.
Print Assumptions C74_kinetic_partial.
Example C74_kinetic_case : no_removed [ex_a; ex_b] /\ rec_kinetic [ex_a; ex_b] == 25 + 2 + 2.
Proof. split; [intros s H; cbn in H; repeat (destruct H as [<- |H]; [cbn; lia|]); destruct H|vm_compute; reflexivity]. Qed.
(* Removed particles are counted until their slots are gone. *)
Theorem C74_kinetic_removed_refuted : Sum kinetic_energy (movables [ex_b ++ ex_dead]) == 2 /\ rec_kinetic [ex_b ++ ex_dead] == 52.
Proof. vm_compute. split; reflexivity. Qed.
Print Assumptions C74_kinetic_removed_refuted.
(* The average kinetic energy is taken over all slots: walls (and removed particles) lower it. *)
Theorem C74_kinetic_average_refuted : no_removed [ex_a] /\ Sum kinetic_energy (movables [ex_a]) == 27 /\ number (movables [ex_a]) == 2 /\ exists q, rec_kinetic_ave [ex_a] = Some q /\ q == 9.
Proof.
  split; [intros s H; cbn in H; repeat (destruct H as [<- |H]; [cbn; lia|]); destruct H|]. split; [vm_compute; reflexivity|]. split; [vm_compute; reflexivity|].
  eexists. split; [vm_compute; reflexivity|]. vm_compute. reflexivity.
Qed.
Print Assumptions C74_kinetic_average_refuted.
Theorem C74_kinetic_average_partial procs : no_removed procs -> (forall s, In s (concat procs) -> 0 < s_im s) -> concat procs <> [] ->
  exists q, rec_kinetic_ave procs = Some q /\ q * number (movables procs) == Sum kinetic_energy (movables procs).
Proof.
  intros H Hm Hn. unfold rec_kinetic_ave. rewrite sum_lengths.
  assert (E : movables procs = concat procs).
  { unfold movables. rewrite particles_all by exact H. revert Hm. generalize (concat procs). induction l as [|s l IH]; intros Hm; [reflexivity|]. cbn [filter].
    destruct (Qlt_le_dec 0 (s_im s)) as [X|X]; [|exfalso; specialize (Hm s (or_introl eq_refl)); lra]. now rewrite IH by (intros; apply Hm; now right). }
  destruct (ratio_spec (mpi_sum (map kinetic procs)) (inject_Z (Z.of_nat (length (concat procs))))) as [R _].
  destruct R as (q & R1 & R2); [intros X; apply Hn; apply (proj1 (number_zero (concat procs))); exact X|]. exists q. split; [exact R1|]. unfold number. rewrite E at 1. rewrite R2. now apply C74_kinetic_partial.
Qed.
Print Assumptions C74_kinetic_average_partial.

Theorem C74_rotational procs : rec_rotational procs == Sum rotational_energy (movables procs).
Proof.
  unfold rec_rotational. rewrite (sum_procs (fun s => (1#2) * spin s) (filter usable)) by (intros l; rewrite loop_Sum, Sum_scale; reflexivity).
  rewrite flat_filter, usable_movables. apply Sum_ext. intros s Hs. apply movables_pos in Hs. unfold rotational_energy, spin, mass. field. lra.
Qed.
Print Assumptions C74_rotational.
Example C74_rotational_case : rec_rotational [ex_a; ex_b ++ ex_dead] == 2 + 1 + 4.
Proof. vm_compute. reflexivity. Qed.
(* The total energy: right if there is no rotation; with rotation the rotational energy is counted twice. *)
Theorem C74_total_partial procs : rec_total false procs == Sum kinetic_energy (movables (map snd procs)) + Sum fst procs.
Proof.
  unfold rec_total. rewrite mpi_sum_Sum, Sum_map. transitivity (Sum (fun pl => (1#2) * loop usable (fun s => sqr (s_v s) / s_im s) (snd pl) + fst pl) procs); [apply Sum_ext; intros [p l] _; unfold total_energy; cbn [fst snd]; ring|].
  rewrite Sum_plus. rewrite <- (Sum_map (fun l => (1#2) * loop usable (fun s => sqr (s_v s) / s_im s) l) snd), <- (Sum_map (fun x => x) (fun l => (1#2) * loop usable (fun s => sqr (s_v s) / s_im s) l)), <- mpi_sum_Sum.
  rewrite (sum_procs (fun s => (1#2) * (sqr (s_v s) / s_im s)) (filter usable)) by (intros l; rewrite loop_Sum, Sum_scale; reflexivity).
  rewrite flat_filter, usable_movables. apply Qplus_comp; [|reflexivity]. apply Sum_ext. intros s Hs. apply movables_pos in Hs. unfold kinetic_energy, mass. rewrite sqr_Sum. field. lra.
Qed.
Print Assumptions C74_total_partial.
Example C74_total_case : rec_total false [(3, ex_a); (-1, ex_b ++ ex_dead)] == 29 + 2.
Proof. vm_compute. reflexivity. Qed.
Theorem C74_total_rotation_refuted procs :
  rec_total true procs == Sum kinetic_energy (movables (map snd procs)) + Sum fst procs + 2 * Sum rotational_energy (movables (map snd procs)).
Proof.
  rewrite <- C74_total_partial. rewrite <- C74_rotational. unfold rec_total, rec_rotational. rewrite !mpi_sum_Sum, !Sum_map, <- Sum_scale, <- Sum_plus. apply Sum_ext. intros [p l] _. unfold total_energy. cbn [snd]. ring.
Qed.
Print Assumptions C74_total_rotation_refuted.
Example C74_total_rotation_case : rec_total true [(0, [sl 0 [0; 0] [0; 0] 1 2 3])] == 18 /\ rotational_energy (sl 0 [0; 0] [0; 0] 1 2 3) == 9.
Proof. vm_compute. split; reflexivity. Qed.

(* Means over the movable particles of all processors. *)
Theorem C74_means mag procs rot pots : movables procs <> [] -> map snd pots = procs ->
  let n := number (movables procs) in
  (exists q, rec_rotational_ave procs = Some q /\ q * n == Sum rotational_energy (movables procs)) /\
  (exists q, rec_total_ave rot pots = Some q /\ q * n == rec_total rot pots) /\
  (exists q, rec_speed mag procs = Some q /\ q * n == Sum (fun s => mag (s_v s)) (movables procs)) /\
  (exists q, rec_omega procs = Some q /\ q * Sum mass (movables procs) == Sum (fun s => mass s * s_om s) (movables procs)).
Proof.
  intros Hn Hp. cbv zeta. assert (N0 : ~ inject_Z (mpi_sumZ (map (count usable) procs)) == 0).
  { rewrite sum_count, usable_movables. intros X. apply Hn. now apply number_zero. }
  assert (EN : inject_Z (mpi_sumZ (map (count usable) procs)) = number (movables procs)) by (rewrite sum_count, usable_movables; reflexivity).
  split; [|split; [|split]].
  - unfold rec_rotational_ave. destruct (proj1 (ratio_spec (rec_rotational procs) _) N0) as (q & A & B). exists q. split; [exact A|]. rewrite <- EN, B. apply C74_rotational.
  - unfold rec_total_ave. rewrite <- (map_map snd (count usable)), Hp. destruct (proj1 (ratio_spec (rec_total rot pots) _) N0) as (q & A & B). exists q. split; [exact A|]. now rewrite <- EN.
  - unfold rec_speed. destruct (proj1 (ratio_spec (mpi_sum (map (loop usable (fun s => mag (s_v s))) procs)) _) N0) as (q & A & B). exists q. split; [exact A|]. rewrite <- EN, B, sum_loop, usable_movables. reflexivity.
  - unfold rec_omega. assert (M0 : ~ mpi_sum (map (loop usable (fun s => 1 / s_im s)) procs) == 0).
    { rewrite sum_loop, usable_movables. assert (P := movables_pos procs). destruct (movables procs) as [|s l]; [now elim Hn|]. cbn [Sum].
      assert (0 < 1 / s_im s) by (unfold Qdiv; rewrite Qmult_1_l; apply Qinv_lt_0_compat, P; now left).
      assert (0 <= Sum (fun s => 1 / s_im s) l). { apply Sum_nonneg. intros a Ha. unfold Qdiv. rewrite Qmult_1_l. apply Qlt_le_weak, Qinv_lt_0_compat, P. now right. } lra. }
    destruct (proj1 (ratio_spec (mpi_sum (map (loop usable (fun s => s_om s * (1 / s_im s))) procs)) _) M0) as (q & A & B). exists q. split; [exact A|].
    rewrite !sum_loop, usable_movables in B. unfold mass. rewrite B. apply Sum_ext. intros s _. ring.
Qed.
Print Assumptions C74_means.
Example C74_means_case : movables [ex_a; ex_b ++ ex_dead] <> [] /\ (exists q, rec_omega [ex_a; ex_b ++ ex_dead] = Some q /\ q == 0) /\ exists q, rec_rotational_ave [ex_a; ex_b] = Some q /\ q == 7#3.
Proof. split; [vm_compute; discriminate|]. split; (eexists; split; [vm_compute; reflexivity|vm_compute; reflexivity]). Qed.
(* If nothing can move the mean is not a number (and the gathering function does not notice: it only tests the sum). *)
Theorem C74_nothing_moves_refuted mag procs : movables procs = [] -> rec_speed mag procs = None /\ rec_omega procs = None /\ rec_rotational_ave procs = None.
Proof.
  intros H. assert (EN : inject_Z (mpi_sumZ (map (count usable) procs)) = 0) by (rewrite sum_count, usable_movables, H; reflexivity).
  unfold rec_speed, rec_rotational_ave, rec_omega. rewrite EN. repeat split. apply (proj2 (ratio_spec _ _)). rewrite sum_loop, usable_movables, H. reflexivity.
Qed.
Print Assumptions C74_nothing_moves_refuted.
(* How the particles are divided among processors and ordered in the stores does not matter. *)
Theorem C74_division procs procs' : Permutation (concat procs) (concat procs') ->
  rec_kinetic procs == rec_kinetic procs' /\ rec_rotational procs == rec_rotational procs' /\
  forall pots pots' rot, map snd pots = procs -> map snd pots' = procs' -> Sum fst pots == Sum fst pots' -> rec_total rot pots == rec_total rot pots'.
Proof.
  intros P. assert (PM : Permutation (movables procs) (movables procs')) by (unfold movables, particles; now repeat apply filter_perm). split; [|split].
  - unfold rec_kinetic, kinetic. rewrite !(sum_procs (fun s => (1#2) * ((1 / s_im s) * sqr (s_v s))) (filter moves)) by (intros l; rewrite loop_Sum, Sum_scale; reflexivity).
    rewrite !flat_filter. apply Sum_perm, filter_perm, P.
  - rewrite !C74_rotational. now apply Sum_perm.
  - intros pots pots' rot <- <- E. destruct rot.
    + rewrite !C74_total_rotation_refuted, E. rewrite (Sum_perm kinetic_energy _ _ PM), (Sum_perm rotational_energy _ _ PM). reflexivity.
    + rewrite !C74_total_partial, E. now rewrite (Sum_perm kinetic_energy _ _ PM).
Qed.
Print Assumptions C74_division.
Example C74_division_case : Permutation (concat [ex_a; ex_b]) (concat [ex_b ++ ex_a; []]) /\ rec_kinetic [ex_b ++ ex_a; []] == 29.
Proof. split; [cbn [concat]; rewrite !app_nil_r; apply Permutation_app_comm|vm_compute; reflexivity]. Qed.

(* ---------- C75 *)
Theorem C75_numbers ntypes procs : length (rec_numbers ntypes procs) = ntypes /\
  (forall k, (k < ntypes)%nat -> nth_error (rec_numbers ntypes procs) k = Some (Z.of_nat (length (filter (fun s => (s_type s =? Z.of_nat k)%Z) (particles procs))))).
Proof.
  unfold rec_numbers. split; [now rewrite map_length, seq_length|]. intros k Hk. rewrite nth_error_map. replace (nth_error (seq 0 ntypes) k) with (Some k).
  - cbn [option_map]. f_equal. unfold particles. rewrite filter_filter. rewrite (filter_ext _ (fun s => (s_type s =? Z.of_nat k)%Z)).
    + induction procs as [|l procs IH]; [reflexivity|]. cbn [map concat]. rewrite mpi_sumZ_cons, IH, filter_app, app_length. rewrite (proj2 (type_counts_spec ntypes l) k Hk). lia.
    + intros s. destruct (Z.eqb_spec (s_type s) (Z.of_nat k)) as [->|]; [|apply andb_false_r]. destruct (Z.leb_spec 0 (Z.of_nat k)); [reflexivity|lia].
  - symmetry. rewrite (nth_error_nth' _ 0%nat) by (now rewrite seq_length). now rewrite seq_nth.
Qed.
Print Assumptions C75_numbers.
Example C75_numbers_case : rec_numbers 2 [ex_a; ex_b ++ ex_dead] = [2%Z; 2%Z].
Proof. vm_compute. reflexivity. Qed.
(* Together they are all particles, if the types are known. *)
Theorem C75_all_counted ntypes procs : (forall s, In s (particles procs) -> (s_type s < Z.of_nat ntypes)%Z) -> fold_right Z.add 0%Z (rec_numbers ntypes procs) = Z.of_nat (length (particles procs)).
Proof.
  intros H. assert (E : rec_numbers ntypes procs = map (fun k => Z.of_nat (length (filter (fun s => (s_type s =? Z.of_nat k)%Z) (particles procs)))) (seq 0 ntypes)).
  { destruct (C75_numbers ntypes procs) as [A B]. apply (nth_ext _ _ 0%Z 0%Z); [now rewrite A, map_length, seq_length|]. intros k Hk. rewrite A in Hk.
    rewrite (nth_error_nth _ _ 0%Z (B k Hk)). now rewrite (nth_map_seq0 (fun k => Z.of_nat (length (filter (fun s => (s_type s =? Z.of_nat k)%Z) (particles procs))))). }
  rewrite E. assert (P : forall s, In s (particles procs) -> (0 <= s_type s < Z.of_nat ntypes)%Z).
  { intros s Hs. split; [|now apply H]. unfold particles in Hs. apply filter_In in Hs as [_ Hs]. now apply Z.leb_le. }
  revert P. generalize (particles procs). clear. induction l as [|s l IH]; intros P.
  - cbn [filter length]. assert (G : forall a n, fold_right Z.add 0%Z (map (fun _ : nat => Z.of_nat 0) (seq a n)) = 0%Z) by (intros a n; revert a; induction n as [|n IHn]; intros a; [reflexivity|cbn [seq map fold_right]; rewrite IHn; reflexivity]). apply G.
  - specialize (IH (fun x Hx => P x (or_intror Hx))). cbn [length]. rewrite Nat2Z.inj_succ, <- IH. assert (R := P s (or_introl eq_refl)). clear IH P.
    assert (G : forall n a, (Z.of_nat a <= s_type s < Z.of_nat (a + n))%Z -> fold_right Z.add 0%Z (map (fun k => Z.of_nat (length (filter (fun s0 => (s_type s0 =? Z.of_nat k)%Z) (s :: l)))) (seq a n)) =
       Z.succ (fold_right Z.add 0%Z (map (fun k => Z.of_nat (length (filter (fun s0 => (s_type s0 =? Z.of_nat k)%Z) l))) (seq a n)))).
    { assert (G0 : forall n a, (s_type s < Z.of_nat a)%Z -> fold_right Z.add 0%Z (map (fun k => Z.of_nat (length (filter (fun s0 => (s_type s0 =? Z.of_nat k)%Z) (s :: l)))) (seq a n)) =
         fold_right Z.add 0%Z (map (fun k => Z.of_nat (length (filter (fun s0 => (s_type s0 =? Z.of_nat k)%Z) l))) (seq a n))).
      { induction n as [|n IHn]; intros a Ha; [reflexivity|]. cbn [seq map fold_right]. rewrite IHn by lia. cbn [filter]. destruct (Z.eqb_spec (s_type s) (Z.of_nat a)); [lia|reflexivity]. }
      induction n as [|n IHn]; intros a Ha; [lia|]. cbn [seq map fold_right]. destruct (Z.eq_dec (s_type s) (Z.of_nat a)) as [Ea|Na].
      - rewrite G0 by lia. cbn [filter]. destruct (Z.eqb_spec (s_type s) (Z.of_nat a)); [cbn [length]; lia|contradiction].
      - rewrite IHn by lia. cbn [filter]. destruct (Z.eqb_spec (s_type s) (Z.of_nat a)); [contradiction|lia]. }
    apply G. cbn. lia.
Qed.
Print Assumptions C75_all_counted.
Example C75_all_counted_case : fold_right Z.add 0%Z (rec_numbers 2 [ex_a; ex_b ++ ex_dead]) = 4%Z.
Proof. vm_compute. reflexivity. Qed.
(* The volume fraction: total volume of the particles over the volume that is not excluded. *)
Theorem C75_volume_fraction vol box excluded procs : ~ box == excluded ->
  exists q, rec_phi vol box excluded procs = Some q /\ q * (box - excluded) == Sum (fun s => vol (s_sg s)) (particles procs).
Proof.
  intros H. unfold rec_phi. assert (N0 : ~ box - excluded == 0) by (intros X; apply H; lra).
  destruct (proj1 (ratio_spec (mpi_sum (map (loop in_use (fun s => vol (s_sg s))) procs)) _) N0) as (q & A & B). exists q. split; [exact A|]. rewrite B, sum_loop, in_use_particles. reflexivity.
Qed.
Print Assumptions C75_volume_fraction.
Example C75_volume_fraction_case : exists q, rec_phi (fun r => r * r) 20 0 [ex_a; ex_b ++ ex_dead] = Some q /\ q == 1#2.
Proof. eexists. split; [vm_compute; reflexivity|vm_compute; reflexivity]. Qed.
(* Energies by type, on one processor. *)
Theorem C75_energies_by_type_partial ntypes l : forall k, (k < ntypes)%nat ->
  exists e, nth_error (rec_types ntypes [l]) k = Some e /\ e == Sum kinetic_energy (filter (fun s => (s_type s =? Z.of_nat k)%Z) (movables [l])).
Proof.
  intros k Hk. unfold rec_types, type_energies. cbn [nth]. rewrite nth_error_map, (nth_error_nth' _ 0%nat) by (now rewrite seq_length). rewrite seq_nth by exact Hk. cbn [option_map Nat.add]. eexists. split; [reflexivity|].
  rewrite loop_Sum, <- Sum_scale. rewrite <- usable_movables. cbn [concat]. rewrite app_nil_r, filter_filter.
  rewrite (filter_ext (fun s => has_type (Z.of_nat k) s && moves s) (fun s => usable s && (s_type s =? Z.of_nat k)%Z)).
  - apply Sum_ext. intros s Hs. apply filter_In in Hs as [_ Hs]. apply andb_true_iff in Hs as [Hs _]. unfold usable in Hs. apply andb_true_iff in Hs as [Hs _]. unfold moves in Hs. destruct (Qltb_spec 0 (s_im s)) as [L|]; [|discriminate].
    unfold kinetic_energy, mass. rewrite sqr_Sum. field. lra.
  - intros s. unfold has_type, usable. rewrite in_use_leb. destruct (Z.eqb_spec (s_type s) (Z.of_nat k)) as [->|]; [|now rewrite andb_false_r].
    destruct (Z.leb_spec 0 (Z.of_nat k)); [|lia]. cbn [andb]. now rewrite !andb_true_r.
Qed.
Print Assumptions C75_energies_by_type_partial.
Example C75_energies_by_type_case : map Qred (rec_types 2 [ex_a ++ ex_dead]) = [25; 2].
Proof. vm_compute. reflexivity. Qed.
(* With more processors only the particles of the first are counted. *)
Theorem C75_energies_by_type_refuted : map Qred (rec_types 2 [ex_a; ex_b]) = [25; 2] /\ Sum kinetic_energy (filter (fun s => (s_type s =? 0)%Z) (movables [ex_a; ex_b])) == 27.
Proof. vm_compute. split; reflexivity. Qed.
Print Assumptions C75_energies_by_type_refuted.

(* ---------- C76 *)
Lemma kinetic_one l : no_removed [l] -> kinetic l == Sum kinetic_energy (movables [l]).
Proof. intros H. rewrite <- (C74_kinetic_partial [l] H). unfold rec_kinetic, mpi_sum. cbn [map fold_left]. ring. Qed.
Lemma kinetic_ave_one l : no_removed [l] -> movables [l] <> [] -> exists ke, kinetic_ave l = Some ke /\ ke * number (movables [l]) == Sum kinetic_energy (movables [l]).
Proof.
  intros H Hn. unfold kinetic_ave. assert (EC : inject_Z (count moves l) = number (movables [l])).
  { rewrite count_length. unfold number. rewrite <- (moves_movables [l] H). cbn [concat]. now rewrite app_nil_r. }
  rewrite EC. destruct (proj1 (ratio_spec (kinetic l) (number (movables [l])))) as (q & A & B); [intros X; now apply Hn, number_zero|]. exists q. split; [exact A|]. now rewrite B, kinetic_one.
Qed.
(* Temperature: each movable particle has on average kB T / 2 for each dimension. *)
Theorem C76_temperature_partial dims kb l : (0 < dims)%nat -> ~ kb == 0 -> no_removed [l] -> movables [l] <> [] ->
  exists T, temperature dims kb l = Some T /\ inject_Z (Z.of_nat dims) * (1#2) * kb * T * number (movables [l]) == Sum kinetic_energy (movables [l]).
Proof.
  intros Hd Hk H Hn. destruct (kinetic_ave_one l H Hn) as (ke & E & A). unfold temperature. rewrite E. eexists. split; [reflexivity|]. rewrite <- A. field. split; [|exact Hk].
  intros X. unfold Qeq in X. cbn in X. lia.
Qed.
Print Assumptions C76_temperature_partial.
Example C76_temperature_case : exists T, temperature 2 1 ex_a = Some T /\ T == 27#2.
Proof. eexists. split; [vm_compute; reflexivity|vm_compute; reflexivity]. Qed.
(* Pressure on one processor: p V / (N kB T) = 1 + W / (d N kB T), W the sum of the virials. *)
Theorem C76_pressure_partial dims kb vol l virials : (0 < dims)%nat -> 0 < kb -> 0 < vol -> no_removed [l] -> movables [l] <> [] -> 0 < Sum kinetic_energy (movables [l]) ->
  exists T p, temperature dims kb l = Some T /\ rec_pressure dims kb vol [(l, (0%Z, virials))] = Some p /\
    p == 1 + Sum (fun w => w) virials / (inject_Z (Z.of_nat dims) * number (particles [l]) * kb * T).
Proof.
  intros Hd Hk Hv H Hn He. destruct (kinetic_ave_one l H Hn) as (ke & E & A). unfold temperature, rec_pressure. cbn [fold_left]. unfold pressure. rewrite E.
  assert (D0 : ~ inject_Z (Z.of_nat dims) == 0) by (intros X; unfold Qeq in X; cbn in X; lia).
  assert (EN : inject_Z (count in_use l + 0) = number (particles [l])).
  { rewrite Z.add_0_r, count_length. unfold number. rewrite <- in_use_particles. cbn [concat]. now rewrite app_nil_r. }
  rewrite EN. set (n := number (particles [l])) in *. set (d := inject_Z (Z.of_nat dims)) in *.
  assert (K0 : ~ ke == 0) by (intros X; rewrite X in A; lra).
  assert (N0 : ~ n == 0). { unfold n. rewrite number_zero. intros X. apply Hn. unfold movables. rewrite X. reflexivity. }
  set (W := Sum (fun w => w) virials). set (T := 2 * ke / (d * kb)). set (fac := 1 / (d * vol)).
  assert (T0 : ~ T == 0). { unfold T. intros X. apply K0. assert (Y : ke == (2 * ke / (d * kb)) * (d * kb) * (1#2)) by (field; split; [lra|exact D0]). rewrite X in Y. rewrite Y. ring. }
  assert (B0 : ~ n * kb * T / vol == 0).
  { intros X. assert (Y : n * kb * T == n * kb * T / vol * vol) by (field; lra). rewrite X, Qmult_0_l in Y. apply Qmult_integral in Y as [Y|Y]; [apply Qmult_integral in Y as [Y|Y]; [contradiction|lra]|contradiction]. }
  destruct (proj1 (ratio_spec (fold_left (fun a w => a + fac * w) virials (n * kb * T / vol)) _) B0) as (p & R1 & R2). rewrite R1.
  exists (2 / d * ke / kb), (0 + p). split; [reflexivity|]. split; [reflexivity|]. rewrite fold_Sum, Sum_scale in R2. fold W in R2.
  assert (ET : 2 / d * ke / kb == T) by (unfold T; field; split; [lra|exact D0]). rewrite ET.
  assert (G : p == (n * kb * T / vol + fac * W) / (n * kb * T / vol)) by (rewrite <- R2; field; repeat split; try assumption; lra).
  rewrite G. unfold fac. field. repeat split; try assumption; lra.
Qed.
Print Assumptions C76_pressure_partial.
Example C76_pressure_case : exists p, rec_pressure 2 1 100 [(ex_a, (0%Z, [81; -27]))] = Some p /\ p == 1 + (54#81).
Proof. eexists. split; [vm_compute; reflexivity|vm_compute; reflexivity]. Qed.
(* On two processors the two ratios are added: without any interaction 2 is recorded instead of 1. *)
Theorem C76_processors_refuted : exists p, rec_pressure 2 1 100 [(ex_a, (0%Z, [])); (ex_b, (0%Z, []))] = Some p /\ p == 2.
Proof. eexists. split; [vm_compute; reflexivity|vm_compute; reflexivity]. Qed.
Print Assumptions C76_processors_refuted.
(* A system at rest, or without movable particles, has no pressure: the recorded value is not a number (an exception at run time). *)
Theorem C76_at_rest_refuted dims kb vol : rec_pressure dims kb vol [([sl 0 [0; 0] [0; 0] 1 1 0], (0%Z, [1]))] = None /\ rec_pressure dims kb vol [([], (0%Z, []))] = None.
Proof.
  split; [|reflexivity]. unfold rec_pressure. cbn [fold_left]. unfold pressure. assert (E : exists ke, kinetic_ave [sl 0 [0; 0] [0; 0] 1 1 0] = Some ke /\ ke == 0) by (eexists; split; [vm_compute; reflexivity|reflexivity]).
  destruct E as (ke & E & Z0). rewrite E. rewrite (proj2 (ratio_spec _ _)); [reflexivity|]. unfold Qdiv. rewrite Z0. ring.
Qed.
Print Assumptions C76_at_rest_refuted.
(* Ghosts are counted among the particles in the ideal part: with interactions the value depends on them. *)
Theorem C76_ghosts_refuted : exists p p', rec_pressure 2 1 100 [(ex_a, (0%Z, [81]))] = Some p /\ rec_pressure 2 1 100 [(ex_a, (3%Z, [81]))] = Some p' /\ p == 2 /\ p' == 3#2.
Proof. do 2 eexists. split; [vm_compute; reflexivity|]. split; [vm_compute; reflexivity|]. vm_compute. split; reflexivity. Qed.
Print Assumptions C76_ghosts_refuted.

(* ---------- C77 *)
Theorem C77_averages bs get procs d : (d < length bs)%nat ->
  let ps := filter (fun s => contains bs (s_x s)) (movables procs) in
  (forall s, In s ps <-> In s (movables procs) /\ inside bs (s_x s)) /\
  (ps <> [] -> exists q, nth_error (rec_region bs get procs) d = Some (Some q) /\ q * number ps == Sum (fun s => nth d (get s) 0) ps).
Proof.
  intros Hd. cbv zeta. split.
  - intros s. rewrite filter_In, contains_inside. reflexivity.
  - intros Hn. unfold rec_region. rewrite nth_error_map, (nth_error_nth' _ 0%nat) by (now rewrite seq_length). rewrite seq_nth by exact Hd. cbn [option_map Nat.add].
    set (keep := fun s => usable s && contains bs (s_x s)). assert (EF : filter keep (concat procs) = filter (fun s => contains bs (s_x s)) (movables procs)) by (rewrite <- usable_movables, filter_filter; reflexivity).
    assert (EN : inject_Z (mpi_sumZ (map (count keep) procs)) = number (filter (fun s => contains bs (s_x s)) (movables procs))) by (rewrite sum_count, EF; reflexivity).
    rewrite EN. destruct (proj1 (ratio_spec (mpi_sum (map (loop keep (fun s => nth d (get s) 0)) procs)) (number (filter (fun s => contains bs (s_x s)) (movables procs))))) as (q & A & B); [intros X; now apply Hn, number_zero|].
    rewrite A. exists q. split; [reflexivity|]. now rewrite B, sum_loop, EF.
Qed.
Print Assumptions C77_averages.
(* The region is the middle of the box, three quarters as wide. *)
Theorem C77_region b : fst b < snd b -> fst (middle b) - fst b == snd b - snd (middle b) /\ snd (middle b) - fst (middle b) == (3#4) * (snd b - fst b) /\ fst b < fst (middle b) < snd (middle b).
Proof. intros H. unfold middle. cbn [fst snd]. repeat split; try ring; lra. Qed.
Print Assumptions C77_region.
Example C77_averages_case : map (option_map Qred) (rec_region (map middle [(0, 8); (0, 8)]) s_x [ex_a; ex_b ++ ex_dead]) = [Some (8#3); Some (8#3)] /\ map middle [(0, 8)] <> [].
Proof. split; [vm_compute; reflexivity|discriminate]. Qed.
(* An empty region gives no number. *)
Theorem C77_empty_region_refuted : rec_region [(100, 101)] s_x [ex_a] = [None].
Proof. vm_compute. reflexivity. Qed.
Print Assumptions C77_empty_region_refuted.
(* Cavity statistics: the number and mean position of the slow movable particles with positive x in the region, or zeros. *)
Theorem C77_cavity limit bs procs :
  let ps := filter (fun s => contains bs (s_x s) && (if Qlt_le_dec (nth 0 (s_v s) 0) ((1#2) * limit) then true else false) && (if Qlt_le_dec 0 (nth 0 (s_x s) 0) then true else false)) (movables procs) in
  let '(n, x, y) := rec_cavity limit bs procs in
  n = Z.of_nat (length ps) /\ (ps <> [] -> x * number ps == Sum (fun s => nth 0 (s_x s) 0) ps /\ y * number ps == Sum (fun s => nth 1 (s_x s) 0) ps) /\ (ps = [] -> x == 0 /\ y == 0).
Proof.
  cbv zeta. unfold rec_cavity.
  set (keep := fun s => in_use s && contains bs (s_x s) && (Qltb (nth 0 (s_v s) 0) ((1#2) * limit) && Qltb 0 (nth 0 (s_x s) 0) && Qltb 0 (s_im s))).
  set (sel := fun s => contains bs (s_x s) && (if Qlt_le_dec (nth 0 (s_v s) 0) ((1#2) * limit) then true else false) && (if Qlt_le_dec 0 (nth 0 (s_x s) 0) then true else false)).
  assert (ER : flat_map (fun l => map s_x (filter keep l)) procs = map s_x (filter sel (movables procs))).
  { rewrite <- usable_movables, filter_filter. rewrite (filter_ext _ keep).
    - rewrite <- flat_filter. clear. induction procs as [|l procs IH]; [reflexivity|]. cbn [flat_map]. now rewrite IH, map_app.
    - intros s. unfold usable, moves, sel, keep. destruct (Qltb_spec (nth 0 (s_v s) 0) ((1#2) * limit)), (Qlt_le_dec (nth 0 (s_v s) 0) ((1#2) * limit)); try (exfalso; lra);
        destruct (Qltb_spec 0 (nth 0 (s_x s) 0)), (Qlt_le_dec 0 (nth 0 (s_x s) 0)); try (exfalso; lra); destruct (in_use s), (contains bs (s_x s)), (Qltb 0 (s_im s)); reflexivity. }
  rewrite ER. rewrite map_length. set (ps := filter sel (movables procs)). assert (ES : forall d, fold_left (fun a r => a + nth d r 0) (map s_x ps) 0 == Sum (fun s => nth d (s_x s) 0) ps) by (intros d; rewrite fold_Sum, Sum_map; ring).
  destruct (Z.ltb_spec 0 (Z.of_nat (length ps))) as [L|L].
  - assert (N0 : ~ number ps == 0) by (rewrite number_zero; intros X; rewrite X in L; cbn in L; lia). split; [reflexivity|]. split; [|intros X; rewrite X in L; cbn in L; lia].
    intros _. fold (number ps). split; rewrite <- ES; field; exact N0.
  - assert (X : ps = []) by (destruct ps; [reflexivity|cbn in L; lia]). split; [reflexivity|]. split; [congruence|]. intros _. rewrite X. cbn. split; reflexivity.
Qed.
Print Assumptions C77_cavity.
Example C77_cavity_case : rec_cavity 8 [(0, 10); (0, 10)] [ex_a; ex_b ++ ex_dead] = (3%Z, 8#3, 8#3).
Proof. vm_compute. reflexivity. Qed.
