(* C143-C146: averages, wall forces and bond energies, cluster sizes, entropic forces that are recorded. *)
From Coq Require Import QArith Qabs List Bool ZArith Lia Lqa Permutation Setoid.
From Verif Require Import Lib Model_Geometry Model_Records Spec_Records Proofs_Measure.
From Verif Require Model_Measure Spec_Measure Properties_Measure Model_Cluster Spec_Cluster Properties_Cluster.
Import ListNotations.
Local Open Scope Q_scope.
Notation Sum := Spec_Measure.Sum.
Notation number := Spec_Measure.number.

Lemma live_there p : live p = (0 <=? Model_Measure.s_type (fst p))%Z.
Proof. unfold live. destruct (Z.ltb_spec (Model_Measure.s_type (fst p)) 0), (Z.leb_spec 0 (Model_Measure.s_type (fst p))); cbn; try reflexivity; lia. Qed.
Lemma total_there val l : total_of val l == Sum val (there l).
Proof.
  unfold total_of, there. assert (G : forall s, fold_left (fun a p => if live p then a + val p else a) l s == s + Sum val (filter (fun p => (0 <=? Model_Measure.s_type (fst p))%Z) l)).
  { induction l as [|p l IH]; intros s; cbn [fold_left filter Spec_Measure.Sum]; [ring|]. rewrite IH, live_there. destruct (0 <=? _)%Z; cbn [Spec_Measure.Sum]; ring. }
  rewrite G. ring.
Qed.
Lemma number_there l : number_owned l = Z.of_nat (length (there l)).
Proof.
  unfold number_owned, there. assert (G : forall s, fold_left (fun a p => if live p then (a + 1)%Z else a) l s = (s + Z.of_nat (length (filter (fun p => (0 <=? Model_Measure.s_type (fst p))%Z) l)))%Z).
  { induction l as [|p l IH]; intros s; cbn [fold_left filter length]; [lia|]. rewrite IH, live_there. destruct (0 <=? _)%Z; cbn [length]; lia. }
  now rewrite G.
Qed.
Lemma number_pos {A} (l : list A) : l <> [] -> 0 < number l.
Proof. intros N. destruct l as [|a l]; [contradiction|]. unfold Spec_Measure.number, Qlt. cbn [length inject_Z Qnum Qden]. lia. Qed.
Lemma ratio_some y w : ~ w == 0 -> exists q, Model_Measure.ratio y w = Some q /\ q * w == y.
Proof. intros N. unfold Model_Measure.ratio. destruct (Qeq_bool w 0) eqn:E; [apply Qeq_bool_iff in E; contradiction|]. eexists. split; [reflexivity|]. field. exact N. Qed.

(* ------------------------------------------------------------------ C143 *)
(* On one processor: the means over the particles of the lengths of position, velocity and force. *)
Theorem C143_averages_partial : forall mag l, there l <> [] ->
  exists x v f, rec_averages mag [l] = [Some x; Some v; Some f] /\
    x * number (there l) == Sum (fun p => mag (Model_Measure.s_x (fst p))) (there l) /\
    v * number (there l) == Sum (fun p => mag (Model_Measure.s_v (fst p))) (there l) /\
    f * number (there l) == Sum (fun p => mag (snd p)) (there l).
Proof.
  intros mag l N. unfold rec_averages, averages. cbn [nth map]. rewrite number_there. change (inject_Z (Z.of_nat (length (there l)))) with (number (there l)).
  assert (P := number_pos _ N). assert (Z : ~ number (there l) == 0) by lra.
  destruct (ratio_some (total_of (fun p => mag (Model_Measure.s_x (fst p))) l) _ Z) as (x & -> & X).
  destruct (ratio_some (total_of (fun p => mag (Model_Measure.s_v (fst p))) l) _ Z) as (v & -> & V).
  destruct (ratio_some (total_of (fun p => mag (snd p)) l) _ Z) as (f & -> & F).
  exists x, v, f. split; [reflexivity|]. rewrite X, V, F, !total_there. repeat split; reflexivity.
Qed.
Print Assumptions C143_averages_partial.
(* Removed particles do not count, whatever is left in their places. *)
Theorem C143_removed_ignored : forall mag l l', there l = there l' ->
  Forall2 (fun a b => match a, b with Some x, Some y => x == y | None, None => True | _, _ => False end) (rec_averages mag [l]) (rec_averages mag [l']).
Proof.
  intros mag l l' E. unfold rec_averages, averages. cbn [nth map]. rewrite !number_there, E.
  assert (G : forall val, match Model_Measure.ratio (total_of val l) (inject_Z (Z.of_nat (length (there l')))), Model_Measure.ratio (total_of val l') (inject_Z (Z.of_nat (length (there l')))) with
    Some x, Some y => x == y | None, None => True | _, _ => False end).
  { intros val. unfold Model_Measure.ratio. destruct (Qeq_bool _ 0); [exact I|]. rewrite !total_there, E. reflexivity. }
  repeat (constructor; [apply G|]). constructor.
Qed.
Print Assumptions C143_removed_ignored.
Definition pl (t : Z) (x v f : list Q) : place := (Model_Measure.mkSlot t x v 1 1 0, f).
Definition sum_abs (v : list Q) : Q := fold_left (fun a c => a + Qabs c) v 0.
(* With a second processor its particles are missing; with no particle the entries are not numbers. *)
Theorem C143_processors_refuted : exists procs x v f, rec_averages sum_abs procs = [Some x; Some v; Some f] /\
  ~ x * number (there (concat procs)) == Sum (fun p => sum_abs (Model_Measure.s_x (fst p))) (there (concat procs)) /\
  forall l others, rec_averages sum_abs (l :: others) = rec_averages sum_abs [l].
Proof. exists [[pl 0 [3] [1] [0]]; [pl 1 [-5] [0] [2]]]. do 3 eexists. split; [vm_compute; reflexivity|]. split; [vm_compute; discriminate|]. reflexivity. Qed.
Print Assumptions C143_processors_refuted.
Theorem C143_nothing_refuted : forall mag l, there l = [] -> rec_averages mag [l] = [None; None; None].
Proof. intros mag l E. unfold rec_averages, averages. cbn [nth map]. rewrite number_there, E. reflexivity. Qed.
Print Assumptions C143_nothing_refuted.
Example C143_case : there [pl 0 [3] [1] [0]; pl (-1) [9] [9] [9]; pl 1 [-5] [0] [2]] <> [] /\
  map (option_map Qred) (rec_averages sum_abs [[pl 0 [3] [1] [0]; pl (-1) [9] [9] [9]; pl 1 [-5] [0] [2]]]) = [Some 4; Some (1#2); Some 1] /\
  map (option_map Qred) (rec_averages sum_abs [[pl 0 [3] [1] [0]]; [pl 1 [-5] [0] [2]]]) = [Some 3; Some 1; Some 0].
Proof. split; [discriminate|]. split; vm_compute; reflexivity. Qed.

(* ------------------------------------------------------------------ C144 *)
Lemma clamp_nonneg a : 0 <= clamp a.
Proof. unfold clamp. destruct (Qltb_spec a 0); lra. Qed.
Lemma repulse1_abs rp ds a x v : 0 <= rp -> 0 <= ds -> lo a <= hi a -> let '(df, bf, _) := repulse1 rp ds a x v in bf == Qabs df.
Proof.
  intros H1 H2 H3. unfold repulse1. destruct (bc_eqb (bc a) REPL); [|reflexivity]. destruct (Qltb_spec x (lo a)) as [L|L].
  - symmetry. apply Qabs_pos. assert (C := clamp_nonneg (- v)). assert (0 <= rp * (lo a - x)) by (apply Qmult_le_0_compat; lra). assert (0 <= ds * clamp (- v)) by (apply Qmult_le_0_compat; lra). nra.
  - destruct (Qltb_spec (hi a) x) as [U|U]; [|reflexivity]. rewrite Qabs_opp. symmetry. apply Qabs_pos.
    assert (C := clamp_nonneg v). assert (0 <= rp * (x - hi a)) by (apply Qmult_le_0_compat; lra). assert (0 <= ds * clamp v) by (apply Qmult_le_0_compat; lra). nra.
Qed.
Lemma repulse_vec_abs rp ds b : 0 <= rp -> 0 <= ds -> Forall (fun a => lo a <= hi a) b -> forall x v f, let '(f', bf, _) := repulse_vec rp ds b x v f in bf == pushed f f'.
Proof.
  intros H1 H2. induction 1 as [|a b Ha Hb IH]; intros x v f; cbn [repulse_vec]; [destruct f; reflexivity|]. destruct x as [|xd x]; [destruct f; reflexivity|]. destruct v as [|vd v]; [destruct f; reflexivity|]. destruct f as [|fd f]; [reflexivity|].
  assert (G := repulse1_abs rp ds a xd vd H1 H2 Ha). destruct (repulse1 rp ds a xd vd) as [[df bf] be]. specialize (IH x v f). destruct (repulse_vec rp ds b x v f) as [[fs bF] bE]. cbn [pushed]. rewrite G, IH.
  setoid_replace (fd + df - fd) with df by ring. reflexivity.
Qed.
Lemma repulse_abs rp ds b ps : 0 <= rp -> 0 <= ds -> Forall (fun a => lo a <= hi a) b -> let '(fs, bF, _) := repulsePositions rp ds b ps in bF == pushes ps fs.
Proof.
  intros H1 H2 H3. induction ps as [|[[x v] f] ps IH]; cbn [repulsePositions]; [reflexivity|]. assert (G := repulse_vec_abs rp ds b H1 H2 H3 x v f). destruct (repulse_vec rp ds b x v f) as [[f' bf] be].
  destruct (repulsePositions rp ds b ps) as [[fs bF] bE]. cbn [pushes snd]. rewrite G, IH. reflexivity.
Qed.
(* The recorded boundary force: what the soft walls added to the forces, in size, over all particles of all processors. *)
Theorem C144_boundary_force : forall rp ds b procs, 0 <= rp -> 0 <= ds -> Forall (fun a => lo a <= hi a) b ->
  rec_boundary rp ds b procs == Sum (fun ps => pushes ps (fst (fst (repulsePositions rp ds b ps)))) procs.
Proof.
  intros rp ds b procs H1 H2 H3. unfold rec_boundary. rewrite mpi_sum_Sum, Sum_map. apply Sum_ext. intros ps _. assert (G := repulse_abs rp ds b ps H1 H2 H3). destruct (repulsePositions rp ds b ps) as [[fs bF] bE]. exact G.
Qed.
Print Assumptions C144_boundary_force.
(* Its average is the mean of what was recorded. *)
Theorem C144_average : forall data, data <> [] -> exists q, boundary_average data = Some q /\ q * number data == Sum snd data.
Proof.
  intros data N. unfold boundary_average. destruct (ratio_some (fold_left (fun a p => a + snd p) data 0) (number data)) as (q & E & H); [assert (P := number_pos _ N); lra|].
  exists q. split; [exact E|]. rewrite H, fold_Sum. ring.
Qed.
Print Assumptions C144_average.
(* Bond energies: the sum over all bonded interactions of all processors; the mean divides by the particles, as long as none was removed. *)
Theorem C144_bonds : forall procs, rec_bonds procs == Sum (fun e => e) (flat_map fst procs).
Proof.
  intros procs. unfold rec_bonds. rewrite mpi_sum_Sum, Sum_map. induction procs as [|p procs IH]; [reflexivity|]. cbn [Spec_Measure.Sum flat_map]. rewrite IH, Sum_app. unfold bond_energy. rewrite fold_Sum. ring.
Qed.
Print Assumptions C144_bonds.
Theorem C144_bonds_mean_partial : forall procs, Spec_Measure.no_removed (map snd procs) -> Spec_Measure.particles (map snd procs) <> [] ->
  exists q, rec_bonds_ave procs = Some q /\ q * number (Spec_Measure.particles (map snd procs)) == Sum (fun e => e) (flat_map fst procs).
Proof.
  intros procs NR NE. unfold rec_bonds_ave. rewrite <- (map_map snd (fun l => Z.of_nat (length l))), sum_lengths.
  assert (E : Spec_Measure.particles (map snd procs) = concat (map snd procs)).
  { unfold Spec_Measure.particles. unfold Spec_Measure.no_removed in NR. clear NE. induction (concat (map snd procs)) as [|s l IH]; [reflexivity|]. cbn [filter]. rewrite (proj2 (Z.leb_le _ _) (NR s (or_introl eq_refl))). f_equal. apply IH. intros; apply NR; now right. }
  rewrite E in *. change (inject_Z (Z.of_nat (length (concat (map snd procs))))) with (number (concat (map snd procs))).
  destruct (ratio_some (rec_bonds procs) (number (concat (map snd procs)))) as (q & Q1 & Q2); [assert (P := number_pos _ NE); lra|]. exists q. split; [exact Q1|]. rewrite Q2. apply C144_bonds.
Qed.
Print Assumptions C144_bonds_mean_partial.
(* The place of a removed particle counts in the mean. *)
Theorem C144_bonds_removed_refuted : exists procs q, Spec_Measure.particles (map snd procs) <> [] /\ rec_bonds_ave procs = Some q /\
  ~ q * number (Spec_Measure.particles (map snd procs)) == Sum (fun e => e) (flat_map fst procs).
Proof.
  exists [([4], [fst (pl 0 [0] [0] [0]); fst (pl (-1) [0] [0] [0])])]. eexists. split; [discriminate|]. split; [vm_compute; reflexivity|]. vm_compute. discriminate.
Qed.
Print Assumptions C144_bonds_removed_refuted.
Definition wall : box := [mkAxis 0 10 REPL].
Example C144_case : Forall (fun a => lo a <= hi a) wall /\
  Qred (rec_boundary 1 (1#2) wall [[([-1], [0], [3]); ([5], [0], [0])]; [([12], [2], [0])]]) = 31 /\
  Qred (pushes [([-1], [0], [3]); ([5], [0], [0])] (fst (fst (repulsePositions 1 (1#2) wall [([-1], [0], [3]); ([5], [0], [0])])))) = 10 /\
  (exists q, boundary_average [(0, 3); (1, 5)] = Some q /\ q == 4) /\
  Spec_Measure.no_removed (map snd [([4; 2], [fst (pl 0 [0] [0] [0])]); ([1], [fst (pl 0 [1] [0] [0])])]) /\
  (exists q, rec_bonds_ave [([4; 2], [fst (pl 0 [0] [0] [0])]); ([1], [fst (pl 0 [1] [0] [0])])] = Some q /\ q == 7#2).
Proof.
  split; [repeat constructor; discriminate|]. split; [vm_compute; reflexivity|]. split; [vm_compute; reflexivity|]. split; [eexists; split; [reflexivity|vm_compute; reflexivity]|].
  split; [intros s [<-|[<-|[]]]; cbn; lia|]. eexists. split; [reflexivity|]. vm_compute. reflexivity.
Qed.

(* ------------------------------------------------------------------ C145 *)
Lemma percolation_all (asked : Q) : forall steps s record, Model_Cluster.cl_same s = true ->
  Forall (fun st => let '(types, near, n) := st in (0 < n)%nat /\ (forall i, (i < n)%nat -> exists t, nth_error types i = Some t /\ t <> (-1)%Z) /\
    (forall i m, (i < n)%nat -> In m (near 0 i) -> (m < n)%nat /\ In i (near 0 m))) steps ->
  exists s' more, percolation_run asked steps s record = Some (s', record ++ more) /\
    Forall2 (fun st sizes => let '(types, near, n) := st in sizes_of_groups types (near 0) n sizes) steps more.
Proof.
  induction steps as [|[[types near] n] steps IH]; intros s record HS HF.
  - exists s, []. split; [cbn; now rewrite app_nil_r|constructor].
  - apply Forall_cons_iff in HF. cbn beta iota in HF. destruct HF as [(N & T & NR) HF']. cbn [percolation_run]. unfold percolation_step, percolation_skin.
    destruct (Properties_Cluster.C64_clusters_partial types (near 0) n s N T NR) as (s1 & E & L & SM & R & C & LS & SZ & _). rewrite E.
    destruct (IH s1 (record ++ [Model_Cluster.cl_sizes s1])) as (s' & more & E2 & F2); [congruence|exact HF'|]. exists s', (Model_Cluster.cl_sizes s1 :: more). split; [rewrite E2, <- app_assoc; reflexivity|].
    constructor; [|exact F2]. exists (fun i => nth i (Model_Cluster.cl_clusters s1) (-1)%Z). rewrite HS in C. split; [intros i Hi; rewrite LS; apply R; exact Hi|]. split; [exact C|].
    intros k Hk. destruct (SZ k Hk). auto.
Qed.
Lemma sizes_total types near n sizes : sizes_of_groups types near n sizes -> fold_right Z.add 0%Z sizes = Z.of_nat n.
Proof.
  intros (c & R & _ & SZ). assert (E : sizes = map (fun k => Z.of_nat (length (filter (fun i => (c i =? Z.of_nat k)%Z) (seq 0 n)))) (seq 0 (length sizes))).
  { apply (nth_ext _ _ 0%Z 0%Z); [now rewrite map_length, seq_length|]. intros k Hk. rewrite (proj2 (SZ k Hk)).
    set (f := fun k => Z.of_nat (length (filter (fun i => (c i =? Z.of_nat k)%Z) (seq 0 n)))). rewrite (nth_indep _ 0%Z (f 0%nat)) by (rewrite map_length, seq_length; exact Hk). rewrite map_nth, seq_nth by exact Hk. reflexivity. }
  rewrite E. set (K := length sizes) in *. clearbody K. clear E SZ. assert (R' : forall i, In i (seq 0 n) -> (0 <= c i < Z.of_nat K)%Z) by (intros i Hi; apply in_seq in Hi; apply R; lia). clear R.
  transitivity (Z.of_nat (length (seq 0 n))); [|now rewrite seq_length]. revert R'. generalize (seq 0 n) as L. induction L as [|i L IH]; intros R'.
  - cbn. clear. generalize 0%nat as a. induction K as [|K IH]; intros a; cbn; [reflexivity|]. rewrite IH. reflexivity.
  - cbn [length]. rewrite Nat2Z.inj_succ, <- IH by (intros; apply R'; now right). clear IH. assert (B := R' i (or_introl eq_refl)). clear R'.
    assert (G : forall m a, (Z.of_nat a <= c i < Z.of_nat (a + m))%Z -> fold_right Z.add 0%Z (map (fun k => Z.of_nat (length (filter (fun j => (c j =? Z.of_nat k)%Z) (i :: L)))) (seq a m)) =
      Z.succ (fold_right Z.add 0%Z (map (fun k => Z.of_nat (length (filter (fun j => (c j =? Z.of_nat k)%Z) L))) (seq a m)))).
    { assert (G0 : forall m a, (c i < Z.of_nat a)%Z -> fold_right Z.add 0%Z (map (fun k => Z.of_nat (length (filter (fun j => (c j =? Z.of_nat k)%Z) (i :: L)))) (seq a m)) =
        fold_right Z.add 0%Z (map (fun k => Z.of_nat (length (filter (fun j => (c j =? Z.of_nat k)%Z) L))) (seq a m))).
      { induction m as [|m IHm]; intros a Ha; [reflexivity|]. cbn [seq map fold_right]. rewrite IHm by lia. cbn [filter]. destruct (Z.eqb_spec (c i) (Z.of_nat a)); [lia|reflexivity]. }
      induction m as [|m IHm]; intros a Ha; [lia|]. cbn [seq map fold_right]. destruct (Z.eqb_spec (c i) (Z.of_nat a)) as [Ea|Na].
      - rewrite G0 by lia. cbn [filter]. rewrite (proj2 (Z.eqb_eq _ _) Ea). cbn [length]. lia.
      - rewrite IHm by lia. cbn [filter]. rewrite (proj2 (Z.eqb_neq _ _) Na). lia. }
    apply G. lia.
Qed.
(* Without a skin: every recording lists the sizes of the groups of that moment, and they add up to the number of particles. *)
Theorem C145_sizes_partial : forall steps s, Model_Cluster.cl_same s = true ->
  Forall (fun st => let '(types, near, n) := st in (0 < n)%nat /\ (forall i, (i < n)%nat -> exists t, nth_error types i = Some t /\ t <> (-1)%Z) /\
    (forall i m, (i < n)%nat -> In m (near 0 i) -> (m < n)%nat /\ In i (near 0 m))) steps ->
  exists s' record, percolation_run 0 steps s [] = Some (s', record) /\
    Forall2 (fun st sizes => let '(types, near, n) := st in sizes_of_groups types (near 0) n sizes /\ fold_right Z.add 0%Z sizes = Z.of_nat n) steps record.
Proof.
  intros steps s HS HF. destruct (percolation_all 0 steps s [] HS HF) as (s' & more & E & F2). exists s', more. split; [exact E|]. clear E HF. induction F2 as [|[[types near] n] sizes steps more H F2 IH]; constructor; [|exact IH].
  split; [exact H|]. exact (sizes_total _ _ _ _ H).
Qed.
Print Assumptions C145_sizes_partial.
(* The skin that was asked for is ignored: two particles within the skin of each other are recorded as two groups. *)
Definition pair_near (skin : Q) (i : nat) : list nat := if Qle_bool 1 skin then [1 - i]%nat else [].
Theorem C145_skin_refuted : exists s' sizes, percolation_run 1 [([0; 0]%Z, pair_near, 2%nat)] Model_Cluster.clustering0 [] = Some (s', [sizes]) /\
  Spec_Cluster.connected true [0; 0]%Z (pair_near 1) 0 1 /\ ~ sizes_of_groups [0; 0]%Z (pair_near 1) 2 sizes.
Proof.
  do 2 eexists. split; [vm_compute; reflexivity|].
  assert (C : Spec_Cluster.connected true [0; 0]%Z (pair_near 1) 0 1) by (eapply Spec_Cluster.conn_step; [apply Spec_Cluster.conn_refl|left; reflexivity|reflexivity]). split; [exact C|].
  intros (c & R & H & SZ). assert (E : c 0%nat = c 1%nat) by (apply H; auto). cbn [length] in *. assert (R0 := R 0%nat ltac:(lia)).
  destruct (SZ 0%nat ltac:(lia)) as [_ Z0]. destruct (SZ 1%nat ltac:(lia)) as [_ Z1]. cbn [nth seq filter] in Z0, Z1. rewrite <- E in Z0, Z1.
  assert (c 0%nat = 0 \/ c 0%nat = 1)%Z as [E0|E0] by lia; rewrite E0 in Z0, Z1; cbn in Z0, Z1; discriminate.
Qed.
Print Assumptions C145_skin_refuted.
(* When all particles are gone, the sizes of the recording before are recorded again. *)
Theorem C145_empty_refuted : exists s', percolation_run 0 [([0; 0]%Z, fun _ _ => [], 2%nat); ([], fun _ _ => [], 0%nat)] Model_Cluster.clustering0 [] = Some (s', [[1; 1]; [1; 1]]%Z).
Proof. eexists. vm_compute. reflexivity. Qed.
Print Assumptions C145_empty_refuted.
Example C145_case : Forall (fun st => let '(types, near, n) := st in (0 < n)%nat /\ (forall i, (i < n)%nat -> exists t, nth_error types i = Some t /\ t <> (-1)%Z) /\
    (forall i m, (i < n)%nat -> In m (near 0 i) -> (m < n)%nat /\ In i (near 0 m))) [([0; 0; 0]%Z, fun _ i => nth i [[1]; [0]; []]%nat [], 3%nat)] /\
  exists s', percolation_run 0 [([0; 0; 0]%Z, fun _ i => nth i [[1]; [0]; []]%nat [], 3%nat)] Model_Cluster.clustering0 [] = Some (s', [[2; 1]]%Z).
Proof.
  split; [|eexists; vm_compute; reflexivity]. constructor; [|constructor]. split; [lia|]. split.
  - intros [|[|[|i]]] H; try lia; exists 0%Z; split; (reflexivity || discriminate).
  - intros [|[|[|i]]] m H Hin; try lia; cbn in Hin; destruct Hin as [<-|[]] || destruct Hin; cbn; (split; [lia|now left]).
Qed.

(* ------------------------------------------------------------------ C146 *)
(* On one processor, without ghosts and removed particles: entry d times (density times kB T times length) is the force on the line. The density is that of the
   particles other than those of two lines; T is the temperature of the particles that can move. *)
Theorem C146_line_partial : forall dims kb vol len group l F d, (d < dims)%nat -> ~ kb == 0 -> ~ vol == 0 -> ~ len == 0 ->
  Spec_Measure.no_removed [l] -> 0 < Sum Spec_Measure.kinetic_energy (Spec_Measure.movables [l]) -> number (Spec_Measure.particles [l]) - 2 * inject_Z group > 0 ->
  exists q T rho, nth_error (line_force dims kb vol len group [(l, (0%Z, F))]) d = Some (Some q) /\
    rho * vol == number (Spec_Measure.particles [l]) - 2 * inject_Z group /\
    inject_Z (Z.of_nat dims) * (1#2) * kb * T * number (Spec_Measure.movables [l]) == Sum Spec_Measure.kinetic_energy (Spec_Measure.movables [l]) /\
    q * (rho * kb * T * len) == nth d F 0.
Proof.
  intros dims kb vol len group l F d Hd Hkb Hvol Hlen NR KE NS.
  assert (NE : Spec_Measure.movables [l] <> []) by (intros E; rewrite E in KE; cbn in KE; lra). assert (NP := number_pos _ NE).
  destruct (Properties_Measure.kinetic_ave_one l NR NE) as (ke & EK & HK).
  assert (EN : inject_Z (Model_Measure.count Model_Measure.in_use l + 0 - 2 * group) == number (Spec_Measure.particles [l]) - 2 * inject_Z group).
  { rewrite count_length. unfold Spec_Measure.number, Spec_Measure.particles. cbn [concat]. rewrite app_nil_r. rewrite (filter_ext Model_Measure.in_use (fun s => (0 <=? Model_Measure.s_type s)%Z)).
    - rewrite <- inject_Z_mult, <- inject_Z_opp || idtac. unfold Z.sub. rewrite Z.add_0_r, inject_Z_plus, inject_Z_opp, inject_Z_mult. ring.
    - intros s. unfold Model_Measure.in_use. destruct (Z.ltb_spec (-1) (Model_Measure.s_type s)), (Z.leb_spec 0 (Model_Measure.s_type s)); lia || reflexivity. }
  assert (DP : 0 < inject_Z (Z.of_nat dims)) by (unfold Qlt; cbn; lia). assert (KP : 0 < ke) by (apply Qnot_le_lt; intros L; assert (ke * number (Spec_Measure.movables [l]) <= 0) by nra; lra).
  set (T := 2 / inject_Z (Z.of_nat dims) * ke / kb). set (rho := inject_Z (Model_Measure.count Model_Measure.in_use l + 0 - 2 * group) / vol).
  assert (NZ : ~ rho * kb * T * len == 0).
  { assert (E : rho * kb * T * len == (number (Spec_Measure.particles [l]) - 2 * inject_Z group) * (2 * ke) * (len / (vol * inject_Z (Z.of_nat dims)))) by (unfold rho, T; rewrite EN; field; repeat split; lra || assumption).
    intros Z. rewrite E in Z. apply Qmult_integral in Z. destruct Z as [Z|Z].
    - apply Qmult_integral in Z. destruct Z; lra.
    - apply Hlen. setoid_replace len with (len / (vol * inject_Z (Z.of_nat dims)) * (vol * inject_Z (Z.of_nat dims))) by (field; split; lra || assumption). rewrite Z. ring. }
  destruct (ratio_some 1 _ NZ) as (norm & E1 & E2).
  exists (norm * Model_Measure.mpi_sum [nth d F 0]), T, rho. unfold line_force. cbn [map].
  set (f := fun d0 : nat => _). rewrite nth_error_map. assert (ES : nth_error (seq 0 dims) d = Some d) by (rewrite (nth_error_nth' _ 0%nat) by (rewrite seq_length; exact Hd); now rewrite seq_nth). rewrite ES. cbn [option_map].
  split; [|split; [|split]].
  - unfold f. rewrite EK. cbn [snd]. fold T rho. rewrite E1. reflexivity.
  - unfold rho. rewrite EN. field. assumption.
  - rewrite <- HK. unfold T. field. repeat split; try exact Hkb; intros Z0; clear - Z0 DP; lra.
  - rewrite mpi_sum_Sum. cbn [Spec_Measure.Sum]. setoid_replace (norm * (nth d F 0 + 0) * (rho * kb * T * len)) with (norm * (rho * kb * T * len) * nth d F 0) by ring. rewrite E2. ring.
Qed.
Print Assumptions C146_line_partial.
(* Two processors: the temperature and the number of particles are those of the first processor alone; moving half of the particles to a second one doubles the result. *)
Theorem C146_processors_refuted : exists l1 l2, 
  map (option_map Qred) (line_force 1 1 1 1 0 [(l1 ++ l2, (0%Z, [6]))]) = [Some 3] /\ map (option_map Qred) (line_force 1 1 1 1 0 [(l1, (0%Z, [6])); (l2, (0%Z, [0]))]) = [Some 6].
Proof. exists [Model_Measure.mkSlot 0 [0] [1] 1 1 0], [Model_Measure.mkSlot 0 [5] [1] 1 1 0]. split; vm_compute; reflexivity. Qed.
Print Assumptions C146_processors_refuted.
(* The length of a line along the second axis is that between its last and first particle, negative when they go downwards. *)
Theorem C146_length_partial : forall y first last mid, y = first :: mid ++ [last] -> first < last -> line_length y == last - first /\ 0 < line_length y.
Proof.
  intros y a b mid -> H. unfold line_length. cbn [nth length]. rewrite app_length. cbn [length]. replace (S (length mid + 1) - 1)%nat with (S (length mid)) by lia. rewrite app_nth2 by lia. rewrite Nat.sub_diag. cbn [nth]. split; [reflexivity|lra].
Qed.
Print Assumptions C146_length_partial.
Theorem C146_length_refuted : line_length [3; 2; 1] == -2.
Proof. vm_compute. reflexivity. Qed.
Print Assumptions C146_length_refuted.
Example C146_case : let l := [Model_Measure.mkSlot 0 [0] [1] 1 1 0; Model_Measure.mkSlot 0 [5] [3] 1 1 0; Model_Measure.mkSlot 0 [5] [0] 0 1 0] in
  Spec_Measure.no_removed [l] /\ 0 < Sum Spec_Measure.kinetic_energy (Spec_Measure.movables [l]) /\ number (Spec_Measure.particles [l]) - 2 * inject_Z 1 > 0 /\
  map (option_map Qred) (line_force 1 1 10 1 1 [(l, (0%Z, [6]))]) = [Some 12].
Proof. cbv zeta. split; [intros s [<-|[<-|[<-|[]]]]; cbn; lia|]. split; [vm_compute; reflexivity|]. split; vm_compute; reflexivity. Qed.
