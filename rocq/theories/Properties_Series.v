(* C49: recorded series.
   Proved: every sequence of calls on multi-column data keeps a table of rows, one per recording, and everything read, averaged, gathered
   from the processes or written comes from these rows in order. Refuted: the reported size is the number of columns; the oscillation data
   is not made relative to its mean (and memory outside of an array is read); an average with no sample. *)
From Coq Require Import QArith List Bool ZArith Lia.
From Verif Require Import Model_Series Spec_Series Proofs_Series.
Import ListNotations.
Local Open Scope Q_scope.

(* All columns always have one entry for each row, in the same order, whatever the calls; a call fails exactly if there is no row or no such column. *)
Theorem C49_rows_partial nd l : (0 < nd)%Z -> let n := Z.to_nat nd in exists m0, create nd = Some m0 /\
  match row_run n l [] with
  | None => mg_run l m0 = None
  | Some t => exists m, mg_run l m0 = Some m /\ length (m_cols m) = S n /\ nth_error (m_cols m) 0 = Some (map fst t) /\
      (forall i, (i < n)%nat -> nth_error (m_cols m) (S i) = Some (map (fun r => nth i (snd r) 0) t)) /\
      Forall (fun c => length c = length t) (m_cols m) /\ holds m n t /\ m_write m = repeat true n
  end.
Proof.
  intros H n. destruct (create_holds nd H) as (m0 & E0 & H0 & W0). exists m0. split; [exact E0|]. pose proof (run_refines _ l m0 [] H0) as R. fold n in R.
  destruct (row_run n l []) as [t|]; [|exact R]. destruct R as (m & E & Hm & W). exists m. split; [exact E|]. pose proof (holds_cols _ _ _ Hm) as C.
  split; [rewrite C; unfold columns; cbn [length]; now rewrite map_length, seq_length|]. split; [now rewrite C|]. split; [|split; [|split]].
  - intros i Hi. rewrite C. rewrite <- (next_col n t i Hi). apply nth_error_nth'. unfold columns. cbn [length]. rewrite map_length, seq_length. lia.
  - rewrite C. unfold columns. constructor; [apply map_length|]. apply Forall_map. apply Forall_forall. intros i _. apply map_length.
  - exact Hm.
  - rewrite W. exact W0.
Qed.
Print Assumptions C49_rows_partial.
Theorem C49_no_columns nd : (nd <= 0)%Z -> create nd = None.
Proof. intros H. unfold create. destruct (Z.leb_spec nd 0); [reflexivity|lia]. Qed.
Print Assumptions C49_no_columns.

(* Reading, averaging and writing *)
Theorem C49_read_partial m n t : holds m n t ->
  (forall i, (0 <= i < Z.of_nat n)%Z -> getEntry i m = map (fun r => (fst r, nth (Z.to_nat i) (snd r) 0)) t /\
     (t <> [] -> ave i m == total (map (fun r => nth (Z.to_nat i) (snd r) 0) t) / inject_Z (Z.of_nat (length t)) /\
                 forall t0 r, t = t0 ++ [r] -> getY i m = Some (nth (Z.to_nat i) (snd r) 0)) /\
     (t = [] -> ave i m = 0 /\ getY i m = None)) /\
  (forall i, ~ (0 <= i < Z.of_nat n)%Z -> getEntry i m = [] /\ ave i m = 0 /\ getY i m = None) /\
  lines m = map (fun r => fst r :: map (fun i => nth i (snd r) 0) (filter (fun i => nth i (m_write m) false) (seq 0 n))) t.
Proof.
  intros H. pose proof (holds_cols _ _ _ H) as C. destruct H as (H1 & H2 & H3 & H4 & _). split; [|split].
  - intros i Hi. unfold getEntry, ave, getY. rewrite H1, C. replace ((i <? 0)%Z || (Z.of_nat n <=? i)%Z) with false by (symmetry; apply orb_false_iff; lia).
    rewrite first_col, next_col by lia. cbn [is_nil columns orb]. split; [|split].
    + destruct (is_nil (map fst t)) eqn:En; [destruct t; [reflexivity|discriminate]|]. rewrite map_length. clear.
      assert (G : forall t : list row, map (fun j => (nth j (map fst t) 0, nth j (map (fun r => nth (Z.to_nat i) (snd r) 0) t) 0)) (seq 0 (length t)) = map (fun r => (fst r, nth (Z.to_nat i) (snd r) 0)) t).
      { clear. induction t as [|r t IH]; [reflexivity|]. cbn [length seq map nth]. f_equal. rewrite <- seq_shift, map_map. cbn [nth]. exact IH. }
      apply G.
    + intros Hne. assert (En : is_nil (map fst t) = false) by (destruct t; [now contradiction Hne|reflexivity]). rewrite En. split.
      * rewrite fold_total, map_length. apply Qdiv_comp; [ring|reflexivity].
      * intros t1 r ->. rewrite map_app. cbn [map]. now rewrite last_last.
    + intros ->. split; reflexivity.
  - intros i Hi. unfold getEntry, ave, getY. rewrite H1. replace ((i <? 0)%Z || (Z.of_nat n <=? i)%Z) with true by (symmetry; apply orb_true_iff; lia).
    split; [reflexivity|]. split; [reflexivity|]. destruct (is_nil _); reflexivity.
  - unfold lines. rewrite C, H1, first_col. cbn [is_nil columns orb]. destruct (is_nil (map fst t)) eqn:En; [destruct t; [reflexivity|discriminate]|]. rewrite map_length.
    replace (Z.to_nat (Z.of_nat n + 1)) with (S n) by lia. cbn [seq filter Nat.eqb orb]. 
    rewrite <- seq_shift. assert (Ef : filter (fun j => (j =? 0)%nat || nth (j - 1) (m_write m) false) (map S (seq 0 n)) = map S (filter (fun i => nth i (m_write m) false) (seq 0 n))).
    { generalize (seq 0 n) as s. clear. induction s as [|a s IH]; [reflexivity|]. cbn [map filter Nat.eqb orb Nat.sub]. rewrite Nat.sub_0_r. destruct (nth a (m_write m) false); cbn [map]; now rewrite IH. }
    rewrite Ef. set (sel := filter (fun i => nth i (m_write m) false) (seq 0 n)).
    assert (Hsel : forall i, In i sel -> (i < n)%nat) by (intros i Hi; unfold sel in Hi; rewrite filter_In, in_seq in Hi; destruct Hi as [[_ Hi] _]; exact Hi). clearbody sel. clear Ef.
    assert (G : forall k, (k < length t)%nat -> map (fun j => nth k (nth j (columns n t) []) 0) (0%nat :: map S sel) = (fun r => fst r :: map (fun i => nth i (snd r) 0) sel) (nth k t (0, []))).
    { intros k Hk. cbn [map]. rewrite first_col. f_equal.
      - rewrite (nth_indep _ 0 (fst (0, @nil Q))) by now rewrite map_length. now rewrite map_nth.
      - rewrite map_map. apply map_ext_in. intros i Hi. rewrite next_col by now apply Hsel.
        rewrite (nth_indep _ 0 ((fun r : row => nth i (snd r) 0) (0, @nil Q))) by now rewrite map_length. now rewrite (map_nth (fun r : row => nth i (snd r) 0)). }
    rewrite (map_ext_in _ (fun k => (fun r => fst r :: map (fun i => nth i (snd r) 0) sel) (nth k t (0, [])))) by (intros k Hk; apply in_seq in Hk; apply G; destruct Hk as [_ Hk]; exact Hk).
    clear. induction t as [|r t IH]; [reflexivity|]. cbn [length seq map nth]. f_equal. rewrite <- seq_shift, map_map. exact IH.
Qed.
Print Assumptions C49_read_partial.

(* Gathering from the processes adds one row with the sums (and zeros for columns that were not given). *)
Lemma nth_sum0 k ranks d : (d < k)%nat -> nth d (sum0 k ranks) 0 == total (map (fun y => nth d y 0) ranks).
Proof.
  intros H. unfold sum0. rewrite (nth_indep _ 0 ((fun d => fold_left Qplus (map (fun y => nth d y 0) ranks) 0) 0%nat)) by (rewrite map_length, seq_length; exact H).
  rewrite (map_nth (fun d => fold_left Qplus (map (fun y => nth d y 0) ranks) 0)), seq_nth by exact H. rewrite fold_total. cbn [Nat.add]. ring.
Qed.
Lemma gathered ys n x m t : holds m n t -> (length ys <= n)%nat -> exists m', put_all 0 ys (addEntry x m) = Some m' /\
  holds m' n (t ++ [(x, ys ++ zeros (n - length ys))]) /\ m_write m' = m_write m.
Proof.
  intros H Hl. destruct (add_holds n x m t H) as [H1 W1]. destruct (set_all n ys 0 t (x, zeros n) _ H1) as (m' & E & H2 & W2); [lia|]. exists m'.
  split; [exact E|]. split; [|congruence]. cbn [fst snd firstn app Nat.add] in H2. replace (zeros (n - length ys)) with (skipn (length ys) (zeros n)); [exact H2|].
  unfold zeros. clear - Hl. revert Hl. generalize (length ys) as k. intros k. revert k. induction n as [|n IH]; intros [|k] H; cbn [skipn repeat Nat.sub]; try reflexivity; try lia.
  apply IH. lia.
Qed.
Theorem C49_gather_partial m n t x k ranks : holds m n t ->
  ((n < k)%nat -> gatherData x k ranks m = None) /\
  ((k <= n)%nat -> exists m' ys, gatherData x k ranks m = Some m' /\ holds m' n (t ++ [(x, ys)]) /\
     (forall d, (d < k)%nat -> nth d ys 0 == total (map (fun y => nth d y 0) ranks)) /\ (forall d, (k <= d)%nat -> nth d ys 0 = 0)) /\
  (forall counts, (k <= n)%nat -> fold_right Z.add 0%Z counts <> 0%Z -> exists m' ys, gatherAverageData x k ranks counts m = Some m' /\ holds m' n (t ++ [(x, ys)]) /\
     (forall d, (d < k)%nat -> nth d ys 0 == total (map (fun y => nth d y 0) ranks) / inject_Z (fold_right Z.add 0%Z counts)) /\ (forall d, (k <= d)%nat -> nth d ys 0 = 0)).
Proof.
  intros H. assert (Ls : length (sum0 k ranks) = k) by (unfold sum0; now rewrite map_length, seq_length).
  assert (Pad : forall ys d, (length ys <= d)%nat -> nth d (ys ++ zeros (n - length ys)) 0 = 0) by (intros ys d Hd; rewrite app_nth2 by lia; apply nth_zeros).
  split; [|split].
  - intros Hk. unfold gatherData. destruct (add_holds n x m t H) as [H1 _]. apply (put_all_fail n _ 0 t (x, zeros n)); [exact H1|lia|]. rewrite Ls. lia.
  - intros Hk. destruct (gathered (sum0 k ranks) n x m t H) as (m' & E & H' & _); [lia|]. exists m', (sum0 k ranks ++ zeros (n - length (sum0 k ranks))). split; [exact E|]. split; [exact H'|]. split.
    + intros d Hd. rewrite app_nth1 by lia. now apply nth_sum0.
    + intros d Hd. apply Pad. lia.
  - intros counts Hk Hc. unfold gatherAverageData. rewrite (fold_symmetric Z.add Z.add_assoc 0%Z (fun y => Z.add_comm 0%Z y) counts). set (c := fold_right Z.add 0%Z counts) in *. destruct (Z.eqb_spec c 0); [now contradiction Hc|].
    set (ys := map (fun y => y / inject_Z c) (sum0 k ranks)). assert (Ly : length ys = k) by (unfold ys; now rewrite map_length).
    destruct (gathered ys n x m t H) as (m' & E & H' & _); [lia|]. exists m', (ys ++ zeros (n - length ys)). split; [exact E|]. split; [exact H'|]. split.
    + intros d Hd. rewrite app_nth1 by lia. unfold ys. rewrite (nth_indep _ 0 ((fun y => y / inject_Z c) 0)) by (rewrite map_length, Ls; exact Hd).
      rewrite (map_nth (fun y => y / inject_Z c)). apply Qdiv_comp; [now apply nth_sum0|reflexivity].
    + intros d Hd. apply Pad. lia.
Qed.
Print Assumptions C49_gather_partial.

(* Two column series: entries are kept in order; mean, first and last are those of the series. *)
Theorem C49_pairs (d : list (Q * Q)) t f ys ws :
  g_last (g_add t f d) = (t, f) /\ length (g_add t f d) = S (length d) /\ firstn (length d) (g_add t f d) = d /\
  (forall v d', d = v :: d' -> g_first d = v) /\ (d <> [] -> g_ave d == total (map snd d) / inject_Z (Z.of_nat (length d))) /\
  (exists s, s == total ys /\ g_gather t ys d = d ++ [(t, s)]) /\
  (~ total ws == 0 -> exists s, s == total ys / total ws /\ g_gather_ave t ys ws d = Some (d ++ [(t, s)])).
Proof.
  unfold g_add. split; [|split; [|split; [|split; [|split; [|split]]]]].
  - unfold g_last. destruct (d ++ [(t, f)]) eqn:E; [destruct d; discriminate|]. rewrite <- E. rewrite app_length. cbn [length]. rewrite app_nth2 by lia. replace (length d + 1 - 1 - length d)%nat with 0%nat by lia. reflexivity.
  - rewrite app_length. cbn. lia.
  - rewrite firstn_app, firstn_all, Nat.sub_diag. cbn. apply app_nil_r.
  - intros v d' ->. reflexivity.
  - intros H. unfold g_ave. destruct d as [|v d]; [now contradiction H|]. apply Qdiv_comp; [|reflexivity].
    assert (G : forall (l : list (Q * Q)) a, fold_left (fun a v => a + snd v) l a == a + total (map snd l)).
    { induction l as [|w l IH]; intros a; cbn [fold_left]; [unfold total; cbn [map fold_right]; ring|]. rewrite IH. unfold total. cbn [map fold_right]. ring. }
    rewrite G. ring.
  - eexists. split; [|reflexivity]. rewrite fold_total. ring.
  - intros H. unfold g_gather_ave. assert (E : fold_left Qplus ws 0 == total ws) by (rewrite fold_total; ring). destruct (Qeq_bool _ 0) eqn:Ez.
    + exfalso. apply H. apply Qeq_bool_iff in Ez. rewrite <- E. exact Ez.
    + eexists. split; [|reflexivity]. apply Qdiv_comp; [rewrite fold_total; ring|exact E].
Qed.
Print Assumptions C49_pairs.

(* ---------- cases ---------- *)
Definition demo : list op := [Add 1; PutY 0 5; PutY 1 6; Add0; PutX 2; PutY 1 8].
Example C49_case : row_run 2 demo [] = Some [(1, [5; 6]); (2, [0; 8])] /\
  exists m0 m, create 2 = Some m0 /\ mg_run demo m0 = Some m /\ m_cols m = [[1; 2]; [5; 0]; [6; 8]] /\ lines m = [[1; 5; 6]; [2; 0; 8]] /\ getEntry 1 m = [(1, 6); (2, 8)] /\ size m = 3%nat.
Proof. split; [reflexivity|]. do 2 eexists. split; [reflexivity|]. split; [reflexivity|]. repeat split; reflexivity. Qed.
Example C49_gather_case : exists m m', create 2 = Some m /\ gatherData 3 2 [[1; 2]; [10; 20]] m = Some m' /\ m_cols m' = [[3]; [11]; [22]] /\
  holds m 2 [].
Proof. do 2 eexists. split; [reflexivity|]. split; [reflexivity|]. split; [reflexivity|]. repeat split; cbn; auto with arith; constructor. Qed.

(* ---------- what does not hold ---------- *)
(* The reported number of points is the number of columns, whatever was recorded. *)
Theorem C49_size_refuted : (forall m n t, holds m n t -> size m = S n) /\ exists m, holds m 2 [] /\ size m = 3%nat.
Proof.
  split.
  - intros m n t H. unfold size. rewrite (holds_cols _ _ _ H). unfold columns. cbn [length]. now rewrite map_length, seq_length.
  - eexists (mkM 2 [[]; []; []] [true; true]). split; [repeat split; cbn; auto with arith; constructor|reflexivity].
Qed.
Print Assumptions C49_size_refuted.
(* The oscillation data is left as it is, and with many recordings memory outside of an array is read. *)
Theorem C49_oscillation_refuted : (forall dims m m', osc_post_integrate dims m = Some m' -> m' = m) /\
  (forall dims m t, holds m dims t -> (dims + 1 < length t)%nat -> osc_post_integrate dims m = None) /\
  exists m t, holds m 2 t /\ t = [(0, [1; 1]); (1, [3; 3])] /\ osc_post_integrate 2 m = Some m.
Proof.
  split; [|split].
  - intros dims m m' H. unfold osc_post_integrate in H. destruct (forallb _ _); congruence.
  - intros dims m t H Hl. unfold osc_post_integrate. rewrite (holds_cols _ _ _ H). unfold columns. cbn [forallb]. rewrite map_length.
    unfold row in *. destruct (Nat.leb_spec (length t - 1) dims); [lia|]. reflexivity.
  - exists (mkM 2 [[0; 1]; [1; 3]; [1; 3]] [true; true]), [(0, [1; 1]); (1, [3; 3])]. split; [repeat split; cbn; auto with arith; repeat constructor|]. split; reflexivity.
Qed.
Print Assumptions C49_oscillation_refuted.
(* An average over no samples is not a number. *)
Theorem C49_no_samples_refuted : exists m n t, holds m n t /\ forall x k ranks, gatherAverageData x k ranks [0%Z; 0%Z] m = None.
Proof. exists (mkM 1 [[]; []] [true]), 1%nat, []. split; [repeat split; cbn; auto with arith; constructor|]. intros. reflexivity. Qed.
Print Assumptions C49_no_samples_refuted.
