From Coq Require Import QArith List Bool ZArith Lia.
From Verif Require Import Model_Series Spec_Series.
Import ListNotations.
Local Open Scope Q_scope.

Definition columns (n : nat) (t : list row) : list (list Q) := map fst t :: map (fun i => map (fun r => nth i (snd r) 0) t) (seq 0 n).

Lemma map_repeat {A B} (f : A -> B) a n : map f (repeat a n) = repeat (f a) n.
Proof. induction n; cbn; [reflexivity|]. now f_equal. Qed.
Lemma nth_zeros i n : nth i (zeros n) 0 = 0.
Proof. unfold zeros. revert i. induction n; intros [|i]; cbn; auto. Qed.
Lemma zeros_len n : length (zeros n) = n.
Proof. apply repeat_length. Qed.

Lemma columns_snoc n t r : columns n (t ++ [r]) = (map fst t ++ [fst r]) :: map (fun i => map (fun r : row => nth i (snd r) 0) t ++ [nth i (snd r) 0]) (seq 0 n).
Proof. unfold columns. rewrite map_app. f_equal. apply map_ext. intros i. now rewrite map_app. Qed.

Lemma add0_columns n t : map (fun c => c ++ [0]) (columns n t) = columns n (t ++ [(0, zeros n)]).
Proof.
  rewrite columns_snoc. unfold columns. cbn [map]. f_equal. rewrite map_map. apply map_ext. intros i. cbn [snd]. now rewrite nth_zeros.
Qed.
Lemma set_back_snoc a c b : set_back a (c ++ [b]) = c ++ [a].
Proof. unfold set_back. now rewrite removelast_last. Qed.

Lemma upd0 f c cs : upd_col 0 f (c :: cs) = f c :: cs.
Proof. reflexivity. Qed.
Lemma updS i f c cs : upd_col (S i) f (c :: cs) = c :: upd_col i f cs.
Proof. reflexivity. Qed.
Lemma upd_seq f g n : forall a i, (i < n)%nat -> upd_col i g (map f (seq a n)) = map (fun k => if (k =? a + i)%nat then g (f k) else f k) (seq a n).
Proof.
  induction n as [|n IH]; intros a i Hi; [lia|]. cbn [seq map]. destruct i as [|i].
  - rewrite upd0. rewrite Nat.add_0_r, Nat.eqb_refl. f_equal. apply map_ext_in. intros k Hk. apply in_seq in Hk. destruct (Nat.eqb_spec k a); [lia|reflexivity].
  - rewrite updS, IH by lia. destruct (Nat.eqb_spec a (a + S i)); [lia|]. f_equal. apply map_ext_in. intros k Hk. now rewrite Nat.add_succ_comm.
Qed.
Lemma set_nth_len i y l : length (set_nth i y l) = length l.
Proof. revert i. induction l as [|a l IH]; intros [|i]; cbn; auto. Qed.
Lemma nth_set_nth i y l k : (i < length l)%nat -> nth k (set_nth i y l) 0 = if (k =? i)%nat then y else nth k l 0.
Proof. revert i k. induction l as [|a l IH]; intros [|i] [|k] H; cbn in *; try lia; try reflexivity. apply IH. lia. Qed.

Lemma putx_columns n t r x : upd_col 0 (set_back x) (columns n (t ++ [r])) = columns n (t ++ [(x, snd r)]).
Proof. rewrite !columns_snoc. rewrite upd0, set_back_snoc. reflexivity. Qed.
Lemma puty_columns n t r i y : (i < n)%nat -> length (snd r) = n ->
  upd_col (S i) (set_back y) (columns n (t ++ [r])) = columns n (t ++ [(fst r, set_nth i y (snd r))]).
Proof.
  intros Hi Hl. rewrite !columns_snoc, updS, upd_seq by exact Hi. cbn [fst snd]. f_equal. apply map_ext_in. intros k Hk. apply in_seq in Hk.
  rewrite nth_set_nth by lia. cbn [Nat.add]. destruct (k =? i)%nat; [apply set_back_snoc|reflexivity].
Qed.

Lemma holds_cols m n t : holds m n t -> m_cols m = columns n t.
Proof. intros H. apply H. Qed.
Lemma first_col n t : nth 0 (columns n t) [] = map fst t.
Proof. reflexivity. Qed.
Lemma next_col n t i : (i < n)%nat -> nth (S i) (columns n t) [] = map (fun r => nth i (snd r) 0) t.
Proof.
  intros H. unfold columns. cbn [nth]. rewrite (nth_indep _ [] ((fun i => map (fun r : row => nth i (snd r) 0) t) 0%nat)) by (rewrite map_length, seq_length; exact H).
  rewrite (map_nth (fun i => map (fun r : row => nth i (snd r) 0) t)), seq_nth by exact H. reflexivity.
Qed.

Lemma nil_snoc {A B} (f : A -> B) t r : is_nil (map f (t ++ [r])) = false.
Proof. destruct t; reflexivity. Qed.

Lemma step_refines n o m t : holds m n t ->
  match row_step n o t with None => mg_step o m = None | Some t' => exists m', mg_step o m = Some m' /\ holds m' n t' /\ m_write m' = m_write m end.
Proof.
  intros H. pose proof (holds_cols _ _ _ H) as C. destruct H as (H1 & H2 & H3 & H4 & _).
  assert (Mk : forall cs t', cs = columns n t' -> Forall (fun r => length (snd r) = n) t' -> holds (with_cols cs m) n t') by (intros cs t' -> F; repeat split; auto).
  destruct o as [k| |x|x|i y]; cbn [row_step mg_step].
  - eexists. split; [reflexivity|]. unfold resetData. rewrite H1. assert (E : Z.to_nat (Z.of_nat n + 1) = S n) by lia. rewrite E.
    assert (G : forall j, repeat (repeat 0 j) (S n) = columns n (repeat (0, zeros n) j)).
    { intros j. unfold columns. rewrite map_repeat. cbn [repeat fst]. f_equal.
      rewrite (map_ext _ (fun _ => repeat 0 j)) by (intros i; rewrite map_repeat; cbn [snd]; now rewrite nth_zeros).
      clear. generalize 0%nat. induction n as [|n IH]; intros a; cbn [seq map repeat]; [reflexivity|]. f_equal. apply IH. }
    assert (F : forall j, Forall (fun r : row => length (snd r) = n) (repeat (0, zeros n) j)) by (induction j; cbn; constructor; [apply zeros_len|assumption]).
    destruct (Z.ltb_spec 0 k); (split; [|reflexivity]); apply Mk; try apply F.
    + apply G.
    + replace (Z.to_nat k) with 0%nat by lia. apply (G 0%nat).
  - eexists. split; [reflexivity|]. split; [|reflexivity]. unfold addEntry0. apply Mk; [rewrite C; apply add0_columns|].
    apply Forall_app. split; [exact H4|]. constructor; [apply zeros_len|constructor].
  - eexists. split; [reflexivity|]. split; [|reflexivity]. unfold addEntry, addEntry0. cbn [with_cols m_cols m_nd m_write]. apply Mk.
    + rewrite C, add0_columns, putx_columns. reflexivity.
    + apply Forall_app. split; [exact H4|]. constructor; [apply zeros_len|constructor].
  - unfold putX, change_last. rewrite C. rewrite first_col. destruct t as [|r t _] using rev_ind; [reflexivity|]. rewrite rev_app_distr. cbn [rev app]. rewrite rev_involutive.
    rewrite nil_snoc. eexists. split; [reflexivity|]. split; [|reflexivity]. apply Mk.
    + apply putx_columns.
    + apply Forall_app in H4 as [A B]. apply Forall_app. split; [exact A|]. inversion B; subst. constructor; [assumption|constructor].
  - unfold putY, change_last. rewrite C, first_col, H1. destruct ((0 <=? i)%Z && (i <? Z.of_nat n)%Z) eqn:Ei.
    + assert (Hi : (0 <= i < Z.of_nat n)%Z) by lia. replace ((i <? 0)%Z || (Z.of_nat n <=? i)%Z) with false by (symmetry; apply orb_false_iff; lia).
      destruct t as [|r t _] using rev_ind; [reflexivity|]. rewrite rev_app_distr. cbn [rev app]. rewrite rev_involutive.
      rewrite nil_snoc. eexists. split; [reflexivity|]. split; [|reflexivity].
      apply Forall_app in H4 as [A B]. inversion B as [|? ? B1 _]; subst. apply Mk.
      * apply puty_columns; [lia|exact B1].
      * apply Forall_app. split; [exact A|]. constructor; [cbn; rewrite set_nth_len; exact B1|constructor].
    + replace ((i <? 0)%Z || (Z.of_nat n <=? i)%Z) with true by (symmetry; apply orb_true_iff; lia). destruct (is_nil _); reflexivity.
Qed.
Lemma run_refines n l : forall m t, holds m n t ->
  match row_run n l t with None => mg_run l m = None | Some t' => exists m', mg_run l m = Some m' /\ holds m' n t' /\ m_write m' = m_write m end.
Proof.
  induction l as [|o l IH]; intros m t H; cbn [row_run mg_run]; [eauto|]. pose proof (step_refines n o m t H) as S.
  destruct (row_step n o t) as [t'|]; [|now rewrite S]. destruct S as (m' & -> & Hm & Ew). specialize (IH m' t' Hm). destruct (row_run n l t'); [|exact IH].
  destruct IH as (m2 & A & B & C). exists m2. split; [exact A|]. split; [exact B|]. congruence.
Qed.
Lemma create_holds nd : (0 < nd)%Z -> exists m, create nd = Some m /\ holds m (Z.to_nat nd) [] /\ m_write m = repeat true (Z.to_nat nd).
Proof.
  intros H. unfold create. destruct (Z.leb_spec nd 0); [lia|]. eexists. split; [reflexivity|]. split; [|reflexivity]. unfold resetData. cbn [Z.ltb Z.compare].
  cbn [with_cols m_nd]. repeat split; cbn [m_nd m_write m_cols with_cols].
  - lia.
  - lia.
  - apply repeat_length.
  - constructor.
  - replace (Z.to_nat (nd + 1)) with (S (Z.to_nat nd)) by lia. cbn [repeat map]. f_equal. generalize (Z.to_nat nd) as k, 0%nat. clear. induction k as [|k IH]; intros a; cbn; [reflexivity|]. f_equal. apply IH.
Qed.

Lemma fold_total l a : fold_left Qplus l a == a + total l.
Proof. revert a. induction l as [|x l IH]; intros a; cbn [fold_left]; [unfold total; cbn [fold_right]; ring|]. rewrite IH. unfold total. cbn [fold_right]. ring. Qed.

(* put_all after addEntry *)
Lemma set_all n (ys : list Q) : forall d t r m, holds m n (t ++ [r]) -> (d + length ys <= n)%nat -> exists m', put_all (Z.of_nat d) ys m = Some m' /\
  holds m' n (t ++ [(fst r, firstn d (snd r) ++ ys ++ skipn (d + length ys) (snd r))]) /\ m_write m' = m_write m.
Proof.
  induction ys as [|y ys IH]; intros d t r m H Hd; cbn [put_all].
  - exists m. split; [reflexivity|]. split; [|reflexivity]. cbn [app length]. rewrite Nat.add_0_r, firstn_skipn. rewrite <- surjective_pairing. exact H.
  - pose proof (step_refines n (PutY (Z.of_nat d) y) m _ H) as S. cbn [row_step mg_step] in S. cbn [length] in Hd.
    replace ((0 <=? Z.of_nat d)%Z && (Z.of_nat d <? Z.of_nat n)%Z) with true in S by (symmetry; apply andb_true_iff; lia).
    unfold change_last in S. rewrite rev_app_distr in S. cbn [rev app] in S. rewrite rev_involutive in S. destruct S as (m1 & E1 & H1 & W1). rewrite E1.
    replace (Z.of_nat d + 1)%Z with (Z.of_nat (S d)) by lia. rewrite Nat2Z.id in H1. destruct (IH (S d) t _ m1 H1) as (m2 & E2 & H2 & W2); [lia|]. exists m2. split; [exact E2|]. split; [|congruence].
    cbn [fst snd] in H2. assert (Hr : length (snd r) = n) by (destruct H as (_ & _ & _ & F & _); apply Forall_app in F as [_ F]; now inversion F).
    assert (E : firstn (S d) (set_nth d y (snd r)) ++ ys ++ skipn (S d + length ys) (set_nth d y (snd r)) = firstn d (snd r) ++ (y :: ys) ++ skipn (d + length (y :: ys)) (snd r)).
    { assert (A : forall l k, (k < length l)%nat -> firstn (S k) (set_nth k y l) = firstn k l ++ [y]) by (induction l as [|a l I]; intros [|k] Hk; cbn in *; try lia; [reflexivity|]; f_equal; apply I; lia).
      assert (B : forall l k j, (k < j)%nat -> skipn j (set_nth k y l) = skipn j l) by (induction l as [|a l I]; intros [|k] [|j] Hk; cbn in *; try lia; try reflexivity; apply I; lia).
      rewrite A by lia. rewrite B by lia. rewrite <- app_assoc. cbn [app length]. rewrite Nat.add_succ_r. reflexivity. }
    rewrite E in H2. exact H2.
Qed.
Lemma add_holds n x m t : holds m n t -> holds (addEntry x m) n (t ++ [(x, zeros n)]) /\ m_write (addEntry x m) = m_write m.
Proof. intros H. pose proof (step_refines n (Add x) m t H) as S. cbn in S. destruct S as (m' & E & Hm & W). injection E as <-. tauto. Qed.
Lemma put_all_fail n ys : forall d t r m, holds m n (t ++ [r]) -> (d <= n)%nat -> (n < d + length ys)%nat -> put_all (Z.of_nat d) ys m = None.
Proof.
  induction ys as [|y ys IH]; intros d t r m H Hd Hl; cbn [put_all length] in *; [lia|].
  pose proof (step_refines n (PutY (Z.of_nat d) y) m _ H) as S. cbn [row_step mg_step] in S. destruct ((0 <=? Z.of_nat d)%Z && (Z.of_nat d <? Z.of_nat n)%Z) eqn:E.
  - unfold change_last in S. rewrite rev_app_distr in S. cbn [rev app] in S. rewrite rev_involutive in S. destruct S as (m1 & -> & H1 & _).
    replace (Z.of_nat d + 1)%Z with (Z.of_nat (Datatypes.S d)) by lia. eapply IH; [exact H1| |]; lia.
  - now rewrite S.
Qed.
