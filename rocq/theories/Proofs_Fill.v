From Verif Require Import Lib Model_Geometry Proofs_Geometry Model_Fill Spec_Fill.
Local Open Scope Q_scope.

Lemma random_point_len rnd b k : length (fst (random_point rnd b k)) = length b /\ snd (random_point rnd b k) = (k + length b)%nat.
Proof.
  revert k. induction b as [|[mn mx] b IH]; intros k; cbn [random_point]; [cbn; split; [reflexivity|lia]|].
  destruct (random_point rnd b (S k)) as [xs k'] eqn:E. specialize (IH (S k)). rewrite E in IH. cbn [fst snd length] in *. lia.
Qed.
Lemma random_point_in rnd b k : Draws rnd -> Forall (fun mM => fst mM < snd mM) b -> In_rect b (fst (random_point rnd b k)).
Proof.
  intros D H. revert k. induction H as [|[mn mx] b Hm H IH]; intros k; cbn [random_point]; [constructor|].
  specialize (IH (S k)). destruct (random_point rnd b (S k)) as [xs k']. cbn [fst] in *. constructor; [|exact IH]. cbn [fst snd] in *.
  destruct (D k) as [A B]. set (u := rnd k) in *. clearbody u. split; nra.
Qed.
Lemma dist_sqr_spec x c : dist_sqr x c == Dist2 x c.
Proof. revert c. induction x as [|a x IH]; intros [|b c]; cbn [dist_sqr]; unfold Dist2; cbn; try reflexivity. fold (Qsum (map (fun p : Q * Q => (fst p - snd p) * (fst p - snd p)) (combine x c))). change (Qsum _) with (Dist2 x c). rewrite IH. reflexivity. Qed.
Lemma in_ball_spec c r x : in_ball c r x = true <-> Dist2 x c < r * r.
Proof. unfold in_ball. rewrite <- dist_sqr_spec. unfold Qsqr. destruct (Qltb_spec (dist_sqr x c) (r * r)); split; intros; try lra; try discriminate; reflexivity. Qed.
Lemma pick_ball_in fuel rnd c r : forall k x k', pick_ball fuel rnd c r k = Some (x, k') -> In_ball c r x.
Proof.
  induction fuel as [|fuel IH]; intros k x k'; cbn [pick_ball]; [discriminate|].
  destruct (random_point rnd (bounding_box (Ball c r)) k) as [x1 k1] eqn:E. destruct (in_ball c r x1) eqn:I; [|apply IH].
  intros H. assert (x1 = x) by congruence. subst x1. split; [|apply in_ball_spec; exact I].
  pose proof (random_point_len rnd (bounding_box (Ball c r)) k) as [L _]. rewrite E in L. cbn [fst bounding_box] in L. rewrite map_length in L. exact L.
Qed.
Lemma pick_in fuel rnd g k x k' : Draws rnd -> Proper g -> pick_position fuel rnd g k = Some (x, k') -> In_region g x.
Proof.
  intros D P. destruct g as [b|c r]; cbn [pick_position In_region Proper] in *.
  - intros H. assert (E : x = fst (random_point rnd b k)) by (destruct (random_point rnd b k); cbn; congruence). rewrite E. apply random_point_in; auto.
  - destruct (Qeq_bool r 0) eqn:E; [apply Qeq_bool_iff in E; contradiction|]. apply pick_ball_in.
Qed.
Lemma pick_ball_ends rnd c r n : forall fuel k, (n < fuel)%nat ->
  In_ball c r (fst (random_point rnd (bounding_box (Ball c r)) (k + n * length c))) -> pick_ball fuel rnd c r k <> None.
Proof.
  induction n as [|n IH]; intros [|fuel] k L H; try lia; cbn [pick_ball].
  - cbn [Nat.mul] in H. rewrite Nat.add_0_r in H. destruct (random_point rnd (bounding_box (Ball c r)) k) as [x k']. destruct H as [_ H]. cbn [fst] in H. apply in_ball_spec in H. rewrite H. discriminate.
  - destruct (random_point rnd (bounding_box (Ball c r)) k) as [x k'] eqn:E. destruct (in_ball c r x); [discriminate|].
    apply IH; [lia|]. pose proof (random_point_len rnd (bounding_box (Ball c r)) k) as [_ K]. rewrite E in K. cbn [snd bounding_box] in K. rewrite map_length in K. rewrite K.
    replace (k + length c + n * length c)%nat with (k + S n * length c)%nat by (cbn; lia). exact H.
Qed.
Lemma region_contains_spec g x : length x = length (bounding_box g) -> (region_contains g x = true <-> In_region g x).
Proof.
  destruct g as [b|c r]; cbn [region_contains In_region bounding_box]; intros L.
  - unfold In_rect. apply contains_spec. exact L.
  - rewrite map_length in L. unfold In_ball. rewrite in_ball_spec. tauto.
Qed.
Lemma dist_nonneg x c : 0 <= Dist2 x c.
Proof. rewrite <- dist_sqr_spec. revert c. induction x as [|a x IH]; intros [|b c]; cbn [dist_sqr]; try lra. specialize (IH c). unfold Qsqr. assert (0 <= (a - b) * (a - b)) by (set (d := a - b); clearbody d; nra). lra. Qed.
Lemma ball_in_box c r x : 0 < r -> In_ball c r x -> In_rect (bounding_box (Ball c r)) x.
Proof.
  intros Hr [L H]. unfold In_rect. cbn [bounding_box]. rewrite <- dist_sqr_spec in H. revert x L H. induction c as [|b c IH]; intros [|a x] L H; cbn in L; try lia; [constructor|].
  cbn [dist_sqr] in H. cbn [map]. assert (P : 0 <= dist_sqr x c) by (rewrite dist_sqr_spec; apply dist_nonneg). unfold Qsqr in H. set (p := dist_sqr x c) in *. assert (Q0 : 0 <= (a - b) * (a - b)) by (set (d := a - b); clearbody d; nra). constructor; [|apply IH; [lia|fold p; lra]]. clearbody p.
  cbn [fst snd]. set (d := a - b) in *. assert (K : - r < d < r) by (clear - Hr H P; split; nra). unfold d in K. lra.
Qed.

(* filling to a density *)
Definition sound (g0 : Z) (j : job) (s : fstate) : Prop :=
  f_fix s = map (fun a => mkFixer (a_id a) (a_v a)) (f_added s) /\
  (forall i a, nth_error (f_added s) i = Some a -> a_id a = (g0 + Z.of_nat i)%Z) /\
  f_gid s = (g0 + Z.of_nat (length (f_added s)))%Z /\
  (forall a, In a (f_added s) -> In_region (j_region j) (a_x a) /\ excluded_contains j (a_x a) = false /\
     exists i, (i < f_n s)%nat /\ a_sg a = m_sg (j_make j i) /\ a_im a = m_im (j_make j i) /\ a_type a = m_type (j_make j i) /\ a_v a = velocity (j_make j i)) /\
  (length (f_added s) <= f_n s)%nat /\
  (j_excluded j = [] -> length (f_added s) = f_n s /\ f_vol s == Volume (j_vol j) (f_added s) /\ forall i a, nth_error (f_added s) i = Some a -> a_sg a = m_sg (j_make j i)).

Lemma Qsum_app l m : Qsum (l ++ m) == Qsum l + Qsum m.
Proof. unfold Qsum. induction l as [|a l IH]; cbn; [ring|]. rewrite IH. ring. Qed.
Lemma nth_error_snoc {A} (l : list A) x i a : nth_error (l ++ [x]) i = Some a -> nth_error l i = Some a \/ (i = length l /\ a = x).
Proof.
  intros H. destruct (Nat.lt_ge_cases i (length l)) as [L|L].
  - left. rewrite nth_error_app1 in H by exact L. exact H.
  - rewrite nth_error_app2 in H by exact L. destruct (i - length l)%nat as [|m] eqn:E; cbn in H; [right; split; [lia|congruence]|destruct m; discriminate].
Qed.
Lemma step_sound g0 rnd j s s' : Draws rnd -> Proper (j_region j) -> sound g0 j s -> density_step rnd j s = Some s' -> sound g0 j s' /\ f_n s' = S (f_n s) /\ f_vol s' = f_vol s + j_vol j (m_sg (j_make j (f_n s))).
Proof.
  intros D P (S1 & S2 & S3 & S4 & S5 & S6). unfold density_step.
  destruct (pick_position _ _ _ _) as [[x k']|] eqn:E; [|discriminate]. pose proof (pick_in _ _ _ _ _ _ D P E) as IN.
  cbv zeta. set (p := j_make j (f_n s)). destruct (excluded_contains j x) eqn:EX; cbn [f_gid f_added f_fix]; intros H.
  - assert (H' : s' = mkF k' (S (f_n s)) (f_vol s + j_vol j (m_sg p)) (f_gid s) (f_added s) (f_fix s)) by congruence. subst s'.
    split; [|split; reflexivity]. unfold sound. cbn [f_fix f_added f_gid f_n f_vol]. repeat split; auto.
    + apply S4; assumption.
    + apply S4; assumption.
    + destruct (S4 a H0) as (_ & _ & i & Hi & R). exists i. split; [lia|exact R].
    + exfalso. unfold excluded_contains in EX. rewrite H0 in EX. discriminate.
    + exfalso. unfold excluded_contains in EX. rewrite H0 in EX. discriminate.
    + exfalso. unfold excluded_contains in EX. rewrite H0 in EX. discriminate.
  - assert (H' : s' = mkF k' (S (f_n s)) (f_vol s + j_vol j (m_sg p)) (f_gid s + 1) (f_added s ++ [mkAdded (f_gid s) x (velocity p) (m_sg p) (m_im p) (m_type p)]) (f_fix s ++ [mkFixer (f_gid s) (velocity p)])) by congruence. subst s'.
    split; [|split; reflexivity]. unfold sound. cbn [f_fix f_added f_gid f_n f_vol]. split; [|split; [|split; [|split; [|split]]]].
    + rewrite map_app, S1. reflexivity.
    + intros i a Hn. apply nth_error_snoc in Hn. destruct Hn as [Hn|[-> ->]]; [exact (S2 _ _ Hn)|]. cbn. exact S3.
    + rewrite app_length. cbn. lia.
    + intros a Ha. apply in_app_or in Ha. destruct Ha as [Ha|[<- | []]].
      * destruct (S4 a Ha) as (A & B & i & Hi & R). repeat split; auto. exists i. split; [lia|exact R].
      * cbn [a_x a_sg a_im a_type a_v]. repeat split; auto. exists (f_n s). repeat split; auto.
    + rewrite app_length. cbn. lia.
    + intros N. destruct (S6 N) as (A & B & C). split; [|split].
      * rewrite app_length. cbn. lia.
      * unfold Volume in *. rewrite map_app, Qsum_app, <- B. cbn. ring.
      * intros i a Hn. apply nth_error_snoc in Hn. destruct Hn as [Hn|[-> ->]]; [exact (C _ _ Hn)|]. cbn. rewrite A. reflexivity.
Qed.
Lemma start_sound g0 j : sound g0 j (start_state g0).
Proof.
  unfold sound, start_state. cbn [f_fix f_added f_gid f_n f_vol]. repeat split.
  - intros [|i] a H; discriminate.
  - cbn. lia.
  - contradiction.
  - contradiction.
  - contradiction.
  - cbn. lia.
  - intros [|i] a H0; discriminate.
Qed.
Lemma fill_sound g0 rnd j rho phi Vol fuel : Draws rnd -> Proper (j_region j) -> forall s s', sound g0 j s -> fill_density fuel rnd j rho phi Vol s = Some s' ->
  sound g0 j s' /\ keep_adding rho phi Vol s' = false /\
  (s' = s \/ exists s0, sound g0 j s0 /\ keep_adding rho phi Vol s0 = true /\ density_step rnd j s0 = Some s').
Proof.
  intros D P. induction fuel as [|fuel IH]; intros s s' S; cbn [fill_density].
  - destruct (keep_adding rho phi Vol s) eqn:K; [discriminate|]. intros H. assert (s = s') by congruence. subst. auto.
  - destruct (keep_adding rho phi Vol s) eqn:K; [|intros H; assert (s = s') by congruence; subst; auto].
    destruct (density_step rnd j s) as [s1|] eqn:E; [|discriminate]. intros H.
    destruct (step_sound g0 rnd j s s1 D P S E) as [S1 _]. destruct (IH s1 s' S1 H) as (A & B & C). split; [exact A|split; [exact B|]].
    right. destruct C as [-> |C]; [exists s; auto|exact C].
Qed.

Lemma keep_false rho phi Vol s : 0 < Vol -> keep_adding rho phi Vol s = false -> phi * Vol <= (if rho then inject_Z (Z.of_nat (f_n s)) else f_vol s).
Proof.
  intros HV. unfold keep_adding. destruct (Qeq_bool Vol 0) eqn:E; [apply Qeq_bool_iff in E; lra|].
  set (x := if rho then _ else _). destruct (Qltb_spec (x / Vol) phi) as [|H]; [discriminate|]. intros _. apply Qnot_lt_le in H.
  apply (Qmult_le_compat_r _ _ Vol) in H; [|lra]. assert (E2 : x / Vol * Vol == x) by (field; lra). lra.
Qed.
Lemma keep_true rho phi Vol s : 0 < Vol -> keep_adding rho phi Vol s = true -> (if rho then inject_Z (Z.of_nat (f_n s)) else f_vol s) < phi * Vol.
Proof.
  intros HV. unfold keep_adding. destruct (Qeq_bool Vol 0) eqn:E; [discriminate|].
  set (x := if rho then _ else _). destruct (Qltb_spec (x / Vol) phi) as [H|]; [|discriminate]. intros _.
  apply (Qmult_lt_r _ _ Vol HV) in H. assert (E2 : x / Vol * Vol == x) by (field; lra). lra.
Qed.

(* it ends *)
Lemma fill_ends rnd j (rho : bool) phi Vol v0 : 0 < Vol -> 0 < v0 -> (forall i, v0 <= j_vol j (m_sg (j_make j i))) -> (forall k, pick_position (j_fuel j) rnd (j_region j) k <> None) ->
  forall fuel s, phi * Vol <= (if rho then inject_Z (Z.of_nat (f_n s)) + inject_Z (Z.of_nat fuel) else f_vol s + v0 * inject_Z (Z.of_nat fuel)) ->
  fill_density fuel rnd j rho phi Vol s <> None.
Proof.
  intros HV H0 Hv Hp. induction fuel as [|fuel IH]; intros s B; cbn [fill_density].
  - destruct (keep_adding rho phi Vol s) eqn:K; [|discriminate]. apply keep_true in K; [|exact HV]. change (inject_Z (Z.of_nat 0)) with 0 in B. destruct rho; [lra|]. rewrite Qmult_0_r in B. lra.
  - destruct (keep_adding rho phi Vol s) eqn:K; [|discriminate].
    unfold density_step. destruct (pick_position (j_fuel j) rnd (j_region j) (f_k s)) as [[x k']|] eqn:E; [|exfalso; exact (Hp _ E)].
    cbv zeta. apply IH. cbn [f_n f_vol]. specialize (Hv (f_n s)). rewrite !Nat2Z.inj_succ in *. unfold Z.succ in *. rewrite !inject_Z_plus in *. set (q := inject_Z (Z.of_nat fuel)) in *. change (inject_Z 1) with 1 in *. clearbody q. destruct rho; lra.
Qed.
Lemma fill_never (rnd : stream) (j : job) (phi Vol : Q) : 0 < Vol -> 0 < phi -> (forall r, j_vol j r == 0) -> forall fuel s, f_vol s == 0 -> fill_density fuel rnd j false phi Vol s = None.
Proof.
  intros HV Hp Hz. induction fuel as [|fuel IH]; intros s B; cbn [fill_density].
  - assert (K : keep_adding false phi Vol s = true). { unfold keep_adding. destruct (Qeq_bool Vol 0) eqn:E; [apply Qeq_bool_iff in E; lra|]. destruct (Qltb_spec (f_vol s / Vol) phi) as [|N]; [reflexivity|]. exfalso. apply N. rewrite B. unfold Qdiv. rewrite Qmult_0_l. exact Hp. } rewrite K. reflexivity.
  - assert (K : keep_adding false phi Vol s = true). { unfold keep_adding. destruct (Qeq_bool Vol 0) eqn:E; [apply Qeq_bool_iff in E; lra|]. destruct (Qltb_spec (f_vol s / Vol) phi) as [|N]; [reflexivity|]. exfalso. apply N. rewrite B. unfold Qdiv. rewrite Qmult_0_l. exact Hp. } rewrite K.
    unfold density_step. destruct (pick_position _ _ _ _) as [[x k']|]; [|reflexivity]. cbv zeta. apply IH. cbn [f_vol]. rewrite B, Hz. reflexivity.
Qed.

(* filling by number *)
Definition nsound (g0 : Z) (reg : region) (s : fstate) : Prop :=
  length (f_added s) = f_n s /\ length (f_fix s) = f_n s /\ f_gid s = (g0 + Z.of_nat (f_n s))%Z /\
  (forall i a, nth_error (f_added s) i = Some a -> a_id a = (g0 + Z.of_nat i)%Z) /\
  (forall i f, nth_error (f_fix s) i = Some f -> fx_id f = (g0 + Z.of_nat i)%Z) /\
  (forall a, In a (f_added s) -> In_region reg (a_x a)).
Lemma pick_allowed_in rnd j : Draws rnd -> Proper (j_region j) -> forall n k x k', pick_allowed n rnd j k = Some (x, k') -> In_region (j_region j) x.
Proof.
  intros D P. induction n as [|n IH]; intros k x k'; cbn [pick_allowed]; destruct (pick_position _ _ _ _) as [[x1 k1]|] eqn:E; try discriminate; destruct (excluded_contains j x1).
  - intros H. assert (x1 = x) by congruence. subst. eapply pick_in; eauto.
  - intros H. assert (x1 = x) by congruence. subst. eapply pick_in; eauto.
  - apply IH.
  - intros H. assert (x1 = x) by congruence. subst. eapply pick_in; eauto.
Qed.
Lemma number_step_spec g0 rnd j v0 s s' v : Draws rnd -> Proper (j_region j) -> nsound g0 (j_region j) s -> number_step rnd j v0 s = Some (s', v) ->
  nsound g0 (j_region j) s' /\ f_n s' = S (f_n s) /\ exists a fx, f_added s' = f_added s ++ [a] /\ f_fix s' = f_fix s ++ [fx] /\
    a_sg a = m_sg (j_make j (f_n s)) /\ a_im a = m_im (j_make j (f_n s)) /\ a_type a = m_type (j_make j (f_n s)) /\ fx_v fx = velocity (j_make j (f_n s)).
Proof.
  intros D P (A & A' & B & C & C' & E0). unfold number_step. destruct (pick_allowed _ _ _ _) as [[x k']|] eqn:E; [|discriminate]. cbv zeta. set (p := j_make j (f_n s)). intros H.
  assert (H' : s' = mkF k' (S (f_n s)) (f_vol s) (f_gid s + 1) (f_added s ++ [mkAdded (f_gid s) x v0 (m_sg p) (m_im p) (m_type p)]) (f_fix s ++ [mkFixer (f_gid s) (velocity p)])) by congruence. subst s'.
  split; [|split; [reflexivity|]].
  - unfold nsound. cbn [f_added f_fix f_n f_gid]. rewrite !app_length. cbn [length]. split; [lia|]. split; [lia|]. split; [lia|]. split; [|split].
    + intros i a Hn. apply nth_error_snoc in Hn. destruct Hn as [Hn|[-> ->]]; [exact (C _ _ Hn)|]. cbn. rewrite A. exact B.
    + intros i a Hn. apply nth_error_snoc in Hn. destruct Hn as [Hn|[-> ->]]; [exact (C' _ _ Hn)|]. cbn. rewrite A'. exact B.
    + intros a Ha. apply in_app_or in Ha. destruct Ha as [Ha|[<- | []]]; [exact (E0 a Ha)|]. cbn [a_x]. eapply pick_allowed_in; eauto.
  - cbn [f_added f_fix]. eexists. eexists. repeat split; reflexivity.
Qed.
Lemma number_loop_spec g0 rnd j turns : Draws rnd -> Proper (j_region j) -> forall v0 s s' v, nsound g0 (j_region j) s -> number_loop turns rnd j v0 s = Some (s', v) ->
  nsound g0 (j_region j) s' /\ f_n s' = (f_n s + turns)%nat /\ exists la lf, f_added s' = f_added s ++ la /\ f_fix s' = f_fix s ++ lf /\ length la = turns /\
    (forall i a, nth_error la i = Some a -> a_sg a = m_sg (j_make j (f_n s + i)) /\ a_im a = m_im (j_make j (f_n s + i)) /\ a_type a = m_type (j_make j (f_n s + i))) /\
    (forall i f, nth_error lf i = Some f -> fx_v f = velocity (j_make j (f_n s + i))).
Proof.
  intros D P. induction turns as [|turns IH]; intros v0 s s' v N; cbn [number_loop].
  - intros H. assert (s = s') by congruence. subst. split; [exact N|]. split; [lia|]. exists [], []. rewrite !app_nil_r. repeat split; intros; destruct i; discriminate.
  - destruct (number_step rnd j v0 s) as [[s1 v1]|] eqn:E; [|discriminate]. intros H.
    destruct (number_step_spec g0 rnd j v0 s s1 v1 D P N E) as (N1 & F1 & a & fx & A1 & X1 & Q1 & Q2 & Q3 & Q4).
    destruct (IH _ _ _ _ N1 H) as (N2 & F2 & la & lf & A2 & X2 & L2 & M2 & V2). split; [exact N2|]. split; [lia|].
    exists (a :: la), (fx :: lf). rewrite A2, A1, X2, X1, <- !app_assoc. repeat split; [cbn; lia|..].
    + destruct i as [|i]; cbn in H0; [assert (a = a0) by congruence; subst; rewrite Nat.add_0_r; auto|]. destruct (M2 _ _ H0) as (Z1 & Z2 & Z3). rewrite F1 in *. replace (f_n s + S i)%nat with (S (f_n s) + i)%nat by lia. auto.
    + destruct i as [|i]; cbn in H0; [assert (a = a0) by congruence; subst; rewrite Nat.add_0_r; auto|]. destruct (M2 _ _ H0) as (Z1 & Z2 & Z3). rewrite F1 in *. replace (f_n s + S i)%nat with (S (f_n s) + i)%nat by lia. auto.
    + destruct i as [|i]; cbn in H0; [assert (a = a0) by congruence; subst; rewrite Nat.add_0_r; auto|]. destruct (M2 _ _ H0) as (Z1 & Z2 & Z3). rewrite F1 in *. replace (f_n s + S i)%nat with (S (f_n s) + i)%nat by lia. auto.
    + intros i f Hn. destruct i as [|i]; cbn in Hn; [assert (fx = f) by congruence; subst; rewrite Nat.add_0_r; auto|]. pose proof (V2 _ _ Hn) as Z1. rewrite F1 in Z1. replace (f_n s + S i)%nat with (S (f_n s) + i)%nat by lia. exact Z1.
Qed.
Lemma start_nsound g0 reg : nsound g0 reg (start_state g0).
Proof. unfold nsound, start_state; cbn. repeat split; try lia; try contradiction; intros [|i] a H; discriminate. Qed.
Lemma fill_number_total rnd j : Draws rnd -> Proper (j_region j) -> forall g0 wanted v0 s s' v, nsound g0 (j_region j) s -> fill_number rnd j wanted v0 s = Some (s', v) ->
  nsound g0 (j_region j) s' /\ f_n s' = fold_left Nat.max (map snd wanted) (f_n s).
Proof.
  intros D P g0. induction wanted as [|[mk num] w IH]; intros v0 s s' v N; cbn [fill_number].
  - intros H. assert (s = s') by congruence. subst. auto.
  - cbv zeta. set (j' := mkJob _ _ _ mk _). destruct (number_loop (num - f_n s) rnd j' v0 s) as [[s1 v1]|] eqn:E; [|discriminate]. intros H.
    destruct (number_loop_spec g0 rnd j' (num - f_n s) D P _ _ _ _ N E) as (N1 & F1 & _). destruct (IH _ _ _ _ N1 H) as [N2 F2]. split; [exact N2|].
    rewrite F2. cbn [map fold_left snd]. f_equal. lia.
Qed.

(* templates *)
Lemma proportional_range lower upper x : 0 < lower <= upper -> 0 <= x <= 1 -> lower <= proportional lower upper x <= upper.
Proof.
  intros [Hl Hu] Hx. unfold proportional.
  set (a := 1 / lower). set (b := 1 / upper).
  assert (A : lower * a == 1) by (unfold a; field; lra). assert (B : upper * b == 1) by (unfold b; field; lra).
  assert (Pa : 0 < a) by (apply (Qmult_lt_l 0 a lower Hl); lra). assert (Pb : 0 < b) by (apply (Qmult_lt_l 0 b upper); lra).
  assert (AB : b <= a) by nra. clearbody a b.
  set (q := a + (b - a) * (1 - x)). assert (Hq : b <= q <= a) by (unfold q; nra). clearbody q.
  assert (Q1 : 1 / q * q == 1) by (field; nra). set (w := 1 / q) in *. clearbody w. split; nra.
Qed.
Lemma excluded_spec j x : (forall g, In g (j_excluded j) -> Dim g = length x) -> (excluded_contains j x = false <-> Outside (j_excluded j) x).
Proof.
  intros H. unfold excluded_contains, Outside. split.
  - intros E g Hg IN. assert (T : existsb (fun g0 => region_contains g0 x) (j_excluded j) = true) by (apply existsb_exists; exists g; split; [exact Hg|]; apply region_contains_spec; [|exact IN]; rewrite <- (H g Hg); destruct g; cbn; rewrite ?map_length; reflexivity). congruence.
  - intros O. destruct (existsb _ _) eqn:E; [|reflexivity]. exfalso. apply existsb_exists in E. destruct E as (g & Hg & Hc). apply (O g Hg). apply region_contains_spec; [|exact Hc]. rewrite <- (H g Hg). destruct g; cbn; rewrite ?map_length; reflexivity.
Qed.
Lemma in_region_length g x : In_region g x -> length x = Dim g.
Proof. destruct g as [b|c r]; cbn; [intros H; unfold In_rect in H; induction H; cbn; congruence|intros [L _]; exact L]. Qed.
Lemma step_added rnd j s s' : j_excluded j = [] -> density_step rnd j s = Some s' -> exists a, f_added s' = f_added s ++ [a].
Proof.
  intros N. unfold density_step. destruct (pick_position _ _ _ _) as [[x k']|]; [|discriminate]. cbv zeta. unfold excluded_contains. rewrite N. cbn [existsb f_gid f_added f_fix]. intros H.
  eexists. assert (E : forall A B : fstate, Some A = Some B -> f_added A = f_added B) by (intros; congruence). apply E in H. cbn [f_added] in H. symmetry. exact H.
Qed.
Lemma random_point_nth rnd b : forall k i mM, nth_error b i = Some mM -> nth_error (fst (random_point rnd b k)) i = Some (rnd (k + i)%nat * (snd mM - fst mM) + fst mM).
Proof.
  induction b as [|[mn mx] b IH]; intros k i mM H; [destruct i; discriminate|]. cbn [random_point]. specialize (IH (S k)). destruct (random_point rnd b (S k)) as [xs k'] eqn:E. cbn [fst].
  destruct i as [|i]; cbn [nth_error] in *; [assert (mM = (mn, mx)) by congruence; subst; rewrite Nat.add_0_r; reflexivity|]. cbn [fst] in IH. rewrite (IH i mM H). replace (S k + i)%nat with (k + S i)%nat by lia. reflexivity.
Qed.
Lemma pick_allowed_outside rnd j b : j_region j = Rect b -> forall n k x k' i, (i <= n)%nat -> excluded_contains j (fst (random_point rnd b (k + i * length b))) = false ->
  pick_allowed n rnd j k = Some (x, k') -> excluded_contains j x = false.
Proof.
  intros R. induction n as [|n IH]; intros k x k' i Hi He; cbn [pick_allowed]; rewrite R; cbn [pick_position]; destruct (random_point rnd b k) as [x1 k1] eqn:E; destruct (excluded_contains j x1) eqn:X.
  - assert (i = 0)%nat by lia. subst i. cbn [Nat.mul] in He. rewrite Nat.add_0_r, E in He. cbn [fst] in He. congruence.
  - intros H. assert (x1 = x) by congruence. subst. exact X.
  - destruct i as [|i]; [cbn [Nat.mul] in He; rewrite Nat.add_0_r, E in He; cbn [fst] in He; congruence|].
    apply (IH k1 x k' i); [lia|]. pose proof (random_point_len rnd b k) as [_ K]. rewrite E in K. cbn [snd] in K. rewrite K. replace (k + length b + i * length b)%nat with (k + S i * length b)%nat by (cbn; lia). exact He.
  - intros H. assert (x1 = x) by congruence. subst. exact X.
Qed.
Lemma fold_max l : forall m, fold_left Nat.max l m = Nat.max m (fold_right Nat.max 0%nat l).
Proof. induction l as [|a l IH]; intros m; cbn; [lia|]. rewrite IH. lia. Qed.
