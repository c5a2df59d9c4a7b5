(* What a visit says about the positions, and rational against real numbers. *)
From Coq Require Import Reals Qreals.
From Verif Require Import Lib Model_Geometry Spec_Geometry Proofs_Geometry Model_Cells Spec_Cells Proofs_Cells2 Proofs_Cells3 Proofs_Cells6 Model_Verlet Proofs_Verlet Model_Sweep Spec_Sweep.
From Verif Require Model_Forces Spec_Forces.
From Coq Require Import ZifyBool.
Local Open Scope Q_scope.

Lemma sigma_ge e p : 0 <= prd p -> 1 <= max_cutoff e (ptype p) -> prd p <= sigma e p.
Proof. intros H1 H2. unfold sigma. nra. Qed.

Lemma visit_close e ps vs i j w : goodenv e -> 0 <= skin e -> (forall p, In p ps -> 0 <= prd p) ->
  (forall t t', 0 <= cutoff_grid e t t' <= 1) -> (forall t, 1 <= max_cutoff e t) ->
  traversePairs e ps = Some vs -> In (i, j, w) vs ->
  (w = 0%Z \/ w = 1%Z) /\
  (w = 0%Z -> exists pi pj, nth_error ps i = Some pi /\ nth_error ps j = Some pj /\
     dist2 (px pi) (px pj) < Qsqr (sigma e pi + sigma e pj + skin e) /\
     ((is_large e pi = false /\ is_large e pj = false) \/ is_large e pi = true)).
Proof.
  intros He Hs Hp Hc Hm HT Hv. apply (in_visits e ps vs) in Hv; auto. destruct Hv as (l & i' & r & _ & Hir & Hv).
  assert (B : forall A D, 0 <= D -> D <= A -> forall x, x < Qsqr D -> x < Qsqr A).
  { intros A D H0 H1 x Hx. unfold Qsqr in *. eapply Qlt_le_trans; [exact Hx|]. nra. }
  assert (SG : forall k q, nth_error ps k = Some q -> 0 <= prd q <= sigma e q).
  { intros k q E. assert (0 <= prd q) by (apply Hp; eapply nth_error_In; exact E). split; [assumption|now apply sigma_ge]. }
  unfold visit_particle in Hv. destruct (nth_error ps i') as [p1|] eqn:E1; [|destruct Hv].
  destruct (ptype p1 <? 0)%Z; [destruct Hv|].
  assert (S1 := SG _ _ E1).
  destruct (is_large e p1) eqn:L1; cbn [negb] in Hv.
  - apply in_flat_map in Hv. destruct Hv as (l' & _ & Hv). apply in_flat_map in Hv. destruct Hv as (j' & _ & Hv).
    unfold visit_large in Hv. destruct (nth_error ps j') as [p2|] eqn:E2; [|destruct Hv]. assert (S2 := SG _ _ E2).
    destruct (_ || _); [destruct Hv|]. cbv zeta in Hv. assert (C := Hc (ptype p1) (ptype p2)).
    destruct (Qltb_spec (dist2 (px p1) (px p2)) (Qsqr ((sigma e p1 + prd p2) * cutoff_grid e (ptype p1) (ptype p2) + skin e))) as [D|_].
    + destruct Hv as [E|[]]. injection E as <- <- <-. split; [now left|]. intros _. exists p1, p2. split; [exact E1|]. split; [exact E2|]. split; [|now right].
      eapply B; [| |exact D]; [nra|]. assert ((sigma e p1 + prd p2) * cutoff_grid e (ptype p1) (ptype p2) <= sigma e p1 + prd p2) by nra. lra.
    + destruct (Qltb _ _); [|destruct Hv]. destruct Hv as [E|[]]. injection E as <- <- <-. split; [now right|discriminate].
  - apply in_app_iff in Hv. destruct Hv as [Hv|Hv].
    + apply in_flat_map in Hv. destruct Hv as (j' & _ & Hv). unfold visit_same in Hv. destruct (nth_error ps j') as [p2|] eqn:E2; [|destruct Hv].
      assert (S2 := SG _ _ E2). destruct (is_large e p2) eqn:L2; [rewrite orb_true_r in Hv; destruct Hv|]. destruct (_ || _); [destruct Hv|]. assert (C := Hc (ptype p1) (ptype p2)).
      destruct (Qltb_spec (dist2 (px p1) (px p2)) (Qsqr (prd p1 + prd p2 * cutoff_grid e (ptype p1) (ptype p2) + skin e))) as [D|_]; [|destruct Hv].
      destruct Hv as [E|[]]. injection E as <- <- <-. split; [now left|]. intros _. exists p1, p2. split; [exact E1|]. split; [exact E2|]. split; [|left; split; auto].
      eapply B; [| |exact D]; [nra|]. assert (prd p2 * cutoff_grid e (ptype p1) (ptype p2) <= prd p2) by nra. lra.
    + apply in_flat_map in Hv. destruct Hv as (l' & _ & Hv). apply in_flat_map in Hv. destruct Hv as (j' & _ & Hv).
      unfold visit_adj in Hv. destruct (nth_error ps j') as [p2|] eqn:E2; [|destruct Hv]. assert (S2 := SG _ _ E2).
      destruct (is_large e p2) eqn:L2; [rewrite orb_true_r in Hv; destruct Hv|]. destruct (_ || _); [destruct Hv|]. cbv zeta in Hv. assert (C := Hc (ptype p1) (ptype p2)).
      destruct (Qltb_spec (dist2 (px p1) (px p2)) (Qsqr ((prd p1 + prd p2) * cutoff_grid e (ptype p1) (ptype p2) + skin e))) as [D|_].
      * destruct Hv as [E|[]]. injection E as <- <- <-. split; [now left|]. intros _. exists p1, p2. split; [exact E1|]. split; [exact E2|]. split; [|left; split; auto].
        eapply B; [| |exact D]; [nra|]. assert ((prd p1 + prd p2) * cutoff_grid e (ptype p1) (ptype p2) <= prd p1 + prd p2) by nra. lra.
      * destruct (Qltb _ _); [|destruct Hv]. destruct Hv as [E|[]]. injection E as <- <- <-. split; [now right|discriminate].
Qed.

(* One coordinate is not further apart than the points. *)
Lemma dist2_nth x : forall y d xd yd, nth_error x d = Some xd -> nth_error y d = Some yd -> Qsqr (xd - yd) <= dist2 x y.
Proof.
  induction x as [|a x IH]; intros [|c y] [|d] xd yd H1 H2; try discriminate; unfold dist2; cbn [combine fold_right fst snd]; fold (dist2 x y).
  - injection H1 as ->. injection H2 as ->. assert (H := dist2_nonneg x y). lra.
  - assert (H := IH y d xd yd H1 H2). assert (0 <= Qsqr (a - c)) by apply Qsq_nonneg. lra.
Qed.

Lemma Qsqr_abs_le u c : 0 <= c -> Qsqr u <= Qsqr c -> Qabs u <= c.
Proof.
  intros Hc H. unfold Qsqr in H. apply Qsq_le_le; [exact Hc|]. rewrite <- Qabs_Qmult. rewrite Qabs_pos; [exact H|apply Qsq_nonneg].
Qed.

(* The nearest image is one of the images. *)
Lemma nearest_is_image b : forall x y, length x = length b -> length y = length b ->
  exists ks, length ks = length b /\ getDistanceSqr b x y == imageSqr b ks x y.
Proof.
  induction b as [|a b IH]; intros [|x0 x] [|y0 y] Hx Hy; try discriminate.
  - exists []. split; reflexivity.
  - cbn in Hx, Hy. destruct (IH x y ltac:(lia) ltac:(lia)) as (ks & L & E).
    assert (K : exists k : Z, min_image1 a (x0 - y0) == match bc a with WRAP => x0 - y0 + inject_Z k * (hi a - lo a) | _ => x0 - y0 end).
    { unfold min_image1. destruct (bc a); cbn [bc_eqb]; try (exists 0%Z; reflexivity). cbv zeta.
      destruct (Qltb_spec (wd a - Qabs (x0 - y0)) (Qabs (x0 - y0))) as [Lt|_]; [|exists 0%Z; change (inject_Z 0) with 0; ring].
      destruct (Qltb_spec 0 (x0 - y0)) as [P|N].
      - exists (-1)%Z. rewrite Qabs_pos by lra. change (inject_Z (-1)) with (-1). unfold wd. ring.
      - exists 1%Z. rewrite Qabs_neg by lra. change (inject_Z 1) with 1. unfold wd. ring. }
    destruct K as (k & Hk). exists (k :: ks). split; [cbn; lia|]. cbn [getDistanceSqr imageSqr]. rewrite E. unfold Qsqr. rewrite Hk. reflexivity.
Qed.

(* ------------------------------------------------------------ reals *)
Local Open Scope R_scope.
Lemma Q2R_0 : Q2R 0 = 0. Proof. apply Rmult_0_l. Qed.
Lemma Q2R_abs q : Q2R (Qabs q) = Rabs (Q2R q).
Proof.
  destruct (Qlt_le_dec q 0) as [L|G].
  - rewrite (Qeq_eqR _ _ (Qabs_neg q (Qlt_le_weak _ _ L))), Q2R_opp. apply Qlt_Rlt in L. rewrite Q2R_0 in L. rewrite Rabs_left; [reflexivity|exact L].
  - rewrite (Qeq_eqR _ _ (Qabs_pos q G)). apply Qle_Rle in G. rewrite Q2R_0 in G. rewrite Rabs_right; [reflexivity|now apply Rle_ge].
Qed.
Lemma Q2R_ltb x y : (if Rlt_dec (Q2R x) (Q2R y) then true else false) = Qltb x y.
Proof.
  destruct (Rlt_dec _ _) as [L|N]; destruct (Qltb_spec x y) as [L'|N']; try reflexivity.
  - exfalso. apply N'. now apply Rlt_Qlt.
  - exfalso. apply N. now apply Qlt_Rlt.
Qed.

Lemma correction_Q (a : axis) (x y : Q) :
  (if bc_eqb (bc a) WRAP then (let dx := Q2R (wd a) - Rabs (Q2R x - Q2R y) in
     if Rlt_dec dx (Rabs (Q2R x - Q2R y)) then (if Rlt_dec 0 (Q2R x - Q2R y) then - dx else dx) else Q2R x - Q2R y) else Q2R x - Q2R y)
  = Q2R (min_image1 a (x - y)).
Proof.
  unfold min_image1. rewrite <- Q2R_minus, <- Q2R_abs. destruct (bc_eqb (bc a) WRAP); [|reflexivity]. cbv zeta. rewrite <- Q2R_minus.
  assert (A := Q2R_ltb (wd a - Qabs (x - y)) (Qabs (x - y))). assert (B := Q2R_ltb 0 (x - y)). rewrite Q2R_0 in B.
  destruct (Rlt_dec _ _); rewrite <- A; [|reflexivity]. destruct (Rlt_dec 0 _); rewrite <- B; [|reflexivity]. now rewrite Q2R_opp.
Qed.

Fixpoint sumR (l : list R) : R := match l with [] => 0 | a :: l' => a + sumR l' end.
Lemma dot_shift n (x : Model_Forces.vec) : Model_Forces.dot (S n) x x = x O * x O + Model_Forces.dot n (fun d => x (S d)) (fun d => x (S d)).
Proof. induction n as [|n IH]; cbn; [ring|]. cbn in IH. rewrite IH. ring. Qed.

Lemma dot_nearest b : forall x y (X : Model_Forces.vec), length x = length b -> length y = length b ->
  (forall d a xd yd, nth_error b d = Some a -> nth_error x d = Some xd -> nth_error y d = Some yd -> X d = Q2R (min_image1 a (xd - yd))) ->
  Model_Forces.dot (length b) X X = Q2R (getDistanceSqr b x y).
Proof.
  induction b as [|a b IH]; intros [|x0 x] [|y0 y] X Hx Hy H; try discriminate.
  - cbn. now rewrite Q2R_0.
  - cbn [length]. rewrite dot_shift. rewrite (IH x y (fun d => X (S d))); [|cbn in *; lia|cbn in *; lia|intros d a' xd yd H1 H2 H3; exact (H (S d) a' xd yd H1 H2 H3)].
    rewrite (H O a x0 y0 eq_refl eq_refl eq_refl). cbn [getDistanceSqr]. unfold Qsqr. rewrite Q2R_plus, Q2R_mult. reflexivity.
Qed.
