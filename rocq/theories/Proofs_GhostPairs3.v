(* Ghost positions: the image of a particle of another processor that is nearest to the centre of the region. *)
From Verif Require Import Lib Model_Geometry Model_Cells Model_Buffer Model_GhostPairs Spec_Cells Spec_GhostPairs Proofs_Geometry
  Proofs_Cells1 Proofs_Cells2 Proofs_Cells3 Proofs_Cells4 Proofs_Cells5 Proofs_Cells6 Proofs_GhostPairs Proofs_GhostPairs2.
From Coq Require Import ZifyBool ZifyNat.
Local Open Scope Q_scope.

(* one axis *)
Definition rel1 (a : paxis) (x : Q) : Q :=
  (1#2) * (pmax a + pmin a) + min_image1 (mkAxis (smin a) (smax a) (pbc a)) (x - (1#2) * (pmax a + pmin a)).

Lemma relative_cons a p x xs : relative_position (sim_box (a :: p)) (map Some (x :: xs)) (center (region_bounds (a :: p))) =
  Some (rel1 a x) :: relative_position (sim_box p) (map Some xs) (center (region_bounds p)).
Proof. reflexivity. Qed.

Lemma rel1_plain a x : smin a <= pmin a /\ pmin a < pmax a /\ pmax a <= smax a -> smin a <= x < smax a ->
  (pbc a = WRAP -> whole a) -> rel1 a x == x.
Proof.
  intros Ho Hx Hw. unfold rel1, min_image1. cbn [bc]. destruct (bc_eqb_spec (pbc a) WRAP) as [E|E].
  - specialize (Hw E). unfold whole in Hw. unfold wd; cbn [lo hi].
    qabs (x - (1 # 2) * (pmax a + pmin a)); qcases; lra.
  - lra.
Qed.

Lemma rel1_split a x y r : smin a <= pmin a /\ pmin a < pmax a /\ pmax a <= smax a -> smin a <= x < smax a ->
  pmin a <= y <= pmax a -> pbc a = WRAP -> pmax a - pmin a + 2 * r <= smax a - smin a -> 0 < r ->
  Qabs (min_image1 (mkAxis (smin a) (smax a) (pbc a)) (x - y)) < r ->
  rel1 a x - y == min_image1 (mkAxis (smin a) (smax a) (pbc a)) (x - y).
Proof.
  intros Ho Hx Hy E Hw Hr Hd. unfold rel1, min_image1 in *. cbn [bc] in *. rewrite E in *. cbn [bc_eqb] in *.
  unfold wd in *; cbn [lo hi] in *. apply Qabs_Qlt_condition in Hd.
  qabs (x - y); qabs (x - (1 # 2) * (pmax a + pmin a)); qcases; lra.
Qed.

Lemma rel1_outside a x : smin a <= pmin a /\ pmin a < pmax a /\ pmax a <= smax a -> smin a <= x < smax a ->
  ~ (pmin a <= x < pmax a) ->
  (below a /\ rel1 a x < pmin a) \/ (above a /\ pmax a <= rel1 a x).
Proof.
  intros Ho Hx Hn. destruct (bc_eqb_spec (pbc a) WRAP) as [E|E].
  - destruct (whole_dec a) as [W|W]; [exfalso; unfold whole in W; apply Hn; lra|].
    assert (Hout : rel1 a x < pmin a \/ pmax a <= rel1 a x).
    { destruct (Qlt_le_dec (rel1 a x) (pmin a)) as [|H1]; [now left|].
      destruct (Qlt_le_dec (rel1 a x) (pmax a)) as [H2|]; [|now right]. exfalso. apply Hn.
      unfold rel1, min_image1 in *. cbn [bc] in *. rewrite E in *. cbn [bc_eqb] in *. unfold wd in *; cbn [lo hi] in *.
      qabs (x - (1 # 2) * (pmax a + pmin a)); revert H1 H2; qcases; intros; lra. }
    unfold below, above. destruct Hout; [left|right]; (split; [left; auto|assumption]).
  - pose proof (rel1_plain a x Ho Hx ltac:(intros K; contradiction)) as Er. unfold below, above.
    destruct (Qlt_le_dec x (pmin a)) as [H1|H1].
    + left. split; [right; split; [exact E|lra]|lra].
    + destruct (Qlt_le_dec x (pmax a)) as [H2|H2]; [exfalso; apply Hn; auto|].
      right. split; [right; split; [exact E|lra]|lra].
Qed.

Lemma relative_values p : forall x z, length x = length p ->
  map Some z = relative_position (sim_box p) (map Some x) (center (region_bounds p)) -> Forall2 (fun a xz => snd xz = rel1 a (fst xz)) p (combine x z) /\ length z = length p.
Proof.
  induction p as [|a p IH]; intros [|x0 x] [|z0 z] Hl H; try discriminate; [split; [constructor|reflexivity]|].
  rewrite relative_cons in H. cbn [map] in H. injection H as H0 H. destruct (IH x z) as [H1 H2]; [simpl in Hl; lia|exact H|].
  split; [constructor; auto|simpl; lia].
Qed.

Lemma ghost_of_outside p : region_in_simulation p -> forall x z, inside (sim_box p) x -> ~ inside (region_box p) x ->
  map Some z = relative_position (sim_box p) (map Some x) (center (region_bounds p)) -> ghost_position p z.
Proof.
  intros Ho x z Hx Hn Hz. split.
  - clear Hn. revert x z Hx Hz. induction p as [|a p IH]; intros x z Hx Hz; inversion Hx as [|? x0 ? x' Hx0 Hx']; subst.
    + destruct z; [constructor|discriminate].
    + rewrite relative_cons in Hz. destruct z as [|z0 z]; [discriminate|]. cbn [map] in Hz. injection Hz as Hz0 Hz.
      inversion Ho as [|? ? Ho0 Ho']; subst. constructor; [|eapply IH; eauto].
      intros E W. cbn [lo hi] in Hx0. rewrite (rel1_plain a x0 Ho0 Hx0) by auto. unfold whole in W. lra.
  - revert x z Hx Hz Hn. induction p as [|a p IH]; intros x z Hx Hz Hn; inversion Hx as [|? x0 ? x' Hx0 Hx']; subst.
    + exfalso. apply Hn. constructor.
    + rewrite relative_cons in Hz. destruct z as [|z0 z]; [discriminate|]. cbn [map] in Hz. injection Hz as Hz0 Hz.
      inversion Ho as [|? ? Ho0 Ho']; subst. cbn [lo hi] in Hx0.
      destruct (Qlt_le_dec x0 (pmin a)) as [H1|H1].
      { exists 0%nat, a, (rel1 a x0). split; [reflexivity|]. split; [reflexivity|]. apply rel1_outside; auto. lra. }
      destruct (Qlt_le_dec x0 (pmax a)) as [H2|H2].
      2:{ exists 0%nat, a, (rel1 a x0). split; [reflexivity|]. split; [reflexivity|]. apply rel1_outside; auto. lra. }
      destruct (IH Ho' x' z Hx' Hz) as (k & a' & xd & K1 & K2 & K3).
      { intros K. apply Hn. constructor; [cbn [lo hi]; auto|exact K]. }
      exists (S k), a', xd. auto.
Qed.

Lemma ghost_distance r p : 0 < r -> region_in_simulation p ->
  Forall (fun a => pbc a = WRAP -> ~ whole a -> pmax a - pmin a + 2 * r <= smax a - smin a) p ->
  forall x y z, inside (sim_box p) x -> Forall2 (fun a yd => pmin a <= yd <= pmax a) p y ->
  map Some z = relative_position (sim_box p) (map Some x) (center (region_bounds p)) ->
  getDistanceSqr (sim_box p) x y < Qsqr r ->
  getDistanceSqr (region_box p) z y == getDistanceSqr (sim_box p) x y.
Proof.
  intros Hr Ho Hw. induction p as [|a p IH]; intros x y z Hx Hy Hz Hd;
    inversion Hx as [|? x0 ? x' Hx0 Hx']; inversion Hy as [|? y0 ? y' Hy0 Hy']; subst.
  - destruct z; [reflexivity|discriminate].
  - rewrite relative_cons in Hz. destruct z as [|z0 z]; [discriminate|]. cbn [map] in Hz. injection Hz as Hz0 Hz.
    inversion Ho as [|? ? Ho0 Ho']; subst. inversion Hw as [|? ? Hw0 Hw']; subst. cbn [lo hi] in Hx0.
    cbn [sim_box region_box map getDistanceSqr] in *. fold (sim_box p) (region_box p) in *.
    set (m := min_image1 {| lo := smin a; hi := smax a; bc := pbc a |} (x0 - y0)) in *.
    pose proof (getDistanceSqr_nonneg (sim_box p) x' y') as Hn. pose proof (Qsq_nonneg m) as Hm. fold (Qsqr m) in Hm.
    rewrite (IH Ho' Hw' x' y' z Hx' Hy' Hz) by lra.
    enough (E : min_image1 {| lo := pmin a; hi := pmax a; bc := if spanned a then WRAP else OPEN |} (rel1 a x0 - y0) == m).
    { unfold Qsqr. rewrite E. reflexivity. }
    assert (Hab : Qabs m < r) by (apply Qsq_lt_abs; [exact Hr|lra]). unfold m in *. clear m Hm Hn Hd IH.
    destruct (spanned a) eqn:Sp.
    + apply spanned_spec in Sp. destruct Sp as [S1 S2]. pose proof (rel1_plain a x0 Ho0 Hx0 ltac:(auto)) as Er.
      unfold min_image1. cbn [bc]. rewrite S1. cbn [bc_eqb]. unfold wd; cbn [lo hi]. unfold whole in S2.
      set (u := rel1 a x0) in *. clearbody u.
      qabs (u - y0); qabs (x0 - y0); qcases; lra.
    + unfold min_image1 at 1. cbn [bc bc_eqb].
      destruct (bc_eqb_spec (pbc a) WRAP) as [E|E].
      * assert (W : ~ whole a). { intros W. assert (spanned a = true) by (apply spanned_spec; auto). congruence. }
        apply (rel1_split a x0 y0 r Ho0 Hx0 Hy0 E (Hw0 E W) Hr Hab).
      * unfold min_image1. cbn [bc]. destruct (bc_eqb_spec (pbc a) WRAP); [contradiction|].
        rewrite (rel1_plain a x0 Ho0 Hx0) by (intros; contradiction). reflexivity.
Qed.
