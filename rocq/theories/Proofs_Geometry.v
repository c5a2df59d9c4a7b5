From Verif Require Import Lib Model_Geometry Spec_Geometry.
Local Open Scope Q_scope.

Lemma bc_eqb_spec a b : reflect (a = b) (bc_eqb a b).
Proof. destruct a, b; constructor; congruence. Qed.

Ltac bcs := repeat match goal with
  | |- context [bc_eqb ?a ?b] => destruct (bc_eqb_spec a b)
  | H : context [bc_eqb ?a ?b] |- _ => destruct (bc_eqb_spec a b)
  end.

Lemma Zle_Q a b : (a <= b)%Z -> inject_Z a <= inject_Z b.
Proof. now rewrite <- Zle_Qle. Qed.

(* x inside the closed axis interval *)
Lemma min_image1_nowrap a d : bc a <> WRAP -> min_image1 a d == d.
Proof. unfold min_image1. bcs; [congruence|reflexivity]. Qed.


Lemma min_image1_congr a d : lo a <= hi a ->
  exists k : Z, min_image1 a d == d + inject_Z k * wd a.
Proof.
  intros Hw. assert (0 <= wd a) by (unfold wd; lra).
  unfold min_image1. bcs; [|exists 0%Z; change (inject_Z 0) with 0; lra].
  qabs d; qcases.
  - exists (-1)%Z. change (inject_Z (-1)) with (-1). rewrite Habs. lra.
  - exfalso. lra.
  - exists 0%Z. change (inject_Z 0) with 0. lra.
  - exfalso; lra.
  - exists 1%Z. change (inject_Z 1) with 1. rewrite Habs. lra.
  - exists 0%Z. change (inject_Z 0) with 0. lra.
Qed.

Lemma min_image1_half a d : bc a = WRAP -> lo a <= hi a -> Qabs d <= wd a ->
  Qabs (min_image1 a d) <= wd a / 2.
Proof.
  intros Hbc Hw Hd. assert (0 <= wd a) by (unfold wd; lra).
  unfold min_image1. bcs; [|congruence].
  assert (E : wd a / 2 == (1#2) * wd a) by field. rewrite E.
  qabs d; qcases; apply Qabs_Qle_condition; lra.
Qed.

Lemma images_min w r m : 0 <= w -> Qabs r <= w / 2 -> Qabs r <= Qabs (r + inject_Z m * w).
Proof.
  intros Hw Hr. assert (E : w / 2 == (1#2) * w) by field. rewrite E in Hr.
  destruct (Z.eq_dec m 0) as [->|Hm].
  - change (inject_Z 0) with 0. setoid_replace (r + 0 * w) with r by ring. lra.
  - assert (Hc : (m <= -1 \/ 1 <= m)%Z) by lia.
    destruct Hc as [Hc|Hc]; apply Zle_Q in Hc; change (inject_Z (-1)) with (-1) in *;
      change (inject_Z 1) with 1 in *; set (q := inject_Z m) in *.
    + assert (q * w <= - w) by nra. qabs r; qabs (r + q * w); lra.
    + assert (w <= q * w) by nra. qabs r; qabs (r + q * w); lra.
Qed.

Lemma min_image1_min a d k : bc a = WRAP -> lo a <= hi a -> Qabs d <= wd a ->
  Qabs (min_image1 a d) <= Qabs (d + inject_Z k * wd a).
Proof.
  intros Hbc Hw Hd.
  destruct (min_image1_congr a d Hw) as [k0 Hk].
  pose proof (min_image1_half a d Hbc Hw Hd) as Hh.
  assert (E : d + inject_Z k * wd a == min_image1 a d + inject_Z (k - k0) * wd a).
  { rewrite Hk. unfold Z.sub. rewrite inject_Z_plus, inject_Z_opp. ring. }
  rewrite E. apply images_min; [unfold wd; lra|exact Hh].
Qed.

Lemma min_image1_opp a d : lo a <= hi a -> min_image1 a (- d) == - min_image1 a d.
Proof.
  intros Hw. assert (0 <= wd a) by (unfold wd; lra).
  unfold min_image1. bcs; [|reflexivity].
  pose proof (Qabs_opp d). qabs d; qcases; lra.
Qed.

Lemma min_image1_ext a d d' : d == d' -> min_image1 a d == min_image1 a d'.
Proof.
  intros E. unfold min_image1. bcs; [|exact E].
  pose proof (Qabs_wd _ _ E) as E'. qcases; lra.
Qed.

Lemma getDisplacement_nth b : forall x y i a xi yi,
  nth_error b i = Some a -> nth_error x i = Some xi -> nth_error y i = Some yi ->
  nth_error (getDisplacement b x y) i = Some (min_image1 a (xi - yi)).
Proof.
  induction b as [|a0 b IH]; intros [|x0 x] [|y0 y] [|i] a xi yi; simpl; intros Ha Hx Hy;
    try discriminate; eauto; congruence.
Qed.

Lemma getDisplacement_length b : forall x y,
  length x = length b -> length y = length b -> length (getDisplacement b x y) = length b.
Proof.
  induction b as [|a0 b IH]; intros [|x0 x] [|y0 y]; simpl; intros; try discriminate; auto.
Qed.

Lemma minimumImage_displacement b : forall x y,
  length x = length b -> length y = length b ->
  minimumImage b (map (fun p => fst p - snd p) (combine x y)) = getDisplacement b x y.
Proof.
  induction b as [|a0 b IH]; intros [|x0 x] [|y0 y]; simpl; intros; try discriminate; auto.
  f_equal; auto.
Qed.

Lemma getDistanceSqr_displacement b : forall x y,
  getDistanceSqr b x y == Qsum (map Qsqr (getDisplacement b x y)).
Proof.
  unfold Qsum. induction b as [|a b IH]; intros [|x0 x] [|y0 y]; simpl; try reflexivity.
  rewrite IH. reflexivity.
Qed.

Lemma getDistanceSqr_sym b : Forall (fun a => lo a <= hi a) b ->
  forall x y, getDistanceSqr b x y == getDistanceSqr b y x.
Proof.
  induction 1 as [|a b Ha Hb IH]; intros [|x0 x] [|y0 y]; simpl; try reflexivity.
  rewrite (IH x y).
  assert (E : min_image1 a (x0 - y0) == - min_image1 a (y0 - x0)).
  { rewrite <- min_image1_opp by assumption. apply min_image1_ext. ring. }
  unfold Qsqr. rewrite E. ring.
Qed.

Lemma getDisplacement_antisym b : Forall (fun a => lo a <= hi a) b ->
  forall x y, Forall2 Qeq (getDisplacement b x y) (map Qopp (getDisplacement b y x)).
Proof.
  induction 1 as [|a b Ha Hb IH]; intros [|x0 x] [|y0 y]; simpl; constructor; auto.
  rewrite <- min_image1_opp by assumption. apply min_image1_ext. ring.
Qed.

Lemma getDistanceSqr_nonneg b : forall x y, 0 <= getDistanceSqr b x y.
Proof.
  induction b as [|a b IH]; intros [|x0 x] [|y0 y]; simpl; try lra.
  specialize (IH x y). unfold Qsqr. nra.
Qed.

Lemma Qsqr_abs_le u v : Qabs u <= Qabs v -> Qsqr u <= Qsqr v.
Proof. intros H. unfold Qsqr. qabs u; qabs v; rewrite Habs, Habs0 in H; nra. Qed.

Lemma getDistanceSqr_min b : forall x y ks, in_closed b x -> in_closed b y ->
  length ks = length b -> getDistanceSqr b x y <= imageSqr b ks x y.
Proof.
  induction b as [|a b IH]; intros x y ks Hx Hy Hl.
  - destruct ks; simpl; lra.
  - inversion Hx as [|? x0 ? x' Hx0 Hx']; inversion Hy as [|? y0 ? y' Hy0 Hy']; subst.
    destruct ks as [|k ks]; [discriminate|]. cbn [getDistanceSqr imageSqr]. fold (wd a).
    assert (H1 : Qsqr (min_image1 a (x0 - y0)) <=
       Qsqr match bc a with WRAP => x0 - y0 + inject_Z k * wd a | _ => x0 - y0 end).
    { apply Qsqr_abs_le. destruct (bc a) eqn:E;
        try (rewrite (min_image1_nowrap a) by congruence; lra).
      apply min_image1_min; auto; [lra|]. apply Qabs_Qle_condition; unfold wd; lra. }
    specialize (IH x' y' ks Hx' Hy' ltac:(simpl in Hl; lia)). lra.
Qed.

(* ---------------------------------------------------------------- wrap *)
Lemma Qtrunc_nonneg q : 0 <= q -> Qtrunc q = Qfloor q.
Proof. intros H. unfold Qtrunc. qcases; [lra|reflexivity]. Qed.

Lemma fmod_nonneg a b : 0 <= a -> 0 < b ->
  exists r k, fmod a b = Some r /\ 0 <= r /\ r < b /\ r == a - inject_Z k * b.
Proof.
  intros Ha Hb. unfold fmod.
  destruct (Qeq_bool b 0) eqn:E; [apply Qeq_bool_iff in E; lra|].
  assert (Hq : 0 <= a / b) by (apply Qle_shift_div_l; lra).
  rewrite Qtrunc_nonneg by exact Hq.
  exists (a - b * inject_Z (Qfloor (a / b))), (Qfloor (a / b)).
  pose proof (Qfloor_le (a / b)) as H1. pose proof (Qlt_floor (a / b)) as H2.
  rewrite inject_Z_plus in H2. change (inject_Z 1) with 1 in H2.
  set (z := inject_Z (Qfloor (a / b))) in *.
  assert (Hz : a / b * b == a) by (field; lra).
  repeat split; [nra|nra|ring].
Qed.

Lemma wrap1_correct a x : bc a = WRAP -> lo a < hi a ->
  exists x' k, wrap1 a x = Some x' /\ lo a <= x' <= hi a /\ x' == x + inject_Z k * wd a.
Proof.
  intros Hbc Hw. assert (Hwd : 0 < wd a) by (unfold wd; lra).
  unfold wrap1. bcs; [|congruence]. qcases.
  - destruct (fmod_nonneg (lo a - x) (wd a)) as (r & k & -> & Hr & Hr' & E); [lra|exact Hwd|].
    exists (hi a - r), (k + 1)%Z. cbn [option_map]. rewrite inject_Z_plus. change (inject_Z 1) with 1.
    split; [reflexivity|]. split; [unfold wd in *; lra|]. rewrite E. unfold wd. ring.
  - destruct (fmod_nonneg (x - lo a) (wd a)) as (r & k & -> & Hr & Hr' & E); [lra|exact Hwd|].
    exists (r + lo a), (- k)%Z. cbn [option_map]. rewrite inject_Z_opp.
    split; [reflexivity|]. split; [unfold wd in *; lra|]. rewrite E. unfold wd. ring.
  - exists x, 0%Z. change (inject_Z 0) with 0. repeat split; lra.
Qed.

(* half-open result, when the coordinate is not exactly a whole number of widths below *)
Lemma wrap1_halfopen a x : bc a = WRAP -> lo a < hi a ->
  (forall k : Z, ~ (x < lo a /\ x == lo a - inject_Z k * wd a)) ->
  exists x', wrap1 a x = Some x' /\ lo a <= x' < hi a.
Proof.
  intros Hbc Hw Hn. assert (Hwd : 0 < wd a) by (unfold wd; lra).
  unfold wrap1. bcs; [|congruence]. qcases.
  - destruct (fmod_nonneg (lo a - x) (wd a)) as (r & k & -> & Hr & Hr' & E); [lra|exact Hwd|].
    exists (hi a - r). split; [reflexivity|]. split; [unfold wd in *; lra|].
    destruct (Qlt_le_dec 0 r); [lra|].
    exfalso. apply (Hn k). split; [exact q|]. assert (r == 0) by lra. lra.
  - destruct (fmod_nonneg (x - lo a) (wd a)) as (r & k & -> & Hr & Hr' & E); [lra|exact Hwd|].
    exists (r + lo a). split; [reflexivity|]. unfold wd in *; lra.
  - exists x. split; [reflexivity|lra].
Qed.

Lemma wrap1_nowrap a x : bc a <> WRAP -> wrap1 a x = Some x.
Proof. intros. unfold wrap1. bcs; congruence. Qed.

Lemma wrap1_inside a x : lo a <= x -> x < hi a -> wrap1 a x = Some x.
Proof. intros. unfold wrap1. bcs; [|reflexivity]. qcases; try reflexivity; lra. Qed.

Lemma wrap_nth b : forall x i a xi, nth_error b i = Some a -> nth_error x i = Some xi ->
  nth_error (wrap b x) i = Some (wrap1 a xi).
Proof.
  induction b as [|a0 b IH]; intros [|x0 x] [|i] a xi; simpl; intros Ha Hx; try discriminate;
    [congruence|eauto].
Qed.

Lemma wrapPositions_nth b so xs n x : nth_error xs n = Some x ->
  nth_error (wrapPositions b so xs) n = Some (if Nat.ltb n so then wrap b x else map Some x).
Proof.
  intros H. unfold wrapPositions.
  assert (Hn : (n < length xs)%nat) by (apply nth_error_Some; congruence).
  destruct (Nat.ltb_spec n so).
  - rewrite nth_error_app1 by (rewrite map_length, firstn_length; lia).
    apply map_nth_error. rewrite <- H. 
    rewrite <- (firstn_skipn so xs) at 2. rewrite nth_error_app1; [reflexivity|].
    rewrite firstn_length; lia.
  - rewrite nth_error_app2 by (rewrite map_length, firstn_length; lia).
    rewrite map_length, firstn_length, Nat.min_l by lia.
    apply map_nth_error. rewrite <- H.
    rewrite <- (firstn_skipn so xs) at 2.
    rewrite nth_error_app2 by (rewrite firstn_length; lia).
    rewrite firstn_length, Nat.min_l by lia. reflexivity.
Qed.

Lemma wrapPositions_correct b so xs n x i a xi :
  lo a < hi a ->
  nth_error xs n = Some x -> nth_error b i = Some a -> nth_error x i = Some xi ->
  exists x' xi', nth_error (wrapPositions b so xs) n = Some x' /\ nth_error x' i = Some (Some xi') /\
   (((n < so)%nat /\ bc a = WRAP) -> lo a <= xi' <= hi a /\ exists k, xi' == xi + inject_Z k * wd a) /\
   (~ ((n < so)%nat /\ bc a = WRAP) -> xi' = xi).
Proof.
  intros Hw Hn Ha Hx. rewrite (wrapPositions_nth b so xs n x Hn).
  destruct (Nat.ltb_spec n so) as [Hlt|Hge].
  - destruct (bc_eqb_spec (bc a) WRAP) as [E|E].
    + destruct (wrap1_correct a xi E Hw) as (x' & k & H1 & H2 & H3).
      exists (wrap b x), x'. split; [reflexivity|]. split; [rewrite <- H1; now apply wrap_nth|].
      split; [eauto|tauto].
    + exists (wrap b x), xi. split; [reflexivity|].
      split; [rewrite <- (wrap1_nowrap a xi E); now apply wrap_nth|]. split; [tauto|auto].
  - exists (map Some x), xi. split; [reflexivity|].
    split; [now apply map_nth_error|]. split; [lia|auto].
Qed.

(* a second wrap is the identity except when the first one produced the upper bound, where it goes to lo *)
Lemma wrap1_twice a x x' : bc a = WRAP -> lo a < hi a -> wrap1 a x = Some x' ->
  x' < hi a -> wrap1 a x' = Some x'.
Proof.
  intros Hbc Hw H Hlt. destruct (wrap1_correct a x Hbc Hw) as (y & k & H1 & H2 & H3).
  rewrite H in H1. injection H1 as <-. apply wrap1_inside; lra.
Qed.

(* ---------------------------------------------------------------- reflect *)
Lemma reflect1_correct a x v : lo a <= hi a -> bc a = REFL ->
  lo a - (hi a - lo a) <= x <= hi a + (hi a - lo a) ->
  lo a <= fst (reflect1 a x v) <= hi a.
Proof. intros. unfold reflect1. bcs; [|congruence]. qcases; simpl; lra. Qed.

Lemma reflect1_speed a x v : Qsqr (snd (reflect1 a x v)) == Qsqr v.
Proof. unfold reflect1, Qsqr. bcs; qcases; simpl; ring. Qed.

Lemma reflect1_inside a x v : lo a <= x <= hi a -> reflect1 a x v = (x, v).
Proof. intros. unfold reflect1. bcs; [|reflexivity]. qcases; try reflexivity; lra. Qed.

Lemma reflect1_other a x v : bc a <> REFL -> reflect1 a x v = (x, v).
Proof. intros. unfold reflect1. bcs; congruence. Qed.

(* velocity after a reflection points back in, if the particle was leaving *)
Lemma reflect1_inward a x v : bc a = REFL ->
  (x < lo a -> snd (reflect1 a x v) == - v) /\
  (lo a <= x -> hi a < x -> snd (reflect1 a x v) == - v).
Proof. intros. unfold reflect1. bcs; [|congruence]. split; intros; qcases; simpl; lra. Qed.

Lemma reflect_nth b : forall x v i a xi vi,
  nth_error b i = Some a -> nth_error x i = Some xi -> nth_error v i = Some vi ->
  nth_error (reflect_vec b x v) i = Some (reflect1 a xi vi).
Proof.
  induction b as [|a0 b IH]; intros [|x0 x] [|v0 v] [|i] a xi vi; simpl; intros; try discriminate;
    eauto; congruence.
Qed.

Lemma reflectPositions_correct b x v i a xi vi :
  nth_error b i = Some a -> nth_error x i = Some xi -> nth_error v i = Some vi ->
  exists xi' vi', nth_error (reflect_vec b x v) i = Some (xi', vi') /\
    Qabs vi' == Qabs vi /\
    (lo a <= xi <= hi a -> xi' = xi /\ vi' = vi) /\
    (bc a <> REFL -> xi' = xi /\ vi' = vi) /\
    (lo a <= hi a -> bc a = REFL -> lo a - wd a <= xi <= hi a + wd a -> lo a <= xi' <= hi a) /\
    (lo a <= hi a -> bc a = REFL -> (xi < lo a \/ hi a < xi) -> vi' == - vi).
Proof.
  intros Ha Hx Hv. destruct (reflect1 a xi vi) as [x' v'] eqn:E.
  exists x', v'. split; [rewrite <- E; now apply reflect_nth|].
  assert (Hsp : Qabs v' == Qabs vi).
  { unfold reflect1 in E. bcs; qcases; injection E as <- <-; try reflexivity; apply Qabs_opp. }
  repeat split; auto.
  all: intros.
  - rewrite reflect1_inside in E by lra. congruence.
  - rewrite reflect1_inside in E by lra. congruence.
  - rewrite reflect1_other in E by assumption. congruence.
  - rewrite reflect1_other in E by assumption. congruence.
  - pose proof (reflect1_correct a xi vi) as H'. rewrite E in H'. simpl in H'. unfold wd in *.
    now apply H'.
  - pose proof (reflect1_correct a xi vi) as H'. rewrite E in H'. simpl in H'. unfold wd in *.
    now apply H'.
  - unfold reflect1 in E. bcs; [|congruence]. qcases; injection E as <- <-; lra.
Qed.

(* ---------------------------------------------------------------- repulse *)
Lemma repulse1_correct rp ds a x v df bf be : 0 <= rp -> 0 <= ds ->
  repulse1 rp ds a x v = (df, bf, be) ->
  0 <= bf /\ 0 <= be /\ Qabs df == bf /\
  (bc a <> REPL \/ lo a <= x <= hi a -> df == 0) /\
  (lo a <= hi a -> bc a = REPL -> x < lo a -> 10 * rp * (lo a - x) <= df) /\
  (lo a <= hi a -> bc a = REPL -> hi a < x -> df <= - (10 * rp * (x - hi a))).
Proof.
  intros Hr Hd. unfold repulse1. bcs.
  - destruct (Qltb_spec x (lo a)); [|destruct (Qltb_spec (hi a) x)]; intros E; injection E as <- <- <-.
    + assert (Hc : 0 <= clamp (- v)) by (unfold clamp; qcases; lra).
      assert (0 <= ds * clamp (- v)) by nra. assert (0 <= rp * (lo a - x)) by nra.
      unfold Qsqr. repeat split; intros; try lra; try nra.
      * apply Qabs_pos. lra.
      * destruct H1; [congruence|lra].
    + assert (Hc : 0 <= clamp v) by (unfold clamp; qcases; lra).
      assert (0 <= ds * clamp v) by nra. assert (0 <= rp * (x - hi a)) by nra.
      unfold Qsqr. repeat split; intros; try lra; try nra.
      * rewrite Qabs_opp. apply Qabs_pos. lra.
      * destruct H1; [congruence|lra].
    + repeat split; intros; try reflexivity; lra.
  - intros E; injection E as <- <- <-. repeat split; intros; try reflexivity; try lra; congruence.
Qed.

Lemma repulse_vec_nonneg rp ds : 0 <= rp -> 0 <= ds -> forall b x v f,
  0 <= snd (fst (repulse_vec rp ds b x v f)) /\ 0 <= snd (repulse_vec rp ds b x v f).
Proof.
  intros Hr Hd. induction b as [|a b IH]; intros [|x0 x] [|v0 v] [|f0 f]; simpl; try lra.
  destruct (repulse1 rp ds a x0 v0) as [[df bf] be] eqn:E.
  specialize (IH x v f). destruct (repulse_vec rp ds b x v f) as [[fs bF] bE]. simpl in *.
  apply repulse1_correct in E; auto. lra.
Qed.

Lemma repulse_vec_nth rp ds : forall b x v f i a xi vi fi,
  nth_error b i = Some a -> nth_error x i = Some xi -> nth_error v i = Some vi ->
  nth_error f i = Some fi ->
  nth_error (fst (fst (repulse_vec rp ds b x v f))) i = Some (fi + fst (fst (repulse1 rp ds a xi vi))).
Proof.
  induction b as [|a b IH]; intros [|x0 x] [|v0 v] [|f0 f] [|i] a1 xi vi fi; simpl; intros Ha Hx Hv Hf;
    try discriminate.
  - injection Ha as ->. injection Hx as ->. injection Hv as ->. injection Hf as ->.
    destruct (repulse1 rp ds a1 xi vi) as [[df bf] be].
    destruct (repulse_vec rp ds b x v f) as [[fs bF] bE]. reflexivity.
  - specialize (IH x v f i a1 xi vi fi Ha Hx Hv Hf).
    destruct (repulse1 rp ds a x0 v0) as [[df bf] be].
    destruct (repulse_vec rp ds b x v f) as [[fs bF] bE]. exact IH.
Qed.

Lemma repulsePositions_nonneg rp ds b ps : 0 <= rp -> 0 <= ds ->
  0 <= snd (fst (repulsePositions rp ds b ps)) /\ 0 <= snd (repulsePositions rp ds b ps).
Proof.
  intros Hr Hd. induction ps as [|[[x v] f] ps IH]; simpl; [lra|].
  pose proof (repulse_vec_nonneg rp ds Hr Hd b x v f) as H.
  destruct (repulse_vec rp ds b x v f) as [[f' bf] be].
  destruct (repulsePositions rp ds b ps) as [[fs bF] bE]. simpl in *. lra.
Qed.

Lemma repulsePositions_nth rp ds b : forall ps n x v f, nth_error ps n = Some (x, v, f) ->
  nth_error (fst (fst (repulsePositions rp ds b ps))) n = Some (fst (fst (repulse_vec rp ds b x v f))).
Proof.
  induction ps as [|[[x0 v0] f0] ps IH]; intros [|n] x v f; simpl; intros H; try discriminate.
  - injection H as -> -> ->. destruct (repulse_vec rp ds b x v f) as [[f' bf] be].
    destruct (repulsePositions rp ds b ps) as [[fs bF] bE]. reflexivity.
  - specialize (IH n x v f H). destruct (repulse_vec rp ds b x0 v0 f0) as [[f' bf] be].
    destruct (repulsePositions rp ds b ps) as [[fs bF] bE]. exact IH.
Qed.

Lemma repulsePositions_force rp ds b ps n x v f i a xi vi fi :
  0 <= rp -> 0 <= ds -> lo a <= hi a ->
  nth_error ps n = Some (x, v, f) ->
  nth_error b i = Some a -> nth_error x i = Some xi -> nth_error v i = Some vi ->
  nth_error f i = Some fi ->
  exists f' fi', nth_error (fst (fst (repulsePositions rp ds b ps))) n = Some f' /\
    nth_error f' i = Some fi' /\
    (bc a <> REPL \/ lo a <= xi <= hi a -> fi' == fi) /\
    (bc a = REPL -> xi < lo a -> fi + 10 * rp * (lo a - xi) <= fi') /\
    (bc a = REPL -> hi a < xi -> fi' <= fi - 10 * rp * (xi - hi a)).
Proof.
  intros Hr Hd Hw Hn Ha Hx Hv Hf.
  rewrite (repulsePositions_nth rp ds b ps n x v f Hn).
  eexists _, _. split; [reflexivity|].
  split; [apply repulse_vec_nth; eassumption|].
  destruct (repulse1 rp ds a xi vi) as [[df bf] be] eqn:E. cbn [fst].
  apply repulse1_correct in E; auto. destruct E as (H1 & H2 & H3 & H4 & H5 & H6).
  repeat split; intros.
  - rewrite (H4 H). lra.
  - specialize (H5 Hw H H0). lra.
  - specialize (H6 Hw H H0). lra.
Qed.

(* ---------------------------------------------------------------- bounds *)
Lemma contains_spec b : forall x, length x = length b ->
  contains b x = true <-> Forall2 (fun mM xd => fst mM <= xd < snd mM) b x.
Proof.
  induction b as [|[m M] b IH]; intros [|x0 x]; simpl; intros Hl; try discriminate.
  - split; [constructor|reflexivity].
  - injection Hl as Hl. specialize (IH x Hl). qcases; simpl; split; intros H; try discriminate.
    + inversion H; simpl in *; lra.
    + inversion H; simpl in *; lra.
    + inversion H; simpl in *; lra.
    + constructor; [simpl; lra|now apply IH].
    + inversion H; now apply IH.
Qed.

Lemma inter_loop_some A : forall B C, length A = length B -> inter_loop A B = Some C ->
  length C = length A /\ forall x, length x = length A ->
    (contains C x = true <-> contains A x = true /\ contains B x = true).
Proof.
  induction A as [|[am aM] A IH]; intros [|[bm bM] B] C; simpl; intros Hl H; try discriminate.
  - injection H as <-. split; [reflexivity|]. intros [|? ?]; simpl; [tauto|discriminate].
  - injection Hl as Hl. destruct (Qle_bool (Qminb aM bM) (Qmaxb am bm)); [discriminate|].
    destruct (inter_loop A B) as [C'|] eqn:E; [|discriminate]. injection H as <-.
    destruct (IH B C' Hl E) as [HlC HC]. split; [simpl; lia|].
    intros [|x0 x]; simpl; [discriminate|]. intros Hx. injection Hx as Hx. specialize (HC x Hx).
    unfold Qminb, Qmaxb. qcases; simpl; try lra; try tauto; (split; [intros; discriminate|intros [? ?]; discriminate]) || idtac.
Qed.

Lemma inter_loop_none A : forall B, length A = length B -> inter_loop A B = None ->
  forall x, length x = length A -> ~ (contains A x = true /\ contains B x = true).
Proof.
  induction A as [|[am aM] A IH]; intros [|[bm bM] B]; simpl; intros Hl H; try discriminate.
  injection Hl as Hl. intros [|x0 x]; [discriminate|]. intros Hx; injection Hx as Hx. intros [H1 H2].
  destruct (inter_loop A B) as [C'|] eqn:E.
  - destruct (Qleb_spec (Qminb aM bM) (Qmaxb am bm)) as [Hle|]; [|discriminate].
    unfold Qminb, Qmaxb in *. qcases; simpl in *; try discriminate; lra.
  - specialize (IH B Hl E x Hx). apply IH. qcases; simpl in *; try discriminate; auto.
Qed.

Lemma contains_zeros A : forall x, A <> [] -> length x = length A ->
  contains (map (fun _ : Q * Q => (0, 0)) A) x = false.
Proof.
  destruct A as [|a A]; [congruence|]. intros [|x0 x]; [discriminate|]. simpl. intros _ _.
  qcases; simpl; try reflexivity; lra.
Qed.

Lemma intersection_spec A B C : A <> [] -> intersection A B = Some C ->
  length C = length A /\
  forall x, length x = length A ->
    (contains C x = true <-> contains A x = true /\ contains B x = true).
Proof.
  unfold intersection. intros HA H. destruct (Nat.eqb_spec (length A) (length B)) as [Hl|]; [|discriminate].
  destruct (inter_loop A B) as [C'|] eqn:E.
  - injection H as <-. now apply inter_loop_some.
  - injection H as <-. split; [now rewrite map_length|]. intros x Hx.
    rewrite contains_zeros by assumption. split; [discriminate|].
    intros Hc. exfalso. exact (inter_loop_none A B Hl E x Hx Hc).
Qed.

Lemma intersection_defined A B : intersection A B = None <-> length A <> length B.
Proof.
  unfold intersection. destruct (Nat.eqb_spec (length A) (length B)); [|split; congruence].
  destruct (inter_loop A B); split; congruence.
Qed.

Lemma center_contained b : Forall (fun mM => fst mM < snd mM) b -> contains b (center b) = true.
Proof.
  intros H. apply contains_spec; [unfold center; now rewrite map_length|].
  unfold center. induction H as [|[m M] b Hm Hb IH]; simpl; constructor; [simpl in *; lra|exact IH].
Qed.

Lemma distance_fold_ge : forall l acc, acc <= fold_left (fun acc p => let '((m, M), xd) := p in
      if Qltb xd m then acc + Qsqr (m - xd)
      else if Qltb M xd then acc + Qsqr (xd - M) else acc) l acc.
Proof.
  induction l as [|[[m M] xd] l IH]; intros acc; simpl; [lra|].
  eapply Qle_trans; [|apply IH]. unfold Qsqr. qcases; nra.
Qed.


Lemma distance_zero b : Forall (fun mM => fst mM <= snd mM) b -> forall x, length x = length b ->
  distanceSqr b x == 0 <-> Forall2 (fun mM xd => fst mM <= xd <= snd mM) b x.
Proof.
  unfold distanceSqr.
  assert (G : forall acc, 0 <= acc -> Forall (fun mM => fst mM <= snd mM) b -> forall x, length x = length b ->
    fold_left (fun acc p => let '((m, M), xd) := p in
      if Qltb xd m then acc + Qsqr (m - xd)
      else if Qltb M xd then acc + Qsqr (xd - M) else acc) (combine b x) acc == 0
    <-> acc == 0 /\ Forall2 (fun mM xd => fst mM <= xd <= snd mM) b x).
  { induction b as [|[m M] b IH]; intros acc Hacc Hb [|x0 x] Hl; simpl in *; try discriminate.
    - split; [intros; split; auto; constructor|tauto].
    - injection Hl as Hl. inversion Hb as [|? ? Hm Hb']; subst. simpl in Hm.
      qcases.
      + rewrite IH; auto; [|unfold Qsqr; nra]. split; intros [H1 H2].
        * unfold Qsqr in H1. exfalso. nra.
        * inversion H2; simpl in *; lra.
      + rewrite IH; auto; [|unfold Qsqr; nra]. split; intros [H1 H2].
        * unfold Qsqr in H1. exfalso. nra.
        * inversion H2; simpl in *; lra.
      + rewrite IH; auto. split; intros [H1 H2]; split; auto.
        * constructor; [simpl; lra|exact H2].
        * now inversion H2. }
  intros Hb x Hl. rewrite G; auto; [|lra]. intuition. 
Qed.

(* ---------------------------------------------------------------- final forms *)
Lemma displacement_component b x y i a xi yi :
  nth_error b i = Some a -> nth_error x i = Some xi -> nth_error y i = Some yi ->
  lo a <= xi <= hi a -> lo a <= yi <= hi a ->
  exists d, nth_error (getDisplacement b x y) i = Some d /\
    (bc a = WRAP -> (exists k : Z, d == (xi - yi) + inject_Z k * (hi a - lo a)) /\
                    Qabs d <= (hi a - lo a) / 2 /\
                    forall k : Z, Qabs d <= Qabs ((xi - yi) + inject_Z k * (hi a - lo a))) /\
    (bc a <> WRAP -> d == xi - yi).
Proof.
  intros Ha Hx Hy Hxi Hyi. eexists. split; [eapply getDisplacement_nth; eassumption|].
  assert (Qabs (xi - yi) <= wd a) by (apply Qabs_Qle_condition; unfold wd; lra).
  split; intros Hbc.
  - split; [|split].
    + apply min_image1_congr; lra.
    + apply min_image1_half; auto; lra.
    + intros k. apply min_image1_min; auto; lra.
  - now apply min_image1_nowrap.
Qed.

Lemma getDistanceSqr_attained b : forall x y, in_closed b x -> in_closed b y ->
  exists ks, length ks = length b /\ getDistanceSqr b x y == imageSqr b ks x y.
Proof.
  induction b as [|a b IH]; intros x y Hx Hy.
  - exists []. split; reflexivity.
  - inversion Hx as [|? x0 ? x' Hx0 Hx']; inversion Hy as [|? y0 ? y' Hy0 Hy']; subst.
    destruct (IH x' y' Hx' Hy') as (ks & Hl & E).
    destruct (min_image1_congr a (x0 - y0)) as [k Hk]; [lra|].
    exists (k :: ks). split; [simpl; lia|]. cbn [getDistanceSqr imageSqr]. rewrite E.
    unfold Qsqr. destruct (bc a) eqn:Eb; [rewrite Hk; unfold wd; ring|..];
      rewrite (min_image1_nowrap a) by congruence; reflexivity.
Qed.

Lemma kernels_agree b x y : length x = length b -> length y = length b ->
  minimumImage b (map (fun p => fst p - snd p) (combine x y)) = getDisplacement b x y /\
  forall a r, harmonic1 a r = min_image1 a r.
Proof. intros Hx Hy. split; [now apply minimumImage_displacement|reflexivity]. Qed.

Lemma displacement_outside : exists a x y, bc a = WRAP /\ lo a < hi a /\ lo a <= y <= hi a /\
    exists d, getDisplacement [a] [x] [y] = [d] /\
      ~ Qabs d <= Qabs ((x - y) + inject_Z (-2) * (hi a - lo a)).
Proof.
  exists (mkAxis 0 1 WRAP), 2, 0. repeat split; try (unfold Qle, Qlt; simpl; lia).
  eexists. split; [reflexivity|]. unfold Qle; simpl; lia.
Qed.

Lemma wrap1_halfopen_idem a x : bc a = WRAP -> lo a < hi a ->
  (forall k : Z, ~ (x < lo a /\ x == lo a - inject_Z k * (hi a - lo a))) ->
  exists x', wrap1 a x = Some x' /\ lo a <= x' < hi a /\ wrap1 a x' = Some x'.
Proof.
  intros Hbc Hw Hn. destruct (wrap1_halfopen a x Hbc Hw Hn) as (x' & H1 & H2).
  exists x'. repeat split; try tauto. apply wrap1_inside; tauto.
Qed.

Lemma wrap1_not_idempotent : exists a x x' x'', bc a = WRAP /\ lo a < hi a /\
    wrap1 a x = Some x' /\ ~ (x' < hi a) /\ wrap1 a x' = Some x'' /\ ~ x'' == x'.
Proof.
  exists (mkAxis 0 1 WRAP), (-1), 1, 0.
  repeat split; try (unfold Qlt, Qeq; simpl; lia).
Qed.

Lemma reflect1_far : exists a x v, bc a = REFL /\ lo a < hi a /\ ~ (lo a <= fst (reflect1 a x v) <= hi a).
Proof.
  exists (mkAxis 0 1 REFL), 3, 0. repeat split; try (unfold Qlt; simpl; lia).
  unfold Qle; simpl; lia.
Qed.

Lemma reflect1_inbound : exists a x v, bc a = REFL /\ x < lo a /\ 0 < v /\ snd (reflect1 a x v) < 0.
Proof. exists (mkAxis 0 1 REFL), (-1), 1. repeat split. Qed.

Lemma distance_min b : forall x z,
  length x = length b -> Forall2 (fun mM zd => fst mM <= zd <= snd mM) b z ->
  distanceSqr b x <= fold_right Qplus 0 (map (fun p => (fst p - snd p) * (fst p - snd p)) (combine x z)).
Proof.
  unfold distanceSqr.
  assert (G : forall acc x z, length x = length b -> Forall2 (fun mM zd => fst mM <= zd <= snd mM) b z ->
    fold_left (fun acc p => let '((m, M), xd) := p in
      if Qltb xd m then acc + Qsqr (m - xd)
      else if Qltb M xd then acc + Qsqr (xd - M) else acc) (combine b x) acc
    <= acc + fold_right Qplus 0 (map (fun p => (fst p - snd p) * (fst p - snd p)) (combine x z))).
  { induction b as [|[m M] b IH]; intros acc [|x0 x] z Hl Hz; simpl in *; try discriminate; [lra|].
    injection Hl as Hl. inversion Hz as [|? z0 ? z' Hz0 Hz']; subst. simpl in *.
    eapply Qle_trans; [apply (IH _ x z' Hl Hz')|].
    match goal with |- context [fold_right ?f ?z ?l] => set (S := fold_right f z l) in * end.
    unfold Qsqr. qcases.
    - assert ((m - x0) * (m - x0) <= (x0 - z0) * (x0 - z0)) by nra. lra.
    - assert ((x0 - M) * (x0 - M) <= (x0 - z0) * (x0 - z0)) by nra. lra.
    - pose proof (Qsq_nonneg (x0 - z0)). lra. }
  intros x z Hl Hz. specialize (G 0 x z Hl Hz). lra.
Qed.

Lemma max_width_2d : exists b, length b = 2%nat /\ max_width b = None.
Proof. exists [(0, 1); (0, 1)]. split; reflexivity. Qed.

Lemma repulse_energy_mismatch : exists a x, bc a = REPL /\
    let '(F, _, E) := repulse1 1 0 a x 0 in ~ E == (1#2) * Qabs F * (lo a - x).
Proof. exists (mkAxis 0 1 REPL), (-1). split; [reflexivity|]. vm_compute. discriminate. Qed.
