From Verif Require Import Lib Model_Geometry Spec_Geometry Model_Cells Spec_Cells Model_Verlet Proofs_Geometry Proofs_Cells3.
From Coq Require Import ZifyBool.
Local Open Scope Q_scope.

Lemma Qsq_le_le s t : 0 <= t -> s * s <= t * t -> s <= t.
Proof. intros Ht H. apply Qnot_lt_le. intros Hlt. nra. Qed.

Definition sumsq (u : list Q) : Q := fold_right (fun a acc => a * a + acc) 0 u.
Definition dotp (p : list (Q * Q)) : Q := fold_right (fun ab acc => fst ab * snd ab + acc) 0 p.

Lemma sumsq_nonneg u : 0 <= sumsq u.
Proof. induction u as [|a u IH]; unfold sumsq; cbn [fold_right]; [lra|]. fold (sumsq u). pose proof (Qsq_nonneg a). lra. Qed.

Lemma cauchy p : dotp p * dotp p <= sumsq (map fst p) * sumsq (map snd p).
Proof.
  induction p as [|[a b] p IH]; [unfold dotp, sumsq; simpl; lra|].
  unfold dotp, sumsq. cbn [map fold_right fst snd]. fold (dotp p) (sumsq (map fst p)) (sumsq (map snd p)).
  pose proof (sumsq_nonneg (map fst p)) as HA. pose proof (sumsq_nonneg (map snd p)) as HB.
  set (A := sumsq (map fst p)) in *. set (B := sumsq (map snd p)) in *. set (D := dotp p) in *.
  assert (H : 2 * (a * b * D) <= a * a * B + b * b * A).
  { apply Qsq_le_le.
    - pose proof (Qsq_nonneg a). pose proof (Qsq_nonneg b). nra.
    - pose proof (Qsq_nonneg (a * b)) as Hab. pose proof (Qsq_nonneg (a * a * B - b * b * A)). nra. }
  lra.
Qed.

Lemma sumsq_add p : sumsq (map (fun ab => fst ab + snd ab) p) == sumsq (map fst p) + 2 * dotp p + sumsq (map snd p).
Proof.
  unfold sumsq, dotp. induction p as [|[a b] p IH]; cbn [map fold_right fst snd]; [ring|]. rewrite IH. ring.
Qed.

Lemma minkowski p C D : 0 <= C -> 0 <= D -> sumsq (map fst p) < C * C -> sumsq (map snd p) <= D * D ->
  sumsq (map (fun ab => fst ab + snd ab) p) < (C + D) * (C + D).
Proof.
  intros HC HD H1 H2. rewrite sumsq_add. pose proof (cauchy p) as Hc.
  pose proof (sumsq_nonneg (map fst p)). pose proof (sumsq_nonneg (map snd p)).
  set (U := sumsq (map fst p)) in *. set (V := sumsq (map snd p)) in *.
  assert (dotp p <= C * D).
  { apply Qsq_le_le; [nra|]. assert (U * V <= C * C * (D * D)) by nra. lra. }
  lra.
Qed.
Lemma minkowski_le p C D : 0 <= C -> 0 <= D -> sumsq (map fst p) <= C * C -> sumsq (map snd p) <= D * D ->
  sumsq (map (fun ab => fst ab + snd ab) p) <= (C + D) * (C + D).
Proof.
  intros HC HD H1 H2. rewrite sumsq_add. pose proof (cauchy p) as Hc.
  pose proof (sumsq_nonneg (map fst p)). pose proof (sumsq_nonneg (map snd p)).
  set (U := sumsq (map fst p)) in *. set (V := sumsq (map snd p)) in *.
  assert (dotp p <= C * D).
  { apply Qsq_le_le; [nra|]. assert (U * V <= C * C * (D * D)) by nra. lra. }
  lra.
Qed.

(* image difference as a list of pairs: (current image difference, change of the difference) *)
Fixpoint imgdiff (b : box) (ks : list Z) (x y : list Q) : list Q :=
  match b, ks, x, y with
  | a :: b', k :: ks', xd :: x', yd :: y' =>
      match bc a with WRAP => xd - yd + inject_Z k * (hi a - lo a) | _ => xd - yd end :: imgdiff b' ks' x' y'
  | _, _, _, _ => []
  end.

Lemma image_sumsq b : forall ks x y, imageSqr b ks x y == sumsq (imgdiff b ks x y).
Proof.
  induction b as [|a b IH]; intros [|k ks] [|x0 x] [|y0 y]; try reflexivity.
  cbn [imageSqr imgdiff]. unfold sumsq. cbn [fold_right]. rewrite IH. reflexivity.
Qed.

Fixpoint changes (x0 x1 y0 y1 : list Q) : list (Q * Q) :=
  match x0, x1, y0, y1 with
  | a :: x0', b :: x1', c :: y0', d :: y1' => (a - b, d - c) :: changes x0' x1' y0' y1'
  | _, _, _, _ => []
  end.

Lemma imgdiff_moved b : forall ks x0 x1 y0 y1, length ks = length b ->
  length x0 = length b -> length x1 = length b -> length y0 = length b -> length y1 = length b ->
  length (imgdiff b ks x1 y1) = length b /\
  sumsq (imgdiff b ks x0 y0) ==
  sumsq (map (fun ab => fst ab + snd ab)
    (combine (imgdiff b ks x1 y1) (map (fun ab => fst ab + snd ab) (changes x0 x1 y0 y1)))).
Proof.
  induction b as [|a b IH]; intros [|k ks] [|x0 xs0] [|x1 xs1] [|y0 ys0] [|y1 ys1] Hk H1 H2 H3 H4; try discriminate.
  - split; reflexivity.
  - simpl in *. destruct (IH ks xs0 xs1 ys0 ys1) as [IHl IHs]; try lia.
    split; [simpl; lia|]. unfold sumsq in *. cbn [imgdiff changes map combine fold_right fst snd]. rewrite IHs.
    destruct (bc a); ring.
Qed.

Lemma changes_fst x0 : forall x1 y0 y1, length x1 = length x0 -> length y0 = length x0 -> length y1 = length x0 ->
  sumsq (map fst (changes x0 x1 y0 y1)) == dist2 x0 x1 /\ sumsq (map snd (changes x0 x1 y0 y1)) == dist2 y0 y1 /\
  length (changes x0 x1 y0 y1) = length x0.
Proof.
  unfold sumsq, dist2. induction x0 as [|a x0 IH]; intros [|b x1] [|c y0] [|d y1] H1 H2 H3; try discriminate.
  - repeat split; reflexivity.
  - simpl in H1, H2, H3. destruct (IH x1 y0 y1) as (E1 & E2 & E3); try lia.
    cbn [changes map fold_right combine fst snd length]. rewrite E1, E2, E3. unfold Qsqr. repeat split; ring.
Qed.

Lemma combine_fst {A B} (l : list A) : forall l' : list B, length l = length l' -> map fst (combine l l') = l /\ map snd (combine l l') = l'.
Proof. induction l; intros [|b l'] H; try discriminate; [split; reflexivity|]. simpl in *. destruct (IHl l') as [-> ->]; [lia|]. auto. Qed.

Lemma getDistanceSqr_min_w b : Forall (fun a => lo a <= hi a) b -> forall x y ks, wrapped b x -> wrapped b y ->
  length ks = length b -> getDistanceSqr b x y <= imageSqr b ks x y.
Proof.
  induction 1 as [|a b Ha Hb IH]; intros x y ks Hx Hy Hk;
    inversion Hx as [|? x0 ? x' Hx0 Hx']; inversion Hy as [|? y0 ? y' Hy0 Hy']; subst.
  - destruct ks; simpl; lra.
  - destruct ks as [|k ks]; [discriminate|]. cbn [getDistanceSqr imageSqr].
    specialize (IH x' y' ks Hx' Hy' ltac:(simpl in Hk; lia)).
    assert (Qsqr (min_image1 a (x0 - y0)) <=
      Qsqr (match bc a with WRAP => x0 - y0 + inject_Z k * (hi a - lo a) | _ => x0 - y0 end)); [|lra].
    destruct (bc a) eqn:E.
    + apply Qsqr_abs_le. apply min_image1_min; auto. specialize (Hx0 eq_refl). specialize (Hy0 eq_refl).
      apply Qabs_Qle_condition. unfold wd. lra.
    + unfold min_image1. rewrite E. simpl. lra.
    + unfold min_image1. rewrite E. simpl. lra.
    + unfold min_image1. rewrite E. simpl. lra.
Qed.

(* the geometric heart of skin safety *)
Lemma moved_pair b x0 x1 y0 y1 ks C h : Forall (fun a => lo a <= hi a) b -> wrapped b x0 -> wrapped b y0 -> length x1 = length b -> length y1 = length b ->
  length ks = length b -> 0 <= C -> 0 <= h ->
  dist2 x0 x1 <= h * h -> dist2 y0 y1 <= h * h -> imageSqr b ks x1 y1 < C * C ->
  getDistanceSqr b x0 y0 < (C + (h + h)) * (C + (h + h)).
Proof.
  intros Hb Hx Hy L1 L2 Lk HC Hh Hdx Hdy Him.
  assert (L3 : length x0 = length b) by (symmetry; eapply Forall2_len; exact Hx).
  assert (L4 : length y0 = length b) by (symmetry; eapply Forall2_len; exact Hy).
  eapply Qle_lt_trans; [apply (getDistanceSqr_min_w b Hb x0 y0 ks Hx Hy); exact Lk|].
  rewrite image_sumsq. destruct (imgdiff_moved b ks x0 x1 y0 y1) as [Ld Es]; auto. rewrite Es.
  destruct (changes_fst x0 x1 y0 y1) as (E1 & E2 & E3); try lia.
  set (ch := map (fun ab => fst ab + snd ab) (changes x0 x1 y0 y1)).
  assert (Hch : sumsq ch <= (h + h) * (h + h)).
  { unfold ch. apply minkowski_le; auto; [rewrite E1|rewrite E2]; assumption. }
  destruct (combine_fst (imgdiff b ks x1 y1) ch) as [Ef Esn].
  { unfold ch. rewrite map_length, E3. lia. }
  apply minkowski; [exact HC|lra| |].
  - rewrite Ef, <- image_sumsq. exact Him.
  - rewrite Esn. exact Hch.
Qed.

(* ---------------------------------------------------------------- find_max_motion *)
Lemma max_motion_ge skin moves : forall acc, acc <= fold_left (fun maxD p => let dsqr := dist2 (fst p) (snd p) in
      if Qltb dsqr (Qsqr (10 * skin)) && Qltb maxD dsqr then dsqr else maxD) moves acc /\
  forall p, In p moves -> dist2 (fst p) (snd p) < Qsqr (10 * skin) ->
   dist2 (fst p) (snd p) <= fold_left (fun maxD p => let dsqr := dist2 (fst p) (snd p) in
      if Qltb dsqr (Qsqr (10 * skin)) && Qltb maxD dsqr then dsqr else maxD) moves acc.
Proof.
  induction moves as [|p moves IH]; intros acc; cbn [fold_left]; [split; [lra|intros p []]|].
  destruct (IH (let dsqr := dist2 (fst p) (snd p) in
      if Qltb dsqr (Qsqr (10 * skin)) && Qltb acc dsqr then dsqr else acc)) as [H1 H2]. cbv zeta in *.
  set (acc' := if Qltb (dist2 (fst p) (snd p)) (Qsqr (10 * skin)) && Qltb acc (dist2 (fst p) (snd p)) then dist2 (fst p) (snd p) else acc) in *.
  assert (Ha : acc <= acc').
  { unfold acc'. destruct (Qltb_spec acc (dist2 (fst p) (snd p))); destruct (Qltb_spec (dist2 (fst p) (snd p)) (Qsqr (10 * skin)));
      cbn [andb]; lra. }
  split; [lra|]. intros q [<-|Hq] Hlt; [|now apply H2].
  assert (dist2 (fst p) (snd p) <= acc'); [|lra]. unfold acc'.
  destruct (Qltb_spec acc (dist2 (fst p) (snd p))); destruct (Qltb_spec (dist2 (fst p) (snd p)) (Qsqr (10 * skin)));
      cbn [andb]; lra.
Qed.

Lemma no_remake_bound tol fac skin maxdel since moves p : 0 < skin -> 0 <= tol * fac <= 1 ->
  check_needs_remake tol fac skin maxdel since moves = false -> In p moves ->
  dist2 (fst p) (snd p) < Qsqr (10 * skin) ->
  dist2 (fst p) (snd p) <= ((1#2) * skin) * ((1#2) * skin).
Proof.
  intros Hs Ht Hc Hp Hlt. unfold check_needs_remake in Hc. apply orb_false_elim in Hc. destruct Hc as [_ Hc].
  destruct (Qltb_spec (Qsqr (tol * fac * skin)) (4 * find_max_motion_sqr skin moves)) as [|Hn]; [discriminate|].
  destruct (max_motion_ge skin moves 0) as [_ H]. specialize (H p Hp Hlt). change (dist2 (fst p) (snd p) <= find_max_motion_sqr skin moves) in H.
  assert (Qsqr (tol * fac * skin) <= skin * skin). { unfold Qsqr. set (t := tol * fac) in *. assert (t * t <= 1) by nra. pose proof (Qsq_nonneg skin). nra. }
  lra.
Qed.

(* ---------------------------------------------------------------- overlap removal *)
Lemma marks_incl factor im calls : forall marked k, In k marked -> In k (overlap_marks factor im calls marked).
Proof.
  induction calls as [|[[[[i j] r1] r2] rs] calls IH]; intros marked k Hk; cbn [overlap_marks]; [exact Hk|].
  destruct (existsb (Nat.eqb i) marked || existsb (Nat.eqb j) marked); [now apply IH|].
  destruct (overlaps factor r1 r2 rs && Qltb 0 (im i)); apply IH; [now right|exact Hk].
Qed.

Lemma marks_sound factor im calls : forall marked k, In k (overlap_marks factor im calls marked) ->
  In k marked \/ exists i r1 r2 rs, In (i, k, r1, r2, rs) calls /\ overlaps factor r1 r2 rs = true /\ 0 < im i.
Proof.
  induction calls as [|[[[[i j] r1] r2] rs] calls IH]; intros marked k Hk; cbn [overlap_marks] in Hk; [now left|].
  assert (R : forall m, In k (overlap_marks factor im calls m) -> (In k m -> In k marked \/ k = j) ->
     (k = j -> In k m -> ~ In k marked -> overlaps factor r1 r2 rs = true /\ 0 < im i) ->
     In k marked \/ exists i0 r0 r3 rs0, In (i0, k, r0, r3, rs0) ((i, j, r1, r2, rs) :: calls) /\ overlaps factor r0 r3 rs0 = true /\ 0 < im i0).
  { intros m Hm H1 H2. destruct (IH m k Hm) as [H|(i0 & a & c & d & H & H')].
    - destruct (in_dec Nat.eq_dec k marked) as [|Hn]; [now left|]. right.
      destruct (H1 H) as [|E]; [contradiction|]. destruct (H2 E H Hn) as [Ho Hi].
      subst k. exists i, r1, r2, rs. split; [now left|auto].
    - right. exists i0, a, c, d. split; [now right|auto]. }
  destruct (existsb (Nat.eqb i) marked || existsb (Nat.eqb j) marked).
  - apply (R marked); auto. intros; contradiction.
  - destruct (overlaps factor r1 r2 rs) eqn:Eo; [|cbn [andb] in Hk; apply (R marked); auto; intros; contradiction].
    cbn [andb] in Hk. destruct (Qltb_spec 0 (im i)) as [Hi|Hi]; [|apply (R marked); auto; intros; contradiction].
    apply (R (j :: marked)); auto. intros [<-|H]; auto.
Qed.

Lemma marks_complete factor im calls : forall marked i j r1 r2 rs, In (i, j, r1, r2, rs) calls ->
  overlaps factor r1 r2 rs = true -> 0 < im i ->
  In i (overlap_marks factor im calls marked) \/ In j (overlap_marks factor im calls marked).
Proof.
  induction calls as [|[[[[i0 j0] a] c] d] calls IH]; intros marked i j r1 r2 rs Hin Ho Hi; [destruct Hin|].
  destruct Hin as [E|Hin].
  - injection E as -> -> -> -> ->. cbn [overlap_marks]. rewrite Ho.
    destruct (existsb (Nat.eqb i) marked) eqn:E1; cbn [orb].
    { left. apply marks_incl. apply existsb_exists in E1. destruct E1 as (k & Hk & Ek). apply Nat.eqb_eq in Ek. now subst. }
    destruct (existsb (Nat.eqb j) marked) eqn:E2; cbn [orb].
    { right. apply marks_incl. apply existsb_exists in E2. destruct E2 as (k & Hk & Ek). apply Nat.eqb_eq in Ek. now subst. }
    destruct (Qltb_spec 0 (im i)); [|contradiction]. cbn [andb]. right. apply marks_incl. now left.
  - cbn [overlap_marks]. destruct (existsb (Nat.eqb i0) marked || existsb (Nat.eqb j0) marked); [eapply IH; eauto|].
    destruct (overlaps factor a c d && Qltb 0 (im i0)); eapply IH; eauto.
Qed.
