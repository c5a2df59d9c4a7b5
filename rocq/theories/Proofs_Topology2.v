(* Proofs about neighbours and overlaps: C37, C53. *)
From Coq Require Import String.
From Verif Require Import Lib Model_Geometry Model_Store Model_Buffer Model_Topology Spec_Geometry Spec_Topology Proofs_Geometry
  Proofs_Topology1.
From Coq Require Import ZifyBool ZifyNat.
Local Open Scope list_scope.

Lemma adjacent_sym box : Forall (fun a => lo a <= hi a) box -> forall pb nb, length pb = length box -> length nb = length box ->
  adjacent box pb nb = adjacent box nb pb.
Proof.
  unfold adjacent. intros H. induction H as [|a box Ha H IH]; intros [|[m M] pb] [|[m' M'] nb] H1 H2; try discriminate; [reflexivity|].
  cbn [center map getDisplacement adjacent_dims fst snd].
  set (c := (1 # 2) * (M + m)). set (c' := (1 # 2) * (M' + m')).
  assert (E : Qabs (min_image1 a (c' - c)) == Qabs (min_image1 a (c - c'))).
  { assert (E1 : min_image1 a (c' - c) == - min_image1 a (c - c')).
    { rewrite <- min_image1_opp by exact Ha. apply min_image1_ext. ring. }
    rewrite E1. apply Qabs_opp. }
  specialize (IH pb nb ltac:(cbn in H1; lia) ltac:(cbn in H2; lia)). unfold center in IH. rewrite IH.
  destruct (Qltb_spec ((1 # 2) * (M - m + (M' - m')) + (1 # 10)) (Qabs (min_image1 a (c' - c)))) as [Hl|Hl];
  destruct (Qltb_spec ((1 # 2) * (M' - m' + (M - m)) + (1 # 10)) (Qabs (min_image1 a (c - c')))) as [Hr|Hr]; auto; exfalso; lra.
Qed.

(* closed version of inside *)

Lemma mid_in m M : m <= M -> m <= (1#2) * (M + m) <= M. Proof. lra. Qed.

(* Points close to each other (up to periodic images) lie in adjacent regions. *)
Lemma adjacent_complete box : forall pb nb x y ks,
  part_of pb (bounds_of box) -> part_of nb (bounds_of box) -> inside_closed pb x -> inside_closed nb y ->
  length ks = length box ->
  (forall d a k xd yd, nth_error box d = Some a -> nth_error ks d = Some k -> nth_error x d = Some xd -> nth_error y d = Some yd ->
     Qabs (match bc a with WRAP => yd - xd + inject_Z k * (hi a - lo a) | _ => yd - xd end) <= 1#10) ->
  adjacent box pb nb = true.
Proof.
  unfold adjacent. induction box as [|a box IH]; intros pb nb x y ks P1 P2 X Y Hk Hd.
  - inversion P1; inversion P2; subst. reflexivity.
  - cbn [bounds_of map] in P1, P2. inversion P1 as [|[m M] ? pb' ? [P3 P4] P5]; inversion P2 as [|[m' M'] ? nb' ? [P6 P7] P8]; subst.
    inversion X as [|? xd ? x' [X1 X2] X3]; inversion Y as [|? yd ? y' [Y1 Y2] Y3]; subst. destruct ks as [|k ks]; [discriminate|].
    cbn [center map getDisplacement adjacent_dims fst snd] in *.
    set (c := (1 # 2) * (M + m)) in *. set (c' := (1 # 2) * (M' + m')) in *.
    assert (Hs : (if Qltb ((1 # 2) * (M - m + (M' - m')) + (1 # 10)) (Qabs (min_image1 a (c' - c))) then true else false) = false).
    { pose proof (Hd O a k xd yd eq_refl eq_refl eq_refl eq_refl) as H0. fold (wd a) in H0.
      assert (HA : Qabs (min_image1 a (c' - c)) <= Qabs (match bc a with WRAP => c' - c + inject_Z k * wd a | _ => c' - c end)).
      { destruct (bc a) eqn:Eb; try (rewrite (min_image1_nowrap a) by congruence; lra).
        apply min_image1_min; auto; [lra|]. apply Qabs_Qle_condition. unfold wd, c, c'. lra. }
      assert (HB : Qabs (match bc a with WRAP => c' - c + inject_Z k * wd a | _ => c' - c end) <= (1 # 2) * (M - m + (M' - m')) + (1 # 10)).
      { apply Qabs_Qle_condition. apply Qabs_Qle_condition in H0. unfold c, c'. destruct (bc a); lra. }
      destruct (Qltb_spec ((1 # 2) * (M - m + (M' - m')) + (1 # 10)) (Qabs (min_image1 a (c' - c)))); [lra|reflexivity]. }
    destruct (Qltb ((1 # 2) * (M - m + (M' - m')) + (1 # 10)) (Qabs (min_image1 a (c' - c)))); [discriminate|].
    apply (IH pb' nb' x' y' ks); auto. intros d a' k' xd' yd' Ha Hk' Hx' Hy'. now apply (Hd (S d) a' k' xd' yd').
Qed.

(* ------------------------------------------------------------------ distances *)
Definition dist1 (m M y : Q) : Q := if Qltb y m then Qsqr (m - y) else if Qltb M y then Qsqr (y - M) else 0.
Fixpoint dsum (b : bounds) (y : list Q) : Q :=
  match b, y with (m, M) :: b', yd :: y' => dist1 m M yd + dsum b' y' | _, _ => 0 end.
Lemma distance_dsum b : forall y, distanceSqr b y == dsum b y.
Proof.
  unfold distanceSqr.
  assert (G : forall y acc, fold_left (fun acc p => let '((m, M), xd) := p in
      if Qltb xd m then acc + Qsqr (m - xd)
      else if Qltb M xd then acc + Qsqr (xd - M) else acc) (combine b y) acc == acc + dsum b y).
  { induction b as [|[m M] b IH]; intros [|yd y] acc; cbn [combine fold_left dsum]; try lra. rewrite IH. unfold dist1. qcases; lra. }
  intros y. rewrite G. lra.
Qed.

Lemma dist1_le a m M x z k : lo a <= m -> m <= M -> M <= hi a -> lo a <= x <= hi a -> m <= z <= M ->
  let c := (1 # 2) * (M + m) in
  dist1 m M (min_image1 a (x - c) + c) <= Qsqr (match bc a with WRAP => x - z + inject_Z k * wd a | _ => x - z end).
Proof.
  intros H1 H2 H3 Hx Hz c. set (u := min_image1 a (x - c)).
  assert (HA : Qabs u <= Qabs (match bc a with WRAP => x - c + inject_Z k * wd a | _ => x - c end)).
  { unfold u. destruct (bc a) eqn:Eb; try (rewrite (min_image1_nowrap a) by congruence; lra).
    apply min_image1_min; auto; [lra|]. apply Qabs_Qle_condition. unfold wd, c. lra. }
  set (D := match bc a with WRAP => x - z + inject_Z k * wd a | _ => x - z end).
  assert (HD : match bc a with WRAP => x - c + inject_Z k * wd a | _ => x - c end == D + (z - c)) by (unfold D; destruct (bc a); ring).
  rewrite HD in HA. unfold dist1.
  assert (Hc : Qabs (z - c) <= (M - m) * (1#2)) by (apply Qabs_Qle_condition; unfold c; lra).
  pose proof (Qabs_triangle D (z - c)) as HT.
  assert (HB : Qabs u <= Qabs D + (M - m) * (1#2)) by lra. clearbody u D.
  assert (Hsq : forall p, 0 <= p -> p <= Qabs D -> Qsqr p <= Qsqr D).
  { intros p Hp0 Hp. apply Qsqr_abs_le. rewrite (Qabs_pos p) by exact Hp0. exact Hp. }
  destruct (Qltb_spec (u + c) m); [|destruct (Qltb_spec M (u + c))].
  - apply Hsq; [lra|]. assert (Qabs u == - u) by (apply Qabs_neg; unfold c in *; lra). unfold c in *. lra.
  - apply Hsq; [lra|]. assert (Qabs u == u) by (apply Qabs_pos; unfold c in *; lra). unfold c in *. lra.
  - unfold Qsqr. apply Qsq_nonneg.
Qed.

Lemma dist1_attained a m M x : lo a <= hi a -> m <= M ->
  let c := (1 # 2) * (M + m) in
  exists k z, m <= z <= M /\ dist1 m M (min_image1 a (x - c) + c) == Qsqr (match bc a with WRAP => x - z + inject_Z k * wd a | _ => x - z end).
Proof.
  intros Ha H2 c.
  assert (HK : exists k, min_image1 a (x - c) == match bc a with WRAP => x - c + inject_Z k * wd a | _ => x - c end).
  { destruct (min_image1_congr a (x - c) Ha) as [k Hk]. exists k. destruct (bc a) eqn:Eb; [exact Hk|..]; apply min_image1_nowrap; congruence. }
  destruct HK as [k HK]. exists k. set (u := min_image1 a (x - c)) in *. unfold dist1.
  destruct (Qltb_spec (u + c) m); [exists m|destruct (Qltb_spec M (u + c)); [exists M|exists (u + c)]]; (split; [lra|]).
  - assert (E : match bc a with WRAP => x - m + inject_Z k * wd a | _ => x - m end == u + c - m) by (rewrite HK; destruct (bc a); ring).
    unfold Qsqr. rewrite E. ring.
  - assert (E : match bc a with WRAP => x - M + inject_Z k * wd a | _ => x - M end == u + c - M) by (rewrite HK; destruct (bc a); ring).
    unfold Qsqr. rewrite E. ring.
  - assert (E : match bc a with WRAP => x - (u + c) + inject_Z k * wd a | _ => x - (u + c) end == 0).
    { assert (E' : match bc a with WRAP => x - (u + c) + inject_Z k * wd a | _ => x - (u + c) end ==
        match bc a with WRAP => x - c + inject_Z k * wd a | _ => x - c end - u) by (destruct (bc a); ring). rewrite E', HK. ring. }
    unfold Qsqr. rewrite E. ring.
Qed.

Definition relative (box : box) (nb : bounds) (x : list Q) : list Q :=
  map (fun p => fst p + snd p) (combine (getDisplacement box x (center nb)) (center nb)).

Lemma relative_dist_le box : forall nb x z ks, part_of nb (bounds_of box) -> Forall (fun mM => fst mM <= snd mM) nb ->
  in_closed box x -> inside_closed nb z -> length ks = length box ->
  dsum nb (relative box nb x) <= imageSqr box ks x z.
Proof.
  unfold relative. induction box as [|a box IH]; intros nb x z ks P N X Z Hk.
  - inversion P; subst. cbn. lra.
  - cbn [bounds_of map] in P. inversion P as [|[m M] ? nb' ? [P3 P4] P5]; subst. inversion N as [|? ? N1 N2]; subst.
    inversion X as [|? xd ? x' X1 X2]; inversion Z as [|? zd ? z' Z1 Z2]; subst. destruct ks as [|k ks]; [discriminate|].
    cbn [center map getDisplacement combine dsum imageSqr fst snd] in *.
    specialize (IH nb' x' z' ks P5 N2 X2 Z2 ltac:(cbn in Hk; lia)).
    pose proof (dist1_le a m M xd zd k P3 N1 P4 X1 Z1) as H. cbn zeta in H. fold (wd a). 
    unfold center in IH. lra.
Qed.

Lemma relative_dist_attained box : forall nb x, part_of nb (bounds_of box) -> Forall (fun mM => fst mM <= snd mM) nb ->
  in_closed box x ->
  exists ks z, length ks = length box /\ inside_closed nb z /\ dsum nb (relative box nb x) == imageSqr box ks x z.
Proof.
  unfold relative. induction box as [|a box IH]; intros nb x P N X.
  - inversion P; subst. exists [], []. split; [reflexivity|]. split; [constructor|]. inversion X; subst. cbn. reflexivity.
  - cbn [bounds_of map] in P. inversion P as [|[m M] ? nb' ? [P3 P4] P5]; subst. inversion N as [|? ? N1 N2]; subst.
    inversion X as [|? xd ? x' X1 X2]; subst.
    destruct (IH nb' x' P5 N2 X2) as (ks & z & L & I & E).
    destruct (dist1_attained a m M xd ltac:(lra) N1) as (k & zd & Hz & H).
    exists (k :: ks), (zd :: z). split; [cbn; lia|]. split; [constructor; auto|].
    cbn [center map getDisplacement combine dsum imageSqr fst snd] in *. fold (wd a). unfold center in E. rewrite H, E. reflexivity.
Qed.

(* The neighbours a particle overlaps. *)
Lemma in_combine_seq {A} (l : list A) : forall s i a, In (i, a) (combine (seq s (length l)) l) <-> (s <= i)%nat /\ nth_error l (i - s) = Some a.
Proof.
  induction l as [|b l IH]; intros s i a; cbn [length seq combine].
  - split; [intros []|intros [_ H]; destruct (i - s)%nat; discriminate].
  - split.
    + intros [H|H]; [injection H as <- <-; rewrite Nat.sub_diag; split; [lia|reflexivity]|].
      apply IH in H as [H1 H2]. split; [lia|]. replace (i - s)%nat with (S (i - S s)) by lia. exact H2.
    + intros [H1 H2]. destruct (Nat.eq_dec i s) as [->|Hne]; [rewrite Nat.sub_diag in H2; injection H2 as <-; now left|].
      right. apply IH. split; [lia|]. replace (i - s)%nat with (S (i - S s)) in H2 by lia. exact H2.
Qed.

Lemma overlaps_spec box nbs x cutoff l : domain_overlaps box nbs x cutoff = Some l -> in_closed box x ->
  (forall r nb, In (r, nb) nbs -> part_of nb (bounds_of box) /\ Forall (fun mM => fst mM <= snd mM) nb) ->
  forall i, In i l <-> exists r nb, nth_error nbs i = Some (r, nb) /\ 0 < cutoff /\
    exists ks z, length ks = length box /\ inside_closed nb z /\ imageSqr box ks x z < Qsqr cutoff.
Proof.
  unfold domain_overlaps. destruct (4 <? length box)%nat; [discriminate|]. intros E X HN i. injection E as <-.
  rewrite in_map_iff. split.
  - intros ([j [r nb]] & Ej & Hin). cbn in Ej. subst j. apply filter_In in Hin as [Hin Hf]. apply in_combine_seq in Hin as [_ Hin].
    rewrite Nat.sub_0_r in Hin. cbn [snd] in Hf. apply andb_prop in Hf as [Hf1 Hf2].
    destruct (Qltb_spec 0 cutoff) as [Hc|]; [|discriminate].
    fold (relative box nb x) in Hf2. destruct (Qltb_spec (distanceSqr nb (relative box nb x)) (Qsqr cutoff)) as [Hd|]; [|discriminate].
    exists r, nb. split; [exact Hin|]. split; [exact Hc|].
    destruct (HN r nb (nth_error_In _ _ Hin)) as [P N].
    destruct (relative_dist_attained box nb x P N X) as (ks & z & L & I & Ed). exists ks, z. split; [exact L|]. split; [exact I|].
    rewrite distance_dsum in Hd. lra.
  - intros (r & nb & Hin & Hc & ks & z & L & I & Hd). exists (i, (r, nb)). split; [reflexivity|]. apply filter_In. split.
    { apply in_combine_seq. rewrite Nat.sub_0_r. split; [lia|exact Hin]. }
    cbn [snd]. destruct (HN r nb (nth_error_In _ _ Hin)) as [P N].
    pose proof (relative_dist_le box nb x z ks P N X I L) as Hle. fold (relative box nb x).
    destruct (Qltb_spec 0 cutoff); [|lra]. destruct (Qltb_spec (distanceSqr nb (relative box nb x)) (Qsqr cutoff)) as [|Hn]; [reflexivity|].
    exfalso. apply Hn. rewrite distance_dsum. lra.
Qed.

(* ------------------------------------------------------------------ the neighbours of a decomposition *)
Lemma nonempty_le b : nonempty b -> Forall (fun mM => fst mM <= snd mM) b.
Proof. intros [_ H]. apply Forall_forall. intros [m M] Hin. specialize (H m M Hin). cbn. lra. Qed.

Lemma neighbors_in box k t r nb : In (r, nb) (neighbors box k t) <->
  exists pb, process_bounds k t = Some pb /\ In (r, nb) (leaves t) /\ r <> k /\ adjacent box pb nb = true.
Proof.
  unfold neighbors, all_processor_nodes. destruct (process_bounds k t) as [pb|].
  - rewrite filter_In, filter_In. cbn [fst snd]. split.
    + intros [[H1 H2] H3]. exists pb. split; [reflexivity|]. split; [exact H1|]. split; [|exact H3]. destruct (Nat.eqb_spec r k); [discriminate|auto].
    + intros (pb' & E & H1 & H2 & H3). injection E as <-. split; [split; [exact H1|]|exact H3]. destruct (Nat.eqb_spec r k); [congruence|reflexivity].
  - split; [intros []|intros (pb & E & _); discriminate].
Qed.
