From Coq Require Import Reals List Lra Psatz Lia ZArith.
From Verif Require Import Model_Ray Spec_Ray.
Import ListNotations.
Local Open Scope R_scope.

Lemma dist_along r s t : Unit (r_u r) ->
  let e := vsub (s_c s) (r_o r) in let v := dot (r_u r) e in
  Dist2 (Along r t) (s_c s) = (t - v) ^ 2 + (dot e e - v * v).
Proof.
  intros U e v. unfold Unit, Length2 in U. unfold v, e, Dist2, Length2, Along, dot, vsub.
  set (a := r_u r 0%nat) in *. set (b := r_u r 1%nat) in *. set (c := r_u r 2%nat) in *.
  set (x := r_o r 0%nat). set (y := r_o r 1%nat). set (z := r_o r 2%nat).
  set (p := s_c s 0%nat). set (q := s_c s 1%nat). set (w := s_c s 2%nat).
  replace (t^2) with (t^2 * 1) by ring.
  transitivity (t^2 * (a^2+b^2+c^2) - 2 * t * (a * (p - x) + b * (q - y) + c * (w - z)) + ((p-x)^2+(q-y)^2+(w-z)^2)); [ring|].
  rewrite U. ring.
Qed.

Lemma sq_le_iff x d : 0 <= d -> (x ^ 2 <= d <-> - sqrt d <= x <= sqrt d).
Proof.
  intros Hd. pose proof (sqrt_pos d) as Hs. pose proof (sqrt_sqrt d Hd) as Hq. set (k := sqrt d) in *. clearbody k. subst d.
  split; intros H; [|nra]. split; destruct (Rle_dec 0 x); nra.
Qed.

Lemma intersect_some r s tmin n f : Unit (r_u r) -> intersect r s tmin = Some (n, f) ->
  (forall t, Inside s (Along r t) <-> n <= t <= f) /\ n <= f /\ tmin <= f /\ 0 < n + f.
Proof.
  intros U. unfold intersect. set (e := vsub (s_c s) (r_o r)). set (v := dot (r_u r) e).
  destruct (Rle_dec v 0) as [|Hv]; [discriminate|].
  set (d := s_r s * s_r s - (dot e e - v * v)).
  destruct (Rlt_dec d 0) as [|Hd]; [discriminate|].
  destruct (Rlt_dec (v + sqrt d) tmin) as [|Ht]; [discriminate|].
  intros E. assert (E1 : n = v - sqrt d) by congruence. assert (E2 : f = v + sqrt d) by congruence. clear E.
  pose proof (sqrt_pos d) as Hs. split; [|repeat split; lra].
  intros t. unfold Inside. rewrite (dist_along r s t U). fold e v. fold v.
  assert (K : (t - v) ^ 2 <= d <-> (t - v) ^ 2 + (dot e e - v * v) <= s_r s ^ 2) by (unfold d; split; intros; nra).
  rewrite <- K, sq_le_iff by lra. lra.
Qed.

Lemma intersect_none r s tmin : Unit (r_u r) -> intersect r s tmin = None -> ~ Inside s (Along r 0) ->
  forall t, 0 <= t -> tmin <= t -> ~ Inside s (Along r t).
Proof.
  intros U. unfold intersect, Inside. set (e := vsub (s_c s) (r_o r)). set (v := dot (r_u r) e).
  intros H H0 t Ht Htm. rewrite (dist_along r s t U). rewrite (dist_along r s 0 U) in H0. fold e in H0 |- *. fold v in H0 |- *.
  destruct (Rle_dec v 0) as [Hv|Hv]; [nra|].
  set (d := s_r s * s_r s - (dot e e - v * v)) in *.
  destruct (Rlt_dec d 0) as [Hd|Hd]; [intros C; unfold d in Hd; pose proof (pow2_ge_0 (t - v)); nra|].
  destruct (Rlt_dec (v + sqrt d) tmin) as [Hf|]; [|discriminate].
  intros C. assert (C' : (t - v) ^ 2 <= d) by (unfold d; nra). apply sq_le_iff in C'; lra.
Qed.

Lemma intersect_eval r s tmin k : let e := vsub (s_c s) (r_o r) in let v := dot (r_u r) e in
  0 < v -> 0 <= k -> s_r s * s_r s - (dot e e - v * v) = k * k -> tmin <= v + k -> intersect r s tmin = Some (v - k, v + k).
Proof.
  intros e v Hv Hk Hd Ht. unfold intersect. fold e. fold v.
  destruct (Rle_dec v 0); [lra|]. rewrite Hd. rewrite (sqrt_square k Hk).
  destruct (Rlt_dec (k * k) 0); [nra|]. destruct (Rlt_dec (v + k) tmin); [lra|reflexivity].
Qed.

(* the box *)
Lemma slab_some lo hi o u a b : lo <= hi -> slab lo hi o u = Some (a, b) -> 0 <= a /\
  forall t, 0 <= t -> (u = 0 -> t <= 10000) -> 0 < b -> (lo <= o + t * u <= hi <-> a <= t <= b).
Proof.
  intros Hl. unfold slab. destruct (Req_EM_T u 0) as [E|N].
  - destruct (Rle_dec o lo); [discriminate|]. destruct (Rle_dec hi o); [discriminate|].
    intros H. assert (a = 0) by congruence. assert (b = 10000) by congruence. subst. split; [lra|]. intros t H0 H1 _. specialize (H1 eq_refl). rewrite Rmult_0_r. lra.
  - assert (HH : forall x, ((x - o) / u) * u = x - o) by (intros; field; exact N).
    pose proof (HH lo) as HL. pose proof (HH hi) as HR. clear HH.
    destruct (Rgt_dec u 0) as [P|P]; intros H.
    + assert (Ea : a = Rmax ((lo - o) / u) 0) by congruence. assert (Eb : b = Rmax ((hi - o) / u) 0) by congruence. clear H. subst a b.
      set (x := (lo - o) / u) in *. set (y := (hi - o) / u) in *. clearbody x y.
      split; [apply Rmax_r|]. intros t H0 _. unfold Rmax. destruct (Rle_dec x 0), (Rle_dec y 0); intros Hb; split; intros [A B]; split; try lra; nra.
    + assert (Ea : a = Rmax ((hi - o) / u) 0) by congruence. assert (Eb : b = Rmax ((lo - o) / u) 0) by congruence. clear H. subst a b.
      set (x := (lo - o) / u) in *. set (y := (hi - o) / u) in *. clearbody x y. assert (u < 0) by lra.
      split; [apply Rmax_r|]. intros t H0 _. unfold Rmax. destruct (Rle_dec x 0), (Rle_dec y 0); intros Hb; split; intros [A B]; split; try lra; nra.
Qed.

Lemma slab_none lo hi o u t : slab lo hi o u = None -> ~ (lo < o + t * u < hi).
Proof.
  unfold slab. destruct (Req_EM_T u 0) as [-> |N].
  - rewrite Rmult_0_r. destruct (Rle_dec o lo); [intros _; lra|]. destruct (Rle_dec hi o); [intros _; lra|discriminate].
  - destruct (Rgt_dec u 0); discriminate.
Qed.
Lemma slab_open lo hi o u a b t : slab lo hi o u = Some (a, b) -> lo < o + t * u < hi -> 0 <= t -> (u = 0 -> t < 10000) -> a <= t < b.
Proof.
  unfold slab. destruct (Req_EM_T u 0) as [E|N].
  - destruct (Rle_dec o lo); [discriminate|]. destruct (Rle_dec hi o); [discriminate|]. intros H _ H0 H1. specialize (H1 E). assert (a = 0) by congruence. assert (b = 10000) by congruence. lra.
  - assert (HH : forall x, ((x - o) / u) * u = x - o) by (intros; field; exact N).
    pose proof (HH lo) as HL. pose proof (HH hi) as HR. clear HH.
    destruct (Rgt_dec u 0) as [P|P]; intros H.
    + assert (Ea : a = Rmax ((lo - o) / u) 0) by congruence. assert (Eb : b = Rmax ((hi - o) / u) 0) by congruence. clear H. subst a b.
      set (x := (lo - o) / u) in *. set (y := (hi - o) / u) in *. clearbody x y.
      intros [A B] H0 _. unfold Rmax. destruct (Rle_dec x 0), (Rle_dec y 0); split; try lra; nra.
    + assert (Ea : a = Rmax ((hi - o) / u) 0) by congruence. assert (Eb : b = Rmax ((lo - o) / u) 0) by congruence. clear H. subst a b.
      set (x := (lo - o) / u) in *. set (y := (hi - o) / u) in *. clearbody x y. assert (u < 0) by lra.
      intros [A B] H0 _. unfold Rmax. destruct (Rle_dec x 0), (Rle_dec y 0); split; try lra; nra.
Qed.

Lemma d3 (P : nat -> Prop) : (forall d, (d < 3)%nat -> P d) <-> P 0%nat /\ P 1%nat /\ P 2%nat.
Proof. split; [intros H; repeat split; apply H; lia|intros (A & B & C) d H; destruct d as [|[|[|d]]]; auto; lia]. Qed.

Lemma ray_box_some lo hi r tmin tmax : (forall d, (d < 3)%nat -> lo d <= hi d) -> ray_box lo hi r = Some (tmin, tmax) ->
  0 <= tmin < tmax /\ forall t, 0 <= t -> ((exists d, (d < 3)%nat /\ r_u r d = 0) -> t <= 10000) -> (In_box lo hi (Along r t) <-> tmin <= t <= tmax).
Proof.
  intros Hb. unfold ray_box.
  destruct (slab (lo 0%nat) _ _ _) as [[a0 b0]|] eqn:E0; [|discriminate].
  destruct (slab (lo 1%nat) _ _ _) as [[a1 b1]|] eqn:E1; [|discriminate].
  destruct (slab (lo 2%nat) _ _ _) as [[a2 b2]|] eqn:E2; [|discriminate].
  cbv zeta. destruct (Rle_dec _ _) as [|Hlt]; [discriminate|]. intros H.
  assert (Et : tmin = Rmax (Rmax a0 a1) a2) by congruence. assert (Ex : tmax = Rmin (Rmin b0 b1) b2) by congruence. clear H.
  rewrite <- Et, <- Ex in Hlt.
  destruct (slab_some _ _ _ _ _ _ (Hb 0%nat ltac:(lia)) E0) as [P0 S0].
  destruct (slab_some _ _ _ _ _ _ (Hb 1%nat ltac:(lia)) E1) as [P1 S1].
  destruct (slab_some _ _ _ _ _ _ (Hb 2%nat ltac:(lia)) E2) as [P2 S2].
  assert (T : a0 <= tmin /\ a1 <= tmin /\ a2 <= tmin /\ tmax <= b0 /\ tmax <= b1 /\ tmax <= b2).
  { subst tmin tmax. pose proof (Rmax_l (Rmax a0 a1) a2). pose proof (Rmax_r (Rmax a0 a1) a2). pose proof (Rmax_l a0 a1). pose proof (Rmax_r a0 a1).
    pose proof (Rmin_l (Rmin b0 b1) b2). pose proof (Rmin_r (Rmin b0 b1) b2). pose proof (Rmin_l b0 b1). pose proof (Rmin_r b0 b1). repeat split; lra. }
  assert (TM : forall t, (tmin <= t <-> a0 <= t /\ a1 <= t /\ a2 <= t)).
  { intros t; subst tmin; split; [lra|]. intros (A & B & C). unfold Rmax in *. repeat destruct (Rle_dec _ _); lra. }
  assert (TX : forall t, (t <= tmax <-> t <= b0 /\ t <= b1 /\ t <= b2)).
  { intros t; subst tmax; split; [lra|]. intros (A & B & C). unfold Rmin in *. repeat destruct (Rle_dec _ _); lra. }
  split; [lra|]. intros t H0 Hz.
  assert (Z : forall d, (d < 3)%nat -> r_u r d = 0 -> t <= 10000) by (intros d Hd Hu; apply Hz; exists d; auto).
  pose proof (S0 t H0 (Z 0%nat ltac:(lia)) ltac:(lra)) as I0.
  pose proof (S1 t H0 (Z 1%nat ltac:(lia)) ltac:(lra)) as I1.
  pose proof (S2 t H0 (Z 2%nat ltac:(lia)) ltac:(lra)) as I2.
  unfold In_box. rewrite d3. unfold Along. rewrite I0, I1, I2. rewrite (TM t), (TX t). tauto.
Qed.

Lemma ray_box_none lo hi r : ray_box lo hi r = None ->
  forall t, 0 <= t -> ((exists d, (d < 3)%nat /\ r_u r d = 0) -> t < 10000) -> ~ Within_box lo hi (Along r t).
Proof.
  intros H t H0 Hz. unfold Within_box. rewrite d3. unfold Along. intros (A & B & C).
  assert (Z : forall d, (d < 3)%nat -> r_u r d = 0 -> t < 10000) by (intros d Hd Hu; apply Hz; exists d; auto).
  revert H. unfold ray_box.
  destruct (slab (lo 0%nat) _ _ _) as [[a0 b0]|] eqn:E0; [|intros _; exact (slab_none _ _ _ _ t E0 A)].
  destruct (slab (lo 1%nat) _ _ _) as [[a1 b1]|] eqn:E1; [|intros _; exact (slab_none _ _ _ _ t E1 B)].
  destruct (slab (lo 2%nat) _ _ _) as [[a2 b2]|] eqn:E2; [|intros _; exact (slab_none _ _ _ _ t E2 C)].
  cbv zeta. pose proof (slab_open _ _ _ _ _ _ t E0 A H0 (Z 0%nat ltac:(lia))).
  pose proof (slab_open _ _ _ _ _ _ t E1 B H0 (Z 1%nat ltac:(lia))).
  pose proof (slab_open _ _ _ _ _ _ t E2 C H0 (Z 2%nat ltac:(lia))).
  destruct (Rle_dec _ _) as [Hle|]; [|discriminate]. intros _. revert Hle.
  unfold Rmax, Rmin. repeat destruct (Rle_dec _ _); lra.
Qed.

(* filling *)
Definition lowers d sp (s : sphere) : bool := if Rlt_dec (s_c s d - s_r s) sp then true else false.
Definition highers d sp (s : sphere) : bool := if Rlt_dec sp (s_c s d + s_r s) then true else false.
Definition fills (l : list sphere) (t : tree) : tree := fold_left (fun t s => insert s t) l t.
Lemma fills_leaf l m : fills l (Leaf m) = Leaf (m ++ l).
Proof. revert m. induction l as [|s l IH]; intros m; cbn; [rewrite app_nil_r; reflexivity|]. change (fills l (Leaf (m ++ [s])) = Leaf (m ++ s :: l)). rewrite IH, <- app_assoc. reflexivity. Qed.
Lemma fills_node l d sp lo hi : fills l (Node d sp lo hi) = Node d sp (fills (filter (lowers d sp) l) lo) (fills (filter (highers d sp) l) hi).
Proof.
  revert lo hi. induction l as [|s l IH]; intros lo hi; [reflexivity|].
  change (fills (s :: l) (Node d sp lo hi)) with (fills l (insert s (Node d sp lo hi))). cbn [insert]. rewrite IH. cbn [filter].
  unfold lowers at 2, highers at 2. destruct (Rlt_dec _ _), (Rlt_dec _ _); reflexivity.
Qed.
Lemma fill_leaf l m : fill l (Leaf m) = Leaf l.
Proof. unfold fill. cbn [empty]. apply (fills_leaf l []). Qed.
Lemma fill_node l d sp lo hi : fill l (Node d sp lo hi) = Node d sp (fill (filter (lowers d sp) l) lo) (fill (filter (highers d sp) l) hi).
Proof. unfold fill. cbn [empty]. apply fills_node. Qed.

(* leaves *)
Lemma scan_gen r tmin l b :
  let res := fold_left (fun best s => match intersect r s tmin with Some (n, f) => if Rlt_dec n (nearest_so_far best) then Some (s, (n, f)) else best | None => best end) l b in
  nearest_so_far res <= nearest_so_far b /\
  (forall s n f, In s l -> intersect r s tmin = Some (n, f) -> nearest_so_far res <= n) /\
  (res = b \/ exists s n f, res = Some (s, (n, f)) /\ In s l /\ intersect r s tmin = Some (n, f) /\ n < nearest_so_far b).
Proof.
  revert b. induction l as [|x l IH]; intros b; cbn [fold_left]; [repeat split; [lra|intros ? ? ? []|left; reflexivity]|].
  cbv zeta. set (b' := match intersect r x tmin with Some (n, f) => _ | None => _ end).
  destruct (IH b') as (A & B & C). set (res := fold_left _ l b') in *.
  assert (Hb : nearest_so_far b' <= nearest_so_far b /\ (forall n f, intersect r x tmin = Some (n, f) -> nearest_so_far b' <= n) /\
    (b' = b \/ exists n f, b' = Some (x, (n, f)) /\ intersect r x tmin = Some (n, f) /\ n < nearest_so_far b)).
  { unfold b'. destruct (intersect r x tmin) as [[n f]|]; [|repeat split; [lra|discriminate|left; reflexivity]].
    destruct (Rlt_dec n (nearest_so_far b)); repeat split; cbn [nearest_so_far]; try lra; try (intros n' f' E; assert (n = n') by congruence; lra); try (left; reflexivity).
    right. exists n, f. auto. }
  destruct Hb as (D & E & F). repeat split; [lra| |].
  - intros s n f [<- |Hi] Hs; [specialize (E _ _ Hs); lra|exact (B _ _ _ Hi Hs)].
  - destruct C as [C|(s & n & f & C1 & C2 & C3 & C4)].
    + destruct F as [F|(n & f & F1 & F2 & F3)]; [left; congruence|right; exists x, n, f; rewrite C; repeat split; auto; left; reflexivity].
    + right. exists s, n, f. repeat split; auto; [right; exact C2|lra].
Qed.
Lemma scan_some r tmin l s n f : scan r tmin l = Some (s, (n, f)) ->
  In s l /\ intersect r s tmin = Some (n, f) /\ n < 10000 /\ forall s' n' f', In s' l -> intersect r s' tmin = Some (n', f') -> n <= n'.
Proof.
  intros H. pose proof (scan_gen r tmin l None) as (A & B & C). fold (scan r tmin l) in A, B, C. rewrite H in *. cbn [nearest_so_far] in *.
  destruct C as [C|(s' & n' & f' & C1 & C2 & C3 & C4)]; [discriminate|]. assert (s = s') by congruence. assert (n = n') by congruence. assert (f = f') by congruence. subst.
  repeat split; auto.
Qed.
Lemma scan_none r tmin l : scan r tmin l = None -> forall s n f, In s l -> intersect r s tmin = Some (n, f) -> 10000 <= n.
Proof. intros H s n f Hs Hi. pose proof (scan_gen r tmin l None) as (A & B & C). fold (scan r tmin l) in A, B, C. rewrite H in *. exact (B _ _ _ Hs Hi). Qed.

(* inner nodes: which children are visited, in which order *)
Definition both (r : ray) d sp tmin tmax : bool :=
  if Req_EM_T (r_u r d) 0 then false else let ts := (sp - r_o r d) / r_u r d in if Rgt_dec ts tmax then false else if Rlt_dec ts tmin then false else true.
Definition low_first (r : ray) d sp tmin : bool :=
  if Req_EM_T (r_u r d) 0 then (if Rlt_dec (r_o r d) sp then true else false) else if Rlt_dec (tmin * r_u r d + r_o r d) sp then true else false.
Lemma traverse_node r d sp lo hi tmin tmax : traverse r (Node d sp lo hi) tmin tmax =
  let fst_ := if low_first r d sp tmin then lo else hi in let snd_ := if low_first r d sp tmin then hi else lo in
  match traverse r fst_ tmin tmax with Some x => Some x | None => if both r d sp tmin tmax then traverse r snd_ tmin tmax else None end.
Proof.
  cbn [traverse]. unfold low_first, both. cbv zeta. destruct (Req_EM_T (r_u r d) 0).
  - destruct (Rlt_dec _ _); destruct (traverse _ _ _ _); reflexivity.
  - destruct (Rgt_dec _ _); [|destruct (Rlt_dec ((sp - r_o r d) / r_u r d) tmin)]; (destruct (Rlt_dec (tmin * r_u r d + r_o r d) sp)); destruct (traverse _ _ _ _); reflexivity.
Qed.

Lemma traverse_sound r t : forall l tmin tmax s n f, traverse r (fill l t) tmin tmax = Some (s, (n, f)) -> In s l /\ intersect r s tmin = Some (n, f) /\ n < 10000.
Proof.
  induction t as [m|d sp lo IHl hi IHh]; intros l tmin tmax s n f.
  - rewrite fill_leaf. cbn [traverse]. intros H. destruct (scan_some _ _ _ _ _ _ H) as (A & B & C & _). auto.
  - rewrite fill_node, traverse_node. cbv zeta.
    assert (L : forall s n f, traverse r (fill (filter (lowers d sp) l) lo) tmin tmax = Some (s, (n, f)) -> In s l /\ intersect r s tmin = Some (n, f) /\ n < 10000).
    { intros ? ? ? H. apply IHl in H. destruct H as (A & B). apply filter_In in A. tauto. }
    assert (G : forall s n f, traverse r (fill (filter (highers d sp) l) hi) tmin tmax = Some (s, (n, f)) -> In s l /\ intersect r s tmin = Some (n, f) /\ n < 10000).
    { intros ? ? ? H. apply IHh in H. destruct H as (A & B). apply filter_In in A. tauto. }
    destruct (low_first r d sp tmin).
    + destruct (traverse r (fill _ lo) tmin tmax) as [[s1 [n1 f1]]|] eqn:E; [intros H; apply L; congruence|]. destruct (both _ _ _ _ _); [apply G|discriminate].
    + destruct (traverse r (fill _ hi) tmin tmax) as [[s1 [n1 f1]]|] eqn:E; [intros H; apply G; congruence|]. destruct (both _ _ _ _ _); [apply L|discriminate].
Qed.

(* geometry of a plane and a ray between tmin and tmax *)
Lemma second_visited_low r d sp tmin tmax t : low_first r d sp tmin = false -> both r d sp tmin tmax = false -> tmin <= t <= tmax -> sp <= r_o r d + t * r_u r d.
Proof.
  unfold low_first, both. destruct (Req_EM_T (r_u r d) 0) as [E|N]; [rewrite E, Rmult_0_r; destruct (Rlt_dec _ _); [discriminate|intros; lra]|].
  cbv zeta. assert (HH : ((sp - r_o r d) / r_u r d) * r_u r d = sp - r_o r d) by (field; exact N).
  set (ts := (sp - r_o r d) / r_u r d) in *. clearbody ts. set (u := r_u r d) in *. set (o := r_o r d) in *. clearbody u o.
  destruct (Rlt_dec _ _); [discriminate|]. intros _. destruct (Rgt_dec ts tmax); [|destruct (Rlt_dec ts tmin); [|discriminate]]; intros _ H; destruct (Rtotal_order u 0) as [?|[?|?]]; nra.
Qed.
Lemma second_visited_high r d sp tmin tmax t : low_first r d sp tmin = true -> both r d sp tmin tmax = false -> tmin <= t <= tmax -> r_o r d + t * r_u r d <= sp.
Proof.
  unfold low_first, both. destruct (Req_EM_T (r_u r d) 0) as [E|N]; [rewrite E, Rmult_0_r; destruct (Rlt_dec _ _); [intros; lra|discriminate]|].
  cbv zeta. assert (HH : ((sp - r_o r d) / r_u r d) * r_u r d = sp - r_o r d) by (field; exact N).
  set (ts := (sp - r_o r d) / r_u r d) in *. clearbody ts. set (u := r_u r d) in *. set (o := r_o r d) in *. clearbody u o.
  destruct (Rlt_dec _ _); [|discriminate]. intros _. destruct (Rgt_dec ts tmax); [|destruct (Rlt_dec ts tmin); [|discriminate]]; intros _ H; destruct (Rtotal_order u 0) as [?|[?|?]]; nra.
Qed.
Lemma first_direction r d sp tmin tmax : both r d sp tmin tmax = true ->
  (low_first r d sp tmin = true -> 0 < r_u r d) /\ (low_first r d sp tmin = false -> r_u r d < 0 \/ sp = r_o r d + tmin * r_u r d /\ 0 < r_u r d).
Proof.
  unfold low_first, both. destruct (Req_EM_T (r_u r d) 0) as [E|N]; [discriminate|].
  cbv zeta. assert (HH : ((sp - r_o r d) / r_u r d) * r_u r d = sp - r_o r d) by (field; exact N).
  set (ts := (sp - r_o r d) / r_u r d) in *. clearbody ts. set (u := r_u r d) in *. set (o := r_o r d) in *. clearbody u o.
  destruct (Rgt_dec ts tmax); [discriminate|]. destruct (Rlt_dec ts tmin); [discriminate|]. intros _.
  destruct (Rlt_dec _ _); (split; intros; try discriminate); destruct (Rtotal_order u 0) as [?|[?|?]]; try (left; lra); try lra; try nra.
Qed.

Lemma within_coord s p d : (d < 3)%nat -> 0 <= s_r s -> Within s p -> s_c s d - s_r s < p d < s_c s d + s_r s.
Proof.
  unfold Within, Dist2, Length2. intros Hd Hr H.
  assert (H' : (p d - s_c s d) ^ 2 < s_r s ^ 2).
  { assert (Q : forall x : R, 0 <= x ^ 2) by (intros; nra). pose proof (Q (p 0%nat - s_c s 0%nat)). pose proof (Q (p 1%nat - s_c s 1%nat)). pose proof (Q (p 2%nat - s_c s 2%nat)).
    destruct d as [|[|[|d]]]; try lia; lra. }
  set (x := p d) in *. set (c := s_c s d) in *. set (k := s_r s) in *. clearbody x c k. nra.
Qed.
Lemma inside_coord s p d : (d < 3)%nat -> 0 <= s_r s -> Inside s p -> s_c s d - s_r s <= p d <= s_c s d + s_r s.
Proof.
  unfold Inside, Dist2, Length2. intros Hd Hr H.
  assert (H' : (p d - s_c s d) ^ 2 <= s_r s ^ 2).
  { assert (Q : forall x : R, 0 <= x ^ 2) by (intros; nra). pose proof (Q (p 0%nat - s_c s 0%nat)). pose proof (Q (p 1%nat - s_c s 1%nat)). pose proof (Q (p 2%nat - s_c s 2%nat)).
    destruct d as [|[|[|d]]]; try lia; lra. }
  set (x := p d) in *. set (c := s_c s d) in *. set (k := s_r s) in *. clearbody x c k. nra.
Qed.
Lemma within_inside s p : Within s p -> Inside s p. Proof. unfold Within, Inside. lra. Qed.

(* what is inside the part of the ray is found *)
Lemma traverse_complete r t : Unit (r_u r) -> (forall pl, In pl (Planes t) -> (fst pl < 3)%nat) ->
  forall l tmin tmax, traverse r (fill l t) tmin tmax = None ->
  forall s t1, In s l -> 0 <= s_r s -> ~ Inside s (Along r 0) -> 0 <= t1 < 10000 -> tmin <= t1 <= tmax -> ~ Within s (Along r t1).
Proof.
  intros U. induction t as [m|d sp lo IHl hi IHh]; intros Hd l tmin tmax.
  - rewrite fill_leaf. cbn [traverse]. intros H s t1 Hs Hr H0 Ht Htm W.
    destruct (intersect r s tmin) as [[n f]|] eqn:E.
    + pose proof (scan_none _ _ _ H _ _ _ Hs E). destruct (intersect_some _ _ _ _ _ U E) as (A & _). apply within_inside, A in W. lra.
    + exact (intersect_none _ _ _ U E H0 t1 ltac:(lra) ltac:(lra) (within_inside _ _ W)).
  - assert (D : (d < 3)%nat) by (apply (Hd (d, sp)); left; reflexivity).
    assert (Dl : forall pl, In pl (Planes lo) -> (fst pl < 3)%nat) by (intros; apply Hd; right; apply in_or_app; auto).
    assert (Dh : forall pl, In pl (Planes hi) -> (fst pl < 3)%nat) by (intros; apply Hd; right; apply in_or_app; auto).
    rewrite fill_node, traverse_node. cbv zeta. intros H s t1 Hs Hr H0 Ht Htm W.
    pose proof (within_coord s _ d D Hr W) as [W1 W2]. unfold Along in W1, W2.
    assert (L : traverse r (fill (filter (lowers d sp) l) lo) tmin tmax = None -> s_c s d - s_r s < sp -> False).
    { intros HN Hc. apply (IHl Dl _ _ _ HN s t1); auto. apply filter_In. split; [exact Hs|]. unfold lowers. destruct (Rlt_dec _ _); [reflexivity|lra]. }
    assert (G : traverse r (fill (filter (highers d sp) l) hi) tmin tmax = None -> sp < s_c s d + s_r s -> False).
    { intros HN Hc. apply (IHh Dh _ _ _ HN s t1); auto. apply filter_In. split; [exact Hs|]. unfold highers. destruct (Rlt_dec _ _); [reflexivity|lra]. }
    destruct (low_first r d sp tmin) eqn:LF.
    + destruct (traverse r (fill _ lo) tmin tmax) eqn:E; [discriminate|]. specialize (L eq_refl).
      destruct (both r d sp tmin tmax) eqn:BO.
      * destruct (Rlt_dec (s_c s d - s_r s) sp); [auto|]. apply (G H). lra.
      * pose proof (second_visited_high _ _ _ _ _ t1 LF BO Htm). apply L. lra.
    + destruct (traverse r (fill _ hi) tmin tmax) eqn:E; [discriminate|]. specialize (G eq_refl).
      destruct (both r d sp tmin tmax) eqn:BO.
      * destruct (Rlt_dec (s_c s d - s_r s) sp); [exact (L H r0)|]. apply G. lra.
      * pose proof (second_visited_low _ _ _ _ _ t1 LF BO Htm). apply G. lra.
Qed.

(* and the nearest is found, if no sphere crosses a splitting plane *)
Lemma traverse_nearest r t : Unit (r_u r) -> (forall pl, In pl (Planes t) -> (fst pl < 3)%nat) ->
  forall l, (forall pl s, In pl (Planes t) -> In s l -> ~ Crosses s pl) -> (forall s, In s l -> 0 <= s_r s) ->
  forall tmin tmax s n f, traverse r (fill l t) tmin tmax = Some (s, (n, f)) ->
  forall s' t1, In s' l -> ~ Inside s' (Along r 0) -> 0 <= t1 < 10000 -> tmin <= t1 <= tmax -> Within s' (Along r t1) ->
  forall t2, Inside s' (Along r t2) -> n <= t2.
Proof.
  intros U. induction t as [m|d sp lo IHl hi IHh]; intros Hd l HC HR tmin tmax s n f.
  - rewrite fill_leaf. cbn [traverse]. intros H s' t1 Hs' H0 Ht Htm W t2 I2.
    destruct (scan_some _ _ _ _ _ _ H) as (_ & _ & _ & A).
    destruct (intersect r s' tmin) as [[n' f']|] eqn:E.
    + specialize (A _ _ _ Hs' E). destruct (intersect_some _ _ _ _ _ U E) as (B & _). apply B in I2. lra.
    + exfalso. exact (intersect_none _ _ _ U E H0 t1 ltac:(lra) ltac:(lra) (within_inside _ _ W)).
  - assert (D : (d < 3)%nat) by (apply (Hd (d, sp)); left; reflexivity).
    assert (Dl : forall pl, In pl (Planes lo) -> (fst pl < 3)%nat) by (intros; apply Hd; right; apply in_or_app; auto).
    assert (Dh : forall pl, In pl (Planes hi) -> (fst pl < 3)%nat) by (intros; apply Hd; right; apply in_or_app; auto).
    assert (C0 : forall x, In x l -> s_c x d + s_r x <= sp \/ sp <= s_c x d - s_r x).
    { intros x Hx. pose proof (HC (d, sp) x (or_introl eq_refl) Hx) as K. unfold Crosses in K. cbn [fst snd] in K.
      destruct (Rle_dec (s_c x d + s_r x) sp); [left; lra|]. right. destruct (Rle_dec sp (s_c x d - s_r x)); [lra|]. exfalso. apply K. lra. }
    rewrite fill_node, traverse_node. cbv zeta. intros H s' t1 Hs' H0 Ht Htm W t2 I2.
    pose proof (HR _ Hs') as Hr'. pose proof (within_coord s' _ d D Hr' W) as [W1 W2]. unfold Along in W1, W2.
    pose proof (inside_coord s' _ d D Hr' I2) as [I3 I4]. unfold Along in I3, I4.
    set (ll := filter (lowers d sp) l) in *. set (lh := filter (highers d sp) l) in *.
    assert (IL : forall x, In x ll <-> In x l /\ s_c x d - s_r x < sp).
    { intros x. unfold ll. rewrite filter_In. unfold lowers. destruct (Rlt_dec _ _); intuition (try discriminate; try lra). }
    assert (IH' : forall x, In x lh <-> In x l /\ sp < s_c x d + s_r x).
    { intros x. unfold lh. rewrite filter_In. unfold highers. destruct (Rlt_dec _ _); intuition (try discriminate; try lra). }
    assert (L : forall a n f, traverse r (fill ll lo) tmin tmax = Some (a, (n, f)) -> s_c s' d - s_r s' < sp -> n <= t2).
    { intros a n1 f1 HH Hc. refine (IHl Dl ll _ _ _ _ _ _ _ HH s' t1 _ H0 Ht Htm W t2 I2).
      - intros pl x Hp Hx. apply HC; [right; apply in_or_app; auto|apply IL in Hx; tauto].
      - intros x Hx. apply HR. apply IL in Hx. tauto.
      - apply IL. auto. }
    assert (G : forall a n f, traverse r (fill lh hi) tmin tmax = Some (a, (n, f)) -> sp < s_c s' d + s_r s' -> n <= t2).
    { intros a n1 f1 HH Hc. refine (IHh Dh lh _ _ _ _ _ _ _ HH s' t1 _ H0 Ht Htm W t2 I2).
      - intros pl x Hp Hx. apply HC; [right; apply in_or_app; auto|apply IH' in Hx; tauto].
      - intros x Hx. apply HR. apply IH' in Hx. tauto.
      - apply IH'. auto. }
    assert (NL : traverse r (fill ll lo) tmin tmax = None -> s_c s' d - s_r s' < sp -> False).
    { intros HN Hc. refine (traverse_complete r lo U Dl ll tmin tmax HN s' t1 _ Hr' H0 Ht Htm W). apply IL. auto. }
    assert (NH : traverse r (fill lh hi) tmin tmax = None -> sp < s_c s' d + s_r s' -> False).
    { intros HN Hc. refine (traverse_complete r hi U Dh lh tmin tmax HN s' t1 _ Hr' H0 Ht Htm W). apply IH'. auto. }
    assert (SL : forall a n f, traverse r (fill ll lo) tmin tmax = Some (a, (n, f)) -> r_o r d + n * r_u r d <= sp /\ In a l /\ tmin <= f).
    { intros a n1 f1 HH. apply traverse_sound in HH. destruct HH as (A & B & _). destruct (intersect_some _ _ _ _ _ U B) as (B1 & B2 & B3 & _).
      apply IL in A. destruct A as [A A']. split; [|auto]. assert (In1 : Inside a (Along r n1)) by (apply B1; lra).
      pose proof (inside_coord a _ d D (HR _ A) In1) as [J1 J2]. unfold Along in J1, J2. destruct (C0 a A); [lra|]. pose proof (HR _ A). lra. }
    assert (SH : forall a n f, traverse r (fill lh hi) tmin tmax = Some (a, (n, f)) -> sp <= r_o r d + n * r_u r d /\ In a l /\ tmin <= f).
    { intros a n1 f1 HH. apply traverse_sound in HH. destruct HH as (A & B & _). destruct (intersect_some _ _ _ _ _ U B) as (B1 & B2 & B3 & _).
      apply IH' in A. destruct A as [A A']. split; [|auto]. assert (In1 : Inside a (Along r n1)) by (apply B1; lra).
      pose proof (inside_coord a _ d D (HR _ A) In1) as [J1 J2]. unfold Along in J1, J2. destruct (C0 a A); [|lra]. pose proof (HR _ A). lra. }
    destruct (low_first r d sp tmin) eqn:LF.
    + destruct (traverse r (fill ll lo) tmin tmax) as [[a [n1 f1]]|] eqn:E.
      * assert (n1 = n) by congruence. subst n1. destruct (Rlt_dec (s_c s' d - s_r s') sp) as [|Hn]; [exact (L _ _ _ eq_refl r0)|].
        destruct (SL _ _ _ eq_refl) as (S1 & _ & _).
        destruct (both r d sp tmin tmax) eqn:BO.
        -- destruct (first_direction _ _ _ _ _ BO) as [FD _]. specialize (FD LF). set (u := r_u r d) in *. clearbody u. nra.
        -- pose proof (second_visited_high _ _ _ _ _ t1 LF BO Htm). lra.
      * destruct (both r d sp tmin tmax) eqn:BO; [|discriminate].
        destruct (Rlt_dec (s_c s' d - s_r s') sp) as [Hl|Hl]; [exfalso; exact (NL eq_refl Hl)|]. apply (G _ _ _ H). lra.
    + destruct (traverse r (fill lh hi) tmin tmax) as [[a [n1 f1]]|] eqn:E.
      * assert (n1 = n) by congruence. subst n1. destruct (Rlt_dec sp (s_c s' d + s_r s')) as [|Hn]; [exact (G _ _ _ eq_refl r0)|].
        destruct (SH _ _ _ eq_refl) as (S1 & _ & _).
        destruct (both r d sp tmin tmax) eqn:BO.
        -- destruct (first_direction _ _ _ _ _ BO) as [_ FD]. destruct (FD LF) as [FD'|[FD' FP]].
           ++ set (u := r_u r d) in *. clearbody u. nra.
           ++ exfalso. set (u := r_u r d) in *. clearbody u. nra.
        -- pose proof (second_visited_low _ _ _ _ _ t1 LF BO Htm). lra.
      * destruct (both r d sp tmin tmax) eqn:BO; [|discriminate].
        destruct (Rlt_dec sp (s_c s' d + s_r s')) as [Hl|Hl]; [exfalso; exact (NH eq_refl Hl)|]. apply (L _ _ _ H). lra.
Qed.

(* vectors *)
Lemma dot_sym a b : dot a b = dot b a. Proof. unfold dot; ring. Qed.
Lemma length2_dot a : Length2 a = dot a a. Proof. unfold Length2, dot; ring. Qed.
Lemma dot_scale k a b : dot (vscale k a) b = k * dot a b. Proof. unfold dot, vscale; ring. Qed.
Lemma dot_sub a b c : dot (vsub a b) c = dot a c - dot b c. Proof. unfold dot, vsub; ring. Qed.
Lemma dot_diff a b : dot (vsub a b) (vsub a b) = dot a a - 2 * dot a b + dot b b. Proof. unfold dot, vsub; ring. Qed.
Lemma dot_pos a : 0 <= dot a a. Proof. unfold dot. nra. Qed.
Lemma dot_zero a : dot a a = 0 -> forall d, (d < 3)%nat -> a d = 0.
Proof. unfold dot. intros H. apply d3. repeat split; nra. Qed.
Lemma dot_nonzero a d : (d < 3)%nat -> a d <> 0 -> 0 < dot a a.
Proof. intros Hd Ha. pose proof (dot_pos a). destruct (Req_dec (dot a a) 0) as [E|E]; [|lra]. exfalso. exact (Ha (dot_zero a E d Hd)). Qed.
Lemma normalize_pos a : 0 < dot a a -> exists k, 0 < k /\ normalize a = vscale k a /\ Unit (normalize a).
Proof.
  intros H. exists (1 / sqrt (dot a a)). pose proof (sqrt_lt_R0 _ H) as Hs. pose proof (sqrt_sqrt (dot a a) ltac:(lra)) as Hq.
  assert (E : normalize a = vscale (1 / sqrt (dot a a)) a) by (unfold normalize; cbv zeta; destruct (Rgt_dec (dot a a) 0); [reflexivity|lra]).
  split; [unfold Rdiv; rewrite Rmult_1_l; apply Rinv_0_lt_compat; exact Hs|]. split; [exact E|].
  unfold Unit. rewrite E, length2_dot, dot_scale, (dot_sym a (vscale _ _)), dot_scale. set (q := sqrt (dot a a)) in *. rewrite <- Hq. field. lra.
Qed.
Lemma normalize_dot_zero a b : dot a b = 0 -> dot (normalize a) b = 0.
Proof. intros H. unfold normalize. cbv zeta. rewrite dot_scale, H. ring. Qed.

Lemma residue_pos (u o : vec) v : v = dot u o -> Unit o -> (forall k, exists d, (d < 3)%nat /\ u d <> k * o d) -> 0 < dot (vsub u (vscale v o)) (vsub u (vscale v o)) /\ dot (vsub u (vscale v o)) o = 0.
Proof.
  intros Ev U H. split.
  - destruct (H v) as (d & Hd & Hn). apply (dot_nonzero _ d Hd). unfold vsub, vscale. lra.
  - rewrite dot_sub, dot_scale. unfold Unit in U. rewrite length2_dot in U. rewrite U, Ev. ring.
Qed.

Lemma not_multiple_scale (u o : vec) a b : a <> 0 -> b <> 0 -> (forall k, exists d, (d < 3)%nat /\ u d <> k * o d) ->
  forall k, exists d, (d < 3)%nat /\ vscale a u d <> k * vscale b o d.
Proof.
  intros Ha Hb H k. destruct (H (k * b / a)) as (d & Hd & Hn). exists d. split; [exact Hd|]. unfold vscale. intros E. apply Hn.
  apply (Rmult_eq_reg_l a); [|exact Ha]. rewrite E. field. exact Ha.
Qed.

(* two unit vectors with product 1 are equal *)
Lemma unit_product_one (a b : vec) : Unit a -> Unit b -> dot a b = 1 -> forall d, (d < 3)%nat -> a d = b d.
Proof.
  unfold Unit. rewrite !length2_dot. intros A B C d Hd.
  assert (Z : dot (vsub a b) (vsub a b) = 0) by (rewrite dot_diff, A, B, C; ring).
  pose proof (dot_zero _ Z d Hd) as E. unfold vsub in E. lra.
Qed.

Lemma camera_good o up : (forall k, exists d, (d < 3)%nat /\ up d <> k * o d) -> (exists d, (d < 3)%nat /\ o d <> 0) ->
  Unit (fst (camera o up)) /\ Unit (snd (camera o up)) /\ Perpendicular (fst (camera o up)) (snd (camera o up)) /\
  (exists k, 0 < k /\ forall d, (d < 3)%nat -> fst (camera o up) d = k * o d) /\
  (exists a b, 0 < a /\ forall d, (d < 3)%nat -> snd (camera o up) d = a * up d + b * o d).
Proof.
  intros H (d0 & Hd0 & Ho).
  destruct (normalize_pos o (dot_nonzero o d0 Hd0 Ho)) as (k & Hk & Eo & Uo).
  assert (Hup : 0 < dot up up) by (destruct (H 0) as (d & Hd & Hn); apply (dot_nonzero up d Hd); lra).
  destruct (normalize_pos up Hup) as (m & Hm & Eu & Uu).
  unfold camera. cbv zeta. set (o1 := normalize o) in *. set (u1 := normalize up) in *.
  assert (PP : forall a b, dot a b = 0 -> Perpendicular b a) by (intros a b; unfold Perpendicular, dot; lra).
  destruct (Req_EM_T (dot u1 o1) 0) as [E|E].
  - cbn [fst snd]. repeat split; auto.
    + exists k. split; [exact Hk|]. intros. rewrite Eo. reflexivity.
    + exists m, 0. split; [exact Hm|]. intros. rewrite Eu. unfold vscale. ring.
  - assert (NM : forall k, exists d, (d < 3)%nat /\ u1 d <> k * o1 d).
    { rewrite Eu, Eo. apply not_multiple_scale; [lra|lra|exact H]. }
    destruct (Req_EM_T (dot u1 o1) 1) as [E1|E1].
    + exfalso. destruct (NM 1) as (d & Hd & Hn). apply Hn. rewrite Rmult_1_l. exact (unit_product_one u1 o1 Uu Uo E1 d Hd).
    + destruct (residue_pos u1 o1 _ eq_refl Uo NM) as [P Z]. set (v := dot u1 o1) in *. destruct (normalize_pos _ P) as (q & Hq & Ew & Uw).
      cbn [fst snd]. repeat split; auto.
      * apply PP, normalize_dot_zero, Z.
      * exists k. split; [exact Hk|]. intros. rewrite Eo. reflexivity.
      * exists (q * m), (- (q * v * k)). split; [nra|]. intros d Hd. rewrite Ew, Eu, Eo. unfold vscale, vsub. ring.
Qed.

(* the rays of a picture *)
Definition screen (o up : vec) (dx dy : R) : vec := fun d => o d + dx * cross o up d + dy * up d.
Lemma screen_o o up dx dy : Unit o -> Perpendicular o up -> dot (screen o up dx dy) o = 1.
Proof.
  intros U P. unfold Unit in U. rewrite length2_dot in U. unfold Perpendicular in P. unfold dot, screen, cross in *.
  transitivity ((o 0%nat * o 0%nat + o 1%nat * o 1%nat + o 2%nat * o 2%nat) + dy * (o 0%nat * up 0%nat + o 1%nat * up 1%nat + o 2%nat * up 2%nat)); [ring|]. rewrite U, P. ring.
Qed.
Lemma screen_up o up dx dy : Unit up -> Perpendicular o up -> dot (screen o up dx dy) up = dy.
Proof.
  intros U P. unfold Unit in U. rewrite length2_dot in U. unfold Perpendicular in P. unfold dot, screen, cross in *.
  transitivity ((o 0%nat * up 0%nat + o 1%nat * up 1%nat + o 2%nat * up 2%nat) + dy * (up 0%nat * up 0%nat + up 1%nat * up 1%nat + up 2%nat * up 2%nat)); [ring|]. rewrite U, P. ring.
Qed.
Lemma screen_right o up dx dy : Unit o -> Unit up -> Perpendicular o up -> dot (screen o up dx dy) (cross o up) = dx.
Proof.
  intros U1 U2 P. unfold Unit in U1, U2. rewrite length2_dot in U1, U2. unfold Perpendicular in P. unfold dot, screen, cross in *.
  transitivity (dx * ((o 0%nat * o 0%nat + o 1%nat * o 1%nat + o 2%nat * o 2%nat) * (up 0%nat * up 0%nat + up 1%nat * up 1%nat + up 2%nat * up 2%nat) - (o 0%nat * up 0%nat + o 1%nat * up 1%nat + o 2%nat * up 2%nat) ^ 2)); [ring|]. rewrite U1, U2, P. ring.
Qed.
Lemma pixel_screen o up px py x y : pixel o up px py x y = normalize (screen o up ((INR x - INR px / 2) / INR px) ((INR y - INR py / 2) / INR py)).
Proof. reflexivity. Qed.
Lemma pixel_good o up px py x y : Unit o -> Unit up -> Perpendicular o up ->
  exists k, 0 < k /\ Unit (pixel o up px py x y) /\ dot (pixel o up px py x y) o = k /\
  dot (pixel o up px py x y) (cross o up) = k * ((INR x - INR px / 2) / INR px) /\ dot (pixel o up px py x y) up = k * ((INR y - INR py / 2) / INR py).
Proof.
  intros U1 U2 P. rewrite pixel_screen. set (dx := (INR x - INR px / 2) / INR px). set (dy := (INR y - INR py / 2) / INR py). clearbody dx dy.
  set (w := screen o up dx dy).
  assert (Hw : 0 < dot w w).
  { pose proof (dot_pos w). destruct (Req_dec (dot w w) 0) as [E|E]; [|lra]. exfalso. pose proof (dot_zero w E) as Z. pose proof (screen_o o up dx dy U1 P) as S1. fold w in S1.
    unfold dot in S1. rewrite (Z 0%nat), (Z 1%nat), (Z 2%nat) in S1 by lia. lra. }
  destruct (normalize_pos w Hw) as (k & Hk & E & U). exists k. rewrite E in U |- *. repeat split; auto; rewrite dot_scale; unfold w.
  - rewrite screen_o by auto. ring.
  - rewrite screen_right by auto. reflexivity.
  - rewrite screen_up by auto. reflexivity.
Qed.

(* colours *)
Lemma unit_dot_le a b : Unit a -> Unit b -> dot a b <= 1.
Proof.
  unfold Unit. rewrite !length2_dot. intros A B. pose proof (dot_pos (vsub a b)) as H. rewrite dot_diff, A, B in H. lra.
Qed.
Lemma Int_part_range x : 0 <= x <= 255 -> (0 <= Int_part x <= 255)%Z.
Proof.
  intros H. destruct (base_Int_part x) as [A B].
  split.
  - assert (K : (-1 < Int_part x)%Z) by (apply lt_IZR; lra). lia.
  - apply le_IZR. lra.
Qed.
Lemma channel_range base a b c : 0 <= base <= 1 -> (Unit a \/ Length2 a = 0) -> Unit b -> (0 <= c <= 255)%Z -> (0 <= channel base a b (reflectivity c) 1 <= 255)%Z.
Proof.
  intros Hb Ha Ub Hc. unfold channel. cbv zeta. apply Int_part_range.
  assert (0 <= clamp (dot a b) <= 1).
  { unfold clamp. destruct (Rlt_dec (dot a b) 0); [lra|]. split; [lra|]. destruct Ha as [Ua|Za]; [apply unit_dot_le; auto|].
    rewrite length2_dot in Za. pose proof (dot_zero a Za) as Z. unfold dot. rewrite (Z 0%nat), (Z 1%nat), (Z 2%nat) by lia. lra. }
  assert (R01 : 0 <= reflectivity c <= 1).
  { unfold reflectivity. destruct Hc as [H1 H2]. apply IZR_le in H1, H2. unfold Rdiv. split; [nra|]. lra. }
  set (q := clamp (dot a b)) in *. set (w := reflectivity c) in *. clearbody q w. set (i := (1 - base) * q + base). assert (0 <= i <= 1) by (unfold i; nra). clearbody i. nra.
Qed.
(* brighter when turned to the light; never brighter than the sphere's own colour; no darker than base *)
Lemma channel_bounds base a b c : 0 <= base <= 1 -> Unit a -> Unit b -> (0 <= c <= 255)%Z ->
  (Int_part (base * IZR c) <= channel base a b (reflectivity c) 1 <= c)%Z.
Proof.
  intros Hb Ua Ub [H1 H2]. apply IZR_le in H1, H2. unfold channel. cbv zeta.
  assert (0 <= clamp (dot a b) <= 1) by (unfold clamp; pose proof (unit_dot_le a b Ua Ub); destruct (Rlt_dec (dot a b) 0); lra).
  set (q := clamp (dot a b)) in *. clearbody q. set (i := (1 - base) * q + base). assert (Hi : base <= i <= 1) by (unfold i; nra). clearbody i.
  replace (i * (reflectivity c * 1) * 255) with (i * IZR c) by (unfold reflectivity; field).
  destruct (base_Int_part (i * IZR c)) as [A B]. destruct (base_Int_part (base * IZR c)) as [A' B'].
  assert (base * IZR c <= i * IZR c) by nra. assert (i * IZR c <= IZR c) by nra.
  split.
  - assert (K : (Int_part (base * IZR c) < Int_part (i * IZR c) + 1)%Z) by (apply lt_IZR; rewrite plus_IZR; lra). lia.
  - apply le_IZR. lra.
Qed.
