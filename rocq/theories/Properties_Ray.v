(* C78-C80: pictures of spheres. *)
From Coq Require Import Reals List Lra Psatz Lia ZArith.
From Verif Require Import Model_Ray Spec_Ray Proofs_Ray.
Import ListNotations.
Local Open Scope R_scope.

Definition v3 (x y z : R) : vec := fun d => match d with 0%nat => x | 1%nat => y | _ => z end.
Definition x_ray : ray := mkRay (v3 0 0 0) (v3 1 0 0).
Lemma x_ray_unit : Unit (r_u x_ray). Proof. unfold Unit, Length2; cbn; lra. Qed.

(* C78: where rays meet spheres and the box *)
Theorem C78_sphere r s tmin n f : Unit (r_u r) -> intersect r s tmin = Some (n, f) ->
  n <= f /\ tmin <= f /\ forall t, Inside s (Along r t) <-> n <= t <= f.
Proof. intros U H. destruct (intersect_some r s tmin n f U H) as (A & B & C & _). auto. Qed.
Print Assumptions C78_sphere.
Example C78_sphere_case : intersect x_ray (mkSphere (v3 5 3 0) 5 0) 0 = Some (5 - 4, 5 + 4).
Proof. rewrite (intersect_eval x_ray (mkSphere (v3 5 3 0) 5 0) 0 4); [|unfold dot, vsub; cbn; lra ..]. f_equal. f_equal; unfold dot, vsub; cbn; lra. Qed.

Theorem C78_sphere_missed_partial r s tmin : Unit (r_u r) -> ~ Inside s (Along r 0) -> intersect r s tmin = None ->
  forall t, 0 <= t -> tmin <= t -> ~ Inside s (Along r t).
Proof. intros U H E. exact (intersect_none r s tmin U E H). Qed.
Print Assumptions C78_sphere_missed_partial.
Example C78_sphere_missed_case : intersect x_ray (mkSphere (v3 5 3 0) 2 0) 0 = None /\ ~ Inside (mkSphere (v3 5 3 0) 2 0) (Along x_ray 0).
Proof.
  split; [|unfold Inside, Dist2, Length2, Along; cbn; lra]. unfold intersect. cbv zeta. destruct (Rle_dec _ _); [reflexivity|].
  destruct (Rlt_dec _ _) as [|H]; [reflexivity|]. exfalso. apply H. unfold dot, vsub; cbn; lra.
Qed.

(* a camera inside a sphere whose centre is behind it does not see the sphere *)
Theorem C78_camera_inside_refuted : exists r s, Unit (r_u r) /\ 0 < s_r s /\ intersect r s 0 = None /\ Inside s (Along r 0) /\ Inside s (Along r 1).
Proof.
  exists x_ray, (mkSphere (v3 (-1) 0 0) 2 0). split; [exact x_ray_unit|]. split; [cbn; lra|]. split.
  - unfold intersect. cbv zeta. destruct (Rle_dec _ _) as [|H]; [reflexivity|]. exfalso. apply H. unfold dot, vsub; cbn; lra.
  - unfold Inside, Dist2, Length2, Along; cbn. lra.
Qed.
Print Assumptions C78_camera_inside_refuted.

Theorem C78_box r lo hi tmin tmax : (forall d, (d < 3)%nat -> lo d <= hi d) -> ray_box lo hi r = Some (tmin, tmax) ->
  0 <= tmin < tmax /\ forall t, 0 <= t <= 10000 -> (In_box lo hi (Along r t) <-> tmin <= t <= tmax).
Proof. intros H E. destruct (ray_box_some lo hi r tmin tmax H E) as [A B]. split; [exact A|]. intros t Ht. apply B; [lra|intros; lra]. Qed.
Print Assumptions C78_box.
Example C78_box_case : exists tmin tmax, ray_box (v3 1 (-1) (-1)) (v3 3 1 1) x_ray = Some (tmin, tmax) /\ tmin = 1 /\ tmax = 3.
Proof.
  unfold ray_box, slab. cbn. destruct (Req_EM_T 1 0); [lra|]. destruct (Rgt_dec 1 0); [|lra]. destruct (Req_EM_T 0 0); [|lra].
  destruct (Rle_dec 0 (-1)); [lra|]. destruct (Rle_dec 1 0); [lra|].
  assert (M : Rmax (Rmax (Rmax ((1 - 0) / 1) 0) 0) 0 = 1) by (unfold Rmax; repeat destruct (Rle_dec _ _); lra).
  assert (M2 : Rmin (Rmin (Rmax ((3 - 0) / 1) 0) 10000) 10000 = 3) by (unfold Rmin, Rmax; repeat destruct (Rle_dec _ _); lra).
  rewrite M, M2. destruct (Rle_dec 3 1); [lra|]. eauto.
Qed.
(* rays that are not parallel to a face: any distance *)
Theorem C78_box_oblique r lo hi tmin tmax : (forall d, (d < 3)%nat -> lo d <= hi d) -> (forall d, (d < 3)%nat -> r_u r d <> 0) -> ray_box lo hi r = Some (tmin, tmax) ->
  forall t, 0 <= t -> (In_box lo hi (Along r t) <-> tmin <= t <= tmax).
Proof. intros H N E. destruct (ray_box_some lo hi r tmin tmax H E) as [A B]. intros t Ht. apply B; [lra|]. intros (d & Hd & Z). exfalso. exact (N d Hd Z). Qed.
Print Assumptions C78_box_oblique.
Theorem C78_box_missed_partial r lo hi : ray_box lo hi r = None -> forall t, 0 <= t < 10000 -> ~ Within_box lo hi (Along r t).
Proof. intros E t Ht. apply (ray_box_none lo hi r E); [lra|intros; lra]. Qed.
Print Assumptions C78_box_missed_partial.
Example C78_box_missed_case : ray_box (v3 1 1 (-1)) (v3 3 2 1) x_ray = None.
Proof. unfold ray_box, slab. cbn. destruct (Req_EM_T 1 0); [lra|]. destruct (Rgt_dec 1 0); [|lra]. destruct (Req_EM_T 0 0); [|lra]. destruct (Rle_dec 0 1); [reflexivity|lra]. Qed.
(* a box more than 10000 away is not seen along an axis *)
Theorem C78_box_far_refuted : exists r lo hi t, Unit (r_u r) /\ ray_box lo hi r = None /\ 0 <= t /\ Within_box lo hi (Along r t).
Proof.
  exists x_ray, (v3 10001 (-1) (-1)), (v3 10003 1 1), 10002. split; [exact x_ray_unit|]. split; [|split; [lra|]].
  - unfold ray_box, slab. cbn. destruct (Req_EM_T 1 0); [lra|]. destruct (Rgt_dec 1 0); [|lra]. destruct (Req_EM_T 0 0); [|lra].
    destruct (Rle_dec 0 (-1)); [lra|]. destruct (Rle_dec 1 0); [lra|].
    destruct (Rle_dec _ _) as [|H]; [reflexivity|]. exfalso. apply H. unfold Rmin, Rmax. repeat destruct (Rle_dec _ _); lra.
  - unfold Within_box. apply d3. unfold Along. cbn. lra.
Qed.
Print Assumptions C78_box_far_refuted.

(* C79: what a pixel shows *)
Theorem C79_shown_is_hit lo hi t l r s n f : Unit (r_u r) -> look lo hi (fill l t) r = Some (Some (s, (n, f))) ->
  In s l /\ n <= f /\ n < 10000 /\ forall t', Inside s (Along r t') <-> n <= t' <= f.
Proof.
  intros U. unfold look. destruct (ray_box lo hi r) as [[tmin tmax]|]; [|discriminate]. intros H.
  assert (H' : traverse r (fill l t) tmin tmax = Some (s, (n, f))) by congruence.
  destruct (traverse_sound r t l tmin tmax s n f H') as (A & B & C). destruct (intersect_some _ _ _ _ _ U B) as (D & E & _). auto.
Qed.
Print Assumptions C79_shown_is_hit.

Definition Camera_outside (r : ray) (l : list sphere) : Prop := forall s, In s l -> ~ Inside s (Along r 0).
Definition Planes_ok (t : tree) : Prop := forall pl, In pl (Planes t) -> (fst pl < 3)%nat.

(* nothing is shown only where there is nothing: any tree, any spheres *)
Theorem C79_nothing_hidden_partial lo hi t l r : (forall d, (d < 3)%nat -> lo d <= hi d) -> Unit (r_u r) -> Planes_ok t -> Camera_outside r l -> (forall s, In s l -> 0 <= s_r s) ->
  look lo hi (fill l t) r = Some None -> forall s t', In s l -> 0 <= t' < 10000 -> In_box lo hi (Along r t') -> ~ Within s (Along r t').
Proof.
  intros Hb U P O Rr. unfold look. destruct (ray_box lo hi r) as [[tmin tmax]|] eqn:E; [|discriminate]. intros H s t' Hs Ht HB.
  assert (H' : traverse r (fill l t) tmin tmax = None) by congruence.
  destruct (C78_box r lo hi tmin tmax Hb E) as [_ B]. apply (B t' ltac:(lra)) in HB.
  exact (traverse_complete r t U P l tmin tmax H' s t' Hs (Rr s Hs) (O s Hs) Ht HB).
Qed.
Print Assumptions C79_nothing_hidden_partial.

(* the nearest is shown, if no sphere crosses a splitting plane *)
Theorem C79_nearest_partial lo hi t l r s n f : (forall d, (d < 3)%nat -> lo d <= hi d) -> Unit (r_u r) -> Planes_ok t -> Camera_outside r l -> (forall x, In x l -> 0 <= s_r x) ->
  (forall pl x, In pl (Planes t) -> In x l -> ~ Crosses x pl) ->
  look lo hi (fill l t) r = Some (Some (s, (n, f))) ->
  forall s' t', In s' l -> 0 <= t' < 10000 -> In_box lo hi (Along r t') -> Within s' (Along r t') -> forall t2, Inside s' (Along r t2) -> n <= t2.
Proof.
  intros Hb U P O Rr C. unfold look. destruct (ray_box lo hi r) as [[tmin tmax]|] eqn:E; [|discriminate]. intros H s' t' Hs Ht HB W t2 I2.
  assert (H' : traverse r (fill l t) tmin tmax = Some (s, (n, f))) by congruence.
  destruct (C78_box r lo hi tmin tmax Hb E) as [_ B]. apply (B t' ltac:(lra)) in HB.
  exact (traverse_nearest r t U P l C Rr tmin tmax s n f H' s' t' Hs (O s' Hs) Ht HB W t2 I2).
Qed.
Print Assumptions C79_nearest_partial.
(* at most 50 spheres (target_leaf_size) are not divided: the tree is one leaf, the nearest is always shown *)
Theorem C79_few_spheres_partial lo hi m l r s n f : (forall d, (d < 3)%nat -> lo d <= hi d) -> Unit (r_u r) -> Camera_outside r l -> (forall x, In x l -> 0 <= s_r x) ->
  look lo hi (fill l (Leaf m)) r = Some (Some (s, (n, f))) ->
  forall s' t', In s' l -> 0 <= t' < 10000 -> In_box lo hi (Along r t') -> Within s' (Along r t') -> forall t2, Inside s' (Along r t2) -> n <= t2.
Proof. intros Hb U O Rr. apply C79_nearest_partial; auto; intros ? []. Qed.
Print Assumptions C79_few_spheres_partial.

(* two spheres, one on each side of the plane at x = 5: the nearer is shown *)
Definition sA := mkSphere (v3 14 8 0) 10 1.
Definition sB := mkSphere (v3 (13/2) 0 0) (1/2) 2.
Definition sC := mkSphere (v3 3 0 0) 1 3.
Definition plane5 : tree := Node 0 5 (Leaf []) (Leaf []).
Definition b_lo := v3 0 (-20) (-20).
Definition b_hi := v3 100 20 20.
Lemma box_x : ray_box b_lo b_hi x_ray = Some (0, 100).
Proof.
  unfold ray_box, slab. cbn. destruct (Req_EM_T 1 0); [lra|]. destruct (Rgt_dec 1 0); [|lra]. destruct (Req_EM_T 0 0); [|lra].
  destruct (Rle_dec 0 (-20)); [lra|]. destruct (Rle_dec 20 0); [lra|].
  assert (M : Rmax (Rmax (Rmax ((0 - 0) / 1) 0) 0) 0 = 0) by (unfold Rmax; repeat destruct (Rle_dec _ _); lra).
  assert (M2 : Rmin (Rmin (Rmax ((100 - 0) / 1) 0) 10000) 10000 = 100) by (unfold Rmin, Rmax; repeat destruct (Rle_dec _ _); lra).
  rewrite M, M2. destruct (Rle_dec 100 0); [lra|reflexivity].
Qed.
Lemma hitA : intersect x_ray sA 0 = Some (8, 20).
Proof. rewrite (intersect_eval x_ray sA 0 6); [|unfold dot, vsub; cbn; lra ..]. f_equal. f_equal; unfold dot, vsub; cbn; lra. Qed.
Lemma hitB : intersect x_ray sB 0 = Some (6, 7).
Proof. rewrite (intersect_eval x_ray sB 0 (1/2)); [|unfold dot, vsub; cbn; lra ..]. f_equal. f_equal; unfold dot, vsub; cbn; lra. Qed.
Lemma hitC : intersect x_ray sC 0 = Some (2, 4).
Proof. rewrite (intersect_eval x_ray sC 0 1); [|unfold dot, vsub; cbn; lra ..]. f_equal. f_equal; unfold dot, vsub; cbn; lra. Qed.
Ltac decide_R := repeat match goal with |- context [Rlt_dec ?a ?b] => destruct (Rlt_dec a b); [try (exfalso; unfold Rdiv in *; cbn in *; lra)|try (exfalso; unfold Rdiv in *; cbn in *; lra)] end.
Lemma plane5_look l : look b_lo b_hi (fill l plane5) x_ray = Some (match scan x_ray 0 (filter (lowers 0 5) l) with Some x => Some x | None => scan x_ray 0 (filter (highers 0 5) l) end).
Proof.
  unfold look. rewrite box_x. unfold plane5. rewrite fill_node, !fill_leaf, traverse_node. cbv zeta.
  assert (LF : low_first x_ray 0 5 0 = true).
  { unfold low_first. cbn. destruct (Req_EM_T 1 0); [lra|]. destruct (Rlt_dec _ _); [reflexivity|lra]. }
  assert (BO : both x_ray 0 5 0 100 = true).
  { unfold both. cbn. destruct (Req_EM_T 1 0); [lra|]. destruct (Rgt_dec _ _); [lra|]. destruct (Rlt_dec _ _); [lra|reflexivity]. }
  rewrite LF, BO. reflexivity.
Qed.
Example C79_nearest_case : look b_lo b_hi (fill [sB; sC] plane5) x_ray = Some (Some (sC, (2, 4))) /\ Planes_ok plane5 /\ Camera_outside x_ray [sB; sC] /\ (forall pl x, In pl (Planes plane5) -> In x [sB; sC] -> ~ Crosses x pl).
Proof.
  split; [|split; [|split]].
  - rewrite plane5_look. unfold lowers, highers. cbn [filter]. destruct (Rlt_dec (s_c sB 0%nat - _) 5); [exfalso; cbn in *; lra|]. destruct (Rlt_dec (s_c sC 0%nat - _) 5); [|exfalso; cbn in *; lra].
    unfold scan. cbn [fold_left]. rewrite hitC. cbn [nearest_so_far]. destruct (Rlt_dec 2 10000); [reflexivity|lra].
  - intros pl [<- | []]. cbn. lia.
  - intros s [<- |[<- | []]]; unfold Inside, Dist2, Length2, Along; cbn; lra.
  - intros pl s [<- | []] [<- |[<- | []]]; unfold Crosses; cbn; lra.
Qed.
Example C79_nothing_hidden_case : look b_lo b_hi (fill [mkSphere (v3 50 9 0) 3 0] plane5) x_ray = Some None.
Proof.
  rewrite plane5_look. unfold lowers, highers. cbn [filter]. destruct (Rlt_dec (s_c _ 0%nat - _) 5); [exfalso; cbn in *; lra|]. destruct (Rlt_dec 5 _); [|exfalso; cbn in *; lra].
  unfold scan. cbn [fold_left]. unfold intersect. cbv zeta. destruct (Rle_dec _ _); [reflexivity|].
  destruct (Rlt_dec _ _) as [|H]; [reflexivity|]. exfalso. apply H. unfold dot, vsub; cbn; lra.
Qed.

(* a sphere that crosses a splitting plane hides nearer ones behind the plane, although no two spheres touch *)
Theorem C79_crossing_refuted : exists lo hi t l r s n f s' n' f',
  (forall d, (d < 3)%nat -> lo d <= hi d) /\ Unit (r_u r) /\ Planes_ok t /\ Camera_outside r l /\ (forall x, In x l -> 0 < s_r x) /\
  (forall x y, In x l -> In y l -> x <> y -> (s_r x + s_r y) ^ 2 < Dist2 (s_c x) (s_c y)) /\
  look lo hi (fill l t) r = Some (Some (s, (n, f))) /\
  In s' l /\ (forall t', Inside s' (Along r t') <-> n' <= t' <= f') /\ n' < n /\ In_box lo hi (Along r n').
Proof.
  exists b_lo, b_hi, plane5, [sA; sB], x_ray, sA, 8, 20, sB, 6, 7.
  split; [apply d3; cbn; lra|]. split; [exact x_ray_unit|]. split; [intros pl [<- | []]; cbn; lia|].
  split; [intros s [<- |[<- | []]]; unfold Inside, Dist2, Length2, Along; cbn; lra|].
  split; [intros s [<- |[<- | []]]; cbn; lra|].
  split; [intros x y [<- |[<- | []]] [<- |[<- | []]] N; try (exfalso; apply N; reflexivity); unfold Dist2, Length2; cbn; lra|].
  split.
  { rewrite plane5_look. unfold lowers, highers. cbn [filter]. destruct (Rlt_dec (s_c sA 0%nat - _) 5); [|exfalso; cbn in *; lra]. destruct (Rlt_dec (s_c sB 0%nat - _) 5); [exfalso; cbn in *; lra|].
    unfold scan. cbn [fold_left]. rewrite hitA. cbn [nearest_so_far]. destruct (Rlt_dec 8 10000); [reflexivity|lra]. }
  split; [right; left; reflexivity|]. split; [exact (proj2 (proj2 (C78_sphere _ _ _ _ _ x_ray_unit hitB)))|]. split; [lra|].
  unfold In_box. apply d3. unfold Along. cbn. lra.
Qed.
Print Assumptions C79_crossing_refuted.

(* C80: cameras, pixels and colours *)
Theorem C80_camera_partial o up : (exists d, (d < 3)%nat /\ o d <> 0) -> (forall k, exists d, (d < 3)%nat /\ up d <> k * o d) ->
  Unit (fst (camera o up)) /\ Unit (snd (camera o up)) /\ Perpendicular (fst (camera o up)) (snd (camera o up)) /\
  (exists k, 0 < k /\ forall d, (d < 3)%nat -> fst (camera o up) d = k * o d) /\
  (exists a b, 0 < a /\ forall d, (d < 3)%nat -> snd (camera o up) d = a * up d + b * o d).
Proof. intros A B. exact (camera_good o up B A). Qed.
Print Assumptions C80_camera_partial.
Example C80_camera_case : (exists d, (d < 3)%nat /\ v3 1 2 3 d <> 0) /\ forall k, exists d, (d < 3)%nat /\ v3 0 1 0 d <> k * v3 1 2 3 d.
Proof. split; [exists 0%nat; split; [lia|cbn; lra]|]. intros k. destruct (Req_dec k 0) as [-> |N]; [exists 1%nat; split; [lia|cbn; lra]|exists 0%nat; split; [lia|cbn; lra]]. Qed.

(* up = orientation: the remedy fails along the first axis; up opposite to the orientation has none: the up vector is zero, every row of the picture is the same *)
Lemma norm_x (k : R) : k ^ 2 = 1 -> forall d, normalize (v3 k 0 0) d = v3 k 0 0 d.
Proof.
  intros H d. unfold normalize. cbv zeta. assert (E : dot (v3 k 0 0) (v3 k 0 0) = 1) by (unfold dot; cbn; nra). rewrite E.
  destruct (Rgt_dec 1 0); [|lra]. rewrite sqrt_1. unfold vscale. field.
Qed.
Lemma normalize_zero a : Length2 a = 0 -> forall d, (d < 3)%nat -> normalize a d = 0.
Proof. intros H d Hd. rewrite length2_dot in H. unfold normalize. cbv zeta. unfold vscale. rewrite (dot_zero a H d Hd). ring. Qed.
Theorem C80_camera_parallel_refuted : exists o, Unit o /\
  (forall d, (d < 3)%nat -> snd (camera o o) d = 0) /\ (forall d, (d < 3)%nat -> snd (camera o (fun d => - o d)) d = 0).
Proof.
  exists (v3 1 0 0). split; [unfold Unit, Length2; cbn; lra|]. split; intros d Hd.
  - unfold camera. cbv zeta. set (o1 := normalize (v3 1 0 0)).
    assert (N : forall d, o1 d = v3 1 0 0 d) by (intros; apply norm_x; lra).
    assert (D : dot o1 o1 = 1) by (unfold dot; rewrite !N; cbn; lra). rewrite D.
    destruct (Req_EM_T 1 0); [lra|]. destruct (Req_EM_T 1 1); [|lra]. cbn [snd].
    set (w := normalize (fun d0 => if (d0 =? 0)%nat then o1 d0 + 1 else o1 d0)).
    assert (W : forall d, (d < 3)%nat -> w d = v3 1 0 0 d).
    { intros i Hi. unfold w, normalize. cbv zeta. set (z := fun d0 : nat => _). assert (Z : dot z z = 2 * 2) by (unfold z, dot; cbn [Nat.eqb]; rewrite !N; cbn; lra). rewrite Z.
      destruct (Rgt_dec (2 * 2) 0); [|lra]. rewrite sqrt_square by lra. unfold vscale, z. destruct i as [|[|[|i]]]; cbn [Nat.eqb]; try lia; rewrite N; cbn; lra. }
    apply normalize_zero; [|exact Hd]. assert (DW : dot w o1 = 1) by (unfold dot; rewrite !W, !N by lia; cbn; lra). rewrite DW.
    unfold Length2, vsub, vscale. rewrite !W, !N by lia. cbn. lra.
  - unfold camera. cbv zeta. set (o1 := normalize (v3 1 0 0)). set (u1 := normalize _).
    assert (N : forall d, o1 d = v3 1 0 0 d) by (intros; apply norm_x; lra).
    assert (U : forall d, (d < 3)%nat -> u1 d = v3 (-1) 0 0 d).
    { intros i Hi. unfold u1, normalize. cbv zeta. set (z := fun d0 : nat => _). assert (Z : dot z z = 1) by (unfold z, dot; cbn; lra). rewrite Z.
      destruct (Rgt_dec 1 0); [|lra]. rewrite sqrt_1. unfold vscale, z. destruct i as [|[|[|i]]]; try lia; cbn; lra. }
    assert (D : dot u1 o1 = -1) by (unfold dot; rewrite !N, !U by lia; cbn; lra). rewrite D.
    destruct (Req_EM_T (-1) 0); [lra|]. destruct (Req_EM_T (-1) 1); [lra|]. cbn [snd].
    apply normalize_zero; [|exact Hd]. unfold Length2, vsub, vscale. rewrite !U, !N by lia. cbn. lra.
Qed.
Print Assumptions C80_camera_parallel_refuted.

(* every pixel's ray is a unit vector whose screen coordinates are those of the pixel *)
Theorem C80_pixel o up px py x y : Unit o -> Unit up -> Perpendicular o up ->
  exists right_ k, Unit right_ /\ Perpendicular right_ o /\ Perpendicular right_ up /\
    right_ 0%nat = o 1%nat * up 2%nat - o 2%nat * up 1%nat /\ right_ 1%nat = o 2%nat * up 0%nat - o 0%nat * up 2%nat /\ right_ 2%nat = o 0%nat * up 1%nat - o 1%nat * up 0%nat /\
    0 < k /\ Unit (pixel o up px py x y) /\
    forall d, (d < 3)%nat -> pixel o up px py x y d = k * (o d + (INR x / INR px - 1 / 2) * right_ d + (INR y / INR py - 1 / 2) * up d) \/ px = 0%nat \/ py = 0%nat.
Proof.
  intros A B C. exists (cross o up). unfold Unit, Length2, Perpendicular in *.
  rewrite pixel_screen. set (dx := (INR x - INR px / 2) / INR px). set (dy := (INR y - INR py / 2) / INR py).
  assert (Hw : 0 < dot (screen o up dx dy) (screen o up dx dy)).
  { pose proof (dot_pos (screen o up dx dy)). destruct (Req_dec (dot (screen o up dx dy) (screen o up dx dy)) 0) as [E|E]; [|lra]. exfalso. pose proof (dot_zero _ E) as Z. pose proof (screen_o o up dx dy A C) as S1.
    unfold dot in S1. rewrite (Z 0%nat), (Z 1%nat), (Z 2%nat) in S1 by lia. lra. }
  destruct (normalize_pos _ Hw) as (k & Hk & E & U). exists k.
  split. { unfold cross. transitivity ((o 0%nat ^ 2 + o 1%nat ^ 2 + o 2%nat ^ 2) * (up 0%nat ^ 2 + up 1%nat ^ 2 + up 2%nat ^ 2) - (o 0%nat * up 0%nat + o 1%nat * up 1%nat + o 2%nat * up 2%nat) ^ 2); [ring|rewrite A, B, C; ring]. }
  split; [unfold cross; ring|]. split; [unfold cross; ring|]. split; [unfold cross; ring|]. split; [unfold cross; ring|]. split; [unfold cross; ring|]. split; [exact Hk|].
  split; [exact U|]. intros d Hd. destruct (Nat.eq_dec px 0); [auto|]. destruct (Nat.eq_dec py 0); [auto|]. left. rewrite E. unfold vscale, screen.
  assert (0 < INR px) by (apply lt_0_INR; lia). assert (0 < INR py) by (apply lt_0_INR; lia).
  assert (D1 : dx = INR x / INR px - 1 / 2) by (unfold dx; field; lra). assert (D2 : dy = INR y / INR py - 1 / 2) by (unfold dy; field; lra). rewrite D1, D2. ring.
Qed.
Print Assumptions C80_pixel.
Example C80_pixel_case : Unit (v3 1 0 0) /\ Unit (v3 0 1 0) /\ Perpendicular (v3 1 0 0) (v3 0 1 0).
Proof. unfold Unit, Length2, Perpendicular; cbn; lra. Qed.
(* different pixels have different rays *)
Theorem C80_pixels_differ o up px py x y x' y' : Unit o -> Unit up -> Perpendicular o up -> (0 < px)%nat -> (0 < py)%nat ->
  (forall d, (d < 3)%nat -> pixel o up px py x y d = pixel o up px py x' y' d) -> x = x' /\ y = y'.
Proof.
  intros A B C Px Py H. destruct (pixel_good o up px py x y A B C) as (k & Hk & U & E1 & E2 & E3). destruct (pixel_good o up px py x' y' A B C) as (k' & Hk' & U' & F1 & F2 & F3).
  assert (D : forall b, dot (pixel o up px py x y) b = dot (pixel o up px py x' y') b) by (intros b; unfold dot; rewrite !H by lia; reflexivity).
  rewrite D in E1, E2, E3. rewrite F1 in E1. rewrite F2 in E2. rewrite F3 in E3. subst k'.
  assert (K : forall p a b, (0 < p)%nat -> k * ((INR a - INR p / 2) / INR p) = k * ((INR b - INR p / 2) / INR p) -> a = b).
  { intros p a b Hp E. apply INR_eq. assert (0 < INR p) by (apply lt_0_INR; exact Hp). apply Rmult_eq_reg_l in E; [|lra]. unfold Rdiv in E. apply Rmult_eq_reg_r in E; [lra|]. apply Rinv_neq_0_compat. lra. }
  split; [apply (K px x x' Px)|apply (K py y y' Py)]; congruence.
Qed.
Print Assumptions C80_pixels_differ.
(* the colour of a point: at most the sphere's own colour, at least the base illumination of it *)
Theorem C80_colours base norm light c : 0 <= base <= 1 -> Unit norm -> Unit light -> (0 <= c <= 255)%Z ->
  (Int_part (base * IZR c) <= channel base norm light (reflectivity c) 1 <= c)%Z.
Proof. exact (channel_bounds base norm light c). Qed.
Print Assumptions C80_colours.
Example C80_colours_case : 0 <= 1/10 <= 1 /\ Unit (v3 0 1 0) /\ Unit (v3 (3/5) 0 (4/5)) /\ (0 <= 200 <= 255)%Z.
Proof. unfold Unit, Length2; cbn; repeat split; try lra; lia. Qed.
(* facing the light: the colour itself; facing away: the base illumination *)
Theorem C80_lit_and_dark base norm light c : 0 <= base <= 1 -> Unit norm -> Unit light ->
  ((forall d, (d < 3)%nat -> norm d = light d) -> channel base norm light (reflectivity c) 1 = c) /\
  ((forall d, (d < 3)%nat -> norm d = - light d) -> channel base norm light (reflectivity c) 1 = Int_part (base * IZR c)).
Proof.
  intros Hb Un Ul. unfold Unit in Ul. rewrite length2_dot in Ul. split; intros H.
  - unfold channel. cbv zeta. assert (D : dot norm light = 1) by (unfold dot in *; rewrite !H by lia; exact Ul). rewrite D. unfold clamp. destruct (Rlt_dec 1 0); [lra|].
    replace (((1 - base) * 1 + base) * (reflectivity c * 1) * 255) with (IZR c) by (unfold reflectivity; field).
    destruct (base_Int_part (IZR c)) as [A B]. apply Z.le_antisymm; [apply le_IZR; exact A|]. assert (K : (c < Int_part (IZR c) + 1)%Z) by (apply lt_IZR; rewrite plus_IZR; lra). lia.
  - unfold channel. cbv zeta. assert (D : dot norm light = -1) by (transitivity (- dot light light); [unfold dot; rewrite !H by lia; ring|rewrite Ul; reflexivity]). rewrite D. unfold clamp. destruct (Rlt_dec (-1) 0); [|lra].
    f_equal. unfold reflectivity. field.
Qed.
Print Assumptions C80_lit_and_dark.
