From Coq Require Import Reals List Bool Arith ZArith Lia Lra.
From Verif Require Import Model_Forces Spec_Forces Model_Integrators Proofs_Forces Proofs_Forces2.
Import ListNotations.
Local Open Scope R_scope.

(* y is x with the update u applied to the entries i..j-1 *)
Definition applied (u : nat -> R -> option R) (i j : nat) (x y : arr) : Prop :=
  length y = length x /\ forall k, nth_error y k = if ((i <=? k) && (k <? j))%nat then match nth_error x k with Some a => u k a | None => None end else nth_error x k.
Definition ok (u : nat -> R -> option R) (i j : nat) (x : arr) : Prop :=
  (j <= length x)%nat /\ forall k a, (i <= k < j)%nat -> nth_error x k = Some a -> exists b, u k a = Some b.

Lemma set_nth_length i a x : length (set_nth i a x) = length x.
Proof. revert i. induction x; intros [|i]; cbn; auto. Qed.
Lemma set_nth_same i a x : (i < length x)%nat -> nth_error (set_nth i a x) i = Some a.
Proof. revert i. induction x; intros [|i] H; cbn in *; try lia; [reflexivity|]. apply IHx. lia. Qed.
Lemma set_nth_other i k a x : i <> k -> nth_error (set_nth i a x) k = nth_error x k.
Proof. revert i k. induction x; intros [|i] [|k] H; cbn; try reflexivity; try lia. apply IHx. lia. Qed.
Lemma nth_error_ex (x : arr) k : (k < length x)%nat -> exists a, nth_error x k = Some a.
Proof. intros H. destruct (nth_error x k) eqn:E; [eauto|]. apply nth_error_None in E. lia. Qed.

Lemma applied_refl u i x : applied u i i x x.
Proof. split; [reflexivity|]. intros k. destruct (Nat.leb_spec i k), (Nat.ltb_spec k i); cbn [andb]; try reflexivity; lia. Qed.
Lemma applied_trans u i j l x y z : (i <= j <= l)%nat -> applied u i j x y -> applied u j l y z -> applied u i l x z.
Proof.
  intros Hij [L1 A1] [L2 A2]. split; [congruence|]. intros k. rewrite A2, A1.
  destruct (Nat.leb_spec i k), (Nat.leb_spec j k), (Nat.ltb_spec k j), (Nat.ltb_spec k l); cbn [andb]; try reflexivity; lia.
Qed.
Lemma ok_after u i j l x y : (i <= j)%nat -> ok u i l x -> applied u i j x y -> ok u j l y.
Proof.
  intros Hij [L O] [L1 A]. split; [now rewrite L1|]. intros k a Hk E. rewrite A in E.
  destruct (Nat.leb_spec i k), (Nat.ltb_spec k j); cbn [andb] in E; try lia. apply (O k a); [lia|exact E].
Qed.
Lemma ok_weak u i j l x : (j <= l)%nat -> ok u i l x -> ok u i j x.
Proof. intros H [L O]. split; [lia|]. intros k a Hk. apply O. lia. Qed.

Lemma update1_spec u i x : ok u i (S i) x -> exists y, update1 u i x = Some y /\ applied u i (S i) x y.
Proof.
  intros [L O]. unfold update1. destruct (nth_error_ex x i ltac:(lia)) as (a & E). rewrite E. destruct (O i a ltac:(lia) E) as (b & Eb). rewrite Eb.
  unfold store1. destruct (Nat.ltb_spec i (length x)); [|lia]. eexists. split; [reflexivity|]. split; [apply set_nth_length|]. intros k.
  destruct (Nat.eq_dec k i) as [->|N].
  - rewrite set_nth_same by lia. destruct (Nat.leb_spec i i), (Nat.ltb_spec i (S i)); cbn [andb]; try lia. rewrite E. now rewrite Eb.
  - rewrite set_nth_other by lia. destruct (Nat.leb_spec i k), (Nat.ltb_spec k (S i)); cbn [andb]; try lia; reflexivity.
Qed.
Lemma scalar_spec u : forall n i x, ok u i (i + n) x -> exists y, scalar_loop u n i x = Some y /\ applied u i (i + n) x y.
Proof.
  induction n as [|n IH]; intros i x O; cbn [scalar_loop].
  - exists x. rewrite Nat.add_0_r. split; [reflexivity|apply applied_refl].
  - destruct (update1_spec u i x) as (y & -> & A1); [apply (ok_weak u i (S i) (i + S n)); [lia|exact O]|].
    replace (i + S n)%nat with (S i + n)%nat in * by lia.
    destruct (IH (S i) y) as (z & -> & A2); [apply (ok_after u i (S i) (S i + n) x); [lia|exact O|exact A1]|].
    exists z. split; [reflexivity|]. apply (applied_trans u i (S i) (S i + n) x y z); [lia|exact A1|exact A2].
Qed.
Lemma lanes_spec u x : forall W i, ok u i (i + W) x -> exists vs, lanes u i W x = Some vs /\ length vs = W /\
  forall l, (l < W)%nat -> nth_error vs l = match nth_error x (i + l) with Some a => u (i + l)%nat a | None => None end.
Proof.
  induction W as [|w IH]; intros i O; cbn [lanes].
  - exists []. repeat split. intros. lia.
  - destruct O as [L O]. destruct (nth_error_ex x i ltac:(lia)) as (a & E). rewrite E. destruct (O i a ltac:(lia) E) as (b & Eb). rewrite Eb.
    destruct (IH (S i)) as (vs & -> & Lv & Av); [split; [lia|intros k c Hk; apply O; lia]|]. exists (b :: vs). split; [reflexivity|]. split; [cbn; lia|].
    intros [|l] Hl; [rewrite Nat.add_0_r, E, Eb; reflexivity|]. cbn [nth_error]. rewrite Av by lia. now replace (i + S l)%nat with (S i + l)%nat by lia.
Qed.
Lemma store_all_spec : forall vs i x, (i + length vs <= length x)%nat -> exists y, store_all i vs x = Some y /\ length y = length x /\
  forall k, nth_error y k = if ((i <=? k) && (k <? i + length vs))%nat then nth_error vs (k - i) else nth_error x k.
Proof.
  induction vs as [|a vs IH]; intros i x H; cbn [store_all length] in *.
  - exists x. repeat split. intros k. destruct (Nat.leb_spec i k), (Nat.ltb_spec k (i + 0)); cbn [andb]; try reflexivity; lia.
  - unfold store1. destruct (Nat.ltb_spec i (length x)); [|lia]. destruct (IH (S i) (set_nth i a x)) as (y & E & L & A); [rewrite set_nth_length; lia|].
    exists y. split; [exact E|]. split; [now rewrite L, set_nth_length|]. intros k. rewrite A.
    destruct (Nat.eq_dec k i) as [->|N].
    + destruct (Nat.leb_spec (S i) i); [lia|]. cbn [andb]. rewrite set_nth_same by lia. destruct (Nat.leb_spec i i), (Nat.ltb_spec i (i + S (length vs))); cbn [andb]; try lia. now rewrite Nat.sub_diag.
    + rewrite set_nth_other by lia. destruct (Nat.leb_spec (S i) k), (Nat.leb_spec i k), (Nat.ltb_spec k (S i + length vs)), (Nat.ltb_spec k (i + S (length vs))); cbn [andb]; try lia; try reflexivity.
      replace (k - i)%nat with (S (k - S i)) by lia. reflexivity.
Qed.
Lemma block_spec u W i x : ok u i (i + W) x -> exists y, block u W i x = Some y /\ applied u i (i + W) x y.
Proof.
  intros O. unfold block. destruct (lanes_spec u x W i O) as (vs & -> & Lv & Av). destruct O as [L _].
  destruct (store_all_spec vs i x) as (y & E & Ly & A); [lia|]. exists y. split; [exact E|]. split; [exact Ly|]. intros k. rewrite A, Lv.
  destruct (Nat.leb_spec i k), (Nat.ltb_spec k (i + W)); cbn [andb]; try reflexivity. rewrite Av by lia. now replace (i + (k - i))%nat with k by lia.
Qed.
Lemma blocks_spec ub strict W total : (0 < W)%nat -> forall fuel i x, (total < fuel + i)%nat -> ok ub i total x -> (i <= total)%nat ->
  exists y m, blocks ub strict W total fuel i x = Some (y, m) /\ (i <= m <= total)%nat /\ (total <= m + W)%nat /\ applied ub i m x y.
Proof.
  intros HW. induction fuel as [|k IH]; intros i x HF O Hi; [lia|]. cbn [blocks].
  set (c := if strict then _ else _). assert (Hc : c = true -> (i + W <= total)%nat) by (unfold c; destruct strict; intros H; [apply Z.ltb_lt in H|apply Z.leb_le in H]; lia).
  assert (Hn : c = false -> (total <= i + W)%nat) by (unfold c; destruct strict; intros H; [apply Z.ltb_ge in H|apply Z.leb_gt in H]; lia).
  destruct c.
  - specialize (Hc eq_refl). destruct (block_spec ub W i x) as (y & -> & A1); [apply (ok_weak ub i (i + W) total); [lia|exact O]|].
    destruct (IH (i + W)%nat y) as (z & m & -> & Hm & Ht & A2); [lia|apply (ok_after ub i (i + W) total x); [lia|exact O|exact A1]|lia|].
    exists z, m. split; [reflexivity|]. split; [lia|]. split; [exact Ht|]. apply (applied_trans ub i (i + W) m x y z); [lia|exact A1|exact A2].
  - specialize (Hn eq_refl). exists x, i. split; [reflexivity|]. split; [lia|]. split; [lia|]. apply applied_refl.
Qed.
Lemma applied_ext u u' i j x y : (forall k a, (i <= k < j)%nat -> nth_error x k = Some a -> u k a = u' k a) -> applied u i j x y -> applied u' i j x y.
Proof.
  intros H [L A]. split; [exact L|]. intros k. rewrite A. destruct (Nat.leb_spec i k), (Nat.ltb_spec k j); cbn [andb]; try reflexivity.
  destruct (nth_error x k) as [a|] eqn:E; [|reflexivity]. now apply H.
Qed.
(* blocks and left overs with different updates *)
Lemma simd_loop_spec2 ub ul strict W total x : (0 < W)%nat -> ok ub 0 total x -> (forall y m, applied ub 0 m x y -> (m <= total)%nat -> ok ul m total y) ->
  exists y z m, simd_loop ub ul strict W total x = Some z /\ (m <= total)%nat /\ (total <= m + W)%nat /\ applied ub 0 m x y /\ applied ul m total y z.
Proof.
  intros HW O Ol. unfold simd_loop. destruct (blocks_spec ub strict W total HW (S total) 0 x) as (y & m & -> & Hm & Ht & A); [lia|exact O|lia|].
  destruct (scalar_spec ul (total - m) m y) as (z & -> & A2); [replace (m + (total - m))%nat with total by lia; apply Ol; [exact A|lia]|].
  replace (m + (total - m))%nat with total in A2 by lia. exists y, z, m. split; [reflexivity|]. split; [lia|]. split; [exact Ht|]. split; [exact A|exact A2].
Qed.
Lemma simd_loop_spec ub ul strict W total x : (0 < W)%nat -> ok ul 0 total x -> (forall k a, (k < total)%nat -> ub k a = ul k a) ->
  exists y, simd_loop ub ul strict W total x = Some y /\ applied ul 0 total x y.
Proof.
  intros HW O E. assert (Ob : ok ub 0 total x). { split; [apply O|]. intros k a Hk Ex. rewrite E by lia. destruct O as [_ O]. now apply (O k a). }
  destruct (simd_loop_spec2 ub ul strict W total x HW Ob) as (y & z & m & Ez & Hm & _ & A1 & A2).
  { intros y m A Hm. apply (ok_after ul 0 m total x); [lia|exact O|]. apply (applied_ext ub); [intros; apply E; lia|exact A]. }
  exists z. split; [exact Ez|]. apply (applied_trans ul 0 m total x y z); [lia| |exact A2]. apply (applied_ext ub); [intros; apply E; lia|exact A1].
Qed.

Lemma nth_of_error (x : arr) k a : nth_error x k = Some a -> nth k x 0 = a.
Proof. intros H. now apply nth_error_nth. Qed.
Lemma error_of_nth (x : arr) k : (k < length x)%nat -> nth_error x k = Some (nth k x 0).
Proof. intros H. now apply nth_error_nth'. Qed.
(* The result in terms of values *)
Lemma applied_value u w total x y : applied u 0 total x y -> (total <= length x)%nat -> (forall k a, (k < total)%nat -> u k a = Some (w k a)) ->
  length y = length x /\ forall k, nth k y 0 = if (k <? total)%nat then w k (nth k x 0) else nth k x 0.
Proof.
  intros [L A] HL H. split; [exact L|]. intros k. specialize (A k). cbn [Nat.leb andb] in A. destruct (Nat.ltb_spec k total).
  - rewrite (error_of_nth x k) in A by lia. rewrite (H k _ H0) in A. now apply nth_of_error.
  - destruct (Nat.lt_ge_cases k (length x)); [|rewrite !nth_overflow by lia; reflexivity]. rewrite (error_of_nth x k) in A by lia. now apply nth_of_error.
Qed.
Lemma ok_of u w total x : (total <= length x)%nat -> (forall k a, (k < total)%nat -> u k a = Some (w k a)) -> ok u 0 total x.
Proof. intros HL H. split; [exact HL|]. intros k a Hk _. exists (w k a). apply H. lia. Qed.

(* The two updates of velocity-Verlet; the builds that work *)
Definition works (s : simd) : Prop := s = NoSimd \/ s = SSE3.
Lemma drift_val dt v total k a : (total <= length v)%nat -> (k < total)%nat -> drift_upd dt v k a = Some (a + dt * nth k v 0).
Proof. intros L H. unfold drift_upd. rewrite (error_of_nth v k) by lia. reflexivity. Qed.
Lemma div_small_len dims total (im : arr) k : (0 < dims)%nat -> (total <= length im * dims)%nat -> (k < total)%nat -> (k / dims < length im)%nat.
Proof. intros HD HL Hk. apply Nat.div_lt_upper_bound; [lia|]. rewrite Nat.mul_comm. lia. Qed.
Lemma kick_val c dims im f total k a : (0 < dims)%nat -> (total <= length f)%nat -> (total <= length im * dims)%nat -> (k < total)%nat ->
  kick_upd c (fun i => nth_error im (i / dims)) f k a = Some (a + c * nth (k / dims) im 0 * nth k f 0).
Proof.
  intros HD HF HI Hk. unfold kick_upd. rewrite (error_of_nth f k) by lia. rewrite (error_of_nth im (k / dims)) by (now apply (div_small_len dims total)). reflexivity.
Qed.
Lemma width_pos s : (0 < width s)%nat.
Proof. destruct s; cbn; lia. Qed.
Lemma positions_spec s dt total v x : (total <= length x)%nat -> (total <= length v)%nat ->
  exists y, update_positions s dt total v x = Some y /\ length y = length x /\ forall k, nth k y 0 = if (k <? total)%nat then nth k x 0 + dt * nth k v 0 else nth k x 0.
Proof.
  intros HX HV. assert (O : ok (drift_upd dt v) 0 total x) by (apply (ok_of _ (fun k a => a + dt * nth k v 0)); [exact HX|intros; now apply (drift_val _ _ total)]).
  assert (exists y, update_positions s dt total v x = Some y /\ applied (drift_upd dt v) 0 total x y) as (y & E & A).
  { unfold update_positions. destruct s; [apply (scalar_spec _ total 0 x O)|..]; (apply simd_loop_spec; [apply (width_pos _)|exact O|reflexivity]). }
  exists y. split; [exact E|]. apply (applied_value (drift_upd dt v) (fun k a => a + dt * nth k v 0)); [exact A|exact HX|intros; now apply (drift_val _ _ total)].
Qed.
Lemma velocities_spec s dims dt total im f v : works s -> (0 < dims)%nat -> (total <= length v)%nat -> (total <= length f)%nat -> (total <= length im * dims)%nat ->
  exists y, update_velocities s dims dt total im f v = Some y /\ length y = length v /\
    forall k, nth k y 0 = if (k <? total)%nat then nth k v 0 + 1 / 2 * dt * nth (k / dims) im 0 * nth k f 0 else nth k v 0.
Proof.
  intros Hs HD HV HF HI. set (u := kick_upd (1 / 2 * dt) (fun i => nth_error im (i / dims)) f).
  assert (Hu : forall k a, (k < total)%nat -> u k a = Some (a + 1 / 2 * dt * nth (k / dims) im 0 * nth k f 0)) by (intros; now apply (kick_val _ _ _ _ total)).
  assert (O : ok u 0 total v) by (apply (ok_of u _ total v HV Hu)).
  assert (exists y, update_velocities s dims dt total im f v = Some y /\ applied u 0 total v y) as (y & E & A).
  { unfold update_velocities. fold u. destruct Hs as [-> | ->]; [apply (scalar_spec _ total 0 v O)|]. apply simd_loop_spec; [cbn; lia|exact O|reflexivity]. }
  exists y. split; [exact E|]. apply (applied_value u _ total v y A HV Hu).
Qed.
