From Coq Require Import Reals List Bool Arith ZArith Lia Lra.
From Verif Require Import Model_Forces Spec_Forces Model_Integrators Spec_Integrators Proofs_Forces Proofs_Forces2 Properties_Forces Proofs_Integrators.
Import ListNotations.
Local Open Scope R_scope.

Lemma arr_ext (x y : arr) : length x = length y -> (forall k, (k < length x)%nat -> nth k x 0 = nth k y 0) -> x = y.
Proof. intros L H. apply (nth_ext x y 0 0 L). intros k Hk. now apply H. Qed.
Lemma nth_opp k v : nth k (map Ropp v) 0 = - nth k v 0.
Proof. replace 0 with (- 0) at 1 by ring. apply map_nth. Qed.

(* One step as equations between arrays *)
Lemma step_facts s dims n im dt field st : works s -> (0 < dims)%nat -> length im = n -> shaped n dims st ->
  forall st', vv_step s dims n im dt field st = Some st' -> length (sf st') = (n * dims)%nat ->
  exists v1, length v1 = (n * dims)%nat /\ shaped n dims st' /\ field (sx st') v1 = Some (sf st') /\
    (forall k, (k < n * dims)%nat -> nth k v1 0 = nth k (sv st) 0 + 1 / 2 * dt * nth (k / dims) im 0 * nth k (sf st) 0) /\
    (forall k, (k < n * dims)%nat -> nth k (sx st') 0 = nth k (sx st) 0 + dt * nth k v1 0) /\
    (forall k, (k < n * dims)%nat -> nth k (sv st') 0 = nth k v1 0 + 1 / 2 * dt * nth (k / dims) im 0 * nth k (sf st') 0).
Proof.
  intros Hs HD HI (Lx & Lv & Lf) st' H HL. unfold vv_step in H.
  destruct (velocities_spec s dims dt (n * dims) im (sf st) (sv st) Hs HD) as (v1 & E1 & L1 & V1); [lia|lia|rewrite HI; lia|]. rewrite E1 in H.
  destruct (positions_spec s dt (n * dims) v1 (sx st)) as (x1 & E2 & L2 & X1); [lia|lia|]. rewrite E2 in H. destruct (field x1 v1) as [f1|] eqn:EF; [|discriminate].
  destruct (update_velocities s dims dt (n * dims) im f1 v1) as [v2|] eqn:E3; cbn in H; [|discriminate]. injection H as <-. cbn [sf sx sv] in *.
  destruct (velocities_spec s dims dt (n * dims) im f1 v1 Hs HD) as (v2' & E3' & L3 & V3); [lia|lia|rewrite HI; lia|]. rewrite E3 in E3'. injection E3' as <-.
  exists v1. split; [lia|]. split; [repeat split; cbn; lia|]. split; [exact EF|]. split; [|split]; intros k Hk; [rewrite V1|rewrite X1|rewrite V3]; apply Nat.ltb_lt in Hk; rewrite Hk; reflexivity.
Qed.
Lemma step_total s dims n im dt field st : works s -> (0 < dims)%nat -> length im = n -> shaped n dims st ->
  (forall x v, length x = (n * dims)%nat -> length v = (n * dims)%nat -> exists f, field x v = Some f /\ length f = (n * dims)%nat) ->
  exists st', vv_step s dims n im dt field st = Some st' /\ length (sf st') = (n * dims)%nat.
Proof.
  intros Hs HD HI (Lx & Lv & Lf) HF. unfold vv_step.
  destruct (velocities_spec s dims dt (n * dims) im (sf st) (sv st) Hs HD) as (v1 & -> & L1 & V1); [lia|lia|rewrite HI; lia|].
  destruct (positions_spec s dt (n * dims) v1 (sx st)) as (x1 & -> & L2 & X1); [lia|lia|]. destruct (HF x1 v1) as (f1 & -> & LF); [lia|lia|].
  destruct (velocities_spec s dims dt (n * dims) im f1 v1 Hs HD) as (v2 & -> & L3 & V3); [lia|lia|rewrite HI; lia|]. eexists. split; [reflexivity|exact LF].
Qed.

Section Reverse.
Variables (s : simd) (dims n : nat) (im : arr) (dt : R) (g : arr -> arr).
Hypotheses (Hs : works s) (HD : (0 < dims)%nat) (HI : length im = n) (HG : forall x, length x = (n * dims)%nat -> length (g x) = (n * dims)%nat).
Let step st := vv_step s dims n im dt (fun x _ => Some (g x)) st.
Lemma rev_total st : shaped n dims st -> exists st', step st = Some st' /\ shaped n dims st' /\ sf st' = g (sx st').
Proof.
  intros HS. destruct (step_total s dims n im dt (fun x _ => Some (g x)) st Hs HD HI HS) as (st' & E & L); [intros x v Lx Lv; eauto|].
  destruct (step_facts s dims n im dt _ st Hs HD HI HS st' E L) as (v1 & L1 & S' & EF & _). exists st'. split; [exact E|]. split; [exact S'|]. now injection EF.
Qed.
Lemma rev_one st st' : shaped n dims st -> sf st = g (sx st) -> step st = Some st' -> step (reversed st') = Some (reversed st).
Proof.
  intros HS HF E. destruct (rev_total st HS) as (s1 & E1 & S1 & F1). rewrite E in E1. injection E1 as <-.
  destruct (step_facts s dims n im dt _ st Hs HD HI HS st' E (proj2 (proj2 S1))) as (v1 & L1 & _ & _ & V1 & X1 & V2).
  assert (HR : shaped n dims (reversed st')) by (destruct S1 as (A & B & C); repeat split; cbn; [exact A|now rewrite map_length|exact C]).
  destruct (rev_total (reversed st') HR) as (s2 & E2 & S2 & F2). rewrite E2. f_equal.
  destruct (step_facts s dims n im dt _ _ Hs HD HI HR s2 E2 (proj2 (proj2 S2))) as (v1' & L1' & _ & _ & V1' & X1' & V2'). cbn [reversed sx sv sf] in *.
  destruct HS as (Lx & Lv & Lf). destruct S2 as (Lx2 & Lv2 & Lf2). destruct st as [x v f], s2 as [x2 v2 f2]. cbn [sx sv sf reversed] in *.
  assert (HV : forall k, (k < n * dims)%nat -> nth k v1' 0 = - nth k v1 0) by (intros k Hk; rewrite V1', nth_opp, V2 by exact Hk; ring).
  assert (EX : x2 = x) by (apply arr_ext; [congruence|]; intros k Hk; rewrite X1', HV, X1 by lia; ring).
  assert (EF : f2 = f) by congruence. subst x2 f2. unfold reversed. cbn [sx sv sf]. rewrite <- EF. f_equal. apply arr_ext; [rewrite map_length; congruence|]. intros k Hk. rewrite V2', HV, nth_opp, V1 by lia. rewrite EF. ring.
Qed.
Lemma steps_snoc : forall m st, steps s dims n im dt g (S m) st = match steps s dims n im dt g m st with Some st1 => step st1 | None => None end.
Proof.
  induction m as [|m IH]; intros st; cbn [steps]; [fold (step st); destruct (step st); reflexivity|].
  fold (step st). destruct (step st) as [st1|]; [|reflexivity]. rewrite <- IH. reflexivity.
Qed.
Lemma rev_many : forall m st, shaped n dims st -> sf st = g (sx st) ->
  exists st', steps s dims n im dt g m st = Some st' /\ shaped n dims st' /\ sf st' = g (sx st') /\ steps s dims n im dt g m (reversed st') = Some (reversed st).
Proof.
  induction m as [|m IH]; intros st HS HF; [exists st; cbn; auto|].
  destruct (rev_total st HS) as (s1 & E1 & S1 & F1). destruct (IH s1 S1 F1) as (s2 & E2 & S2 & F2 & R2). exists s2.
  split; [cbn [steps]; fold (step st); now rewrite E1|]. split; [exact S2|]. split; [exact F2|].
  rewrite steps_snoc, R2. now apply rev_one.
Qed.
End Reverse.

(* Momentum *)
Lemma idx_lt n dims i d : (i < n)%nat -> (d < dims)%nat -> (i * dims + d < n * dims)%nat.
Proof. intros Hi Hd. nia. Qed.
Lemma idx_div dims i d : (d < dims)%nat -> ((i * dims + d) / dims = i)%nat.
Proof. intros H. rewrite Nat.div_add_l by lia. rewrite Nat.div_small by lia. lia. Qed.
Lemma idx_mod dims i d : (d < dims)%nat -> ((i * dims + d) mod dims = d)%nat.
Proof. intros H. rewrite Nat.add_comm, Nat.mod_add by lia. now apply Nat.mod_small. Qed.
Lemma flat_length n dims f : length (flat n dims f) = (n * dims)%nat.
Proof. unfold flat. now rewrite map_length, seq_length. Qed.
Lemma flat_comp n dims f i d : (i < n)%nat -> (d < dims)%nat -> comp dims (flat n dims f) i d = f i d.
Proof.
  intros Hi Hd. unfold comp, flat. assert (H := idx_lt n dims i d Hi Hd).
  rewrite (nth_indep _ 0 (f (0 / dims)%nat (0 mod dims)%nat)) by (now rewrite map_length, seq_length).
  rewrite (map_nth (fun k => f (k / dims)%nat (k mod dims)%nat)). rewrite seq_nth by exact H. rewrite Nat.add_0_l. now rewrite idx_div, idx_mod by exact Hd.
Qed.
Lemma fold_total e n d : forall is s0 s1, Forall (pairs_ok n) is ->
  fold_opt (fun it s => interact_forces (i_kind it) (i_cut it) e (i_p0 it) (i_p1 it) s) is s0 = Some s1 -> total n d (F s1) = total n d (F s0).
Proof.
  induction is as [|it is IH]; intros s0 s1 HP H; cbn [fold_opt] in H; [injection H as <-; reflexivity|]. inversion HP; subst.
  destruct (interact_forces _ _ e _ _ s0) as [s2|] eqn:E; [|discriminate]. rewrite (IH s2 s1 H3 H). eapply C26_sweep; [exact H2|exact E].
Qed.
Lemma field_total w is x v f d : Forall (pairs_ok (w_n w)) is -> pair_field w is x v = Some f -> (d < w_dims w)%nat ->
  sum_to (w_n w) (fun i => comp (w_dims w) f i d) = 0 /\ length f = (w_n w * w_dims w)%nat.
Proof.
  intros HP H Hd. unfold pair_field in H. destruct (fold_opt _ is _) as [s1|] eqn:E; [|discriminate]. injection H as <-. split; [|apply flat_length].
  rewrite (sum_to_ext _ _ (fun i => F s1 i d)) by (intros; now apply flat_comp). change (total (w_n w) d (F s1) = 0). rewrite (fold_total _ _ _ _ _ _ HP E). unfold total. cbn.
  clear. induction (w_n w); cbn; lra.
Qed.
Lemma field_length w is x v f : pair_field w is x v = Some f -> length f = (w_n w * w_dims w)%nat.
Proof. unfold pair_field. destruct (fold_opt _ is _); [|discriminate]. intros H. injection H as <-. apply flat_length. Qed.
Lemma comp_eq dims n (a : arr) (P : nat -> R) : (0 < dims)%nat -> (forall k, (k < n * dims)%nat -> nth k a 0 = P k) -> forall i d, (i < n)%nat -> (d < dims)%nat -> comp dims a i d = P (i * dims + d)%nat.
Proof. intros _ H i d Hi Hd. unfold comp. apply H. now apply idx_lt. Qed.

Lemma vv_step_field_length s w dt is st st' : vv_step s (w_dims w) (w_n w) (w_im w) dt (pair_field w is) st = Some st' -> length (sf st') = (w_n w * w_dims w)%nat.
Proof.
  unfold vv_step. destruct (update_velocities _ _ _ _ _ _ _) as [v1|]; [|discriminate]. destruct (update_positions _ _ _ _ _) as [x1|]; [|discriminate].
  destruct (pair_field w is x1 v1) as [f1|] eqn:E; [|discriminate]. destruct (update_velocities _ _ _ _ _ _ _); cbn; [|discriminate]. intros H. injection H as <-. cbn. exact (field_length _ _ _ _ _ E).
Qed.
Lemma momentum_step s w dt is st st' d : works s -> (0 < w_dims w)%nat -> length (w_im w) = w_n w -> Forall (fun m => 0 < m) (w_im w) ->
  shaped (w_n w) (w_dims w) st -> Forall (pairs_ok (w_n w)) is -> (d < w_dims w)%nat -> sum_to (w_n w) (fun i => comp (w_dims w) (sf st) i d) = 0 ->
  vv_step s (w_dims w) (w_n w) (w_im w) dt (pair_field w is) st = Some st' ->
  momentum (w_dims w) (w_n w) (w_im w) (sv st') d = momentum (w_dims w) (w_n w) (w_im w) (sv st) d /\ sum_to (w_n w) (fun i => comp (w_dims w) (sf st') i d) = 0 /\ shaped (w_n w) (w_dims w) st'.
Proof.
  intros Hs HD HI HM HS HP Hd HZ E. destruct (step_facts _ _ _ _ _ _ st Hs HD HI HS st' E (vv_step_field_length _ _ _ _ _ _ E)) as (v1 & L1 & S' & EF & V1 & _ & V2).
  destruct (field_total _ _ _ _ _ d HP EF Hd) as [HZ' _]. split; [|split; [exact HZ'|exact S']]. unfold momentum.
  rewrite (sum_to_ext _ _ (fun i => comp (w_dims w) (sv st) i d / nth i (w_im w) 0 + (1 / 2 * dt * comp (w_dims w) (sf st) i d + 1 / 2 * dt * comp (w_dims w) (sf st') i d))).
  - rewrite sum_to_plus, (sum_to_plus _ (fun i => 1 / 2 * dt * comp _ (sf st) i d)), !sum_to_scale, HZ, HZ'. ring.
  - intros i Hi. assert (H := idx_lt _ _ _ _ Hi Hd). unfold comp. rewrite V2, V1 by exact H. rewrite (idx_div _ i d Hd). assert (0 < nth i (w_im w) 0) by (rewrite Forall_forall in HM; apply HM, nth_In; lia). field. lra.
Qed.

(* Angular momentum *)
Definition tq (n : nat) (X : nat -> vec) (f : nat -> vec) (a b : nat) : R := sum_to n (fun i => X i a * f i b - X i b * f i a).
Lemma sum_pick n i0 (h : nat -> R) : (i0 < n)%nat -> sum_to n (fun i => if (i =? i0)%nat then h i else 0) = h i0.
Proof.
  intros H. rewrite (sum_to_ext n _ (fun i => if (i =? i0)%nat then h i0 else 0)) by (intros i _; destruct (Nat.eqb_spec i i0); subst; reflexivity).
  rewrite sum_to_one. apply Nat.ltb_lt in H. now rewrite H.
Qed.
Lemma tq_opposite dims n X i j g f f' a b : opposite dims i j g f f' -> (i < n)%nat -> (j < n)%nat -> (a < dims)%nat -> (b < dims)%nat ->
  tq n X f' a b = tq n X f a b + ((X i a - X j a) * g b - (X i b - X j b) * g a).
Proof.
  intros O Hi Hj Ha Hb. unfold tq. apply Nat.ltb_lt in Ha. apply Nat.ltb_lt in Hb.
  rewrite (sum_to_ext n _ (fun k => (X k a * f k b - X k b * f k a) + ((if (k =? i)%nat then X k a * g b - X k b * g a else 0) + (-1) * (if (k =? j)%nat then X k a * g b - X k b * g a else 0)))).
  - rewrite !sum_to_plus, sum_to_scale, (sum_pick n i), (sum_pick n j) by assumption. ring.
  - intros k Hk. rewrite (O k b), (O k a), Ha, Hb. destruct (k =? i)%nat, (k =? j)%nat; ring.
Qed.
Definition no_hooke (it : inter) : Prop := forall kn gn gt mu, i_kind it <> Hooke kn gn gt mu.
Lemma sweep_torque e n a b k c p0 : (forall kn gn gt mu, k <> Hooke kn gn gt mu) -> (a < e_dims e)%nat -> (b < e_dims e)%nat -> (forall i j, In (i, j) p0 -> (i < n)%nat /\ (j < n)%nat) ->
  forall s0 s1, do_list k c e false p0 s0 = Some s1 -> tq n (e_x e) (F s1) a b = tq n (e_x e) (F s0) a b.
Proof.
  intros HK Ha Hb. induction p0 as [|[i j] p0 IH]; intros HP s0 s1 H; cbn [do_list] in H; [injection H as <-; reflexivity|].
  destruct (do_pair k c e false i j s0) as [s2|] eqn:E; [|discriminate]. rewrite (IH (fun x y HH => HP x y (or_intror HH)) s2 s1 H).
  destruct (C26_central _ _ _ _ _ _ _ _ HK E) as (t & O). destruct (HP i j (or_introl eq_refl)) as [Hi Hj].
  rewrite (tq_opposite _ n (e_x e) i j _ _ _ a b O Hi Hj Ha Hb). unfold vscale, shift_of, vsub. ring.
Qed.
Lemma fold_torque e n a b : (a < e_dims e)%nat -> (b < e_dims e)%nat -> forall is s0 s1, Forall (pairs_ok n) is -> Forall no_hooke is -> Forall (fun it => i_p1 it = []) is ->
  fold_opt (fun it s => interact_forces (i_kind it) (i_cut it) e (i_p0 it) (i_p1 it) s) is s0 = Some s1 -> tq n (e_x e) (F s1) a b = tq n (e_x e) (F s0) a b.
Proof.
  intros Ha Hb. induction is as [|it is IH]; intros s0 s1 HP HK HW H; cbn [fold_opt] in H; [injection H as <-; reflexivity|]. inversion HP; subst. inversion HK; subst. inversion HW; subst.
  destruct (interact_forces _ _ e _ _ s0) as [s2|] eqn:E; [|discriminate]. rewrite (IH s2 s1 H3 H5 H7 H). unfold interact_forces in E. rewrite H6 in E.
  destruct (do_list _ _ e false _ _) as [s3|] eqn:E3; [|discriminate]. cbn [do_list] in E. injection E as <-.
  rewrite (sweep_torque e n a b _ _ _ H4 Ha Hb (fun i j HH => H2 i j (in_or_app _ _ _ (or_introl HH))) _ _ E3). reflexivity.
Qed.
Lemma field_torque w is x v f a b : Forall (pairs_ok (w_n w)) is -> Forall no_hooke is -> Forall (fun it => i_p1 it = []) is -> (a < w_dims w)%nat -> (b < w_dims w)%nat ->
  pair_field w is x v = Some f -> torque (w_dims w) (w_n w) x f a b = 0.
Proof.
  intros HP HK HW Ha Hb H. unfold pair_field in H. destruct (fold_opt _ is _) as [s1|] eqn:E; [|discriminate]. injection H as <-. unfold torque.
  rewrite (sum_to_ext _ _ (fun i => vec_of (w_dims w) x i a * F s1 i b - vec_of (w_dims w) x i b * F s1 i a)) by (intros; now rewrite !flat_comp).
  change (tq (w_n w) (e_x (env_of w x v)) (F s1) a b = 0). rewrite (fold_torque (env_of w x v) (w_n w) a b Ha Hb is _ _ HP HK HW E). unfold tq. cbn. clear. induction (w_n w); cbn; lra.
Qed.
Lemma angular_step s w dt is st st' a b : works s -> (0 < w_dims w)%nat -> length (w_im w) = w_n w -> Forall (fun m => 0 < m) (w_im w) ->
  shaped (w_n w) (w_dims w) st -> Forall (pairs_ok (w_n w)) is -> Forall no_hooke is -> Forall (fun it => i_p1 it = []) is ->
  (a < w_dims w)%nat -> (b < w_dims w)%nat -> torque (w_dims w) (w_n w) (sx st) (sf st) a b = 0 ->
  vv_step s (w_dims w) (w_n w) (w_im w) dt (pair_field w is) st = Some st' ->
  angular (w_dims w) (w_n w) (w_im w) (sx st') (sv st') a b = angular (w_dims w) (w_n w) (w_im w) (sx st) (sv st) a b /\ torque (w_dims w) (w_n w) (sx st') (sf st') a b = 0 /\ shaped (w_n w) (w_dims w) st'.
Proof.
  intros Hs HD HI HM HS HP HK HW Ha Hb HZ E. destruct (step_facts _ _ _ _ _ _ st Hs HD HI HS st' E (vv_step_field_length _ _ _ _ _ _ E)) as (v1 & L1 & S' & EF & V1 & X1 & V2).
  assert (HZ' := field_torque _ _ _ _ _ a b HP HK HW Ha Hb EF). split; [|split; [exact HZ'|exact S']]. unfold angular.
  rewrite (sum_to_ext _ _ (fun i => (comp (w_dims w) (sx st) i a * comp (w_dims w) (sv st) i b - comp (w_dims w) (sx st) i b * comp (w_dims w) (sv st) i a) / nth i (w_im w) 0
     + (1 / 2 * dt * (comp (w_dims w) (sx st) i a * comp (w_dims w) (sf st) i b - comp (w_dims w) (sx st) i b * comp (w_dims w) (sf st) i a)
      + 1 / 2 * dt * (comp (w_dims w) (sx st') i a * comp (w_dims w) (sf st') i b - comp (w_dims w) (sx st') i b * comp (w_dims w) (sf st') i a)))).
  - rewrite sum_to_plus. rewrite (sum_to_plus _ (fun i => 1 / 2 * dt * (comp _ (sx st) i a * _ - _))), !sum_to_scale.
    unfold torque in HZ, HZ'. rewrite HZ, HZ'. ring.
  - intros i Hi. assert (HA := idx_lt _ _ _ _ Hi Ha). assert (HB := idx_lt _ _ _ _ Hi Hb). unfold comp. rewrite !V2, !X1, !V1 by assumption. rewrite (idx_div _ i a Ha), (idx_div _ i b Hb).
    assert (0 < nth i (w_im w) 0) by (rewrite Forall_forall in HM; apply HM, nth_In; lia). field. lra.
Qed.
