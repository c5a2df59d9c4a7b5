(* C98 - C100: thermostats *)
From Coq Require Import Reals List Bool Arith ZArith Lia Lra Psatz.
From Verif Require Import Model_Forces Model_Integrators Spec_Integrators Proofs_Integrators Properties_Integrators Model_Langevin Spec_Langevin.
Import ListNotations.
Local Open Scope R_scope.

Lemma upd_val u i (x : arr) b : (i < length x)%nat -> u i (nth i x 0) = Some b -> update1 u i x = Some (set_nth i b x).
Proof. intros L E. unfold update1. rewrite (error_of_nth x i L), E. unfold store1. destruct (Nat.ltb_spec i (length x)); [reflexivity|lia]. Qed.
Lemma nth_set i b x k : (i < length x)%nat -> nth k (set_nth i b x) 0 = if (k =? i)%nat then b else nth k x 0.
Proof.
  intros L. destruct (Nat.eqb_spec k i) as [->|N].
  - apply nth_of_error. now apply set_nth_same.
  - destruct (nth_error x k) as [a|] eqn:E.
    + rewrite (nth_of_error x k a E). apply nth_of_error. rewrite set_nth_other by lia. exact E.
    + rewrite !nth_overflow; [reflexivity|now apply nth_error_None|]. rewrite set_nth_length. now apply nth_error_None.
Qed.
Lemma usable_drift l : usable l -> l_drift l = l_temp l / (6 * l_visc l * PI) /\ l_delay l = 1 / 100.
Proof. induction 1 as [T vis|eta l H [IH1 IH2]|T l H [IH1 IH2]|t l H [IH1 IH2]]; cbn; auto. Qed.
Lemma div_lt k dims n : (0 < dims)%nat -> (k < n * dims)%nat -> (k / dims < n)%nat.
Proof. intros D H. apply Nat.div_lt_upper_bound; lia. Qed.
Lemma rad_pos sg i : Forall (fun s => 0 < s) sg -> (i < length sg)%nat -> 0 < nth i sg 0.
Proof. intros F L. rewrite Forall_forall in F. apply F. now apply nth_In. Qed.

Lemma noise_spec l time dims size u sg f : usable l -> (0 < dims)%nat -> length sg = size -> length f = (size * dims)%nat -> Forall (fun s => 0 < s) sg ->
  exists f' l', noise l time dims size u sg f = Some (f', l') /\ length f' = length f /\
    (forall k, (k < size * dims)%nat -> nth k f' 0 = nth k f 0 + thermal l time (nth (k / dims) sg 0) (u k)) /\
    l_visc l' = l_visc l /\ l_temp l' = l_temp l /\ usable l' /\ (l_last l' = if Rlt_dec (l_delay l) (time - l_last l) then if Rlt_dec 0 (l_temp l) then time else l_last l else l_last l).
Proof.
  intros HU HD LS LF HP. destruct (usable_drift l HU) as [DR _]. unfold noise, thermal. destruct (Rlt_dec (l_delay l) (time - l_last l)) as [H1|H1].
  2:{ exists f, l. split; [reflexivity|]. split; [reflexivity|]. split; [intros; lra|auto]. }
  destruct (Rlt_dec 0 (l_temp l)) as [H2|H2].
  2:{ exists f, l. split; [reflexivity|]. split; [reflexivity|]. split; [intros; lra|auto]. }
  set (d := sqrt (2 * l_drift l * (time - l_last l))). set (w := fun k a => a + d * sqrt (1 / nth (k / dims) sg 0) * (u k - 1 / 2)).
  assert (Hu : forall k a, (k < size * dims)%nat -> noise_upd d dims u sg k a = Some (w k a)).
  { intros k a Hk. unfold noise_upd, w. assert (L := div_lt k dims size HD Hk). rewrite (error_of_nth sg (k / dims)) by lia.
    assert (P := rad_pos sg (k / dims) HP ltac:(lia)). destruct (Req_EM_T (nth (k / dims) sg 0) 0) as [Z|]; [lra|reflexivity]. }
  destruct (scalar_spec (noise_upd d dims u sg) (size * dims) 0 f (ok_of _ w (size * dims) f ltac:(lia) Hu)) as (y & E & A). rewrite E. destruct (applied_value _ w (size * dims) f y A ltac:(lia) Hu) as [L V].
  eexists. eexists. split; [reflexivity|]. split; [exact L|]. cbn [l_visc l_temp l_last]. split; [|repeat split; auto; now apply UTime].
  intros k Hk. rewrite V. destruct (Nat.ltb_spec k (size * dims)); [|lia]. unfold w, d. do 3 f_equal. rewrite DR. replace (6 * l_visc l * PI) with (6 * PI * l_visc l) by ring. reflexivity.
Qed.
Lemma drag_spec c hdt dims im sg size : (0 < dims)%nat -> length im = size -> length sg = size -> forall n i f v, (i + n <= size * dims)%nat -> length f = (size * dims)%nat -> length v = (size * dims)%nat ->
  exists f' v', drag_loop c hdt dims im sg n i f v = Some (f', v') /\ length f' = length f /\ length v' = length v /\
    forall k, nth k f' 0 = (if ((i <=? k) && (k <? i + n))%nat then nth k f 0 - 6 * PI * c * nth (k / dims) sg 0 * nth k v 0 else nth k f 0) /\
              nth k v' 0 = (if ((i <=? k) && (k <? i + n))%nat then nth k v 0 + hdt * nth (k / dims) im 0 * nth k f' 0 else nth k v 0).
Proof.
  intros HD LI LS. induction n as [|n IH]; intros i f v LN LF LV; cbn [drag_loop].
  - exists f, v. split; [reflexivity|]. split; [reflexivity|]. split; [reflexivity|]. intros k. destruct (Nat.leb_spec i k), (Nat.ltb_spec k (i + 0)); cbn [andb]; try lia; split; reflexivity.
  - assert (D := div_lt i dims size HD ltac:(lia)).
    rewrite (upd_val _ i f (nth i f 0 - 6 * PI * c * nth (i / dims) sg 0 * nth i v 0)); [|lia|unfold drag_upd; rewrite (error_of_nth sg (i / dims)), (error_of_nth v i) by lia; reflexivity].
    set (b := nth i f 0 - 6 * PI * c * nth (i / dims) sg 0 * nth i v 0). set (f1 := set_nth i b f).
    rewrite (upd_val _ i v (nth i v 0 + hdt * nth (i / dims) im 0 * b)); [|lia|].
    2:{ unfold kick_upd. rewrite (error_of_nth f1 i) by (unfold f1; rewrite set_nth_length; lia). rewrite (error_of_nth im (i / dims)) by lia. unfold f1. rewrite nth_set by lia. now rewrite Nat.eqb_refl. }
    destruct (IH (S i) f1 (set_nth i (nth i v 0 + hdt * nth (i / dims) im 0 * b) v)) as (f' & v' & E & A1 & A2 & A3); [lia|unfold f1; now rewrite set_nth_length|now rewrite set_nth_length|].
    exists f', v'. split; [exact E|]. unfold f1 in *. rewrite set_nth_length in A1, A2. split; [exact A1|]. split; [exact A2|]. intros k. destruct (A3 k) as [B1 B2].
    clear A3. rewrite !nth_set in B1 by lia. rewrite !nth_set in B2 by lia. destruct (Nat.eqb_spec k i) as [EK|NE]; [subst k|].
    + destruct (Nat.leb_spec (S i) i); [lia|]. cbn [andb] in B1, B2. destruct (Nat.leb_spec i i); [|lia]. destruct (Nat.ltb_spec i (i + S n)); [|lia]. cbn [andb]. split; [exact B1|]. rewrite B2, B1. reflexivity.
    + replace ((S i <=? k) && (k <? S i + n))%nat with ((i <=? k) && (k <? i + S n))%nat in B1, B2; [tauto|].
      destruct (Nat.leb_spec (S i) k), (Nat.leb_spec i k), (Nat.ltb_spec k (i + S n)), (Nat.ltb_spec k (S i + n)); cbn [andb]; try lia; reflexivity.
Qed.
Lemma pre_spec dims size dt im st : (0 < dims)%nat -> shaped size dims st -> length im = size ->
  exists s1, langevin_pre dims size dt im st = Some s1 /\ shaped size dims s1 /\ sf s1 = sf st /\
    forall k, (k < size * dims)%nat -> nth k (sv s1) 0 = nth k (sv st) 0 + dt / 2 * nth (k / dims) im 0 * nth k (sf st) 0 /\ nth k (sx s1) 0 = nth k (sx st) 0 + dt * nth k (sv s1) 0.
Proof.
  intros HD (LX & LV & LF) LI. unfold langevin_pre.
  destruct (velocities_spec NoSimd dims dt (size * dims) im (sf st) (sv st) ltac:(now left) HD ltac:(lia) ltac:(lia) ltac:(rewrite LI; lia)) as (v1 & E1 & L1 & V1). cbn [update_velocities] in E1. rewrite E1.
  destruct (positions_spec NoSimd dt (size * dims) v1 (sx st) ltac:(lia) ltac:(lia)) as (x1 & E2 & L2 & V2). cbn [update_positions] in E2. rewrite E2. cbn [option_map].
  eexists. split; [reflexivity|]. split; [repeat split; cbn; lia|]. split; [reflexivity|]. cbn [sv sx]. intros k Hk. rewrite V1, V2, !V1. destruct (Nat.ltb_spec k (size * dims)); [|lia]. split; [field|reflexivity].
Qed.
(* A step of the Langevin integrator, component by component: half a kick, the drift, the forces of the positions with noise and drag (Stokes' law: 6 pi viscosity radius velocity), half a kick *)
Theorem C98_step : forall l time dims size dt u im sg g st, usable l -> fits size dims im sg st -> (forall x, length x = (size * dims)%nat -> length (g x) = (size * dims)%nat) ->
  exists st' l', langevin_step l time dims size dt u im sg g st = Some (st', l') /\ fits size dims im sg st' /\
    (forall k, (k < size * dims)%nat -> exists w, w = nth k (sv st) 0 + dt / 2 * nth (k / dims) im 0 * nth k (sf st) 0 /\
       nth k (sx st') 0 = nth k (sx st) 0 + dt * w /\
       nth k (sf st') 0 = nth k (g (sx st')) 0 + thermal l time (nth (k / dims) sg 0) (u k) - 6 * PI * l_visc l * nth (k / dims) sg 0 * w /\
       nth k (sv st') 0 = w + dt / 2 * nth (k / dims) im 0 * nth k (sf st') 0) /\
    usable l' /\ l_visc l' = l_visc l /\ l_temp l' = l_temp l /\ l_last l' = (if Rlt_dec (1 / 100) (time - l_last l) then if Rlt_dec 0 (l_temp l) then time else l_last l else l_last l).
Proof.
  intros l time dims size dt u im sg g st HU (HD & SH & LI & LS & HP) HG. destruct (pre_spec dims size dt im st HD SH LI) as (s1 & E1 & S1 & F1 & V1). unfold langevin_step. rewrite E1.
  destruct S1 as (LX1 & LV1 & LF1). unfold langevin_post. cbn [sf sv sx].
  destruct (noise_spec l time dims size u sg (g (sx s1)) HU HD LS (HG _ LX1) HP) as (f1 & l' & E2 & L2 & V2 & K1 & K2 & K3 & K4). rewrite E2.
  rewrite (HG _ LX1) in L2. destruct (drag_spec (l_visc l) (1 / 2 * dt) dims im sg size HD LI LS (size * dims) 0 f1 (sv s1) ltac:(lia) L2 LV1) as (f' & v' & E3 & A1 & A2 & A3). rewrite E3. cbn [option_map fst snd].
  eexists. eexists. split; [reflexivity|]. split; [split; [exact HD|]; split; [repeat split; cbn; lia|]; auto|]. split.
  - intros k Hk. destruct (V1 k Hk) as [W1 W2]. eexists. split; [reflexivity|]. cbn [sx sf sv]. destruct (A3 k) as [B1 B2]. destruct (Nat.leb_spec 0 k); [|lia]. destruct (Nat.ltb_spec k (0 + size * dims)); [|lia]. cbn [andb] in B1, B2.
    split; [rewrite W2, W1; ring|]. split; [rewrite B1, (V2 k Hk), W1; ring|]. rewrite B2, W1. replace (1 / 2 * dt) with (dt / 2) by field. reflexivity.
  - split; [exact K3|]. split; [exact K1|]. split; [exact K2|]. rewrite K4. destruct (usable_drift l HU) as [_ ->]. reflexivity.
Qed.
Print Assumptions C98_step.
(* The noise: none without temperature; at most every 1/100; of either sign, equally; not larger than half of sqrt(T t / (3 pi viscosity radius)) *)
Theorem C98_noise : forall l time s u, usable l -> 0 < l_visc l -> 0 < s -> 0 <= u <= 1 ->
  (l_temp l <= 0 \/ time - l_last l <= 1 / 100 -> thermal l time s u = 0) /\
  thermal l time s (1 - u) = - thermal l time s u /\ thermal l time s (1 / 2) = 0 /\
  (0 < l_temp l -> 1 / 100 < time - l_last l -> Rabs (thermal l time s u) <= 1 / 2 * sqrt (l_temp l * (time - l_last l) / (3 * PI * l_visc l * s)) /\
     thermal l time s 1 = 1 / 2 * sqrt (l_temp l * (time - l_last l) / (3 * PI * l_visc l * s))).
Proof.
  intros l time s u HU HV HS HR. destruct (usable_drift l HU) as [_ DL]. unfold thermal. rewrite DL. split; [|split; [|split]].
  - intros H. destruct (Rlt_dec (1 / 100) (time - l_last l)); [|reflexivity]. destruct (Rlt_dec 0 (l_temp l)); [|reflexivity]. destruct H; lra.
  - destruct (Rlt_dec (1 / 100) (time - l_last l)); [|lra]. destruct (Rlt_dec 0 (l_temp l)); lra.
  - destruct (Rlt_dec (1 / 100) (time - l_last l)); [|lra]. destruct (Rlt_dec 0 (l_temp l)); lra.
  - intros HT HL. destruct (Rlt_dec (1 / 100) (time - l_last l)); [|lra]. destruct (Rlt_dec 0 (l_temp l)); [|lra]. assert (P := PI_RGT_0).
    assert (E : sqrt (2 * (l_temp l / (6 * PI * l_visc l)) * (time - l_last l)) * sqrt (1 / s) = sqrt (l_temp l * (time - l_last l) / (3 * PI * l_visc l * s))).
    { rewrite <- sqrt_mult; [f_equal; field; repeat split; lra| |].
      - apply Rmult_le_pos; [|lra]. apply Rmult_le_pos; [lra|]. apply Rlt_le, Rdiv_lt_0_compat; [lra|]. apply Rmult_lt_0_compat; lra.
      - apply Rlt_le, Rdiv_lt_0_compat; lra. }
    rewrite E. set (q := sqrt _). assert (Q0 : 0 <= q) by apply sqrt_pos. split; [|lra]. rewrite Rabs_mult, (Rabs_right q) by lra.
    assert (Rabs (u - 1 / 2) <= 1 / 2) by (apply Rabs_le; lra). nra.
Qed.
Print Assumptions C98_noise.
Lemma drag_decay_aux : forall dims size dt im sg steps l st v0 m, usable l -> fits size dims im sg st -> l_temp l <= 0 ->
  (forall k, (k < size * dims)%nat -> let a := dt / 2 * nth (k / dims) im 0 * (6 * PI * l_visc l * nth (k / dims) sg 0) in
     nth k (sv st) 0 = v0 k * (1 - a) * (1 - 2 * a) ^ m /\ nth k (sf st) 0 = - (6 * PI * l_visc l * nth (k / dims) sg 0) * v0 k * (1 - 2 * a) ^ m) ->
  exists st' l', langevin_run dims size dt im sg no_force steps l st = Some (st', l') /\ fits size dims im sg st' /\
  (forall k, (k < size * dims)%nat -> let a := dt / 2 * nth (k / dims) im 0 * (6 * PI * l_visc l * nth (k / dims) sg 0) in
     nth k (sv st') 0 = v0 k * (1 - a) * (1 - 2 * a) ^ (m + length steps) /\ nth k (sf st') 0 = - (6 * PI * l_visc l * nth (k / dims) sg 0) * v0 k * (1 - 2 * a) ^ (m + length steps)).
Proof.
  intros dims size dt im sg. induction steps as [|[t u] steps IH]; intros l st v0 m HU HF HT HI; cbn [langevin_run length].
  - exists st, l. split; [reflexivity|]. split; [exact HF|]. now rewrite Nat.add_0_r.
  - destruct (C98_step l t dims size dt u im sg no_force st HU HF) as (s1 & l1 & E & HF1 & HV & HU1 & V1 & T1 & _); [intros x Hx; unfold no_force; now rewrite map_length|]. rewrite E.
    destruct (IH l1 s1 v0 (S m) HU1 HF1 ltac:(lra)) as (st' & l' & E' & HF' & HC).
    + rewrite V1. intros k Hk. cbv zeta. destruct (HV k Hk) as (w & W & _ & W3 & W4). destruct (HI k Hk) as [I1 I2]. cbv zeta in I1, I2. set (a := dt / 2 * nth (k / dims) im 0 * (6 * PI * l_visc l * nth (k / dims) sg 0)) in *.
      assert (N0 : nth k (no_force (sx s1)) 0 = 0) by (unfold no_force; destruct (nth_in_or_default k (map (fun _ : R => 0) (sx s1)) 0) as [H|H]; [apply in_map_iff in H; destruct H as (? & <- & _); reflexivity|exact H]).
      assert (TH : thermal l t (nth (k / dims) sg 0) (u k) = 0).
      { unfold thermal. destruct (Rlt_dec (l_delay l) (t - l_last l)); [|reflexivity]. destruct (Rlt_dec 0 (l_temp l)); [lra|reflexivity]. }
      rewrite N0, TH in W3. assert (EW : w = v0 k * (1 - 2 * a) ^ S m).
      { rewrite W, I1, I2. cbn [pow]. unfold a. ring. }
      split; [|rewrite W3, EW; ring]. rewrite W4, W3, EW. unfold a. ring.
    + exists st', l'. split; [exact E'|]. split; [exact HF'|]. rewrite V1 in HC. replace (m + S (length steps))%nat with (S m + length steps)%nat by lia. exact HC.
Qed.
(* Without temperature and other forces the particles slow down exponentially, each as its mass, its radius and the viscosity say: v (1 - a)(1 - 2a)^(m-1) after m steps, a = dt 3 pi viscosity radius / mass.
   In particular they slow down in every step if a is at most 1/2; immovable particles keep their velocity. Any number of particles, dimensions, steps; any times and random numbers *)
Theorem C98_drag : forall l dims size dt im sg steps st, usable l -> l_temp l <= 0 -> fits size dims im sg st -> (forall k, nth k (sf st) 0 = 0) -> steps <> [] ->
  exists st' l', langevin_run dims size dt im sg no_force steps l st = Some (st', l') /\
  forall k, (k < size * dims)%nat -> let a := dt * (3 * PI * l_visc l * nth (k / dims) sg 0) * nth (k / dims) im 0 in
     nth k (sv st') 0 = nth k (sv st) 0 * (1 - a) * (1 - 2 * a) ^ (length steps - 1) /\
     (0 <= a <= 1 / 2 -> Rabs (nth k (sv st') 0) <= Rabs (nth k (sv st) 0)) /\ (nth (k / dims) im 0 = 0 -> nth k (sv st') 0 = nth k (sv st) 0).
Proof.
  intros l dims size dt im sg [|[t u] steps] st HU HT HF HZ HN; [contradiction|]. cbn [langevin_run length].
  destruct (C98_step l t dims size dt u im sg no_force st HU HF) as (s1 & l1 & E & HF1 & HV & HU1 & V1 & T1 & _); [intros x Hx; unfold no_force; now rewrite map_length|]. rewrite E.
  destruct (drag_decay_aux dims size dt im sg steps l1 s1 (fun k => nth k (sv st) 0) 0 HU1 HF1 ltac:(lra)) as (st' & l' & E' & _ & HC).
  - rewrite V1. intros k Hk. cbv zeta. destruct (HV k Hk) as (w & W & _ & W3 & W4). rewrite HZ in W.
    assert (N0 : nth k (no_force (sx s1)) 0 = 0) by (unfold no_force; destruct (nth_in_or_default k (map (fun _ : R => 0) (sx s1)) 0) as [H|H]; [apply in_map_iff in H; destruct H as (? & <- & _); reflexivity|exact H]).
    assert (TH : thermal l t (nth (k / dims) sg 0) (u k) = 0).
    { unfold thermal. destruct (Rlt_dec (l_delay l) (t - l_last l)); [|reflexivity]. destruct (Rlt_dec 0 (l_temp l)); [lra|reflexivity]. }
    rewrite N0, TH in W3. assert (EW : w = nth k (sv st) 0) by (rewrite W; ring). rewrite W4, W3, EW. cbn [pow]. split; ring.
  - exists st', l'. split; [exact E'|]. intros k Hk. cbv zeta. destruct (HC k Hk) as [C1 _]. cbv zeta in C1. rewrite V1 in C1. cbn [Nat.add] in C1.
    replace (S (length steps) - 1)%nat with (length steps) by lia. set (a := dt * (3 * PI * l_visc l * nth (k / dims) sg 0) * nth (k / dims) im 0).
    replace (dt / 2 * nth (k / dims) im 0 * (6 * PI * l_visc l * nth (k / dims) sg 0)) with a in C1 by (unfold a; field). rewrite C1. split; [reflexivity|]. split.
    + intros HA. rewrite Rmult_assoc, Rabs_mult. rewrite <- (Rmult_1_r (Rabs (nth k (sv st) 0))) at 2. apply Rmult_le_compat_l; [apply Rabs_pos|].
      assert (P : 0 <= (1 - 2 * a) ^ length steps <= 1) by (clear -HA; induction (length steps) as [|n IH]; cbn [pow]; nra).
      apply Rabs_le. nra.
    + intros Z. assert (a = 0) as -> by (unfold a; rewrite Z; ring). rewrite Rmult_0_r, !Rminus_0_r, pow1. ring.
Qed.
Print Assumptions C98_drag.
Definition quiet : list (R * (nat -> R)) := [(0, fun _ => 0); (1, fun _ => 1)].
Example C98_case : usable (new_lang 0 (1 / (3 * PI))) /\ fits 1 2 [1] [1] (mkSys [0; 0] [1; -2] [0; 0]) /\
  exists st' l', langevin_run 2 1 (1 / 4) [1] [1] no_force quiet (new_lang 0 (1 / (3 * PI))) (mkSys [0; 0] [1; -2] [0; 0]) = Some (st', l') /\ nth 0 (sv st') 0 = 3 / 8 /\ nth 1 (sv st') 0 = - 3 / 4.
Proof.
  assert (P := PI_RGT_0). assert (F : fits 1 2 [1] [1] (mkSys [0; 0] [1; -2] [0; 0])) by (split; [lia|]; split; [repeat split|]; split; [reflexivity|]; split; [reflexivity|]; repeat constructor; lra).
  split; [constructor|]. split; [exact F|].
  destruct (C98_drag (new_lang 0 (1 / (3 * PI))) 2 1 (1 / 4) [1] [1] quiet (mkSys [0; 0] [1; -2] [0; 0]) ltac:(constructor) ltac:(cbn; lra) F) as (st' & l' & E & H).
  { intros [|[|k]]; cbn; try reflexivity. now destruct k. } { discriminate. }
  exists st', l'. split; [exact E|]. destruct (H 0%nat ltac:(lia)) as [-> _]. destruct (H 1%nat ltac:(lia)) as [-> _]. cbn. split; field; lra.
Qed.
(* With long time steps, the drag speeds particles up *)
Theorem C98_unstable_refuted : exists st' l', langevin_run 1 1 2 [1] [1] no_force quiet (new_lang 0 (1 / (3 * PI))) (mkSys [0] [1] [0]) = Some (st', l') /\ nth 0 (sv st') 0 = 3.
Proof.
  assert (P := PI_RGT_0). assert (F : fits 1 1 [1] [1] (mkSys [0] [1] [0])) by (split; [lia|]; split; [repeat split|]; split; [reflexivity|]; split; [reflexivity|]; repeat constructor; lra).
  destruct (C98_drag (new_lang 0 (1 / (3 * PI))) 1 1 2 [1] [1] quiet (mkSys [0] [1] [0]) ltac:(constructor) ltac:(cbn; lra) F) as (st' & l' & E & H).
  { intros [|k]; cbn; try reflexivity. now destruct k. } { discriminate. }
  exists st', l'. split; [exact E|]. destruct (H 0%nat ltac:(lia)) as [-> _]. cbn. field. lra.
Qed.
Print Assumptions C98_unstable_refuted.
(* A second run has no noise until it is as long as the first: the time of the last noise is kept, while the elapsed time starts again at 0 *)
Theorem C98_second_run_refuted : forall l time s u, usable l -> 0 <= time -> time <= l_last l + 1 / 100 -> thermal l time s u = 0.
Proof. intros l time s u HU H0 H. destruct (usable_drift l HU) as [_ D]. unfold thermal. rewrite D. destruct (Rlt_dec (1 / 100) (time - l_last l)); [lra|reflexivity]. Qed.
Print Assumptions C98_second_run_refuted.
(* Temperature and viscosity: the last ones set, in any order *)
Theorem C98_settings : forall l T eta, usable l -> (forall time s u, 0 < T -> 1 / 100 < time - l_last l -> thermal (setTemperature T (setViscosity eta l)) time s u = sqrt (2 * (T / (6 * PI * eta)) * (time - l_last l)) * sqrt (1 / s) * (u - 1 / 2)) /\
  setTemperature T (setViscosity eta l) = setViscosity eta (setTemperature T l).
Proof.
  intros l T eta HU. destruct (usable_drift l HU) as [_ D]. split; [|reflexivity]. intros time s u HT HL. unfold thermal. cbn. rewrite D.
  destruct (Rlt_dec (1 / 100) (time - l_last l)); [|lra]. destruct (Rlt_dec 0 T); [reflexivity|lra].
Qed.
Print Assumptions C98_settings.

(* ------------------------------------------------------------------ overdamped *)
Lemma over_spec c dt dims im f size : (0 < dims)%nat -> length im = size -> length f = (size * dims)%nat -> forall n i v x, (i + n <= size * dims)%nat -> length v = (size * dims)%nat -> length x = (size * dims)%nat ->
  exists v' x', overdamped_loop c dt dims im f n i v x = Some (v', x') /\ length v' = length v /\ length x' = length x /\
    forall k, nth k v' 0 = (if ((i <=? k) && (k <? i + n))%nat then c * nth k f 0 * nth (k / dims) im 0 else nth k v 0) /\
              nth k x' 0 = (if ((i <=? k) && (k <? i + n))%nat then nth k x 0 + dt * nth k v' 0 else nth k x 0).
Proof.
  intros HD LI LF. induction n as [|n IH]; intros i v x LN LV LX; cbn [overdamped_loop].
  - exists v, x. split; [reflexivity|]. split; [reflexivity|]. split; [reflexivity|]. intros k. destruct (Nat.leb_spec i k), (Nat.ltb_spec k (i + 0)); cbn [andb]; try lia; split; reflexivity.
  - assert (D := div_lt i dims size HD ltac:(lia)). set (b := c * nth i f 0 * nth (i / dims) im 0).
    rewrite (upd_val _ i v b); [|lia|unfold set_upd; rewrite (error_of_nth f i), (error_of_nth im (i / dims)) by lia; reflexivity].
    rewrite (upd_val _ i x (nth i x 0 + dt * b)); [|lia|].
    2:{ unfold drift_upd. rewrite (error_of_nth (set_nth i b v) i) by (rewrite set_nth_length; lia). rewrite nth_set by lia. now rewrite Nat.eqb_refl. }
    destruct (IH (S i) (set_nth i b v) (set_nth i (nth i x 0 + dt * b) x)) as (v' & x' & E & A1 & A2 & A3); [lia|now rewrite set_nth_length..|].
    exists v', x'. split; [exact E|]. rewrite set_nth_length in A1, A2. split; [exact A1|]. split; [exact A2|]. intros k. destruct (A3 k) as [B1 B2].
    clear A3. rewrite !nth_set in B1 by lia. rewrite !nth_set in B2 by lia. destruct (Nat.eqb_spec k i) as [EK|NE]; [subst k|].
    + destruct (Nat.leb_spec (S i) i); [lia|]. cbn [andb] in B1, B2. destruct (Nat.leb_spec i i); [|lia]. destruct (Nat.ltb_spec i (i + S n)); [|lia]. cbn [andb]. split; [exact B1|]. rewrite B2, B1. reflexivity.
    + replace ((S i <=? k) && (k <? S i + n))%nat with ((i <=? k) && (k <? i + S n))%nat in B1, B2; [tauto|].
      destruct (Nat.leb_spec (S i) k), (Nat.leb_spec i k), (Nat.ltb_spec k (i + S n)), (Nat.ltb_spec k (S i + n)); cbn [andb]; try lia; reflexivity.
Qed.
(* The overdamped Langevin integrator: the velocity is viscosity / mass times the force with noise, whatever it was before; the position moves along *)
Theorem C99_step : forall l time dims size dt u im sg st, usable l -> fits size dims im sg st ->
  exists st' l', overdamped_langevin l time dims size dt u im sg st = Some (st', l') /\ fits size dims im sg st' /\
    (forall k, (k < size * dims)%nat -> nth k (sf st') 0 = nth k (sf st) 0 + thermal l time (nth (k / dims) sg 0) (u k) /\
       nth k (sv st') 0 = l_visc l * nth (k / dims) im 0 * nth k (sf st') 0 /\ nth k (sx st') 0 = nth k (sx st) 0 + dt * nth k (sv st') 0) /\
    usable l' /\ l_visc l' = l_visc l /\ l_temp l' = l_temp l /\
    ((0 < size)%nat -> l_last l' = (if Rlt_dec (1 / 100) (time - l_last l) then if Rlt_dec 0 (l_temp l) then time else l_last l else l_last l)).
Proof.
  intros l time dims size dt u im sg st HU HF. pose proof HF as (HD & (LX & LV & LF) & LI & LS & HP). unfold overdamped_langevin. destruct (Nat.eqb_spec size 0) as [Z|NZ].
  - exists st, l. split; [reflexivity|]. split; [exact HF|]. split; [|split; [exact HU|]; split; [reflexivity|]; split; [reflexivity|lia]]. subst size. intros k Hk. cbn in Hk. lia.
  - destruct (noise_spec l time dims size u sg (sf st) HU HD LS LF HP) as (f1 & l' & E2 & L2 & V2 & K1 & K2 & K3 & K4). rewrite E2.
    destruct (over_spec (l_visc l) dt dims im f1 size HD LI ltac:(lia) (size * dims) 0 (sv st) (sx st) ltac:(lia) LV LX) as (v' & x' & E3 & A1 & A2 & A3). rewrite E3. cbn [option_map fst snd].
    eexists. eexists. split; [reflexivity|]. split; [split; [exact HD|]; split; [repeat split; cbn; lia|]; auto|]. split; [|split; [exact K3|]; split; [exact K1|]; split; [exact K2|]; intros _; rewrite K4; destruct (usable_drift l HU) as [_ ->]; reflexivity]. cbn [sf sv sx]. intros k Hk. destruct (A3 k) as [B1 B2].
    destruct (Nat.leb_spec 0 k); [|lia]. destruct (Nat.ltb_spec k (0 + size * dims)); [|lia]. cbn [andb] in B1, B2. split; [now apply V2|]. split; [rewrite B1; ring|exact B2].
Qed.
Print Assumptions C99_step.
(* So a more viscous medium lets particles move faster (in the same ratio), and a medium without viscosity holds them *)
Theorem C99_viscosity_refuted : forall l eta dims size dt u im sg st st1 l1 st2 l2, usable l -> l_temp l <= 0 -> fits size dims im sg st ->
  overdamped_langevin (setViscosity eta l) 0 dims size dt u im sg st = Some (st1, l1) -> overdamped_langevin (setViscosity (2 * eta) l) 0 dims size dt u im sg st = Some (st2, l2) ->
  forall k, (k < size * dims)%nat -> nth k (sx st2) 0 - nth k (sx st) 0 = 2 * (nth k (sx st1) 0 - nth k (sx st) 0).
Proof.
  intros l eta dims size dt u im sg st st1 l1 st2 l2 HU HT HF E1 E2 k Hk.
  destruct (C99_step (setViscosity eta l) 0 dims size dt u im sg st ltac:(now constructor) HF) as (s1 & m1 & F1 & _ & V1 & _). destruct (C99_step (setViscosity (2 * eta) l) 0 dims size dt u im sg st ltac:(now constructor) HF) as (s2 & m2 & F2 & _ & V2 & _).
  rewrite E1 in F1. injection F1 as <- <-. rewrite E2 in F2. injection F2 as <- <-. destruct (V1 k Hk) as (A1 & A2 & A3). destruct (V2 k Hk) as (B1 & B2 & B3).
  assert (TH : forall e, thermal (setViscosity e l) 0 (nth (k / dims) sg 0) (u k) = 0) by (intros e; unfold thermal; cbn; destruct (Rlt_dec _ _); [destruct (Rlt_dec _ _); [lra|reflexivity]|reflexivity]).
  rewrite TH in A1, B1. rewrite A3, A2, A1, B3, B2, B1. cbn [l_visc setViscosity]. ring.
Qed.
Print Assumptions C99_viscosity_refuted.
Example C99_case : exists st' l', overdamped_langevin (setViscosity 2 (new_lang 0 1)) 0 1 1 (1 / 2) (fun _ => 0) [1] [1] (mkSys [0] [5] [3]) = Some (st', l') /\ sx st' = [3] /\ sv st' = [6].
Proof.
  unfold overdamped_langevin. cbn [Nat.eqb]. unfold noise. cbn [setViscosity new_lang l_visc l_temp l_drift l_last l_delay]. destruct (Rlt_dec (1 / 100) (0 - 0)) as [H|H]; [lra|].
  cbn. unfold update1, set_upd, drift_upd, store1. cbn. eexists. eexists. split; [reflexivity|]. cbn. split; f_equal; field.
Qed.

(* ------------------------------------------------------------------ Nose-Hoover *)
Lemma mv2_spec dims im v size : (0 < dims)%nat -> length im = size -> Forall (fun w => w <> 0) im -> forall n i, (i + n <= size * dims)%nat -> (i + n <= length v)%nat ->
  mv2 dims im v n i = Some (fold_right Rplus 0 (map (fun k => nth k v 0 * nth k v 0 / nth (k / dims) im 0) (seq i n))).
Proof.
  intros HD LI HZ. induction n as [|n IH]; intros i L1 L2; [reflexivity|]. cbn [mv2 seq map fold_right]. assert (D := div_lt i dims size HD ltac:(lia)). rewrite (error_of_nth v i), (error_of_nth im (i / dims)) by lia.
  assert (NZ : nth (i / dims) im 0 <> 0) by (rewrite Forall_forall in HZ; apply HZ, nth_In; lia). destruct (Req_EM_T (nth (i / dims) im 0) 0); [contradiction|]. rewrite IH by lia. cbn [option_map]. f_equal. field. exact NZ.
Qed.
(* A half step of the Nose-Hoover thermostat (without SIMD), for movable particles: the friction acts on the velocities; then it grows with the kinetic energy above (N - 1)/2 kB T, N the number of components *)
Theorem C100_half_step_partial : forall kB elapsed dt dims size im f v h, (0 < dims)%nat -> (0 < size)%nat -> length im = size -> length f = (size * dims)%nat -> length v = (size * dims)%nat ->
  Forall (fun w => w <> 0) im -> 0 <= h_temp h -> h_q h <> 0 ->
  exists v' h', nose_velocities kB elapsed dt dims (size * dims) im f v h = Some (v', h') /\ length v' = length v /\
    (forall k, (k < size * dims)%nat -> nth k v' 0 = nth k v 0 + dt / 2 * (nth (k / dims) im 0 * nth k f 0 - h_zeta h * nth k v 0 / nth (k / dims) im 0)) /\
    h_temp h' = h_temp h /\ h_q h' = h_q h /\
    h_zeta h' = h_zeta h + dt / 2 / h_q h * (twice_ke dims (size * dims) im v / 2 - (INR (size * dims) - 1) / 2 * kB * h_temp h).
Proof.
  intros kB elapsed dt dims size im f v h HD HS LI LF LV HZ HT HQ. unfold nose_velocities. destruct (Nat.eqb_spec (size * dims) 0); [nia|].
  destruct (C31_nose_hoover_partial dims dt (h_zeta h) (size * dims) im f v HD ltac:(lia) ltac:(lia) ltac:(lia)) as (v' & E & L & V).
  { intros i Hi. rewrite Forall_forall in HZ. apply HZ, nth_In, Hi. }
  rewrite E, (mv2_spec dims im v size HD LI HZ (size * dims) 0) by lia. eexists. eexists. split; [reflexivity|]. split; [exact L|]. split; [intros k Hk; rewrite V; destruct (Nat.ltb_spec k (size * dims)); [reflexivity|lia]|].
  unfold nose_update. destruct (Rlt_dec (h_temp h) 0); [lra|]. cbn [h_temp h_q h_zeta]. split; [reflexivity|]. split; [reflexivity|]. unfold twice_ke. field. exact HQ.
Qed.
Print Assumptions C100_half_step_partial.
(* Without a temperature (the only case the code offers: there is no way to set one) the integrator is velocity Verlet for 5/2 time units; then the temperature is the one of the particles at that time *)
Theorem C100_waiting_partial : forall kB elapsed dt dims size im f v h, (0 < dims)%nat -> (0 < size)%nat -> length im = size -> length f = (size * dims)%nat -> length v = (size * dims)%nat ->
  Forall (fun w => w <> 0) im -> h_temp h < 0 -> h_zeta h = 0 ->
  exists v' h', nose_velocities kB elapsed dt dims (size * dims) im f v h = Some (v', h') /\
    (forall k, (k < size * dims)%nat -> nth k v' 0 = nth k v 0 + dt / 2 * nth (k / dims) im 0 * nth k f 0) /\
    (elapsed < h_wait h -> h' = h) /\
    (h_wait h <= elapsed -> 0 < kB -> h_temp h' * kB * INR (size * dims) / 2 = twice_ke dims (size * dims) im v / 2) /\
    (0 < h_q h -> h_q h' = h_q h) /\ h_wait h' = h_wait h.
Proof.
  intros kB elapsed dt dims size im f v h HD HS LI LF LV HZ HT H0. unfold nose_velocities. destruct (Nat.eqb_spec (size * dims) 0); [nia|].
  destruct (C31_nose_hoover_partial dims dt (h_zeta h) (size * dims) im f v HD ltac:(lia) ltac:(lia) ltac:(lia)) as (v' & E & L & V).
  { intros i Hi. rewrite Forall_forall in HZ. apply HZ, nth_In, Hi. }
  rewrite E, (mv2_spec dims im v size HD LI HZ (size * dims) 0) by lia. eexists. eexists. split; [reflexivity|]. split.
  { intros k Hk. rewrite V. destruct (Nat.ltb_spec k (size * dims)); [|lia]. rewrite H0. assert (NZ : nth (k / dims) im 0 <> 0) by (rewrite Forall_forall in HZ; apply HZ, nth_In; rewrite LI; now apply div_lt). field. exact NZ. }
  unfold nose_update. destruct (Rlt_dec (h_temp h) 0); [|lra]. split; [|split].
  - intros HW. destruct (Rlt_dec elapsed (h_wait h)); [|lra]. destruct h; cbn in *. now subst.
  - intros HW HK. destruct (Rlt_dec elapsed (h_wait h)); [lra|]. cbn [h_temp]. unfold twice_ke. assert (0 < INR (size * dims)) by (apply lt_0_INR; nia). field. split; lra.
  - destruct (Rlt_dec elapsed (h_wait h)); cbn [h_q h_wait]; (split; [|reflexivity]); intros HQ; [reflexivity|]. destruct (Rle_dec (h_q h) 0); [lra|reflexivity].
Qed.
Print Assumptions C100_waiting_partial.
(* A new integrator: no friction for 5/2 time units, however many half steps; the mass of the thermostat is 100 *)
Theorem C100_new_partial : forall kB elapsed dt dims size im f v, (0 < dims)%nat -> (0 < size)%nat -> length im = size -> length f = (size * dims)%nat -> length v = (size * dims)%nat ->
  Forall (fun w => w <> 0) im -> 0 < kB ->
  exists v' h', nose_velocities kB elapsed dt dims (size * dims) im f v new_nose = Some (v', h') /\
    (forall k, (k < size * dims)%nat -> nth k v' 0 = nth k v 0 + dt / 2 * nth (k / dims) im 0 * nth k f 0) /\ h_q h' = 100 /\
    (elapsed < 5 / 2 -> h' = new_nose) /\ (5 / 2 <= elapsed -> h_temp h' * kB * INR (size * dims) / 2 = twice_ke dims (size * dims) im v / 2).
Proof.
  intros kB elapsed dt dims size im f v HD HS LI LF LV HZ HK. destruct (C100_waiting_partial kB elapsed dt dims size im f v new_nose HD HS LI LF LV HZ ltac:(cbn; lra) eq_refl) as (v' & h' & E & V & A & B & C & _).
  cbn [new_nose h_wait h_q] in A, B, C. exists v', h'. split; [exact E|]. split; [exact V|]. split; [apply C; lra|]. split; [exact A|]. intros H. now apply B.
Qed.
Print Assumptions C100_new_partial.
Example C100_case : exists v' h', nose_velocities 1 3 2 2 2 [1 / 2] [1; 0] [2; 0] new_nose = Some (v', h') /\ nth 0 v' 0 = 5 / 2 /\ h_temp h' = 4.
Proof.
  destruct (C100_waiting_partial 1 3 2 2 1 [1 / 2] [1; 0] [2; 0] new_nose) as (v' & h' & E & V & _ & T & _); try reflexivity; try lia; try (cbn; lra).
  { repeat constructor. lra. }
  exists v', h'. split; [exact E|]. split; [rewrite (V 0%nat) by lia; cbn; field|]. specialize (T ltac:(cbn; lra) ltac:(lra)). unfold twice_ke in T. cbn in T. lra.
Qed.
(* At that moment the friction is not zero: it jumps as for the temperature -1, however close the particles are to the temperature chosen *)
Theorem C100_jump_refuted : forall kB elapsed dt total ke h, 0 < kB -> 0 < dt -> (1 <= total)%nat -> 0 <= ke -> 0 < h_q h -> h_temp h = -1 -> h_zeta h = 0 -> h_wait h <= elapsed ->
  h_zeta (nose_update kB elapsed (dt / 2) total ke h) = dt / 2 / h_q h * (ke + (INR total - 1) / 2 * kB).
Proof.
  intros kB elapsed dt total ke h HK HD HN HE HQ HT HZ HW. unfold nose_update. rewrite HT, HZ. destruct (Rlt_dec (-1) 0); [|lra]. destruct (Rlt_dec elapsed (h_wait h)); [lra|]. cbn [h_zeta]. field. lra.
Qed.
Print Assumptions C100_jump_refuted.
(* Immovable particles make the thermostat undefined *)
Theorem C100_immovable_refuted : forall kB elapsed dt dims size im f v h, (0 < dims)%nat -> (0 < size)%nat -> length im = size -> length f = (size * dims)%nat -> length v = (size * dims)%nat -> nth 0 im 0 = 0 ->
  nose_velocities kB elapsed dt dims (size * dims) im f v h = None.
Proof.
  intros kB elapsed dt dims size im f v h HD HS LI LF LV HZ. unfold nose_velocities. destruct (Nat.eqb_spec (size * dims) 0); [nia|]. unfold nh_velocities. destruct (Nat.eqb_spec (size * dims) 0); [lia|].
  destruct (size * dims)%nat as [|t] eqn:ET; [lia|]. cbn [scalar_loop]. unfold update1. rewrite (error_of_nth v 0) by lia. unfold nh_upd at 1. rewrite (error_of_nth f 0) by lia.
  rewrite Nat.div_0_l by lia. rewrite (error_of_nth im 0) by lia. rewrite HZ. destruct (Req_EM_T 0 0); [reflexivity|lra].
Qed.
Print Assumptions C100_immovable_refuted.
(* On several processors each has its own friction and temperature: with a fast particle on one processor and a slow one on the other, the temperatures chosen differ *)
Theorem C100_processors_refuted : exists v1 h1 v2 h2, nose_velocities 1 3 2 1 1 [1] [0] [2] new_nose = Some (v1, h1) /\ nose_velocities 1 3 2 1 1 [1] [0] [1] new_nose = Some (v2, h2) /\ h_temp h1 = 4 /\ h_temp h2 = 1.
Proof.
  destruct (C100_waiting_partial 1 3 2 1 1 [1] [0] [2] new_nose) as (v1 & h1 & E1 & _ & _ & T1 & _); try reflexivity; try lia; try (cbn; lra). { repeat constructor. lra. }
  destruct (C100_waiting_partial 1 3 2 1 1 [1] [0] [1] new_nose) as (v2 & h2 & E2 & _ & _ & T2 & _); try reflexivity; try lia; try (cbn; lra). { repeat constructor. lra. }
  exists v1, h1, v2, h2. split; [exact E1|]. split; [exact E2|]. specialize (T1 ltac:(cbn; lra) ltac:(lra)). specialize (T2 ltac:(cbn; lra) ltac:(lra)). unfold twice_ke in T1, T2. cbn in T1, T2. split; lra.
Qed.
Print Assumptions C100_processors_refuted.
