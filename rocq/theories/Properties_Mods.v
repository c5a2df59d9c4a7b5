(* C68: driven particles. C69: damping. C70: wind and stream tunnels. C72: thermostat intervals. C73: two walls. (C71: Properties_Stream.v)
   run dims steps (modifiers, particle): the steps are pairs of a time step and the force that everything else exerts on the particle, both arbitrary. *)
From Coq Require Import QArith Qround Qminmax Qabs List Bool ZArith Lia Lqa Setoid.
From Verif Require Import Lib Model_Mods Spec_Mods Proofs_Mods.
Import ListNotations.
Local Open Scope Q_scope.

Definition no_damping (ms : list modif) : Prop := forall d, ~ In (LD d) ms /\ ~ In (QD d) ms.
Lemma no_damping_quiet ms : no_damping ms -> Forall quiet ms.
Proof. intros H. apply Forall_forall. intros m Hm. destruct m as [u|u d1 d2 mv|a|d|d|a b c d|a b c d]; cbn; auto; [exact (proj1 (H d) Hm)|exact (proj2 (H d) Hm)]. Qed.

(* ---------- C68. A particle with a constant velocity modifier, whatever the forces and the other modifiers before it (but no damping): after the
   first step its velocity is the given one, it feels no force, and it moves uniformly. *)
Theorem C68_constant_velocity_partial dims u ms p first steps : no_damping ms ->
  let s1 := run dims [first] (ms ++ [CV u], p) in let s := run dims (first :: steps) (ms ++ [CV u], p) in
  forall c, p_v (snd s) c == u c /\ p_f (snd s) c == 0 /\ p_x (snd s) c == p_x (snd s1) c + u c * elapsed steps.
Proof.
  intros H s1 s. unfold s1, s. change (first :: steps) with ([first] ++ steps). rewrite run_app. destruct first as [dt g]. cbn [run fold_left fst snd].
  destruct (cv_step dims u ms dt g p (no_damping_quiet _ H)) as (ms1 & p1 & A & B & C & E). rewrite B. change (fold_left (fun s a => step dims (fst a) (snd a) s) steps) with (run dims steps).
  destruct (cv_run dims u steps ms1 p1 A C) as (ms2 & p2 & A2 & B2 & C2 & E2). rewrite B2. cbn [snd]. intros c. destruct (C2 c). split; [|split]; auto.
Qed.
Print Assumptions C68_constant_velocity_partial.
Definition two (a b : Q) : vec := fun c => match c with O => a | S O => b | _ => 0 end.
Definition pt1 : pt := mkPt (two 1 2) (two 0 5) (two 7 7) (1#2).
Example C68_constant_velocity_case : no_damping [CA (two 0 (-1))] /\
  let s := run 2 [(1#10, two 3 4); (1#10, two (-5) 8); (2#10, two 1 1)] ([CA (two 0 (-1)); CV (two 2 0)], pt1) in
  p_x (snd s) 0%nat == 1 + (7#400) + (6#10) /\ p_v (snd s) 0%nat == 2 /\ p_v (snd s) 1%nat == 0.
Proof. split; [intros d; split; intros [H|[]]; discriminate|]. vm_compute. repeat split. Qed.

(* The modifier that stops after a distance. While no time that has passed so far is enough to cover the distance, it moves on; after the first
   step a ++ [b] whose beginning a covers it, it is at rest for ever, having moved during a (without its first step) and b. *)
Theorem C68_distance_partial dims u dist ms p first steps : no_damping ms ->
  let s1 := run dims [first] (ms ++ [CVD u vzero dist true], p) in let s := run dims (first :: steps) (ms ++ [CVD u vzero dist true], p) in
  let far T := T * T * length2 dims u in
  ((forall a b, a ++ b = first :: steps -> a <> [] -> b <> [] -> far (elapsed a) <= dist * dist) ->
    forall c, p_v (snd s) c == u c /\ p_x (snd s) c == p_x (snd s1) c + u c * elapsed steps) /\
  (forall a b rest, first :: a ++ b :: rest = first :: steps -> dist * dist < far (elapsed (first :: a)) ->
    (forall a1 a2, a1 ++ a2 = first :: a -> a1 <> [] -> a2 <> [] -> far (elapsed a1) <= dist * dist) ->
    forall c, p_v (snd s) c == 0 /\ p_x (snd s) c == p_x (snd s1) c + u c * (elapsed a + fst b)).
Proof.
  intros H s1 s far. unfold s1, s. change (first :: steps) with ([first] ++ steps). rewrite run_app. destruct first as [dt0 g0]. cbn [run fold_left fst snd].
  assert (Hd0 : disp_is u vzero 0) by (intros c; unfold vzero; ring).
  destruct (cvd_step dims u dist ms vzero 0 dt0 g0 p (no_damping_quiet _ H) Hd0) as (ms1 & disp1 & p1 & A & B & C & E & F). rewrite C. cbn [snd].
  change (fold_left (fun s a => step dims (fst a) (snd a) s) steps) with (run dims steps).
  assert (OV : forall T T', T == T' -> far T' <= dist * dist -> over dims u dist T = false).
  { intros T T' HT HF. unfold over. destruct (Qltb_spec (dist * dist) (T * T * length2 dims u)) as [X|X]; [|reflexivity]. exfalso. rewrite HT in X. unfold far in HF. apply (Qle_not_lt _ _ HF X). }
  split.
  - intros Hp. destruct (cvd_run dims u dist steps ms1 disp1 (0 + dt0) p1 A B E) as (ms2 & disp2 & p2 & A2 & B2 & C2 & E2 & F2).
    + intros a b Eab Hb. apply (OV _ (elapsed ((dt0, g0) :: a))); [cbn [elapsed fold_right fst]; fold (elapsed a); ring|]. apply (Hp _ b); [cbn; now rewrite Eab|discriminate|exact Hb].
    + rewrite C2. cbn [snd]. intros c. destruct (E2 c) as [X _]. split; [exact X|apply F2].
  - intros a b rest Eq Hf Hp. injection Eq as Eq. subst steps. rewrite run_app. destruct (cvd_run dims u dist a ms1 disp1 (0 + dt0) p1 A B E) as (ms2 & disp2 & p2 & A2 & B2 & C2 & E2 & F2).
    + intros a1 a2 Eab Hb. apply (OV _ (elapsed ((dt0, g0) :: a1))); [cbn [elapsed fold_right fst]; fold (elapsed a1); ring|]. apply (Hp _ a2); [cbn; now rewrite Eab|discriminate|exact Hb].
    + rewrite C2. assert (O1 : over dims u dist (0 + dt0 + elapsed a) = true).
      { unfold over. destruct (Qltb_spec (dist * dist) ((0 + dt0 + elapsed a) * (0 + dt0 + elapsed a) * length2 dims u)) as [X|X]; [reflexivity|]. exfalso. apply X. eapply Qlt_le_trans; [exact Hf|].
        apply Qle_lteq. right. unfold far. cbn [elapsed fold_right fst]. fold (elapsed a). ring. }
      rewrite O1. cbn [negb]. change (b :: rest) with ([b] ++ rest). rewrite run_app. destruct b as [dtb gb]. cbn [run fold_left fst snd].
      destruct (cvd_still dims u dist ms2 disp2 dtb gb p2 A2) as (ms3 & p3 & A3 & B3 & C3 & F3). rewrite B3.
      change (fold_left (fun s a => step dims (fst a) (snd a) s) rest) with (run dims rest).
      destruct (cvd_rest dims u dist rest ms3 disp2 p3 A3 C3) as (ms4 & p4 & A4 & B4 & C4 & F4). rewrite B4. cbn [snd]. intros c. destruct (C4 c) as [X _]. split; [exact X|].
      rewrite F4, F3, F2. destruct (E2 c) as [Y1 Y2]. rewrite Y1, Y2. ring.
Qed.
Print Assumptions C68_distance_partial.
(* With a fixed time step: the object stops after a whole number K of steps, the first for which K dt |u| exceeds the distance. *)
Theorem C68_distance_fixed_partial dims u dist ms p dt first gs (K : nat) : no_damping ms -> (0 < K)%nat -> (K < length gs + 1)%nat ->
  (forall k, (0 < k < K)%nat -> (inject_Z (Z.of_nat k) * dt) * (inject_Z (Z.of_nat k) * dt) * length2 dims u <= dist * dist) ->
  dist * dist < (inject_Z (Z.of_nat K) * dt) * (inject_Z (Z.of_nat K) * dt) * length2 dims u ->
  let steps := map (fun g => (dt, g)) gs in
  let s1 := run dims [(dt, first)] (ms ++ [CVD u vzero dist true], p) in let s := run dims ((dt, first) :: steps) (ms ++ [CVD u vzero dist true], p) in
  forall c, p_v (snd s) c == 0 /\ p_x (snd s) c == p_x (snd s1) c + inject_Z (Z.of_nat K) * dt * u c.
Proof.
  intros H HK HL Hle Hgt. cbv zeta. assert (EL : forall l, elapsed (map (fun g : vec => (dt, g)) l) == inject_Z (Z.of_nat (length l)) * dt).
  { induction l as [|a l IH]; [cbn; ring|]. cbn [map elapsed fold_right fst length]. fold (elapsed (map (fun g : vec => (dt, g)) l)). rewrite IH, Nat2Z.inj_succ. unfold Z.succ. rewrite inject_Z_plus. ring. }
  set (ga := firstn (K - 1) gs). destruct (skipn (K - 1) gs) as [|gb gr] eqn:Es.
  { exfalso. assert (L := skipn_length (K - 1) gs). rewrite Es in L. cbn in L. lia. }
  assert (Eg : gs = ga ++ gb :: gr) by (rewrite <- Es; symmetry; apply firstn_skipn). assert (La : length ga = (K - 1)%nat) by (unfold ga; rewrite firstn_length; lia).
  destruct (C68_distance_partial dims u dist ms p (dt, first) (map (fun g => (dt, g)) gs) H) as [_ D]. intros c.
  destruct (D (map (fun g => (dt, g)) ga) (dt, gb) (map (fun g => (dt, g)) gr)) with (c := c) as [V X].
  - f_equal. rewrite Eg, map_app. reflexivity.
  - eapply Qlt_le_trans; [exact Hgt|]. apply Qle_lteq. right. cbn [elapsed fold_right fst]. fold (elapsed (map (fun g : vec => (dt, g)) ga)). rewrite EL, La.
    assert (E1 : inject_Z (Z.of_nat K) == 1 + inject_Z (Z.of_nat (K - 1))) by (rewrite <- (inject_Z_plus 1), <- (Nat2Z.inj_add 1); now replace (1 + (K - 1))%nat with K by lia). rewrite E1. ring.
  - intros a1 a2 E A1 A2. assert (Em : map (fun g => (dt, g)) (first :: ga) = a1 ++ a2) by now rewrite E. apply map_eq_app in Em as (g1 & g2 & Eg1 & <- & <-).
    eapply Qle_trans; [|apply (Hle (length g1))].
    + rewrite EL. apply Qle_refl.
    + assert (L := f_equal (@length vec) Eg1). cbn in L. rewrite app_length in L. destruct g1; [now elim A1|]. destruct g2; [now elim A2|]. cbn in *. lia.
  - split; [exact V|]. rewrite X, EL, La. cbn [fst].
    assert (E1 : inject_Z (Z.of_nat K) == 1 + inject_Z (Z.of_nat (K - 1))) by (rewrite <- (inject_Z_plus 1), <- (Nat2Z.inj_add 1); now replace (1 + (K - 1))%nat with K by lia). rewrite E1. ring.
Qed.
Print Assumptions C68_distance_fixed_partial.
Example C68_distance_case : let gs := [two 1 1; two 2 0; two 0 0; two 9 9; two 1 0] in
  let s := run 2 ((1, two 0 0) :: map (fun g => (1, g)) gs) ([] ++ [CVD (two 2 0) vzero 5 true], mkPt (two 0 0) (two 0 0) (two 0 0) 1) in
  p_x (snd s) 0%nat == 6 /\ p_v (snd s) 0%nat == 0.
Proof. vm_compute. split; reflexivity. Qed.

(* Constant acceleration: exact uniformly accelerated motion of a movable particle on which nothing else acts; f0: the force left from the step
   before (its own weight in the middle of a run). *)
Theorem C68_acceleration dims a p steps : 0 < p_im p -> (forall s, In s steps -> forall c, snd s c == 0) -> (forall c, p_im p * p_f p c == a c) ->
  let p' := snd (run dims steps ([CA a], p)) in let T := elapsed steps in
  forall c, p_v p' c == p_v p c + a c * T /\ p_x p' c == p_x p c + p_v p c * T + a c * T * T * (1#2) /\ p_im p' * p_f p' c == a c.
Proof.
  intros Hm Hg Hf. cbv zeta.
  assert (G : exists p', run dims steps ([CA a], p) = ([CA a], p') /\ p_im p' = p_im p /\ forall c, p_v p' c == p_v p c + a c * elapsed steps /\
     p_x p' c == p_x p c + p_v p c * elapsed steps + a c * elapsed steps * elapsed steps * (1#2) /\ p_im p' * p_f p' c == a c).
  { revert p Hm Hf Hg. induction steps as [|[dt g] steps IH]; intros p Hm Hf Hg.
    - exists p. split; [reflexivity|]. split; [reflexivity|]. intros c. cbn [elapsed fold_right]. split; [ring|]. split; [ring|apply Hf].
    - cbn [run fold_left fst snd]. change (fold_left (fun s a => step dims (fst a) (snd a) s) steps) with (run dims steps).
      destruct (step dims dt g ([CA a], p)) as [ms1 p1] eqn:E. unfold step in E. cbn [pre_all pre_forces post_all post_forces] in E. injection E as <- <-.
      assert (Em : Qltb 0 (p_im p) = true) by (destruct (Qltb_spec 0 (p_im p)); [reflexivity|contradiction]).
      match goal with |- exists p', run dims steps ([CA a], ?q) = _ /\ _ => set (p1 := q) end.
      assert (N : ~ p_im p == 0) by lra. assert (Hg0 := Hg (dt, g) (or_introl eq_refl)). cbn in Hg0.
      assert (F1 : forall c, p_im p1 * p_f p1 c == a c).
      { intros c. cbn. unfold vadd, vscale. cbn. rewrite Em, (Hg0 c). field. exact N. }
      assert (V1 : forall c, p_v p1 c == p_v p c + a c * dt).
      { intros c. cbn. unfold vadd, vscale. rewrite Em, (Hg0 c). transitivity (p_v p c + (1#2) * dt * (p_im p * p_f p c) + (1#2) * dt * a c); [field; exact N|]. rewrite (Hf c). ring. }
      assert (X1 : forall c, p_x p1 c == p_x p c + p_v p c * dt + a c * dt * dt * (1#2)).
      { intros c. cbn. transitivity (p_x p c + p_v p c * dt + (p_im p * p_f p c) * dt * dt * (1#2)); [ring|]. now rewrite (Hf c). }
      destruct (IH p1) as (p' & R & Im & K); [exact Hm|exact F1|intros s Hs; apply Hg; now right|]. exists p'. split; [exact R|]. split; [rewrite Im; reflexivity|]. intros c.
      destruct (K c) as (K1 & K2 & K3). cbn [elapsed fold_right fst]. fold (elapsed steps). split; [rewrite K1, (V1 c); ring|]. split; [rewrite K2, (V1 c), (X1 c); ring|exact K3]. }
  destruct G as (p' & E & _ & K). rewrite E. exact K.
Qed.
Print Assumptions C68_acceleration.
Example C68_acceleration_case : let p := mkPt (two 0 10) (two 1 0) (two 0 (-6)) (1#2) in let p' := snd (run 2 [(1, two 0 0); (1#2, two 0 0); (3#2, two 0 0)] ([CA (two 0 (-3))], p)) in
  (forall c, p_im p * p_f p c == two 0 (-3) c) /\ p_x p' 1%nat == 10 - 3 * 3 * 3 * (1#2) /\ p_v p' 1%nat == -9.
Proof. split; [intros [|[|c]]; reflexivity|]. vm_compute. split; reflexivity. Qed.
(* Immovable particles are not accelerated, whatever acts on them. *)
Theorem C68_immovable dims a p steps : p_im p == 0 -> let p' := snd (run dims steps ([CA a], p)) in forall c, p_v p' c == p_v p c.
Proof.
  intros Hm. cbv zeta. revert p Hm. induction steps as [|[dt g] steps IH]; intros p Hm c; [reflexivity|]. cbn [run fold_left fst snd].
  change (fold_left (fun s a => step dims (fst a) (snd a) s) steps) with (run dims steps). unfold step. cbn [pre_all pre_forces post_all post_forces]. rewrite IH by (cbn; exact Hm). cbn.
  set (w := vadd _ _ c). clearbody w. rewrite Hm. ring.
Qed.
Print Assumptions C68_immovable.

(* The first step: the driven particle moves with its old velocity and force, not with the given velocity. *)
Theorem C68_first_step_refuted : let p' := snd (run 2 [(1, two 0 0)] ([CV (two 2 0)], mkPt (two 0 0) (two (-3) 0) (two 0 0) 1)) in p_x p' 0%nat == -3.
Proof. vm_compute. reflexivity. Qed.
Print Assumptions C68_first_step_refuted.
(* With damping, the damping force is added before the kick, and the particle falls behind although its velocity is reset in every step. *)
Theorem C68_damped_refuted : let p' := snd (run 2 [(1, two 0 0); (1, two 0 0)] ([CV (two 2 0); LD (1#2)], mkPt (two 0 0) (two 2 0) (two 0 0) 1)) in
  p_v p' 0%nat == 2 /\ p_x p' 0%nat == 3.
Proof. vm_compute. split; reflexivity. Qed.
Print Assumptions C68_damped_refuted.
(* A modifier that comes later adds its force to the driven particle. *)
Theorem C68_order_refuted : let p' := snd (run 2 [(1, two 0 0); (1, two 0 0)] ([CV (two 2 0); CA (two 0 (-4))], mkPt (two 0 0) (two 2 0) (two 0 0) 1)) in
  p_v p' 1%nat == -2 /\ p_x p' 1%nat == -4.
Proof. vm_compute. split; reflexivity. Qed.
Print Assumptions C68_order_refuted.
(* When a run starts (no force is left from before), acceleration is half a step late. *)
Theorem C68_start_refuted : let p' := snd (run 2 [(1, two 0 0); (1, two 0 0)] ([CA (two 0 (-4))], mkPt (two 0 0) (two 0 0) (two 0 0) 1)) in p_v p' 1%nat == -6 /\ p_x p' 1%nat == -4.
Proof. vm_compute. split; reflexivity. Qed.
Print Assumptions C68_start_refuted.
(* An axis that does not exist is silently ignored. *)
Theorem C68_axis_refuted dims a d c : (d < 0 \/ Z.of_nat dims <= d)%Z -> accel_of dims a d c = 0.
Proof. intros H. unfold accel_of. destruct (Z.leb_spec 0 d), (Z.ltb_spec d (Z.of_nat dims)); cbn; try reflexivity. lia. Qed.
Print Assumptions C68_axis_refuted.
(* On a processor that does not own the particle the modifier is erased; when the particle comes (back) to this processor it is not driven. *)
Theorem C68_other_processor_refuted : still_there true false [true; false; true; true] = [true; true; false; false].
Proof. reflexivity. Qed.
Print Assumptions C68_other_processor_refuted.
(* The modifier is there for as long as the processor owns the particle. *)
Theorem C68_owned owned : (forall o, In o owned -> o = true) -> still_there true false owned = map (fun _ => true) owned.
Proof. induction owned as [|o owned IH]; intros H; [reflexivity|]. cbn [still_there map andb negb orb]. rewrite (H o (or_introl eq_refl)). cbn [negb]. rewrite IH; [reflexivity|]. intros; apply H; now right. Qed.
Print Assumptions C68_owned.

(* ---------- C69. Damping, without other forces. *)
Definition decay (k : Q) (steps : list (Q * vec)) : Q := fold_right (fun a r => (1 - (1#2) * k * fst a) * r) 1 steps.
Lemma run_ld dims d p steps : (forall c, p_f p c == 0) -> (forall s, In s steps -> forall c, snd s c == 0) ->
  exists p', run dims steps ([LD d], p) = ([LD d], p') /\ p_im p' = p_im p /\ forall c, p_f p' c == 0 /\ p_v p' c == p_v p c * decay (d * p_im p) steps.
Proof.
  revert p. induction steps as [|[dt g] steps IH]; intros p Hf Hg.
  - exists p. split; [reflexivity|]. split; [reflexivity|]. intros c. split; [apply Hf|]. cbn. ring.
  - cbn [run fold_left fst snd]. change (fold_left (fun s a => step dims (fst a) (snd a) s) steps) with (run dims steps). unfold step. cbn [pre_all pre_forces post_all post_forces].
    assert (Hg0 := Hg (dt, g) (or_introl eq_refl)). cbn in Hg0.
    match goal with |- exists p', run dims steps ([LD d], ?q) = _ /\ _ => set (p1 := q) end.
    destruct (IH p1) as (p' & R & Im & K); [exact Hg0|intros; apply Hg; now right|]. exists p'. split; [exact R|]. split; [rewrite Im; reflexivity|]. intros c. destruct (K c) as [K1 K2]. split; [exact K1|].
    rewrite K2. assert (V1 : p_v p1 c == p_v p c * (1 - (1#2) * (d * p_im p) * dt)) by (cbn; rewrite (Hg0 c), (Hf c); ring). rewrite V1. cbn [decay fold_right fst]. fold (decay (d * p_im p) steps).
    change (p_im p1) with (p_im p). ring.
Qed.
(* Linear damping never speeds a particle up, if damping, inverse mass and time step are not negative and their product is at most 4. *)
Theorem C69_linear_partial dims d p steps : (forall c, p_f p c == 0) -> (forall s, In s steps -> (forall c, snd s c == 0) /\ 0 <= d * p_im p * fst s <= 4) ->
  let p' := snd (run dims steps ([LD d], p)) in forall c, p_v p' c * p_v p' c <= p_v p c * p_v p c.
Proof.
  intros Hf Hs. cbv zeta. destruct (run_ld dims d p steps Hf (fun s H => proj1 (Hs s H))) as (p' & E & _ & K). rewrite E. cbn [snd]. intros c. destruct (K c) as [_ V]. rewrite V.
  assert (D : 0 <= decay (d * p_im p) steps * decay (d * p_im p) steps <= 1).
  { clear - Hs. induction steps as [|[dt g] steps IH]; [cbn; lra|]. cbn [decay fold_right fst]. fold (decay (d * p_im p) steps). destruct (Hs (dt, g) (or_introl eq_refl)) as [_ B]. cbn in B.
    specialize (IH (fun s H => Hs s (or_intror H))). set (z := decay (d * p_im p) steps) in *. set (k := d * p_im p * dt) in *.
    setoid_replace ((1 - (1 # 2) * (d * p_im p) * dt) * z * ((1 - (1 # 2) * (d * p_im p) * dt) * z)) with ((1 - (1#2) * k) * (1 - (1#2) * k) * (z * z)) by (unfold k; ring).
    clearbody z k. assert (A1 : -1 <= 1 - (1#2) * k <= 1) by lra. set (q := 1 - (1#2) * k) in *. clearbody q.
    assert (A2 : 0 <= q * q) by nra. assert (A3 : q * q <= 1) by nra. set (q2 := q * q) in *. set (z2 := z * z) in *. clearbody q2 z2. destruct IH. split; nra. }
  set (z := decay (d * p_im p) steps) in *. set (v := p_v p c). setoid_replace (v * z * (v * z)) with (v * v * (z * z)) by ring. assert (V0 : 0 <= v * v) by nra. set (z2 := z * z) in *. set (v2 := v * v) in *. clearbody z2 v2. destruct D. nra.
Qed.
Print Assumptions C69_linear_partial.
Example C69_linear_case : let p := mkPt (two 0 0) (two 8 (-4)) (two 0 0) 1 in let p' := snd (run 2 [(1, two 0 0); (1, two 0 0)] ([LD 1], p)) in
  (forall s, In s [(1, two 0 0); (1, two 0 0)] -> (forall c, snd s c == 0) /\ 0 <= 1 * p_im p * fst s <= 4) /\ p_v p' 0%nat == 2 /\ p_v p' 1%nat == -1.
Proof. split; [intros s [<- |[<- |[]]]; (split; [intros [|[|c]]; reflexivity|cbn; lra])|]. vm_compute. split; reflexivity. Qed.
(* A damping constant d is meant to be the force -d v, that is a change of the velocity of -d v dt / m in a step. Only one of the two half steps has
   it, since the forces are cleared after the first: the damping is half of that. *)
Theorem C69_half_rate_refuted dims d p dt g : (forall c, p_f p c == 0) -> (forall c, g c == 0) ->
  let p' := snd (run dims [(dt, g)] ([LD d], p)) in forall c, p_v p' c - p_v p c == (1#2) * (- d * p_v p c) * p_im p * dt.
Proof.
  intros Hf Hg. cbv zeta. intros c. destruct (run_ld dims d p [(dt, g)] Hf) as (p' & E & _ & K); [intros s [<- |[]]; exact Hg|]. rewrite E. cbn [snd]. destruct (K c) as [_ ->]. cbn. ring.
Qed.
Print Assumptions C69_half_rate_refuted.

Lemma run_qd dims d p steps : (forall c, p_f p c == 0) -> 0 <= d * p_im p -> (forall s, In s steps -> (forall c, snd s c == 0) /\ 0 <= fst s) ->
  forall c, (0 <= p_v p c -> (forall s, In s steps -> d * p_im p * fst s * p_v p c <= 2) -> let v' := p_v (snd (run dims steps ([QD d], p))) c in 0 <= v' <= p_v p c) /\
            (p_v p c <= 0 -> p_v (snd (run dims steps ([QD d], p))) c <= p_v p c).
Proof.
  intros Hf Hd Hg c. revert p Hf Hd. induction steps as [|[dt g] steps IH]; intros p Hf Hd.
  - cbn. split; [intros; lra|intros; lra].
  - cbn [run fold_left fst snd]. change (fold_left (fun s a => step dims (fst a) (snd a) s) steps) with (run dims steps). unfold step. cbn [pre_all pre_forces post_all post_forces].
    destruct (Hg (dt, g) (or_introl eq_refl)) as [Hg0 Hdt]. cbn in Hg0, Hdt.
    match goal with |- context [run dims steps ([QD d], ?q)] => set (p1 := q) end.
    assert (V1 : p_v p1 c == p_v p c - (1#2) * (d * p_im p) * dt * (p_v p c * p_v p c)) by (cbn; rewrite (Hg0 c), (Hf c); ring).
    specialize (IH (fun s H => Hg s (or_intror H)) p1 Hg0 Hd) as [I1 I2]. set (v := p_v p c) in *. set (v1 := p_v p1 c) in *. set (k := d * p_im p) in *. assert (K0 : 0 <= k * dt) by nra. split.
    + intros Hv Hb. assert (B := Hb (dt, g) (or_introl eq_refl)). cbn in B. assert (A : 0 <= k * dt * v) by nra.
      assert (Hv1 : 0 <= v1 <= v) by (rewrite V1; setoid_replace (v - (1#2) * k * dt * (v * v)) with (v * (1 - (1#2) * (k * dt * v))) by ring; nra).
      destruct (I1 (proj1 Hv1)) as [J1 J2]; [|split; [exact J1|lra]]. intros s Hs. change (p_im p1) with (p_im p). fold k. specialize (Hb s (or_intror Hs)). destruct (Hg s (or_intror Hs)) as [_ S0].
      assert (0 <= k * fst s) by nra. nra.
    + intros Hv. assert (Hv1 : v1 <= v) by (rewrite V1; assert (0 <= k * dt * (v * v)) by (assert (0 <= v * v) by nra; nra); lra). specialize (I2 ltac:(lra)). lra.
Qed.
(* Quadratic damping: components that are not negative shrink, but not below zero, if the time step is small. *)
Theorem C69_quadratic_partial dims d p steps : (forall c, p_f p c == 0) -> 0 <= d * p_im p -> (forall s, In s steps -> (forall c, snd s c == 0) /\ 0 <= fst s) ->
  forall c, 0 <= p_v p c -> (forall s, In s steps -> d * p_im p * fst s * p_v p c <= 2) -> 0 <= p_v (snd (run dims steps ([QD d], p))) c <= p_v p c.
Proof. intros Hf Hd Hs c Hv Hb. now apply (run_qd dims d p steps Hf Hd Hs c). Qed.
Print Assumptions C69_quadratic_partial.
(* Negative components grow: a particle that moves in the negative direction is driven, not damped. *)
Theorem C69_quadratic_refuted dims d p dt g c : (forall c, p_f p c == 0) -> (forall c, g c == 0) -> 0 < d * p_im p * dt -> p_v p c < 0 -> p_v (snd (run dims [(dt, g)] ([QD d], p))) c < p_v p c.
Proof.
  intros Hf Hg Hd Hv. cbn. rewrite (Hg c), (Hf c). set (v := p_v p c) in *. set (k := d * p_im p * dt) in *.
  setoid_replace (v + (1#2) * dt * p_im p * (0 - d * (v * v)) + (1#2) * dt * p_im p * 0) with (v - (1#2) * (k * (v * v))) by (unfold k; ring). clearbody k v.
  assert (V0 : 0 < v * v) by nra. set (v2 := v * v) in *. clearbody v2. assert (0 < k * v2) by nra. lra.
Qed.
Print Assumptions C69_quadratic_refuted.
Example C69_quadratic_case : let p := mkPt (two 0 0) (two 1 (-1)) (two 0 0) 1 in let p' := snd (run 2 [(1, two 0 0); (1, two 0 0)] ([QD 1], p)) in p_v p' 0%nat == 3#8 /\ p_v p' 1%nat == -(21#8).
Proof. vm_compute. split; reflexivity. Qed.

(* ---------- C70. Wind tunnel (damp = 1/4 of the damping constant) and stream tunnel (1/20 of it, divided by the mass). *)
Definition end_zone (lb rb x : Q) : Prop := x < lb \/ rb < x.
Lemma zone_spec lb rb x : Qltb x lb || Qltb rb x = true <-> end_zone lb rb x.
Proof. unfold end_zone. rewrite orb_true_iff. destruct (Qltb_spec x lb), (Qltb_spec rb x); intuition congruence. Qed.
Theorem C70_zones mn mx vel k : mn < mx ->
  exists w, 0 < w /\ w <= (1#10) * (mx - mn) /\ wind_tunnel mn mx vel k = WT (mn + w) (mx - w) vel k /\ exists w', 0 < w' /\ w' <= (1#10) * (mx - mn) /\ stream_tunnel mn mx vel k = ST (w' + mn) (mx - w') vel k.
Proof.
  intros H. assert (0 < (1#10) * (mx - mn)) by lra. exists (Qmin ((1#10) * (mx - mn)) 4). split; [apply Q.min_glb_lt; lra|]. split; [apply Q.le_min_l|]. split; [reflexivity|].
  exists (Qmin 2 ((1#10) * (mx - mn))). split; [apply Q.min_glb_lt; lra|]. split; [apply Q.le_min_r|reflexivity].
Qed.
Print Assumptions C70_zones.
(* One step: where the particle gets to decides. In an end zone its velocity is the tunnel velocity along x plus a term proportional to the force, and no force is
   left; elsewhere the tunnel has no effect at all. *)
Theorem C70_wind_step dims lb rb vel k p dt g :
  let p0 := snd (step dims dt g ([], p)) in let p' := snd (step dims dt g ([WT lb rb vel k], p)) in
  (forall c, p_x p' c == p_x p0 c) /\
  (end_zone lb rb (p_x p0 0%nat) -> forall c, p_f p' c == 0 /\ p_v p' c == (if (c =? 0)%nat then vel else 0) + (1#4) * k * g c) /\
  (~ end_zone lb rb (p_x p0 0%nat) -> forall c, p_f p' c == g c /\ p_v p' c == p_v p0 c).
Proof.
  cbv zeta. unfold step. cbn [pre_all pre_forces post_all post_forces]. set (q := set_f g (drift dt (half_kick dt p))).
  change (p_x (half_kick dt (snd ([] : list modif, q))) 0%nat) with (p_x q 0%nat). destruct (Qltb (p_x q 0%nat) lb || Qltb rb (p_x q 0%nat)) eqn:E; cbn [snd].
  - split; [intros c; reflexivity|]. split; [|intros X; elim X; now apply zone_spec]. intros _ c. cbn. split; [reflexivity|]. unfold vzero. ring.
  - split; [intros c; reflexivity|]. split; [intros X; apply zone_spec in X; change (Qltb (p_x q 0%nat) lb || Qltb rb (p_x q 0%nat) = true) in X; congruence|]. intros _ c. split; reflexivity.
Qed.
Print Assumptions C70_wind_step.
Theorem C70_stream_step dims lb rb vel k p dt g :
  let p0 := snd (step dims dt g ([], p)) in let p' := snd (step dims dt g ([ST lb rb vel k], p)) in
  (forall c, p_x p' c == p_x p0 c) /\
  (end_zone lb rb (p_x p0 0%nat) -> forall c, p_f p' c == 0 /\ p_v p' c == (if (c =? 0)%nat then vel else 0) + (1#20) * k * p_im p * g c) /\
  (~ end_zone lb rb (p_x p0 0%nat) -> forall c, p_f p' c == g c /\ p_v p' c == p_v p0 c).
Proof.
  cbv zeta. unfold step. cbn [pre_all pre_forces post_all post_forces]. set (q := set_f g (drift dt (half_kick dt p))).
  change (p_x (half_kick dt (snd ([] : list modif, q))) 0%nat) with (p_x q 0%nat). destruct (Qltb (p_x q 0%nat) lb || Qltb rb (p_x q 0%nat)) eqn:E; cbn [snd].
  - split; [intros c; reflexivity|]. split; [|intros X; elim X; now apply zone_spec]. intros _ c. cbn. split; [reflexivity|]. unfold vzero. ring.
  - split; [intros c; reflexivity|]. split; [intros X; apply zone_spec in X; change (Qltb (p_x q 0%nat) lb || Qltb rb (p_x q 0%nat) = true) in X; congruence|]. intros _ c. split; reflexivity.
Qed.
Print Assumptions C70_stream_step.
(* Without forces a particle that is driven in an end zone moves uniformly with the tunnel for as long as it stays in the zone. *)
Theorem C70_uniform_partial dims lb rb vel k p steps : (forall c, p_v p c == (if (c =? 0)%nat then vel else 0) /\ p_f p c == 0) -> (forall s, In s steps -> forall c, snd s c == 0) ->
  (forall a b, a ++ b = steps -> a <> [] -> end_zone lb rb (p_x p 0%nat + vel * elapsed a)) ->
  let p' := snd (run dims steps ([WT lb rb vel k], p)) in
  p_x p' 0%nat == p_x p 0%nat + vel * elapsed steps /\ forall c, (0 < c)%nat -> p_x p' c == p_x p c.
Proof.
  intros Hp Hg Hz. cbv zeta.
  assert (G : forall c, p_x (snd (run dims steps ([WT lb rb vel k], p))) c == p_x p c + (if (c =? 0)%nat then vel else 0) * elapsed steps).
  { revert p Hp Hg Hz. induction steps as [|[dt g] steps IH]; intros p Hp Hg Hz c; [cbn; ring|]. cbn [run fold_left fst snd]. change (fold_left (fun s a => step dims (fst a) (snd a) s) steps) with (run dims steps).
    destruct (C70_wind_step dims lb rb vel k p dt g) as (A & B & _). cbn zeta in A, B.
    assert (Hg0 := Hg (dt, g) (or_introl eq_refl)). cbn in Hg0.
    assert (X0 : forall c, p_x (snd (step dims dt g ([], p))) c == p_x p c + (if (c =? 0)%nat then vel else 0) * dt).
    { intros d. cbn. destruct (Hp d) as [-> ->]. ring. }
    assert (Z1 : end_zone lb rb (p_x (snd (step dims dt g ([], p))) 0%nat)).
    { specialize (Hz [(dt, g)] steps eq_refl ltac:(discriminate)). unfold end_zone in *. rewrite (X0 0%nat). cbn in Hz |- *. destruct Hz; [left|right]; lra. }
    specialize (B Z1). assert (E : exists p1, step dims dt g ([WT lb rb vel k], p) = ([WT lb rb vel k], p1)) by (unfold step; cbn [pre_all pre_forces post_all post_forces]; eexists; reflexivity).
    destruct E as [p1 E]. rewrite E in *. cbn [snd] in A, B. assert (X1 : forall c, p_x p1 c == p_x p c + (if (c =? 0)%nat then vel else 0) * dt) by (intros d; rewrite (A d); apply X0). rewrite (IH p1).
    - rewrite (X1 c). cbn [elapsed fold_right fst]. fold (elapsed steps). ring.
    - intros d. destruct (B d) as [B1 B2]. split; [rewrite B2, (Hg0 d); ring|exact B1].
    - intros s Hs. apply Hg. now right.
    - intros a b Eab Ha. specialize (Hz ((dt, g) :: a) b). cbn [app] in Hz. rewrite Eab in Hz. specialize (Hz eq_refl ltac:(discriminate)). cbn [elapsed fold_right fst] in Hz. fold (elapsed a) in Hz.
      unfold end_zone in *. rewrite (X1 0%nat). cbn [Nat.eqb]. destruct Hz; [left|right]; lra. }
  split; [apply G|]. intros c Hc. rewrite (G c). destruct c; [lia|]. cbn [Nat.eqb]. ring.
Qed.
Print Assumptions C70_uniform_partial.
Example C70_uniform_case : let p := mkPt (two 0 3) (two 1 0) (two 0 0) (1#2) in let steps := [(1#2, two 0 0); (1, two 0 0)] in
  (forall a b, a ++ b = steps -> a <> [] -> end_zone 2 18 (p_x p 0%nat + 1 * elapsed a)) /\ wind_tunnel 0 20 1 (1#100) = WT (20#10) (180#10) 1 (1#100) /\
  p_x (snd (run 2 steps ([WT 2 18 1 (1#100)], p))) 0%nat == 3#2.
Proof.
  split.
  - intros a b E Ha. destruct a as [|a1 [|a2 [|a3 a]]]; [now elim Ha|injection E as -> _; left; vm_compute; reflexivity|injection E as -> -> _; left; vm_compute; reflexivity|].
    apply (f_equal (@length _)) in E. cbn in E. rewrite app_length in E. lia.
  - split; [vm_compute; reflexivity|vm_compute; reflexivity].
Qed.
(* Immovable particles (walls) in an end zone are carried along by both tunnels. *)
Theorem C70_immovable_refuted dims lb rb vel k p dt1 dt2 g : p_im p == 0 -> (forall c, p_v p c == 0) -> (forall c, g c == 0) -> end_zone lb rb (p_x p 0%nat) ->
  p_x (snd (run dims [(dt1, g); (dt2, g)] ([WT lb rb vel k], p))) 0%nat == p_x p 0%nat + vel * dt2 /\
  p_x (snd (run dims [(dt1, g); (dt2, g)] ([ST lb rb vel k], p))) 0%nat == p_x p 0%nat + vel * dt2.
Proof.
  intros Hm Hv Hg Hz.
  assert (X0 : p_x (snd (step dims dt1 g ([], p))) 0%nat == p_x p 0%nat) by (cbn; rewrite (Hv 0%nat), Hm; ring).
  assert (Z0 : end_zone lb rb (p_x (snd (step dims dt1 g ([], p))) 0%nat)) by (unfold end_zone in *; rewrite X0; exact Hz).
  split; cbn [run fold_left fst snd].
  - destruct (C70_wind_step dims lb rb vel k p dt1 g) as (A & B & _). cbn zeta in A, B. specialize (B Z0).
    assert (E : exists p1, step dims dt1 g ([WT lb rb vel k], p) = ([WT lb rb vel k], p1)) by (unfold step; cbn [pre_all pre_forces post_all post_forces]; eexists; reflexivity). destruct E as [p1 E]. rewrite E in *. cbn [snd] in A, B.
    destruct (C70_wind_step dims lb rb vel k p1 dt2 g) as (A1 & _). cbn zeta in A1. rewrite (A1 0%nat). cbn. destruct (B 0%nat) as [B1 B2]. rewrite B1, B2, (A 0%nat), X0, (Hg 0%nat). cbn. ring.
  - destruct (C70_stream_step dims lb rb vel k p dt1 g) as (A & B & _). cbn zeta in A, B. specialize (B Z0).
    assert (E : exists p1, step dims dt1 g ([ST lb rb vel k], p) = ([ST lb rb vel k], p1)) by (unfold step; cbn [pre_all pre_forces post_all post_forces]; eexists; reflexivity). destruct E as [p1 E]. rewrite E in *. cbn [snd] in A, B.
    destruct (C70_stream_step dims lb rb vel k p1 dt2 g) as (A1 & _). cbn zeta in A1. rewrite (A1 0%nat). cbn. destruct (B 0%nat) as [B1 B2]. rewrite B1, B2, (A 0%nat), X0, (Hg 0%nat). cbn. ring.
Qed.
Print Assumptions C70_immovable_refuted.

(* ---------- C73. Two walls: dx is the distance from A to B (after the minimum image), the acceleration of A is along x, that of B the opposite. *)
Theorem C73_two_walls maxd mind acc dx : 0 < acc -> mind <= maxd \/ maxd <= 0 ->
  let a := two_wall maxd mind acc dx in
  (0 < maxd -> maxd < Qabs dx -> (0 < dx -> a == acc * (dx - maxd) /\ 0 < a) /\ (dx < 0 -> a == - (acc * (- dx - maxd)) /\ a < 0)) /\
  (0 < mind -> Qabs dx < mind -> (0 < dx -> a == - (acc * (mind - dx)) /\ a < 0) /\ (dx < 0 -> a == acc * (mind + dx) /\ 0 < a)) /\
  ((maxd <= 0 \/ Qabs dx <= maxd) -> (mind <= 0 \/ mind <= Qabs dx) -> a == 0).
Proof.
  intros Hacc Hord. cbv zeta. unfold two_wall.
  assert (AB : (0 <= dx /\ Qabs dx == dx) \/ (dx < 0 /\ Qabs dx == - dx)).
  { destruct (Qlt_le_dec dx 0) as [H|H]; [right; split; [exact H|apply Qabs_neg; lra]|left; split; [exact H|now apply Qabs_pos]]. }
  destruct (Qltb_spec 0 maxd), (Qltb_spec maxd (Qabs dx)), (Qltb_spec 0 mind), (Qltb_spec (Qabs dx) mind), (Qltb_spec dx 0); cbn [andb];
    (split; [intros C1 C2; split; intros C3; try (exfalso; lra); split; destruct AB as [[B1 B2]|[B1 B2]]; try (exfalso; lra); rewrite ?B2 in *; try ring; try lra; try nra|
     split; [intros C1 C2; split; intros C3; try (exfalso; lra); split; destruct AB as [[B1 B2]|[B1 B2]]; try (exfalso; lra); rewrite ?B2 in *; try ring; try lra; try nra|
     intros C1 C2; destruct AB as [[B1 B2]|[B1 B2]]; rewrite ?B2 in *; try (exfalso; lra); try ring; try lra]]).
Qed.
Print Assumptions C73_two_walls.
Example C73_two_walls_case : two_wall 10 2 50 12 == 100 /\ two_wall 10 2 50 (-1) == 50 /\ two_wall 10 2 50 5 == 0.
Proof. vm_compute. repeat split. Qed.
(* The forces on the walls cancel if both have the same number of equal members; otherwise they do not. *)
Theorem C73_momentum_partial a im n m : n = m -> added_force a (repeat im n) + added_force (- a) (repeat im m) == 0.
Proof.
  intros <-. unfold added_force. assert (G : forall n s t, s + t == 0 -> fold_left (fun s i => if Qltb 0 i then s + a * (1 / i) else s) (repeat im n) s + fold_left (fun s i => if Qltb 0 i then s + - a * (1 / i) else s) (repeat im n) t == 0).
  { clear. induction n as [|n IH]; intros s t H; [exact H|]. cbn [repeat fold_left]. apply IH. destruct (Qltb 0 im); [|exact H]. setoid_replace (s + a * (1 / im) + (t + - a * (1 / im))) with (s + t) by ring. exact H. }
  apply G. reflexivity.
Qed.
Print Assumptions C73_momentum_partial.
(* In general each wall gets the force mass times acceleration, immovable members apart, and the net force is the difference. *)
Theorem C73_net_force a l1 l2 : added_force a l1 == a * movable_mass l1 /\ added_force a l1 + added_force (- a) l2 == a * (movable_mass l1 - movable_mass l2).
Proof.
  assert (G : forall b l s, fold_left (fun s im => if Qltb 0 im then s + b * (1 / im) else s) l s == s + b * movable_mass l).
  { intros b. induction l as [|im l IH]; intros s; cbn [fold_left movable_mass]; [ring|]. rewrite IH. destruct (Qltb_spec 0 im), (Qlt_le_dec 0 im); try (exfalso; lra); ring. }
  unfold added_force. rewrite !G. split; ring.
Qed.
Print Assumptions C73_net_force.
Example C73_net_force_case : added_force 2 [1#2; 0; 1#3] == 10.
Proof. vm_compute. reflexivity. Qed.
Theorem C73_momentum_refuted : added_force 1 [1#2; 1#2] + added_force (-1) [1#2] == 2.
Proof. vm_compute. reflexivity. Qed.
Print Assumptions C73_momentum_refuted.
