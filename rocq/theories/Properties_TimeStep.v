(* C33 (the adaptive time step), C60 (processors agree on it), C61 (a fixed time step). *)
From Coq Require Import Reals List Bool Arith ZArith Lia Lra.
From Verif Require Import Model_Forces Spec_Forces Model_Integrators Spec_Integrators Proofs_Forces Proofs_Forces2 Proofs_Integrators Proofs_Integrators2.
Import ListNotations.
Local Open Scope R_scope.

Definition inside (J : integ) : Prop := i_min J <= i_dt J <= i_max J.
Lemma clamp_in lo hi d : lo <= hi -> lo <= (if Rlt_dec hi d then hi else if Rlt_dec d lo then lo else d) <= hi.
Proof. intros H. destruct (Rlt_dec hi d); [lra|]. destruct (Rlt_dec d lo); lra. Qed.
Lemma fdiv_pos a b : 0 < a -> fdiv a b <> NaN.
Proof. intros H. unfold fdiv. destruct (Req_EM_T b 0); [|discriminate]. destruct (Rlt_dec 0 a); [discriminate|lra]. Qed.
Lemma fmin_ok a b : a <> NaN -> b <> NaN -> fmin a b <> NaN.
Proof. destruct a, b; cbn; intros; try discriminate; try contradiction. destruct (Rlt_dec _ _); discriminate. Qed.
(* One step: what can come out *)
Lemma pre_step_cases p v a J : (i_usev J = true -> 0 < i_len J) -> (i_usea J = true -> 0 < i_len J) -> i_min J <= i_max J ->
  exists d c, (pre_step p v a J = Idle (set_dt (i_dt J) c J) /\ d = i_dt J) \/ (pre_step p v a J = Asks (set_dt d c J) /\ i_min J <= d <= i_max J).
Proof.
  intros HV HA HM. unfold pre_step. destruct (negb (i_adjust J) || negb p).
  { exists (i_dt J), (i_count J). left. destruct J; split; reflexivity. }
  destruct (i_count J <? i_delay J)%nat; [do 2 eexists; left; split; reflexivity|].
  destruct (if Req_EM_T _ 0 then _ else _); [do 2 eexists; left; split; reflexivity|].
  set (dv := if i_usev J then _ else _). set (da := if i_usea J then _ else _).
  assert (NV : dv <> NaN) by (unfold dv; destruct (i_usev J); [apply fdiv_pos; auto|discriminate]).
  assert (NA : da <> NaN). { unfold da. destruct (i_usea J); [|discriminate]. apply fdiv_pos. assert (0 < sqrt (i_len J)) by (apply sqrt_lt_R0; auto). lra. }
  destruct (fmin dv da) as [c| |] eqn:E; [| |now apply fmin_ok in E].
  - do 2 eexists. right. split; [reflexivity|]. now apply clamp_in.
  - do 2 eexists. right. split; [reflexivity|]. lra.
Qed.
Lemma set_dt_len d c J : i_len (set_dt d c J) = i_len J /\ i_min (set_dt d c J) = i_min J /\ i_max (set_dt d c J) = i_max J /\ i_dt (set_dt d c J) = d /\ i_count (set_dt d c J) = c.
Proof. repeat split. Qed.

(* ------------------------------------------------------------------ C33 *)
(* After the start of a run with an adaptive time step, whatever velocities and accelerations are seen, the time step is defined
   and in range after every step. len: the mean radius. *)
Theorem C33_in_range : forall ms J len, i_adjust J = true -> i_min J <= i_max J -> 0 < len ->
  exists J', alone ms (pre_integrate len J) = Some J' /\ i_min J <= i_dt J' <= i_max J.
Proof.
  intros ms J len HA HM HL. assert (G : forall ms K, i_min K <= i_max K -> 0 < i_len K -> inside K -> exists K', alone ms K = Some K' /\ i_min K <= i_dt K' <= i_max K).
  { clear. induction ms as [|[v a] ms IH]; intros K HM HL HI; cbn [alone]; [exists K; auto|].
    destruct (pre_step_cases true v a K) as (d & c & H); [auto|auto|exact HM|].
    assert (exists K1, single_step (pre_step true v a K) = Some K1 /\ K1 = set_dt d c K /\ i_min K <= d <= i_max K) as (K1 & -> & -> & Hd).
    { destruct H as [[-> ->]|[-> Hd]]; eexists; (split; [reflexivity|]); (split; [reflexivity|]); [exact HI|exact Hd]. }
    destruct (IH (set_dt d c K)) as (K' & E & R); [exact HM|exact HL|exact Hd|]. exists K'. split; [exact E|exact R]. }
  destruct (G ms (pre_integrate len J)) as (J' & E & R); [exact HM|exact HL|unfold inside, pre_integrate; cbn; rewrite HA; lra|]. exists J'. split; [exact E|exact R].
Qed.
Print Assumptions C33_in_range.
(* The pace: with the target c = len / (maxv * target steps), a time step above c drops to c at once and one below c goes up by a
   tenth of the gap. *)
Theorem C33_pace : forall v a J, i_adjust J = true -> i_usev J = true -> i_usea J = false -> (i_delay J <= i_count J)%nat -> 0 < v -> (0 < i_target J)%nat ->
  let c := i_len J / (v * INR (i_target J)) in c <= 1 -> i_min J <= c <= i_max J -> i_min J <= i_dt J <= i_max J ->
  exists J', single_step (pre_step true v a J) = Some J' /\ i_count J' = 0%nat /\ (c < i_dt J -> i_dt J' = c) /\ (i_dt J <= c -> i_dt J' = i_dt J + (c - i_dt J) / 10).
Proof.
  intros v a J HA HV HU HC Hv Ht c Hc Hr Hd. unfold pre_step. rewrite HA, HV, HU. cbn [negb orb]. destruct (Nat.ltb_spec (i_count J) (i_delay J)); [lia|].
  destruct (Req_EM_T v 0); [lra|]. unfold fdiv. assert (0 < INR (i_target J)) by (apply lt_0_INR; exact Ht). destruct (Req_EM_T (v * INR (i_target J)) 0) as [Z|NZ]; [exfalso; assert (0 < v * INR (i_target J)) by (apply Rmult_lt_0_compat; lra); lra|].
  cbn [fmin]. fold c.
  assert (G : single_step (Asks (set_dt (if Rlt_dec (i_max J) (if Rlt_dec c (i_dt J) then c else 9 / 10 * i_dt J + 1 / 10 * c) then i_max J else if Rlt_dec (if Rlt_dec c (i_dt J) then c else 9 / 10 * i_dt J + 1 / 10 * c) (i_min J) then i_min J else if Rlt_dec c (i_dt J) then c else 9 / 10 * i_dt J + 1 / 10 * c) 0 J)) =
    Some (set_dt (if Rlt_dec c (i_dt J) then c else i_dt J + (c - i_dt J) / 10) 0 J)).
  { cbn [single_step]. do 2 f_equal. destruct (Rlt_dec c (i_dt J)); (destruct (Rlt_dec (i_max J) _); [lra|]); (destruct (Rlt_dec _ (i_min J)); [lra|]); [reflexivity|lra]. }
  assert (E : (if Rlt_dec 1 c then Fin 1 else Fin c) = Fin c) by (destruct (Rlt_dec 1 c); [lra|reflexivity]). rewrite E. eexists. split; [exact G|]. split; [reflexivity|]. cbn [i_dt set_dt].
  destruct (Rlt_dec c (i_dt J)); split; intros; try lra; reflexivity.
Qed.
Print Assumptions C33_pace.
Example C33_case : let J := pre_integrate 1 new_integ in i_adjust J = true /\ i_usev J = true /\ i_usea J = false /\ (i_delay J <= i_count J)%nat /\ i_min J <= i_len J / (50 * INR (i_target J)) <= i_max J.
Proof. cbn. repeat split; try lia; try lra. Qed.
(* The velocity used is at least the speed of each particle, in all builds. *)
Lemma max_list_ge l a : In a l -> a <= max_list l.
Proof.
  unfold max_list. assert (G : forall l x, x <= fold_left Rmax l x /\ (In a l -> a <= fold_left Rmax l x)).
  { induction l0 as [|b l0 IH]; intros x; cbn; [split; [lra|tauto]|]. destruct (IH (Rmax x b)) as [A B]. split; [eapply Rle_trans; [apply Rmax_l|exact A]|]. intros [->|H]; [eapply Rle_trans; [apply Rmax_r|exact A]|auto]. }
  apply G.
Qed.
Lemma max_list_nonneg l : 0 <= max_list l.
Proof. unfold max_list. assert (G : forall l x, x <= fold_left Rmax l x). { induction l0 as [|b l0 IH]; intros x; cbn; [lra|]. eapply Rle_trans; [apply Rmax_l|apply IH]. } apply G. Qed.
Lemma sum_to_le n g h : (forall i, (i < n)%nat -> g i <= h i) -> sum_to n g <= sum_to n h.
Proof. induction n; cbn; intros H; [lra|]. assert (A := IHn (fun i Hi => H i (Nat.lt_lt_succ_r _ _ Hi))). assert (B := H n ltac:(lia)). lra. Qed.
Lemma sum_to_const n c : sum_to n (fun _ => c) = INR n * c.
Proof. induction n; cbn [sum_to]; [cbn; ring|]. rewrite IHn, S_INR. ring. Qed.
Theorem C33_max_velocity : forall s dims n v i, (i < n)%nat -> sqrt (sum_to dims (fun d => comp dims v i d * comp dims v i d)) <= get_max_velocity s dims n v.
Proof.
  intros s dims n v i Hi. assert (HD : forall m x, dot m x x = sum_to m (fun d => x d * x d)) by (induction m; intros; cbn; [reflexivity|rewrite IHm; ring]).
  assert (G : sqrt (sum_to dims (fun d => comp dims v i d * comp dims v i d)) <= max_list (map (fun k => Rabs (nth k v 0)) (seq 0 (n * dims))) * sqrt (INR dims)).
  { set (M := max_list _). assert (HM : 0 <= M) by apply max_list_nonneg. replace (M * sqrt (INR dims)) with (sqrt (M * M * INR dims)).
    - apply sqrt_le_1_alt. rewrite Rmult_comm, <- sum_to_const. apply sum_to_le. intros d Hd.
      assert (A : Rabs (comp dims v i d) <= M) by (apply max_list_ge, in_map_iff; exists (i * dims + d)%nat; split; [reflexivity|apply in_seq; assert (B := idx_lt n dims i d Hi Hd); lia]).
      assert (B := Rabs_pos (comp dims v i d)). replace (comp dims v i d * comp dims v i d) with (Rabs (comp dims v i d) * Rabs (comp dims v i d)) by (rewrite <- Rabs_mult; apply Rabs_right; assert (C := Rle_0_sqr (comp dims v i d)); unfold Rsqr in C; lra). nra.
    - rewrite sqrt_mult_alt by nra. now rewrite sqrt_square. }
  destruct s; [|exact G..]. cbn [get_max_velocity]. apply max_list_ge, in_map_iff. exists i. split; [|apply in_seq; lia]. now rewrite HD.
Qed.
Print Assumptions C33_max_velocity.
(* C33 fails: particles at rest are not detected; with the default settings the time step jumps from the minimum to the maximum at
   the first step ... *)
Theorem C33_at_rest_refuted : forall len, 0 < len -> let J := pre_integrate len new_integ in
  i_dt J = 1 / 1000000 /\ exists J', single_step (pre_step true 0 0 J) = Some J' /\ i_dt J' = 2 / 1000.
Proof.
  intros len HL J. split; [reflexivity|]. unfold pre_step. cbn [i_adjust J pre_integrate new_integ negb orb i_count i_delay Nat.ltb Nat.leb i_usev i_usea i_len i_target i_dt i_min i_max].
  destruct (Req_EM_T 0 0); [|lra]. destruct (Req_EM_T (-1) 0); [lra|]. unfold fdiv. destruct (Req_EM_T _ 0); [|exfalso; lra]. destruct (Rlt_dec 0 len); [|lra]. cbn [fmin].
  eexists. split; [reflexivity|]. cbn [i_dt set_dt]. destruct (Rlt_dec 1 _); [lra|]. destruct (Rlt_dec _ _); lra.
Qed.
Print Assumptions C33_at_rest_refuted.
(* ... a maximum lowered while running is not obeyed until the next check, ten steps later ... *)
Theorem C33_lowered_maximum_refuted : forall v a t, 0 < t < 1 / 10000 ->
  exists J', single_step (pre_step true v a (setMaxDT t new_integ)) = Some J' /\ i_max J' = t /\ t < i_dt J'.
Proof.
  intros v a t Ht. unfold setMaxDT. destruct (Rlt_dec 0 t); [|lra]. cbn. eexists. split; [reflexivity|]. cbn. lra.
Qed.
Print Assumptions C33_lowered_maximum_refuted.
(* ... and particles of radius 0 at rest give a NaN. *)
Theorem C33_radius_zero_refuted : alone [(0, 0)] (pre_integrate 0 new_integ) = None.
Proof.
  cbn [alone]. unfold pre_step. cbn [i_adjust pre_integrate new_integ negb orb i_count i_delay Nat.ltb Nat.leb i_usev i_usea i_len i_target i_dt i_min i_max].
  destruct (Req_EM_T 0 0); [|lra]. destruct (Req_EM_T (-1) 0); [lra|]. unfold fdiv. destruct (Req_EM_T _ 0); [|exfalso; lra]. destruct (Rlt_dec 0 0); [lra|]. reflexivity.
Qed.
Print Assumptions C33_radius_zero_refuted.
(* The overdamped integrator: in range, too. *)
Theorem C33_overdamped : forall damping maxa last J, 0 < i_len J -> i_min J <= i_max J -> i_min J <= i_dt J <= i_max J ->
  exists J', single_step (overdamped_dt damping maxa last J) = Some J' /\ i_min J <= i_dt J' <= i_max J.
Proof.
  intros damping maxa last J HL HM HI.
  assert (G : forall c, exists J', single_step (count_of (calculate_time_step damping maxa J) c) = Some J' /\ i_min J <= i_dt J' <= i_max J).
  { intros c. unfold calculate_time_step. destruct (Req_EM_T maxa 0); [eexists; split; [reflexivity|exact HI]|].
    destruct (fdiv _ _) as [d| |] eqn:E; [| |now apply fdiv_pos in E].
    - eexists. split; [reflexivity|]. cbn [i_dt set_dt]. now apply clamp_in.
    - eexists. split; [reflexivity|]. cbn. lra. }
  unfold overdamped_dt. destruct (i_adjust J && _); [apply G|]. destruct (Req_EM_T last 0); [apply G|]. eexists. split; [reflexivity|exact HI].
Qed.
Print Assumptions C33_overdamped.

(* ------------------------------------------------------------------ C60 *)
(* Processors that start with the same settings, time step and counter, using velocities only (the default): no processor waits
   for another forever, and they always use the same time step, which is in range; whatever each of them sees, for any number of steps. *)
Lemma agree_head J Js K : agree (J :: Js) -> In K (J :: Js) -> same_settings K J /\ i_dt K = i_dt J /\ i_count K = i_count J.
Proof. intros H HK. destruct (H K J HK (or_introl eq_refl)) as (A & B & C). auto. Qed.
Lemma min_list_in : forall l a, (In (fold_left Rmin l a) (a :: l)).
Proof. induction l as [|b l IH]; intros a; cbn [fold_left]; [now left|]. destruct (IH (Rmin a b)) as [H|H]; [rewrite <- H; unfold Rmin; destruct (Rle_dec a b); [now left|right; now left]|right; now right]. Qed.
Theorem C60_agree_partial : forall ms Js, agree Js -> Js <> [] -> (forall J, In J Js -> i_adjust J = true /\ i_usev J = true /\ i_usea J = false /\ i_min J <= i_max J /\ 0 < i_len J /\ i_min J <= i_dt J <= i_max J) ->
  Forall (fun m => length m = length Js) ms ->
  exists Js', together ms Js = Some Js' /\ length Js' = length Js /\ agree Js' /\ forall J J', In J Js -> In J' Js' -> i_min J <= i_dt J' <= i_max J.
Proof.
  induction ms as [|m ms IH]; intros Js HA HN HC HF; cbn [together].
  - exists Js. split; [reflexivity|]. split; [reflexivity|]. split; [exact HA|]. intros J J' HJ HJ'. destruct (HA J J' HJ HJ') as ((_ & E1 & E2 & _) & E & _). destruct (HC J HJ) as (_ & _ & _ & _ & _ & R). lra.
  - inversion HF as [|? ? HL HF']; subst. set (os := map _ _).
    (* either all idle or all ask, with the same next counter *)
    assert (ST : exists c Ks, (sync_step os = Some Ks) /\ length Ks = length Js /\ exists d, (forall J, In J Js -> i_min J <= d <= i_max J) /\ Forall2 (fun K J => K = set_dt d c J) Ks Js).
    { destruct Js as [|J0 Js0]; [contradiction|]. assert (H0 := HC J0 (or_introl eq_refl)).
      destruct (Nat.lt_ge_cases (i_count J0) (i_delay J0)) as [Lt|Ge].
      - (* idle *) exists (S (i_count J0)), (map (fun J => set_dt (i_dt J0) (S (i_count J0)) J) (J0 :: Js0)).
        assert (E : none_ask os = Some (map (fun J => set_dt (i_dt J0) (S (i_count J0)) J) (J0 :: Js0))).
        { unfold os. clear os HF HF' IH. revert m HL. assert (HA' : forall K, In K (J0 :: Js0) -> same_settings K J0 /\ i_dt K = i_dt J0 /\ i_count K = i_count J0) by (intros; now apply (agree_head J0 Js0)).
          generalize dependent (J0 :: Js0). intros Js _ _ HC HA'. induction Js as [|J Js IH]; intros [|[v a] m] HL; cbn in HL; try lia; [reflexivity|]. cbn [combine map none_ask fst snd].
          destruct (HC J (or_introl eq_refl)) as (A1 & A2 & A3 & _). destruct (HA' J (or_introl eq_refl)) as ((_ & _ & _ & _ & ED & _) & Ed & Ec). unfold pre_step. rewrite A1. cbn [negb orb].
          destruct (Nat.ltb_spec (i_count J) (i_delay J)); [|lia]. rewrite Ed, Ec. cbn [map]. rewrite IH; [reflexivity|intros; apply HC; now right|intros; apply HA'; now right|lia]. }
        split; [unfold sync_step; now rewrite E|]. split; [now rewrite map_length|]. exists (i_dt J0). split.
        + intros J HJ. destruct (agree_head J0 Js0 J HA HJ) as (_ & E1 & _). destruct (HC J HJ) as (_ & _ & _ & _ & _ & R). lra.
        + clear. generalize (J0 :: Js0). induction l; constructor; auto.
      - (* all ask *)
        assert (E : exists Ks, all_ask os = Some Ks /\ Forall2 (fun K J => exists d, K = set_dt d 0 J /\ i_min J <= d <= i_max J) Ks (J0 :: Js0)).
        { unfold os. clear os HF HF' IH. revert m HL. assert (HA' : forall K, In K (J0 :: Js0) -> same_settings K J0 /\ i_dt K = i_dt J0 /\ i_count K = i_count J0) by (intros; now apply (agree_head J0 Js0)).
          generalize dependent (J0 :: Js0). intros Js _ _ HC HA'. induction Js as [|J Js IH]; intros [|[v a] m] HL; cbn in HL; try lia; [exists []; split; [reflexivity|constructor]|]. cbn [combine map all_ask fst snd].
          destruct (HC J (or_introl eq_refl)) as (A1 & A2 & A3 & A4 & A5 & A6). destruct (HA' J (or_introl eq_refl)) as ((_ & _ & _ & _ & ED & _) & Ed & Ec).
          destruct (IH (fun K HK => HC K (or_intror HK)) (fun K HK => HA' K (or_intror HK)) m) as (Ks & -> & F2); [lia|].
          assert (exists d, pre_step true v a J = Asks (set_dt d 0 J) /\ i_min J <= d <= i_max J) as (d & -> & Hd).
          { unfold pre_step. rewrite A1, A2, A3. cbn [negb orb]. destruct (Nat.ltb_spec (i_count J) (i_delay J)); [lia|]. destruct (Req_EM_T (-1) 0); [lra|]. destruct (Req_EM_T v 0);
              (destruct (fmin _ _) as [c| |] eqn:E; [eexists; split; [reflexivity|now apply clamp_in]|eexists; split; [reflexivity|lra]|apply fmin_ok in E; [contradiction|now apply fdiv_pos|discriminate]]). }
          eexists. split; [reflexivity|]. constructor; [eauto|exact F2]. }
        destruct E as (Ks & EA & F2). assert (EN : none_ask os = None). { destruct os as [|o os']; [inversion F2; subst; cbn in EA; discriminate|]. destruct o; cbn in EA; [discriminate|reflexivity|discriminate]. }
        exists 0%nat. eexists. split; [unfold sync_step; rewrite EN, EA; reflexivity|]. assert (LK : length Ks = length (J0 :: Js0)) by (clear -F2; induction F2; cbn; auto).
        split; [now rewrite map_length|]. exists (min_list (map i_dt Ks)). split.
        + intros J HJ. assert (HIn : In (min_list (map i_dt Ks)) (map i_dt Ks)). { destruct Ks as [|K Ks]; [inversion F2|]. cbn [map min_list]. apply min_list_in. }
          apply in_map_iff in HIn. destruct HIn as (K & <- & HK). assert (exists J1, In J1 (J0 :: Js0) /\ i_min J1 <= i_dt K <= i_max J1) as (J1 & HJ1 & R).
          { clear -F2 HK. induction F2 as [|K1 J1 Ks1 Js1 (d & -> & Hd) F2' IH']; [destruct HK|]. destruct HK as [<-|HK]; [exists J1; split; [now left|exact Hd]|]. destruct (IH' HK) as (J2 & A & B). exists J2. split; [now right|exact B]. }
          destruct (HA J J1 HJ HJ1) as ((_ & E1 & E2 & _) & _). lra.
        + assert (G : forall q, Forall2 (fun K J => K = set_dt q 0 J) (map (fun J => set_dt q (i_count J) J) Ks) (J0 :: Js0)); [|apply G].
          intros q. clear -F2. induction F2 as [|K J Ks Js (d & -> & _) F2 IH]; cbn; constructor; [reflexivity|exact IH]. }
    destruct ST as (c & Ks & -> & LK & d & Hd & F2).
    assert (INK : forall K, In K Ks -> exists J, In J Js /\ K = set_dt d c J). { clear -F2. induction F2 as [|K J Ks Js -> F2 IH]; intros K' H; [destruct H|]. destruct H as [<-|H]; [exists J; split; [now left|reflexivity]|]. destruct (IH K' H) as (J' & A & B). exists J'. split; [now right|exact B]. }
    destruct (IH Ks) as (Js' & E & L & A & R).
    + intros K1 K2 H1 H2. destruct (INK _ H1) as (J1 & I1 & ->). destruct (INK _ H2) as (J2 & I2 & ->). destruct (HA J1 J2 I1 I2) as (A & _). split; [exact A|split; reflexivity].
    + intros ->. destruct Js; [contradiction|discriminate].
    + intros K HK. destruct (INK _ HK) as (J & HJ & ->). destruct (HC J HJ) as (B1 & B2 & B3 & B4 & B5 & _). cbn. repeat split; auto; apply Hd; exact HJ.
    + rewrite LK. exact HF'.
    + exists Js'. split; [exact E|]. split; [congruence|]. split; [exact A|]. intros J J' HJ HJ'.
      assert (exists K, In K Ks /\ i_min K = i_min J /\ i_max K = i_max J) as (K & HK & E1 & E2).
      { clear -F2 HJ. induction F2 as [|K J1 Ks Js -> F2 IH]; [destruct HJ|]. destruct HJ as [<-|HJ]; [eexists; split; [now left|split; reflexivity]|]. destruct (IH HJ) as (K2 & A & B). exists K2. split; [now right|exact B]. }
      rewrite <- E1, <- E2. now apply R.
Qed.
Print Assumptions C60_agree_partial.
Example C60_case : let Js := [pre_integrate 1 new_integ; pre_integrate 2 new_integ] in
  agree Js /\ (forall J, In J Js -> i_adjust J = true /\ i_usev J = true /\ i_usea J = false /\ i_min J <= i_max J /\ 0 < i_len J /\ i_min J <= i_dt J <= i_max J).
Proof.
  split; [intros J K [<-|[<-|[]]] [<-|[<-|[]]]; repeat split|]. intros J [<-|[<-|[]]]; cbn; repeat split; lra.
Qed.
(* C60 fails if accelerations are used as well: a processor whose particles are at rest and free of forces does not take part in
   the synchronisation, and the others wait for it forever ... *)
Theorem C60_accelerations_refuted : forall len v a, 0 < len -> 0 < v -> 0 < a ->
  let J := pre_integrate len (mkInteg (1 / 10000) true (1 / 1000000) (2 / 1000) 20 10 0 true true (5 / 100)) in
  together [[(v, a); (0, 0)]] [J; J] = None.
Proof.
  intros len v a HL Hv Ha J. cbn [together combine map fst snd]. assert (E0 : exists K, pre_step true 0 0 J = Idle K).
  { unfold pre_step. cbn [i_adjust J pre_integrate negb orb i_count i_delay Nat.ltb Nat.leb i_usev i_usea]. destruct (Req_EM_T 0 0); [|lra]. eexists. reflexivity. }
  assert (E1 : exists K, pre_step true v a J = Asks K).
  { unfold pre_step. cbn [i_adjust J pre_integrate negb orb i_count i_delay Nat.ltb Nat.leb i_usev i_usea i_len i_target i_dt i_min i_max]. destruct (Req_EM_T v 0); [lra|].
    destruct (fmin _ _) as [c| |] eqn:E; [eexists; reflexivity|eexists; reflexivity|]. apply fmin_ok in E; [contradiction|now apply fdiv_pos|]. apply fdiv_pos. assert (0 < sqrt len) by now apply sqrt_lt_R0. lra. }
  destruct E0 as (K0 & ->). destruct E1 as (K1 & ->). reflexivity.
Qed.
Print Assumptions C60_accelerations_refuted.
(* ... and with the overdamped integrator, in its default settings, at the first step. *)
Theorem C60_overdamped_refuted : forall len damping a, 0 < len -> 0 < damping -> 0 < a -> let J := overdamped_pre len new_integ in
  sync_step [overdamped_dt damping a 0 J; overdamped_dt damping 0 0 J] = None.
Proof.
  intros len damping a HL HD Ha J. unfold overdamped_dt. cbn [i_adjust J overdamped_pre set_dt pre_integrate new_integ i_delay i_count Nat.leb andb]. unfold calculate_time_step. destruct (Req_EM_T 0 0); [|lra]. destruct (Req_EM_T a 0); [lra|].
  destruct (fdiv _ _); reflexivity.
Qed.
Print Assumptions C60_overdamped_refuted.

(* ------------------------------------------------------------------ C61 *)
(* A fixed time step: after setAdjustDT(false) and setDT(t), runs use t, whatever is seen. *)
Theorem C61_fixed_partial : forall ms J len t, exists J', alone ms (pre_integrate len (setDT t (setAdjustDT false J))) = Some J' /\ i_dt J' = t.
Proof.
  intros ms J len t. set (K := pre_integrate len _). assert (HK : i_adjust K = false /\ i_dt K = t) by (split; reflexivity). destruct HK as [A D]. clearbody K. revert K A D.
  induction ms as [|[v a] ms IH]; intros K A D; cbn [alone]; [exists K; auto|]. assert (E : pre_step true v a K = Idle K) by (unfold pre_step; rewrite A; reflexivity). rewrite E. cbn [single_step]. now apply IH.
Qed.
Print Assumptions C61_fixed_partial.
(* C61 fails for the overdamped integrator: the time step is set to the minimum when the run starts ... *)
Theorem C61_overdamped_refuted : forall len t J, i_dt (overdamped_pre len (setDT t (setAdjustDT false J))) = i_min J.
Proof. reflexivity. Qed.
Print Assumptions C61_overdamped_refuted.
(* ... and changed afterwards, in the first steps. *)
Theorem C61_overdamped_changes_refuted : exists J', single_step (overdamped_dt (1 / 10) 1 0 (overdamped_pre 1 (setDT (1 / 100) (setAdjustDT false new_integ)))) = Some J' /\ i_dt J' = 2 / 1000.
Proof.
  unfold overdamped_dt. cbn [i_adjust overdamped_pre set_dt setDT pre_integrate setAdjustDT new_integ andb]. destruct (Req_EM_T 0 0); [|lra]. unfold calculate_time_step. destruct (Req_EM_T 1 0); [lra|].
  unfold fdiv. cbn [i_len i_target set_dt overdamped_pre setDT pre_integrate setAdjustDT new_integ i_count i_max i_min]. replace (INR 20) with 20 by (cbn; lra). destruct (Req_EM_T _ 0); [lra|].
  eexists. split; [reflexivity|]. cbn [i_dt set_dt]. destruct (Rlt_dec _ _); [reflexivity|]. exfalso. apply n0. lra.
Qed.
Print Assumptions C61_overdamped_changes_refuted.
