(* The steps of the simulation are those of the velocity-Verlet scheme with the forces of all pairs. *)
From Coq Require Import Reals List Arith Bool Lia Lra ZArith.
From Verif Require Import Model_Forces Spec_Forces Model_Integrators Spec_Integrators Proofs_Integrators Proofs_Integrators2 Model_Trajectory Spec_Trajectory Proofs_Sweep2.
From Verif Require Proofs_Forces Proofs_Sweep1 Spec_Cells Properties_Forces Lib.
Import ListNotations.
Local Open Scope R_scope.

Definition st0 : fstate := mkF (fun _ _ => 0) (fun _ => 0) 0 0.
Definition one_F k c e w (p : nat * nat) a d : R := match do_pair k c e w (fst p) (snd p) st0 with Some s => F s a d | None => 0 end.
Lemma list_sum k c e w : forall L, (forall p, In p L -> do_pair k c e w (fst p) (snd p) st0 <> None) ->
  forall s, exists s', do_list k c e w L s = Some s' /\ forall a d, F s' a d = F s a d + sum_over (fun p => one_F k c e w p a d) L.
Proof.
  induction L as [|[i j] L IH]; intros HN s; cbn [do_list].
  - exists s. split; [reflexivity|]. intros. rewrite sum_nil. ring.
  - assert (P := Proofs_Sweep1.pair_plus k c e w i j s). assert (N := HN (i, j) (or_introl eq_refl)). cbn [fst snd] in N. unfold Proofs_Sweep1.plus in P.
    change Proofs_Sweep1.zero_st with st0 in P. destruct (do_pair k c e w i j st0) as [s0|] eqn:E0; [|congruence]. destruct (do_pair k c e w i j s) as [s1|] eqn:E1; [|destruct P].
    destruct P as [PF _]. destruct (IH (fun q H => HN q (or_intror H)) s1) as (s' & E & EF). exists s'. split; [exact E|].
    intros a d. rewrite EF, PF, sum_cons. unfold one_F at 2. cbn [fst snd]. rewrite E0. ring.
Qed.

Section LAW.
Variables (n : nat) (e : env) (l : law) (it : inter).
Hypothesis HL : lists_right n e l it.
Hypothesis HS : forall i, 0 <= e_sg e i.
Hypothesis HC : 0 <= l_cut l.
Hypothesis HF : forall i j, l_for l i j = l_for l j i.
Hypothesis HB : forall d, e_bc e d = true -> (d < e_dims e)%nat /\ 0 <= e_width e d.
Hypothesis HZ : forall i j, (i < n)%nat -> (j < n)%nat -> i <> j -> 0 < norm (e_dims e) (shift_of e true i j).
Let pr := i_p0 it ++ i_p1 it.

Lemma direct i j : In (i, j) (i_p0 it) -> forall d, shift_of e true i j d = shift_of e false i j d.
Proof.
  intros H d. destruct HL as (_ & _ & _ & _ & _ & D). destruct (lt_dec d (e_dims e)) as [L|L]; [exact (D i j d H L)|].
  unfold shift_of, correction. cbv zeta. destruct (e_bc e d) eqn:B; [|reflexivity]. destruct (HB d B). lia.
Qed.
Lemma defined i j : (i < n)%nat -> (j < n)%nat -> i <> j -> exists s, do_pair (l_kind l) (l_cut l) e true i j st0 = Some s.
Proof.
  intros Hi Hj N. destruct (Properties_Forces.C26_defined (l_kind l) (l_cut l) e [] [(i, j)] st0) as (s & Es).
  - exact HS.
  - intros a c [].
  - intros a c [E|[]]. injection E as <- <-. auto.
  - unfold interact_forces in Es. cbn [do_list F Tq st0] in Es. change (mkF (fun _ _ => 0) (fun _ => 0) 0 0) with st0 in Es. destruct (do_pair _ _ _ _ _ _ _); [eauto|discriminate].
Qed.
Lemma one_force a d i j (w : bool) : In (i, j) pr -> (w = false -> In (i, j) (i_p0 it)) ->
  exists s, do_pair (l_kind l) (l_cut l) e w i j st0 = Some s /\
    F s a d = (if (a =? i)%nat then force_from l e d a j else 0) + (if (a =? j)%nat then force_from l e d a i else 0).
Proof.
  intros Hin Hw. destruct HL as (_ & _ & A & _). destruct (A i j Hin) as (Hi & Hj & N & _). destruct (defined i j Hi Hj N) as (s & Es).
  assert (S : Proofs_Sweep1.same (do_pair (l_kind l) (l_cut l) e w i j st0) (do_pair (l_kind l) (l_cut l) e true i j st0)).
  { destruct w; [rewrite Es; split; reflexivity|]. apply Proofs_Sweep1.pair_direct. apply direct. auto. }
  rewrite Es in S. destruct (do_pair (l_kind l) (l_cut l) e w i j st0) as [s0|]; [|contradiction]. exists s0. split; [reflexivity|]. destruct S as [S _]. rewrite S. unfold force_from. fold st0.
  destruct (Nat.eqb_spec a i) as [Ea|Na].
  - subst a. destruct (Nat.eqb_spec i j); [contradiction|]. rewrite Es. ring.
  - destruct (Nat.eqb_spec a j) as [Eb|Nb].
    + subst a. assert (W := Proofs_Sweep1.pair_swap (l_kind l) (l_cut l) e true i j (fun d H => proj2 (HB d H))). change Proofs_Sweep1.zero_st with st0 in W. rewrite Es in W.
      destruct (do_pair (l_kind l) (l_cut l) e true j i st0) as [s1|]; [|contradiction]. destruct W as [W _]. rewrite W. ring.
    + rewrite (Proofs_Sweep1.pair_others _ _ _ _ _ _ _ a d Es Na Nb). ring.
Qed.
Lemma out_of_range d i j : (i < n)%nat -> (j < n)%nat -> i <> j -> l_for l i j = true -> ~ In (i, j) pr -> ~ In (j, i) pr -> force_from l e d i j = 0.
Proof.
  intros Hi Hj N HFor H1 H2. unfold force_from. fold st0. assert (P := Proofs_Sweep1.pair_far (l_kind l) (l_cut l) e true i j). change Proofs_Sweep1.zero_st with st0 in P.
  rewrite P; [reflexivity|]. intros L. destruct HL as (_ & _ & _ & _ & R & _). destruct (R i j Hi Hj N HFor); [|contradiction|contradiction].
  unfold norm. assert (X := HS i). assert (Y := HS j). set (c := (e_sg e i + e_sg e j) * l_cut l) in *. assert (C0 : 0 <= c) by (apply Rmult_le_pos; lra).
  rewrite <- (sqrt_square c C0). apply sqrt_lt_1_alt. split; [|exact L]. apply Proofs_Forces.dot_nonneg.
Qed.

Let vs : list Model_Cells.visit := map (fun p => (fst p, snd p, 0%Z)) pr.
Lemma vs_nodup : NoDup (map Spec_Cells.upair vs).
Proof.
  unfold vs. rewrite map_map. destruct HL as (_ & _ & A & ND & _). fold pr in A, ND. clearbody pr. clear - A ND. induction ND as [|[i j] L H ND IH]; cbn [map]; [constructor|]. constructor.
  - intros Hin. apply in_map_iff in Hin. destruct Hin as ([i' j'] & E & Hin). cbn [fst snd Spec_Cells.upair] in E. injection E as E1 E2.
    destruct (A i j (or_introl eq_refl)) as (_ & _ & _ & _ & NR). assert (Z : (i' = i /\ j' = j) \/ (i' = j /\ j' = i)) by lia. destruct Z as [[-> ->]|[-> ->]]; [contradiction|]. apply NR. now right.
  - apply IH. intros a b Hab. destruct (A a b (or_intror Hab)) as (A1 & A2 & A3 & A4 & A5). repeat split; auto. intros X. apply A5. now right.
Qed.

Lemma interaction_sum s : exists s', interact_forces (i_kind it) (i_cut it) e (i_p0 it) (i_p1 it) s = Some s' /\
  forall a d, (a < n)%nat -> F s' a d = F s a d + sum_to n (fun j => if negb (j =? a)%nat && l_for l a j then force_from l e d a j else 0).
Proof.
  assert (HL' := HL). destruct HL' as (EK & EC & A & ND & R & D). rewrite EK, EC. fold pr in A. unfold interact_forces.
  destruct (list_sum (l_kind l) (l_cut l) e false (i_p0 it)) with (s := mkF (F s) (Tq s) 0 0) as (s1 & E1 & F1).
  { intros [i j] Hp. cbn [fst snd]. destruct (one_force i 0 i j false) as (x & -> & _); [apply in_app_iff; now left|auto|discriminate]. }
  rewrite E1. destruct (list_sum (l_kind l) (l_cut l) e true (i_p1 it)) with (s := s1) as (s2 & E2 & F2).
  { intros [i j] Hp. cbn [fst snd]. destruct (one_force i 0 i j true) as (x & -> & _); [apply in_app_iff; now right|discriminate|discriminate]. }
  exists s2. split; [exact E2|]. intros a d Ha. rewrite F2, F1. cbn [F]. rewrite Rplus_assoc. f_equal.
  assert (G : forall w L, incl L pr -> (w = false -> incl L (i_p0 it)) -> sum_over (fun p => one_F (l_kind l) (l_cut l) e w p a d) L =
    sum_over (fun p => (if (a =? fst p)%nat then force_from l e d a (snd p) else 0) + (if (a =? snd p)%nat then force_from l e d a (fst p) else 0)) L).
  { intros w L I1 I2. apply sum_ext. intros [i j] Hp. unfold one_F. cbn [fst snd]. destruct (one_force a d i j w (I1 _ Hp) (fun H => I2 H _ Hp)) as (x & -> & X). exact X. }
  rewrite (G false (i_p0 it)); [|intros p Hp; apply in_app_iff; auto|intros _ p Hp; exact Hp]. rewrite (G true (i_p1 it)); [|intros p Hp; apply in_app_iff; auto|discriminate].
  rewrite <- sum_app. fold pr.
  transitivity (sum_to n (fun b => if (b =? a)%nat then 0 else if l_for l a b then force_from l e d a b else 0)).
  2:{ clear. induction n as [|m IH]; cbn [sum_to]; [reflexivity|]. rewrite IH. destruct (m =? a)%nat; reflexivity. }
  rewrite <- (visits_of a n (fun b => if l_for l a b then force_from l e d a b else 0) vs vs_nodup).
  - unfold vs. rewrite sum_map. apply sum_ext. intros [i j] Hp. cbn [fst snd]. destruct (A i j Hp) as (_ & _ & _ & Y & _). assert (Y' := Y). rewrite HF in Y'.
    f_equal; [destruct (Nat.eqb_spec a i) as [E3|]; [rewrite E3, Y; reflexivity|reflexivity]|destruct (Nat.eqb_spec a j) as [E3|]; [rewrite E3, Y'; reflexivity|reflexivity]].
  - intros i j w Hv. unfold vs in Hv. apply in_map_iff in Hv. destruct Hv as ([i' j'] & E & Hp). injection E as <- <- _. cbn [fst snd]. destruct (A i' j' Hp) as (A1 & A2 & A3 & _). auto.
  - intros b Hb Nb NV. destruct (l_for l a b) eqn:Y; [|reflexivity]. apply out_of_range; auto.
    + intros Hp. apply NV. exists 0%Z. left. unfold vs. apply in_map_iff. exists (a, b). auto.
    + intros Hp. apply NV. exists 0%Z. right. unfold vs. apply in_map_iff. exists (b, a). auto.
Qed.
End LAW.

Lemma flat_ext n dims f g : (0 < dims)%nat -> (forall i d, (i < n)%nat -> (d < dims)%nat -> f i d = g i d) -> flat n dims f = flat n dims g.
Proof.
  intros HD H. unfold flat. apply map_ext_in. intros k Hk. apply in_seq in Hk. apply H.
  - apply Nat.div_lt_upper_bound; lia.
  - apply Nat.mod_upper_bound. lia.
Qed.
Lemma flat_of n dims a : (0 < dims)%nat -> length a = (n * dims)%nat -> flat n dims (fun i d => comp dims a i d) = a.
Proof.
  intros HD L. apply (nth_ext _ _ 0 0); [rewrite flat_length; auto|]. intros k Hk. rewrite flat_length in Hk. unfold flat.
  rewrite (nth_indep _ 0 (comp dims a (0 / dims) (0 mod dims))) by (rewrite map_length, seq_length; exact Hk).
  rewrite (map_nth (fun k => comp dims a (k / dims) (k mod dims)) (seq 0 (n * dims)) 0%nat k). rewrite seq_nth by exact Hk. cbn [Nat.add]. unfold comp. f_equal.
  rewrite Nat.mul_comm. symmetry. apply Nat.div_mod. lia.
Qed.
Lemma entries n dims y (f : nat -> nat -> R) : (0 < dims)%nat -> length y = (n * dims)%nat -> (forall i d, (i < n)%nat -> (d < dims)%nat -> comp dims y i d = f i d) -> y = flat n dims f.
Proof. intros HD L H. rewrite <- (flat_of n dims y HD L). apply flat_ext; assumption. Qed.
Lemma place_lt n dims i d : (i < n)%nat -> (d < dims)%nat -> (i * dims + d < n * dims)%nat.
Proof. intros Hi Hd. assert ((i + 1) * dims <= n * dims)%nat by (apply Nat.mul_le_mono_r; lia). lia. Qed.
Lemma place_div dims i d : (d < dims)%nat -> ((i * dims + d) / dims)%nat = i.
Proof. intros Hd. rewrite Nat.div_add_l by lia. rewrite Nat.div_small by exact Hd. lia. Qed.

Lemma field_ok w ls is x v : sound w ls -> Forall2 (lists_right (w_n w) (env_of w x v)) ls is ->
  (forall i j, (i < w_n w)%nat -> (j < w_n w)%nat -> i <> j -> 0 < norm (w_dims w) (shift_of (env_of w x v) true i j)) ->
  pair_field w is x v = Some (flat (w_n w) (w_dims w) (fun i d => force_on (w_n w) ls (env_of w x v) d i)).
Proof.
  intros (HD & HI & HB & HSg & HLs) FL HZ. unfold pair_field. set (e := env_of w x v) in *.
  assert (G : forall s, exists s', fold_opt (fun it s => interact_forces (i_kind it) (i_cut it) e (i_p0 it) (i_p1 it) s) is s = Some s' /\
    forall a d, (a < w_n w)%nat -> F s' a d = F s a d + force_on (w_n w) ls e d a).
  { induction FL as [|l it ls is H FL IH]; intros s; cbn [fold_opt].
    - exists s. split; [reflexivity|]. intros. unfold force_on. rewrite sum_nil. ring.
    - destruct (HLs l (or_introl eq_refl)) as [C S]. destruct (interaction_sum (w_n w) e l it H HSg C S HB HZ s) as (s1 & E1 & F1). rewrite E1.
      destruct (IH (fun l' H' => HLs l' (or_intror H')) s1) as (s2 & E2 & F2). exists s2. split; [exact E2|]. intros a d Ha. rewrite (F2 a d Ha), (F1 a d Ha). unfold force_on. rewrite sum_cons. ring. }
  destruct (G (mkF (fun _ _ => 0) (fun _ => 0) 0 0)) as (s' & E & EF). rewrite E. cbn [option_map]. f_equal. apply flat_ext; [exact HD|]. intros i d Hi Hd. rewrite (EF i d Hi). cbn [F]. ring.
Qed.

Lemma kick_is s w dt f v : works s -> (0 < w_dims w)%nat -> length (w_im w) = w_n w -> length f = (w_n w * w_dims w)%nat -> length v = (w_n w * w_dims w)%nat ->
  update_velocities s (w_dims w) dt (w_n w * w_dims w) (w_im w) f v =
  Some (flat (w_n w) (w_dims w) (fun i d => comp (w_dims w) v i d + 1 / 2 * dt * nth i (w_im w) 0 * comp (w_dims w) f i d)).
Proof.
  intros Hs HD HI Lf Lv. destruct (velocities_spec s (w_dims w) dt (w_n w * w_dims w) (w_im w) f v Hs HD) as (y & E & L & V); [lia|lia|rewrite HI; lia|].
  rewrite E. f_equal. apply entries; [exact HD|lia|]. intros i d Hi Hd. unfold comp. rewrite V. assert (P := place_lt (w_n w) (w_dims w) i d Hi Hd).
  destruct (Nat.ltb_spec (i * w_dims w + d) (w_n w * w_dims w)); [|lia]. rewrite (place_div (w_dims w) i d Hd). reflexivity.
Qed.
Lemma drift_is s w dt v x : (0 < w_dims w)%nat -> length x = (w_n w * w_dims w)%nat -> length v = (w_n w * w_dims w)%nat ->
  update_positions s dt (w_n w * w_dims w) v x = Some (flat (w_n w) (w_dims w) (fun i d => comp (w_dims w) x i d + dt * comp (w_dims w) v i d)).
Proof.
  intros HD Lx Lv. destruct (positions_spec s dt (w_n w * w_dims w) v x) as (y & E & L & V); [lia|lia|].
  rewrite E. f_equal. apply entries; [exact HD|lia|]. intros i d Hi Hd. unfold comp. rewrite V. assert (P := place_lt (w_n w) (w_dims w) i d Hi Hd).
  destruct (Nat.ltb_spec (i * w_dims w + d) (w_n w * w_dims w)); [reflexivity|lia].
Qed.

Lemma whole_run_ideal s w ls : works s -> sound w ls -> forall ts st, shaped (w_n w) (w_dims w) st -> lists_right_along w ls ts st ->
  whole_run s w ts st = Some (ideal_run w ls ts st).
Proof.
  intros Hs HW. assert (HW' := HW). destruct HW' as (HD & HI & _). induction ts as [|t ts IH]; intros st (Lx & Lv & Lf) H; cbn [whole_run ideal_run]; [reflexivity|].
  cbn [lists_right_along] in H. cbv zeta in H. destruct H as (HWr & FL & HZ & Rest).
  assert (ST : whole_step s w t st = Some (ideal_step w ls (k_dt t) (k_wrap t) st)).
  { unfold whole_step. rewrite (kick_is s w (k_dt t) (sf st) (sv st) Hs HD HI Lf Lv). unfold ideal_step in *. cbv zeta in *. cbn [sx] in FL, HZ.
    set (v1 := flat (w_n w) (w_dims w) (fun i d => comp (w_dims w) (sv st) i d + 1 / 2 * k_dt t * nth i (w_im w) 0 * comp (w_dims w) (sf st) i d)) in *.
    assert (L1 : length v1 = (w_n w * w_dims w)%nat) by apply flat_length.
    rewrite (drift_is s w (k_dt t) v1 (sx st) HD Lx L1).
    set (x1 := k_wrap t (flat (w_n w) (w_dims w) (fun i d => comp (w_dims w) (sx st) i d + k_dt t * comp (w_dims w) v1 i d))) in *.
    rewrite (field_ok w ls (k_inter t) x1 v1 HW FL HZ).
    set (f1 := flat (w_n w) (w_dims w) (fun i d => force_on (w_n w) ls (env_of w x1 v1) d i)) in *.
    rewrite (kick_is s w (k_dt t) f1 v1 Hs HD HI (flat_length _ _ _) L1). reflexivity. }
  rewrite ST. apply IH; [|exact Rest]. unfold ideal_step. cbv zeta. split; [|split]; cbn [sx sv sf]; rewrite ?HWr; apply flat_length.
Qed.
