(* C140: the trajectory is that of the velocity-Verlet scheme with the forces of all pairs, however the pairs were found. *)
From Coq Require Import Reals List Arith Bool Lia Lra.
From Verif Require Import Model_Forces Spec_Forces Model_Integrators Spec_Integrators Model_Trajectory Spec_Trajectory Proofs_Trajectory Proofs_Integrators Proofs_Integrators2 Proofs_Forces2.
From Verif Require Proofs_Sweep1 Proofs_Forces.
Import ListNotations.
Local Open Scope R_scope.

(* The run of the simulation is the run of the scheme. The lists of pairs (and their order) do not appear in the scheme. *)
Theorem C140_trajectory : forall s w ls ts st, s = NoSimd \/ s = SSE3 -> sound w ls -> shaped (w_n w) (w_dims w) st -> lists_right_along w ls ts st ->
  whole_run s w ts st = Some (ideal_run w ls ts st).
Proof. intros s w ls ts st Hs HW HS H. exact (whole_run_ideal s w ls Hs HW ts st HS H). Qed.
Print Assumptions C140_trajectory.

(* Two simulations that differ in the instruction set and in how the pairs were found (skin depth, cells, when the lists were rebuilt, the order of
   the pairs), but not in the time steps and the wrapping of positions, go through the same states. *)
Theorem C140_lists_do_not_matter : forall s s' w ls ts ts' st, s = NoSimd \/ s = SSE3 -> s' = NoSimd \/ s' = SSE3 -> sound w ls -> shaped (w_n w) (w_dims w) st ->
  Forall2 (fun t t' => k_dt t = k_dt t' /\ k_wrap t = k_wrap t') ts ts' -> lists_right_along w ls ts st -> lists_right_along w ls ts' st ->
  whole_run s w ts st = whole_run s' w ts' st /\ whole_run s w ts st <> None.
Proof.
  intros s s' w ls ts ts' st Hs Hs' HW HS F2 H H'. rewrite (C140_trajectory s w ls ts st Hs HW HS H), (C140_trajectory s' w ls ts' st Hs' HW HS H'). split; [|discriminate]. f_equal.
  clear - F2. revert st. induction F2 as [|t t' ts ts' [E1 E2] F2 IH]; intros st; cbn [ideal_run]; [reflexivity|]. rewrite E1, E2. apply IH.
Qed.
Print Assumptions C140_lists_do_not_matter.

(* What the force of one particle on another is: nothing beyond the cutoff, and a force of the size given by the law along the line between them within
   it (describes, Spec_Forces: what the law does to any pair of particles). *)
Definition with_pot (e : env) : env := mkEnv (e_dims e) (e_x e) (e_v e) (e_im e) (e_sg e) (e_om e) (e_bc e) (e_width e) true (e_vir e).
Lemma pot_no_force k c e w i j s : match do_pair k c e w i j s, do_pair k c (with_pot e) w i j s with Some a, Some b => F a = F b | None, None => True | _, _ => False end.
Proof.
  unfold do_pair. cbn [with_pot e_x e_bc e_width e_sg e_dims]. cbv zeta. destruct (Rlt_dec _ _); [|reflexivity].
  destruct k; cbn [kernel]; unfold hard_sphere, hard_sphere_ds, lennard_jones, coulomb, buckingham, hertz, hooke; cbv zeta; cbn [with_pot e_dims e_v e_im e_om]; destruct (Req_EM_T _ 0); try exact I; try reflexivity.
  - destruct (Rlt_dec _ 0); [reflexivity|]. destruct (Rlt_dec _ 0); [exact I|reflexivity].
  - destruct (e_dims e =? 2)%nat; reflexivity.
Qed.
Theorem C140_vocabulary : forall l e d i j, 0 <= e_sg e i -> 0 <= e_sg e j -> i <> j -> (d < e_dims e)%nat ->
  (forall x y, norm (e_dims e) (fun c => x c - y c) * norm (e_dims e) (fun c => x c - y c) = sum_to (e_dims e) (fun c => (x c - y c) * (x c - y c))) /\
  let X := shift_of e true i j in let r := norm (e_dims e) X in
  (0 <= l_cut l -> (e_sg e i + e_sg e j) * l_cut l <= r -> force_from l e d i j = 0) /\
  (forall U Fm, describes (l_kind l) (l_cut l) U Fm -> 0 < r < (e_sg e i + e_sg e j) * l_cut l -> force_from l e d i j = Fm (e_sg e i) (e_sg e j) r * (X d / r)) /\
  (forall k, l_kind l = HardSphere k -> 0 < r < (e_sg e i + e_sg e j) * l_cut l -> force_from l e d i j = k * (e_sg e i + e_sg e j - r) * (X d / r)).
Proof.
  intros l e d i j Hi Hj N Hd. split.
  { intros x y. unfold norm. rewrite sqrt_sqrt by apply Proofs_Forces.dot_nonneg. clear. induction (e_dims e) as [|m IH]; cbn [dot sum_to]; [reflexivity|]. rewrite IH. ring. }
  cbv zeta.
  assert (G : forall U Fm, describes (l_kind l) (l_cut l) U Fm -> 0 < norm (e_dims e) (shift_of e true i j) < (e_sg e i + e_sg e j) * l_cut l ->
    force_from l e d i j = Fm (e_sg e i) (e_sg e j) (norm (e_dims e) (shift_of e true i j)) * (shift_of e true i j d / norm (e_dims e) (shift_of e true i j))).
  { intros U Fm HD HR. destruct (HD (with_pot e) true i j st0 eq_refl Hi Hj HR) as (s & E & _ & O). assert (P := pot_no_force (l_kind l) (l_cut l) e true i j st0). rewrite E in P.
    unfold force_from. fold st0. destruct (do_pair (l_kind l) (l_cut l) e true i j st0) as [s0|]; [|contradiction]. rewrite P, (O i d). rewrite Nat.eqb_refl. destruct (Nat.eqb_spec i j); [contradiction|].
    cbn [F st0]. change (e_dims (with_pot e)) with (e_dims e). rewrite (proj2 (Nat.ltb_lt _ _) Hd). unfold vscale. change (shift_of (with_pot e) true i j) with (shift_of e true i j). change (e_sg (with_pot e)) with (e_sg e). field. lra. }
  split; [|split; [exact G|]].
  - intros HC HR. unfold force_from. fold st0. assert (P := Proofs_Sweep1.pair_far (l_kind l) (l_cut l) e true i j). change Proofs_Sweep1.zero_st with st0 in P.
    rewrite P; [reflexivity|]. intros L. apply Rle_not_lt in HR. apply HR. unfold norm. set (c := (e_sg e i + e_sg e j) * l_cut l) in *. assert (C0 : 0 <= c) by (apply Rmult_le_pos; lra).
    rewrite <- (sqrt_square c C0). apply sqrt_lt_1_alt. split; [apply Proofs_Forces.dot_nonneg|exact L].
  - intros k EK HR. rewrite (G (hs_U k) (hs_F k)); [unfold hs_F; reflexivity|rewrite EK; apply hs_describes|exact HR].
Qed.
Print Assumptions C140_vocabulary.
(* Two overlapping balls of radius 1 at rest at 0 and 1: the lists [(0,1)] and [(1,0)] (the latter among the pairs to be wrapped) are both right, and after a
   step of length 1 the first ball moves to the left with velocity 1/2. *)
Definition balls : world := mkWorld 1 2 [1; 1] [1; 1] (fun _ => false) (fun _ => 0).
Definition rest_st : sys := mkSys [0; 1] [0; 0] [0; 0].
Definition contact : law := mkLaw (HardSphere 1) 1 (fun _ _ => true).
Definition tick1 : tick := mkTick 1 (fun x => x) [mkInter (HardSphere 1) 1 [(0, 1)%nat] []].
Definition tick2 : tick := mkTick 1 (fun x => x) [mkInter (HardSphere 1) 1 [] [(1, 0)%nat]].
Lemma two_sep (e : env) : e_dims e = 1%nat -> e_bc e = (fun _ => false) -> e_x e 0%nat 0%nat = 0 -> e_x e 1%nat 0%nat = 1 ->
  shift_of e true 0 1 0%nat = -1 /\ shift_of e true 1 0 0%nat = 1 /\ norm (e_dims e) (shift_of e true 0 1) = 1 /\ norm (e_dims e) (shift_of e true 1 0) = 1.
Proof.
  intros E1 E2 E3 E4. assert (A : shift_of e true 0 1 0%nat = -1) by (unfold shift_of, correction, vsub; rewrite E2, E3, E4; ring).
  assert (B : shift_of e true 1 0 0%nat = 1) by (unfold shift_of, correction, vsub; rewrite E2, E3, E4; ring). split; [exact A|]. split; [exact B|].
  unfold norm. rewrite E1. cbn [dot]. rewrite A, B. split; (replace (_ + _) with 1 by ring; apply sqrt_1).
Qed.
Example C140_case : sound balls [contact] /\ shaped 2 1 rest_st /\ lists_right_along balls [contact] [tick1] rest_st /\ lists_right_along balls [contact] [tick2] rest_st /\
  exists st', whole_run SSE3 balls [tick1] rest_st = Some st' /\ whole_run NoSimd balls [tick2] rest_st = Some st' /\ nth 0 (sv st') 0 = - (1 / 2) /\ nth 1 (sv st') 0 = 1 / 2.
Proof.
  set (v1 := [0 + 1 / 2 * 1 * 1 * 0; 0 + 1 / 2 * 1 * 1 * 0]). set (x1 := [0 + 1 * (0 + 1 / 2 * 1 * 1 * 0); 1 + 1 * (0 + 1 / 2 * 1 * 1 * 0)]). set (e := env_of balls x1 v1).
  destruct (two_sep e eq_refl eq_refl) as (SA & SB & NA & NB); [unfold e, env_of, vec_of; cbn; ring|unfold e, env_of, vec_of; cbn; ring|].
  assert (SO : sound balls [contact]).
  { split; [cbn; lia|]. split; [reflexivity|]. split; [intros d H; discriminate H|]. split; [intros [|[|[|i]]]; cbn; lra|]. intros l [<-|[]]. split; [cbn; lra|reflexivity]. }
  assert (SH : shaped 2 1 rest_st) by (repeat split).
  assert (HZ : forall i j, (i < 2)%nat -> (j < 2)%nat -> i <> j -> 0 < norm 1 (shift_of e true i j)).
  { intros [|[|i]] [|[|j]] A B C; try lia; change (e_dims e) with 1%nat in *; rewrite ?NA, ?NB; lra. }
  assert (LA : lists_right_along balls [contact] [tick1] rest_st).
  { cbn [lists_right_along]. cbv zeta. split; [reflexivity|]. split; [|split; [exact HZ|exact I]]. constructor; [|constructor]. change (lists_right 2 e contact (mkInter (HardSphere 1) 1 [(0, 1)%nat] [])).
    split; [reflexivity|]. split; [reflexivity|]. cbn [i_p0 i_p1 app]. split; [|split; [|split]].
    - intros i j [H|[]]. injection H as <- <-. repeat split; try lia. intros [H|[]]. discriminate H.
    - constructor; [intros []|constructor].
    - intros [|[|i]] [|[|j]] A B C _ _; try lia; cbn; auto.
    - intros i j d _ _. unfold shift_of, correction. reflexivity. }
  assert (LB : lists_right_along balls [contact] [tick2] rest_st).
  { cbn [lists_right_along]. cbv zeta. split; [reflexivity|]. split; [|split; [exact HZ|exact I]]. constructor; [|constructor]. change (lists_right 2 e contact (mkInter (HardSphere 1) 1 [] [(1, 0)%nat])).
    split; [reflexivity|]. split; [reflexivity|]. cbn [i_p0 i_p1 app]. split; [|split; [|split]].
    - intros i j [H|[]]. injection H as <- <-. repeat split; try lia. intros [H|[]]. discriminate H.
    - constructor; [intros []|constructor].
    - intros [|[|i]] [|[|j]] A B C _ _; try lia; cbn; auto.
    - intros i j d [] _. }
  split; [exact SO|]. split; [exact SH|]. split; [exact LA|]. split; [exact LB|].
  exists (ideal_run balls [contact] [tick1] rest_st). split; [exact (C140_trajectory SSE3 _ _ _ _ (or_intror eq_refl) SO SH LA)|].
  split; [exact (C140_trajectory NoSimd _ _ _ _ (or_introl eq_refl) SO SH LB)|].
  assert (F0 : force_from contact e 0 0 1 = -1).
  { destruct (C140_vocabulary contact e 0 0 1) as (_ & _ & _ & H); [cbn; lra|cbn; lra|lia|cbn; lia|]. rewrite (H 1 eq_refl).
    - rewrite NA, SA. cbn. field.
    - rewrite NA. cbn. lra. }
  assert (F1 : force_from contact e 0 1 0 = 1).
  { destruct (C140_vocabulary contact e 0 1 0) as (_ & _ & _ & H); [cbn; lra|cbn; lra|lia|cbn; lia|]. rewrite (H 1 eq_refl).
    - rewrite NB, SB. cbn. field.
    - rewrite NB. cbn. lra. }
  assert (G0 : force_on 2 [contact] e 0 0 = -1) by (unfold force_on, sum_over; cbn [fold_right sum_to Nat.eqb negb andb l_for contact]; rewrite F0; ring).
  assert (G1 : force_on 2 [contact] e 0 1 = 1) by (unfold force_on, sum_over; cbn [fold_right sum_to Nat.eqb negb andb l_for contact]; rewrite F1; ring).
  change (0 + 1 / 2 * 1 * 1 * 0 + 1 / 2 * 1 * 1 * force_on 2 [contact] e 0 0 = - (1 / 2) /\ 0 + 1 / 2 * 1 * 1 * 0 + 1 / 2 * 1 * 1 * force_on 2 [contact] e 0 1 = 1 / 2).
  rewrite G0, G1. lra.
Qed.
