(* C141 and C142: numbering the particles differently, or looking from a moving place, gives the same motion. *)
From Coq Require Import Reals List Arith Bool Lia Lra.
From Verif Require Import Model_Forces Spec_Forces Model_Integrators Spec_Integrators Model_Trajectory Spec_Trajectory Spec_Symmetry Proofs_Integrators2 Proofs_Trajectory Proofs_Symmetry Properties_Trajectory.
Import ListNotations.
Local Open Scope R_scope.

Lemma things_sound p w ls w' ls' : same_things p w ls w' ls' -> sound w ls -> (0 < w_dims w)%nat.
Proof. intros _ (H & _). exact H. Qed.

(* ------------------------------------------------------------------ C141 *)
(* Two systems with the same particles under different numbers (p), each with its own lists of pairs: after any steps they are still the same. *)
Theorem C141_numbering : forall s s' p w ls w' ls' ts ts' st st', s = NoSimd \/ s = SSE3 -> s' = NoSimd \/ s' = SSE3 ->
  renumbering (w_n w) p -> same_things p w ls w' ls' -> sound w ls -> sound w' ls' ->
  same_state p (fun _ => 0) (fun _ => 0) (w_n w) (w_dims w) st st' ->
  Forall2 (same_clock (w_n w) (w_dims w)) ts ts' -> lists_right_along w ls ts st -> lists_right_along w' ls' ts' st' ->
  exists r r', whole_run s w ts st = Some r /\ whole_run s' w' ts' st' = Some r' /\ same_state p (fun _ => 0) (fun _ => 0) (w_n w) (w_dims w) r r'.
Proof.
  intros s s' p w ls w' ls' ts ts' st st' Hs Hs' HP HW S1 S2 HS FC R1 R2. assert (HS0 := HS). destruct HS0 as (Sh & Sh' & _).
  exists (ideal_run w ls ts st), (ideal_run w' ls' ts' st'). split; [apply C140_trajectory; auto|]. split.
  { apply C140_trajectory; auto. destruct HW as (-> & -> & _). exact Sh'. }
  clear R1 R2 Sh Sh' S2. assert (HD := things_sound _ _ _ _ _ HW S1). clear S1. revert st st' HS. induction FC as [|t t' ts ts' (ET & g & G1 & G2) FC IH]; intros st st' HS; cbn [ideal_run]; [exact HS|].
  apply IH. assert (CA : carried p w (fun d => 0 + k_dt t * 0) t t').
  { split; [exact ET|]. intros x x' b L1 L2 B H. destruct (G1 x L1) as [A1 A2]. destruct (G2 x' L2) as [A3 A4]. split; [exact A1|]. split; [exact A3|]. intros i d Hi Hd.
    assert (B0 : b d = 0) by (rewrite B; ring). rewrite (A4 i d Hi Hd), (A2 (p i) d (proj1 HP i Hi) Hd), (H i d Hi Hd), B0, !Rplus_0_r. reflexivity. }
  destruct (step_same p w w' ls ls' HP HW t t' (fun _ => 0) (fun _ => 0) st st' CA HS) as (A & B & C). split; [exact A|]. split; [exact B|].
  intros i d Hi Hd. destruct (C i d Hi Hd) as (C1 & C2 & C3). repeat split; auto. rewrite C1. ring.
Qed.
Print Assumptions C141_numbering.

(* ------------------------------------------------------------------ C142 *)
(* The same particles moved by a, all with the velocity u added: after the time T they are moved by a + T u and still have u added; the forces are the same.
   No position is wrapped (forces may act across periodic borders). *)
Theorem C142_moving_observer : forall s s' a u w ls ts ts' st st', s = NoSimd \/ s = SSE3 -> s' = NoSimd \/ s' = SSE3 -> sound w ls ->
  same_state (fun i => i) a u (w_n w) (w_dims w) st st' ->
  Forall2 open_clock ts ts' -> lists_right_along w ls ts st -> lists_right_along w ls ts' st' ->
  exists r r', whole_run s w ts st = Some r /\ whole_run s' w ts' st' = Some r' /\ same_state (fun i => i) (fun d => a d + duration ts * u d) u (w_n w) (w_dims w) r r'.
Proof.
  intros s s' a u w ls ts ts' st st' Hs Hs' S1 HS FC R1 R2. assert (HS0 := HS). destruct HS0 as (Sh & Sh' & _).
  exists (ideal_run w ls ts st), (ideal_run w ls ts' st'). split; [apply C140_trajectory; auto|]. split; [apply C140_trajectory; auto|].
  clear R1 R2 Sh Sh' S1. assert (HP : renumbering (w_n w) (fun i => i)) by (split; auto).
  assert (HW : same_things (fun i => i) w ls w ls). { repeat (split; [reflexivity|]). split; [auto|]. induction ls as [|l ls0 IH]; constructor; auto. }
  revert a st st' HS. induction FC as [|t t' ts ts' (ET & G1 & G2) FC IH]; intros a st st' HS; cbn [ideal_run].
  - destruct HS as (A & B & C). split; [exact A|]. split; [exact B|]. intros i d Hi Hd. destruct (C i d Hi Hd) as (C1 & C2 & C3). repeat split; auto. rewrite C1. unfold duration, sum_over. cbn [fold_right]. ring.
  - assert (CA : carried (fun i => i) w (fun d => a d + k_dt t * u d) t t').
    { split; [exact ET|]. intros x x' b L1 L2 B H. rewrite G1, G2. auto. }
    assert (X := IH (fun d => a d + k_dt t * u d) _ _ (step_same _ w w ls ls HP HW t t' a u st st' CA HS)). destruct X as (A & B & C). split; [exact A|]. split; [exact B|].
    intros i d Hi Hd. destruct (C i d Hi Hd) as (C1 & C2 & C3). repeat split; auto. rewrite C1. unfold duration, sum_over. cbn [fold_right]. fold (sum_over k_dt ts). ring.
Qed.
Print Assumptions C142_moving_observer.

(* The two balls of C140_case, and the same ones under exchanged numbers, or elsewhere and moving. *)
Lemma balls_right x y u : x <> y -> lists_right_along balls [contact] [tick1] (mkSys [x; y] [u; u] [0; 0]).
Proof.
  intros N. set (v1 := [u + 1 / 2 * 1 * 1 * 0; u + 1 / 2 * 1 * 1 * 0]). set (x1 := [x + 1 * (u + 1 / 2 * 1 * 1 * 0); y + 1 * (u + 1 / 2 * 1 * 1 * 0)]). set (e := env_of balls x1 v1).
  assert (HZ : forall i j, (i < 2)%nat -> (j < 2)%nat -> i <> j -> 0 < norm 1 (shift_of e true i j)).
  { intros i j Hi Hj Nij. unfold norm. cbn [dot]. apply sqrt_lt_R0. set (d := shift_of e true i j 0%nat). enough (d <> 0) by nra.
    destruct i as [|[|i]], j as [|[|j]]; try lia; unfold d, shift_of, correction, vsub, e, env_of, vec_of; cbn; lra. }
  cbn [lists_right_along]. cbv zeta. split; [reflexivity|]. split; [|split; [exact HZ|exact I]]. constructor; [|constructor]. change (lists_right 2 e contact (mkInter (HardSphere 1) 1 [(0, 1)%nat] [])).
  split; [reflexivity|]. split; [reflexivity|]. cbn [i_p0 i_p1 app]. split; [|split; [|split]].
  - intros i j [H|[]]. injection H as <- <-. repeat split; try lia. intros [H|[]]. discriminate H.
  - constructor; [intros []|constructor].
  - intros [|[|i]] [|[|j]] A B C _ _; try lia; cbn; auto.
  - intros i j d _ _. unfold shift_of, correction. reflexivity.
Qed.
Definition swap (i : nat) : nat := match i with 0%nat => 1%nat | 1%nat => 0%nat | k => k end.
Example C141_case : renumbering 2 swap /\ same_things swap balls [contact] balls [contact] /\ sound balls [contact] /\
  same_state swap (fun _ => 0) (fun _ => 0) 2 1 rest_st (mkSys [1; 0] [0; 0] [0; 0]) /\ same_clock 2 1 tick1 tick1 /\
  lists_right_along balls [contact] [tick1] rest_st /\ lists_right_along balls [contact] [tick1] (mkSys [1; 0] [0; 0] [0; 0]).
Proof.
  split; [split; [intros [|[|i]] H; cbn; lia|intros [|[|i]] [|[|j]] Hi Hj E; cbn in E; lia]|].
  split; [repeat (split; [reflexivity|]); split; [intros [|[|i]] H; cbn in *; try lia; auto|constructor; [auto|constructor]]|].
  split; [exact (proj1 C140_case)|].
  split; [split; [repeat split|]; split; [repeat split|]; intros [|[|i]] [|d] Hi Hd; try lia; unfold comp; cbn; repeat split; ring|].
  split; [split; [reflexivity|]; exists (fun _ x => x); split; intros x L; (split; [exact L|reflexivity])|].
  split; [exact (balls_right 0 1 0 ltac:(lra))|exact (balls_right 1 0 0 ltac:(lra))].
Qed.
Example C142_case : sound balls [contact] /\ same_state (fun i => i) (fun _ => 5) (fun _ => 2) 2 1 rest_st (mkSys [5; 6] [2; 2] [0; 0]) /\ open_clock tick1 tick1 /\ duration [tick1] = 1 /\
  lists_right_along balls [contact] [tick1] rest_st /\ lists_right_along balls [contact] [tick1] (mkSys [5; 6] [2; 2] [0; 0]).
Proof.
  split; [exact (proj1 C140_case)|].
  split; [split; [repeat split|]; split; [repeat split|]; intros [|[|i]] [|d] Hi Hd; try lia; unfold comp; cbn; repeat split; ring|].
  split; [repeat split|]. split; [unfold duration, sum_over; cbn; ring|].
  split; [exact (balls_right 0 1 0 ltac:(lra))|exact (balls_right 5 6 2 ltac:(lra))].
Qed.
