(* C147: the motion does not depend on how the particles are divided among processors. *)
From Coq Require Import Reals List Arith Bool Lia Lra ZArith Permutation.
From Verif Require Import Model_Forces Spec_Forces Model_Integrators Spec_Integrators Proofs_Integrators Proofs_Integrators2 Model_Trajectory Spec_Trajectory Proofs_Trajectory Properties_Trajectory Proofs_Sweep2 Model_Parallel Spec_Parallel Proofs_Parallel.
Import ListNotations.
Local Open Scope R_scope.

(* In every step the particles on the processors are those of the ideal motion of the whole system. *)
Theorem C147_parallel_partial : forall s w ls ts wraps ps st, s = NoSimd \/ s = SSE3 -> sound w ls -> divisible w ls -> length ts = length wraps ->
  divides (w_n w) (w_dims w) ps st -> exchange_right_along w ls ts wraps (map p_ids ps) st ->
  exists ps', parallel_run s w ts ps = Some ps' /\ divides (w_n w) (w_dims w) ps' (ideal_motion w ls (map q_dt ts) wraps st).
Proof. intros s w ls ts wraps ps st Hs HW HD L DV HE. exact (run_ok s w ls Hs HW HD ts wraps ps st L DV HE). Qed.
Print Assumptions C147_parallel_partial.

(* The same simulation on one processor and on several: the same positions, velocities and forces. *)
Theorem C147_as_on_one_processor_partial : forall s s' w ls ts ts' ps st, s = NoSimd \/ s = SSE3 -> s' = NoSimd \/ s' = SSE3 -> sound w ls -> divisible w ls -> shaped (w_n w) (w_dims w) st ->
  map q_dt ts = map k_dt ts' -> divides (w_n w) (w_dims w) ps st ->
  lists_right_along w ls ts' st -> exchange_right_along w ls ts (map k_wrap ts') (map p_ids ps) st ->
  exists ps' st', parallel_run s w ts ps = Some ps' /\ whole_run s' w ts' st = Some st' /\ divides (w_n w) (w_dims w) ps' st'.
Proof.
  intros s s' w ls ts ts' ps st Hs Hs' HW HD SH ET DV HL HE.
  destruct (C147_parallel_partial s w ls ts (map k_wrap ts') ps st Hs HW HD) as (ps' & E & D); auto.
  { rewrite map_length. apply (f_equal (@length R)) in ET. rewrite !map_length in ET. exact ET. }
  exists ps', (ideal_run w ls ts' st). split; [exact E|]. split; [exact (C140_trajectory s' w ls ts' st Hs' HW SH HL)|].
  replace (ideal_run w ls ts' st) with (ideal_motion w ls (map q_dt ts) (map k_wrap ts') st); [exact D|]. rewrite ET. clear. revert st. induction ts' as [|t ts' IH]; intros st; cbn [map ideal_motion ideal_run]; [reflexivity|apply IH].
Qed.
Print Assumptions C147_as_on_one_processor_partial.

(* Two divisions of the same system, among different numbers of processors: a particle has the same position, velocity and force in both. *)
Theorem C147_divisions_agree_partial : forall s s' w ls ts ts' wraps ps ps2 st, s = NoSimd \/ s = SSE3 -> s' = NoSimd \/ s' = SSE3 -> sound w ls -> divisible w ls ->
  map q_dt ts = map q_dt ts' -> length ts = length wraps -> divides (w_n w) (w_dims w) ps st -> divides (w_n w) (w_dims w) ps2 st ->
  exchange_right_along w ls ts wraps (map p_ids ps) st -> exchange_right_along w ls ts' wraps (map p_ids ps2) st ->
  exists qs qs2, parallel_run s w ts ps = Some qs /\ parallel_run s' w ts' ps2 = Some qs2 /\
    forall p p2 k k2 i d, In p qs -> In p2 qs2 -> nth_error (p_ids p) k = Some i -> nth_error (p_ids p2) k2 = Some i -> (d < w_dims w)%nat ->
      comp (w_dims w) (sx (p_sys p)) k d = comp (w_dims w) (sx (p_sys p2)) k2 d /\ comp (w_dims w) (sv (p_sys p)) k d = comp (w_dims w) (sv (p_sys p2)) k2 d /\
      comp (w_dims w) (sf (p_sys p)) k d = comp (w_dims w) (sf (p_sys p2)) k2 d.
Proof.
  intros s s' w ls ts ts' wraps ps ps2 st Hs Hs' HW HD ET L DV DV2 HE HE2.
  destruct (C147_parallel_partial s w ls ts wraps ps st Hs HW HD L DV HE) as (qs & E & [[_ D] DF]). assert (L' : length ts' = length wraps) by (apply (f_equal (@length R)) in ET; rewrite !map_length in ET; lia).
  destruct (C147_parallel_partial s' w ls ts' wraps ps2 st Hs' HW HD L' DV2 HE2) as (qs2 & E2 & [[_ D2] DF2]). rewrite <- ET in D2, DF2. exists qs, qs2. split; [exact E|]. split; [exact E2|].
  intros p p2 k k2 i d Hp Hp2 Hk Hk2 Hd. destruct (D p Hp) as (_ & _ & A). destruct (D2 p2 Hp2) as (_ & _ & A2). destruct (A k i d Hk Hd) as [-> ->]. destruct (A2 k2 i d Hk2 Hd) as [-> ->].
  destruct (DF p Hp) as [_ B]. destruct (DF2 p2 Hp2) as [_ B2]. rewrite (B k i d Hk Hd), (B2 k2 i d Hk2 Hd). auto.
Qed.
Print Assumptions C147_divisions_agree_partial.

(* The two overlapping balls of C140, one on each of two processors. *)
Definition apart : list part := [mkPart [0%nat] (mkSys [0] [0] [0]); mkPart [1%nat] (mkSys [1] [0] [0])].
Definition across (k : kind) : ginter := mkGI (mkInter k 1 [] []) [(0, 0)%nat].
Definition swap_ghosts (k : kind) (ps : list part) : list (part * ghosts * list ginter) :=
  match ps with
  | [a; b] => [(a, mkGhosts [1%nat] (sx (p_sys b)) (sv (p_sys b)), [across k]); (b, mkGhosts [0%nat] (sx (p_sys a)) (sv (p_sys a)), [across k])]
  | _ => []
  end.
Definition ptick1 (k : kind) : ptick := mkPT 1 (swap_ghosts k).
Lemma apart_divides : divides 2 1 apart rest_st.
Proof.
  split; [split|].
  - apply Permutation_refl.
  - intros p [<- |[<- |[]]]; (split; [reflexivity|]); (split; [reflexivity|]); intros [|[|k]] i [|d] H Hd; try discriminate H; try lia; injection H as <-; split; reflexivity.
  - intros p [<- |[<- |[]]]; (split; [reflexivity|]); intros [|[|k]] i [|d] H Hd; try discriminate H; try lia; injection H as <-; reflexivity.
Qed.
Lemma across_right e p h k (el : env) a b : p_ids p = [a] -> h_ids h = [b] -> lists_right_on e p h (mkLaw k 1 (fun _ _ => true)) (across k) el.
Proof.
  intros Ep Eh. unfold lists_right_on. rewrite Ep, Eh. split; [|split; [|split]].
  - split; [reflexivity|]. split; [reflexivity|]. cbn [across g_own i_p0 i_p1 app]. split; [intros i j []|]. split; [constructor|]. split; [|intros i j d []]. intros i j A B C. cbn [length] in A, B. lia.
  - constructor; [intros []|constructor].
  - intros i j [H|[]]. injection H as <- <-. exists b, a. auto.
  - intros [|i] [|j] u z A B _ _; cbn in A, B; try (now left); try (now rewrite nth_error_nil in A); try (now rewrite nth_error_nil in B); try (destruct i; discriminate A); destruct j; discriminate B.
Qed.
Lemma apart_right k : exchange_right_along balls [mkLaw k 1 (fun _ _ => true)] [ptick1 k] [fun x => x] (map p_ids apart) rest_st.
Proof.
  cbn [exchange_right_along]. cbv zeta. set (st1 := ideal_step _ _ _ _ _). set (half := flat (w_n balls) (w_dims balls) _). set (e := env_of balls (sx st1) half).
  assert (SX : sx st1 = flat 2 1 (fun i d => comp 1 (sx rest_st) i d + 1 * comp 1 half i d)) by reflexivity. clearbody st1.
  destruct (two_sep e eq_refl eq_refl) as (SA & SB & NA & NB); [unfold e, env_of, vec_of; rewrite SX; cbn; ring|unfold e, env_of, vec_of; rewrite SX; cbn; ring|].
  split; [rewrite SX; reflexivity|]. split; [|split].
  - intros [|[|i]] [|[|j]] A B C; cbn [balls w_n] in A, B; try lia; change (e_dims e) with 1%nat in *; cbn [balls w_dims]; rewrite ?NA, ?NB; lra.
  - intros i j d _ _ _ H. discriminate H.
  - intros ps EI DV. destruct ps as [|a [|b [|c ps]]]; try discriminate EI. cbn [map apart p_ids] in EI. injection EI as Ea Eb. cbn [ptick1 q_move swap_ghosts map fst].
    change (w_n balls) with 2%nat in *. change (w_dims balls) with 1%nat in *.
    match type of DV with divided _ _ _ ?x _ => change x with (flat 2 1 (fun i d => comp 1 (sx rest_st) i d + 1 * comp 1 half i d)) in DV end. rewrite <- SX in DV. split; [exact DV|]. split; [|exact I]. destruct DV as [_ DV]. destruct (DV a (or_introl eq_refl)) as (LA & VA & CA). destruct (DV b (or_intror (or_introl eq_refl))) as (LB & VB & CB).
    rewrite Ea in LA, VA, CA. rewrite Eb in LB, VB, CB.
    assert (GEN : forall p h i j, p_ids p = [i] -> h_ids h = [j] -> (j < 2)%nat -> i <> j -> (forall z, (z < 2)%nat -> z <> i -> z = j) -> length (h_x h) = 1%nat -> length (h_v h) = 1%nat ->
       comp 1 (h_x h) 0 0 = comp 1 (sx st1) j 0 -> comp 1 (h_v h) 0 0 = comp 1 half j 0 -> ghosts_right balls [mkLaw k 1 (fun _ _ => true)] e p h).
    { intros p h i j Ep Eh Lj N U L1 L2 C1 C2. unfold ghosts_right. cbv zeta. rewrite Ep, Eh. split; [exact L1|]. split; [exact L2|]. split; [constructor; [intros []|constructor]|]. split.
      - intros z [<- |[]]. split; [exact Lj|]. intros [H|[]]. auto.
      - split.
        + intros l z y _ Lz Nz _ _ _. left. symmetry. apply U; [exact Lz|]. intros ->. apply Nz. now left.
        + intros [|g] z [|d] Hg Hd; cbn [balls w_dims] in Hd; try lia; [|destruct g; discriminate Hg]. injection Hg as <-. split; [intros _; exact C1|]. split; [intros H; discriminate H|intros _; exact C2]. }
    intros p h gs [H|[H|[]]]; injection H as <- <- <-.
    + split.
      * apply (GEN _ _ 0%nat 1%nat); cbn [h_ids h_x h_v]; auto; try lia.
        -- apply (CB 0%nat 1%nat 0%nat); [reflexivity|lia].
        -- apply (CB 0%nat 1%nat 0%nat); [reflexivity|lia].
      * constructor; [|constructor]. apply (across_right _ _ _ _ _ 0%nat 1%nat); [exact Ea|reflexivity].
    + split.
      * apply (GEN _ _ 1%nat 0%nat); cbn [h_ids h_x h_v]; auto; try lia.
        -- apply (CA 0%nat 0%nat 0%nat); [reflexivity|lia].
        -- apply (CA 0%nat 0%nat 0%nat); [reflexivity|lia].
      * constructor; [|constructor]. apply (across_right _ _ _ _ _ 1%nat 0%nat); [exact Eb|reflexivity].
Qed.
Example C147_case : sound balls [contact] /\ divisible balls [contact] /\ divides 2 1 apart rest_st /\ exchange_right_along balls [contact] [ptick1 (HardSphere 1)] [fun x => x] (map p_ids apart) rest_st /\
  exists ps' st', parallel_run SSE3 balls [ptick1 (HardSphere 1)] apart = Some ps' /\ whole_run NoSimd balls [tick1] rest_st = Some st' /\ divides 2 1 ps' st' /\ nth 0 (sv st') 0 = - (1 / 2) /\ nth 1 (sv st') 0 = 1 / 2.
Proof.
  destruct C140_case as (SO & SH & LA & LB & st' & E1 & E2 & V0 & V1).
  assert (DI : divisible balls [contact]) by (intros l [<- |[]]; split; [reflexivity|intros i j d _ _ _ H; discriminate H]).
  split; [exact SO|]. split; [exact DI|]. split; [exact apart_divides|]. split; [exact (apart_right (HardSphere 1))|].
  destruct (C147_as_on_one_processor_partial SSE3 SSE3 balls [contact] [ptick1 (HardSphere 1)] [tick1] apart rest_st (or_intror eq_refl) (or_intror eq_refl) SO DI SH eq_refl apart_divides LA (apart_right (HardSphere 1))) as (ps' & st2 & P1 & P2 & D).
  rewrite E1 in P2. injection P2 as <-. exists ps', st'. split; [exact P1|]. split; [|auto].
  rewrite (C140_trajectory SSE3 balls [contact] [tick1] rest_st (or_intror eq_refl) SO SH LA) in E1. rewrite (C140_trajectory NoSimd balls [contact] [tick1] rest_st (or_introl eq_refl) SO SH LA). exact E1.
Qed.

(* Hooke's force is not for several processors: the two balls feel no force on one processor, and on two the first one is pushed with force 1. *)
Theorem C147_hooke_refuted : exists k f0 f1, exchange_right_along balls [mkLaw k 1 (fun _ _ => true)] [ptick1 k] [fun x => x] (map p_ids apart) rest_st /\
  pair_field balls [mkInter k 1 [(0, 1)%nat] []] [0; 1] [0; 0] = Some f0 /\ nth 0 f0 0 = 0 /\ nth 1 f0 0 = 0 /\
  part_forces balls (mkPart [0%nat] (mkSys [0] [0] [0])) (mkGhosts [1%nat] [1] [0]) [across k] = Some f1 /\ nth 0 f1 0 = -1.
Proof.
  exists (Hooke 1 0 0 0). eexists. eexists. split; [apply apart_right|].
  assert (Q : forall r, r = 1 -> sqrt r = 1) by (intros r ->; apply sqrt_1).
  split.
  { unfold pair_field. cbn [fold_opt i_kind i_cut i_p0 i_p1 interact_forces do_list]. unfold interact_forces. cbn [do_list]. unfold do_pair. cbv zeta. destruct (Rlt_dec _ _) as [_|N]; [|exfalso; apply N; unfold correction, vsub, env_of, vec_of; cbn; unfold correction, vsub, vec_of; cbn; lra].
    cbn [kernel]. unfold hooke. destruct (Req_EM_T _ 0) as [Z|_]; [exfalso; unfold correction, vsub, env_of, vec_of in Z; cbn in Z; unfold correction, vsub, vec_of in Z; cbn in Z; lra|]. cbv zeta. cbn [env_of balls e_dims w_dims Nat.eqb option_map F book]. reflexivity. }
  split; [unfold flat, add_scaled; cbn; ring|]. split; [unfold flat, add_scaled; cbn; ring|].
  split.
  { unfold part_forces. cbn [fold_opt across g_own g_pairs i_kind i_cut i_p0 i_p1]. unfold interact_forces. cbn [do_list F Tq]. unfold ghost_list. cbn [fold_opt fst snd ghost_pair]. cbv zeta.
    destruct (Rlt_dec _ _) as [_|N]; [|exfalso; apply N; unfold correction, vsub, env_of, vec_of; cbn; unfold correction, vsub, vec_of; cbn; lra]. unfold hooke_ghost. destruct (Req_EM_T _ 0) as [Z|_]; [exfalso; unfold correction, vsub, env_of, vec_of in Z; cbn in Z; unfold correction, vsub, vec_of in Z; cbn in Z; lra|]. cbv zeta. cbn [local_env env_of local_world balls e_dims w_dims Nat.eqb option_map F book]. reflexivity. }
  unfold flat, add_scaled. cbn. rewrite Q by (unfold correction, vsub, vec_of; cbn; ring). unfold vscale, correction, vsub, vec_of, m_eff, Rmax. cbn. repeat (destruct (Req_EM_T _ _)); destruct (Rle_dec _ _); lra.
Qed.
Print Assumptions C147_hooke_refuted.

(* Which particle it pushes: of the two own particles, at 10 and 0, the second one overlaps a ghost at 1. It feels no force, and the
   first one, which touches nothing, is pushed. *)
Theorem C147_hooke_wrong_particle_refuted : exists k f1, let w := mkWorld 1 3 [1; 1; 1] [1; 1; 1] (fun _ => false) (fun _ => 20) in
  part_forces w (mkPart [0; 1]%nat (mkSys [10; 0] [0; 0] [0; 0])) (mkGhosts [2%nat] [1] [0]) [mkGI (mkInter k 1 [] []) [(0, 1)%nat]] = Some f1 /\
  nth 0 f1 0 = -1 /\ nth 1 f1 0 = 0.
Proof.
  exists (Hooke 1 0 0 0). eexists. cbv zeta.
  assert (Q : forall r, r = 1 -> sqrt r = 1) by (intros r ->; apply sqrt_1).
  split.
  { unfold part_forces. cbn [fold_opt g_own g_pairs i_kind i_cut i_p0 i_p1]. unfold interact_forces. cbn [do_list F Tq]. unfold ghost_list. cbn [fold_opt fst snd ghost_pair]. cbv zeta.
    destruct (Rlt_dec _ _) as [_|N]; [|exfalso; apply N; unfold correction, vsub, env_of, vec_of; cbn; unfold correction, vsub, vec_of; cbn; lra]. unfold hooke_ghost. destruct (Req_EM_T _ 0) as [Z|_]; [exfalso; unfold correction, vsub, env_of, vec_of in Z; cbn in Z; unfold correction, vsub, vec_of in Z; cbn in Z; lra|]. cbv zeta. cbn [local_env env_of local_world e_dims w_dims Nat.eqb option_map F book]. reflexivity. }
  split.
  - unfold flat, add_scaled. cbn. rewrite Q by (unfold correction, vsub, vec_of; cbn; ring). unfold vscale, correction, vsub, vec_of, m_eff, Rmax. cbn. repeat (destruct (Req_EM_T _ _)); destruct (Rle_dec _ _); lra.
  - unfold flat, add_scaled. cbn. ring.
Qed.
Print Assumptions C147_hooke_wrong_particle_refuted.
