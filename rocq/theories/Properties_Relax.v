(* C96, C97: relaxing a new simulation *)
From Verif Require Import Lib Model_Store Spec_Store Proofs_Store1 Proofs_Store4 Proofs_Store5 Model_Run Spec_Run Model_Relax Spec_Relax.
Local Open Scope Z_scope.

Lemma zip_nth {A B C} (f : nat -> A -> B -> C) : forall l l' k i, nth_error (zip_with f k l l') i =
  match nth_error l i, nth_error l' i with Some a, Some b => Some (f (k + i)%nat a b) | _, _ => None end.
Proof.
  induction l as [|a l IH]; intros l' k i; [destruct i; reflexivity|]. destruct l' as [|b l']; [destruct i; cbn; [reflexivity|now destruct (nth_error l i)]|].
  destruct i as [|i]; cbn [zip_with nth_error]; [now rewrite Nat.add_0_r|]. rewrite IH. now replace (S k + i)%nat with (k + S i)%nat by lia.
Qed.
Lemma zip_len {A B C} (f : nat -> A -> B -> C) : forall l l' k, length (zip_with f k l l') = Nat.min (length l) (length l').
Proof. induction l as [|a l IH]; intros [|b l'] k; cbn; [reflexivity..|]. now rewrite IH. Qed.
Lemma step_len np evs k ss : about np evs -> length ss = np -> length (step_all (evs k) ss) = np.
Proof.
  intros H L. destruct (H k) as [B A]. unfold step_all. rewrite map_length, combine_length, A. destruct (e_remake (evs k)); [unfold sync; rewrite map_length|]; rewrite map_length, combine_length, B; lia.
Qed.
Lemma loop_len np evs : about np evs -> forall fuel k ss ts, length ss = np -> loop fuel evs k ss = Some ts -> length ts = np.
Proof.
  intros H. induction fuel as [|fuel IH]; intros k ss ts L E; [discriminate|]. cbn [loop] in E. destruct (forallb goes_on ss).
  - eapply IH; [|exact E]. now apply step_len.
  - destruct (existsb goes_on ss); [discriminate|]. injection E as <-. exact L.
Qed.
Lemma run_len np evs fuel ns rt ss ts : about np evs -> length ss = np -> Model_Run.run fuel evs ns rt ss = Some ts -> length ts = np.
Proof.
  intros H L E. unfold Model_Run.run in E. destruct (forallb _ ns); [injection E as <-; now rewrite !map_length|]. destruct (existsb _ ns); [discriminate|].
  destruct (loop _ _ _ _) as [us|] eqn:EL; [|discriminate]. injection E as <-. rewrite map_length. eapply loop_len; [exact H| |exact EL]. now rewrite !map_length.
Qed.
Lemma add_types n hs : (0 < n)%nat -> add_for_types n hs [] = [hs].
Proof.
  intros H. unfold add_for_types. destruct n as [|n]; [lia|]. cbn [seq flat_map]. rewrite Nat.sub_0_r. cbn [seq app fold_left add_once contains existsb].
  generalize (seq 1 n ++ flat_map (fun i => seq i (S n - i)) (seq 1 n)). intros l. induction l as [|a l IH]; [reflexivity|]. cbn [fold_left add_once contains existsb]. rewrite Nat.eqb_refl. cbn [orb]. exact IH.
Qed.
Lemma clearF_none s : no_forces (clearF s).
Proof.
  intros l p L E. unfold clearF in *. cbn in *. rewrite map_first_nth in E. destruct (Nat.ltb_spec l (st_size s)); [|lia]. destruct (nth_error (st_mem s) l); [|discriminate]. injection E as <-. reflexivity.
Qed.
(* What a run does to each simulation *)
Lemma run_all_spec fuel evs arrange evolve ss ss' : about (length ss) evs -> run_all fuel evs arrange evolve ss = Some ss' ->
  length ss' = length ss /\ forall i s s', nth_error ss i = Some s -> nth_error ss' i = Some s' ->
    (0 < st_number (m_store s) -> exists t, s' = after_run arrange evolve i t s) /\
    ((forall j u, nth_error ss j = Some u -> st_number (m_store u) <= 0) -> exists t, s' = set_times t s).
Proof.
  intros HA E. unfold run_all in E. destruct (Model_Run.run _ _ _ _ _) as [ts|] eqn:ER; [|discriminate].
  assert (LT : length ts = length ss) by (eapply run_len; [exact HA| |exact ER]; now rewrite map_length).
  assert (FB : forallb (fun s => Z.to_nat (st_number (m_store s)) =? 0)%nat ss = true <-> (forall j u, nth_error ss j = Some u -> st_number (m_store u) <= 0)).
  { rewrite forallb_forall. split.
    - intros H j u Hu. apply nth_error_In in Hu. apply H in Hu. apply Nat.eqb_eq in Hu. lia.
    - intros H u Hu. apply In_nth_error in Hu. destruct Hu as [j Hu]. apply H in Hu. apply Nat.eqb_eq. lia. }
  destruct (forallb _ ss) eqn:EF; injection E as <-; rewrite zip_len; (split; [lia|]); intros i s s' Hs Hs'; rewrite zip_nth, Hs in Hs'; destruct (nth_error ts i) as [t|] eqn:Et; try discriminate;
    cbn [Nat.add] in Hs'; injection Hs' as <-.
  - split; [intros P; destruct FB as [FB _]; specialize (FB eq_refl i s Hs); lia|]. intros _. now exists t.
  - split; [intros _; now exists t|]. intros H. apply FB in H. discriminate.
Qed.

(* Relaxation with hard spheres. Whatever the run does to the particles and the modifiers, afterwards every processor has its integrator, force master and interactions back, all objects point to
   those, no time has passed, no force is left, the run mode is idle, and the temporary integrator is gone; during the run there were only the temporary integrator
   and hard spheres, no forces at first, and the run mode kept the data objects from recording. Partial: processors with particles *)
Theorem C96_hard_spheres_partial : forall fuel evs arrange evolve ntypes rx fm hs time ss ss', (0 < ntypes)%nat -> about (length ss) evs ->
  hs_relax fuel evs arrange evolve ntypes rx fm hs time ss = Some ss' ->
  length ss' = length ss /\ forall i s s', nth_error ss i = Some s -> nth_error ss' i = Some s' -> 0 < st_number (m_store s) ->
    m_integ s' = m_integ s /\ m_master s' = m_master s /\ m_inter s' = m_inter s /\ m_ptrs s' = Some (m_integ s, m_master s) /\
    time_zero (m_times s') /\ no_forces (m_store s') /\ m_mode s' = IDLE /\ m_freed s' = rx :: m_freed s /\
    exists mid, m_integ mid = rx /\ m_master mid = fm /\ m_inter mid = [hs] /\ m_mods mid = m_mods s /\ m_ptrs mid = Some (rx, fm) /\ m_mode mid = INIT /\
      (0 <= time -> g_req (m_times mid) = time)%Q /\ m_store mid = arrange (clearF (m_store s)) /\ no_forces (clearF (m_store s)) /\
      m_mods s' = snd (evolve i mid) /\ m_store s' = clearF (arrange (fst (evolve i mid))).
Proof.
  intros fuel evs arrange evolve ntypes rx fm hs time ss ss' HN HA E. unfold hs_relax in E. destruct (run_all _ _ _ _ _) as [us|] eqn:ER; [|discriminate]. injection E as <-.
  destruct (run_all_spec _ _ _ _ _ _ ltac:(rewrite map_length; exact HA) ER) as [L H]. rewrite map_length in L. split; [rewrite zip_len; lia|].
  intros i s s' Hs Hs' P. rewrite zip_nth, Hs in Hs'. destruct (nth_error us i) as [u|] eqn:Eu; [|discriminate]. cbn [Nat.add] in Hs'. injection Hs' as <-.
  assert (Hb : nth_error (map (begin_hs ntypes rx fm hs time) ss) i = Some (begin_hs ntypes rx fm hs time s)) by (now apply map_nth_error).
  destruct (H i _ u Hb Eu) as [H1 _]. destruct (H1 P) as [t ->]. clear H1 H.
  unfold after_run. cbv zeta. destruct (evolve i _) as [st mods] eqn:EV.
  unfold end_hs, initialize. cbn [m_integ m_master m_inter m_mods m_times m_mode m_store m_ptrs m_freed begin_hs]. repeat (split; [reflexivity|]).
  split; [repeat split|]. split; [apply clearF_none|]. split; [reflexivity|]. split; [reflexivity|].
  cbn [initialize begin_hs m_integ m_master m_inter m_mods m_times m_mode m_store m_ptrs m_freed] in EV.
  eexists. repeat match goal with |- _ /\ _ => split end; cycle -2; [exact (f_equal snd (eq_sym EV))|exact (f_equal (fun x => clearF (arrange (fst x))) (eq_sym EV))| | | | | | | | |];
    cbn [m_integ m_master m_inter m_mods m_times m_mode m_store m_ptrs m_freed]; try reflexivity; [now apply add_types| |apply clearF_none].
  intros HT. unfold requestTime. cbn [g_req]. destruct (Qle_bool 0 time) eqn:EQ; [reflexivity|]. apply Qle_bool_iff in HT. congruence.
Qed.
Print Assumptions C96_hard_spheres_partial.
(* one particle, moved by the run; modifier 8 is removed by the run *)
Definition one_store : store := mkStore 1 0 0 0 [mkPart 0 5 [Some 1%Q] [Some 2%Q] [Some 3%Q] (Some 1%Q) (Some 1%Q) [] [] []] 1 1 (fun g => if g =? 5 then Some 0%nat else None) [] 6 1 false false.
Definition no_store : store := mkStore 1 0 0 0 [] 0 0 (fun _ => None) [] 0 1 false false.
Definition one_sim (st : store) : sim := mkSim 1 2 [3; 4]%nat [7; 8]%nat new_gf IDLE st None [].
Definition push : evolution := fun _ s => (set_mem (map (fun p => set_f [Some 9%Q] (set_x [Some 4%Q] p)) (st_mem (m_store s))) (m_store s), [7%nat]).
Definition two_steps : nat -> Model_Run.ev := fun _ => mkEv 1 [false] false [false].
Example C96_case : exists s', hs_relax 10 two_steps (fun s => s) push 2 11 12 13 (1 # 2) [one_sim one_store] = Some [s'] /\ 0 < st_number (m_store (one_sim one_store)) /\ about 1 two_steps /\
  m_inter s' = [3; 4]%nat /\ m_mods s' = [7%nat] /\ map p_x (st_mem (m_store s')) = [[Some 4%Q]] /\ map p_f (st_mem (m_store s')) = [[Some 0%Q]] /\ m_mode s' = IDLE.
Proof. eexists. split; [vm_compute; reflexivity|]. split; [reflexivity|]. split; [intros k; split; reflexivity|]. repeat split. Qed.
(* A simulation without particles is left in the initialisation mode, so that a later run does not record *)
Theorem C96_empty_refuted : forall fuel evs arrange evolve ntypes rx fm hs time ss ss', about (length ss) evs -> (forall j u, nth_error ss j = Some u -> st_number (m_store u) <= 0) ->
  hs_relax fuel evs arrange evolve ntypes rx fm hs time ss = Some ss' ->
  forall i s', nth_error ss' i = Some s' -> m_mode s' = INIT /\ (forall time d, d_setup d = false -> check (m_mode s') time d = (false, d)).
Proof.
  intros fuel evs arrange evolve ntypes rx fm hs time ss ss' HA HE E i s' Hs'. assert (M : m_mode s' = INIT).
  { unfold hs_relax in E. destruct (run_all _ _ _ _ _) as [us|] eqn:ER; [|discriminate]. injection E as <-.
    destruct (run_all_spec _ _ _ _ _ _ ltac:(rewrite map_length; exact HA) ER) as [L H]. rewrite map_length in L.
    rewrite zip_nth in Hs'. destruct (nth_error ss i) as [s|] eqn:Hs; [|discriminate]. destruct (nth_error us i) as [u|] eqn:Eu; [|discriminate]. injection Hs' as <-.
    assert (Hb : nth_error (map (begin_hs ntypes rx fm hs time) ss) i = Some (begin_hs ntypes rx fm hs time s)) by (now apply map_nth_error).
    destruct (H i _ u Hb Eu) as [_ H1]. destruct H1 as [t ->].
    { intros j w Hw. rewrite nth_error_map in Hw. destruct (nth_error ss j) as [x|] eqn:Ex; [|discriminate]. injection Hw as <-. cbn. now apply (HE j). }
    reflexivity. }
  split; [exact M|]. intros t d D. unfold check. rewrite M, D. reflexivity.
Qed.
Print Assumptions C96_empty_refuted.
Example C96_empty_case : exists s', hs_relax 10 two_steps (fun s => s) push 2 11 12 13 (1 # 2) [one_sim no_store] = Some [s'] /\ m_mode s' = INIT.
Proof. eexists. split; [vm_compute; reflexivity|reflexivity]. Qed.

(* Relaxation with the forces of the simulation: the integrator comes back, force master and interactions were never touched, no time has passed. *)
Theorem C96_relax_partial : forall fuel evs arrange evolve rx time ss ss', about (length ss) evs -> relax fuel evs arrange evolve rx time ss = Some ss' ->
  length ss' = length ss /\ forall i s s', nth_error ss i = Some s -> nth_error ss' i = Some s' -> 0 < st_number (m_store s) ->
    m_integ s' = m_integ s /\ m_master s' = m_master s /\ m_inter s' = m_inter s /\ time_zero (m_times s') /\ m_mode s' = IDLE /\ m_freed s' = rx :: m_freed s /\
    exists mid, m_integ mid = rx /\ m_master mid = m_master s /\ m_inter mid = m_inter s /\ m_mods mid = m_mods s /\ m_mode mid = INIT /\
      (0 <= time -> g_req (m_times mid) = time)%Q /\ m_store mid = arrange (clearF (m_store s)) /\ no_forces (clearF (m_store s)) /\ (m_store s', m_mods s') = evolve i mid.
Proof.
  intros fuel evs arrange evolve rx time ss ss' HA E. unfold relax in E. destruct (run_all _ _ _ _ _) as [us|] eqn:ER; [|discriminate]. injection E as <-.
  destruct (run_all_spec _ _ _ _ _ _ ltac:(rewrite map_length; exact HA) ER) as [L H]. rewrite map_length in L. split; [rewrite zip_len; lia|].
  intros i s s' Hs Hs' P. rewrite zip_nth, Hs in Hs'. destruct (nth_error us i) as [u|] eqn:Eu; [|discriminate]. cbn [Nat.add] in Hs'. injection Hs' as <-.
  assert (Hb : nth_error (map (begin_relax rx time) ss) i = Some (begin_relax rx time s)) by (now apply map_nth_error).
  destruct (H i _ u Hb Eu) as [H1 _]. destruct (H1 P) as [t ->]. clear H1 H.
  unfold after_run. cbv zeta. destruct (evolve i _) as [st mods] eqn:EV.
  unfold end_relax. cbn [m_integ m_master m_inter m_mods m_times m_mode m_store m_ptrs m_freed begin_relax initialize]. repeat (split; [reflexivity|]).
  split; [repeat split|]. split; [reflexivity|]. split; [reflexivity|].
  cbn [initialize begin_relax m_integ m_master m_inter m_mods m_times m_mode m_store m_ptrs m_freed] in EV.
  eexists. repeat match goal with |- _ /\ _ => split end; cycle -1; [exact (eq_sym EV)| | | | | | | |]; cbn [m_integ m_master m_inter m_mods m_times m_mode m_store m_ptrs m_freed]; try reflexivity; [|apply clearF_none].
  intros HT. unfold requestTime. cbn [g_req]. destruct (Qle_bool 0 time) eqn:EQ; [reflexivity|]. apply Qle_bool_iff in HT. congruence.
Qed.
Print Assumptions C96_relax_partial.
(* But the objects are left with a pointer to the deleted integrator, and the forces of the last step are left *)
Theorem C96_dangling_refuted : exists s', relax 10 two_steps (fun s => s) push 11 (1 # 2) [one_sim one_store] = Some [s'] /\
  m_ptrs s' = Some (11, 2)%nat /\ In 11%nat (m_freed s') /\ m_integ s' = 1%nat /\ ~ no_forces (m_store s').
Proof.
  eexists. split; [vm_compute; reflexivity|]. split; [reflexivity|]. split; [now left|]. split; [reflexivity|].
  intros H. specialize (H 0%nat _ ltac:(cbn; lia) eq_refl). cbn in H. discriminate.
Qed.
Print Assumptions C96_dangling_refuted.
(* until the next run: whatever the pointers are, every run with particles sets them first *)
Theorem C96_next_run : forall fuel evs arrange evolve ss ss', about (length ss) evs -> run_all fuel evs arrange evolve ss = Some ss' ->
  forall i s s', nth_error ss i = Some s -> nth_error ss' i = Some s' -> 0 < st_number (m_store s) ->
  exists mid, m_ptrs mid = Some (m_integ s, m_master s) /\ m_inter mid = m_inter s /\ (m_store s', m_mods s') = evolve i mid /\
    m_ptrs s' = Some (m_integ s, m_master s) /\ m_integ s' = m_integ s /\ m_master s' = m_master s /\ m_inter s' = m_inter s /\ m_freed s' = m_freed s /\
    (m_mode mid = match m_mode s with IDLE => SIM | m => m end) /\ m_mode s' = IDLE.
Proof.
  intros fuel evs arrange evolve ss ss' HA E i s s' Hs Hs' P. destruct (run_all_spec _ _ _ _ _ _ HA E) as [_ H]. destruct (H i s s' Hs Hs') as [H1 _]. destruct (H1 P) as [t ->].
  unfold after_run. cbv zeta. destruct (evolve i _) as [st mods] eqn:EV. cbn [m_integ m_master m_inter m_mods m_times m_mode m_store m_ptrs m_freed initialize] in *.
  eexists. repeat match goal with |- _ /\ _ => split end; cycle 2; [exact (eq_sym EV)| | | | | | | | |]; reflexivity.
Qed.
Print Assumptions C96_next_run.
(* As the configuration file asks: with times that are not positive nothing happens *)
Theorem C96_file : forall fuel1 fuel2 evs1 evs2 arrange evolve1 evolve2 ntypes rx1 fm hs rx2 t1 t2 ss,
  let R := relaxed fuel1 fuel2 evs1 evs2 arrange evolve1 evolve2 ntypes rx1 fm hs rx2 t1 t2 ss in
  (t1 <= 0 -> t2 <= 0 -> R = Some ss)%Q /\
  (0 < t1 -> t2 <= 0 -> R = hs_relax fuel1 evs1 arrange evolve1 ntypes rx1 fm hs t1 ss)%Q /\
  (t1 <= 0 -> 0 < t2 -> R = relax fuel2 evs2 arrange evolve2 rx2 t2 ss)%Q /\
  (0 < t1 -> 0 < t2 -> forall ss1, hs_relax fuel1 evs1 arrange evolve1 ntypes rx1 fm hs t1 ss = Some ss1 -> R = relax fuel2 evs2 arrange evolve2 rx2 t2 ss1)%Q.
Proof.
  intros. unfold R, relaxed. assert (N : forall t, (0 < t)%Q -> Qle_bool t 0 = false) by (intros t H; destruct (Qle_bool t 0) eqn:E; [apply Qle_bool_iff in E; lra|reflexivity]).
  assert (Y : forall t, (t <= 0)%Q -> Qle_bool t 0 = true) by (intros t H; now apply Qle_bool_iff).
  split; [intros A B; now rewrite (Y _ A), (Y _ B)|]. split; [intros A B; rewrite (N _ A), (Y _ B); now destruct (hs_relax _ _ _ _ _ _ _ _ _ _)|].
  split; [intros A B; now rewrite (Y _ A), (N _ B)|]. intros A B ss1 E. now rewrite (N _ A), E, (N _ B).
Qed.
Print Assumptions C96_file.

(* ------------------------------------------------------------------ velocities *)
Lemma at_inj s l p q : at_ s l p -> at_ s l q -> p = q.
Proof. intros [_ A] [_ B]. congruence. Qed.
Lemma modify_v s l p v : lookup_exact s -> at_ s l p -> exists s', modify (Z.of_nat l) (set_v v) s = Some s' /\ st_size s' = st_size s /\ st_number s' = st_number s /\ lookup_exact s' /\
  (forall k q, at_ s' k q <-> exists q0, at_ s k q0 /\ q = (if (k =? l)%nat then set_v v q0 else q0)).
Proof.
  intros HX HP. pose proof HP as [LS EP]. unfold modify. destruct (Z.ltb_spec (Z.of_nat l) 0); [lia|]. rewrite Nat2Z.id, EP.
  assert (LL : (l < length (st_mem s))%nat) by (apply nth_error_Some; congruence).
  destruct (write_spec l (set_v v p) (st_mem s) LL) as (m' & W & Wl & Wn). rewrite W. exists (set_mem m' s). split; [reflexivity|]. split; [reflexivity|]. split; [reflexivity|].
  assert (AT : forall k q, at_ (set_mem m' s) k q <-> exists q0, at_ s k q0 /\ q = (if (k =? l)%nat then set_v v q0 else q0)).
  { intros k q. unfold at_. cbn [st_size st_mem set_mem]. rewrite Wn. destruct (Nat.eqb_spec k l) as [->|NE].
    - split; [intros [A B]; exists p; split; [tauto|congruence]|]. intros (q0 & [A B] & ->). split; [exact A|]. congruence.
    - split; [intros [A B]; exists q; tauto|]. intros (q0 & [A B] & ->). tauto. }
  split; [|exact AT].
  assert (EX : forall k g, (exists q, at_ (set_mem m' s) k q /\ alive q /\ p_gid q = g) <-> (exists q, at_ s k q /\ alive q /\ p_gid q = g)).
  { intros k g. split.
    - intros (q & A & B & C). apply AT in A. destruct A as (q0 & A & ->). exists q0. split; [exact A|]. destruct (k =? l)%nat; auto.
    - intros (q & A & B & C). exists (if (k =? l)%nat then set_v v q else q). split; [apply AT; eauto|]. destruct (k =? l)%nat; auto. }
  intros g k. destruct (HX g k) as (X1 & X2 & X3). change (getLocalID g (set_mem m' s)) with (getLocalID g s). rewrite EX. split; [exact X1|]. split; [|exact X3].
  rewrite X2. split; intros N (j & q & A); apply N; [assert (W2 : exists q, at_ s j q /\ alive q /\ p_gid q = g) by (apply EX; eauto)|assert (W2 : exists q, at_ (set_mem m' s) j q /\ alive q /\ p_gid q = g) by (apply EX; eauto)];
    destruct W2 as (q' & W2); eauto.
Qed.
(* Each particle that is still there and was created with a velocity has this velocity again (the last one given for its id); the other particles, and everything else, are as
   before. For all stores that look up ids correctly (C02) *)
Theorem C97_velocities : forall fs s, lookup_exact s -> exists s', fix_velocities fs s = Some s' /\ st_size s' = st_size s /\ st_number s' = st_number s /\ lookup_exact s' /\
  forall l p, at_ s l p -> exists p', at_ s' l p' /\ same_but_v p p' /\ (forall v, alive p -> last_given fs (p_gid p) v -> p_v p' = v) /\
    ((forall v, ~ In (p_gid p, v) fs) \/ ~ alive p -> p' = p).
Proof.
  induction fs as [|[g v] fs IH]; intros s HX.
  - exists s. split; [reflexivity|]. split; [reflexivity|]. split; [reflexivity|]. split; [exact HX|]. intros l p A. exists p. split; [exact A|]. split; [repeat split|]. split; [|auto].
    intros v _ (a & b & E & _). destruct a; discriminate.
  - cbn [fix_velocities].
    assert (LG : forall x w, last_given ((g, v) :: fs) x w -> last_given fs x w \/ ((forall u, ~ In (x, u) fs) /\ x = g /\ w = v)).
    { intros x w (a & b & E & N). destruct a as [|[g' v'] a]; cbn in E; injection E as E1 E2.
      - right. subst. auto.
      - left. exists a, b. subst. auto. }
    destruct (HX g 0%nat) as (_ & X2 & [N|[l0 E]]).
    + rewrite N. cbn [Z.leb Z.compare andb]. destruct (IH s HX) as (s' & F & A1 & A2 & A3 & A4). exists s'. split; [exact F|]. split; [exact A1|]. split; [exact A2|]. split; [exact A3|].
      intros l p AP. destruct (A4 l p AP) as (p' & B1 & B2 & B3 & B4). exists p'. split; [exact B1|]. split; [exact B2|]. split.
      * intros w AL LW. destruct (LG _ _ LW) as [LW'|(_ & EG & _)]; [now apply B3|]. exfalso. apply X2 in N. apply N. exists l, p. auto.
      * intros [Hn|Hn]; apply B4; [left|now right]. intros w Hw. apply (Hn w). now right.
    + rewrite E. destruct (HX g l0) as (X1 & _ & _). apply X1 in E. destruct E as (p0 & AT0 & AL0 & EG0).
      replace (0 <=? Z.of_nat l0) with true by (symmetry; apply Z.leb_le; lia). destruct AT0 as [LS0 EN0] eqn:EAT. replace (Z.of_nat l0 <? Z.of_nat (st_size s)) with true by (symmetry; apply Z.ltb_lt; lia). cbn [andb].
      destruct (modify_v s l0 p0 v HX (conj LS0 EN0)) as (s1 & M & M1 & M2 & M3 & M4). rewrite M. destruct (IH s1 M3) as (s' & F & A1 & A2 & A3 & A4).
      exists s'. split; [exact F|]. split; [congruence|]. split; [congruence|]. split; [exact A3|].
      intros l p AP. set (p1 := if (l =? l0)%nat then set_v v p else p). assert (AP1 : at_ s1 l p1) by (apply M4; eauto).
      assert (S1 : same_but_v p p1) by (unfold p1; destruct (l =? l0)%nat; repeat split).
      destruct (A4 l p1 AP1) as (p' & B1 & B2 & B3 & B4). exists p'. split; [exact B1|].
      assert (G1 : p_gid p1 = p_gid p /\ p_type p1 = p_type p) by (unfold p1; destruct (l =? l0)%nat; auto). destruct G1 as [G1 T1].
      split; [destruct B2 as (C1 & C2 & C3 & C4 & C5 & C6 & C7 & C8 & C9); destruct S1 as (D1 & D2 & D3 & D4 & D5 & D6 & D7 & D8 & D9); repeat split; congruence|]. split.
      * intros w AL LW. destruct (LG _ _ LW) as [LW'|(NI & EG & ->)].
        -- apply B3; [unfold alive in *; now rewrite T1|now rewrite G1].
        -- rewrite B4 by (left; now rewrite G1). unfold p1. destruct (Nat.eqb_spec l l0) as [->|NE]; [reflexivity|].
           exfalso. apply NE. destruct (HX g l) as (X1' & _ & _). assert (E1 : getLocalID g s = Z.of_nat l) by (apply X1'; eauto). assert (E2 : getLocalID g s = Z.of_nat l0) by (apply X1; exists p0; repeat split; auto). lia.
      * intros Hn. unfold p1 in *. destruct (Nat.eqb_spec l l0) as [->|NE].
        -- exfalso. assert (p = p0) by (eapply at_inj; [exact AP|split; eassumption]). subst p. destruct Hn as [Hn|Hn]; [|contradiction]. apply (Hn v). left. now rewrite EG0.
        -- apply B4. destruct Hn as [Hn|Hn]; [left|now right]. intros w Hw. apply (Hn w). now right.
Qed.
Print Assumptions C97_velocities.
Lemma one_exact : lookup_exact one_store.
Proof.
  intros g l. unfold getLocalID, at_, one_store. cbn [st_map st_size st_mem]. destruct (Z.eqb_spec g 5) as [->|NE].
  - split; [split|split; [split|]].
    + intros E. assert (l = 0%nat) by lia. subst. eexists. split; [split; [lia|reflexivity]|]. split; [unfold alive; cbn; lia|reflexivity].
    + intros (p & [L E] & _). lia.
    + intros E. lia.
    + intros N. exfalso. apply N. exists 0%nat. eexists. split; [split; [lia|reflexivity]|]. split; [unfold alive; cbn; lia|reflexivity].
    + right. now exists 0%nat.
  - split; [split|split; [split|]].
    + intros E. lia.
    + intros (p & [L E] & _ & G). assert (l = 0%nat) by lia. subst l. injection E as <-. cbn in G. congruence.
    + intros _ (k & p & [L E] & _ & G). assert (k = 0%nat) by lia. subst k. injection E as <-. cbn in G. congruence.
    + reflexivity.
    + now left.
Qed.
Example C97_case : lookup_exact one_store /\ last_given [(5, [Some 8%Q]); (5, [Some 1%Q]); (3, [Some 2%Q])] 5 [Some 1%Q] /\
  exists s', fix_velocities [(5, [Some 8%Q]); (5, [Some 1%Q]); (3, [Some 2%Q])] one_store = Some s' /\ map p_v (st_mem s') = [[Some 1%Q]].
Proof.
  split; [exact one_exact|]. split; [exists [(5, [Some 8%Q])], [(3, [Some 2%Q])]; split; [reflexivity|]; intros w [E|[]]; discriminate|]. eexists. split; [vm_compute; reflexivity|reflexivity].
Qed.
