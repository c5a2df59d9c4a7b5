(* C34 (run), C62 (processors stop together). *)
From Coq Require Import QArith Qround List Bool Arith Lia Lqa.
From Verif Require Import Model_Run Spec_Run Proofs_Run.
Import ListNotations.
Local Open Scope Q_scope.

(* ------------------------------------------------------------------ C34 *)
(* run(t) on one processor with n particles; time steps of at least m. The run ends with the first step at whose beginning the
   elapsed time has reached t, or in which an object calls terminate(); the counters say how many steps were made, how much time they took, what was simulated in total and what was asked for in total. *)
Theorem C34_run_partial : forall evs s t m n, 0 < t -> 0 < m -> (forall k, m <= e_dt (evs k)) -> about 1 evs -> (0 < n)%nat ->
  exists k, (t <= elapsed evs k \/ calls (evs k)) /\ (forall j, (j < k)%nat -> elapsed evs j < t /\ ~ calls (evs j)) /\
  forall fuel, (k + 1 < fuel)%nat -> exists s', run fuel evs [n] t [s] = Some [s'] /\
    g_iter s' = S k /\ g_el s' = elapsed evs (S k) /\ g_tot s' == g_tot s + elapsed evs (S k) /\ g_treq s' == g_treq s + t /\ g_req s' = 0.
Proof.
  intros evs s t m n Ht Hm HM HA Hn.
  set (P := fun k => (existsb (fun b => b) (e_before (evs k)) || Qle_bool t (elapsed evs k) || existsb (fun b => b) (e_after (evs k)))%bool).
  assert (PT : forall k, P k = true <-> t <= elapsed evs k \/ calls (evs k)). { intros k. unfold P, calls. rewrite !orb_true_iff, Qle_bool_iff, !in_exists. tauto. }
  destruct (elapsed_reaches evs m t Hm Ht HM) as (K & HK). destruct (least P K) as (k & Hk & _ & HL); [apply PT; now left|].
  exists k. split; [now apply PT|]. split.
  { intros j Hj. specialize (HL j Hj). assert (A : ~ (t <= elapsed evs j \/ calls (evs j))) by (rewrite <- PT, HL; discriminate). split; [|tauto]. destruct (Qlt_le_dec (elapsed evs j) t); [assumption|tauto]. }
  intros fuel Hf. unfold run. cbn [forallb existsb]. destruct (Nat.eqb_spec n 0); [lia|]. cbn [andb orb].
  set (s1 := start (request t s)). assert (E : map start (map (request t) [s]) = [s1]) by reflexivity. rewrite E.
  assert (HR : (if Qle_bool t 0 then g_req s else t) = t) by (destruct (Qle_bool t 0) eqn:X; [apply Qle_bool_iff in X; lra|reflexivity]).
  destruct (loop_until evs t P (fun _ ss => exists s, ss = [s] /\ g_term s = false) [s1] Ht) with (n := k) (k := 0%nat) (ss := [s1]) (fuel := fuel) as (ss' & -> & F).
  - cbn. lia.
  - intros j ss F (x & -> & HT). inversion F as [|? ? ? ? F1 _]; subst. destruct (HA j) as [HB HC]. destruct (step_one evs j t s1 x) as (x' & -> & F' & T'); [exact HB|exact HC|specialize (HM j); lra|exact F1|exact HT|].
    split; [constructor; [exact F'|constructor]|]. intros HP. exists x'. split; [reflexivity|]. rewrite T'. exact HP.
  - intros j Hj. apply HL. lia.
  - exact Hk.
  - constructor; [|constructor]. unfold at_step, s1, start, request. cbn. rewrite HR. repeat split. ring.
  - exists s1. split; reflexivity.
  - lia.
  - cbn [option_map]. inversion F as [|? s2 ? ? (A1 & A2 & A3 & A4 & A5 & A6) F2]; subst. inversion F2; subst. cbn [map]. eexists. split; [reflexivity|]. cbn [finish g_iter g_el g_tot g_treq g_req].
    cbn [plus] in *. rewrite A5, A3. split; [reflexivity|]. split; [reflexivity|]. split; [rewrite A4; reflexivity|]. split; [|reflexivity]. rewrite A2. unfold s1, start, request. cbn. rewrite HR. reflexivity.
Qed.
Print Assumptions C34_run_partial.
(* If nothing calls terminate(), the run goes on for the time asked for, a whole time step more, and less than a further one. *)
Theorem C34_overshoot_partial : forall evs s t m n, 0 < t -> 0 < m -> (forall k, m <= e_dt (evs k)) -> about 1 evs -> (0 < n)%nat -> (forall k, ~ calls (evs k)) ->
  exists k, forall fuel, (k + 2 < fuel)%nat -> exists s', run fuel evs [n] t [s] = Some [s'] /\ g_iter s' = S (S k) /\
    t + e_dt (evs (S k)) <= g_el s' /\ g_el s' < t + e_dt (evs k) + e_dt (evs (S k)) /\ g_tot s' == g_tot s + g_el s' /\ g_treq s' == g_treq s + t /\ g_req s' = 0.
Proof.
  intros evs s t m n Ht Hm HM HA Hn HC. destruct (C34_run_partial evs s t m n Ht Hm HM HA Hn) as (k & [HT|HT] & HL & HR); [|now apply HC in HT].
  destruct k as [|k]; [cbn in HT; lra|]. exists k. intros fuel Hf. destruct (HR fuel) as (s' & E & A1 & A2 & A3 & A4 & A5); [lia|]. exists s'. split; [exact E|]. split; [exact A1|].
  destruct (HL k) as [A _]; [lia|]. rewrite A2. cbn [elapsed] in *. repeat split; try assumption; lra.
Qed.
Print Assumptions C34_overshoot_partial.
(* Without a request (run() or run(0) after the last one was used up) no step is made. *)
Theorem C34_no_request : forall fuel evs s n, g_req s <= 0 -> exists s', run (S fuel) evs [S n] 0 [s] = Some [s'] /\ g_iter s' = 0%nat /\ g_el s' = 0 /\ g_tot s' = g_tot s.
Proof.
  intros fuel evs s n H. unfold run. cbn [forallb existsb Nat.eqb andb orb map loop]. assert (E : goes_on (start (request 0 s)) = false).
  { unfold goes_on. cbn. apply Qle_bool_iff in H. now rewrite H. }
  rewrite E. cbn. eexists. split; [reflexivity|]. repeat split.
Qed.
Print Assumptions C34_no_request.
Definition steady (np : nat) (d : Q) : nat -> ev := fun _ => mkEv d (repeat false np) true (repeat false np).
Example C34_case : about 1 (steady 1 1) /\ (forall k, ~ calls (steady 1 1 k)) /\ (forall k, 1 <= e_dt (steady 1 1 k)) /\
  run 10 (steady 1 1) [3%nat] 2 [new_gf] = Some [mkG 0 2 3 3 3 false true 2].
Proof.
  split; [intros k; split; reflexivity|]. split; [intros k [H|H]; cbn in H; intuition discriminate|]. split; [intros k; cbn; lra|]. vm_compute. reflexivity.
Qed.
(* C34 fails: the overshoot is never less than a time step (above); steps of length 1, run(2): three steps. *)
Theorem C34_overshoot_refuted : exists s', run 10 (steady 1 1) [3%nat] 2 [new_gf] = Some [s'] /\ g_el s' == 2 + 1.
Proof. eexists. split; [vm_compute; reflexivity|]. reflexivity. Qed.
Print Assumptions C34_overshoot_refuted.
(* Runs add up: for every history of runs on a processor with particles, whatever happens in them, the total time is the sum of the elapsed times,
   and the total time asked for the sum of the times asked for. *)
Lemma step_one_any e s : length (e_before e) = 1%nat -> length (e_after e) = 1%nat -> exists s', step_all e [s] = [s'] /\ g_req s' = g_req s /\ g_treq s' = g_treq s /\ g_tot s' - g_el s' == g_tot s - g_el s.
Proof.
  intros HB HA. unfold step_all. destruct (e_before e) as [|b [|]]; cbn in HB; try lia. destruct (e_after e) as [|a [|]]; cbn in HA; try lia. cbn [combine map length fst snd].
  destruct (maybe_keeps 1 b s) as (B1 & B2 & B3 & B4 & _). set (s1 := maybe 1 b s) in *.
  assert (E : exists s2, (if e_remake e then sync [s1] else [s1]) = [s2] /\ g_req s2 = g_req s1 /\ g_treq s2 = g_treq s1 /\ g_el s2 = g_el s1 /\ g_tot s2 = g_tot s1) by (destruct (e_remake e); eexists; (split; [reflexivity|]); repeat split).
  destruct E as (s2 & -> & C1 & C2 & C3 & C4). cbn [combine map fst snd]. eexists. split; [reflexivity|]. destruct (advance_keeps 1 a (e_dt e) s2) as (D1 & D2 & D3 & D4 & _). rewrite D1, D2, D3, D4, C1, C2, C3, C4, B1, B2, B3, B4. repeat split. ring.
Qed.
Lemma loop_any : forall fuel evs k s r, about 1 evs -> loop fuel evs k [s] = Some r -> exists s', r = [s'] /\ g_treq s' = g_treq s /\ g_tot s' - g_el s' == g_tot s - g_el s.
Proof.
  induction fuel as [|fuel IH]; intros evs k s r HA H; cbn [loop] in H; [discriminate|]. destruct (forallb goes_on [s]).
  - destruct (step_one_any (evs k) s) as (s1 & E & A1 & A2 & A3); [apply HA|apply HA|]. rewrite E in H. destruct (IH evs (S k) s1 r HA H) as (s' & -> & B1 & B2). exists s'. split; [reflexivity|]. split; [congruence|]. lra.
  - destruct (existsb goes_on [s]); [discriminate|]. injection H as <-. exists s. repeat split.
Qed.
Theorem C34_runs_add_up : forall h s l s', (forall o, In o h -> (0 < o_n o)%nat /\ 0 < o_time o /\ about 1 (o_evs o)) -> runs h s = Some (l, s') ->
  g_tot s' == g_tot s + sumQ l /\ g_treq s' == g_treq s + sumQ (map o_time h).
Proof.
  induction h as [|o h IH]; intros s l s' HH H; cbn [runs] in H; [injection H as <- <-; cbn; split; ring|].
  destruct (HH o (or_introl eq_refl)) as (Hn & Ht & HA). destruct (run _ _ _ _ _) as [[|s1 [|]]|] eqn:E; try discriminate. destruct (runs h s1) as [[l2 s2]|] eqn:E2; [|discriminate]. injection H as <- <-.
  destruct (IH s1 l2 s2 (fun o' Ho => HH o' (or_intror Ho)) E2) as [A B]. unfold run in E. cbn [forallb existsb] in E. destruct (Nat.eqb_spec (o_n o) 0); [lia|]. cbn [andb orb map] in E.
  destruct (loop _ _ _ _) as [r|] eqn:EL; [|discriminate]. destruct (loop_any _ _ _ _ _ HA EL) as (x & -> & T1 & T2). cbn in E. injection E as <-. cbn [finish g_tot g_el g_treq] in *. cbn [sumQ fold_right map]. unfold sumQ in A, B. rewrite A, B.
  split; [cbn in T2; lra|]. rewrite T1. cbn. destruct (Qle_bool (o_time o) 0) eqn:X; [apply Qle_bool_iff in X; lra|]. ring.
Qed.
Print Assumptions C34_runs_add_up.
Example C34_history_case : exists s', runs [mkRun 10 (steady 1 1) 3 2; mkRun 10 (steady 1 (1 # 2)) 3 1] new_gf = Some ([3; 12 # 8], s') /\ g_tot s' == 9 # 2 /\ g_treq s' == 3.
Proof. eexists. split; [vm_compute; reflexivity|]. split; reflexivity. Qed.
(* ... but not on a processor without particles: after run(1), run(1) the elapsed time is reported as 2 ... *)
Theorem C34_empty_refuted : exists s1 s2, run 1 (steady 1 1) [0%nat] 1 [new_gf] = Some [s1] /\ run 1 (steady 1 1) [0%nat] 1 [s1] = Some [s2] /\ g_el s2 == 2 /\ g_iter s2 = 0%nat.
Proof. do 2 eexists. split; [vm_compute; reflexivity|]. split; [vm_compute; reflexivity|]. split; reflexivity. Qed.
Print Assumptions C34_empty_refuted.
(* ... and the request is not used up: run() without an argument simulates it once more. *)
Theorem C34_empty_request_refuted : exists s1 s2, run 1 (steady 1 1) [0%nat] 1 [new_gf] = Some [s1] /\ run 1 (steady 1 1) [0%nat] 0 [s1] = Some [s2] /\ g_treq s2 == 2 /\ g_tot s2 == 2.
Proof. do 2 eexists. split; [vm_compute; reflexivity|]. split; [vm_compute; reflexivity|]. split; reflexivity. Qed.
Print Assumptions C34_empty_request_refuted.

(* ------------------------------------------------------------------ C62 *)
(* Several processors, all with particles, the handlers remade again and again: no processor waits forever, and all of them stop after the same step, the first one with a remake
   after the time has been reached on its way or an object on some processor has called terminate(). *)
Theorem C62_stop_together_partial : forall evs ss t m ns, 0 < t -> 0 < m -> (forall k, m <= e_dt (evs k)) -> (2 <= length ss)%nat -> about (length ss) evs ->
  (forall k, exists j, (k <= j)%nat /\ e_remake (evs j) = true) -> length ns = length ss -> (forall n, In n ns -> (0 < n)%nat) ->
  exists k, e_remake (evs k) = true /\ pending evs t k /\ (forall j, (j < k)%nat -> e_remake (evs j) = true -> ~ pending evs t j) /\
  forall fuel, (k + 1 < fuel)%nat -> exists ss', run fuel evs ns t ss = Some ss' /\ length ss' = length ss /\
    forall s', In s' ss' -> g_iter s' = S k /\ g_el s' = elapsed evs (S k) /\ g_req s' = 0.
Proof.
  intros evs ss t m ns Ht Hm HM HN HA HR HL HP.
  set (c := fun k => (Qle_bool t (elapsed evs k) || existsb (fun b => b) (e_before (evs k)) || existsb (fun b => b) (e_after (evs k)))%bool).
  set (P := fun k => (e_remake (evs k) && (existsb c (seq 0 k) || existsb (fun b => b) (e_before (evs k))))%bool).
  assert (CT : forall k, c k = true <-> t <= elapsed evs k \/ calls (evs k)). { intros k. unfold c, calls. rewrite !orb_true_iff, Qle_bool_iff, !in_exists. tauto. }
  assert (PT : forall k, P k = true <-> e_remake (evs k) = true /\ pending evs t k).
  { intros k. unfold P, pending. rewrite andb_true_iff, orb_true_iff, in_exists, existsb_exists. split; intros [A B]; (split; [exact A|]).
    - destruct B as [(j & B & C)|B]; [right|now left]. apply in_seq in B. exists j. split; [lia|]. now apply CT.
    - destruct B as [B|(j & B & C)]; [now right|left]. exists j. split; [apply in_seq; lia|now apply CT]. }
  destruct (elapsed_reaches evs m t Hm Ht HM) as (K0 & HK0). destruct (HR (S K0)) as (K & HK1 & HK2).
  destruct (least P K) as (k & Hk & _ & HM2); [apply PT; split; [exact HK2|]; right; exists K0; split; [lia|now left]|].
  exists k. apply PT in Hk as HK3. destruct HK3 as [Ha Hb]. split; [exact Ha|]. split; [exact Hb|]. split; [intros j Hj Hr Hp; assert (X : P j = true) by (apply PT; auto); rewrite HM2 in X by exact Hj; discriminate|].
  intros fuel Hf. unfold run. destruct ns as [|n0 ns]; [cbn in HL; lia|].
  assert (E0 : existsb (fun n => n =? 0)%nat (n0 :: ns) = false). { destruct (existsb _ _) eqn:E; [|reflexivity]. apply existsb_exists in E. destruct E as (x & Hx & E). apply Nat.eqb_eq in E. apply HP in Hx. lia. }
  assert (E1 : forallb (fun n => n =? 0)%nat (n0 :: ns) = false). { cbn. assert (X := HP n0 (or_introl eq_refl)). destruct (Nat.eqb_spec n0 0); [lia|reflexivity]. }
  rewrite E1, E0. set (ss1 := map start (map (request t) ss)). assert (L1 : length ss1 = length ss) by (unfold ss1; now rewrite !map_length).
  assert (HQ : forall r, (if Qle_bool t 0 then r else t) = t) by (intros r; destruct (Qle_bool t 0) eqn:X; [apply Qle_bool_iff in X; lra|reflexivity]).
  destruct (loop_until evs t P (fun k ss => length ss = length ss1 /\ existsb g_term ss = existsb c (seq 0 k)) ss1 Ht) with (n := k) (k := 0%nat) (ss := ss1) (fuel := fuel) as (ss' & -> & F).
  - lia.
  - intros j xs F (LX & TX). destruct (HA j) as [HB HC]. destruct (step_several evs j t ss1 xs) as (F' & L' & T'); [lia|congruence|congruence|specialize (HM j); lra|exact F|].
    split; [unfold P; rewrite <- TX; exact F'|]. intros _. split; [congruence|]. rewrite T', TX, seq_S, existsb_app. cbn [existsb plus]. assert (X : c j = (Qle_bool t (elapsed evs j) || existsb (fun b : bool => b) (e_before (evs j)) || existsb (fun b : bool => b) (e_after (evs j)))%bool) by reflexivity. rewrite X. destruct (existsb c (seq 0 j)), (existsb (fun b => b) (e_before _)), (Qle_bool t (elapsed evs j)), (existsb (fun b => b) (e_after _)); reflexivity.
  - intros j Hj. apply HM2. lia.
  - exact Hk.
  - clear -HQ. unfold ss1. clear ss1. induction ss as [|s ss IH]; cbn; constructor; [|exact IH]. unfold at_step, start, request. cbn. rewrite HQ. repeat split. ring.
  - split; [reflexivity|]. cbn. unfold ss1. clear. induction ss as [|s ss IH]; cbn; auto.
  - lia.
  - cbn [option_map]. eexists. split; [reflexivity|]. split; [rewrite map_length, <- (F2_length _ _ _ F); exact L1|].
    intros s' Hs'. apply in_map_iff in Hs'. destruct Hs' as (s & <- & Hs). revert s Hs. eapply F2_in; [|exact F]. intros x s (A1 & A2 & A3 & A4 & A5 & A6). cbn. cbn [plus] in *. rewrite A3, A5. repeat split.
Qed.
Print Assumptions C62_stop_together_partial.
Example C62_case : run 10 (steady 2 1) [3%nat; 5%nat] 2 [new_gf; new_gf] = Some [mkG 0 2 4 4 4 false true 2; mkG 0 2 4 4 4 false true 2].
Proof. vm_compute. reflexivity. Qed.
(* The overshoot has no bound: it depends on when the handlers are remade. *)
Theorem C62_overshoot_refuted : forall B : nat, exists evs, (forall k, e_dt (evs k) = 1) /\ about 2 evs /\ (forall k, exists j, (k <= j)%nat /\ e_remake (evs j) = true) /\
  exists fuel ss', run fuel evs [1%nat; 1%nat] 1 [new_gf; new_gf] = Some ss' /\ length ss' = 2%nat /\ forall s', In s' ss' -> inject_Z (Z.of_nat B) < g_el s'.
Proof.
  intros B. set (evs := fun k => mkEv 1 [false; false] (B <? k)%nat [false; false]). exists evs. split; [reflexivity|]. split; [intros k; split; reflexivity|].
  assert (HR : forall k, exists j, (k <= j)%nat /\ e_remake (evs j) = true) by (intros k; exists (S (k + B)); split; [lia|apply Nat.ltb_lt; lia]). split; [exact HR|].
  destruct (C62_stop_together_partial evs [new_gf; new_gf] 1 1 [1%nat; 1%nat]) as (k & R1 & R2 & R3 & R4); [lra|lra|intros; cbn; lra|cbn; lia|intros k; split; reflexivity|exact HR|reflexivity|intros n [<-|[<-|[]]]; lia|].
  destruct (R4 (k + 2)%nat) as (ss' & E & L & A); [lia|]. 
  assert (ER : forall n, elapsed evs n == inject_Z (Z.of_nat n)). { induction n; [reflexivity|]. cbn [elapsed]. rewrite IHn, Nat2Z.inj_succ. unfold Z.succ. rewrite inject_Z_plus. reflexivity. }
  apply Nat.ltb_lt in R1.
  exists (k + 2)%nat, ss'. split; [exact E|]. split; [exact L|]. intros s' Hs. destruct (A s' Hs) as (_ & -> & _). rewrite ER, <- Zlt_Qlt. lia.
Qed.
Print Assumptions C62_overshoot_refuted.
(* C62 fails if a processor has no particles when the run starts, and others have some: they wait for it forever. *)
Theorem C62_empty_processor_refuted : forall fuel evs t ss n, run fuel evs [S n; 0%nat] t ss = None.
Proof. reflexivity. Qed.
Print Assumptions C62_empty_processor_refuted.
