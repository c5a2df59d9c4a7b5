From Coq Require Import QArith Qround List Bool Arith Lia Lqa.
From Verif Require Import Model_Run Spec_Run.
Import ListNotations.
Local Open Scope Q_scope.

Lemma least (P : nat -> bool) K : P K = true -> exists k, P k = true /\ (k <= K)%nat /\ forall j, (j < k)%nat -> P j = false.
Proof.
  revert P. induction K as [|K IH]; intros P H; [exists 0%nat; split; [exact H|]; split; [lia|]; intros; lia|].
  destruct (P 0%nat) eqn:E; [exists 0%nat; split; [exact E|]; split; [lia|]; intros; lia|].
  destruct (IH (fun k => P (S k)) H) as (k & A & B & C). exists (S k). split; [exact A|]. split; [lia|]. intros [|j] Hj; [exact E|]. apply C. lia.
Qed.
Lemma elapsed_grows evs m : 0 < m -> (forall k, m <= e_dt (evs k)) -> forall n, inject_Z (Z.of_nat n) * m <= elapsed evs n.
Proof.
  intros Hm H. induction n as [|n IH]; [change (inject_Z (Z.of_nat 0)) with 0; cbn [elapsed]; lra|]. rewrite Nat2Z.inj_succ. unfold Z.succ. rewrite inject_Z_plus. cbn [elapsed]. specialize (H n). change (inject_Z 1) with 1. nra.
Qed.
Lemma elapsed_reaches evs m t : 0 < m -> 0 < t -> (forall k, m <= e_dt (evs k)) -> exists K, t <= elapsed evs K.
Proof.
  intros Hm Ht H. exists (Z.to_nat (Qceiling (t / m))). eapply Qle_trans; [|apply elapsed_grows; [exact Hm|exact H]].
  assert (A : 0 < t / m) by (apply Qlt_shift_div_l; [exact Hm|lra]). assert (B := Qle_ceiling (t / m)).
  assert (C : (0 <= Qceiling (t / m))%Z). { destruct (Z_lt_le_dec (Qceiling (t / m)) 0) as [L|]; [|assumption]. exfalso. apply Zlt_le_succ in L. assert (D : inject_Z (Qceiling (t / m)) <= 0) by (change 0 with (inject_Z 0); rewrite <- Zle_Qle; lia). lra. }
  rewrite Z2Nat.id by exact C. assert (E : t == t / m * m) by (field; lra). rewrite E at 1. apply Qmult_le_compat_r; lra.
Qed.
Lemma elapsed_mono evs m : 0 < m -> (forall k, m <= e_dt (evs k)) -> forall j k, (j <= k)%nat -> elapsed evs j <= elapsed evs k.
Proof. intros Hm H j k L. induction L as [|k L IH]; [lra|]. cbn [elapsed]. specialize (H k). lra. Qed.

(* What all processors have in common after k steps *)
Definition at_step (evs : nat -> ev) (k : nat) (t : Q) (r : bool) (s0 s : gf) : Prop :=
  g_req s = t /\ g_treq s = g_treq s0 /\ g_el s = elapsed evs k /\ g_tot s == g_tot s0 + elapsed evs k /\ g_iter s = k /\ g_running s = r.
Lemma maybe_keeps np c s : let s' := maybe np c s in g_req s' = g_req s /\ g_treq s' = g_treq s /\ g_el s' = g_el s /\ g_tot s' = g_tot s /\ g_iter s' = g_iter s /\ g_term s' = (g_term s || c)%bool /\
  g_running s' = (if (c && (np =? 1)%nat)%bool then false else g_running s).
Proof. unfold maybe. destruct c; cbn; [|repeat split; now rewrite orb_false_r]. repeat split; now rewrite orb_true_r. Qed.
Lemma Qprec x d : 0 < d -> Qeq_bool (x + d - d) (x + d) = false.
Proof. intros H. destruct (Qeq_bool (x + d - d) (x + d)) eqn:E; [|reflexivity]. apply Qeq_bool_iff in E. lra. Qed.
Lemma advance_keeps np c d s : let s' := advance np c d s in let due := Qle_bool (g_req s) (g_el s) in
  g_req s' = g_req s /\ g_treq s' = g_treq s /\ g_el s' = g_el s + d /\ g_tot s' = g_tot s + d /\ g_iter s' = S (g_iter s) /\
  (0 < d -> g_term s' = (g_term s || due || c)%bool /\ g_running s' = (if ((due || c) && (np =? 1)%nat)%bool then false else g_running s)).
Proof.
  unfold advance. set (due := Qle_bool _ _). destruct (maybe_keeps np due s) as (A1 & A2 & A3 & A4 & A5 & A6 & A7). set (s1 := maybe np due s) in *.
  destruct (maybe_keeps np c s1) as (B1 & B2 & B3 & B4 & B5 & B6 & B7). set (s2 := maybe np c s1) in *.
  set (s3 := mkG (g_req s2) _ _ _ _ _ _ _). destruct (maybe_keeps np (Qeq_bool (g_tot s3 - d) (g_tot s3)) s3) as (C1 & C2 & C3 & C4 & C5 & C6 & C7).
  assert (E1 : g_req s3 = g_req s) by (unfold s3; cbn [g_req]; congruence). assert (E2 : g_treq s3 = g_treq s) by (unfold s3; cbn [g_treq]; congruence).
  assert (E3 : g_el s3 = g_el s + d) by (unfold s3; cbn [g_el]; congruence). assert (E4 : g_tot s3 = g_tot s + d) by (unfold s3; cbn [g_tot]; congruence).
  assert (E5 : g_iter s3 = S (g_iter s)) by (unfold s3; cbn [g_iter]; congruence). assert (E6 : g_term s3 = (g_term s || due || c)%bool) by (unfold s3; cbn [g_term]; congruence).
  assert (E7 : g_running s3 = (if ((due || c) && (np =? 1)%nat)%bool then false else g_running s)) by (unfold s3; cbn [g_running]; rewrite B7, A7; destruct due, c, (np =? 1)%nat; reflexivity).
  clearbody s3. cbn zeta. rewrite C1, C2, C3, C4, C5. split; [exact E1|]. split; [exact E2|]. split; [exact E3|]. split; [exact E4|]. split; [exact E5|]. intros HD.
  rewrite C6, C7, E4, Qprec by exact HD. cbn [andb]. rewrite orb_false_r. split; [exact E6|exact E7].
Qed.
Lemma combine_map_snd {A B C} (f : A * B -> C) l1 l2 : length l1 = length l2 -> length (map f (combine l1 l2)) = length l2.
Proof. intros H. rewrite map_length, combine_length. lia. Qed.
Lemma in_exists (l : list bool) : existsb (fun b => b) l = true <-> In true l.
Proof. rewrite existsb_exists. split; [intros (x & A & ->); exact A|intros A; exists true; auto]. Qed.

Lemma exb_combine (f : bool * gf -> gf) (D : bool) : forall (l1 : list bool) (l2 : list gf), length l1 = length l2 ->
  (forall a b, In b l2 -> g_term (f (a, b)) = (g_term b || D || a)%bool) ->
  existsb g_term (map f (combine l1 l2)) = (existsb g_term l2 || (D && negb (length l2 =? 0)%nat) || existsb (fun b => b) l1)%bool.
Proof.
  induction l1 as [|a l1 IH]; intros [|b l2] HL H; cbn in HL; try lia; [cbn; now rewrite andb_false_r|]. cbn [combine map existsb]. rewrite IH; [|lia|intros; apply H; now right].
  rewrite H by now left. cbn. destruct (g_term b), D, a, (existsb g_term l2), (existsb _ l1), (length l2 =? 0)%nat; reflexivity.
Qed.
Lemma F2_map_combine {X} (R R' : X -> gf -> Prop) (f : bool * gf -> gf) : (forall a x s, R x s -> R' x (f (a, s))) ->
  forall xs ss bs, length bs = length ss -> Forall2 R xs ss -> Forall2 R' xs (map f (combine bs ss)).
Proof.
  intros H xs ss bs HL F. revert bs HL. induction F as [|x s xs ss A F IH]; intros [|b bs] HL; cbn in HL; try lia; [constructor|]. cbn. constructor; [now apply H|]. apply IH. lia.
Qed.
Lemma F2_map {X} (R R' : X -> gf -> Prop) (f : gf -> gf) : (forall x s, R x s -> R' x (f s)) -> forall xs ss, Forall2 R xs ss -> Forall2 R' xs (map f ss).
Proof. intros H xs ss F. induction F; cbn; constructor; auto. Qed.
Lemma F2_in {X} (R : X -> gf -> Prop) (Q' : gf -> Prop) : (forall x s, R x s -> Q' s) -> forall xs ss, Forall2 R xs ss -> forall s, In s ss -> Q' s.
Proof. intros H xs ss F. induction F as [|x s xs ss A F IH]; intros s' HI; [destruct HI|]. destruct HI as [<-|HI]; [eauto|auto]. Qed.
Lemma F2_length {X Y} (R : X -> Y -> Prop) xs ss : Forall2 R xs ss -> length xs = length ss.
Proof. induction 1; cbn; auto. Qed.

(* Several processors *)
Lemma step_several evs k t ss0 ss : (2 <= length ss)%nat -> length (e_before (evs k)) = length ss -> length (e_after (evs k)) = length ss -> 0 < e_dt (evs k) ->
  Forall2 (at_step evs k t true) ss0 ss ->
  let c := (existsb g_term ss || existsb (fun b => b) (e_before (evs k)))%bool in
  Forall2 (at_step evs (S k) t (negb (e_remake (evs k) && c))) ss0 (step_all (evs k) ss) /\ length (step_all (evs k) ss) = length ss /\
  existsb g_term (step_all (evs k) ss) = (c || Qle_bool t (elapsed evs k) || existsb (fun b => b) (e_after (evs k)))%bool.
Proof.
  intros HN HB HA HD HF c. unfold step_all. set (np := length ss). assert (NP : (np =? 1)%nat = false) by (apply Nat.eqb_neq; unfold np; lia).
  set (s1 := map _ (combine (e_before _) _)).
  assert (L1 : length s1 = np) by (unfold s1; now rewrite combine_map_snd).
  assert (F1 : Forall2 (at_step evs k t true) ss0 s1).
  { unfold s1. eapply F2_map_combine; [|exact HB|exact HF]. intros a x s (A1 & A2 & A3 & A4 & A5 & A6). cbn [fst snd]. destruct (maybe_keeps np a s) as (B1 & B2 & B3 & B4 & B5 & _ & B7). rewrite NP, andb_false_r in B7. unfold at_step.
    rewrite B1, B2, B3, B4, B5, B7. repeat split; assumption. }
  assert (T1 : existsb g_term s1 = c). { unfold s1. rewrite (exb_combine _ false); [cbn; now rewrite orb_false_r|exact HB|]. intros a b _. cbn [fst snd]. destruct (maybe_keeps np a b) as (_ & _ & _ & _ & _ & -> & _). now rewrite orb_false_r. }
  set (s2 := if e_remake (evs k) then sync s1 else s1).
  assert (L2 : length s2 = np) by (unfold s2, sync; destruct (e_remake _); [now rewrite map_length|exact L1]).
  assert (F2 : Forall2 (at_step evs k t (negb (e_remake (evs k) && c))) ss0 s2).
  { unfold s2. destruct (e_remake (evs k)); [|exact F1]. unfold sync. rewrite T1. eapply F2_map; [|exact F1]. intros x s (A1 & A2 & A3 & A4 & A5 & A6). unfold at_step. cbn. rewrite A6. repeat split; try assumption; try (now destruct c). }
  assert (T2 : existsb g_term s2 = c).
  { unfold s2. destruct (e_remake (evs k)); [|exact T1]. unfold sync. rewrite T1. clear -L1 HN. destruct s1 as [|s s1]; [cbn in L1; unfold np in L1; lia|]. cbn. destruct c; [reflexivity|]. cbn. clear. induction s1; cbn; auto. }
  split; [|split; [now rewrite combine_map_snd; [|rewrite L2]|]].
  - eapply F2_map_combine; [|rewrite L2; exact HA|exact F2]. intros a x s (A1 & A2 & A3 & A4 & A5 & A6). cbn [fst snd]. destruct (advance_keeps np a (e_dt (evs k)) s) as (B1 & B2 & B3 & B4 & B5 & B67). destruct (B67 HD) as [_ B7]. rewrite NP, andb_false_r in B7.
    unfold at_step. rewrite B1, B2, B3, B4, B5, B7, A3, A5. repeat split; try assumption. rewrite A4. cbn [elapsed]. ring.
  - rewrite (exb_combine _ (Qle_bool t (elapsed evs k))).
    + rewrite T2, L2. assert (E : (np =? 0)%nat = false) by (apply Nat.eqb_neq; unfold np; lia). rewrite E, andb_true_r. reflexivity.
    + rewrite L2; exact HA.
    + intros a b Hb. cbn [fst snd]. destruct (advance_keeps np a (e_dt (evs k)) b) as (_ & _ & _ & _ & _ & B67). destruct (B67 HD) as [-> _].
      assert (A : g_req b = t /\ g_el b = elapsed evs k) by (clear B67; revert b Hb; eapply F2_in; [|exact F2]; intros x s (A1 & _ & A3 & _); auto). destruct A as [-> ->]. reflexivity.
Qed.
(* One processor *)
Lemma step_one evs k t s0 s : length (e_before (evs k)) = 1%nat -> length (e_after (evs k)) = 1%nat -> 0 < e_dt (evs k) ->
  at_step evs k t true s0 s -> g_term s = false ->
  exists s', step_all (evs k) [s] = [s'] /\ let c := (existsb (fun b => b) (e_before (evs k)) || Qle_bool t (elapsed evs k) || existsb (fun b => b) (e_after (evs k)))%bool in
   at_step evs (S k) t (negb c) s0 s' /\ g_term s' = c.
Proof.
  intros HB HA HD (A1 & A2 & A3 & A4 & A5 & A6) HT. unfold step_all. destruct (e_before (evs k)) as [|b [|]]; cbn in HB; try lia. destruct (e_after (evs k)) as [|a [|]]; cbn in HA; try lia.
  cbn [combine map length fst snd]. destruct (maybe_keeps 1 b s) as (B1 & B2 & B3 & B4 & B5 & B6 & B7). cbn [Nat.eqb] in B7. rewrite andb_true_r in B7. rewrite HT in B6. cbn in B6. set (s1 := maybe 1 b s) in *.
  assert (E : exists s2, (if e_remake (evs k) then sync [s1] else [s1]) = [s2] /\ g_req s2 = g_req s1 /\ g_treq s2 = g_treq s1 /\ g_el s2 = g_el s1 /\ g_tot s2 = g_tot s1 /\ g_iter s2 = g_iter s1 /\ g_term s2 = g_term s1 /\ g_running s2 = g_running s1).
  { destruct (e_remake (evs k)); [|exists s1; repeat split]. unfold sync. cbn [existsb map]. rewrite orb_false_r. eexists. split; [reflexivity|]. cbn. repeat split. rewrite B6, B7. destruct b; reflexivity. }
  destruct E as (s2 & -> & C1 & C2 & C3 & C4 & C5 & C6 & C7). cbn [combine map fst snd]. eexists. split; [reflexivity|]. destruct (advance_keeps 1 a (e_dt (evs k)) s2) as (D1 & D2 & D3 & D4 & D5 & D67). destruct (D67 HD) as [D6 D7].
  rewrite C1, B1, A1, C3, B3, A3 in D6, D7. cbn [existsb]. rewrite !orb_false_r. unfold at_step. rewrite D1, D2, D3, D4, D5, D6, D7, C1, B1, A1, C2, B2, A2, C3, B3, A3, C4, B4, C5, B5, A5, C6, B6, C7, B7. cbn [Nat.eqb]. rewrite andb_true_r.
  split; [|reflexivity]. repeat split; try reflexivity; [rewrite A4; cbn [elapsed]; ring|]. rewrite A6. destruct b, (Qle_bool t (elapsed evs k)), a; reflexivity.
Qed.

Lemma goes_of evs k t r s0 s : 0 < t -> at_step evs k t r s0 s -> goes_on s = r.
Proof.
  intros Ht (A1 & _ & _ & _ & _ & A6). unfold goes_on. rewrite A1, A6. destruct (Qle_bool t 0) eqn:E; [apply Qle_bool_iff in E; lra|]. now rewrite andb_true_r.
Qed.
Lemma goes_all evs k t r ss0 ss : 0 < t -> (1 <= length ss)%nat -> Forall2 (at_step evs k t r) ss0 ss -> forallb goes_on ss = r /\ existsb goes_on ss = r.
Proof.
  intros Ht HL F. assert (G : forall s, In s ss -> goes_on s = r) by (eapply F2_in; [|exact F]; intros x s H; eapply goes_of; eauto). clear F.
  destruct ss as [|s ss]; [cbn in HL; lia|]. cbn. rewrite (G s) by now left. destruct r; cbn [andb orb].
  - split; [|reflexivity]. rewrite forallb_forall. intros x Hx. apply G. now right.
  - split; [reflexivity|]. destruct (existsb goes_on ss) eqn:E; [|reflexivity]. apply existsb_exists in E. destruct E as (x & Hx & E). rewrite G in E by now right. discriminate.
Qed.
(* The loop, given what ends it *)
Lemma loop_until evs t (P : nat -> bool) (Inv : nat -> list gf -> Prop) ss0 : 0 < t -> (1 <= length ss0)%nat ->
  (forall k ss, Forall2 (at_step evs k t true) ss0 ss -> Inv k ss -> Forall2 (at_step evs (S k) t (negb (P k))) ss0 (step_all (evs k) ss) /\ (P k = false -> Inv (S k) (step_all (evs k) ss))) ->
  forall n k ss, (forall j, (k <= j < k + n)%nat -> P j = false) -> P (k + n)%nat = true -> Forall2 (at_step evs k t true) ss0 ss -> Inv k ss ->
  forall fuel, (S n < fuel)%nat -> exists ss', loop fuel evs k ss = Some ss' /\ Forall2 (at_step evs (S (k + n)) t false) ss0 ss'.
Proof.
  intros Ht HL HS. induction n as [|n IH]; intros k ss HP HE F I fuel Hf; (destruct fuel as [|fuel]; [lia|]); cbn [loop].
  - destruct (goes_all evs k t true ss0 ss Ht) as [-> _]; [rewrite <- (F2_length _ _ _ F); exact HL|exact F|]. destruct (HS k ss F I) as [F' _]. rewrite Nat.add_0_r in *. rewrite HE in F'. cbn in F'.
    destruct fuel as [|fuel]; [lia|]. cbn [loop]. destruct (goes_all evs (S k) t false ss0 (step_all (evs k) ss) Ht) as [-> ->]; [rewrite <- (F2_length _ _ _ F'); exact HL|exact F'|]. eauto.
  - destruct (goes_all evs k t true ss0 ss Ht) as [-> _]; [rewrite <- (F2_length _ _ _ F); exact HL|exact F|]. destruct (HS k ss F I) as [F' I']. assert (E : P k = false) by (apply HP; lia). rewrite E in F'. cbn in F'.
    destruct (IH (S k) (step_all (evs k) ss)) with (fuel := fuel) as (ss' & -> & F2); [intros; apply HP; lia|now rewrite <- plus_n_Sm in HE|exact F'|now apply I'|lia|].
    exists ss'. split; [reflexivity|]. now rewrite <- plus_n_Sm.
Qed.
