(* C104, C105: decisions the processors take together. *)
From Verif Require Import Lib Model_Geometry Model_Cells Model_Verlet Model_Sync Spec_Sync.
From Coq Require Import ZifyBool.
Local Open Scope Q_scope.

(* ------------------------------------------------------------------ reductions *)
Lemma reduce_some {A} (op : A -> A -> A) a l : reduce_all op (map Some (a :: l)) = Some (Some (fold_left op l a)).
Proof.
  unfold reduce_all. replace (forallb called (map Some (a :: l))) with true.
  2:{ symmetry. apply forallb_forall. intros o H. apply in_map_iff in H as (x & <- & _). reflexivity. }
  cbn [map]. do 2 f_equal. revert a. induction l as [|b l IH]; intros a; [reflexivity|]. cbn. apply IH.
Qed.
Lemma fold_orb l : forall a, fold_left orb l a = existsb (fun b => b) (a :: l).
Proof. induction l as [|b l IH]; intros a; cbn; [now rewrite orb_false_r|]. rewrite IH. cbn. now rewrite orb_assoc. Qed.
Lemma fold_zmin l : forall a, (forall x, In x (a :: l) -> fold_left Z.min l a <= x)%Z /\ In (fold_left Z.min l a) (a :: l).
Proof.
  induction l as [|b l IH]; intros a; cbn [fold_left].
  - split; [intros x [<-|[]]; lia|now left].
  - destruct (IH (Z.min a b)) as [H1 H2]. split.
    + intros x [<-|[<-|H]].
      * specialize (H1 (Z.min a b) (or_introl eq_refl)). lia.
      * specialize (H1 (Z.min a b) (or_introl eq_refl)). lia.
      * apply H1. now right.
    + destruct H2 as [E|H2]; [|right; right; exact H2]. rewrite <- E. destruct (Z.min_spec a b) as [[_ ->]|[_ ->]]; [now left|right; now left].
Qed.
Lemma Qmaxb_ge a b : a <= Qmaxb a b /\ b <= Qmaxb a b.
Proof. unfold Qmaxb. destruct (Qltb_spec a b); lra. Qed.
Lemma fold_qmax l : forall a, (forall x, In x (a :: l) -> x <= fold_left Qmaxb l a) /\ In (fold_left Qmaxb l a) (a :: l).
Proof.
  induction l as [|b l IH]; intros a; cbn [fold_left].
  - split; [intros x [<-|[]]; lra|now left].
  - destruct (IH (Qmaxb a b)) as [H1 H2]. destruct (Qmaxb_ge a b) as [G1 G2]. specialize (H1 (Qmaxb a b) (or_introl eq_refl)) as H0. split.
    + intros x [<-|[<-|H]]; [lra|lra|]. apply H1. now right.
    + destruct H2 as [E|H2]; [|right; right; exact H2]. rewrite <- E. unfold Qmaxb. destruct (Qltb_spec a b); [right; now left|now left].
Qed.

(* ------------------------------------------------------------------ one step *)
Definition after_decide (dtype : Z) (f : found) (s : hstate) : hstate := fst (decide dtype f s).
Definition wants (dtype : Z) (f : found) (s : hstate) : bool := match snd (decide dtype f s) with Some b => b | None => false end.
Lemma decide_some dtype f s : f_particles f = true -> snd (decide dtype f s) = Some (wants dtype f s).
Proof. intros H. unfold wants, decide. rewrite H. reflexivity. Qed.

Lemma finds_b f s : finds f s <-> (Qltb (update_delay s) (f_now f - last_update s) && f_inter f) && f_check f = true.
Proof.
  unfold finds. destruct (Qltb_spec (update_delay s) (f_now f - last_update s)), (f_inter f), (f_check f); cbn; split; try tauto; intros; try discriminate.
Qed.
Lemma requires_after dtype f s : f_particles f = true -> requires_remake (after_decide dtype f s) = true <-> has_found f s.
Proof.
  intros H. unfold after_decide, decide, has_found. rewrite H. cbn [negb fst requires_remake]. rewrite finds_b.
  destruct (requires_remake s); cbn; [tauto|]. split; [tauto|]. intros [X|X]; [discriminate|exact X].
Qed.
Lemma last_after dtype f s m : f_particles f = true -> found_after f s m -> last_remake_steps (after_decide dtype f s) = m.
Proof.
  intros H F. unfold after_decide, decide. rewrite H. cbn [negb fst last_remake_steps]. destruct F as [[E ->]|(E & F & ->)]; rewrite E; cbn.
  - reflexivity.
  - apply finds_b in F. now rewrite F.
Qed.
Lemma wants_zero f s : f_particles f = true -> wants 0 f s = true <-> f_flag f = true \/ has_found f s.
Proof.
  intros H. rewrite <- (requires_after 0 f s H). unfold wants, after_decide, decide. rewrite H. cbn [negb fst snd requires_remake].
  set (b := requires_remake s || _). destruct (f_flag f), b; cbn; intuition discriminate.
Qed.
Lemma wants_delay dtype f s : f_particles f = true -> dtype = 1%Z \/ dtype = 2%Z ->
  wants dtype f s = f_flag f || (delay_steps s <=? steps_since s + 1)%Z.
Proof.
  intros H Hd. unfold wants, decide. rewrite H. cbn [negb fst snd]. destruct Hd as [-> | ->]; cbn;
    destruct (f_flag f); cbn; rewrite ?orb_false_r; reflexivity.
Qed.

Lemma combine_len {A B} (l : list A) (m : list B) : length l = length m -> length (combine l m) = length l.
Proof. intros H. rewrite combine_length. lia. Qed.

(* all processors want the same after the reduction *)
Definition together_wants (dtype : Z) (fs : list found) (ss : list hstate) : bool :=
  existsb (fun p => wants dtype (fst p) (snd p)) (combine fs ss).
Lemma agreed dtype n t d fs ss : regular dtype n fs -> length ss = n -> (1 <= n)%nat -> In dtype [0; 1; 2]%Z -> in_step t d ss ->
  exists ds, agree_construct dtype (map snd (map (fun p => decide dtype (fst p) (snd p)) (combine fs ss))) = Some ds /\
    map (fun o => match o with Some b => b | None => false end) ds = repeat (together_wants dtype fs ss) n.
Proof.
  intros (Hl & Hp & Hf) Hs Hn Hd Hst. set (cs := combine fs ss). assert (Lc : length cs = n) by (unfold cs; rewrite combine_len; lia).
  assert (E : map snd (map (fun p => decide dtype (fst p) (snd p)) cs) = map Some (map (fun p => wants dtype (fst p) (snd p)) cs)).
  { rewrite !map_map. apply map_ext_in. intros [f s] H. apply decide_some. apply Hp. eapply in_combine_l; exact H. }
  rewrite E. unfold agree_construct, together_wants. fold cs. rewrite !map_length, Lc.
  destruct (Z.eqb_spec dtype 0) as [Ed|Ed].
  - subst dtype. destruct (Nat.ltb_spec 1 n) as [H1|H1]; cbn [andb].
    + destruct cs as [|c0 cs']; [cbn in Lc; lia|]. cbn [map]. change (Some (wants 0 (fst c0) (snd c0)) :: map Some ?l) with (map Some (wants 0 (fst c0) (snd c0) :: l)).
      rewrite reduce_some, fold_orb. eexists. split; [reflexivity|]. rewrite !map_map. cbn [map length] in *.
      assert (X : existsb (fun b : bool => b) (wants 0 (fst c0) (snd c0) :: map (fun p => wants 0 (fst p) (snd p)) cs') =
        existsb (fun p => wants 0 (fst p) (snd p)) (c0 :: cs')).
      { cbn. f_equal. clear. induction cs' as [|c cs IH]; [reflexivity|]. cbn. now rewrite IH. }
      rewrite X, map_map, <- Lc. cbn [repeat]. f_equal. clear. generalize (existsb (fun p => wants 0 (fst p) (snd p)) (c0 :: cs')).
      intros B. induction cs' as [|c cs IH]; [reflexivity|]. cbn. now rewrite IH.
    + assert (N1 : n = 1%nat) by lia. rewrite N1 in *. destruct cs as [|c [|c' cs']]; try (cbn in Lc; lia). eexists. split; [reflexivity|].
      cbn [map existsb repeat].
      rewrite orb_false_r. reflexivity.
  - rewrite andb_false_r. eexists. split; [reflexivity|]. rewrite map_map.
    destruct Hf as [Hf|Hf]; [contradiction|]. assert (Hd' : dtype = 1%Z \/ dtype = 2%Z). { cbn in Hd. intuition. }
    assert (W : forall f s f' s', In (f, s) cs -> In (f', s') cs -> wants dtype f s = wants dtype f' s').
    { intros f s f' s' H H'. pose proof (in_combine_l _ _ _ _ H) as A1. pose proof (in_combine_r _ _ _ _ H) as A2.
      pose proof (in_combine_l _ _ _ _ H') as B1. pose proof (in_combine_r _ _ _ _ H') as B2.
      rewrite (wants_delay dtype f s (Hp f A1) Hd'), (wants_delay dtype f' s' (Hp f' B1) Hd').
      unfold in_step in Hst. rewrite Forall_forall in Hst. destruct (Hst s A2) as [-> ->]. destruct (Hst s' B2) as [-> ->].
      now rewrite (Hf f f' A1 B1). }
    rewrite map_map. clear E Hp Hf Hst Hl Hs. destruct cs as [|[f0 s0] cs']; [cbn in Lc; lia|].
    assert (X : existsb (fun p => wants dtype (fst p) (snd p)) ((f0, s0) :: cs') = wants dtype f0 s0).
    { destruct (wants dtype f0 s0) eqn:Ew; [cbn; now rewrite Ew|]. apply Bool.not_true_is_false. intros H. apply existsb_exists in H as ([f s] & H & H').
      cbn [fst snd] in H'. rewrite (W f s f0 s0 H (or_introl eq_refl)) in H'. congruence. }
    rewrite X, <- Lc. transitivity (map (fun _ : found * hstate => wants dtype f0 s0) ((f0, s0) :: cs')).
    + apply map_ext_in. intros [f s] H. apply (W f s f0 s0 H). now left.
    + clear. generalize ((f0, s0) :: cs'). intros l. induction l; cbn; congruence.
Qed.

Lemma forallb_repeat b n : (1 <= n)%nat -> forallb (fun b => b) (repeat b n) && (0 <? length (repeat b n))%nat = b.
Proof.
  intros H. rewrite repeat_length. destruct (Nat.ltb_spec 0 n); [|lia]. rewrite andb_true_r. destruct n; [lia|]. clear H H0.
  destruct b; [|reflexivity]. cbn. induction n; [reflexivity|exact IHn].
Qed.
Lemma existsb_repeat b n : (1 <= n)%nat -> existsb (fun b => b) (repeat b n) = b.
Proof. intros H. destruct n; [lia|]. destruct b; [reflexivity|]. cbn. clear H. induction n; [reflexivity|exact IHn]. Qed.

Definition rebuilt (dtype : Z) (fs : list found) (ss : list hstate) : list hstate :=
  let ps := map (propose dtype) (map (fun p => after_decide dtype (fst p) (snd p)) (combine fs ss)) in
  let ps' := if (dtype =? 2)%Z then map (set_delay (zmin_all (map delay_steps ps) 0)) ps else ps in
  map (fun p => constructed (fst p) (snd p)) (combine fs ps').
Lemma step_is dtype n t d fs ss : regular dtype n fs -> length ss = n -> (1 <= n)%nat -> In dtype [0; 1; 2]%Z -> in_step t d ss ->
  pre_forces_all dtype fs ss = Some (if together_wants dtype fs ss then (true, rebuilt dtype fs ss)
    else (false, map (fun p => after_decide dtype (fst p) (snd p)) (combine fs ss))).
Proof.
  intros Hr Hs Hn Hd Hst. destruct (agreed dtype n t d fs ss Hr Hs Hn Hd Hst) as (ds & E & Y). unfold pre_forces_all. rewrite E, Y.
  rewrite (forallb_repeat _ n Hn), (existsb_repeat _ n Hn). unfold rebuilt, after_decide. rewrite !map_map. destruct (together_wants dtype fs ss); reflexivity.
Qed.

Lemma after_counts dtype f s : steps_since (after_decide dtype f s) = (steps_since s + 1)%Z /\ delay_steps (after_decide dtype f s) = delay_steps s.
Proof. unfold after_decide, decide. destruct (f_particles f); cbn; auto. Qed.

Lemma rebuilt_in_step dtype n t d fs ss : length fs = n -> length ss = n -> in_step t d ss ->
  exists d', in_step 0 d' (rebuilt dtype fs ss) /\ length (rebuilt dtype fs ss) = n /\ (dtype <> 2%Z -> d' = d) /\
    (dtype = 2%Z -> d' = zmin_all (map delay_steps (map (propose dtype) (map (fun p => after_decide dtype (fst p) (snd p)) (combine fs ss)))) 0).
Proof.
  intros Hl Hs Hst. unfold rebuilt. set (as_ := map (fun p => after_decide dtype (fst p) (snd p)) (combine fs ss)).
  assert (La : length as_ = n) by (unfold as_; rewrite map_length, combine_len; lia).
  set (ps := map (propose dtype) as_). set (dm := zmin_all (map delay_steps ps) 0).
  exists (if (dtype =? 2)%Z then dm else d). split; [|split; [|split]].
  - apply Forall_forall. intros s H. apply in_map_iff in H as ([f s0] & <- & H). cbn [constructed fst snd steps_since delay_steps]. split; [reflexivity|].
    apply in_combine_r in H. destruct (Z.eqb_spec dtype 2) as [E|E].
    + apply in_map_iff in H as (s1 & <- & _). reflexivity.
    + unfold ps in H. apply in_map_iff in H as (s1 & <- & H). unfold propose. destruct (Z.eqb_spec dtype 2); [contradiction|].
      unfold as_ in H. apply in_map_iff in H as ([f2 s2] & <- & H). cbn [fst snd]. rewrite (proj2 (after_counts dtype f2 s2)).
      apply in_combine_r in H. unfold in_step in Hst. rewrite Forall_forall in Hst. apply (Hst s2 H).
  - rewrite map_length, combine_len; [exact Hl|]. destruct (Z.eqb dtype 2); rewrite ?map_length; unfold ps; rewrite ?map_length; lia.
  - intros E. destruct (Z.eqb_spec dtype 2); [contradiction|reflexivity].
  - intros ->. reflexivity.
Qed.

Lemma after_in_step dtype n t d fs ss : length fs = n -> length ss = n -> in_step t d ss ->
  in_step (t + 1) d (map (fun p => after_decide dtype (fst p) (snd p)) (combine fs ss)) /\
  length (map (fun p => after_decide dtype (fst p) (snd p)) (combine fs ss)) = n.
Proof.
  intros Hl Hs Hst. split; [|rewrite map_length, combine_len; lia]. apply Forall_forall. intros s H. apply in_map_iff in H as ([f s0] & <- & H).
  cbn [fst snd]. destruct (after_counts dtype f s0) as [-> ->]. apply in_combine_r in H. unfold in_step in Hst. rewrite Forall_forall in Hst.
  destruct (Hst s0 H) as [-> ->]. auto.
Qed.

(* ------------------------------------------------------------------ C104 *)
Theorem C104_together_partial (dtype delay : Z) (n : nat) (steps : list (list found)) :
  In dtype [0; 1; 2]%Z -> (1 <= n)%nat -> Forall (regular dtype n) steps ->
  exists bs ss' t d, run_all dtype steps (repeat (start_run dtype delay) n) = Some (bs, ss') /\
    length bs = length steps /\ length ss' = n /\ in_step t d ss'.
Proof.
  intros Hd Hn H.
  assert (G : forall ss t d, length ss = n -> in_step t d ss ->
    exists bs ss' t' d', run_all dtype steps ss = Some (bs, ss') /\ length bs = length steps /\ length ss' = n /\ in_step t' d' ss').
  { induction H as [|fs steps Hr H IH]; intros ss t d Hs Hst; [exists [], ss, t, d; auto|].
    cbn [run_all]. rewrite (step_is dtype n t d fs ss Hr Hs Hn Hd Hst). destruct Hr as (Hl & _).
    destruct (together_wants dtype fs ss).
    - destruct (rebuilt_in_step dtype n t d fs ss Hl Hs Hst) as (d' & I1 & I2 & _).
      destruct (IH _ _ _ I2 I1) as (bs & ss' & t' & d'' & E & E1 & E2 & E3). rewrite E. exists (true :: bs), ss', t', d''. cbn. auto.
    - destruct (after_in_step dtype n t d fs ss Hl Hs Hst) as [I1 I2].
      destruct (IH _ _ _ I2 I1) as (bs & ss' & t' & d'' & E & E1 & E2 & E3). rewrite E. exists (false :: bs), ss', t', d''. cbn. auto. }
  apply (G _ 0%Z (delay_steps (start_run dtype delay))); [apply repeat_length|].
  apply Forall_forall. intros s Hs. apply repeat_spec in Hs. subst s. split; reflexivity.
Qed.
Print Assumptions C104_together_partial.

(* Every step rebuilds on all processors if one of them has to (decision type 0), or after the number of steps set, or if asked
   for (types 1, 2). *)
Theorem C104_when_partial (dtype t d : Z) (n : nat) (fs : list found) (ss : list hstate) :
  In dtype [0; 1; 2]%Z -> (1 <= n)%nat -> regular dtype n fs -> length ss = n -> in_step t d ss ->
  exists b ss', pre_forces_all dtype fs ss = Some (b, ss') /\ length ss' = n /\
    (b = true <-> exists f s, In (f, s) (combine fs ss) /\ (f_flag f = true \/ (dtype = 0%Z /\ has_found f s) \/ (dtype <> 0%Z /\ (d <= t + 1)%Z))) /\
    (b = true -> exists d', in_step 0 d' ss' /\ Forall2 (fun f s => last_update s = f_now f /\ requires_remake s = false) fs ss' /\ (dtype <> 2%Z -> d' = d)) /\
    (b = false -> in_step (t + 1) d ss' /\ forall k f s s', nth_error fs k = Some f -> nth_error ss k = Some s -> nth_error ss' k = Some s' ->
       last_update s' = last_update s /\ (requires_remake s' = true <-> has_found f s) /\ (forall m, found_after f s m -> last_remake_steps s' = m)).
Proof.
  intros Hd Hn Hr Hs Hst. rewrite (step_is dtype n t d fs ss Hr Hs Hn Hd Hst). pose proof Hr as (Hl & Hp & Hf).
  set (b := together_wants dtype fs ss).
  assert (Hb : b = true <-> exists f s, In (f, s) (combine fs ss) /\ (f_flag f = true \/ (dtype = 0%Z /\ has_found f s) \/ (dtype <> 0%Z /\ (d <= t + 1)%Z))).
  { unfold b, together_wants. rewrite existsb_exists. split.
    - intros ([f s] & H & W). exists f, s. split; [exact H|]. pose proof (in_combine_l _ _ _ _ H) as H1. pose proof (in_combine_r _ _ _ _ H) as H2. cbn [fst snd] in W.
      destruct (Z.eq_dec dtype 0) as [E|E].
      + subst dtype. apply (wants_zero f s (Hp f H1)) in W. tauto.
      + assert (Hd' : dtype = 1%Z \/ dtype = 2%Z) by (cbn in Hd; intuition). rewrite (wants_delay dtype f s (Hp f H1) Hd') in W.
        unfold in_step in Hst. rewrite Forall_forall in Hst. destruct (Hst s H2) as [E1 E2]. rewrite E1, E2 in W. apply orb_true_iff in W as [W|W]; [tauto|].
        right. right. split; [exact E|lia].
    - intros (f & s & H & W). exists (f, s). split; [exact H|]. pose proof (in_combine_l _ _ _ _ H) as H1. pose proof (in_combine_r _ _ _ _ H) as H2. cbn [fst snd].
      destruct (Z.eq_dec dtype 0) as [E|E].
      + subst dtype. apply (wants_zero f s (Hp f H1)). tauto.
      + assert (Hd' : dtype = 1%Z \/ dtype = 2%Z) by (cbn in Hd; intuition). rewrite (wants_delay dtype f s (Hp f H1) Hd').
        unfold in_step in Hst. rewrite Forall_forall in Hst. destruct (Hst s H2) as [E1 E2]. rewrite E1, E2.
        destruct W as [W|[[W _]|[_ W]]]; [now rewrite W|contradiction|]. apply orb_true_iff. right. lia. }
  destruct b.
  - destruct (rebuilt_in_step dtype n t d fs ss Hl Hs Hst) as (d' & I1 & I2 & I3 & _).
    exists true, (rebuilt dtype fs ss). split; [reflexivity|]. split; [exact I2|]. split; [exact Hb|]. split; [|intros; discriminate].
    intros _. exists d'. split; [exact I1|]. split; [|exact I3]. unfold rebuilt. cbv zeta.
    match goal with |- Forall2 _ fs (map _ (combine fs ?l)) => set (ps' := l) end.
    assert (Lp : length fs = length ps').
    { unfold ps'. destruct (Z.eqb dtype 2); rewrite !map_length, combine_len; lia. }
    clearbody ps'. clear - Lp. revert ps' Lp. induction fs as [|f fs IH]; intros [|p ps] L; try discriminate; constructor; [split; reflexivity|].
    apply IH. cbn in L. lia.
  - destruct (after_in_step dtype n t d fs ss Hl Hs Hst) as [I1 I2].
    eexists. eexists. split; [reflexivity|]. split; [exact I2|]. split; [exact Hb|]. split; [intros; discriminate|]. intros _. split; [exact I1|].
    intros k f s s' Hk Hk1 Hk2. assert (Hc : nth_error (combine fs ss) k = Some (f, s)).
    { clear - Hk Hk1. revert ss k Hk Hk1. induction fs as [|f0 fs IH]; intros [|s0 ss] [|k] Hk Hk1; try discriminate; cbn in *; [congruence|eauto]. }
    rewrite nth_error_map, Hc in Hk2. cbn in Hk2. injection Hk2 as <-. pose proof (Hp f (nth_error_In _ _ Hk)) as Hpf.
    split; [unfold after_decide, decide; rewrite Hpf; reflexivity|]. split; [apply requires_after; exact Hpf|]. intros m Hm. now apply last_after.
Qed.
Print Assumptions C104_when_partial.

(* Decision type 2: the number of steps until the next rebuild is the smallest number of steps after which a processor found
   that its particles had moved too far; it grows by one if none did. *)
Theorem C104_delay_partial (t d : Z) (n : nat) (fs : list found) (ss ss' : list hstate) :
  (1 <= n)%nat -> regular 2 n fs -> length ss = n -> in_step t d ss -> pre_forces_all 2 fs ss = Some (true, ss') ->
  exists d', in_step 0 d' ss' /\
    (forall f s, In (f, s) (combine fs ss) -> ~ has_found f s -> (d' <= d + 1)%Z) /\
    (forall f s m, In (f, s) (combine fs ss) -> found_after f s m -> (d' <= m)%Z) /\
    exists f s, In (f, s) (combine fs ss) /\ ((~ has_found f s /\ d' = (d + 1)%Z) \/ found_after f s d').
Proof.
  intros Hn Hr Hs Hst E. rewrite (step_is 2 n t d fs ss Hr Hs Hn ltac:(cbn; tauto) Hst) in E. pose proof Hr as (Hl & Hp & Hf).
  destruct (together_wants 2 fs ss); [|discriminate]. injection E as <-.
  destruct (rebuilt_in_step 2 n t d fs ss Hl Hs Hst) as (d' & I1 & _ & _ & Ed). specialize (Ed eq_refl). exists d'. split; [exact I1|].
  rewrite !map_map in Ed. set (g := fun x : found * hstate => delay_steps (propose 2 (after_decide 2 (fst x) (snd x)))) in Ed.
  assert (Hg : forall f s, In (f, s) (combine fs ss) -> (~ has_found f s -> g (f, s) = (d + 1)%Z) /\ forall m, found_after f s m -> g (f, s) = m).
  { intros f s H. pose proof (Hp f (in_combine_l _ _ _ _ H)) as Hpf. apply in_combine_r in H. unfold in_step in Hst. rewrite Forall_forall in Hst. destruct (Hst s H) as [_ E2].
    unfold g. cbn [fst snd]. unfold propose. cbn [Z.eqb Pos.eqb delay_steps]. split.
    - intros Nf. destruct (requires_remake (after_decide 2 f s)) eqn:Er; [apply (requires_after 2 f s Hpf) in Er; contradiction|].
      rewrite (proj2 (after_counts 2 f s)), E2. reflexivity.
    - intros m Hm. assert (Hh : has_found f s) by (unfold has_found; destruct Hm as [[X _]|(_ & X & _)]; auto).
      apply (requires_after 2 f s Hpf) in Hh. rewrite Hh. now apply last_after. }
  assert (Hdec : forall f s, has_found f s -> exists m, found_after f s m).
  { intros f s H. destruct (requires_remake s) eqn:Er; [exists (last_remake_steps s); left; auto|].
    destruct H as [H|H]; [congruence|]. eexists. right. split; [exact Er|]. split; [exact H|reflexivity]. }
  destruct (combine fs ss) as [|c cs] eqn:Ec.
  { assert (length (combine fs ss) = n) by (rewrite combine_len; lia). rewrite Ec in H. cbn in H. lia. }
  cbn [map zmin_all] in Ed. destruct (fold_zmin (map g cs) (g c)) as [M1 M2]. rewrite <- Ed in M1, M2.
  assert (In_g : forall x, In x (c :: cs) -> In (g x) (g c :: map g cs)) by (intros x [<-|H]; [now left|right; now apply in_map]).
  split; [|split].
  - intros f s H Nf. rewrite <- (proj1 (Hg f s H) Nf). apply M1. exact (In_g (f, s) H).
  - intros f s m H Hm. rewrite <- (proj2 (Hg f s H) m Hm). apply M1. exact (In_g (f, s) H).
  - assert (HI : exists x, In x (c :: cs) /\ g x = d').
    { destruct M2 as [M2|M2]; [exists c; split; [now left|exact M2]|]. apply in_map_iff in M2 as (x & E & H). exists x. split; [now right|exact E]. }
    destruct HI as ([f s] & H & E). exists f, s. split; [exact H|].
    assert (Dec : has_found f s \/ ~ has_found f s).
    { unfold has_found. destruct (requires_remake s); [left; now left|]. rewrite finds_b.
      destruct (Qltb (update_delay s) (f_now f - last_update s) && f_inter f && f_check f); [left; now right|right; intuition discriminate]. }
    destruct Dec as [Hh|Nh].
    + right. destruct (Hdec f s Hh) as (m & Hm). rewrite <- E, (proj2 (Hg f s H) m Hm). exact Hm.
    + left. split; [exact Nh|]. rewrite <- E. exact (proj1 (Hg f s H) Nh).
Qed.
Print Assumptions C104_delay_partial.

(* On one processor this is the decision of Model_Verlet. *)
Theorem C104_one_processor (dtype : Z) (f : found) (s : hstate) : 
  let '(b, s') := pre_forces dtype (f_particles f) (f_flag f) (f_now f) (f_inter f) (f_check f) (f_delay f) s in
  pre_forces_all dtype [f] [s] = Some (b, [s']).
Proof.
  destruct f as [pp fl nw it ck dl], s as [st de rq la lu ud]. unfold pre_forces, pre_forces_all, agree_construct.
  cbn [combine map fst snd f_particles f_flag f_now f_inter f_check f_delay length Nat.ltb Nat.leb andb]. unfold decide.
  cbn [f_particles f_flag f_now f_inter f_check f_delay steps_since delay_steps requires_remake last_remake_steps last_update update_delay].
  destruct pp; cbn [negb fst snd map forallb existsb andb orb length Nat.ltb Nat.leb]; [|reflexivity].
  set (rc := negb rq && _). set (doit := fl || _ || _ || _). rewrite ?andb_true_r, ?orb_false_r.
  destruct doit; cbn [negb fst snd map forallb existsb andb orb length Nat.ltb Nat.leb combine]; [|reflexivity].
  unfold propose, constructed, set_delay, zmin_all. destruct (dtype =? 2)%Z; cbn.
  - destruct (rq || rc && ck) eqn:Ex; reflexivity.
  - reflexivity.
Qed.
Print Assumptions C104_one_processor.

(* ... and in every run it is at least one, and at most one more than the number of rebuilds; there are never more steps
   than this between two of them. *)
Theorem C104_delay_range_partial (n : nat) (delay : Z) (steps : list (list found)) (bs : list bool) (ss' : list hstate) :
  (1 <= n)%nat -> Forall (regular 2 n) steps -> run_all 2 steps (repeat (start_run 2 delay) n) = Some (bs, ss') ->
  exists t d, in_step t d ss' /\ (0 <= t < d)%Z /\ (1 <= d <= 1 + Z.of_nat (count_occ bool_dec bs true))%Z.
Proof.
  intros Hn H E.
  assert (G : forall ss t d, length ss = n -> in_step t d ss -> (0 <= t < d)%Z ->
      (forall s, In s ss -> requires_remake s = true -> (1 <= last_remake_steps s <= t)%Z) ->
      forall bs ss', run_all 2 steps ss = Some (bs, ss') ->
      exists t' d', in_step t' d' ss' /\ (0 <= t' < d')%Z /\ (d' <= d + Z.of_nat (count_occ bool_dec bs true))%Z).
  { clear E bs ss'. induction H as [|fs steps Hr H IH]; intros ss t d Hs Hst Ht Hla bs ss' E.
    - cbn in E. injection E as <- <-. exists t, d. split; [exact Hst|]. cbn. lia.
    - cbn [run_all] in E.
      destruct (C104_when_partial 2 t d n fs ss ltac:(cbn; tauto) Hn Hr Hs Hst) as (b & ss1 & E1 & L1 & B0 & B1 & B2).
      rewrite E1 in E. destruct (run_all 2 steps ss1) as [[bs2 ss2]|] eqn:E2; [|discriminate]. injection E as <- <-.
      assert (Hfa : forall f s m, In (f, s) (combine fs ss) -> found_after f s m -> (1 <= m <= t + 1)%Z).
      { intros f s m Hi [[Q1 ->]|(_ & _ & ->)]; apply in_combine_r in Hi.
        - specialize (Hla s Hi Q1). lia.
        - unfold in_step in Hst. rewrite Forall_forall in Hst. destruct (Hst s Hi) as [-> _]. lia. }
      destruct b.
      + destruct (C104_delay_partial t d n fs ss ss1 Hn Hr Hs Hst E1) as (d1 & J1 & _ & _ & fx & sx & Hin & J4).
        destruct (B1 eq_refl) as (d2 & _ & K2 & _).
        assert (R : (1 <= d1 <= d + 1)%Z). { destruct J4 as [[_ ->]|J4]; [lia|]. specialize (Hfa fx sx d1 Hin J4). lia. }
        destruct (IH ss1 0%Z d1 L1 J1 ltac:(lia)) with (bs := bs2) (ss' := ss2) as (t' & d' & X1 & X2 & X3); [|exact E2|].
        * intros s Hi Hq. exfalso. clear - K2 Hi Hq. induction K2 as [|f s0 fs ss A B IHK]; [destruct Hi|]. destruct Hi as [<-|Hi]; [destruct A; congruence|auto].
        * exists t', d'. split; [exact X1|]. split; [exact X2|]. cbn [count_occ]. destruct (bool_dec true true); [|congruence]. lia.
      + destruct (B2 eq_refl) as [I1 I2].
        assert (Hlt : (t + 1 < d)%Z).
        { destruct (Z_lt_le_dec (t + 1) d) as [|Hle]; [assumption|]. exfalso. destruct fs as [|f fs]; [destruct Hr as [Hl _]; cbn in Hl; lia|].
          destruct ss as [|s ss]; [cbn in Hs; lia|]. assert (X : false = true); [|discriminate]. apply B0. exists f, s. split; [now left|].
          right. right. split; [discriminate|exact Hle]. }
        destruct (IH ss1 (t + 1)%Z d L1 I1 ltac:(lia)) with (bs := bs2) (ss' := ss2) as (t' & d' & X1 & X2 & X3); [|exact E2|].
        * intros s' Hi Hq. apply In_nth_error in Hi as [k Hk]. assert (Hkn : (k < n)%nat) by (rewrite <- L1; apply nth_error_Some; congruence).
          destruct (nth_error ss k) as [s|] eqn:Ek; [|apply nth_error_None in Ek; lia].
          destruct (nth_error fs k) as [f|] eqn:Ef; [|apply nth_error_None in Ef; destruct Hr as [Hl _]; lia].
          destruct (I2 k f s s' Ef Ek Hk) as (_ & Y1 & Y2). apply Y1 in Hq.
          assert (Hi : In (f, s) (combine fs ss)).
          { clear - Ef Ek. revert ss k Ef Ek. induction fs as [|f0 fs IHf]; intros [|s0 ss] [|k] A B; try discriminate; cbn in *; [left; congruence|right; eauto]. }
          destruct (requires_remake s) eqn:Er.
          -- specialize (Y2 (last_remake_steps s) (or_introl (conj Er eq_refl))). rewrite Y2. specialize (Hla s (nth_error_In _ _ Ek) Er). lia.
          -- destruct Hq as [Hq|Hq]; [congruence|]. assert (Hm : found_after f s (steps_since s + 1)) by (right; auto).
             rewrite (Y2 _ Hm). exact (Hfa f s _ Hi Hm).
        * exists t', d'. split; [exact X1|]. split; [exact X2|]. cbn [count_occ]. destruct (bool_dec false true); [congruence|]. lia. }
  destruct (G (repeat (start_run 2 delay) n) 0%Z 1%Z) with (bs := bs) (ss' := ss') as (t & d & X1 & X2 & X3); auto.
  - apply repeat_length.
  - apply Forall_forall. intros s Hi. apply repeat_spec in Hi. subst s. split; reflexivity.
  - lia.
  - intros s Hi Hq. apply repeat_spec in Hi. subst s. discriminate.
  - exists t, d. split; [exact X1|]. split; [exact X2|]. lia.
Qed.
Print Assumptions C104_delay_range_partial.

(* Two processors, decision type 2: rebuilt after 1, 2 and 3 steps; the second processor finds that its particles moved too
   far in the second step of the last period, so the next one has two steps. *)
Definition ex_f (now : Q) (c : bool) : found := mkF true false now true c 0.
Definition ex_run : list (list found) :=
  [[ex_f 1 false; ex_f 1 false]; [ex_f 2 false; ex_f 2 false]; [ex_f 3 false; ex_f 3 false];
   [ex_f 4 false; ex_f 4 false]; [ex_f 5 false; ex_f 5 true]; [ex_f 6 false; ex_f 6 true];
   [ex_f 7 false; ex_f 7 false]; [ex_f 8 false; ex_f 8 false]].
Example C104_case : Forall (regular 2 2) ex_run /\
  option_map (fun r => (fst r, map (fun s => (steps_since s, delay_steps s)) (snd r))) (run_all 2 ex_run (repeat (start_run 2 7) 2)) =
  Some ([true; false; true; false; false; true; false; true], [(0, 3); (0, 3)])%Z.
Proof.
  split; [|vm_compute; reflexivity]. unfold ex_run.
  repeat (apply Forall_cons; [split; [reflexivity|]; split; [intros f [<-|[<-|[]]]; reflexivity|];
    right; intros f f' [<-|[<-|[]]] [<-|[<-|[]]]; reflexivity|]). constructor.
Qed.

(* A processor without particles does not take part in the decision: the others wait for ever. *)
Theorem C104_no_particles_refuted (f : found) (ss : list hstate) : length ss = 2%nat -> f_particles f = true ->
  pre_forces_all 0 [f; mkF false false (f_now f) (f_inter f) false 0] ss = None.
Proof.
  intros Hs Hp. destruct ss as [|s1 [|s2 [|s3 ss]]]; try discriminate. unfold pre_forces_all. cbn [combine map fst snd].
  unfold agree_construct. cbn [length Nat.ltb Nat.leb andb Z.eqb].
  rewrite (decide_some 0 f s1 Hp). unfold decide at 1. cbn. reflexivity.
Qed.
Print Assumptions C104_no_particles_refuted.
(* A processor that removed particles (or swapped them while filling holes) asks for a rebuild by itself; the others do not
   join in unless it is time. *)
Theorem C104_own_flag_refuted : exists fs ss, length fs = 2%nat /\ (forall f, In f fs -> f_particles f = true) /\
  in_step 0 5 ss /\ length ss = 2%nat /\ (exists f, In f fs /\ f_flag f = true) /\ pre_forces_all 1 fs ss = None.
Proof.
  exists [mkF true true 1 true false 0; mkF true false 1 true false 0], (repeat (start_run 1 5) 2).
  split; [reflexivity|]. split; [intros f [<-|[<-|[]]]; reflexivity|]. split; [repeat constructor|]. split; [reflexivity|].
  split; [eexists; split; [now left|reflexivity]|]. vm_compute. reflexivity.
Qed.
Print Assumptions C104_own_flag_refuted.

(* ------------------------------------------------------------------ C105 *)
Lemma max_small_all ps : ps <> [] -> (forall p, In p ps -> z_sigmas p <> []) ->
  exists m, sync_max_small ps = Some (map (fun p => mkS (z_sigmas p) (z_any p) (z_candidate p) m (z_skin p)) ps) /\
    (forall p v, In p ps -> calc_max_small_sigma (z_sigmas p) = Some v -> v <= m) /\
    exists p, In p ps /\ calc_max_small_sigma (z_sigmas p) = Some m.
Proof.
  intros Hne H. assert (Hc : forall p, In p ps -> exists v, calc_max_small_sigma (z_sigmas p) = Some v).
  { intros p Hp. specialize (H p Hp). destruct (z_sigmas p); [congruence|]. eexists. reflexivity. }
  assert (Hv : exists vs, map (fun p => calc_max_small_sigma (z_sigmas p)) ps = map Some vs).
  { clear Hne H. induction ps as [|p ps IH]; [exists []; reflexivity|]. destruct (Hc p (or_introl eq_refl)) as [v Ev].
    destruct IH as [vs Evs]; [intros q Hq; apply Hc; now right|]. exists (v :: vs). cbn. now rewrite Ev, Evs. }
  destruct Hv as [[|v vs] Evs]; [destruct ps; [congruence|discriminate]|].
  unfold sync_max_small. rewrite Evs, reduce_some. exists (fold_left Qmaxb vs v). split; [reflexivity|].
  destruct (fold_qmax vs v) as [M1 M2]. split.
  - intros p w Hp Hw. apply M1. assert (Hi : In (Some w) (map Some (v :: vs))) by (rewrite <- Evs; apply in_map_iff; exists p; auto).
    apply in_map_iff in Hi as (x & Ex & Hi). congruence.
  - assert (Hi : In (Some (fold_left Qmaxb vs v)) (map (fun p => calc_max_small_sigma (z_sigmas p)) ps)) by (rewrite Evs; now apply in_map).
    apply in_map_iff in Hi as (p & E & Hp). eauto.
Qed.
Lemma fold_plus l : forall a, fold_left Qplus l a == a + Qsum l.
Proof. induction l as [|b l IH]; intros a; [cbn; lra|]. cbn [fold_left]. rewrite IH. unfold Qsum. cbn [fold_right]. lra. Qed.

(* The processors agree on the largest "small" radius, which is the largest of those each would have found alone, on the skin depth,
   which is the mean of those chosen, and so on the cell size. *)
Theorem C105_cell_size_partial (ps : list sizes) : ps <> [] -> (forall p, In p ps -> z_sigmas p <> [] /\ z_any p = true) ->
  exists ps' m k, sync_sizes false ps = Some ps' /\
    Forall2 (fun p p' => z_max_small p' = m /\ z_skin p' = k /\ target_cell_size p' = 2 * m + k /\
                         z_sigmas p' = z_sigmas p /\ z_any p' = z_any p /\ z_candidate p' = z_candidate p) ps ps' /\
    (forall p a, In p ps -> sync_sizes true [p] = Some [a] -> z_max_small a <= m) /\
    (exists p a, In p ps /\ sync_sizes true [p] = Some [a] /\ z_max_small a = m) /\
    k * inject_Z (Z.of_nat (length ps)) == Qsum (map (fun p => Qmaxb ((1#2) * m) (z_candidate p)) ps) /\ (1#2) * m <= k.
Proof.
  intros Hne H. destruct (max_small_all ps Hne ltac:(intros p Hp; now apply H)) as (m & E & M1 & M2).
  set (g := fun p => mkS (z_sigmas p) (z_any p) (z_candidate p) m (z_skin p)) in E.
  assert (Ec : map skin_choice (map g ps) = map Some (map (fun p => Qmaxb ((1#2) * m) (z_candidate p)) ps)).
  { rewrite !map_map. apply map_ext_in. intros p Hp. unfold skin_choice, g. cbn. now rewrite (proj2 (H p Hp)). }
  assert (A1 : forall p a, sync_sizes true [p] = Some [a] -> forall v, calc_max_small_sigma (z_sigmas p) = Some v -> z_max_small a = v).
  { intros p a Ea v Ev. unfold sync_sizes, sync_max_small in Ea. cbn [map] in Ea. rewrite Ev in Ea. cbn in Ea. injection Ea as <-. reflexivity. }
  destruct ps as [|p0 ps0] eqn:Eps; [congruence|]. rewrite <- Eps in *.
  set (n := inject_Z (Z.of_nat (length ps))). assert (Hn : 0 < n).
  { unfold n. rewrite Eps. cbn [length]. change 0 with (inject_Z 0). rewrite <- Zlt_Qlt. lia. }
  set (w := fun p => Qmaxb ((1#2) * m) (z_candidate p)) in *.
  assert (Es : sync_skin (map g ps) = Some (map (fun p => mkS (z_sigmas p) (z_any p) (z_candidate p) (z_max_small p)
      (fold_left Qplus (map w ps0) (w p0) / inject_Z (Z.of_nat (length (map g ps))))) (map g ps))).
  { unfold sync_skin. rewrite Ec. rewrite Eps at 1. cbn [map]. change (Some (w p0) :: map Some (map w ps0)) with (map Some (w p0 :: map w ps0)).
    rewrite reduce_some. reflexivity. }
  rewrite map_length in Es. fold n in Es. set (tot := fold_left Qplus (map w ps0) (w p0)) in *.
  assert (Et : tot == Qsum (map w ps)). { unfold tot. rewrite fold_plus, Eps. cbn. reflexivity. }
  exists (map (fun p => mkS (z_sigmas p) (z_any p) (z_candidate p) m (tot / n)) ps), m, (tot / n).
  split; [unfold sync_sizes; rewrite E, Es, map_map; reflexivity|]. split; [|split; [|split; [|split]]].
  - generalize (tot / n). intros k. clear. induction ps as [|p ps IH]; [constructor|]. cbn [map]. constructor; [repeat split|exact IH].
  - intros p a Hp Ea. destruct (H p Hp) as [Hs _]. destruct (calc_max_small_sigma (z_sigmas p)) as [v|] eqn:Ev.
    2:{ destruct (z_sigmas p); [congruence|discriminate]. }
    rewrite (A1 p a Ea v Ev). exact (M1 p v Hp Ev).
  - destruct M2 as (p & Hp & Ev). exists p, (g p). split; [exact Hp|]. split; [|reflexivity].
    unfold sync_sizes, sync_max_small. cbn [map]. rewrite Ev. reflexivity.
  - change (tot / n * n == Qsum (map w ps)). rewrite <- Et. field. lra.
  - assert (Hk : tot / n * n == Qsum (map w ps)) by (rewrite <- Et; field; lra).
    assert (Hs : (1#2) * m * n <= Qsum (map w ps)).
    { unfold n. clear. induction ps as [|p ps IH].
      - cbn [length map]. change (inject_Z (Z.of_nat 0)) with 0. unfold Qsum. cbn [fold_right]. lra.
      - cbn [length map]. rewrite Nat2Z.inj_succ. unfold Z.succ. rewrite inject_Z_plus. change (inject_Z 1) with 1.
        unfold Qsum in *. cbn [fold_right]. destruct (Qmaxb_ge ((1#2) * m) (z_candidate p)) as [G _]. fold (w p) in G.
        set (N := inject_Z (Z.of_nat (length ps))) in *. lra. }
    apply (Qmult_le_r _ _ n Hn). rewrite Hk. exact Hs.
Qed.
Print Assumptions C105_cell_size_partial.

(* With a skin depth set (the same everywhere): the same cell size. *)
Theorem C105_skin_set_partial (ps : list sizes) (k : Q) : ps <> [] -> (forall p, In p ps -> z_sigmas p <> [] /\ z_skin p = k) ->
  exists ps' m, sync_sizes true ps = Some ps' /\ length ps' = length ps /\ forall p', In p' ps' -> z_max_small p' = m /\ z_skin p' = k /\ target_cell_size p' = 2 * m + k.
Proof.
  intros Hne H. destruct (max_small_all ps Hne ltac:(intros p Hp; now apply H)) as (m & E & _). unfold sync_sizes. rewrite E.
  eexists. exists m. split; [reflexivity|]. split; [apply map_length|]. intros p' Hp'. apply in_map_iff in Hp' as (p & <- & Hp). destruct (H p Hp) as [_ Hk].
  cbn. split; [reflexivity|]. split; [exact Hk|]. unfold target_cell_size. cbn. now rewrite Hk.
Qed.
Print Assumptions C105_skin_set_partial.

Example C105_case : exists ps', let ps := [mkS [1; 1; 2] true 1 0 0; mkS [3#2] true 0 0 0] in
  (forall p, In p ps -> z_sigmas p <> [] /\ z_any p = true) /\ sync_sizes false ps = Some ps' /\
  map (fun p => Qred (z_max_small p)) ps' = [123#80; 123#80] /\ map (fun p => Qred (z_skin p)) ps' = [283#320; 283#320].
Proof.
  eexists. split; [intros p [<-|[<-|[]]]; split; (discriminate || reflexivity)|]. split; [vm_compute; reflexivity|]. split; vm_compute; reflexivity.
Qed.

(* A processor without particles, or without interacting ones, does not take part: the others wait for ever. *)
Theorem C105_no_particles_refuted (p : sizes) (c : Q) (any skin_set : bool) : z_sigmas p <> [] ->
  sync_sizes skin_set [p; mkS [] any c 0 0] = None.
Proof.
  intros H. unfold sync_sizes, sync_max_small. cbn [map z_sigmas]. destruct (z_sigmas p) as [|a l] eqn:E; [congruence|].
  destruct (calc_max_small_sigma (a :: l)) as [v|] eqn:Ev; [|discriminate]. reflexivity.
Qed.
Print Assumptions C105_no_particles_refuted.
