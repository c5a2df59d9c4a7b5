(* C35 (registration of objects), C48 (recording schedule), C63 (checkpoints). *)
From Coq Require Import QArith List Bool Arith Lia Lqa.
From Verif Require Import Model_Run Spec_Run.
Import ListNotations.

(* ------------------------------------------------------------------ C35 *)
Definition of_inter (op : reg_op) := match op with AddInteraction o => Some o | _ => None end.
Definition of_bonded (op : reg_op) := match op with AddBonded o => Some o | _ => None end.
Definition of_body (op : reg_op) := match op with AddBody o => Some o | _ => None end.
Lemma contains_in l x : contains l x = true <-> In x l.
Proof. unfold contains. rewrite existsb_exists. split; [intros (y & A & B); apply Nat.eqb_eq in B; now subst|intros A; exists x; split; [exact A|apply Nat.eqb_refl]]. Qed.
Lemma firsts_ext l : forall s s', (forall x, In x s <-> In x s') -> firsts s l = firsts s' l.
Proof.
  induction l as [|a l IH]; intros s s' H; cbn; [reflexivity|]. destruct (in_dec Nat.eq_dec a s) as [i|n], (in_dec Nat.eq_dec a s') as [i'|n']; [now apply IH|now apply H in i|now apply H in i'|].
  f_equal. apply IH. intros x. cbn. rewrite H. tauto.
Qed.
Lemma firsts_snoc l x : forall s, firsts s (l ++ [x]) = firsts s l ++ (if in_dec Nat.eq_dec x (s ++ l) then [] else [x]).
Proof.
  induction l as [|a l IH]; intros s; cbn [app firsts]; [rewrite app_nil_r; destruct (in_dec _ x s); reflexivity|].
  destruct (in_dec Nat.eq_dec a s) as [i|n].
  - rewrite IH. f_equal. destruct (in_dec Nat.eq_dec x (s ++ l)) as [A|A], (in_dec Nat.eq_dec x (s ++ a :: l)) as [B|B]; try reflexivity; exfalso; [apply B|apply A]; rewrite in_app_iff in *; cbn in *; intuition (subst; auto).
  - cbn [app]. f_equal. rewrite IH. f_equal. destruct (in_dec Nat.eq_dec x ((a :: s) ++ l)) as [A|A], (in_dec Nat.eq_dec x (s ++ a :: l)) as [B|B]; try reflexivity; exfalso; [apply B|apply A]; cbn in *; rewrite in_app_iff in *; cbn in *; tauto.
Qed.
Lemma firsts_in l : forall s x, In x (firsts s l) <-> In x l /\ ~ In x s.
Proof.
  induction l as [|a l IH]; intros s x; cbn; [tauto|]. destruct (in_dec Nat.eq_dec a s) as [i|n]; [rewrite IH; split; [tauto|intros [[->|A] B]; tauto]|]. cbn. rewrite IH. cbn. destruct (Nat.eq_dec a x) as [->|N]; tauto.
Qed.
Lemma firsts_nodup l : forall s, NoDup (firsts s l).
Proof. induction l as [|a l IH]; intros s; cbn; [constructor|]. destruct (in_dec Nat.eq_dec a s); [apply IH|]. constructor; [|apply IH]. rewrite firsts_in. cbn. tauto. Qed.
Lemma once_firsts o l : add_once o (firsts [] l) = firsts [] (l ++ match o with Some x => [x] | None => [] end).
Proof.
  destruct o as [x|]; cbn; [|now rewrite app_nil_r]. rewrite firsts_snoc. cbn [app]. destruct (contains (firsts [] l) x) eqn:E; destruct (in_dec Nat.eq_dec x l) as [i|n].
  - now rewrite app_nil_r.
  - apply contains_in, firsts_in in E. tauto.
  - assert (X : contains (firsts [] l) x = true) by (apply contains_in, firsts_in; split; [exact i|auto]). congruence.
  - reflexivity.
Qed.
(* After any history of registrations, starting from none, the registered interactions (bonded interactions, bodies) are those handed over, without nulls, each
   once, in the order of their first registration. *)
Theorem C35_once : forall ops, let r := reg_run ops new_reg in
  r_inter r = firsts [] (given of_inter ops) /\ r_bonded r = firsts [] (given of_bonded ops) /\ r_bodies r = firsts [] (given of_body ops).
Proof.
  intros ops. cbn zeta. induction ops as [|op ops IH] using rev_ind; [repeat split|]. destruct IH as (A & B & C). unfold reg_run in *. rewrite fold_left_app. cbn [fold_left]. unfold given in *. rewrite !flat_map_app. cbn [flat_map]. rewrite !app_nil_r.
  destruct op; cbn [reg_step r_inter r_bonded r_bodies of_inter of_bonded of_body]; rewrite ?app_nil_r, ?A, ?B, ?C; repeat split; apply once_firsts.
Qed.
Print Assumptions C35_once.
Theorem C35_firsts : forall l, NoDup (firsts [] l) /\ forall x, In x (firsts [] l) <-> In x l.
Proof. intros l. split; [apply firsts_nodup|]. intros x. rewrite firsts_in. cbn. tauto. Qed.
Print Assumptions C35_firsts.
Example C35_case : r_inter (reg_run [AddInteraction (Some 1%nat); AddInteraction None; AddInteraction (Some 2%nat); AddBody (Some 1%nat); AddInteraction (Some 1%nat)] new_reg) = [1%nat; 2%nat].
Proof. reflexivity. Qed.
(* Modifiers: those with the remove flag set are dropped, no others, and the order is kept. *)
Lemma remove_keys (removed : nat -> bool) : forall (l : list (nat * nat)) (acc : list nat), fold_left (fun (acc : list nat) (it : nat * nat) => if removed (snd it) then acc ++ [fst it] else acc) l acc = acc ++ map fst (filter (fun it => removed (snd it)) l).
Proof. induction l as [|x l IH]; intros acc; cbn; [now rewrite app_nil_r|]. rewrite IH. destruct (removed (snd x)); cbn; [now rewrite <- app_assoc|reflexivity]. Qed.
Lemma erase_notin k : forall l, ~ In k (map fst l) -> erase k l = l.
Proof. induction l as [|[a x] l IH]; cbn; intros H; [reflexivity|]. destruct (Nat.eqb_spec a k); [subst; tauto|]. f_equal. apply IH. tauto. Qed.
Lemma erase_filter k : forall l, NoDup (map fst l) -> erase k l = filter (fun it => negb (fst it =? k)%nat) l.
Proof.
  induction l as [|[a x] l IH]; cbn; intros H; [reflexivity|]. inversion H as [|? ? H1 H2]; subst. destruct (Nat.eqb_spec a k); cbn; [subst|now rewrite IH].
  rewrite <- IH by exact H2. symmetry. now apply erase_notin.
Qed.
Lemma nodup_filter_fst p : forall l : list (nat * nat), NoDup (map fst l) -> NoDup (map fst (filter p l)).
Proof. induction l as [|a l IH]; cbn; intros H; [constructor|]. inversion H as [|? ? H1 H2]; subst. destruct (p a); cbn; [|now apply IH]. constructor; [|now apply IH]. intros HI. apply H1. apply in_map_iff in HI. destruct HI as (y & E & HI). apply filter_In in HI. apply in_map_iff. exists y. tauto. Qed.
Lemma erase_many : forall ks l, NoDup (map fst l) -> fold_left (fun acc it => erase it acc) ks l = filter (fun it => negb (existsb (Nat.eqb (fst it)) ks)) l.
Proof.
  induction ks as [|k ks IH]; intros l H; cbn [fold_left existsb]; [induction l as [|a l IHl]; cbn; [reflexivity|]; f_equal; apply IHl; now inversion H|].
  rewrite erase_filter by exact H. rewrite IH by now apply nodup_filter_fst. clear. induction l as [|a l IHl]; cbn; [reflexivity|]. destruct (fst a =? k)%nat; cbn; [exact IHl|]. destruct (existsb _ ks); cbn; now rewrite IHl.
Qed.
Lemma nodes_keys l : map fst (nodes l) = seq 0 (length l).
Proof. unfold nodes. generalize 0%nat. induction l as [|a l IH]; intros n; cbn; [reflexivity|]. now rewrite IH. Qed.
Lemma nodes_objs l : map snd (nodes l) = l.
Proof. unfold nodes. generalize 0%nat. induction l as [|a l IH]; intros n; cbn; [reflexivity|]. now rewrite IH. Qed.
Lemma filter_snd (f : nat -> bool) : forall l : list (nat * nat), map snd (filter (fun it => f (snd it)) l) = filter f (map snd l).
Proof. induction l as [|a l IH]; cbn; [reflexivity|]. destruct (f (snd a)); cbn; now rewrite IH. Qed.
Lemma filter_same {A} (f g : A -> bool) l : (forall a, In a l -> f a = g a) -> filter f l = filter g l.
Proof. induction l as [|a l IH]; cbn; intros H; [reflexivity|]. rewrite (H a) by now left. rewrite IH; [reflexivity|]. intros; apply H; now right. Qed.
Theorem C35_modifiers : forall removed l, handle_modifiers removed l = filter (fun x => negb (removed x)) l.
Proof.
  intros removed l. unfold handle_modifiers. destruct (Nat.eqb_spec (length l) 0) as [E|_]; [destruct l; [reflexivity|discriminate]|].
  assert (ND : NoDup (map fst (nodes l))) by (rewrite nodes_keys; apply seq_NoDup). unfold to_remove. rewrite remove_keys. cbn [app]. rewrite erase_many by exact ND.
  rewrite (filter_same _ (fun it => negb (removed (snd it)))).
  - rewrite (filter_snd (fun x => negb (removed x))). now rewrite nodes_objs.
  - intros [k x] HI. cbn [fst snd]. f_equal. destruct (removed x) eqn:E.
    + apply existsb_exists. exists k. split; [|apply Nat.eqb_refl]. apply in_map_iff. exists (k, x). split; [reflexivity|]. apply filter_In. auto.
    + destruct (existsb _ _) eqn:X; [|reflexivity]. apply existsb_exists in X. destruct X as (k' & A & B). apply Nat.eqb_eq in B. subst k'. apply in_map_iff in A. destruct A as ([k2 y] & E2 & A). cbn in E2. subst k2. apply filter_In in A. destruct A as [A C]. cbn in C.
      assert (y = x); [|congruence]. clear -ND HI A. induction (nodes l) as [|[a z] m IH]; [destruct HI|]. cbn in ND. inversion ND as [|? ? H1 H2]; subst.
      destruct HI as [HI|HI], A as [A|A]; [congruence|injection HI as -> ->; exfalso; apply H1, in_map_iff; exists (k, y); auto|injection A as -> ->; exfalso; apply H1, in_map_iff; exists (k, x); auto|auto].
Qed.
Print Assumptions C35_modifiers.
Example C35_modifiers_case : handle_modifiers Nat.even [1%nat; 2%nat; 3%nat; 4%nat; 2%nat; 5%nat] = [1%nat; 3%nat; 5%nat].
Proof. reflexivity. Qed.
(* The other operations do not touch the modifiers; what a history does to them. *)
Theorem C35_modifier_history : forall ops, r_mods (reg_run ops new_reg) =
  fold_left (fun l op => match op with AddModifier (Some x) => l ++ [x] | EndOfForces f => filter (fun x => negb (f x)) l | _ => l end) ops [].
Proof.
  intros ops. assert (G : forall ops r, r_mods (reg_run ops r) = fold_left (fun l op => match op with AddModifier (Some x) => l ++ [x] | EndOfForces f => filter (fun x => negb (f x)) l | _ => l end) ops (r_mods r)).
  { induction ops0 as [|op ops0 IH]; intros r; [reflexivity|]. unfold reg_run. cbn [fold_left]. fold (reg_run ops0 (reg_step op r)). rewrite IH. f_equal. destruct op as [| | | |[x|]|[x|]| |f]; try reflexivity. cbn. apply C35_modifiers. }
  apply G.
Qed.
Print Assumptions C35_modifier_history.
(* C35 fails for modifiers and additional integrators, which are registered twice (and then called twice in each step), ... *)
Theorem C35_modifier_twice_refuted : r_mods (reg_run [AddModifier (Some 1%nat); AddModifier (Some 1%nat)] new_reg) = [1%nat; 1%nat] /\ r_integ (reg_run [AddIntegrator (Some 1%nat); AddIntegrator (Some 1%nat)] new_reg) = [1%nat; 1%nat].
Proof. split; reflexivity. Qed.
Print Assumptions C35_modifier_twice_refuted.
(* ... and for data objects, registered twice, and given to the data master as null pointers. *)
Theorem C35_data_refuted : r_data (reg_run [AddDataObject (Some 1%nat); AddDataObject (Some 1%nat); DataMasterAdd None] new_reg) = [Some 1%nat; Some 1%nat; None].
Proof. reflexivity. Qed.
Print Assumptions C35_data_refuted.

(* ------------------------------------------------------------------ C48 *)
Local Open Scope Q_scope.
Lemma record_run_spec : forall m sr times d l d', record_run m sr times d = (l, d') ->
  d_delay d' = d_delay d /\ d_setup d' = d_setup d /\ (d_setup d = false -> m <> SIM -> l = []) /\ Forall (fun t => sr <= t) l /\ (forall t, In t l -> In t times) /\ apart (d_delay d) (d_last d :: l) /\
  (m = SIM \/ d_setup d = true -> forall t, In t times -> sr <= t -> exists r, In r (d_last d :: l) /\ (t - r < d_delay d \/ r = t)).
Proof.
  intros m sr. induction times as [|t ts IH]; intros d l d' H; cbn [record_run] in H.
  - injection H as <- <-. refine (conj eq_refl (conj eq_refl (conj (fun _ _ => eq_refl) (conj (Forall_nil _) (conj _ (conj I _)))))); [intros t []|intros _ t []].
  - destruct (record_step m sr t d) as [b d1] eqn:E. destruct (record_run m sr ts d1) as [l1 d2] eqn:E2. injection H as <- <-. destruct (IH d1 l1 d2 E2) as (A1 & A2 & A3 & A4 & A5 & A6 & A7).
    unfold record_step in E. destruct (Qle_bool sr t) eqn:ES.
    + apply Qle_bool_iff in ES. unfold check in E. destruct (negb (d_setup d) && negb (is_sim m))%bool eqn:EM.
      * injection E as <- <-. refine (conj A1 (conj A2 (conj A3 (conj A4 (conj (fun x Hx => or_intror (A5 x Hx)) (conj A6 _)))))). intros [->|X]; [rewrite andb_false_r in EM; discriminate|rewrite X in EM; discriminate].
      * destruct (Qle_bool (d_delay d) (t - d_last d)) eqn:EQ; cbn [negb] in E.
        -- apply Qle_bool_iff in EQ. injection E as <- <-. cbn [d_delay d_last d_setup] in *. refine (conj A1 (conj A2 (conj _ (conj _ (conj _ (conj (conj EQ A6) _)))))).
           ++ intros X Y. rewrite X in EM. destruct m; cbn in EM; try discriminate. now exfalso.
           ++ constructor; assumption.
           ++ intros x [<-|Hx]; [now left|right; auto].
           ++ intros X x [<-|Hx] Hs; [exists t; split; [right; now left|now right]|]. destruct (A7 X x Hx Hs) as (r & [<-|Hr] & R); [exists t; split; [right; now left|exact R]|exists r; split; [right; now right|exact R]].
        -- injection E as <- <-. refine (conj A1 (conj A2 (conj A3 (conj A4 (conj (fun x Hx => or_intror (A5 x Hx)) (conj A6 _)))))). intros X x [<-|Hx] Hs; [|now apply A7]. exists (d_last d). split; [now left|left]. apply Qnot_le_lt. intros Y. apply Qle_bool_iff in Y. congruence.
    + injection E as <- <-. refine (conj A1 (conj A2 (conj A3 (conj A4 (conj (fun x Hx => or_intror (A5 x Hx)) (conj A6 _)))))). intros X x [<-|Hx] Hs; [|now apply A7]. apply Qle_bool_iff in Hs. congruence.
Qed.
(* For every run (its elapsed times at the steps, the mode, the start of recording): recordings are made at steps, not before the start of recording, at least the delay apart, and (unless the object
   gathers during setup) only in simulation mode; ... *)
Theorem C48_schedule : forall m sr times d, let l := fst (record m sr times d) in
  (forall t, In t l -> In t times /\ sr <= t) /\ apart (d_delay d) l /\ (d_setup d = false -> m <> SIM -> l = []).
Proof.
  intros m sr times d l. unfold l, record. destruct (record_run m sr times (d_pre_integrate d)) as [l0 d'] eqn:E. cbn [fst]. destruct (record_run_spec _ _ _ _ _ _ E) as (A1 & A2 & A3 & A4 & A5 & A6 & A7). cbn [d_pre_integrate d_delay d_setup d_last] in *.
  split; [intros t Ht; split; [now apply A5|rewrite Forall_forall in A4; now apply A4]|]. split; [|exact A3]. destruct l0; [exact I|]. cbn in A6. apply A6.
Qed.
Print Assumptions C48_schedule.
(* ... and no recording is missed: at each step from the start of recording on (and at least the delay after time -10), a recording is made unless one was made less than the delay ago. *)
Theorem C48_complete : forall sr times d t, In t times -> sr <= t -> 0 <= t -> d_delay d <= t + 10 -> exists r, In r (fst (record SIM sr times d)) /\ (t - r < d_delay d \/ r = t).
Proof.
  intros sr times d t Ht Hs H0 HD. unfold record. destruct (record_run SIM sr times (d_pre_integrate d)) as [l0 d'] eqn:E. cbn [fst]. destruct (record_run_spec _ _ _ _ _ _ E) as (_ & _ & _ & _ & _ & _ & A7).
  destruct (A7 (or_introl eq_refl) t Ht Hs) as (r & [<-|Hr] & R); [|exists r; auto]. cbn [d_pre_integrate d_last d_delay] in R. exfalso. destruct R as [R|R]; [lra|]. rewrite <- R in H0. lra.
Qed.
Print Assumptions C48_complete.
Example C48_case : fst (record SIM 1 [0; 1; 5 # 4; 2; 3; 7 # 2] (mkDob 1 0 false)) = [1; 2; 3] /\ fst (record INIT 1 [0; 1; 2] (mkDob 1 0 false)) = [].
Proof. split; reflexivity. Qed.

(* ------------------------------------------------------------------ C63 *)
(* Checkpoints are at least the delay apart; those of one run are made at its steps ... *)
Lemma checkpoints_spec : forall times c l c', checkpoints times c = (l, c') -> c_delay c' = c_delay c /\ (forall t, In t l -> In t times) /\ apart (c_delay c) (c_last c :: l) /\ c_count c' = (c_count c + length l)%nat /\
  (forall t, In t times -> exists r, In r (c_last c :: l) /\ (t - r < c_delay c \/ r = t)).
Proof.
  induction times as [|t ts IH]; intros c l c' H; cbn [checkpoints] in H; [injection H as <- <-; repeat split; try easy; cbn; lia|].
  destruct (checkpoint t c) as [b c1] eqn:E. destruct (checkpoints ts c1) as [l1 c2] eqn:E2. injection H as <- <-. destruct (IH c1 l1 c2 E2) as (A1 & A2 & A3 & A4 & A5). unfold checkpoint in E. destruct (Qle_bool (c_delay c) (t - c_last c)) eqn:EQ.
  - apply Qle_bool_iff in EQ. injection E as <- <-. cbn [c_delay c_last c_count] in *. split; [exact A1|]. split; [intros x [<-|Hx]; [now left|right; auto]|]. split; [split; [exact EQ|exact A3]|]. split; [cbn; lia|].
    intros x [<-|Hx]; [exists t; split; [right; now left|now right]|]. destruct (A5 x Hx) as (r & [<-|Hr] & R); [exists t; split; [right; now left|exact R]|exists r; split; [right; now right|exact R]].
  - injection E as <- <-. split; [exact A1|]. split; [intros x Hx; right; auto|]. split; [exact A3|]. split; [exact A4|]. intros x [<-|Hx]; [|now apply A5]. exists (c_last c). split; [now left|left]. apply Qnot_le_lt. intros Y. apply Qle_bool_iff in Y. congruence.
Qed.
(* ... and in the first run (the last checkpoint is at time 0) none is missed. *)
Theorem C63_checkpoints_partial : forall times delay l c', checkpoints times (mkCk delay 0 0) = (l, c') ->
  apart delay (0 :: l) /\ (forall t, In t l -> In t times) /\ c_count c' = length l /\ (forall t, In t times -> exists r, In r (0 :: l) /\ (t - r < delay \/ r = t)).
Proof. intros times delay l c' H. destruct (checkpoints_spec _ _ _ _ H) as (A1 & A2 & A3 & A4 & A5). cbn [c_delay c_last c_count] in *. auto. Qed.
Print Assumptions C63_checkpoints_partial.
Example C63_case : fst (checkpoints [0; 1; 2; 3; 4; 5] (mkCk 2 0 0)) = [2; 4].
Proof. reflexivity. Qed.
(* C63 fails for later runs: the elapsed time starts again at 0, the time of the last checkpoint is kept; after a checkpoint at time 40, a second run with steps 0, 1, ..., 20 and a delay of 15 makes no checkpoint. *)
Theorem C63_second_run_refuted : forall c, c_delay c = 15 -> c_last c = 40 -> fst (checkpoints (map (fun n => inject_Z (Z.of_nat n)) (seq 0 21)) c) = [].
Proof. intros [d la co] H1 H2. cbn in H1, H2. subst. reflexivity. Qed.
Print Assumptions C63_second_run_refuted.
