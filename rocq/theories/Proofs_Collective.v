(* The calls of all processors match: then every schedule ends well. *)
From Coq Require Import List ZArith Lia Bool Arith.
From Verif Require Import Lib Model_Collective Spec_Collective.
Import ListNotations.

Definition dl (P : nat) (k : kind) (bufs : nat -> list Z) (r : nat) : list (list Z) :=
  match k with
  | KBcast => [bufs 0%nat]
  | KGather => if (r =? 0)%nat then map bufs (seq 0 P) else []
  | _ => map bufs (seq 0 P)
  end.
Definition b2 (b : bool) : nat := if b then 1 else 0.

Section Rounds.
Context {A : Type} (P n : nat) (T : nat -> nat -> prog A) (K : nat -> kind) (B : nat -> nat -> list Z).
Hypothesis H1 : forall c r, (c < n)%nat -> (r < P)%nat -> exists rest, T c r = Call (K c) (B c r) rest /\ T (S c) r = rest (dl P (K c) (B c) r).
Hypothesis H2 : forall c r, (c < n)%nat -> (r < P)%nat -> length (B c r) = length (B c 0%nat).

Definition log_to (r m : nat) : list (kind * list Z) := map (fun i => (K i, B i r)) (seq 0 m).
Definition at_round (c : config A) (r m : nat) (b : bool) : Prop := (m + b2 b <= n)%nat /\ c r = mkP (log_to r (m + b2 b)) (T m r) b.
Definition inv (c : config A) : Prop := forall r, (r < P)%nat -> exists m b, at_round c r m b.

Lemma log_len r m : length (log_to r m) = m.
Proof. unfold log_to. now rewrite map_length, seq_length. Qed.
Lemma log_nth r m i : (i < m)%nat -> nth_error (log_to r m) i = Some (K i, B i r).
Proof. intros H. unfold log_to. rewrite (map_nth_error _ i _ (d := i)); [reflexivity|]. rewrite (nth_error_nth' _ 0%nat) by (rewrite seq_length; exact H). now rewrite seq_nth. Qed.
Lemma log_S r m : log_to r (S m) = log_to r m ++ [(K m, B m r)].
Proof. unfold log_to. rewrite seq_S, map_app. reflexivity. Qed.

Lemma deliver c m r : inv c -> (m < n)%nat -> (r < P)%nat -> (0 < P)%nat -> (forall q, (q < P)%nat -> needs (K m) r q = true -> (m < length (p_log (c q)))%nat) ->
  delivered P c (K m) m r = dl P (K m) (B m) r.
Proof.
  intros I Hm Hr HP Hn.
  assert (G : forall q, (q < P)%nat -> needs (K m) r q = true -> given c m q = B m q).
  { intros q Hq Hk. destruct (I q Hq) as (mq & bq & Hle & E). unfold given. specialize (Hn q Hq Hk). rewrite E in *. cbn [p_log] in *. rewrite log_len in Hn. now rewrite log_nth. }
  unfold delivered, dl. destruct (K m); cbn [needs] in G.
  - rewrite G; auto.
  - destruct (Nat.eqb_spec r 0); [|reflexivity]. apply map_ext_in. intros q Hq. apply in_seq in Hq. apply G; [lia|reflexivity].
  - apply map_ext_in. intros q Hq. apply in_seq in Hq. apply G; [lia|reflexivity].
  - apply map_ext_in. intros q Hq. apply in_seq in Hq. apply G; [lia|reflexivity].
  - apply map_ext_in. intros q Hq. apply in_seq in Hq. apply G; [lia|reflexivity].
Qed.
Lemma not_mixed c : inv c -> ~ mixed_up P c.
Proof.
  intros I (q & r & i & a & b & Hq & Hr & Ea & Eb & D). destruct (I q Hq) as (mq & bq & Lq & Eq). destruct (I r Hr) as (mr & br & Lr & Er).
  rewrite Eq in Ea. rewrite Er in Eb. cbn [p_log] in *.
  assert (Hi : (i < mq + b2 bq)%nat) by (rewrite <- (log_len q (mq + b2 bq)); apply nth_error_Some; congruence).
  assert (Hj : (i < mr + b2 br)%nat) by (rewrite <- (log_len r (mr + b2 br)); apply nth_error_Some; congruence).
  rewrite log_nth in Ea, Eb by assumption. injection Ea as <-. injection Eb as <-. cbn [fst snd] in D. destruct D as [D|D]; [now apply D|]. apply D. rewrite H2, (H2 i r) by lia. reflexivity.
Qed.

Definition set (c : config A) (r : nat) (p : proc A) : config A := fun q => if (q =? r)%nat then p else c q.
Lemma set_same c r p : set c r p r = p.
Proof. unfold set. now rewrite Nat.eqb_refl. Qed.
Lemma set_other c r p q : q <> r -> set c r p q = c q.
Proof. intros H. unfold set. destruct (Nat.eqb_spec q r); [contradiction|reflexivity]. Qed.
Lemma can_enter c r m : (r < P)%nat -> (m < n)%nat -> at_round c r m false -> exists c', step P c c' /\ at_round c' r m true /\ forall q, q <> r -> c' q = c q.
Proof.
  intros Hr Hm [L E]. destruct (H1 m r Hm Hr) as (rest & E1 & _). cbn [b2] in E. rewrite Nat.add_0_r in E.
  exists (set c r (mkP (log_to r (S m)) (T m r) true)). split; [|split].
  - apply (Enter P c r (K m) (B m r) rest); auto; try (rewrite E; auto; fail). 2: apply set_other. rewrite set_same, E. cbn [p_log]. rewrite log_S, E1. reflexivity.
  - split; [cbn [b2]; lia|]. rewrite set_same. cbn [b2]. now rewrite Nat.add_1_r.
  - apply set_other.
Qed.
Lemma can_leave c r m : inv c -> (r < P)%nat -> (m < n)%nat -> at_round c r m true -> (forall q, (q < P)%nat -> needs (K m) r q = true -> (m < length (p_log (c q)))%nat) ->
  exists c', step P c c' /\ at_round c' r (S m) false /\ forall q, q <> r -> c' q = c q.
Proof.
  intros I Hr Hm [L E] Hn. destruct (H1 m r Hm Hr) as (rest & E1 & E2). cbn [b2] in E. rewrite Nat.add_1_r in E.
  exists (set c r (mkP (log_to r (S m)) (T (S m) r) false)). split; [|split].
  - apply (Leave P c r (K m) (B m r) rest m); auto; try (rewrite E; auto; fail).
    + rewrite E. cbn [p_log]. apply log_len.
    + rewrite set_same, E. cbn [p_log]. rewrite deliver by (auto; lia). now rewrite <- E2.
    + apply set_other.
  - split; [cbn [b2]; lia|]. rewrite set_same. cbn [b2]. now rewrite Nat.add_0_r.
  - apply set_other.
Qed.

Section Ends.
Context (R : nat -> A).
Hypothesis H3 : forall r, (r < P)%nat -> T n r = Ret (R r).

Lemma round_lt m r k buf rest : (m <= n)%nat -> (r < P)%nat -> T m r = Call k buf rest -> (m < n)%nat /\ k = K m /\ buf = B m r /\ T (S m) r = rest (dl P (K m) (B m) r).
Proof.
  intros Hm Hr E. destruct (Nat.eq_dec m n) as [En|Nn]; [rewrite En, H3 in E by exact Hr; discriminate|]. assert (L : (m < n)%nat) by lia. split; [exact L|].
  destruct (H1 m r L Hr) as (rest' & E1 & E2). rewrite E in E1. injection E1 as -> -> ->. auto.
Qed.
Lemma inv_step c c' : inv c -> step P c c' -> inv c'.
Proof.
  intros I S. destruct S as [r k buf rest c' Hr Hin Hp Ec Eo|r k buf rest i c' Hr Hin Hp Hl Hn Ec Eo]; intros q Hq.
  - destruct (Nat.eq_dec q r) as [->|Nq]; [|destruct (I q Hq) as (m & b & L & E); exists m, b; split; [exact L|now rewrite (Eo q Nq)]].
    destruct (I r Hr) as (m & b & L & E). rewrite E in Hin, Hp. cbn [p_in p_prog] in *. subst b. cbn [b2] in *. rewrite Nat.add_0_r in *.
    destruct (round_lt m r _ _ _ L Hr Hp) as (Hm & -> & -> & _). exists m, true. split; [cbn [b2]; lia|]. rewrite Ec, E. cbn [p_log b2]. rewrite <- Hp. rewrite Nat.add_1_r, log_S. reflexivity.
  - destruct (Nat.eq_dec q r) as [->|Nq]; [|destruct (I q Hq) as (m & b & L & E); exists m, b; split; [exact L|now rewrite (Eo q Nq)]].
    destruct (I r Hr) as (m & b & L & E). assert (HP : (0 < P)%nat) by lia. rewrite E in Hin, Hp, Hl. cbn [p_in p_prog p_log] in *. subst b. cbn [b2] in *. rewrite log_len in Hl. assert (i = m) by lia. subst i.
    destruct (round_lt m r _ _ _ ltac:(lia) Hr Hp) as (Hm & -> & -> & ET). exists (S m), false. split; [cbn [b2]; lia|]. rewrite Ec, E. cbn [p_log b2].
    rewrite (deliver c m r I Hm Hr HP Hn), <- ET. rewrite Nat.add_0_r, Nat.add_1_r. reflexivity.
Qed.
Lemma inv_start ps : (forall r, (r < P)%nat -> T 0%nat r = ps r) -> inv (start ps).
Proof. intros E r Hr. exists 0%nat, false. split; [cbn; lia|]. unfold start. rewrite E by exact Hr. reflexivity. Qed.

Lemma minimal (f : nat -> nat) : (0 < P)%nat -> exists r, (r < P)%nat /\ forall q, (q < P)%nat -> (f r <= f q)%nat.
Proof.
  generalize P. intros p. induction p as [|p IH]; intros H; [lia|]. destruct p as [|p]; [exists 0%nat; split; [lia|]; intros q Hq; replace q with 0%nat by lia; lia|].
  destruct IH as (r & Hr & Hm); [lia|]. destruct (Nat.le_gt_cases (f r) (f (S p))).
  - exists r. split; [lia|]. intros q Hq. destruct (Nat.eq_dec q (S p)) as [->|]; [assumption|]. apply Hm. lia.
  - exists (S p). split; [lia|]. intros q Hq. destruct (Nat.eq_dec q (S p)) as [->|]; [lia|]. specialize (Hm q ltac:(lia)). lia.
Qed.
Definition done (c : config A) (r : nat) : nat := length (p_log (c r)) - b2 (p_in (c r)).
Lemma done_at c r m b : at_round c r m b -> done c r = m.
Proof. intros [L E]. unfold done. rewrite E. cbn [p_log p_in]. rewrite log_len. lia. Qed.
Lemma progress c : inv c -> ended P c \/ exists c', step P c c'.
Proof.
  intros I. destruct (Nat.eq_dec P 0) as [->|NP]; [left; intros r Hr; lia|]. destruct (minimal (done c)) as (r & Hr & Hmin); [lia|].
  destruct (I r Hr) as (m & b & Ar). pose proof (done_at _ _ _ _ Ar) as Dr. rewrite Dr in Hmin. pose proof Ar as [L E].
  destruct b; cbn [b2] in L.
  - assert (Hm : (m < n)%nat) by lia.
    destruct (existsb (fun q => negb (m <? length (p_log (c q)))%nat) (seq 0 P)) eqn:Ex.
    + right. apply existsb_exists in Ex. destruct Ex as (q & Hq & Hl). apply in_seq in Hq. apply negb_true_iff, Nat.ltb_ge in Hl.
      destruct (I q ltac:(lia)) as (mq & bq & Aq). pose proof (done_at _ _ _ _ Aq) as Dq. specialize (Hmin q ltac:(lia)). rewrite Dq in Hmin.
      pose proof Aq as [Lq Eq]. rewrite Eq in Hl. cbn [p_log] in Hl. rewrite log_len in Hl. destruct bq; cbn [b2] in *; [lia|]. assert (Em : mq = m) by lia. rewrite Em in Aq.
      destruct (can_enter c q m ltac:(lia) Hm Aq) as (c' & S & _). now exists c'.
    + right. destruct (can_leave c r m I Hr Hm Ar) as (c' & S & _); [|now exists c'].
      intros q Hq _. destruct (Nat.ltb_spec m (length (p_log (c q)))) as [G|G]; [exact G|]. exfalso. apply not_true_iff_false in Ex. apply Ex. apply existsb_exists. exists q. split; [apply in_seq; lia|].
      apply negb_true_iff, Nat.ltb_ge. exact G.
  - destruct (Nat.eq_dec m n) as [->|Nm].
    + left. intros q Hq. destruct (I q Hq) as (mq & bq & Aq). pose proof (done_at _ _ _ _ Aq) as Dq. specialize (Hmin q Hq). rewrite Dq in Hmin. destruct Aq as [Lq Eq]. assert (Em : mq = n) by (unfold b2 in Lq; destruct bq; lia). rewrite Em in Eq.
      exists (R q). rewrite Eq. cbn [p_prog]. now apply H3.
    + right. destruct (can_enter c r m Hr ltac:(lia) Ar) as (c' & S & _). now exists c'.
Qed.
Definition work (c : config A) : nat := fold_right (fun r s => 2 * length (p_log (c r)) - b2 (p_in (c r)) + s)%nat 0%nat (seq 0 P).
Lemma work_one c c' r : (r < P)%nat -> (forall q, q <> r -> c' q = c q) -> (2 * length (p_log (c' r)) - b2 (p_in (c' r)) = S (2 * length (p_log (c r)) - b2 (p_in (c r))))%nat -> work c' = S (work c).
Proof.
  intros Hr Ho Hw. unfold work.
  assert (G : forall l, NoDup l -> fold_right (fun r s => 2 * length (p_log (c' r)) - b2 (p_in (c' r)) + s)%nat 0%nat l = (fold_right (fun r s => 2 * length (p_log (c r)) - b2 (p_in (c r)) + s) 0 l + (if in_dec Nat.eq_dec r l then 1 else 0))%nat).
  { induction l as [|a l IH]; intros ND; [reflexivity|]. inversion ND as [|? ? Na ND']; subst. cbn [fold_right]. rewrite (IH ND'). destruct (Nat.eq_dec a r) as [->|Nar].
    - rewrite Hw. destruct (in_dec Nat.eq_dec r l); [contradiction|]. destruct (in_dec Nat.eq_dec r (r :: l)) as [_|G]; [lia|exfalso; apply G; now left].
    - rewrite (Ho a Nar). destruct (in_dec Nat.eq_dec r l) as [G|G], (in_dec Nat.eq_dec r (a :: l)) as [G'|G']; try lia; exfalso; [apply G'; now right|]. destruct G' as [->|G']; [now apply Nar|contradiction]. }
  rewrite G by apply seq_NoDup. destruct (in_dec Nat.eq_dec r (seq 0 P)) as [_|G']; [lia|]. exfalso. apply G'. apply in_seq. lia.
Qed.
Lemma work_step c c' : step P c c' -> work c' = S (work c).
Proof.
  intros S. destruct S as [r k buf rest c' Hr Hin Hp Ec Eo|r k buf rest i c' Hr Hin Hp Hl Hn Ec Eo]; apply (work_one c c' r Hr Eo); rewrite Ec, Hin; cbn [p_log p_in b2].
  - rewrite app_length. cbn [length]. lia.
  - rewrite Hl. lia.
Qed.
Lemma work_le c : inv c -> (work c <= P * (2 * n))%nat.
Proof.
  intros I. unfold work. assert (G : forall l, (forall r, In r l -> (r < P)%nat) -> (fold_right (fun r s => 2 * length (p_log (c r)) - b2 (p_in (c r)) + s) 0 l <= length l * (2 * n))%nat).
  { induction l as [|a l IH]; intros H; [cbn; lia|]. cbn [fold_right length]. specialize (IH (fun r Hr => H r (or_intror Hr))). destruct (I a (H a (or_introl eq_refl))) as (m & b & L & E). rewrite E. cbn [p_log p_in]. rewrite log_len. nia. }
  rewrite <- (seq_length P 0) at 2. apply G. intros r Hr. apply in_seq in Hr. lia.
Qed.
Theorem rounds_end ps : (forall r, (r < P)%nat -> T 0%nat r = ps r) -> always_ends P ps R.
Proof.
  intros E0. assert (I : forall k c, steps P k (start ps) c -> inv c /\ work c = (work (start ps) + k)%nat).
  { intros k c S. remember (start ps) as c0 eqn:E. induction S as [c0|k c0 c1 c2 S IH St]; [split; [subst; now apply inv_start|lia]|]. destruct (IH E) as [I W]. split; [eapply inv_step; eauto|]. rewrite (work_step _ _ St), W. lia. }
  split.
  - exists (P * (2 * n))%nat. intros k c S. destruct (I k c S) as [Ic W]. pose proof (work_le c Ic). lia.
  - intros k c S. destruct (I k c S) as [Ic _]. split; [now apply not_mixed|]. split; [now apply progress|]. intros En r Hr. destruct (En r Hr) as (a & Ea). destruct (Ic r Hr) as (m & b & L & E).
    rewrite E in *. cbn [p_prog] in *. destruct (Nat.eq_dec m n) as [->|Nm]; [now apply H3|]. destruct (H1 m r ltac:(lia) Hr) as (rest & E1 & _). congruence.
Qed.
End Ends.

(* all processors can get through the n rounds, also if they do not match later *)
Lemma steps_app a b c0 c1 c2 : steps P a c0 c1 -> steps (A := A) P b c1 c2 -> steps P (a + b) c0 c2.
Proof. intros S1 S2. induction S2 as [|b c1 c2 c3 S2 IH S3]; [now rewrite Nat.add_0_r|]. rewrite Nat.add_succ_r. eapply steps_S; [apply IH; exact S1|exact S3]. Qed.
Lemma all_enter m c : (m < n)%nat -> (forall r, (r < P)%nat -> at_round c r m false) -> forall j, (j <= P)%nat ->
  exists k c', steps P k c c' /\ (forall r, (r < j)%nat -> at_round c' r m true) /\ (forall r, (j <= r < P)%nat -> at_round c' r m false).
Proof.
  intros Hm H. induction j as [|j IH]; intros Hj.
  - exists 0%nat, c. split; [constructor|]. split; [lia|]. intros r Hr. apply H. lia.
  - destruct IH as (k & c1 & Sk & D & U); [lia|]. destruct (can_enter c1 j m ltac:(lia) Hm (U j ltac:(lia))) as (c2 & St & A2 & O). exists (S k), c2. split; [econstructor; eauto|]. split.
    + intros r Hr. destruct (Nat.eq_dec r j) as [->|Nr]; [exact A2|]. destruct (D r ltac:(lia)) as [L E]. split; [exact L|]. rewrite O by exact Nr. exact E.
    + intros r Hr. destruct (U r ltac:(lia)) as [L E]. split; [exact L|]. rewrite O by lia. exact E.
Qed.
Lemma all_leave m c : (m < n)%nat -> (forall r, (r < P)%nat -> at_round c r m true) -> forall j, (j <= P)%nat ->
  exists k c', steps P k c c' /\ (forall r, (r < j)%nat -> at_round c' r (S m) false) /\ (forall r, (j <= r < P)%nat -> at_round c' r m true).
Proof.
  intros Hm H. induction j as [|j IH]; intros Hj.
  - exists 0%nat, c. split; [constructor|]. split; [lia|]. intros r Hr. apply H. lia.
  - destruct IH as (k & c1 & S & D & U); [lia|].
    assert (I : inv c1). { intros r Hr. destruct (Nat.lt_ge_cases r j); [exists (Datatypes.S m), false; apply D; assumption|exists m, true; apply U; lia]. }
    destruct (can_leave c1 j m I ltac:(lia) Hm (U j ltac:(lia))) as (c2 & St & A2 & O).
    { intros q Hq _. destruct (Nat.lt_ge_cases q j) as [Lq|Lq].
      - destruct (D q Lq) as [_ E]. rewrite E. cbn [p_log]. rewrite log_len. cbn [b2]. lia.
      - destruct (U q ltac:(lia)) as [_ E]. rewrite E. cbn [p_log]. rewrite log_len. cbn [b2]. lia. }
    exists (Datatypes.S k), c2. split; [econstructor; eauto|]. split.
    + intros r Hr. destruct (Nat.eq_dec r j) as [->|Nr]; [exact A2|]. destruct (D r ltac:(lia)) as [L E]. split; [exact L|]. rewrite O by exact Nr. exact E.
    + intros r Hr. destruct (U r ltac:(lia)) as [L E]. split; [exact L|]. rewrite O by lia. exact E.
Qed.
Lemma reach ps : (forall r, (r < P)%nat -> T 0%nat r = ps r) -> forall m, (m <= n)%nat -> exists k c, steps P k (start ps) c /\ forall r, (r < P)%nat -> c r = mkP (log_to r m) (T m r) false.
Proof.
  intros E0 m. assert (G : (m <= n)%nat -> exists k c, steps P k (start ps) c /\ forall r, (r < P)%nat -> at_round c r m false).
  { induction m as [|m IH]; intros Hm.
    - exists 0%nat, (start ps). split; [constructor|]. intros r Hr. split; [cbn; lia|]. unfold start. now rewrite E0.
    - destruct IH as (k & c & S & At); [lia|]. destruct (all_enter m c ltac:(lia) At P ltac:(lia)) as (k1 & c1 & S1 & D1 & _). destruct (all_leave m c1 ltac:(lia) D1 P ltac:(lia)) as (k2 & c2 & S2 & D2 & _).
      exists (k + k1 + k2)%nat, c2. split; [eapply steps_app; [eapply steps_app; eauto|eauto]|exact D2]. }
  intros Hm. destruct (G Hm) as (k & c & S & At). exists k, c. split; [exact S|]. intros r Hr. destruct (At r Hr) as [_ E]. cbn [b2] in E. now rewrite Nat.add_0_r in E.
Qed.
End Rounds.

(* All processors together get from the programs ps to the programs qs. *)
Definition leads {A} (P n : nat) (ps qs : nat -> prog A) : Prop := exists T K B,
  (forall r, (r < P)%nat -> T 0%nat r = ps r) /\ (forall r, (r < P)%nat -> T n r = qs r) /\
  (forall c r, (c < n)%nat -> (r < P)%nat -> exists rest, T c r = Call (K c) (B c r) rest /\ T (S c) r = rest (dl P (K c) (B c) r)) /\
  (forall c r, (c < n)%nat -> (r < P)%nat -> length (B c r) = length (B c 0%nat)).
Lemma leads_refl {A} P (ps qs : nat -> prog A) : (forall r, (r < P)%nat -> ps r = qs r) -> leads P 0 ps qs.
Proof. intros E. exists (fun _ => ps), (fun _ => KBarrier), (fun _ _ => []). repeat split; auto; intros; lia. Qed.
Lemma leads_call {A} P n k bufs (ks : nat -> list (list Z) -> prog A) ps qs : (forall r, (r < P)%nat -> ps r = Call k (bufs r) (ks r)) ->
  (forall r, (r < P)%nat -> length (bufs r) = length (bufs 0%nat)) -> leads P n (fun r => ks r (dl P k bufs r)) qs -> leads P (S n) ps qs.
Proof.
  intros E L (T & K & B & T0 & Tn & H1 & H2).
  exists (fun c => match c with O => ps | S c => T c end), (fun c => match c with O => k | S c => K c end), (fun c => match c with O => bufs | S c => B c end).
  split; [auto|]. split; [auto|]. split; intros [|c] r Hc Hr.
  - exists (ks r). split; [now apply E|]. rewrite T0 by exact Hr. reflexivity.
  - apply H1; [lia|exact Hr].
  - now apply L.
  - apply H2; [lia|exact Hr].
Qed.
Lemma leads_ext {A} P n (ps ps' qs : nat -> prog A) : (forall r, (r < P)%nat -> ps r = ps' r) -> leads P n ps' qs -> leads P n ps qs.
Proof. intros E (T & K & B & T0 & Tn & H1 & H2). exists T, K, B. split; [intros r Hr; rewrite E by exact Hr; auto|auto]. Qed.
Lemma leads_ends {A} P n (ps : nat -> prog A) R : leads P n ps (fun r => Ret (R r)) -> always_ends P ps R.
Proof. intros (T & K & B & T0 & Tn & H1 & H2). eapply (rounds_end P n T K B H1 H2 R); eauto. Qed.
Lemma leads_mixed {A} P n (ps qs : nat -> prog A) a b ka kb ba bb ra rb : leads P n ps qs -> (a < P)%nat -> (b < P)%nat ->
  qs a = Call ka ba ra -> qs b = Call kb bb rb -> ka <> kb -> exists k c, steps P k (start ps) c /\ mixed_up P c.
Proof.
  intros (T & K & B & T0 & Tn & H1 & H2) Ha Hb Ea Eb D. destruct (reach P n T K B H1 ps T0 n ltac:(lia)) as (k & c & S & At) || destruct (reach P n T K B H1 H2 ps T0 n ltac:(lia)) as (k & c & S & At).
  assert (Nab : a <> b) by (intros ->; rewrite Ea in Eb; injection Eb as -> _ _; now apply D).
  assert (Ca := At a Ha). assert (Cb := At b Hb). rewrite Tn in Ca, Cb by assumption. rewrite Ea in Ca. rewrite Eb in Cb.
  set (c1 := set c a (mkP (log_to K B a n ++ [(ka, ba)]) (Call ka ba ra) true)). set (c2 := set c1 b (mkP (log_to K B b n ++ [(kb, bb)]) (Call kb bb rb) true)).
  exists (Datatypes.S (Datatypes.S k)), c2. split.
  - apply (steps_S P _ _ c1); [apply (steps_S P _ _ c); [exact S|]|].
    + apply (Enter P c a ka ba ra); auto; try (rewrite Ca; reflexivity). { rewrite Ca. unfold c1. apply set_same. } intros q Hq. now apply set_other.
    + assert (C1 : c1 b = c b) by (apply set_other; auto). apply (Enter P c1 b kb bb rb); auto; try (rewrite C1, Cb; reflexivity). { rewrite C1, Cb. unfold c2. apply set_same. } intros q Hq. now apply set_other.
  - exists a, b, n, (ka, ba), (kb, bb). split; [exact Ha|]. split; [exact Hb|]. unfold c2. rewrite set_same. rewrite set_other by exact Nab. unfold c1. rewrite set_same. cbn [p_log].
    rewrite !nth_error_app2 by (rewrite log_len; lia). rewrite !log_len, Nat.sub_diag. cbn. auto.
Qed.
