(* The sweep computes the forces of all pairs: assembly. *)
From Coq Require Import Reals Qreals.
From Verif Require Import Lib Model_Geometry Spec_Geometry Proofs_Geometry Model_Handlers Spec_Handlers Properties_Handlers
  Model_Cells Spec_Cells Proofs_Cells2 Proofs_Cells3 Proofs_Cells4 Proofs_Cells6 Properties_Cells Model_Verlet Proofs_Verlet Properties_Verlet
  Model_Sweep Spec_Sweep Proofs_Sweep2 Proofs_Sweep3 Proofs_Sweep4.
From Verif Require Model_Forces Spec_Forces Proofs_Forces2 Proofs_Sweep1 Properties_Forces.
From Coq Require Import ZifyBool.
Local Open Scope Q_scope.

Lemma in_force_some ss a b k : in_force ss a b (Some k) -> exists s, In s ss /\ s_it s = Some k.
Proof.
  cut (forall o, in_force ss a b o -> o = Some k -> exists s, In s ss /\ s_it s = Some k); [intros H0 H; now apply (H0 _ H)|].
  intros o H E. destruct H; [discriminate|]. exists s. split; [apply in_app_iff; right; now left|exact E].
Qed.

(* What the table of interactions of the force master gives the search. *)
Section FM.
Variables (its : nat -> inter) (n : nat) (ss : list setting) (fm0 : force_master).
Hypothesis HV : valid_types n ss.
Hypothesis HR : forall s, In s ss -> s_refl s = true.
Hypothesis HA : apply_settings (fun i => i_cut (its i)) ss (new_fm n) = Some fm0.
Let fm := initialize fm0.

Lemma init_grid t t' : getInteraction t t' fm = getInteraction t t' fm0.
Proof. unfold fm, initialize. destruct (fold_left _ _ _). reflexivity. Qed.
Lemma init_n : fm_n fm = fm_n fm0.
Proof. unfold fm, initialize. destruct (fold_left _ _ _). reflexivity. Qed.

Lemma table_sym t t' : getInteraction t t' fm = getInteraction t' t fm.
Proof.
  rewrite !init_grid. destruct (C24_symmetric (fun i => i_cut (its i)) n ss HV HR) as (fm' & E & H).
  assert (fm' = fm0) by congruence. subst fm'. apply H.
Qed.

Lemma table_n : fm_n fm0 = n.
Proof.
  destruct (C24_interacting_types (fun i => i_cut (its i)) n ss HV) as (fm' & E & _ & _ & _ & _ & H).
  assert (fm' = fm0) by congruence. subst fm'.
  assert (G : forall l f g, apply_settings (fun i => i_cut (its i)) l f = Some g -> fm_n g = fm_n f).
  { clear. induction l as [|s l IH]; intros f g H; cbn in H; [congruence|].
    destruct (setInteraction _ _ _ _ _ f) as [f1|] eqn:E; [|discriminate]. rewrite (IH _ _ H). revert E. unfold setInteraction.
    repeat match goal with |- context [match ?x with _ => _ end] => destruct x end; intros E; try discriminate; injection E as <-; reflexivity. }
  rewrite (G _ _ _ HA). reflexivity.
Qed.

Lemma table_some t t' k : getInteraction t t' fm = Some k -> (0 <= t < Z.of_nat n)%Z /\ (0 <= t' < Z.of_nat n)%Z.
Proof.
  unfold getInteraction. rewrite init_n, table_n. destruct (Z.of_nat n <=? t)%Z eqn:A, (Z.of_nat n <=? t')%Z eqn:B, (t <? 0)%Z eqn:C, (t' <? 0)%Z eqn:D; cbn; try discriminate. lia.
Qed.

Lemma table_listed t t' k : getInteraction t t' fm = Some k -> In k (fm_list fm).
Proof.
  intros H. assert (R := table_some _ _ _ H).
  destruct (C24_listed_once (fun i => i_cut (its i)) n ss HV) as (f1 & E1 & _ & L). assert (f1 = fm0) by congruence. subst f1. apply L.
  destruct (C24_last_set (fun i => i_cut (its i)) n ss HV) as (f2 & E2 & G & _). assert (f2 = fm0) by congruence. subst f2.
  specialize (G (Z.to_nat t) (Z.to_nat t') ltac:(lia) ltac:(lia)). rewrite !Z2Nat.id in G by lia. fold fm in G. rewrite H in G.
  now apply in_force_some in G.
Qed.

Lemma table_nodup : NoDup (fm_list fm).
Proof. destruct (C24_listed_once (fun i => i_cut (its i)) n ss HV) as (f1 & E1 & N & _). assert (f1 = fm0) by congruence. subst f1. exact N. Qed.

Lemma table_interacts t t' k : getInteraction t t' fm = Some k ->
  typeInteracts t fm = Says true /\ typeInteracts t' fm = Says true.
Proof.
  intros H. assert (R := table_some _ _ _ H).
  destruct (C24_interacting_types (fun i => i_cut (its i)) n ss HV) as (f1 & E1 & T & _). assert (f1 = fm0) by congruence. subst f1.
  destruct (C24_last_set (fun i => i_cut (its i)) n ss HV) as (f2 & E2 & G & _). assert (f2 = fm0) by congruence. subst f2.
  specialize (G (Z.to_nat t) (Z.to_nat t') ltac:(lia) ltac:(lia)). rewrite !Z2Nat.id in G by lia. fold fm in G. rewrite H in G.
  destruct (T (Z.to_nat t) ltac:(lia)) as (b & Eb & Hb). destruct (T (Z.to_nat t') ltac:(lia)) as (b' & Eb' & Hb').
  rewrite Z2Nat.id in Eb by lia. rewrite Z2Nat.id in Eb' by lia.
  assert (b = true) by (apply Hb; exists (Z.to_nat t'), k; split; [lia|now left]).
  assert (b' = true) by (apply Hb'; exists (Z.to_nat t), k; split; [lia|now right]). subst. fold fm in Eb, Eb'. auto.
Qed.

Lemma table_max t : 1 <= match getMaxCutoff (Z.to_nat t) fm with Some v => v | None => 1 end.
Proof.
  destruct (Nat.lt_ge_cases (Z.to_nat t) n) as [L|G].
  - destruct (C24_max_cutoff_partial (fun i => i_cut (its i)) n ss (Z.to_nat t) HV L) as (f1 & v & E1 & E & H & _). assert (f1 = fm0) by congruence. subst f1.
    fold fm in E. rewrite E. exact H.
  - destruct (getMaxCutoff (Z.to_nat t) fm) as [v|] eqn:E; [|lra].
    exfalso. unfold getMaxCutoff in E. assert (L : (Z.to_nat t < length (fm_max fm))%nat) by (apply nth_error_Some; congruence).
    assert (P : length (fm_max fm) = n).
    { unfold fm, initialize. destruct (fold_left _ _ _). cbn [fm_max].
      assert (G' : forall l f g, apply_settings (fun i => i_cut (its i)) l f = Some g -> length (fm_max g) = length (fm_max f)).
      { clear. assert (PL : forall A (f : A -> A) i l l', put i f l = Some l' -> length l' = length l).
        { intros A f i l. revert i. induction l as [|a l IH]; intros [|i] l' H; cbn in H; try discriminate; [injection H as <-; reflexivity|].
          destruct (put i f l) eqn:E; [|discriminate]. injection H as <-. cbn. now rewrite (IH _ _ E). }
        induction l as [|s l IH]; intros f g H; cbn in H; [congruence|].
        destruct (setInteraction _ _ _ _ _ f) as [f1|] eqn:E; [|discriminate]. rewrite (IH _ _ H). revert E. unfold setInteraction.
        destruct (set_grid _ _ _ _); [|discriminate]. destruct (if s_refl s then _ else _); [|discriminate]. destruct (s_it s); [|intros E; injection E as <-; reflexivity].
        destruct (raise_max (s_a s) _ _) as [m1|] eqn:M1; [|discriminate]. destruct (raise_max (s_b s) _ _) as [m2|] eqn:M2; [|discriminate].
        intros E. injection E as <-. cbn [fm_max]. apply PL in M1. apply PL in M2. congruence. }
      rewrite (G' _ _ _ HA). cbn. apply repeat_length. }
    lia.
Qed.
End FM.
