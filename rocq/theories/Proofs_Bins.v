From Coq Require Import QArith List Bool ZArith Lia Lqa Qround.
From Verif Require Import Lib Model_Geometry Model_Bins Spec_Bins.
Import ListNotations.
Local Open Scope Q_scope.

(* ---------- the bin of a value ---------- *)
Lemma trunc_floor q : 0 <= q -> Qtrunc q = Qfloor q.
Proof. intros H. unfold Qtrunc. destruct (Qltb_spec q 0); [lra|reflexivity]. Qed.
Lemma bin_of lo w v : 0 < w -> lo <= v -> let b := Qtrunc ((v - lo) / w) in
  (0 <= b)%Z /\ lo + inject_Z b * w <= v /\ v < lo + inject_Z (b + 1) * w.
Proof.
  intros Hw Hv b. assert (H0 : 0 <= (v - lo) / w) by (apply Qle_shift_div_l; [exact Hw|lra]). unfold b. rewrite (trunc_floor _ H0).
  pose proof (Qfloor_le ((v - lo) / w)) as A. pose proof (Qlt_floor ((v - lo) / w)) as B.
  assert (E : (v - lo) / w * w == v - lo) by (field; lra).
  split; [|split].
  - destruct (Z_lt_le_dec (Qfloor ((v - lo) / w)) 0) as [L|L]; [|exact L]. exfalso. assert (inject_Z (Qfloor ((v - lo) / w) + 1) <= 0) by (change 0 with (inject_Z 0); rewrite <- Zle_Qle; lia). lra.
  - assert (inject_Z (Qfloor ((v - lo) / w)) * w <= (v - lo) / w * w) by (apply Qmult_le_compat_r; lra). lra.
  - assert ((v - lo) / w * w < inject_Z (Qfloor ((v - lo) / w) + 1) * w) by (apply Qmult_lt_r; [exact Hw|exact B]). lra.
Qed.
Lemma bin_unique lo w v a b : 0 < w -> lo + inject_Z a * w <= v -> v < lo + inject_Z (a + 1) * w -> lo + inject_Z b * w <= v -> v < lo + inject_Z (b + 1) * w -> a = b.
Proof.
  intros Hw A1 A2 B1 B2.
  assert (K : forall i j, lo + inject_Z i * w <= v -> v < lo + inject_Z (j + 1) * w -> (i <= j)%Z).
  { intros i j X Y. assert (inject_Z i * w < inject_Z (j + 1) * w) as Z by lra. rewrite (Qmult_lt_r _ _ _ Hw), <- Zlt_Qlt in Z. lia. }
  pose proof (K a b A1 B2). pose proof (K b a B1 A2). lia.
Qed.
Lemma in_bin_spec lo w i v : in_bin lo w i v = true <-> lo + inject_Z (Z.of_nat i) * w <= v /\ v < lo + inject_Z (Z.of_nat i + 1) * w.
Proof. unfold in_bin. rewrite andb_true_iff, Qle_bool_iff. destruct (Qltb_spec v (lo + inject_Z (Z.of_nat i + 1) * w)); intuition congruence. Qed.
Lemma bin_is lo w v i : 0 < w -> lo <= v -> (Qtrunc ((v - lo) / w) =? Z.of_nat i)%Z = in_bin lo w i v.
Proof.
  intros Hw Hv. destruct (bin_of lo w v Hw Hv) as (B0 & B1 & B2). apply eq_true_iff_eq. rewrite Z.eqb_eq, in_bin_spec. split.
  - intros E. rewrite <- E. tauto.
  - intros [C1 C2]. eapply (bin_unique lo w v); eassumption.
Qed.
Lemma bin_below lo w v n : 0 < w -> lo <= v -> v < lo + inject_Z n * w -> (Qtrunc ((v - lo) / w) < n)%Z.
Proof.
  intros Hw Hv Hh. destruct (bin_of lo w v Hw Hv) as (B0 & B1 & B2). assert (inject_Z (Qtrunc ((v - lo) / w)) * w < inject_Z n * w) as Z by lra.
  rewrite (Qmult_lt_r _ _ _ Hw), <- Zlt_Qlt in Z. exact Z.
Qed.
Lemma in_bin_range lo w i n v : 0 < w -> in_bin lo w i v = true -> lo <= v /\ ((i < n)%nat -> v < lo + inject_Z (Z.of_nat n) * w).
Proof.
  intros Hw H. apply in_bin_spec in H as [A B]. split.
  - assert (0 <= inject_Z (Z.of_nat i) * w) by (apply Qmult_le_0_compat; [change 0 with (inject_Z 0); rewrite <- Zle_Qle; lia|lra]). lra.
  - intros Hi. assert (inject_Z (Z.of_nat i + 1) * w <= inject_Z (Z.of_nat n) * w) by (apply Qmult_le_compat_r; [rewrite <- Zle_Qle; lia|lra]). lra.
Qed.

(* ---------- updates ---------- *)
Lemma upd_some {A} b (f : A -> A) l : (0 <= b < Z.of_nat (length l))%Z -> exists l', upd b f l = Some l' /\ length l' = length l /\
  forall i d, nth i l' d = if (b =? Z.of_nat i)%Z then f (nth i l d) else nth i l d.
Proof.
  intros H. unfold upd. replace ((0 <=? b)%Z && (b <? Z.of_nat (length l))%Z) with true by (symmetry; apply andb_true_iff; lia). eexists. split; [reflexivity|].
  assert (G : forall k l, (k < length l)%nat -> length (firstn k l ++ match skipn k l with [] => [] | a :: t => f a :: t end) = length l /\
    forall i d, nth i (firstn k l ++ match skipn k l with [] => [] | a :: t => f a :: t end) d = if (k =? i)%nat then f (nth i l d) else nth i l d).
  { clear. induction k as [|k IH]; intros [|a l] Hl; cbn [length] in *; try lia.
    - cbn. split; [reflexivity|]. intros [|i] d; reflexivity.
    - cbn [firstn skipn app length nth]. destruct (IH l) as [A1 A2]; [lia|]. split; [now rewrite A1|]. intros [|i] d; [reflexivity|]. cbn [nth Nat.eqb]. apply A2. }
  destruct (G (Z.to_nat b) l) as [A1 A2]; [lia|]. split; [exact A1|]. intros i d. rewrite A2. destruct (Z.eqb_spec b (Z.of_nat i)) as [E|E], (Nat.eqb_spec (Z.to_nat b) i) as [E'|E']; try reflexivity; exfalso; lia.
Qed.
Lemma upd_none {A} b (f : A -> A) l : ~ (0 <= b < Z.of_nat (length l))%Z -> upd b f l = None.
Proof. intros H. unfold upd. destruct (_ && _) eqn:E; [exfalso; apply H; lia|reflexivity]. Qed.

Definition hits {S} (ix : S -> option Z) (i : nat) (s : S) : bool := match ix s with None => false | Some b => (b =? Z.of_nat i)%Z end.
Lemma tally_some {S A} (ix : S -> option Z) (add : S -> A -> A) l : forall bins, (forall s b, In s l -> ix s = Some b -> (0 <= b < Z.of_nat (length bins))%Z) ->
  exists bins', tally ix add l bins = Some bins' /\ length bins' = length bins /\
    forall i d, (i < length bins)%nat -> nth i bins' d = fold_left (fun a s => add s a) (filter (hits ix i) l) (nth i bins d).
Proof.
  induction l as [|s l IH]; intros bins H; cbn [tally]; [eauto|]. cbn [filter]. unfold hits at 1. destruct (ix s) as [b|] eqn:E.
  - destruct (upd_some b (add s) bins (H s b (or_introl eq_refl) E)) as (b1 & E1 & L1 & N1). rewrite E1.
    destruct (IH b1) as (b2 & E2 & L2 & N2); [intros s' b' Hs; rewrite L1; apply H; now right|]. exists b2. split; [exact E2|]. split; [congruence|].
    intros i d Hi. rewrite N2 by lia. rewrite N1. destruct (b =? Z.of_nat i)%Z; reflexivity.
  - destruct (IH bins) as (b2 & E2 & L2 & N2); [intros s' b' Hs; apply H; now right|]. exists b2. split; [exact E2|]. split; [exact L2|]. intros i d Hi. rewrite N2 by exact Hi. reflexivity.
Qed.
Lemma tally_none {S A} (ix : S -> option Z) (add : S -> A -> A) l s b : forall bins, In s l -> ix s = Some b -> ~ (0 <= b < Z.of_nat (length bins))%Z -> tally ix add l bins = None.
Proof.
  induction l as [|s' l IH]; intros bins Hin E H; [destruct Hin|]. cbn [tally]. destruct Hin as [-> |Hin].
  - rewrite E. now rewrite upd_none.
  - destruct (ix s') as [b'|]; [|now apply IH]. destruct (upd b' (add s') bins) as [bins'|] eqn:Eu; [|reflexivity]. apply IH; try assumption.
    unfold upd in Eu. destruct (_ && _) eqn:Er; [|discriminate]. destruct (upd_some b' (add s') bins) as (l' & E' & L' & _); [lia|]. unfold upd in E'. rewrite Er in E'. rewrite Eu in E'. injection E' as <-. now rewrite L'.
Qed.
Lemma filter_ext_in' {A} (f g : A -> bool) l : (forall a, In a l -> f a = g a) -> filter f l = filter g l.
Proof. induction l as [|a l IH]; intros H; cbn; [reflexivity|]. rewrite (H a (or_introl eq_refl)), IH; [reflexivity|]. intros b Hb. apply H. now right. Qed.

Lemma fold_count {S} (l : list S) c : fold_left (fun a _ => (a + 1)%Z) l c = (c + Z.of_nat (length l))%Z.
Proof. revert c. induction l as [|s l IH]; intros c; cbn [fold_left length]; [lia|]. rewrite IH. lia. Qed.
Lemma sum_app {A} (f : A -> Q) l l' : sum f (l ++ l') == sum f l + sum f l'.
Proof. induction l as [|a l IH]; [unfold sum; cbn [app fold_right]; ring|]. unfold sum in *. cbn [app fold_right]. rewrite IH. ring. Qed.
Lemma sum_cons {A} (f : A -> Q) a l : sum f (a :: l) = f a + sum f l.
Proof. reflexivity. Qed.

(* bins that cover a range add up to the whole *)
Lemma sum_bins {S} (f : S -> Q) (ix : S -> option Z) n l : (forall s b, In s l -> ix s = Some b -> (0 <= b < Z.of_nat n)%Z) ->
  sum (fun i => sum f (filter (hits ix i) l)) (seq 0 n) == sum f (filter (fun s => match ix s with None => false | Some _ => true end) l).
Proof.
  induction l as [|s l IH]; intros H.
  - cbn [filter]. generalize (seq 0 n). induction l as [|a l IH]; [reflexivity|]. rewrite sum_cons, IH. reflexivity.
  - cbn [filter]. specialize (IH (fun s b Hs => H s b (or_intror Hs))).
    destruct (ix s) as [b|] eqn:E.
    + rewrite sum_cons, <- IH. specialize (H s b (or_introl eq_refl) E).
      assert (G : forall k a, (Z.of_nat a <= b < Z.of_nat (a + k))%Z -> sum (fun i => sum f (if hits ix i s then s :: filter (hits ix i) l else filter (hits ix i) l)) (seq a k) == f s + sum (fun i => sum f (filter (hits ix i) l)) (seq a k)).
      { clear IH H. induction k as [|k IH]; intros a Hb; [lia|]. cbn [seq]. rewrite !sum_cons. unfold hits at 1. rewrite E. destruct (Z.eqb_spec b (Z.of_nat a)) as [Eb|Eb].
        - rewrite sum_cons. assert (Z : sum (fun i => sum f (if hits ix i s then s :: filter (hits ix i) l else filter (hits ix i) l)) (seq (Datatypes.S a) k) == sum (fun i => sum f (filter (hits ix i) l)) (seq (Datatypes.S a) k)).
          { assert (G : forall k a', (a < a')%nat -> sum (fun i => sum f (if hits ix i s then s :: filter (hits ix i) l else filter (hits ix i) l)) (seq a' k) == sum (fun i => sum f (filter (hits ix i) l)) (seq a' k)).
            { clear k IH Hb. induction k as [|k IH]; intros a' Ha; [reflexivity|]. cbn [seq]. rewrite !sum_cons, IH by lia. unfold hits at 1. rewrite E. destruct (Z.eqb_spec b (Z.of_nat a')); [exfalso; lia|]. reflexivity. }
            apply G. lia. }
          rewrite Z. ring.
        - rewrite IH by lia. ring. }
      apply G. cbn [Nat.add]. lia.
    + rewrite <- IH. generalize (seq 0 n). induction l0 as [|a l0 IH0]; [reflexivity|]. rewrite !sum_cons, IH0. unfold hits at 1. rewrite E. reflexivity.
Qed.
