(* Quicksort: safe, terminating, a sequence of swaps, and sorts. *)
From Verif Require Import Lib Model_Store Spec_Store Proofs_Store1.
From Coq Require Import Permutation Sorted ZifyBool ZifyNat.
Local Open Scope nat_scope.

(* key at k satisfies P *)
Definition keyat (m : list part) (dim k : nat) (P : num -> Prop) : Prop :=
  exists p, nth_error m k = Some p /\ P (coord p dim).
Definition le_piv (pivot : num) (a : num) : Prop := num_lt pivot a = false.
Definition ge_piv (pivot : num) (a : num) : Prop := num_lt a pivot = false.

Lemma num_lt_irrefl a : num_lt a a = false.
Proof. destruct a as [q|]; cbn; [|reflexivity]. destruct (Qltb_spec q q); [lra|reflexivity]. Qed.

Lemma median_in a b c : median3 a b c = a \/ median3 a b c = b \/ median3 a b c = c.
Proof. unfold median3. destruct (num_lt b a); destruct (num_lt c _); try destruct (num_lt c _); auto. Qed.

Lemma median_not_above a b c : ~ (num_lt a (median3 a b c) = true /\ num_lt b (median3 a b c) = true).
Proof.
  unfold median3. intros [H1 H2].
  destruct a as [a|], b as [b|], c as [c|]; cbn in *; try discriminate.
  - destruct (Qltb_spec b a) as [H|H]; cbn in *.
    + destruct (Qltb_spec c a) as [H'|H']; cbn in *.
      * destruct (Qltb_spec c b) as [H''|H'']; cbn in *; repeat match goal with H : Qltb ?a ?b = true |- _ => destruct (Qltb_spec a b); [clear H|discriminate] end; lra.
      * repeat match goal with H : Qltb ?a ?b = true |- _ => destruct (Qltb_spec a b); [clear H|discriminate] end; lra.
    + destruct (Qltb_spec c b) as [H'|H']; cbn in *.
      * destruct (Qltb_spec c a) as [H''|H'']; cbn in *; repeat match goal with H : Qltb ?a ?b = true |- _ => destruct (Qltb_spec a b); [clear H|discriminate] end; lra.
      * repeat match goal with H : Qltb ?a ?b = true |- _ => destruct (Qltb_spec a b); [clear H|discriminate] end; lra.
  - destruct (Qltb_spec b a) as [H|H]; cbn in *;
      repeat match goal with H : Qltb ?a ?b = true |- _ => destruct (Qltb_spec a b); [clear H|discriminate] end; lra.
Qed.

Lemma scan_up_spec n i dim pivot m e : e < i + n -> i <= e -> i + n <= length m -> keyat m dim e (ge_piv pivot) ->
  exists i', scan_up n i dim pivot m = Some i' /\ i <= i' <= e /\ keyat m dim i' (ge_piv pivot) /\
    forall k, i <= k < i' -> keyat m dim k (fun a => num_lt a pivot = true).
Proof.
  revert i. induction n as [|n IH]; intros i He Hie Hl Hk; [lia|]. cbn [scan_up].
  destruct (nth_error_ex m i ltac:(lia)) as [p Ep]. rewrite Ep.
  destruct (num_lt (coord p dim) pivot) eqn:E.
  - assert (i <> e). { intros ->. destruct Hk as (q & Eq & Hq). unfold ge_piv in Hq. congruence. }
    destruct (IH (S i) ltac:(lia) ltac:(lia) ltac:(lia) Hk) as (i' & E' & Hi' & Hk' & Hb).
    exists i'. split; [exact E'|]. split; [lia|]. split; [exact Hk'|]. intros k Hki.
    destruct (Nat.eq_dec k i) as [->|]; [exists p; auto|]. apply Hb. lia.
  - exists i. split; [reflexivity|]. split; [lia|]. split; [exists p; auto|]. intros; lia.
Qed.

Lemma scan_down_spec j dim pivot m e : e < j -> j <= length m -> keyat m dim e (le_piv pivot) ->
  exists j', scan_down j dim pivot m = Some j' /\ e <= j' < j /\ keyat m dim j' (le_piv pivot) /\
    forall k, j' < k < j -> keyat m dim k (fun a => num_lt pivot a = true).
Proof.
  induction j as [|j IH]; intros He Hl Hk; [lia|]. cbn [scan_down].
  destruct (nth_error_ex m j ltac:(lia)) as [p Ep]. rewrite Ep.
  destruct (num_lt pivot (coord p dim)) eqn:E.
  - assert (j <> e). { intros ->. destruct Hk as (q & Eq & Hq). unfold le_piv in Hq. congruence. }
    destruct (IH ltac:(lia) ltac:(lia) Hk) as (j' & E' & Hj' & Hk' & Hb).
    exists j'. split; [exact E'|]. split; [lia|]. split; [exact Hk'|]. intros k Hkj.
    destruct (Nat.eq_dec k j) as [->|]; [exists p; auto|]. apply Hb. lia.
  - exists j. split; [reflexivity|]. split; [lia|]. split; [exists p; auto|]. intros; lia.
Qed.

Lemma num_lt_asym a b : num_lt a b = true -> num_lt b a = false.
Proof.
  destruct a as [a|], b as [b|]; cbn; try discriminate. destruct (Qltb_spec a b); [|discriminate].
  destruct (Qltb_spec b a); [lra|reflexivity].
Qed.

Lemma keyat_impl m dim k (P Q : num -> Prop) : (forall a, P a -> Q a) -> keyat m dim k P -> keyat m dim k Q.
Proof. intros H (p & E & Hp). exists p. auto. Qed.

Definition part_post (start end_ dim : nat) (pivot : num) (mg : mg_state) (res : option (nat * mg_state)) : Prop :=
  exists p mg', res = Some (p, mg') /\ start <= p < end_ /\ swaps start (S end_) mg mg' /\
    (forall k, start <= k <= p -> keyat (fst mg') dim k (le_piv pivot)) /\
    (forall k, p < k <= end_ -> keyat (fst mg') dim k (ge_piv pivot)).

(* passes after the first swap *)
Lemma part_loop_later fuel start end_ i1 j dim pivot mg :
  j - i1 < fuel -> start < i1 -> i1 <= j -> j <= end_ -> S end_ <= length (fst mg) ->
  (forall k, start <= k < i1 -> keyat (fst mg) dim k (le_piv pivot)) ->
  (forall k, j <= k <= end_ -> keyat (fst mg) dim k (ge_piv pivot)) ->
  part_post start end_ dim pivot mg (part_loop fuel (S end_) i1 j dim pivot mg).
Proof.
  revert i1 j mg. induction fuel as [|fuel IH]; intros i1 j mg Hf Hs Hij Hje Hl Hlo Hhi; [lia|].
  cbn [part_loop].
  destruct (scan_up_spec (S end_ - i1) i1 dim pivot (fst mg) j) as (i' & Ei & Hi' & Ki & Bi); [lia|lia|lia|apply Hhi; lia|].
  destruct (scan_down_spec j dim pivot (fst mg) (i1 - 1)) as (j' & Ej & Hj' & Kj & Bj); [lia|lia|apply Hlo; lia|].
  rewrite Ei, Ej. destruct (Nat.leb_spec j' i').
  - exists j', mg. split; [reflexivity|]. split; [lia|]. split; [constructor|]. split.
    + intros k Hk. destruct (Nat.lt_ge_cases k i1); [apply Hlo; lia|].
      destruct (Nat.lt_ge_cases k i'); [|assert (k = j') by lia; subst; auto].
      eapply keyat_impl; [|apply Bi; lia]. intros a. apply num_lt_asym.
    + intros k Hk. destruct (Nat.lt_ge_cases k j); [|apply Hhi; lia].
      eapply keyat_impl; [|apply Bj; lia]. intros a. apply num_lt_asym.
  - destruct mg as [m g]. cbn [fst] in *.
    destruct (swap_spec i' j' m g ltac:(lia) ltac:(lia)) as (pi & pj & m' & g' & Epi & Epj & E & L & K & _).
    rewrite E.
    destruct (IH (S i') j' (m', g')) as (p & mg' & Er & Hp & Hsw & H1 & H2); cbn [fst]; try lia.
    + intros k Hk. assert (Hkj : k <> j') by lia.
      destruct (Nat.eq_dec k i') as [->|Hki].
      * destruct Kj as (q & Eq & Hq). exists q. split; [|exact Hq]. rewrite K. unfold transp. now rewrite Nat.eqb_refl.
      * assert (Hkk : keyat m dim k (le_piv pivot)).
        { destruct (Nat.lt_ge_cases k i1); [apply Hlo; lia|]. eapply keyat_impl; [|apply Bi; lia]. intros a. apply num_lt_asym. }
        destruct Hkk as (q & Eq & Hq). exists q. split; [|exact Hq]. rewrite K. unfold transp.
        destruct (Nat.eqb_spec k i'); [lia|]. destruct (Nat.eqb_spec k j'); [lia|]. exact Eq.
    + intros k Hk. assert (Hki : k <> i') by lia.
      destruct (Nat.eq_dec k j') as [->|Hkj].
      * destruct Ki as (q & Eq & Hq). exists q. split; [|exact Hq]. rewrite K. unfold transp.
        destruct (Nat.eqb_spec j' i'); [lia|]. now rewrite Nat.eqb_refl.
      * assert (Hkk : keyat m dim k (ge_piv pivot)).
        { destruct (Nat.lt_ge_cases k j); [|apply Hhi; lia]. eapply keyat_impl; [|apply Bj; lia]. intros a. apply num_lt_asym. }
        destruct Hkk as (q & Eq & Hq). exists q. split; [|exact Hq]. rewrite K. unfold transp.
        destruct (Nat.eqb_spec k i'); [lia|]. destruct (Nat.eqb_spec k j'); [lia|]. exact Eq.
    + exists p, mg'. split; [exact Er|]. split; [lia|]. split; [|auto].
      eapply swaps_step with (i := i') (j := j'); eauto; lia.
Qed.

Lemma partition_spec start end_ dim mg : start < end_ -> end_ < length (fst mg) ->
  exists pivot, part_post start end_ dim pivot mg (quick_sort_partition start end_ dim mg) /\
    exists k p, start <= k <= end_ /\ nth_error (fst mg) k = Some p /\ pivot = coord p dim.
Proof.
  intros Hse Hl. unfold quick_sort_partition. set (mid := (start + end_) / 2).
  assert (Hmid : start <= mid < end_).
  { unfold mid. split; [apply Nat.div_le_lower_bound; lia|apply Nat.div_lt_upper_bound; lia]. }
  destruct (nth_error_ex (fst mg) start ltac:(lia)) as [a Ea].
  destruct (nth_error_ex (fst mg) mid ltac:(lia)) as [b Eb].
  destruct (nth_error_ex (fst mg) end_ ltac:(lia)) as [c Ec].
  rewrite Ea, Eb, Ec. set (pivot := median3 (coord a dim) (coord b dim) (coord c dim)).
  assert (Hpiv : exists k p, start <= k <= end_ /\ nth_error (fst mg) k = Some p /\ pivot = coord p dim).
  { destruct (median_in (coord a dim) (coord b dim) (coord c dim)) as [H|[H|H]]; fold pivot in H.
    - exists start, a. repeat split; auto; lia.
    - exists mid, b. repeat split; auto; lia.
    - exists end_, c. repeat split; auto; lia. }
  exists pivot. split; [|exact Hpiv].
  destruct Hpiv as (kp & pp & Hkp & Epp & Hpp).
  assert (Kge : keyat (fst mg) dim kp (ge_piv pivot)). { exists pp. split; auto. unfold ge_piv. rewrite Hpp. apply num_lt_irrefl. }
  assert (Kle : keyat (fst mg) dim kp (le_piv pivot)). { exists pp. split; auto. unfold le_piv. rewrite Hpp. apply num_lt_irrefl. }
  cbn [part_loop].
  destruct (scan_up_spec (S end_ - start) start dim pivot (fst mg) kp) as (i' & Ei & Hi' & Ki & Bi); [lia|lia|lia|auto|].
  destruct (scan_down_spec (S end_) dim pivot (fst mg) kp) as (j' & Ej & Hj' & Kj & Bj); [lia|lia|auto|].
  rewrite Ei, Ej. destruct (Nat.leb_spec j' i').
  - exists j', mg. split; [reflexivity|]. split.
    { split; [lia|]. destruct (Nat.eq_dec j' end_) as [->|]; [|lia]. exfalso.
      apply (median_not_above (coord a dim) (coord b dim) (coord c dim)). fold pivot.
      destruct (Bi start ltac:(lia)) as (q & Eq & Hq). destruct (Bi mid ltac:(lia)) as (q' & Eq' & Hq').
      split; congruence. }
    split; [constructor|]. split.
    + intros k Hk. destruct (Nat.lt_ge_cases k i'); [|assert (k = j') by lia; subst; auto].
      eapply keyat_impl; [|apply Bi; lia]. intros x. apply num_lt_asym.
    + intros k Hk. eapply keyat_impl; [|apply Bj; lia]. intros x. apply num_lt_asym.
  - destruct mg as [m g]. cbn [fst] in *.
    destruct (swap_spec i' j' m g ltac:(lia) ltac:(lia)) as (pi & pj & m' & g' & Epi & Epj & E & L & K & _).
    rewrite E.
    destruct (part_loop_later (end_ - start) start end_ (S i') j' dim pivot (m', g')) as (p & mg' & Er & Hp & Hsw & H1 & H2);
      cbn [fst]; try lia.
    + intros k Hk. destruct (Nat.eq_dec k i') as [->|Hki].
      * destruct Kj as (q & Eq & Hq). exists q. split; [|exact Hq]. rewrite K. unfold transp. now rewrite Nat.eqb_refl.
      * destruct (Bi k ltac:(lia)) as (q & Eq & Hq). exists q. split; [|now apply num_lt_asym]. rewrite K. unfold transp.
        destruct (Nat.eqb_spec k i'); [lia|]. destruct (Nat.eqb_spec k j'); [lia|]. exact Eq.
    + intros k Hk. destruct (Nat.eq_dec k j') as [->|Hkj].
      * destruct Ki as (q & Eq & Hq). exists q. split; [|exact Hq]. rewrite K. unfold transp.
        destruct (Nat.eqb_spec j' i'); [lia|]. now rewrite Nat.eqb_refl.
      * destruct (Bj k ltac:(lia)) as (q & Eq & Hq). exists q. split; [|now apply num_lt_asym]. rewrite K. unfold transp.
        destruct (Nat.eqb_spec k i'); [lia|]. destruct (Nat.eqb_spec k j'); [lia|]. exact Eq.
    + exists p, mg'. split; [exact Er|]. split; [lia|]. split; [|auto].
      eapply swaps_step with (i := i') (j := j'); eauto; lia.
Qed.

Lemma keyat_swaps lo hi a b dim k P : swaps lo hi a b -> lo <= k < hi ->
  (forall k', lo <= k' < hi -> keyat (fst a) dim k' P) -> keyat (fst b) dim k P.
Proof.
  intros Hs Hk H. destruct (swaps_range lo hi a b k Hs Hk) as (k' & Hk' & E).
  destruct (H k' Hk') as (p & Ep & Hp). exists p. split; [congruence|auto].
Qed.
Lemma keyat_swaps_out lo hi a b dim k P : swaps lo hi a b -> k < lo \/ hi <= k -> keyat (fst a) dim k P -> keyat (fst b) dim k P.
Proof. intros Hs Hk (p & Ep & Hp). exists p. split; [|auto]. rewrite (swaps_outside lo hi a b k Hs Hk). exact Ep. Qed.

Definition sorted_range (dim lo hi : nat) (m : list part) : Prop :=
  forall i j p q, lo <= i -> i <= j -> j <= hi -> nth_error m i = Some p -> nth_error m j = Some q ->
    num_lt (coord q dim) (coord p dim) = false.

(* Safety and termination need nothing about the coordinates; sortedness needs them to be numbers. *)
Lemma quick_sort_spec fuel start end_ dim dims mg : end_ - start < fuel -> end_ < length (fst mg) ->
  exists mg', quick_sort fuel start end_ dim dims mg = Some mg' /\ swaps start (S end_) mg mg' /\
    (dim < dims -> (forall k, start <= k <= end_ -> keyat (fst mg) dim k (fun a => a <> None)) ->
     sorted_range dim start end_ (fst mg')).
Proof.
  revert start end_ mg. induction fuel as [|fuel IH]; intros start end_ mg Hf Hl; [lia|]. cbn [quick_sort].
  destruct (Nat.ltb_spec start end_) as [Hse|Hse]; cbn [andb].
  2:{ exists mg. split; [reflexivity|]. split; [constructor|]. intros _ _ i j p q H1 H2 H3 Hp Hq.
      assert (i = j) by lia. subst. rewrite Hp in Hq. injection Hq as <-. apply num_lt_irrefl. }
  destruct (Nat.ltb_spec dim dims) as [Hd|Hd].
  2:{ exists mg. split; [reflexivity|]. split; [constructor|]. intros; lia. }
  destruct (partition_spec start end_ dim mg Hse Hl) as (pivot & (p & mg1 & E1 & Hp & Hs1 & Hlo & Hhi) & Hpv).
  rewrite E1. pose proof (swaps_len _ _ _ _ Hs1) as L1.
  destruct (IH start p mg1 ltac:(lia) ltac:(lia)) as (mg2 & E2 & Hs2 & So2). rewrite E2.
  pose proof (swaps_len _ _ _ _ Hs2) as L2.
  destruct (IH (S p) end_ mg2 ltac:(lia) ltac:(lia)) as (mg3 & E3 & Hs3 & So3). rewrite E3.
  exists mg3. split; [reflexivity|]. split.
  { eapply swaps_trans; [exact Hs1|]. eapply swaps_trans; eapply swaps_widen; [| |exact Hs2| | |exact Hs3]; lia. }
  intros _ Hnum.
  assert (N1 : forall k, start <= k <= end_ -> keyat (fst mg1) dim k (fun a => a <> None)).
  { intros k Hk. eapply keyat_swaps; [exact Hs1|lia|]. intros k' Hk'. apply Hnum. lia. }
  assert (N2 : forall k, start <= k <= end_ -> keyat (fst mg2) dim k (fun a => a <> None)).
  { intros k Hk. destruct (Nat.le_gt_cases k p).
    - eapply keyat_swaps; [exact Hs2|lia|]. intros k' Hk'. apply N1. lia.
    - eapply keyat_swaps_out; [exact Hs2|lia|]. apply N1. lia. }
  specialize (So2 Hd ltac:(intros; apply N1; lia)). specialize (So3 Hd ltac:(intros; apply N2; lia)).
  assert (N3 : forall k, start <= k <= end_ -> keyat (fst mg3) dim k (fun a => a <> None)).
  { intros k Hk. destruct (Nat.le_gt_cases k p).
    - eapply keyat_swaps_out; [exact Hs3|lia|]. apply N2. lia.
    - eapply keyat_swaps; [exact Hs3|lia|]. intros k' Hk'. apply N2. lia. }
  assert (Lo3 : forall k, start <= k <= p -> keyat (fst mg3) dim k (le_piv pivot)).
  { intros k Hk. eapply keyat_swaps_out; [exact Hs3|lia|]. eapply keyat_swaps; [exact Hs2|lia|]. intros k' Hk'. apply Hlo. lia. }
  assert (Hi3 : forall k, p < k <= end_ -> keyat (fst mg3) dim k (ge_piv pivot)).
  { intros k Hk. eapply keyat_swaps; [exact Hs3|lia|]. intros k' Hk'. eapply keyat_swaps_out; [exact Hs2|lia|]. apply Hhi. lia. }
  assert (Pn : pivot <> None).
  { destruct Hpv as (k & q & Hk & Eq & ->). destruct (Hnum k Hk) as (q' & Eq' & Hq'). congruence. }
  intros i j pi pj Hi Hij Hj Epi Epj.
  destruct (Nat.le_gt_cases j p) as [Hjp|Hjp].
  - apply (So2 i j pi pj Hi Hij Hjp).
    + rewrite <- (swaps_outside _ _ _ _ i Hs3 ltac:(lia)). exact Epi.
    + rewrite <- (swaps_outside _ _ _ _ j Hs3 ltac:(lia)). exact Epj.
  - destruct (Nat.le_gt_cases i p) as [Hip|Hip].
    + destruct (Lo3 i ltac:(lia)) as (qi & Eqi & Hqi). destruct (Hi3 j ltac:(lia)) as (qj & Eqj & Hqj).
      destruct (N3 i ltac:(lia)) as (ri & Eri & Hri). destruct (N3 j ltac:(lia)) as (rj & Erj & Hrj).
      rewrite Epi in Eqi, Eri. rewrite Epj in Eqj, Erj. injection Eqi as <-. injection Eri as <-. injection Eqj as <-. injection Erj as <-.
      unfold le_piv, ge_piv in *. destruct (coord pi dim) as [a|]; [|congruence]. destruct (coord pj dim) as [b|]; [|congruence].
      destruct pivot as [c|]; [|congruence]. cbn in *.
      destruct (Qltb_spec c a); [discriminate|]. destruct (Qltb_spec b c); [discriminate|]. destruct (Qltb_spec b a); [lra|reflexivity].
    + apply (So3 i j pi pj); auto.
Qed.

Lemma sort_range_spec start end_ dim dims mg : end_ < length (fst mg) ->
  exists mg', sort_range start end_ dim dims mg = Some mg' /\ swaps start (S end_) mg mg' /\
    (dim < dims -> (forall k, start <= k <= end_ -> keyat (fst mg) dim k (fun a => a <> None)) ->
     sorted_range dim start end_ (fst mg')).
Proof. intros H. apply quick_sort_spec; [lia|exact H]. Qed.

Lemma recursion_help_spec levels start end_ dim dims number mg : end_ < number -> number <= length (fst mg) ->
  exists mg', recursion_help levels start end_ dim dims number mg = Some mg' /\ swaps 0 number mg mg'.
Proof.
  revert start end_ dim mg. induction levels as [|levels IH]; intros start end_ dim mg He Hl; cbn [recursion_help].
  { exists mg. split; [reflexivity|constructor]. }
  set (ds := (end_ - start) / 5). destruct (Nat.ltb_spec 10 ds) as [Hds|Hds]; [|exists mg; split; [reflexivity|constructor]].
  assert (H5 : 5 * ds <= end_ - start) by (unfold ds; apply Nat.mul_div_le; lia).
  assert (Hbin : forall i a, i < 5 -> (exists mg1, a = Some mg1 /\ swaps 0 number mg mg1) ->
    exists mg2, match a with None => None | Some mg1 =>
          match sort_range (i * ds) ((i + 1) * ds) dim dims mg1 with None => None | Some mg1 =>
          recursion_help levels (i * ds) ((i + 1) * ds) (S dim) dims number mg1 end end = Some mg2 /\ swaps 0 number mg mg2).
  { intros i a Hi (mg1 & -> & Hs). pose proof (swaps_len _ _ _ _ Hs) as L.
    assert ((i + 1) * ds <= 5 * ds) by (apply Nat.mul_le_mono_r; lia).
    destruct (sort_range_spec (i * ds) ((i + 1) * ds) dim dims mg1 ltac:(lia)) as (mg2 & E2 & S2 & _). rewrite E2.
    pose proof (swaps_len _ _ _ _ S2) as L2.
    destruct (IH (i * ds) ((i + 1) * ds) (S dim) mg2 ltac:(lia) ltac:(lia)) as (mg3 & E3 & S3). rewrite E3.
    exists mg3. split; [reflexivity|]. eapply swaps_trans; [exact Hs|]. eapply swaps_trans; [|exact S3].
    eapply swaps_widen; [| |exact S2]; lia. }
  pose proof (Hbin 0 (Some mg) ltac:(lia) (ex_intro _ mg (conj eq_refl (swaps_refl _ _ mg)))) as H0.
  pose proof (Hbin 1 _ ltac:(lia) H0) as H1. pose proof (Hbin 2 _ ltac:(lia) H1) as H2.
  pose proof (Hbin 3 _ ltac:(lia) H2) as H3. pose proof (Hbin 4 _ ltac:(lia) H3) as (mg5 & E5 & S5).
  cbv zeta. rewrite E5. pose proof (swaps_len _ _ _ _ S5) as L5.
  destruct (sort_range_spec (5 * ds) (number - 1) dim dims mg5 ltac:(lia)) as (mg6 & E6 & S6 & _). rewrite E6.
  pose proof (swaps_len _ _ _ _ S6) as L6.
  destruct (IH (5 * ds) (number - 1) (S dim) mg6 ltac:(lia) ltac:(lia)) as (mg7 & E7 & S7). exists mg7. split; [exact E7|].
  eapply swaps_trans; [exact S5|]. eapply swaps_trans; [|exact S7]. eapply swaps_widen; [| |exact S6]; lia.
Qed.
