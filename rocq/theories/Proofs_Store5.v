(* Sorting, bad particles, shifting at store level; one step; histories. *)
From Verif Require Import Lib Model_Store Spec_Store Proofs_Store1 Proofs_Store2 Proofs_Store3 Proofs_Store4.
From Coq Require Import Permutation Sorted ZifyBool ZifyNat.
Local Open Scope Z_scope.

Lemma set_flags_inv r l s : inv s -> inv (set_flags r l s) /\ (idinv s -> idinv (set_flags r l s)).
Proof.
  intros [H1 H2 H3 H4]. split; [constructor; auto|]. intros [A0 A4 A5 A6]. constructor; auto.
Qed.

(* swapping among the entries of a compact store *)
Lemma swaps_store s m g : inv s -> st_rm s = [] -> swaps 0 (st_size s) (st_mem s, st_map s) (m, g) ->
  inv (set_memmap m g s) /\ (idinv s -> idinv (set_memmap m g s)) /\
  Permutation (particles s) (particles (set_memmap m g s)) /\ st_cap (set_memmap m g s) = st_cap s.
Proof.
  intros [Hs Hn Hso Hr] E Hsw. pose proof (swaps_len _ _ _ _ Hsw) as L. cbn [fst] in L.
  pose proof (swaps_perm _ _ _ _ _ (le_n _) Hsw) as P. cbn [fst] in P.
  split; [|split; [|split]].
  - constructor; unfold st_cap in *; sfields; auto; try lia.
    + pose proof (count_swaps _ _ _ _ _ (le_n _) Hsw) as C. cbn [fst] in C. lia.
    + rewrite E. intros l. split; [intros []|]. unfold at_. sfields. intros (p & [H1 H2] & H3).
      destruct (swaps_range _ _ _ _ l Hsw ltac:(lia)) as (k & Hk & Ek). cbn [fst] in Ek.
      assert (Hin : In k (st_rm s)). { apply Hr. exists p. split; [split; [lia|congruence]|auto]. }
      rewrite E in Hin. destruct Hin.
  - intros [A1 A2 A3 A4]. constructor; sfields; auto.
    + apply (swaps_ids _ _ _ _ _ (le_n _) Hsw A1).
    + unfold at_. sfields. intros l p [H1 H2]. destruct (swaps_range _ _ _ _ l Hsw ltac:(lia)) as (k & Hk & Ek). cbn [fst] in Ek.
      apply (A2 k p). split; [lia|congruence].
  - unfold particles. sfields. now apply filter_perm.
  - unfold st_cap. sfields. exact L.
Qed.

Lemma removal_idinv s s' : inv s -> can_remove s -> doParticleRemoval s = Some s' -> idinv s -> idinv s'.
Proof.
  intros I Hc E Hid. destruct (removal_spec s I Hc) as (s2 & E2 & I2 & Hrm & Hsz & Hnum & Hcap & Hf & Hp & Hnx & Hd & _ & _ & Hids & _).
  rewrite E in E2. injection E2 as <-. destruct Hid as [A1 A2 A3 A4].
  constructor; [apply Hids; exact A1| |lia|lia].
  intros l p [H1 H2]. rewrite Hnx.
  assert (Hin : In p (particles s)).
  { eapply Permutation_in; [symmetry; exact Hp|]. rewrite <- Hf. eapply nth_error_In with (n := l). rewrite nth_error_firstn_lt; auto. }
  apply filter_In in Hin as [Hin _]. apply In_firstn_nth in Hin as (k & Hk & Ek). apply (A2 k p). split; auto.
Qed.

Definition sort_result (s s' : store) : Prop :=
  inv s' /\ (idinv s -> idinv s') /\ Permutation (particles s) (particles s') /\ st_rm s' = [] /\
  st_size s' = Z.to_nat (st_number s') /\ st_number s' = st_number s /\ st_cap s' = st_cap s /\
  firstn (st_size s') (st_mem s') = particles s' /\ st_remake s' = true /\ st_locals s' = true /\
  st_next s' = st_next s /\ st_d s' = st_d s.

Lemma compact_particles s : inv s -> st_rm s = [] -> firstn (st_size s) (st_mem s) = particles s /\ st_size s = Z.to_nat (st_number s).
Proof.
  intros I E. pose proof (count_nil_rm s I E) as H. split; [auto|]. destruct I as [Hs Hn _ _].
  rewrite Hn. unfold count. fold (particles s). rewrite H, firstn_length. unfold st_cap in Hs. lia.
Qed.

Lemma finish_sort s s1 m g : inv s -> can_remove s -> doParticleRemoval s = Some s1 ->
  swaps 0 (st_size s1) (st_mem s1, st_map s1) (m, g) -> sort_result s (set_flags true true (set_memmap m g s1)).
Proof.
  intros I Hc E Hsw.
  destruct (removal_spec s I Hc) as (s2 & E2 & I2 & Hrm & Hsz & Hnum & Hcap & Hf & Hp & Hnx & Hd & _).
  rewrite E in E2. injection E2 as <-.
  destruct (swaps_store s1 m g I2 Hrm Hsw) as (I3 & Hid3 & Hp3 & Hc3).
  destruct (set_flags_inv true true _ I3) as [I4 Hid4].
  destruct (compact_particles (set_flags true true (set_memmap m g s1)) I4 Hrm) as [Hcp1 Hcp2].
  split; [exact I4|]. split; [exact (fun Hid => Hid4 (Hid3 (removal_idinv s s1 I Hc E Hid)))|].
  split; [etransitivity; [exact Hp|exact Hp3]|]. split; [exact Hrm|]. split; [exact Hcp2|]. split; [exact Hnum|].
  split; [rewrite <- Hcap; exact Hc3|]. split; [exact Hcp1|]. split; [reflexivity|]. split; [reflexivity|]. split; [exact Hnx|exact Hd].
Qed.

Lemma sort_along_spec s : inv s -> can_remove s -> exists s', sortParticles_along s = Some s' /\ sort_result s s' /\
  ((0 < st_dims s)%nat -> (forall l p, at_ s l p -> alive p -> coord p 0 <> None) -> sorted_along 0 (st_size s') (st_mem s')).
Proof.
  intros I Hc. unfold sortParticles_along.
  destruct (removal_spec s I Hc) as (s1 & E & I1 & Hrm & Hsz & Hnum & Hcap & Hf & Hp & _ & _ & Hdims & _). rewrite E.
  pose proof (inv_size _ I1) as Hs1. unfold st_cap in Hs1.
  destruct (Nat.eqb_spec (st_size s1) 0) as [H0|H0].
  - eexists. split; [reflexivity|]. split; [apply (finish_sort s s1); auto; constructor|].
    intros _ _. unfold sorted_along. sfields. intros; lia.
  - destruct (sort_range_spec 0 (st_size s1 - 1) 0 (st_dims s1) (st_mem s1, st_map s1)) as ([m g] & Es & Hsw & Hsorted);
      cbn [fst] in *; [lia|]. rewrite Es. replace (S (st_size s1 - 1)) with (st_size s1) in Hsw by lia.
    eexists. split; [reflexivity|]. split; [apply (finish_sort s s1); auto|].
    intros Hd Hnn. unfold sorted_along. sfields. rewrite Hdims in *.
    assert (Hkey : forall k, (0 <= k <= st_size s1 - 1)%nat -> keyat (st_mem s1) 0 k (fun a => a <> None)).
    { intros k Hk. destruct (nth_error_ex (st_mem s1) k ltac:(lia)) as [p Ep]. exists p. split; [auto|].
      assert (Hin : In p (particles s)).
      { eapply Permutation_in; [symmetry; exact Hp|]. rewrite <- Hf. eapply nth_error_In with (n := k). rewrite nth_error_firstn_lt; auto. lia. }
      apply filter_In in Hin as [Hin Ha]. apply aliveb_spec in Ha. apply In_firstn_nth in Hin as (k' & Hk' & Ek').
      apply (Hnn k' p); auto. split; auto. }
    specialize (Hsorted Hd Hkey).
    intros i j p q Hij Hpi Hqj.
    specialize (Hsorted i j p q ltac:(lia) ltac:(lia) ltac:(lia) Hpi Hqj).
    assert (Hk' : forall k r, (k < st_size s1)%nat -> nth_error m k = Some r -> coord r 0 <> None).
    { intros k r Hk Hr. destruct (keyat_swaps 0 (st_size s1) _ _ 0 k (fun a => a <> None) Hsw ltac:(lia)) as (r' & Er & Hr').
      - intros k' Hk'. apply Hkey. lia.
      - cbn [fst] in Er. congruence. }
    pose proof (Hk' i p ltac:(lia) Hpi) as N1. pose proof (Hk' j q ltac:(lia) Hqj) as N2.
    destruct (coord p 0) as [a|]; [|congruence]. destruct (coord q 0) as [b|]; [|congruence]. exists a, b.
    split; [reflexivity|]. split; [reflexivity|]. cbn in Hsorted. destruct (Qltb_spec b a); [discriminate|lra].
Qed.

Lemma sort_spec s : inv s -> can_remove s -> exists s', sortParticles s = Some s' /\ sort_result s s'.
Proof.
  intros I Hc. unfold sortParticles.
  destruct (removal_spec s I Hc) as (s1 & E & I1 & Hrm & Hsz & Hnum & Hcap & Hf & Hp & _ & _ & Hdims & _). rewrite E.
  pose proof (inv_size _ I1) as Hs1. unfold st_cap in Hs1.
  destruct (Nat.eqb_spec (st_size s1) 0) as [H0|H0].
  - eexists. split; [reflexivity|]. apply (finish_sort s s1); auto; constructor.
  - destruct (sort_range_spec 0 (st_size s1 - 1) 0 (st_dims s1) (st_mem s1, st_map s1)) as ([m g] & Es & Hsw & _);
      cbn [fst] in *; [lia|]. rewrite Es. replace (S (st_size s1 - 1)) with (st_size s1) in Hsw by lia.
    pose proof (swaps_len _ _ _ _ Hsw) as L. cbn [fst] in L.
    destruct (recursion_help_spec (st_dims s1 - 1) 0 (st_size s1 - 1) 1 (st_dims s1) (Z.to_nat (st_number s1)) (m, g)) as
      ([m2 g2] & E2 & Hsw2); cbn [fst]; [lia|lia|]. rewrite E2.
    eexists. split; [reflexivity|]. apply (finish_sort s s1); auto. rewrite <- Hsz in Hsw2. eapply swaps_trans; eauto.
Qed.

(* ------------------------------------------------------------------ bad particles *)
Definition if_bad (p : part) : part := if bad p && aliveb p then marked p else p.

Lemma mark_bad_spec n i some s : inv s -> (i + n = st_size s)%nat ->
  exists s', mark_bad n i some s = Some (some || existsb bad (firstn n (skipn i (st_mem s))), s') /\ inv s' /\
    (idinv s -> idinv s') /\ st_size s' = st_size s /\ st_cap s' = st_cap s /\ st_next s' = st_next s /\ st_d s' = st_d s /\
    (forall k, nth_error (st_mem s') k =
       if ((i <=? k) && (k <? i + n))%nat then option_map if_bad (nth_error (st_mem s) k) else nth_error (st_mem s) k).
Proof.
  revert i some s. induction n as [|n IH]; intros i some s I Hi; cbn [mark_bad].
  - exists s. cbn [firstn existsb]. rewrite orb_false_r. split; [reflexivity|]. split; [exact I|]. split; [auto|].
    repeat (split; [reflexivity|]). intros k. destruct ((i <=? k) && (k <? i + 0))%nat eqn:E; [lia|reflexivity].
  - pose proof (inv_size _ I) as Hs. unfold st_cap in Hs. destruct (nth_error_ex (st_mem s) i ltac:(lia)) as [p Ep]. rewrite Ep.
    assert (Hsk : skipn i (st_mem s) = p :: skipn (S i) (st_mem s)).
    { clear -Ep. revert Ep. generalize (st_mem s). induction i as [|i IH]; intros [|q m] H; try discriminate; [injection H as ->; reflexivity|].
      cbn [skipn]. apply IH. exact H. }
    rewrite Hsk. cbn [firstn existsb].
    destruct (bad p) eqn:Eb.
    + destruct (mark_spec (Z.of_nat i) s I ltac:(lia)) as (s1 & E1 & I1 & Hid1 & C1 & S1 & N1 & D1 & _ & Hdead & Hlive).
      { unfold st_cap. lia. }
      rewrite E1. rewrite Nat2Z.id in *.
      assert (Hmem : forall k, nth_error (st_mem s1) k = if (k =? i)%nat then Some (if_bad p) else nth_error (st_mem s) k).
      { intros k. unfold if_bad. rewrite Eb. cbn [andb]. destruct (aliveb p) eqn:Ea.
        - apply aliveb_spec in Ea. destruct (Hlive p ltac:(split; [lia|auto]) Ea) as (_ & [_ A] & _ & Ho).
          destruct (Nat.eqb_spec k i) as [->|]; [auto|]. now apply Ho.
        - rewrite Hdead; [destruct (Nat.eqb_spec k i) as [->|]; auto|].
          intros q [_ Hq] Hq'. rewrite Ep in Hq. injection Hq as <-. apply aliveb_spec in Hq'. congruence. }
      destruct (IH (S i) true s1 I1 ltac:(lia)) as (s2 & E2 & I2 & Hid2 & S2 & C2 & N2 & D2 & M2). exists s2.
      rewrite E2. split; [f_equal; f_equal; cbn [orb]; now rewrite orb_true_r|]. split; [exact I2|]. split; [auto|].
      split; [congruence|]. split; [congruence|]. split; [congruence|]. split; [congruence|].
      intros k. rewrite M2, Hmem.
      destruct ((S i <=? k) && (k <? S i + n))%nat eqn:E3; destruct ((i <=? k) && (k <? i + S n))%nat eqn:E4;
        destruct (Nat.eqb_spec k i); subst; try lia; rewrite ?Ep; try reflexivity.
    + destruct (IH (S i) some s I ltac:(lia)) as (s2 & E2 & I2 & Hid2 & S2 & C2 & N2 & D2 & M2). exists s2.
      cbn [orb]. rewrite E2. split; [reflexivity|]. split; [exact I2|]. split; [auto|]. repeat (split; [assumption|]).
      intros k. rewrite M2. destruct (Nat.eq_dec k i) as [->|Hne].
      * destruct ((S i <=? i) && (i <? S i + n))%nat eqn:E3; [lia|]. destruct ((i <=? i) && (i <? i + S n))%nat eqn:E4; [|lia].
        rewrite Ep. cbn [option_map]. unfold if_bad. rewrite Eb. reflexivity.
      * destruct ((S i <=? k) && (k <? S i + n))%nat eqn:E3; destruct ((i <=? k) && (k <? i + S n))%nat eqn:E4; try lia; reflexivity.
Qed.

Lemma mark_bad_top s : inv s -> exists s', mark_bad (st_size s) 0 false s = Some (existsb bad (firstn (st_size s) (st_mem s)), s') /\
  inv s' /\ (idinv s -> idinv s') /\ st_size s' = st_size s /\ st_cap s' = st_cap s /\ st_next s' = st_next s /\ st_d s' = st_d s /\
  (forall k p, at_ s' k p <-> exists q, at_ s k q /\ p = if_bad q).
Proof.
  intros I. destruct (mark_bad_spec (st_size s) 0 false s I eq_refl) as (s' & E & I' & Hid & S' & C' & N' & D' & M).
  exists s'. split; [exact E|]. repeat (split; [assumption|]). intros k p. unfold at_. rewrite S', M. cbn [Nat.leb andb Nat.add].
  split.
  - intros [H1 H2]. destruct (Nat.ltb_spec k (st_size s)); [|lia]. destruct (nth_error (st_mem s) k) as [q|]; [|discriminate].
    cbn in H2. injection H2 as <-. exists q. auto.
  - intros (q & [H1 H2] & ->). split; [exact H1|]. destruct (Nat.ltb_spec k (st_size s)); [|lia]. rewrite H2. reflexivity.
Qed.

Lemma number_pos s : inv s -> (exists k p, at_ s k p /\ alive p) -> 0 < st_number s.
Proof.
  intros [Hs Hn _ _] (k & p & [H1 H2] & Ha). rewrite Hn. unfold count.
  assert (Hin : In p (filter aliveb (firstn (st_size s) (st_mem s)))).
  { apply filter_In. split; [|now apply aliveb_spec]. eapply nth_error_In with (n := k). rewrite nth_error_firstn_lt; auto. }
  destruct (filter _ _); [destruct Hin|]. cbn [length]. lia.
Qed.

Lemma bad_has_nanb p : bad p = has_nanb p.
Proof. unfold bad, has_nanb. rewrite existsb_app. reflexivity. Qed.
Lemma has_nanb_spec p : has_nanb p = true <-> has_nan p.
Proof.
  unfold has_nanb, has_nan. rewrite existsb_exists. split.
  - intros ([a|] & Ha & E); [discriminate|]. now apply in_app_or.
  - intros H. exists None. split; [now apply in_or_app|reflexivity].
Qed.
Lemma not_has_nan p : ~ has_nan p <-> bad p = false.
Proof. rewrite <- has_nanb_spec, bad_has_nanb. destruct (has_nanb p); split; congruence. Qed.

Lemma remove_bad_step b s : inv s -> allowed s (OpRemoveBad b) ->
  exists r s', removeBadParticles b s = Some (r, s') /\ r = existsb bad (firstn (st_size s) (st_mem s)) /\ inv s' /\ (idinv s -> idinv s') /\
    (b = false \/ r = false -> st_size s' = st_size s /\ forall k p, at_ s' k p <-> exists q, at_ s k q /\ p = if_bad q) /\
    (b = true -> r = true -> st_rm s' = [] /\
      Permutation (particles s') (filter (fun p => negb (bad p)) (particles s)) /\ st_remake s' = true).
Proof.
  intros I Hal. unfold removeBadParticles. destruct (mark_bad_top s I) as (s1 & E & I1 & Hid1 & S1 & C1 & N1 & D1 & M). rewrite E.
  set (fl := existsb bad (firstn (st_size s) (st_mem s))) in *.
  destruct (fl && b) eqn:Ef.
  - apply andb_true_iff in Ef as [Ef ->]. cbn [allowed] in Hal.
    assert (Hex : exists k p, at_ s k p /\ alive p /\ bad p = false).
    { destruct Hal as [Hno|(k0 & p0 & H0 & H0' & H0'')]; [|exists k0, p0; rewrite <- not_has_nan; auto]. exfalso. unfold fl in Ef. apply existsb_exists in Ef as (p & Hp & Hb).
      apply In_firstn_nth in Hp as (k & Hk & Ek). assert (Hnk : ~ has_nan p) by (apply (Hno k p); split; auto). apply not_has_nan in Hnk. congruence. }
    assert (Hpos : can_remove s1).
    { right. apply number_pos; [exact I1|]. destruct Hex as (k & p & H1 & H2 & H3). exists k, p. split; [|exact H2].
      apply M. exists p. split; [exact H1|]. unfold if_bad. rewrite H3. reflexivity. }
    destruct (removal_spec s1 I1 Hpos) as (s2 & E2 & I2 & Hrm & Hsz & Hnum & Hcap & Hf & Hp & _). rewrite E2.
    exists fl, (set_flags true true s2). split; [reflexivity|]. split; [reflexivity|].
    destruct (set_flags_inv true true s2 I2) as [I3 Hid3]. split; [exact I3|].
    split; [exact (fun Hid => Hid3 (removal_idinv s1 s2 I1 Hpos E2 (Hid1 Hid)))|]. split; [intros [?|?]; congruence|].
    intros _ _. split; [exact Hrm|]. split; [|reflexivity].
    change (particles (set_flags true true s2)) with (particles s2). rewrite <- Hp.
    (* particles s1 = the non-bad particles of s, in order *)
    assert (Hpar : particles s1 = filter (fun p => negb (bad p)) (particles s)).
    { unfold particles. rewrite S1.
      assert (Hmap : firstn (st_size s) (st_mem s1) = map if_bad (firstn (st_size s) (st_mem s))).
      { apply nth_error_ext_eq. intros k. rewrite nth_error_map. destruct (Nat.lt_ge_cases k (st_size s)) as [Hk|Hk].
        - rewrite !nth_error_firstn_lt by auto. pose proof (inv_size _ I) as Hs. unfold st_cap in *.
          destruct (nth_error_ex (st_mem s) k ltac:(lia)) as [q Eq]. rewrite Eq. cbn [option_map].
          apply (M k (if_bad q)). exists q. split; [split; auto|reflexivity].
        - rewrite !nth_error_firstn_ge by auto. reflexivity. }
      rewrite Hmap. generalize (firstn (st_size s) (st_mem s)). intros l. induction l as [|p l IH]; [reflexivity|].
      cbn [map filter]. unfold if_bad at 1 2. destruct (aliveb p) eqn:Ea; destruct (bad p) eqn:Eb; cbn [andb negb filter];
        rewrite ?Ea, ?Eb; cbn [negb]; try (change (aliveb (marked p)) with false; cbn); rewrite ?IH; reflexivity. }
    rewrite Hpar. reflexivity.
  - exists fl, s1. split; [reflexivity|]. split; [reflexivity|]. split; [exact I1|]. split; [exact Hid1|].
    split; [intros _; split; [exact S1|exact M]|]. intros -> Hfl. rewrite Hfl in Ef. discriminate.
Qed.

(* ------------------------------------------------------------------ shifting *)
Lemma shift_spec k s : inv s -> inv (shift_global_ids k s).
Proof.
  intros [Hs Hn Hso Hr]. unfold shift_global_ids. set (f := fun p => if 0 <=? p_gid p then set_gid (p_gid p + k) p else p).
  assert (Ht : forall p, p_type (f p) = p_type p) by (intros p; unfold f; destruct (0 <=? p_gid p); reflexivity).
  assert (Hm : forall n m, map aliveb (firstn n (map_first (st_size s) f m)) = map aliveb (firstn n m)).
  { intros n m. rewrite <- !firstn_map. f_equal. apply nth_error_ext_eq. intros j. rewrite !nth_error_map, map_first_nth.
    destruct (nth_error m j); destruct (j <? st_size s)%nat; cbn [option_map]; unfold aliveb; rewrite ?Ht; reflexivity. }
  constructor; unfold st_cap in *; sfields; auto.
  - rewrite map_first_len. exact Hs.
  - rewrite Hn. f_equal. unfold count. specialize (Hm (st_size s) (st_mem s)). revert Hm.
    generalize (firstn (st_size s) (map_first (st_size s) f (st_mem s))) (firstn (st_size s) (st_mem s)).
    induction l as [|a l IH]; intros [|b l'] E; try discriminate; [reflexivity|].
    cbn [map] in E. injection E as E1 E2. cbn [filter]. rewrite E1. destruct (aliveb b); cbn [length]; rewrite (IH l' E2); reflexivity.
  - intros l. rewrite Hr. unfold at_. sfields. split; intros (p & [H1 H2] & H3).
    + exists (f p). rewrite map_first_nth, H2. destruct (Nat.ltb_spec l (st_size s)); [|lia]. split; [split; [auto|reflexivity]|].
      unfold alive. rewrite Ht. exact H3.
    + rewrite map_first_nth in H2. destruct (Nat.ltb_spec l (st_size s)); [|lia].
      destruct (nth_error (st_mem s) l) as [q|]; [|discriminate]. cbn in H2. injection H2 as <-. exists q. split; [auto|].
      unfold alive in *. rewrite Ht in H3. exact H3.
Qed.

Lemma shift_ids k s : 0 <= k -> ids_ok (st_size s) (st_mem s) (st_map s) ->
  ids_ok (st_size s) (st_mem (shift_global_ids k s)) (st_map (shift_global_ids k s)).
Proof.
  intros Hk [A1 A2 A3]. unfold shift_global_ids. sfields. set (f := fun p => if 0 <=? p_gid p then set_gid (p_gid p + k) p else p).
  assert (Hat : forall l p, (l < st_size s)%nat -> nth_error (map_first (st_size s) f (st_mem s)) l = Some p ->
    exists q, nth_error (st_mem s) l = Some q /\ p_gid p = p_gid q + k /\ p_type p = p_type q).
  { intros l p Hl. rewrite map_first_nth. destruct (Nat.ltb_spec l (st_size s)); [|lia].
    destruct (nth_error (st_mem s) l) as [q|] eqn:Eq; [|discriminate]. cbn. intros [= <-]. exists q. split; [auto|].
    pose proof (A1 l q Hl Eq). unfold f. destruct (Z.leb_spec 0 (p_gid q)); [split; reflexivity|lia]. }
  constructor.
  - intros l p Hl Hp. destruct (Hat l p Hl Hp) as (q & Eq & -> & _). specialize (A1 l q Hl Eq). lia.
  - intros l l' p p' Hl Hl' Hp Hp' Hg. destruct (Hat l p Hl Hp) as (q & Eq & E1 & _). destruct (Hat l' p' Hl' Hp') as (q' & Eq' & E1' & _).
    apply (A2 l l' q q'); auto. lia.
  - intros g l. unfold map_shift. rewrite A3. split; intros (p & Hl & Hp & Ha & Hg).
    + exists (f p). rewrite map_first_nth, Hp. destruct (Nat.ltb_spec l (st_size s)); [|lia]. cbn [option_map].
      pose proof (A1 l p Hl Hp). unfold f. destruct (Z.leb_spec 0 (p_gid p)); [|lia]. cbn. repeat split; auto. lia.
    + destruct (Hat l p Hl Hp) as (q & Eq & E1 & E2). exists q. repeat split; auto; [unfold alive in *; lia|lia].
Qed.

(* ------------------------------------------------------------------ one step, histories *)
Lemma step_ok o s : inv s -> allowed s o -> exists s', step o s = Some s' /\ inv s' /\ (id_op o -> idinv s -> idinv s').
Proof.
  intros I Hal. destruct o as [n ids|x v sg im t|id| | | |b|k| | |id x|id v|id f|id sg im]; cbn [step allowed id_op] in *.
  - destruct (Z.le_gt_cases n 0) as [H0|H0].
    + unfold addParticles. destruct (Z.leb_spec n 0); [|lia]. exists s. auto.
    + destruct (addParticles n ids s) as [[a s']|] eqn:E; [|exfalso; apply addParticles_safe in E; auto; lia].
      exists s'. split; [reflexivity|]. rewrite addParticles_unfold in E by lia.
      destruct (add_loop (Z.to_nat n) ids (grown n s)) as [s2|] eqn:E2; [|discriminate]. injection E as <- <-.
      destruct (grown_inv n s H0 I) as (I1 & Hid1 & _). destruct (add_loop_inv _ _ _ _ I1 E2) as (I2 & _ & _ & _ & _ & _ & _ & _ & Hid2).
      split; [exact I2|]. intros Hids Hid. apply Hid2; auto.
  - destruct (addParticle_inv x v sg im t s I Hal) as (s' & E & I' & _ & _ & _ & _ & _ & _ & Hid). rewrite E.
    exists s'. split; [reflexivity|]. split; [exact I'|]. intros _. exact Hid.
  - destruct (mark_spec id s I ltac:(lia) ltac:(unfold st_cap in *; lia)) as (s' & E & I' & Hid & _). exists s'. auto.
  - destruct (removal_spec s I Hal) as (s' & E & I' & _). exists s'. split; [exact E|]. split; [exact I'|].
    intros _. eapply removal_idinv; eauto.
  - destruct (sort_along_spec s I Hal) as (s' & E & (I' & Hid & _) & _). exists s'. auto.
  - destruct (sort_spec s I Hal) as (s' & E & (I' & Hid & _)). exists s'. auto.
  - destruct (remove_bad_step b s I Hal) as (r & s' & E & _ & I' & Hid & _). rewrite E. exists s'. auto.
  - exists (shift_global_ids k s). split; [reflexivity|]. split; [now apply shift_spec|]. contradiction.
  - exists (clearF s). split; [reflexivity|]. unfold clearF. destruct (agree_inv s (map_first (st_size s)
      (fun p => set_f (repeat (Some 0%Q) (st_dims s)) p) (st_mem s))) as [A B]; auto. apply map_first_agree. auto.
  - exists (clearV s). split; [reflexivity|]. unfold clearV. destruct (agree_inv s (map_first (st_size s)
      (fun p => set_v (repeat (Some 0%Q) (st_dims s)) p) (st_mem s))) as [A B]; auto. apply map_first_agree. auto.
  - destruct (modify_spec id (set_x x) s I) as (s' & E & I' & Hid & _); auto; try lia. exists s'. auto.
  - destruct (modify_spec id (set_v v) s I) as (s' & E & I' & Hid & _); auto; try lia. exists s'. auto.
  - destruct (modify_spec id (set_f f) s I) as (s' & E & I' & Hid & _); auto; try lia. exists s'. auto.
  - destruct (modify_spec id (set_sgim sg im) s I) as (s' & E & I' & Hid & _); auto; try lia. exists s'. auto.
Qed.

Lemma empty_inv dims a b c : inv (empty_store dims a b c) /\ idinv (empty_store dims a b c).
Proof.
  split.
  - constructor; cbn; auto; [constructor|]. intros l. split; [intros []|]. unfold at_. cbn. intros (p & [H _] & _). lia.
  - constructor; cbn; try lia.
    + constructor; try lia. intros k l. split; [discriminate|]. intros (p & H & _). lia.
    + unfold at_. cbn. intros l p [H _]. lia.
Qed.

Lemma reach_inv s0 s : inv s0 -> reach s0 s -> inv s.
Proof.
  intros I0. induction 1 as [|s o s' _ IH Hal E]; [exact I0|]. destruct (step_ok o s IH Hal) as (s2 & E2 & I2 & _).
  rewrite E in E2. injection E2 as <-. exact I2.
Qed.

Lemma reach_ids_inv s0 s : inv s0 -> idinv s0 -> reach_ids s0 s -> inv s /\ idinv s.
Proof.
  intros I0 H0. induction 1 as [|s o s' _ IH Hop Hal E]; [auto|]. destruct IH as [IH1 IH2].
  destruct (step_ok o s IH1 Hal) as (s2 & E2 & I2 & H2). rewrite E in E2. injection E2 as <-. auto.
Qed.

Lemma exact_of_ids s : ids_ok (st_size s) (st_mem s) (st_map s) -> lookup_exact s.
Proof.
  intros [A1 A2 A3] g l. unfold getLocalID, at_. destruct (st_map s g) as [w|] eqn:E.
  - pose proof (proj1 (A3 g w) E) as (p & H1 & H2 & H3 & H4). split; [|split].
    + split.
      * intros H. assert (l = w) by lia. subst. exists p. auto.
      * intros (q & [Hq1 Hq2] & Hq3 & Hq4). assert (Hl : st_map s g = Some l) by (apply A3; exists q; auto). congruence.
    + split; [lia|]. intros Hno. exfalso. apply Hno. exists w, p. auto.
    + right. exists w. reflexivity.
  - split; [|split].
    + split; [lia|]. intros (q & [Hq1 Hq2] & Hq3 & Hq4). assert (Hl : st_map s g = Some l) by (apply A3; exists q; auto). congruence.
    + split; [|reflexivity]. intros _ (k & q & [Hq1 Hq2] & Hq3 & Hq4).
      assert (Hl : st_map s g = Some k) by (apply A3; exists q; auto). congruence.
    + now left.
Qed.
