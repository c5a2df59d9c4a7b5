(* Invariant of the store; removal. *)
From Verif Require Import Lib Model_Store Spec_Store Proofs_Store1 Proofs_Store2.
From Coq Require Import Permutation Sorted ZifyBool ZifyNat.
Local Open Scope Z_scope.

Definition count (n : nat) (m : list part) : nat := length (filter aliveb (firstn n m)).

Record inv (s : store) : Prop := mkInv {
  inv_size : (st_size s <= st_cap s)%nat;
  inv_number : st_number s = Z.of_nat (count (st_size s) (st_mem s));
  inv_sorted : StronglySorted lt (st_rm s);
  inv_rm : forall l, In l (st_rm s) <-> exists p, at_ s l p /\ ~ alive p }.

Lemma aliveb_spec p : aliveb p = true <-> alive p.
Proof. unfold aliveb, alive. lia. Qed.

Lemma filter_all {A} (f : A -> bool) l : (forall a, In a l -> f a = true) -> filter f l = l.
Proof. induction l as [|a l IH]; cbn; intros H; [reflexivity|]. rewrite H by auto. f_equal. auto. Qed.
Lemma filter_none {A} (f : A -> bool) l : (forall a, In a l -> f a = false) -> filter f l = [].
Proof. induction l as [|a l IH]; cbn; intros H; [reflexivity|]. rewrite H by auto. auto. Qed.

Lemma firstn_split (n c : nat) (m : list part) : (c <= n)%nat -> firstn n m = firstn c m ++ firstn (n - c) (skipn c m).
Proof.
  revert n m. induction c as [|c IH]; intros n m H; [cbn; now rewrite Nat.sub_0_r|].
  destruct n as [|n]; [lia|]. destruct m as [|a m]; [cbn; now rewrite firstn_nil|]. cbn. f_equal. apply IH. lia.
Qed.

Lemma In_firstn_nth {A} n (m : list A) a : In a (firstn n m) -> exists k, (k < n)%nat /\ nth_error m k = Some a.
Proof.
  intros H. apply In_nth_error in H as [k Hk]. destruct (Nat.lt_ge_cases k n) as [Hkn|Hkn].
  - exists k. split; [exact Hkn|]. rewrite nth_error_firstn_lt in Hk; auto.
  - rewrite nth_error_firstn_ge in Hk by lia. discriminate.
Qed.
Lemma nth_error_skipn {A} c (m : list A) k : nth_error (skipn c m) k = nth_error m (c + k).
Proof. revert m. induction c as [|c IH]; intros m; [reflexivity|]. destruct m; [now destruct k|]. apply IH. Qed.

Lemma filter_prefix n c m : (c <= n)%nat -> (n <= length m)%nat ->
  (forall k p, (k < c)%nat -> nth_error m k = Some p -> alive p) ->
  (forall k p, (c <= k < n)%nat -> nth_error m k = Some p -> ~ alive p) ->
  filter aliveb (firstn n m) = firstn c m.
Proof.
  intros Hcn Hn Hlo Hhi. rewrite (firstn_split n c m Hcn), filter_app.
  rewrite filter_all, filter_none, app_nil_r; [reflexivity| |].
  - intros a Ha. apply In_firstn_nth in Ha as (k & Hk & E). rewrite nth_error_skipn in E.
    destruct (aliveb a) eqn:Ea; [|reflexivity]. apply aliveb_spec in Ea. exfalso. apply (Hhi (c + k)%nat a); auto. lia.
  - intros a Ha. apply In_firstn_nth in Ha as (k & Hk & E). apply aliveb_spec. eauto.
Qed.

Lemma scan_back_spec cb m : (cb <= length m)%nat ->
  match scan_back cb m with
  | Some c => (c < cb)%nat /\ (exists p, nth_error m c = Some p /\ alive p) /\
      (forall k p, (c < k < cb)%nat -> nth_error m k = Some p -> ~ alive p)
  | None => forall k p, (k < cb)%nat -> nth_error m k = Some p -> ~ alive p
  end.
Proof.
  induction cb as [|cb IH]; intros H; cbn [scan_back]; [intros; lia|].
  destruct (nth_error_ex m cb ltac:(lia)) as [p Ep]. rewrite Ep.
  destruct (Z.ltb_spec (p_type p) 0) as [Ht|Ht].
  - specialize (IH ltac:(lia)). destruct (scan_back cb m) as [c|].
    + destruct IH as (Hc & Hl & Hd). split; [lia|]. split; [exact Hl|]. intros k q Hk Hq.
      destruct (Nat.eq_dec k cb) as [->|]; [unfold alive; rewrite Ep in Hq; injection Hq as <-; lia|]. apply (Hd k q); auto. lia.
    + intros k q Hk Hq. destruct (Nat.eq_dec k cb) as [->|]; [unfold alive; rewrite Ep in Hq; injection Hq as <-; lia|].
      apply (IH k q); auto. lia.
  - split; [lia|]. split; [exists p; split; auto|]. intros; lia.
Qed.

Lemma count_swaps n lo hi a b : (hi <= n)%nat -> swaps lo hi a b -> count n (fst a) = count n (fst b).
Proof. intros H Hs. unfold count. apply Permutation_length, filter_perm. eapply swaps_perm; eauto. Qed.

Lemma count_zero n m : (forall k p, (k < n)%nat -> nth_error m k = Some p -> ~ alive p) -> count n m = O.
Proof.
  intros H. unfold count. rewrite filter_none; [reflexivity|]. intros a Ha. apply In_firstn_nth in Ha as (k & Hk & E).
  destruct (aliveb a) eqn:Ea; [|reflexivity]. apply aliveb_spec in Ea. exfalso. eapply H; eauto.
Qed.

Lemma fill_holes_spec n rm cb removed mg :
  (cb <= n)%nat -> (n <= length (fst mg))%nat -> StronglySorted lt rm ->
  (forall k p, (cb <= k < n)%nat -> nth_error (fst mg) k = Some p -> ~ alive p) ->
  (forall k p, (k < cb)%nat -> nth_error (fst mg) k = Some p -> (~ alive p <-> In k rm)) ->
  (0 < count n (fst mg))%nat ->
  exists removed' mg' c, fill_holes rm cb removed mg = Some (removed', mg') /\ swaps 0 n mg mg' /\ (c <= n)%nat /\
    (forall k p, (k < c)%nat -> nth_error (fst mg') k = Some p -> alive p) /\
    (forall k p, (c <= k < n)%nat -> nth_error (fst mg') k = Some p -> ~ alive p) /\
    (removed' = removed -> mg' = mg) /\ (removed <= removed')%nat.
Proof.
  revert cb removed mg. induction rm as [|id rm IH]; intros cb removed mg Hcb Hn Hs Hhi Hlo Hc; cbn [fill_holes].
  - exists removed, mg, cb. split; [reflexivity|]. split; [constructor|]. split; [exact Hcb|]. split; [|split; [auto|split; auto]].
    intros k p Hk E. destruct (Z.le_gt_cases 0 (p_type p)) as [Ha|Ha]; [exact Ha|].
    exfalso. apply (proj1 (Hlo k p Hk E)). unfold alive. lia.
  - pose proof (scan_back_spec cb (fst mg) ltac:(lia)) as Hsb. destruct (scan_back cb (fst mg)) as [c|].
    2:{ exfalso. rewrite count_zero in Hc; [lia|]. intros k p Hk E. destruct (Nat.lt_ge_cases k cb); [eapply Hsb; eauto|].
        eapply Hhi; eauto. }
    destruct Hsb as (Hccb & (pc & Epc & Hac) & Hd).
    inversion Hs as [|? ? Hs' Hall]; subst.
    destruct (Nat.ltb_spec id c) as [Hid|Hid].
    + destruct mg as [m g]. cbn [fst] in *.
      destruct (swap_spec c id m g ltac:(lia) ltac:(lia)) as (p1 & p2 & m' & g' & E1 & E2 & E & L & K & _).
      rewrite E. assert (Hsw1 : swaps 0 n (m, g) (m', g')). { eapply swaps_one with (i := c) (j := id); eauto; lia. }
      assert (Hdead2 : ~ alive p2). { apply (Hlo id p2); auto; [lia|now left]. }
      destruct (IH c (S removed) (m', g')) as (r' & mg' & c' & Er & Hsw & Hc' & H1 & H2 & H3 & H4); cbn [fst]; auto; try lia.
      * intros k p Hk Ek. rewrite K in Ek. unfold transp in Ek. destruct (Nat.eqb_spec k c) as [->|Hkc].
        { rewrite E2 in Ek. injection Ek as <-. exact Hdead2. }
        destruct (Nat.eqb_spec k id); [lia|]. destruct (Nat.lt_ge_cases k cb); [apply (Hd k p); auto; lia|apply (Hhi k p); auto; lia].
      * intros k p Hk Ek. rewrite K in Ek. unfold transp in Ek. destruct (Nat.eqb_spec k c); [lia|].
        destruct (Nat.eqb_spec k id) as [->|Hkid].
        { rewrite Epc in Ek. injection Ek as <-. split; [contradiction|]. intros Hin. rewrite Forall_forall in Hall.
          specialize (Hall id Hin). lia. }
        rewrite (Hlo k p ltac:(lia) Ek). split; [intros [->|]; [contradiction|assumption]|now right].
      * pose proof (count_swaps n 0 n _ _ (le_n n) Hsw1) as Hcs. cbn [fst] in Hcs. lia.
      * exists r', mg', c'. split; [exact Er|]. split; [eapply swaps_trans; eauto|]. split; [exact Hc'|].
        split; [exact H1|]. split; [exact H2|]. split; [lia|lia].
    + exists removed, mg, (S c). split; [reflexivity|]. split; [constructor|]. split; [lia|]. split; [|split; [|split; auto]].
      * intros k p Hk E. destruct (Nat.eq_dec k c) as [->|]; [congruence|].
        destruct (Z.le_gt_cases 0 (p_type p)) as [Ha|Ha]; [exact Ha|]. exfalso.
        assert (Hdk : ~ alive p) by (unfold alive; lia).
        apply (proj1 (Hlo k p ltac:(lia) E)) in Hdk. destruct Hdk as [->|Hin]; [lia|].
        rewrite Forall_forall in Hall. specialize (Hall k Hin). lia.
      * intros k p Hk E. destruct (Nat.lt_ge_cases k cb); [apply (Hd k p); auto; lia|apply (Hhi k p); auto; lia].
Qed.

Lemma count_nil_rm s : inv s -> st_rm s = [] -> particles s = firstn (st_size s) (st_mem s).
Proof.
  intros [Hs Hn _ Hr] E. unfold particles. apply filter_all. intros a Ha. apply In_firstn_nth in Ha as (k & Hk & Ek).
  apply aliveb_spec. destruct (Z.le_gt_cases 0 (p_type a)) as [H|H]; [exact H|]. exfalso.
  assert (Hin : In k (st_rm s)). { apply Hr. exists a. split; [split; auto|]. unfold alive. lia. }
  rewrite E in Hin. destruct Hin.
Qed.

(* The heart of C04. *)
Lemma removal_spec s : inv s -> st_rm s = [] \/ 0 < st_number s ->
  exists s', doParticleRemoval s = Some s' /\ inv s' /\
    st_rm s' = [] /\ st_size s' = Z.to_nat (st_number s') /\ st_number s' = st_number s /\ st_cap s' = st_cap s /\
    firstn (st_size s') (st_mem s') = particles s' /\ Permutation (particles s) (particles s') /\
    st_next s' = st_next s /\ st_d s' = st_d s /\ st_dims s' = st_dims s /\
    (st_nev s' = st_nev s /\ st_nes s' = st_nes s /\ st_nei s' = st_nei s) /\
    (ids_ok (st_size s) (st_mem s) (st_map s) -> ids_ok (st_size s') (st_mem s') (st_map s')) /\
    (st_rm s <> [] -> st_locals s' = true) /\ (st_remake s = true -> st_remake s' = true) /\
    (st_remake s' = true \/ forall k, (k < st_size s')%nat -> nth_error (st_mem s') k = nth_error (st_mem s) k) /\
    (st_rm s = [] -> s' = s).
Proof.
  intros I Hor. pose proof I as [Hs Hn Hso Hr]. unfold doParticleRemoval. destruct (st_rm s) as [|id rm] eqn:Erm.
  { exists s. split; [reflexivity|]. split; [exact I|]. split; [exact Erm|].
    assert (Hall : particles s = firstn (st_size s) (st_mem s)) by (apply count_nil_rm; auto).
    assert (Hlen : length (particles s) = st_size s). { rewrite Hall, firstn_length. unfold st_cap in Hs. lia. }
    split. { rewrite Hn. unfold count. fold (particles s). lia. }
    split; [reflexivity|]. split; [reflexivity|]. split; [symmetry; exact Hall|]. repeat (split; [reflexivity|]).
    split; [now repeat split|]. split; [tauto|]. split; [congruence|]. split; [auto|]. split; [right; auto|auto]. }
  assert (Hne : st_rm s <> []) by congruence. rewrite <- Erm in Hor, Hso, Hr |- *. clear Erm.
  destruct Hor as [?|Hpos]; [congruence|]. unfold st_cap in Hs.
  destruct (fill_holes_spec (st_size s) (st_rm s) (st_size s) 0 (st_mem s, st_map s)) as
    (removed & [m g] & c & E & Hsw & Hc & Hlo & Hhi & Hrem & _); cbn [fst]; auto; try lia.
  { intros k p Hk Ek. rewrite Hr. split.
    - intros H. exists p. split; [split; auto|auto].
    - intros (q & [_ Eq] & Hq). rewrite Ek in Eq. injection Eq as <-. exact Hq. }
  rewrite E. cbn [fst] in *.
  pose proof (swaps_len _ _ _ _ Hsw) as L. cbn [fst] in L.
  pose proof (filter_prefix (st_size s) c m Hc ltac:(lia) Hlo Hhi) as Hfp.
  pose proof (count_swaps (st_size s) 0 _ _ _ (le_n _) Hsw) as Hcnt. cbn [fst] in Hcnt.
  assert (Hcn : c = Z.to_nat (st_number s)).
  { rewrite Hn, Hcnt. unfold count. rewrite Hfp, firstn_length. lia. }
  eexists. split; [reflexivity|]. cbn [st_rm st_size st_number st_mem st_next st_d st_dims st_map st_locals st_nev st_nes st_nei st_remake].
  rewrite <- Hcn.
  assert (Hfall : filter aliveb (firstn c m) = firstn c m).
  { apply filter_all. intros a Ha. apply In_firstn_nth in Ha as (k & Hk & Ek). apply aliveb_spec. eauto. }
  split.
  { constructor; cbn [st_rm st_size st_number st_mem]; unfold st_cap, at_; cbn [st_mem st_size]; try lia.
    - unfold count. rewrite Hfall, firstn_length. lia.
    - constructor.
    - intros l. split; [intros []|]. intros (p & [Hl Ep] & Hp). exfalso. apply Hp. eauto. }
  split; [reflexivity|]. split; [reflexivity|]. split; [reflexivity|]. split; [unfold st_cap; cbn [st_mem]; lia|].
  unfold particles. cbn [st_size st_mem]. rewrite Hfall. split; [reflexivity|].
  split. { rewrite <- Hfp. apply filter_perm. apply (swaps_perm _ _ _ _ _ (le_n _) Hsw). }
  repeat (split; [reflexivity|]). split; [now repeat split|]. split; [|split; [auto|split; [intros ->; reflexivity|split]]].
  2:{ destruct removed as [|removed]; [|left; now rewrite orb_true_r]. right. intros k _.
      specialize (Hrem eq_refl). injection Hrem as -> ->. reflexivity. }
  2:{ congruence. }
  intros Hids. pose proof (swaps_ids 0 _ _ _ _ (le_n _) Hsw Hids) as [Ha Hb Hm]. cbn [fst snd] in *.
  constructor.
  - intros l p Hl. apply Ha. lia.
  - intros l l' p p' Hl Hl'. apply Hb; lia.
  - intros k l. rewrite Hm. split; intros (p & Hl & Hp & Hal & Hg); exists p; (split; [|auto]); [|lia].
    destruct (Nat.lt_ge_cases l c); [auto|]. exfalso. apply (Hhi l p); auto.
Qed.
