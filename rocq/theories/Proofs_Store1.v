(* Memory writes, swaps, counting. *)
From Verif Require Import Lib Model_Store Spec_Store.
From Coq Require Import Permutation Sorted ZifyBool ZifyNat FinFun.
Local Open Scope Z_scope.

Lemma write_spec i p m : (i < length m)%nat -> exists m', write i p m = Some m' /\ length m' = length m /\
  forall k, nth_error m' k = if (k =? i)%nat then Some p else nth_error m k.
Proof.
  revert i. induction m as [|q m IH]; intros i Hi; cbn [length] in Hi; [lia|].
  destruct i as [|i]; cbn [write].
  - exists (p :: m). split; [reflexivity|]. split; [reflexivity|]. intros [|k]; reflexivity.
  - destruct (IH i ltac:(lia)) as (m' & E & L & H). rewrite E. exists (q :: m').
    split; [reflexivity|]. split; [cbn [length]; lia|]. intros [|k]; [reflexivity|]. cbn [nth_error]. rewrite H. reflexivity.
Qed.

Lemma write_none i p m : (length m <= i)%nat -> write i p m = None.
Proof.
  revert i. induction m as [|q m IH]; intros [|i] Hi; cbn [length write] in *; try reflexivity; try lia.
  rewrite IH by lia. reflexivity.
Qed.

Lemma write_inv i p m m' : write i p m = Some m' -> (i < length m)%nat /\ length m' = length m /\
  forall k, nth_error m' k = if (k =? i)%nat then Some p else nth_error m k.
Proof.
  intros H. destruct (Nat.lt_ge_cases i (length m)) as [Hi|Hi].
  - destruct (write_spec i p m Hi) as (m2 & E & L & K). rewrite H in E. injection E as <-. auto.
  - rewrite write_none in H by lia. discriminate.
Qed.

Lemma nth_error_firstn_lt {A} (m : list A) n k : (k < n)%nat -> nth_error (firstn n m) k = nth_error m k.
Proof.
  revert n k. induction m as [|a m IH]; intros [|n] k H; try lia; [destruct k; reflexivity|].
  destruct k as [|k]; [reflexivity|]. cbn. apply IH. lia.
Qed.

Lemma nth_error_firstn_ge {A} (m : list A) n k : (n <= k)%nat -> nth_error (firstn n m) k = None.
Proof. intros H. apply nth_error_None. rewrite firstn_length. lia. Qed.

Lemma nth_error_lt {A} (m : list A) k p : nth_error m k = Some p -> (k < length m)%nat.
Proof. intros H. apply nth_error_Some. congruence. Qed.

Lemma nth_error_ex {A} (m : list A) k : (k < length m)%nat -> exists p, nth_error m k = Some p.
Proof. intros H. destruct (nth_error m k) eqn:E; [eauto|]. apply nth_error_None in E. lia. Qed.

Lemma nth_error_ext_eq {A} (l l' : list A) : (forall k, nth_error l k = nth_error l' k) -> l = l'.
Proof.
  revert l'. induction l as [|a l IH]; intros [|b l'] H; try reflexivity.
  - specialize (H O). discriminate.
  - specialize (H O). discriminate.
  - pose proof (H O) as H0. cbn in H0. injection H0 as <-. f_equal. apply IH. intros k. apply (H (S k)).
Qed.

Lemma filter_perm {A} (f : A -> bool) l l' : Permutation l l' -> Permutation (filter f l) (filter f l').
Proof.
  induction 1; cbn [filter].
  - constructor.
  - destruct (f x); [constructor|]; assumption.
  - destruct (f x), (f y); try reflexivity. constructor.
  - etransitivity; eauto.
Qed.

(* ------------------------------------------------------------------ swapping *)
Definition transp (i j k : nat) : nat := if (k =? i)%nat then j else if (k =? j)%nat then i else k.

Lemma swap_spec i j m g : (i < length m)%nat -> (j < length m)%nat ->
  exists pi pj m' g', nth_error m i = Some pi /\ nth_error m j = Some pj /\
    swap_particle i j (m, g) = Some (m', g') /\ length m' = length m /\
    (forall k, nth_error m' k = nth_error m (transp i j k)) /\
    (forall k, g' k = let found k := (0 <=? k) && match g k with Some _ => true | None => false end in
       if found (p_gid pj) && (k =? p_gid pj) then Some i
       else if found (p_gid pi) && (k =? p_gid pi) then Some j else g k).
Proof.
  intros Hi Hj.
  destruct (nth_error_ex m i Hi) as [pi Ei]. destruct (nth_error_ex m j Hj) as [pj Ej].
  unfold swap_particle. rewrite Ei, Ej.
  destruct (write_spec i pj m Hi) as (m1 & E1 & L1 & K1). rewrite E1.
  destruct (write_spec j pi m1 ltac:(lia)) as (m2 & E2 & L2 & K2). rewrite E2.
  exists pi, pj. eexists. eexists. split; [reflexivity|]. split; [reflexivity|]. split; [reflexivity|].
  split; [lia|]. split; [|reflexivity].
  intros k. rewrite K2, K1. unfold transp.
  destruct (Nat.eqb_spec k j); destruct (Nat.eqb_spec k i); subst; try congruence; auto.
Qed.

Lemma swap_inv i j m g m' g' : swap_particle i j (m, g) = Some (m', g') -> (i < length m)%nat /\ (j < length m)%nat.
Proof.
  unfold swap_particle. intros H. destruct (nth_error m i) eqn:Ei; [|discriminate].
  destruct (nth_error m j) eqn:Ej; [|discriminate]. split; eapply nth_error_lt; eauto.
Qed.

Lemma transp_lt i j k n : (i < n)%nat -> (j < n)%nat -> ((transp i j k < n)%nat <-> (k < n)%nat).
Proof. unfold transp. intros. destruct (Nat.eqb_spec k i); [subst; tauto|]. destruct (Nat.eqb_spec k j); subst; tauto. Qed.

Lemma transp_inj i j : Injective (transp i j).
Proof.
  intros a b. unfold transp.
  destruct (Nat.eqb_spec a i); destruct (Nat.eqb_spec b i); destruct (Nat.eqb_spec a j); destruct (Nat.eqb_spec b j);
    subst; intros; subst; try congruence; try lia.
Qed.

Lemma perm_firstn_transp i j n (m m' : list part) : (i < n)%nat -> (j < n)%nat -> length m' = length m ->
  (forall k, nth_error m' k = nth_error m (transp i j k)) -> Permutation (firstn n m) (firstn n m').
Proof.
  intros Hi Hj Hl Hk. apply Permutation_nth_error. split; [rewrite !firstn_length; lia|].
  exists (transp i j). split; [apply transp_inj|]. intros k.
  destruct (Nat.lt_ge_cases k n) as [H|H].
  - rewrite !nth_error_firstn_lt; auto. now apply transp_lt.
  - rewrite !nth_error_firstn_ge; auto. pose proof (transp_lt i j k n Hi Hj). lia.
Qed.

(* ------------------------------------------------------------------ reflexive-transitive closure of swaps in [lo,hi) *)
Inductive swaps (lo hi : nat) : mg_state -> mg_state -> Prop :=
| swaps_refl mg : swaps lo hi mg mg
| swaps_step mg mg1 mg2 i j : (lo <= i < hi)%nat -> (lo <= j < hi)%nat -> swap_particle i j mg = Some mg1 ->
    swaps lo hi mg1 mg2 -> swaps lo hi mg mg2.

Lemma swaps_trans lo hi a b c : swaps lo hi a b -> swaps lo hi b c -> swaps lo hi a c.
Proof. induction 1; eauto using swaps_step. Qed.
Lemma swaps_widen lo hi lo' hi' a b : (lo' <= lo)%nat -> (hi <= hi')%nat -> swaps lo hi a b -> swaps lo' hi' a b.
Proof. intros H1 H2. induction 1; [constructor|]. eapply swaps_step; eauto; lia. Qed.
Lemma swaps_one lo hi i j a b : (lo <= i < hi)%nat -> (lo <= j < hi)%nat -> swap_particle i j a = Some b -> swaps lo hi a b.
Proof. intros Hi Hj E. exact (swaps_step lo hi a b b i j Hi Hj E (swaps_refl _ _ _)). Qed.

Lemma swaps_len lo hi a b : swaps lo hi a b -> length (fst b) = length (fst a).
Proof.
  induction 1 as [|[m g] [m1 g1] mg2 i j Hi Hj E _ IH]; [reflexivity|].
  destruct (swap_inv _ _ _ _ _ _ E) as [Li Lj]. destruct (swap_spec i j m g Li Lj) as (pi & pj & m' & g' & _ & _ & E' & L & _).
  rewrite E in E'. injection E' as -> ->. cbn [fst] in *. lia.
Qed.

Lemma swaps_perm lo hi a b n : (hi <= n)%nat -> swaps lo hi a b -> Permutation (firstn n (fst a)) (firstn n (fst b)).
Proof.
  intros Hn. induction 1 as [|[m g] [m1 g1] mg2 i j Hi Hj E _ IH]; [reflexivity|].
  etransitivity; [|exact IH]. destruct (swap_inv _ _ _ _ _ _ E) as [Li Lj].
  destruct (swap_spec i j m g Li Lj) as (pi & pj & m' & g' & _ & _ & E' & L & K & _).
  rewrite E in E'. injection E' as -> ->. cbn [fst] in *. eapply perm_firstn_transp with (i := i) (j := j); eauto; lia.
Qed.

Lemma swaps_range lo hi a b k : swaps lo hi a b -> (lo <= k < hi)%nat ->
  exists k', (lo <= k' < hi)%nat /\ nth_error (fst b) k = nth_error (fst a) k'.
Proof.
  induction 1 as [mg|[m g] [m1 g1] mg2 i j Hi Hj E _ IH]; intros Hk; [eauto|].
  destruct (IH Hk) as (k1 & Hk1 & E1). destruct (swap_inv _ _ _ _ _ _ E) as [Li Lj].
  destruct (swap_spec i j m g Li Lj) as (pi & pj & m' & g' & _ & _ & E' & L & K & _).
  rewrite E in E'. injection E' as -> ->. cbn [fst] in *. exists (transp i j k1). split; [|congruence].
  unfold transp. destruct (Nat.eqb_spec k1 i); [lia|]. destruct (Nat.eqb_spec k1 j); lia.
Qed.

Lemma swaps_outside lo hi a b k : swaps lo hi a b -> (k < lo \/ hi <= k)%nat -> nth_error (fst b) k = nth_error (fst a) k.
Proof.
  induction 1 as [mg|[m g] [m1 g1] mg2 i j Hi Hj E _ IH]; intros Hk; [reflexivity|].
  rewrite (IH Hk). destruct (swap_inv _ _ _ _ _ _ E) as [Li Lj].
  destruct (swap_spec i j m g Li Lj) as (pi & pj & m' & g' & _ & _ & E' & L & K & _).
  rewrite E in E'. injection E' as -> ->. cbn [fst] in *. rewrite K. unfold transp.
  destruct (Nat.eqb_spec k i); [lia|]. destruct (Nat.eqb_spec k j); [lia|]. reflexivity.
Qed.

(* ------------------------------------------------------------------ ids *)
(* Unique, non-negative ids in the first n entries (dead ones included), and an exact map. *)
Record ids_ok (n : nat) (m : list part) (g : Z -> option nat) : Prop := mkIds {
  ids_nonneg : forall l p, (l < n)%nat -> nth_error m l = Some p -> 0 <= p_gid p;
  ids_unique : forall l l' p p', (l < n)%nat -> (l' < n)%nat -> nth_error m l = Some p -> nth_error m l' = Some p' ->
    p_gid p = p_gid p' -> l = l';
  ids_map : forall k l, g k = Some l <-> exists p, (l < n)%nat /\ nth_error m l = Some p /\ alive p /\ p_gid p = k }.

Lemma swap_ids n i j m g m' g' : ids_ok n m g -> (i < n)%nat -> (j < n)%nat ->
  swap_particle i j (m, g) = Some (m', g') -> ids_ok n m' g'.
Proof.
  intros [Hnn Hu Hm] Hi Hj E. destruct (swap_inv _ _ _ _ _ _ E) as [Li Lj].
  destruct (swap_spec i j m g Li Lj) as (pi & pj & m1 & g1 & Ei & Ej & E' & L & K & G).
  rewrite E in E'. injection E' as <- <-. cbv zeta in G.
  assert (Hinv : forall k, transp i j (transp i j k) = k).
  { intros k. unfold transp. destruct (Nat.eqb_spec k i); subst.
    - destruct (Nat.eqb_spec j i); subst; [reflexivity|]. now rewrite Nat.eqb_refl.
    - destruct (Nat.eqb_spec k j); subst; [now rewrite Nat.eqb_refl|].
      destruct (Nat.eqb_spec k i); [contradiction|]. destruct (Nat.eqb_spec k j); [contradiction|]. reflexivity. }
  constructor.
  - intros l p Hl Hp. rewrite K in Hp. eapply Hnn; [|exact Hp]. now apply transp_lt.
  - intros l l' p p' Hl Hl' Hp Hp' Hg. rewrite K in Hp, Hp'. apply (transp_inj i j).
    eapply Hu; eauto; now apply transp_lt.
  - intros k l.
    assert (R : (exists p, (l < n)%nat /\ nth_error m' l = Some p /\ alive p /\ p_gid p = k) <-> g k = Some (transp i j l)).
    { rewrite Hm. split; intros (p & Hl & Hp & Ha & Hg); exists p.
      - rewrite K in Hp. split; [now apply transp_lt|auto].
      - rewrite K. split; [now apply transp_lt in Hl|auto]. }
    rewrite R, G. clear R.
    assert (F : forall q c, nth_error m c = Some q -> (c < n)%nat ->
       ((0 <=? p_gid q) && match g (p_gid q) with Some _ => true | None => false end) = true <-> g (p_gid q) = Some c).
    { intros q c Hq Hc. pose proof (Hnn c q Hc Hq). destruct (g (p_gid q)) as [w|] eqn:Eg.
      - split; [|intros; lia]. intros _. f_equal.
        destruct (proj1 (Hm _ _) Eg) as (q' & Hw & Hq' & _ & Hgq). eapply Hu; eauto.
      - rewrite andb_false_r. split; discriminate. }
    pose proof (F pi i Ei Hi) as Fi. pose proof (F pj j Ej Hj) as Fj. clear F.
    set (fi := (0 <=? p_gid pi) && _) in *. set (fj := (0 <=? p_gid pj) && _) in *.
    destruct (Z.eqb_spec k (p_gid pj)) as [->|Nkj].
    + destruct fj eqn:Ej'; cbn [andb].
      * rewrite (proj1 Fj eq_refl). split.
        -- intros [= <-]. f_equal. unfold transp. now rewrite Nat.eqb_refl.
        -- intros [= Hl]. f_equal. rewrite <- (Hinv l), <- Hl. unfold transp.
           destruct (Nat.eqb_spec j i); [congruence|]. now rewrite Nat.eqb_refl.
      * assert (Hnone : g (p_gid pj) = None).
        { destruct (g (p_gid pj)) as [w|] eqn:Eg; [|reflexivity]. exfalso.
          destruct (proj1 (Hm _ _) Eg) as (q' & Hw & Hq' & _ & Hgq).
          assert (w = j) by (eapply Hu; eauto). subst w. destruct Fj as [_ Fj]. specialize (Fj eq_refl). discriminate. }
        destruct (Z.eqb_spec (p_gid pj) (p_gid pi)) as [Hs|Hs].
        -- destruct fi eqn:Ei'; cbn [andb]; [|rewrite Hnone; split; discriminate].
           rewrite <- Hs in Fi. rewrite Hnone in Fi. exfalso. destruct Fi as [Fi _]. specialize (Fi eq_refl). discriminate.
        -- rewrite andb_false_r. rewrite Hnone. split; discriminate.
    + rewrite andb_false_r. destruct (Z.eqb_spec k (p_gid pi)) as [->|Nki].
      * destruct fi eqn:Ei'; cbn [andb].
        -- rewrite (proj1 Fi eq_refl). split.
           ++ intros [= <-]. f_equal. unfold transp. destruct (Nat.eqb_spec j i); [congruence|]. now rewrite Nat.eqb_refl.
           ++ intros [= Hl]. f_equal. rewrite <- (Hinv l), <- Hl. unfold transp. now rewrite Nat.eqb_refl.
        -- assert (Hnone : g (p_gid pi) = None).
           { destruct (g (p_gid pi)) as [w|] eqn:Eg; [|reflexivity]. exfalso.
             destruct (proj1 (Hm _ _) Eg) as (q' & Hw & Hq' & _ & Hgq).
             assert (w = i) by (eapply Hu; eauto). subst w. destruct Fi as [_ Fi]. specialize (Fi eq_refl). discriminate. }
           rewrite Hnone. split; discriminate.
      * rewrite andb_false_r. rewrite !Hm. split; intros (p & Hl & Hp & Ha & Hg).
        -- assert (Hli : l <> i) by (intros ->; congruence). assert (Hlj : l <> j) by (intros ->; congruence).
           exists p. assert (Ht : transp i j l = l).
           { unfold transp. destruct (Nat.eqb_spec l i); [contradiction|]. destruct (Nat.eqb_spec l j); [contradiction|]. reflexivity. }
           rewrite Ht. auto.
        -- exists p. assert (Hti : transp i j l <> i) by (intros Ht; rewrite Ht in Hp; congruence).
           assert (Htj : transp i j l <> j) by (intros Ht; rewrite Ht in Hp; congruence).
           assert (Ht : transp i j l = l).
           { unfold transp in *. destruct (Nat.eqb_spec l i); [congruence|]. destruct (Nat.eqb_spec l j); [congruence|]. reflexivity. }
           rewrite Ht in Hp, Hl. auto.
Qed.

Lemma swaps_ids lo hi n a b : (hi <= n)%nat -> swaps lo hi a b -> ids_ok n (fst a) (snd a) -> ids_ok n (fst b) (snd b).
Proof.
  intros Hn. induction 1 as [|[m g] [m1 g1] mg2 i j Hi Hj E _ IH]; [auto|]. intros H. apply IH.
  cbn [fst snd] in *. eapply swap_ids with (i := i) (j := j); eauto; lia.
Qed.
