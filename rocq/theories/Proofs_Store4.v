(* Every public operation keeps the invariant and succeeds when its precondition holds. *)
From Verif Require Import Lib Model_Store Spec_Store Proofs_Store1 Proofs_Store2 Proofs_Store3.
From Coq Require Import Permutation Sorted ZifyBool ZifyNat.
Local Open Scope Z_scope.

Ltac sfields := cbn [st_dims st_nev st_nes st_nei st_mem st_size st_number st_map st_rm st_next st_d st_remake st_locals
  set_mem set_memmap set_flags].

(* Ids below next_global_id, and everything exact. *)
Record idinv (s : store) : Prop := mkIdinv {
  idi_ok : ids_ok (st_size s) (st_mem s) (st_map s);
  idi_fresh : forall l p, at_ s l p -> p_gid p < st_next s;
  idi_next : 0 <= st_next s;
  idi_d : 0 < st_d s }.

Lemma firstn_snoc {A} n (m : list A) p : nth_error m n = Some p -> firstn (S n) m = firstn n m ++ [p].
Proof.
  revert m. induction n as [|n IH]; intros [|a m] H; try discriminate.
  - injection H as <-. reflexivity.
  - cbn [firstn app]. f_equal. apply IH. exact H.
Qed.

Lemma firstn_agree {A} n (m m' : list A) : (forall k, (k < n)%nat -> nth_error m k = nth_error m' k) -> firstn n m = firstn n m'.
Proof.
  intros H. apply nth_error_ext_eq. intros k. destruct (Nat.lt_ge_cases k n).
  - rewrite !nth_error_firstn_lt; auto.
  - rewrite !nth_error_firstn_ge; auto.
Qed.

(* ------------------------------------------------------------------ resize *)
Lemma resize_spec e s : 0 <= e -> st_mem (resize e s) = st_mem s ++ repeat (blank s) (Z.to_nat e) /\
  resize e s = set_mem (st_mem s ++ repeat (blank s) (Z.to_nat e)) s.
Proof.
  intros He. unfold resize. destruct (Z.leb_spec e 0) as [H|H].
  - assert (e = 0) by lia. subst. cbn. rewrite app_nil_r. split; [reflexivity|]. now destruct s.
  - split; reflexivity.
Qed.

Lemma nth_error_app_lt {A} (l l' : list A) k : (k < length l)%nat -> nth_error (l ++ l') k = nth_error l k.
Proof. apply nth_error_app1. Qed.

Lemma resize_inv e s : 0 <= e -> inv s -> inv (resize e s) /\ (idinv s -> idinv (resize e s)) /\
  st_cap (resize e s) = (st_cap s + Z.to_nat e)%nat /\ particles (resize e s) = particles s.
Proof.
  intros He [Hs Hn Hso Hr]. destruct (resize_spec e s He) as [_ ->]. unfold st_cap in *.
  set (b := repeat (blank s) (Z.to_nat e)).
  assert (Hk : forall k, (k < st_size s)%nat -> nth_error (st_mem s ++ b) k = nth_error (st_mem s) k)
    by (intros; apply nth_error_app1; lia).
  assert (Hf : firstn (st_size s) (st_mem s ++ b) = firstn (st_size s) (st_mem s)) by (apply firstn_agree; auto).
  assert (Ha : forall l p, at_ (set_mem (st_mem s ++ b) s) l p <-> at_ s l p).
  { intros l p. unfold at_. sfields. split; intros [H1 H2]; (split; [exact H1|]); [rewrite Hk in H2|rewrite Hk]; auto. }
  split; [|split; [|split]].
  - constructor; unfold st_cap; sfields; auto.
    + rewrite app_length. lia.
    + unfold count. rewrite Hf. exact Hn.
    + intros l. rewrite Hr. split; intros (p & Hp & Hq); exists p; (split; [|exact Hq]); now apply Ha.
  - intros [[H1 H2 H3] H4 H5 H6]. constructor; sfields; auto.
    + constructor; sfields.
      * intros l p Hl. rewrite Hk by auto. eauto.
      * intros l l' p p' Hl Hl'. rewrite !Hk by auto. eauto.
      * intros k l. rewrite H3. split; intros (p & Hl & Hp & Hq); exists p; (split; [exact Hl|split; [|exact Hq]]);
          [rewrite Hk|rewrite Hk in Hp]; auto.
    + intros l p Hp. apply Ha in Hp. eauto.
  - sfields. rewrite app_length. unfold b. rewrite repeat_length. lia.
  - unfold particles. sfields. now rewrite Hf.
Qed.

(* ------------------------------------------------------------------ adding *)
Lemma append_inv s p m' g nx d r l : inv s -> alive p -> write (st_size s) p (st_mem s) = Some m' ->
  let s' := mkStore (st_dims s) (st_nev s) (st_nes s) (st_nei s) m' (S (st_size s)) (st_number s + 1) g (st_rm s) nx d r l in
  inv s' /\ particles s' = particles s ++ [p] /\ at_ s' (st_size s) p /\ st_cap s' = st_cap s /\
  (forall k q, at_ s k q -> at_ s' k q) /\
  (forall k q, at_ s' k q -> k = st_size s /\ q = p \/ at_ s k q) /\
  (idinv s -> p_gid p = st_next s -> g = map_emplace (st_next s) (st_size s) (st_map s) -> st_next s < nx -> 0 < d -> idinv s').
Proof.
  intros I Ha Hw s'. pose proof I as [Hs Hn Hso Hr]. destruct (write_inv _ _ _ _ Hw) as (Hlt & Hl & Hk). unfold st_cap in *.
  assert (Hlo : forall k, (k < st_size s)%nat -> nth_error m' k = nth_error (st_mem s) k).
  { intros k H. rewrite Hk. destruct (Nat.eqb_spec k (st_size s)); [lia|reflexivity]. }
  assert (Hat : nth_error m' (st_size s) = Some p) by (rewrite Hk, Nat.eqb_refl; reflexivity).
  assert (Hf : firstn (S (st_size s)) m' = firstn (st_size s) (st_mem s) ++ [p]).
  { rewrite (firstn_snoc _ _ p Hat). f_equal. now apply firstn_agree. }
  assert (Hpar : particles s' = particles s ++ [p]).
  { unfold particles, s'. sfields. rewrite Hf, filter_app. cbn. rewrite (proj2 (aliveb_spec p) Ha). reflexivity. }
  assert (Hold : forall k q, at_ s k q -> at_ s' k q).
  { intros k q [H1 H2]. split; unfold s'; sfields; [lia|]. now rewrite Hlo. }
  assert (Hnew : forall k q, at_ s' k q -> k = st_size s /\ q = p \/ at_ s k q).
  { intros k q [H1 H2]. unfold s' in H1, H2. revert H1 H2. sfields. intros H1 H2.
    destruct (Nat.eq_dec k (st_size s)) as [->|]; [left; split; [auto|congruence]|]. right. split; [lia|]. now rewrite <- Hlo by lia. }
  split; [|split; [exact Hpar|split; [split; unfold s'; sfields; [lia|exact Hat]|split; [unfold s', st_cap; sfields; lia|
    split; [exact Hold|split; [exact Hnew|]]]]]].
  - constructor; unfold s', st_cap; sfields; auto; try lia.
    + unfold count. rewrite Hf, filter_app, app_length. cbn [filter]. rewrite (proj2 (aliveb_spec p) Ha). cbn [length].
      fold (particles s). unfold count in Hn. fold (particles s) in Hn. lia.
    + intros l'. rewrite Hr. split; intros (q & Hq & Hd); exists q; (split; [|exact Hd]); [now apply Hold|].
      apply Hnew in Hq. destruct Hq as [[-> ->]|Hq]; [contradiction|exact Hq].
  - intros [[H1 H2 H3] H4 H5 H6] Hg -> Hnx Hd.
    assert (Hnone : st_map s (st_next s) = None).
    { destruct (st_map s (st_next s)) as [w|] eqn:Ew; [|reflexivity]. exfalso.
      apply H3 in Ew as (q & Hq1 & Hq2 & _ & Hq3). specialize (H4 w q (conj Hq1 Hq2)). lia. }
    constructor; unfold s'; sfields; auto; try lia.
    + constructor.
      * intros k q Hkl Hq. destruct (Nat.eq_dec k (st_size s)) as [->|]; [rewrite Hat in Hq; injection Hq as <-; lia|].
        rewrite Hlo in Hq by lia. apply (H1 k q); auto. lia.
      * intros k k' q q' Hk1 Hk2 Hq Hq' Hgg.
        destruct (Nat.eq_dec k (st_size s)) as [->|N1]; destruct (Nat.eq_dec k' (st_size s)) as [->|N2]; auto.
        -- rewrite Hat in Hq. injection Hq as <-. rewrite Hlo in Hq' by lia.
           specialize (H4 k' q' ltac:(split; [lia|auto])). lia.
        -- rewrite Hat in Hq'. injection Hq' as <-. rewrite Hlo in Hq by lia.
           specialize (H4 k q ltac:(split; [lia|auto])). lia.
        -- rewrite Hlo in Hq, Hq' by lia. apply (H2 k k' q q'); auto; lia.
      * intros k l'. unfold map_emplace. destruct (Z.eqb_spec k (st_next s)) as [->|Nk].
        -- rewrite Hnone. split.
           ++ intros [= <-]. exists p. auto.
           ++ intros (q & Hl' & Hq & _ & Hqg). destruct (Nat.eq_dec l' (st_size s)) as [->|]; [reflexivity|].
              rewrite Hlo in Hq by lia. specialize (H4 l' q ltac:(split; [lia|auto])). lia.
        -- rewrite H3. split; intros (q & Hl' & Hq & Hqa & Hqg); exists q.
           ++ rewrite Hlo by lia. repeat split; auto.
           ++ destruct (Nat.eq_dec l' (st_size s)) as [->|]; [rewrite Hat in Hq; injection Hq as <-; lia|].
              rewrite Hlo in Hq by lia. repeat split; auto. lia.
    + intros k q Hq. apply Hnew in Hq. destruct Hq as [[-> ->]|Hq]; [lia|]. specialize (H4 k q Hq). lia.
Qed.

(* The particle a default add creates. *)
Definition new_default (s : store) (gid : Z) : part := set_gid gid (set_type 0 (blank s)).

Lemma add_one_some ids s : (st_size s < st_cap s)%nat -> exists s', add_one ids s = Some s'.
Proof.
  intros H. unfold add_one. destruct (write_spec (st_size s) (if ids then set_gid (st_next s) (set_type 0 (blank s)) else set_type 0 (blank s))
    (st_mem s) H) as (m' & E & _). rewrite E. eauto.
Qed.

Lemma add_one_inv ids s s' : inv s -> add_one ids s = Some s' ->
  inv s' /\ particles s' = particles s ++ [new_default s (if ids then st_next s else -1)] /\
  at_ s' (st_size s) (new_default s (if ids then st_next s else -1)) /\ st_size s' = S (st_size s) /\ st_cap s' = st_cap s /\
  (forall k q, at_ s k q -> at_ s' k q) /\ st_d s' = st_d s /\ (ids = true -> st_next s' = st_next s + st_d s) /\
  st_dims s' = st_dims s /\ st_nev s' = st_nev s /\ st_nes s' = st_nes s /\ st_nei s' = st_nei s /\
  (ids = true -> idinv s -> idinv s').
Proof.
  intros I H. unfold add_one in H.
  set (p := if ids then set_gid (st_next s) (set_type 0 (blank s)) else set_type 0 (blank s)) in *.
  assert (Ep : p = new_default s (if ids then st_next s else -1)) by (unfold p; destruct ids; reflexivity).
  assert (Ha : alive p) by (rewrite Ep; unfold alive; cbn; lia).
  destruct (write (st_size s) p (st_mem s)) as [m|] eqn:Ew; [|discriminate]. injection H as <-.
  destruct (append_inv s p m (if ids then map_emplace (st_next s) (st_size s) (st_map s) else st_map s)
    (if ids then st_next s + st_d s else st_next s) (st_d s) (st_remake s) (st_locals s) I Ha Ew) as (H1 & H2 & H3 & H4 & H5 & H6 & H7).
  rewrite <- Ep. sfields. repeat (split; [first [assumption|reflexivity]|]).
  split; [intros ->; reflexivity|]. repeat (split; [reflexivity|]).
  intros -> Hid. pose proof Hid as [_ _ _ Hd]. apply H7; auto; first [lia | rewrite Ep; reflexivity].
Qed.

Lemma add_loop_some n ids s : (n <= st_cap s - st_size s)%nat -> (st_size s <= st_cap s)%nat -> exists s', add_loop n ids s = Some s'.
Proof.
  revert s. induction n as [|n IH]; intros s H1 H2; cbn [add_loop]; [eauto|].
  destruct (add_one_some ids s ltac:(lia)) as [s1 E]. rewrite E. apply IH; unfold add_one in E;
    destruct (write _ _ _) as [m|] eqn:Ew; try discriminate; injection E as <-; apply write_inv in Ew as (_ & Hl & _);
    unfold st_cap in *; sfields; lia.
Qed.

Lemma add_loop_none n ids s : (st_cap s - st_size s < n)%nat -> (st_size s <= st_cap s)%nat -> add_loop n ids s = None.
Proof.
  revert s. induction n as [|n IH]; intros s H1 H2; cbn [add_loop]; [lia|].
  destruct (add_one ids s) as [s1|] eqn:E; [|reflexivity]. unfold add_one in E.
  destruct (write _ _ _) as [m|] eqn:Ew; [|discriminate]. injection E as <-. apply write_inv in Ew as (Hlt & Hl & _).
  apply IH; unfold st_cap in *; sfields; lia.
Qed.

(* The ids a loop gives out. *)
Fixpoint id_seq (n : nat) (a d : Z) : list Z := match n with O => [] | S n' => a :: id_seq n' (a + d) d end.

Lemma add_loop_inv n ids s s' : inv s -> add_loop n ids s = Some s' ->
  inv s' /\ st_size s' = (st_size s + n)%nat /\ st_cap s' = st_cap s /\ st_d s' = st_d s /\
  particles s' = particles s ++ map (new_default s) (if ids then id_seq n (st_next s) (st_d s) else repeat (-1) n) /\
  (forall k q, at_ s k q -> at_ s' k q) /\
  (forall k g, nth_error (if ids then id_seq n (st_next s) (st_d s) else repeat (-1) n) k = Some g -> at_ s' (st_size s + k) (new_default s g)) /\
  (ids = true -> st_next s' = st_next s + Z.of_nat n * st_d s) /\ (ids = true -> idinv s -> idinv s').
Proof.
  revert s. induction n as [|n IH]; intros s I H; cbn [add_loop] in H.
  - injection H as <-. split; [exact I|]. split; [lia|]. split; [reflexivity|]. split; [reflexivity|].
    split; [destruct ids; cbn; now rewrite app_nil_r|]. split; [auto|]. split; [destruct ids; cbn; intros [|k] g E; discriminate|].
    split; [intros; lia|auto].
  - destruct (add_one ids s) as [s1|] eqn:E1; [|discriminate].
    destruct (add_one_inv ids s s1 I E1) as (I1 & P1 & A1 & S1 & C1 & O1 & D1 & N1 & F1 & F2 & F3 & F4 & X1).
    destruct (IH s1 I1 H) as (I2 & S2 & C2 & D2 & P2 & O2 & A2 & N2 & X2).
    assert (Hb : forall g, new_default s1 g = new_default s g).
    { intros g. unfold new_default, blank. rewrite F1, F2, F3, F4. reflexivity. }
    assert (Hseq : (if ids then id_seq (S n) (st_next s) (st_d s) else repeat (-1) (S n)) =
       (if ids then st_next s else -1) :: (if ids then id_seq n (st_next s1) (st_d s1) else repeat (-1) n)).
    { destruct ids; cbn [id_seq repeat]; [|reflexivity]. rewrite N1, D1 by auto. reflexivity. }
    rewrite Hseq. split; [exact I2|]. split; [lia|]. split; [lia|]. split; [congruence|]. split.
    { rewrite P2, P1, <- app_assoc. cbn [map app]. f_equal. f_equal. apply map_ext. exact Hb. }
    split; [intros; auto|]. split.
    { intros [|k] g Hg; cbn [nth_error] in Hg.
      - injection Hg as <-. rewrite Nat.add_0_r. apply O2. exact A1.
      - specialize (A2 k g Hg). rewrite S1, Hb in A2. replace (st_size s + S k)%nat with (S (st_size s) + k)%nat by lia. exact A2. }
    split; [intros Hi; rewrite N2, N1, D1 by auto; lia|auto].
Qed.

(* addParticles after growth *)
Definition grown (num : Z) (s : store) : store :=
  if Z.of_nat (st_cap s) <? Z.of_nat (st_size s) + num
  then resize (Z.max 32 ((num + Z.of_nat (st_size s) - Z.of_nat (st_cap s)) / 10)) s else s.

Lemma grown_inv num s : 0 < num -> inv s -> inv (grown num s) /\ (idinv s -> idinv (grown num s)) /\
  particles (grown num s) = particles s /\ st_size (grown num s) = st_size s /\ st_next (grown num s) = st_next s /\
  st_d (grown num s) = st_d s /\ (forall g, new_default (grown num s) g = new_default s g) /\
  (st_cap s <= st_cap (grown num s))%nat /\ (forall k q, at_ s k q -> at_ (grown num s) k q) /\
  (Z.of_nat (st_cap s) < Z.of_nat (st_size s) + num ->
   Z.of_nat (st_cap (grown num s)) = Z.of_nat (st_cap s) + Z.max 32 ((num + Z.of_nat (st_size s) - Z.of_nat (st_cap s)) / 10)).
Proof.
  intros Hn I. unfold grown. destruct (Z.ltb_spec (Z.of_nat (st_cap s)) (Z.of_nat (st_size s) + num)) as [H|H].
  - set (e := Z.max 32 _). destruct (resize_inv e s ltac:(lia) I) as (H1 & H2 & H3 & H4).
    destruct (resize_spec e s ltac:(lia)) as [_ Er].
    split; [auto|]. split; [auto|]. split; [auto|].
    split; [rewrite Er; reflexivity|]. split; [rewrite Er; reflexivity|]. split; [rewrite Er; reflexivity|].
    split; [intros g; rewrite Er; reflexivity|]. split; [rewrite H3; lia|]. split; [|intros; rewrite H3; lia].
    rewrite Er. intros k q [A1 A2]. split; sfields; [auto|]. rewrite nth_error_app1; [auto|]. eapply nth_error_lt; eauto.
  - split; [auto|]. split; [auto|]. repeat (split; [reflexivity|]). split; [auto|]. intros; lia.
Qed.

Lemma addParticles_unfold num ids s : 0 < num ->
  addParticles num ids s = match add_loop (Z.to_nat num) ids (grown num s) with
                           | Some s2 => Some (Z.of_nat (st_size s), s2) | None => None end.
Proof. intros H. unfold addParticles. destruct (Z.leb_spec num 0); [lia|]. reflexivity. Qed.

Lemma addParticles_safe num ids s : inv s -> 0 < num ->
  (addParticles num ids s = None <-> Z.of_nat (st_cap s) + 32 < Z.of_nat (st_size s) + num).
Proof.
  intros I Hn. rewrite addParticles_unfold by lia.
  destruct (grown_inv num s Hn I) as (I1 & _ & _ & Hsz & _ & _ & _ & Hcap & _ & Hc).
  pose proof (inv_size _ I1) as Hsz1. pose proof (inv_size _ I) as Hsz0.
  set (e := num + Z.of_nat (st_size s) - Z.of_nat (st_cap s)) in *.
  assert (He : e / 10 < e \/ e <= 0). { destruct (Z.le_gt_cases e 0); [auto|left]. apply Z.div_lt; lia. }
  split.
  - intros E. destruct (Z.le_gt_cases (Z.of_nat (st_size s) + num) (Z.of_nat (st_cap s) + 32)) as [H|H]; [|lia]. exfalso.
    destruct (add_loop_some (Z.to_nat num) ids (grown num s)) as [s' Es']; [|lia|rewrite Es' in E; discriminate].
    rewrite Hsz. destruct (Z.lt_ge_cases (Z.of_nat (st_cap s)) (Z.of_nat (st_size s) + num)); [specialize (Hc ltac:(lia)); lia|lia].
  - intros H. specialize (Hc ltac:(lia)). rewrite add_loop_none; [reflexivity| |lia]. rewrite Hsz. lia.
Qed.

Definition new_full (s : store) (x v : list num) (sg im : num) (t : Z) : part :=
  mkPart t (st_next s) x v (p_f (blank s)) sg im (p_evecs (blank s)) (p_escals (blank s)) (p_eints (blank s)).

Lemma addParticle_inv x v sg im t s : inv s -> 0 <= t ->
  exists s', addParticle x v sg im t s = Some (Z.of_nat (st_size s), s') /\ inv s' /\
    particles s' = particles s ++ [new_full s x v sg im t] /\ at_ s' (st_size s) (new_full s x v sg im t) /\
    st_size s' = S (st_size s) /\ (forall k q, at_ s k q -> at_ s' k q) /\
    st_next s' = st_next s + 1 + st_d s /\ st_d s' = st_d s /\ (idinv s -> idinv s').
Proof.
  intros I Ht. unfold addParticle.
  set (s1 := if Z.of_nat (st_cap s) <? Z.of_nat (st_size s) + 1 then resize (Z.max 32 (Z.of_nat (st_size s) / 10)) s else s).
  assert (H1 : inv s1 /\ (idinv s -> idinv s1) /\ particles s1 = particles s /\ (st_size s1 < st_cap s1)%nat /\
    st_size s1 = st_size s /\ st_next s1 = st_next s /\ st_d s1 = st_d s /\ blank s1 = blank s /\ (forall k q, at_ s k q -> at_ s1 k q)).
  { pose proof (inv_size _ I) as Hs. unfold s1. destruct (Z.ltb_spec (Z.of_nat (st_cap s)) (Z.of_nat (st_size s) + 1)) as [H|H].
    - set (e := Z.max 32 _). destruct (resize_inv e s ltac:(lia) I) as (H1 & H2 & H3 & H4).
      destruct (resize_spec e s ltac:(lia)) as [_ Er]. split; [auto|]. split; [auto|]. split; [auto|].
      split; [rewrite H3; rewrite Er; sfields; lia|]. rewrite Er. repeat (split; [reflexivity|]).
      intros k q [A1 A2]. split; sfields; [auto|]. rewrite nth_error_app1; [auto|]. eapply nth_error_lt; eauto.
    - split; [auto|]. split; [auto|]. split; [reflexivity|]. split; [lia|]. repeat (split; [reflexivity|]). auto. }
  destruct H1 as (I1 & Hid1 & Hp1 & Hlt & Hsz & Hnx & Hd & Hb & Hat).
  assert (Ep : mkPart t (st_next s1) x v (p_f (blank s1)) sg im (p_evecs (blank s1)) (p_escals (blank s1)) (p_eints (blank s1))
    = new_full s x v sg im t). { unfold new_full. now rewrite Hnx, Hb. }
  rewrite Ep. destruct (write_spec (st_size s1) (new_full s x v sg im t) (st_mem s1) Hlt) as (m & Ew & _). rewrite Ew.
  eexists. split; [reflexivity|].
  destruct (append_inv s1 (new_full s x v sg im t) m (map_emplace (st_next s1) (st_size s1) (st_map s1)) (st_next s1 + 1 + st_d s1)
    (st_d s1) (st_remake s1) (st_locals s1) I1 Ht Ew) as (A1 & A2 & A3 & A4 & A5 & A6 & A7).
  split; [exact A1|]. split; [rewrite A2, Hp1; reflexivity|]. split; [rewrite Hsz in A3; rewrite Hsz; exact A3|].
  sfields. split; [lia|]. split; [intros k q Hq; apply A5; auto|]. split; [lia|]. split; [exact Hd|].
  intros Hid. pose proof (Hid1 Hid) as Hid'. pose proof Hid' as [_ _ _ Hdd]. apply A7; auto; first [lia | cbn; lia].
Qed.

(* ------------------------------------------------------------------ marking *)
Lemma set_insert_in a l x : In x (set_insert a l) <-> x = a \/ In x l.
Proof.
  induction l as [|b l IH]; cbn [set_insert In]; [intuition|].
  destruct (Nat.ltb_spec a b); [cbn; intuition|]. destruct (Nat.eqb_spec a b) as [->|]; [cbn; intuition|].
  cbn [In]. rewrite IH. intuition.
Qed.

Lemma set_insert_sorted a l : StronglySorted lt l -> StronglySorted lt (set_insert a l).
Proof.
  induction 1 as [|b l Hs IH Hall]; cbn [set_insert]; [repeat constructor|].
  destruct (Nat.ltb_spec a b).
  - constructor; [constructor; auto|]. constructor; [auto|]. eapply Forall_impl; [|exact Hall]. cbn. lia.
  - destruct (Nat.eqb_spec a b) as [->|]; [constructor; auto|]. constructor; [exact IH|].
    apply Forall_forall. intros x Hx. apply set_insert_in in Hx as [->|Hx]; [lia|]. rewrite Forall_forall in Hall. auto.
Qed.

(* the record of a marked particle *)
Definition marked (p : part) : part := set_x (far_x (p_x p)) (set_type (-1) p).

Lemma count_app n m i p m' : (i < n)%nat -> nth_error m i = Some p -> length m' = length m ->
  (forall k, k <> i -> nth_error m' k = nth_error m k) -> (exists p', nth_error m' i = Some p' /\ aliveb p' = false) -> aliveb p = true ->
  count n m = S (count n m').
Proof.
  intros Hi Hp Hl Hk (p' & Hp' & Ha') Ha.
  assert (E1 : firstn n m = firstn i m ++ p :: firstn (n - S i) (skipn (S i) m)).
  { rewrite (firstn_split n (S i) m) by lia. rewrite (firstn_snoc _ _ _ Hp), <- app_assoc. reflexivity. }
  assert (E2 : firstn n m' = firstn i m' ++ p' :: firstn (n - S i) (skipn (S i) m')).
  { rewrite (firstn_split n (S i) m') by lia. rewrite (firstn_snoc _ _ _ Hp'), <- app_assoc. reflexivity. }
  assert (E3 : firstn i m' = firstn i m) by (apply firstn_agree; intros; apply Hk; lia).
  assert (E4 : skipn (S i) m' = skipn (S i) m).
  { apply nth_error_ext_eq. intros k. rewrite !nth_error_skipn. apply Hk. lia. }
  unfold count. rewrite E1, E2, E3, E4, !filter_app, !app_length. cbn [filter]. rewrite Ha, Ha'. cbn [length]. lia.
Qed.

Lemma mark_spec id s : inv s -> 0 <= id -> (Z.to_nat id < st_cap s)%nat ->
  exists s', markForRemoval id s = Some s' /\ inv s' /\ (idinv s -> idinv s') /\ st_cap s' = st_cap s /\
    st_size s' = st_size s /\ st_next s' = st_next s /\ st_d s' = st_d s /\ st_dims s' = st_dims s /\
    ((forall p, at_ s (Z.to_nat id) p -> ~ alive p) -> s' = s) /\
    (forall p, at_ s (Z.to_nat id) p -> alive p ->
      st_number s' = st_number s - 1 /\ at_ s' (Z.to_nat id) (marked p) /\
      (forall g, st_map s' g = if g =? p_gid p then None else st_map s g) /\
      (forall k, k <> Z.to_nat id -> nth_error (st_mem s') k = nth_error (st_mem s) k)).
Proof.
  intros I H0 Hc. pose proof I as [Hs Hn Hso Hr]. unfold markForRemoval. destruct (Z.ltb_spec id 0); [lia|].
  unfold st_cap in *. destruct (nth_error_ex (st_mem s) (Z.to_nat id) Hc) as [p Ep]. rewrite Ep.
  destruct ((p_type p <? 0) || (Z.of_nat (st_size s) <=? id)) eqn:Ed.
  - exists s. split; [reflexivity|]. split; [exact I|]. split; [auto|]. repeat (split; [reflexivity|]).
    intros q [Hq1 Hq2] Hq3. rewrite Ep in Hq2. injection Hq2 as <-. unfold alive in Hq3. lia.
  - assert (Ha : alive p) by (unfold alive; lia). assert (Hlt : (Z.to_nat id < st_size s)%nat) by lia.
    destruct (write_spec (Z.to_nat id) (set_x (far_x (p_x p)) (set_type (-1) p)) (st_mem s) Hc) as (m & Ew & Hl & Hk). rewrite Ew.
    fold (marked p) in Hk. eexists. split; [reflexivity|].
    assert (Hme : nth_error m (Z.to_nat id) = Some (marked p)) by (rewrite Hk, Nat.eqb_refl; reflexivity).
    assert (Hother : forall k, k <> Z.to_nat id -> nth_error m k = nth_error (st_mem s) k).
    { intros k Hne. rewrite Hk. destruct (Nat.eqb_spec k (Z.to_nat id)); [contradiction|reflexivity]. }
    assert (Hcnt : count (st_size s) (st_mem s) = S (count (st_size s) m)).
    { eapply (count_app _ _ (Z.to_nat id) p); eauto; first [now apply aliveb_spec | exists (marked p); split; [auto|reflexivity]]. }
    split.
    { constructor; unfold st_cap; sfields; auto; try lia.
      - now apply set_insert_sorted.
      - intros l. rewrite set_insert_in, Hr. unfold at_. sfields. split.
        + intros [->|(q & [Hq1 Hq2] & Hq3)].
          * exists (marked p). split; [auto|]. unfold alive. cbn. lia.
          * destruct (Nat.eq_dec l (Z.to_nat id)) as [->|]; [exists (marked p); split; [auto|unfold alive; cbn; lia]|].
            exists q. rewrite Hother by auto. auto.
        + intros (q & [Hq1 Hq2] & Hq3). destruct (Nat.eq_dec l (Z.to_nat id)) as [->|]; [now left|]. right.
          exists q. rewrite Hother in Hq2 by auto. auto. }
    split.
    { intros [[A1 A2 A3] A4 A5 A6]. 
      assert (Hgid : forall k q, nth_error m k = Some q -> exists q', nth_error (st_mem s) k = Some q' /\ p_gid q' = p_gid q).
      { intros k q Hq. destruct (Nat.eq_dec k (Z.to_nat id)) as [->|].
        - rewrite Hme in Hq. injection Hq as <-. exists p. auto.
        - rewrite Hother in Hq by auto. eauto. }
      constructor; sfields; auto.
      - constructor.
        + intros l q Hq1 Hq2. destruct (Hgid l q Hq2) as (q' & E1 & E2). rewrite <- E2. eauto.
        + intros l l' q q' Hq1 Hq2 Hq3 Hq4 Hg. destruct (Hgid l q Hq3) as (r & E1 & E2). destruct (Hgid l' q' Hq4) as (r' & E3 & E4).
          eapply A2; eauto. congruence.
        + intros k l. unfold map_erase. destruct (Z.eqb_spec k (p_gid p)) as [->|Hne].
          * split; [discriminate|]. intros (q & Hq1 & Hq2 & Hq3 & Hq4). exfalso.
            destruct (Nat.eq_dec l (Z.to_nat id)) as [->|Hll].
            -- rewrite Hme in Hq2. injection Hq2 as <-. unfold alive in Hq3. cbn in Hq3. lia.
            -- rewrite Hother in Hq2 by auto. apply Hll. eapply A2; eauto.
          * rewrite A3. split; intros (q & Hq1 & Hq2 & Hq3 & Hq4); exists q.
            -- rewrite Hother by (intros ->; congruence). auto.
            -- destruct (Nat.eq_dec l (Z.to_nat id)) as [->|Hll].
               ++ rewrite Hme in Hq2. injection Hq2 as <-. unfold alive in Hq3. cbn in Hq3. lia.
               ++ rewrite Hother in Hq2 by auto. auto.
      - intros l q [Hq1 Hq2]. revert Hq1 Hq2. sfields. intros Hq1 Hq2. destruct (Hgid l q Hq2) as (q' & E1 & E2). rewrite <- E2.
        apply (A4 l q'). split; auto. }
    sfields. split; [lia|]. repeat (split; [reflexivity|]). split.
    { intros Hno. exfalso. apply (Hno p); auto. split; auto. }
    intros q [Hq1 Hq2] Hq3. rewrite Ep in Hq2. injection Hq2 as <-. split; [reflexivity|].
    split; [split; sfields; [auto|exact Hme]|]. split; [reflexivity|exact Hother].
Qed.

(* ------------------------------------------------------------------ updates that keep type and id *)
Definition agree (m m' : list part) : Prop := length m' = length m /\
  forall k p, nth_error m k = Some p -> exists p', nth_error m' k = Some p' /\ p_type p' = p_type p /\ p_gid p' = p_gid p.

Lemma agree_count n m m' : agree m m' -> count n m' = count n m.
Proof.
  intros [Hl H]. unfold count.
  assert (E : map aliveb (firstn n m') = map aliveb (firstn n m)).
  { revert n m' Hl H. induction m as [|p m IH]; intros n [|p' m'] Hl H; try discriminate; [reflexivity|].
    destruct n as [|n]; [reflexivity|]. cbn [firstn map].
    destruct (H O p eq_refl) as (q & [= <-] & Ht & _). f_equal; [unfold aliveb; now rewrite Ht|].
    apply IH; [cbn in Hl; lia|]. intros k r Hr. apply (H (S k) r Hr). }
  revert E. generalize (firstn n m') (firstn n m). induction l as [|a l IH]; intros [|b l'] E; try discriminate; [reflexivity|].
  cbn [map] in E. injection E as E1 E2. cbn [filter]. rewrite E1. destruct (aliveb b); cbn [length]; rewrite (IH l' E2); reflexivity.
Qed.

Lemma agree_back m m' : agree m m' -> forall k p', nth_error m' k = Some p' ->
  exists p, nth_error m k = Some p /\ p_type p' = p_type p /\ p_gid p' = p_gid p.
Proof.
  intros [Hl H] k p' Hp'. destruct (nth_error_ex m k) as [p Ep]; [pose proof (nth_error_lt _ _ _ Hp'); lia|].
  destruct (H k p Ep) as (q & Eq & Hq). exists p. split; [auto|]. rewrite Hp' in Eq. injection Eq as <-. auto.
Qed.

Lemma agree_inv s m' : agree (st_mem s) m' -> inv s -> inv (set_mem m' s) /\ (idinv s -> idinv (set_mem m' s)).
Proof.
  intros Hag [Hs Hn Hso Hr]. pose proof (agree_back _ _ Hag) as Hb. pose proof Hag as [Hl Hf]. split.
  - constructor; unfold st_cap in *; sfields; auto; try lia.
    + rewrite (agree_count _ _ _ Hag). exact Hn.
    + intros l. rewrite Hr. unfold at_; sfields. split; intros (p & [H1 H2] & H3).
      * destruct (Hf l p H2) as (q & Eq & Ht & _). exists q. split; [auto|]. unfold alive in *. now rewrite Ht.
      * destruct (Hb l p H2) as (q & Eq & Ht & _). exists q. split; [auto|]. unfold alive in *. now rewrite <- Ht.
  - intros [[A1 A2 A3] A4 A5 A6]. constructor; sfields; auto.
    + constructor.
      * intros l p H1 H2. destruct (Hb l p H2) as (q & Eq & _ & ->). eauto.
      * intros l l' p p' H1 H2 H3 H4 H5. destruct (Hb l p H3) as (q & Eq & _ & Eg). destruct (Hb l' p' H4) as (q' & Eq' & _ & Eg').
        eapply A2; eauto. congruence.
      * intros k l. rewrite A3. split; intros (p & H1 & H2 & H3 & H4).
        -- destruct (Hf l p H2) as (q & Eq & Ht & Eg). exists q. unfold alive in *. rewrite Ht, Eg. auto.
        -- destruct (Hb l p H2) as (q & Eq & Ht & Eg). exists q. unfold alive in *. rewrite <- Ht, <- Eg. auto.
    + intros l p [H1 H2]. revert H1 H2. sfields. intros H1 H2. destruct (Hb l p H2) as (q & Eq & _ & ->). apply (A4 l q). split; auto.
Qed.

Lemma map_first_nth n f m k : nth_error (map_first n f m) k = if (k <? n)%nat then option_map f (nth_error m k) else nth_error m k.
Proof.
  revert n k. induction m as [|p m IH]; intros [|n] k; cbn [map_first].
  - reflexivity.
  - destruct k; cbn [nth_error option_map]; match goal with |- context [if ?b then _ else _] => destruct b end; reflexivity.
  - reflexivity.
  - destruct k as [|k]; [reflexivity|]. cbn [nth_error]. rewrite IH. reflexivity.
Qed.

Lemma map_first_len n f m : length (map_first n f m) = length m.
Proof. revert n. induction m as [|p m IH]; intros [|n]; cbn [map_first length]; auto. Qed.

Lemma map_first_agree n f m : (forall p, p_type (f p) = p_type p /\ p_gid (f p) = p_gid p) -> agree m (map_first n f m).
Proof.
  intros H. split; [apply map_first_len|]. intros k p Hp. rewrite map_first_nth. rewrite Hp. cbn [option_map].
  destruct (k <? n)%nat; eexists; (split; [reflexivity|]); auto.
Qed.

Lemma modify_spec id f s : inv s -> (forall p, p_type (f p) = p_type p /\ p_gid (f p) = p_gid p) ->
  0 <= id -> (Z.to_nat id < st_cap s)%nat ->
  exists s', modify id f s = Some s' /\ inv s' /\ (idinv s -> idinv s') /\ exists m, s' = set_mem m s.
Proof.
  intros I Hf H0 Hc. unfold modify. destruct (Z.ltb_spec id 0); [lia|]. unfold st_cap in *.
  destruct (nth_error_ex (st_mem s) (Z.to_nat id) Hc) as [p Ep]. rewrite Ep.
  destruct (write_spec (Z.to_nat id) (f p) (st_mem s) Hc) as (m & Ew & Hl & Hk). rewrite Ew. eexists. split; [reflexivity|].
  assert (Hag : agree (st_mem s) m).
  { split; [exact Hl|]. intros k q Hq. rewrite Hk. destruct (Nat.eqb_spec k (Z.to_nat id)) as [->|]; [|eauto].
    rewrite Ep in Hq. injection Hq as <-. eexists. split; [reflexivity|]. apply Hf. }
  destruct (agree_inv s m Hag I) as [A B]. split; [exact A|]. split; [exact B|]. eauto.
Qed.
