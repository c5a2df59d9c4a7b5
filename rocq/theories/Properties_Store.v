(* C01-C06, C09, C11: the particle store. *)
From Verif Require Import Lib Model_Store Spec_Store Proofs_Store1 Proofs_Store2 Proofs_Store3 Proofs_Store4 Proofs_Store5
  Proofs_Store6.
From Coq Require Import Permutation ZifyBool ZifyNat.
Local Open Scope Z_scope.

(* Concrete values used in the examples. *)
Definition ex_num (z : Z) : num := Some (inject_Z z).
Definition ex_add (x y : Z) : op := OpAdd [ex_num x; ex_num y] [ex_num 0; ex_num 0] (ex_num 1) (ex_num 1) 0.
Definition ex_empty : store := empty_store 2 0 0 0.
(* 40 particles added one by one, one removed: crosses the first capacity limit of 32. *)
Definition ex_ops : list op := map (fun i => ex_add (Z.of_nat (7 * i mod 41)) (Z.of_nat i)) (seq 0 40) ++ [OpMark 3; OpMark 39; OpRemove].
Fixpoint allowedb_run (ops : list op) (s : store) : option store :=
  match ops with
  | [] => Some s
  | o :: ops' =>
      let ok := match o with
        | OpAddMany n _ => Z.of_nat (st_size s) + n <=? Z.of_nat (st_cap s) + 32
        | OpAdd _ _ _ _ t => 0 <=? t
        | OpMark id | OpSetX id _ | OpSetV id _ | OpSetF id _ | OpSetSgIm id _ _ => (0 <=? id) && (id <? Z.of_nat (st_cap s))
        | OpRemove | OpSort | OpSortAlong => 0 <? st_number s
        | OpRemoveBad b => negb b
        | _ => true end in
      if ok then match step o s with Some s' => allowedb_run ops' s' | None => None end else None
  end.
Lemma allowedb_reach ops s0 s s' : reach s0 s -> allowedb_run ops s = Some s' -> reach s0 s'.
Proof.
  revert s. induction ops as [|o ops IH]; intros s Hr E; cbn [allowedb_run] in E; [injection E as <-; exact Hr|].
  match type of E with (if ?b then _ else _) = _ => destruct b eqn:Eb end; [|discriminate].
  destruct (step o s) as [s1|] eqn:E1; [|discriminate]. apply (IH s1); [|exact E].
  apply reach_step with (s := s) (o := o); auto. destruct o; cbn [allowed]; unfold can_remove; try lia; try exact I;
    destruct do_removal; (discriminate || exact I).
Qed.
Lemma allowedb_reach_ids ops s0 s s' : reach_ids s0 s -> Forall id_op ops -> allowedb_run ops s = Some s' -> reach_ids s0 s'.
Proof.
  revert s. induction ops as [|o ops IH]; intros s Hr Hf E; cbn [allowedb_run] in E; [injection E as <-; exact Hr|].
  inversion Hf; subst.
  match type of E with (if ?b then _ else _) = _ => destruct b eqn:Eb end; [|discriminate].
  destruct (step o s) as [s1|] eqn:E1; [|discriminate]. apply (IH s1); [|assumption|exact E].
  apply reachi_step with (s := s) (o := o); auto. destruct o; cbn [allowed]; unfold can_remove; try lia; try exact I;
    destruct do_removal; (discriminate || exact I).
Qed.

(* ---------- C01: storage bounds ---------- *)

(* Every history of allowed calls from an empty store keeps number() <= size() <= capacity(), and the next allowed call
   never accesses memory outside the arrays. *)
Theorem C01_storage_bounds_partial (dims nev nes nei : nat) (s : store) :
  reach (empty_store dims nev nes nei) s ->
  (0 <= st_number s <= Z.of_nat (st_size s) /\ (st_size s <= st_cap s)%nat) /\
  forall o, allowed s o -> exists s', step o s = Some s'.
Proof.
  intros Hr. pose proof (reach_inv _ _ (proj1 (empty_inv dims nev nes nei)) Hr) as I. split.
  - destruct I as [I1 I2 _ _]. rewrite I2. unfold count.
    assert (H : forall (f : part -> bool) l, (length (filter f l) <= length l)%nat).
    { intros f l. induction l as [|a l IH]; cbn; [lia|]. destruct (f a); cbn; lia. }
    specialize (H aliveb (firstn (st_size s) (st_mem s))). rewrite firstn_length in H. unfold st_cap in *. lia.
  - intros o Ho. destruct (step_ok o s I Ho) as (s' & E & _). eauto.
Qed.
Print Assumptions C01_storage_bounds_partial.

(* Adding one particle (either call) is safe in every reachable store, and grows size() and number() by one. *)
Theorem C01_add_one_always_safe (dims nev nes nei : nat) (s : store) (x v : list num) (sg im : num) (t : Z) (ids : bool) :
  reach (empty_store dims nev nes nei) s -> 0 <= t ->
  (exists s', addParticle x v sg im t s = Some (Z.of_nat (st_size s), s') /\ st_size s' = S (st_size s)) /\
  (exists s', addParticles 1 ids s = Some (Z.of_nat (st_size s), s') /\ st_size s' = S (st_size s)).
Proof.
  intros Hr Ht. pose proof (reach_inv _ _ (proj1 (empty_inv dims nev nes nei)) Hr) as I. split.
  - destruct (addParticle_inv x v sg im t s I Ht) as (s' & E & _ & _ & _ & Hs & _). eauto.
  - destruct (addParticles 1 ids s) as [[a s']|] eqn:E.
    + rewrite addParticles_unfold in E by lia. destruct (add_loop (Z.to_nat 1) ids (grown 1 s)) as [s2|] eqn:E2; [|discriminate].
      destruct (grown_inv 1 s ltac:(lia) I) as (I1 & _ & _ & S1 & _).
      destruct (add_loop_inv _ _ _ _ I1 E2) as (_ & S2 & _). injection E as <- <-. exists s2. split; [reflexivity|]. lia.
    + exfalso. apply (addParticles_safe 1 ids s I ltac:(lia)) in E. pose proof (inv_size s I). lia.
Qed.
Print Assumptions C01_add_one_always_safe.

(* A bulk add writes outside the arrays exactly when it goes more than 32 beyond the capacity. *)
Theorem C01_bulk_add_safe_iff (dims nev nes nei : nat) (s : store) (n : Z) (ids : bool) :
  reach (empty_store dims nev nes nei) s -> 0 < n ->
  ((exists r, addParticles n ids s = Some r) <-> Z.of_nat (st_size s) + n <= Z.of_nat (st_cap s) + 32).
Proof.
  intros Hr Hn. pose proof (reach_inv _ _ (proj1 (empty_inv dims nev nes nei)) Hr) as I.
  pose proof (addParticles_safe n ids s I Hn) as H. destruct (addParticles n ids s) as [r|].
  - split; [intros _|intros _; eauto]. destruct (Z.le_gt_cases (Z.of_nat (st_size s) + n) (Z.of_nat (st_cap s) + 32)); auto.
    exfalso. assert (Z.of_nat (st_cap s) + 32 < Z.of_nat (st_size s) + n) by lia. apply H in H1. discriminate.
  - split; [intros [r E]; discriminate|]. intros Hle. assert (Z.of_nat (st_cap s) + 32 < Z.of_nat (st_size s) + n) by now apply H. lia.
Qed.
Print Assumptions C01_bulk_add_safe_iff.

(* The claim itself is false: adding 33 particles to an empty store writes out of bounds. *)
Theorem C01_bulk_add_refuted : addParticles 33 true ex_empty = None /\ addParticles 32 true ex_empty <> None.
Proof. split; [vm_compute; reflexivity|vm_compute; discriminate]. Qed.
Print Assumptions C01_bulk_add_refuted.

(* After reserve(n) the store holds no particles and has room for n. *)
Theorem C01_reserve (n : Z) (junk : nat -> part) (s : store) :
  0 < n -> 0 <= st_number s -> let s' := reserve n junk s in st_number s' = 0 /\ n <= Z.of_nat (st_cap s').
Proof.
  intros Hn H0 s'. unfold s', reserve. destruct (Z.ltb_spec 0 (st_number s)); destruct (Z.ltb_spec (Z.of_nat (st_cap s)) n); cbn [orb].
  4: lia.
  all: destruct (Z.leb_spec n 0); [lia|]; cbn; split; [auto|]; unfold st_cap; cbn;
    rewrite app_length, repeat_length; lia.
Qed.
Print Assumptions C01_reserve.

Example C01_hypotheses_met : exists s, reach ex_empty s /\ st_size s = 38%nat /\ st_number s = 38 /\ st_cap s = 64%nat /\
  allowed s (OpAddMany 58 true) /\ ~ allowed s (OpAddMany 59 true).
Proof.
  destruct (allowedb_run ex_ops ex_empty) as [s|] eqn:E; [|vm_compute in E; discriminate].
  exists s. split; [eapply allowedb_reach; [apply reach_start|exact E]|]. vm_compute in E. injection E as <-.
  repeat split; try reflexivity; vm_compute; congruence.
Qed.

(* ---------- C02: global id lookup ---------- *)

(* Exact in every store reached by calls that assign ids in the normal way. *)
Theorem C02_lookup_exact_partial (dims nev nes nei : nat) (s : store) :
  reach_ids (empty_store dims nev nes nei) s -> lookup_exact s.
Proof.
  intros Hr. destruct (empty_inv dims nev nes nei) as [I0 H0]. apply exact_of_ids.
  apply (proj2 (reach_ids_inv _ _ I0 H0 Hr)).
Qed.
Print Assumptions C02_lookup_exact_partial.

(* Shifting the ids by a non-negative amount keeps the lookup exact. *)
Theorem C02_shift_partial (dims nev nes nei : nat) (s : store) (k : Z) :
  reach_ids (empty_store dims nev nes nei) s -> 0 <= k ->
  lookup_exact (shift_global_ids k s) /\ forall g, getLocalID (g + k) (shift_global_ids k s) = getLocalID g s.
Proof.
  intros Hr Hk. destruct (empty_inv dims nev nes nei) as [I0 H0].
  destruct (reach_ids_inv _ _ I0 H0 Hr) as [I Hid]. split.
  - apply exact_of_ids. apply (shift_ids k s Hk (idi_ok _ Hid)).
  - intros g. unfold getLocalID, shift_global_ids, set_memmap, map_shift. cbn. now rewrite Z.add_simpl_r.
Qed.
Print Assumptions C02_shift_partial.

(* The claim is false for arbitrary histories: after a shift the next id assigned can be one already in use. *)
Theorem C02_lookup_after_shift_refuted : exists s,
  run [OpAddMany 2 true; OpShift 1; OpAddMany 1 true] ex_empty = Some s /\ ~ lookup_exact s.
Proof.
  eexists. split; [vm_compute; reflexivity|]. intros H. destruct (H 2 2%nat) as [H1 _].
  assert (E : getLocalID 2 (mkStore 2 0 0 0 (st_mem ex_empty) 0 0 (fun _ => None) [] 0 1 false false) = -1) by reflexivity.
  clear E. assert (X : Z.of_nat 1 = Z.of_nat 2); [|discriminate].
  transitivity (getLocalID 2 (match run [OpAddMany 2 true; OpShift 1; OpAddMany 1 true] ex_empty with Some s => s | None => ex_empty end)).
  - vm_compute. reflexivity.
  - refine (proj2 H1 _). eexists. split; [split; [|reflexivity]|]; cbn; [lia|]. split; [unfold alive; cbn; lia|reflexivity].
Qed.
Print Assumptions C02_lookup_after_shift_refuted.

(* And reserve() empties the store but leaves the old lookup table. *)
Theorem C02_lookup_after_reserve_refuted : exists s junk,
  run [OpAddMany 2 true] ex_empty = Some s /\ st_size (reserve 10 junk s) = 0%nat /\ getLocalID 1 (reserve 10 junk s) = 1 /\
  ~ lookup_exact (reserve 10 junk s).
Proof.
  eexists. exists (fun _ => blank ex_empty). split; [vm_compute; reflexivity|]. split; [reflexivity|]. split; [reflexivity|].
  intros H. destruct (H 1 1%nat) as [H1 _]. destruct (proj1 H1 eq_refl) as (p & [Hp _] & _). cbn in Hp. lia.
Qed.
Print Assumptions C02_lookup_after_reserve_refuted.

Example C02_hypotheses_met : exists s, reach_ids ex_empty s /\ st_size s = 38%nat /\
  getLocalID 4 s = 2 /\ getLocalID 76 s = 3 /\ getLocalID 78 s = -1 /\ getLocalID 5 s = -1.
Proof.
  destruct (allowedb_run ex_ops ex_empty) as [s|] eqn:E; [|vm_compute in E; discriminate].
  exists s. split.
  - eapply allowedb_reach_ids; [apply reachi_start| |exact E]. unfold ex_ops, ex_add. rewrite Forall_forall. intros o Ho.
    apply in_app_or in Ho as [Ho|Ho].
    + apply in_map_iff in Ho as (i & <- & _). exact I.
    + cbn in Ho. destruct Ho as [<-|[<-|[<-|[]]]]; exact I.
  - vm_compute in E. injection E as <-. repeat split; vm_compute; reflexivity.
Qed.

(* ---------- C03: ids are never reused ---------- *)

(* All the ids handed out by a history of allowed calls are different, also from those of removed particles. *)
Theorem C03_ids_never_reused (dims nev nes nei : nat) (ops : list op) :
  allowed_history ops (empty_store dims nev nes nei) -> NoDup (issued ops (empty_store dims nev nes nei)).
Proof.
  intros H. destruct (empty_inv dims nev nes nei) as [I0 H0].
  apply (issued_nodup ops _ I0); [cbn; lia|exact H].
Qed.
Print Assumptions C03_ids_never_reused.

(* After the creator's correction this is false, even with one processor: three particles added with data have the ids
   0, 2, 4; the correction sets the next id to 4. *)
Theorem C03_after_correction_refuted : exists s s', run [ex_add 1 1; ex_add 2 2; ex_add 3 3] ex_empty = Some s /\
  step (OpAddMany 1 true) (correct_global_ids 0 [st_size s] s) = Some s' /\
  exists p q, at_ s' 2 p /\ at_ s' 3 q /\ p_gid p = 4 /\ p_gid q = 4.
Proof.
  eexists. eexists. split; [vm_compute; reflexivity|]. split; [vm_compute; reflexivity|].
  eexists. eexists. split; [split; [|vm_compute; reflexivity]; cbn; lia|]. split; [split; [|vm_compute; reflexivity]; cbn; lia|].
  split; reflexivity.
Qed.
Print Assumptions C03_after_correction_refuted.

Definition ex_history : list op := [OpAddMany 3 true; OpMark 1; OpRemove; ex_add 1 2; OpAddMany 2 true].
Example C03_hypotheses_met : allowed_history ex_history ex_empty /\ issued ex_history ex_empty = [0; 1; 2; 3; 5; 6].
Proof. split; [|vm_compute; reflexivity]. unfold ex_history. vm_compute. repeat split; try discriminate; right; reflexivity. Qed.

(* ---------- C04: removal ---------- *)

Lemma particles_length s : inv s -> st_number s = Z.of_nat (length (particles s)).
Proof. intros I. apply inv_number. exact I. Qed.

(* Marking any list of local ids (in any order, with repetitions, dead ones included) and then removing leaves exactly
   the other alive particles, unchanged, packed at 0..number()-1, provided at least one particle is left. *)
Theorem C04_removes_exactly_marked_partial (dims nev nes nei : nat) (s : store) (ids : list Z) :
  reach (empty_store dims nev nes nei) s -> (forall id, In id ids -> 0 <= id < Z.of_nat (st_size s)) ->
  others ids s <> [] ->
  exists s1 s2, run (mark_all ids) s = Some s1 /\ doParticleRemoval s1 = Some s2 /\
    Permutation (others ids s) (firstn (st_size s2) (st_mem s2)) /\
    st_size s2 = length (others ids s) /\ st_number s2 = Z.of_nat (st_size s2).
Proof.
  intros Hr Hids Hne. pose proof (reach_inv _ _ (proj1 (empty_inv dims nev nes nei)) Hr) as I.
  destruct (marks_spec ids s I Hids) as (s1 & E1 & I1 & S1 & M1).
  pose proof (others_marked ids s s1 I S1 M1) as P1.
  assert (H0 : 0 < st_number s1). { rewrite particles_length, P1 by exact I1. destruct (others ids s); [congruence|cbn; lia]. }
  destruct (removal_spec s1 I1 (or_intror H0)) as (s2 & E2 & I2 & R2 & Sz & N2 & C2 & F2 & Pm & _).
  exists s1, s2. rewrite P1 in Pm. rewrite F2. split; [exact E1|]. split; [exact E2|]. split; [exact Pm|].
  pose proof (particles_length s2 I2) as L2. rewrite <- (Permutation_length Pm) in L2. split; lia.
Qed.
Print Assumptions C04_removes_exactly_marked_partial.

(* Without any marks (and none pending) removal changes nothing at all. *)
Theorem C04_nothing_marked (s : store) : st_rm s = [] -> doParticleRemoval s = Some s.
Proof. intros H. unfold doParticleRemoval. now rewrite H. Qed.
Print Assumptions C04_nothing_marked.

(* The restriction is needed: removing all particles reads before the beginning of the arrays. *)
Theorem C04_remove_all_refuted : run [OpAddMany 2 true; OpMark 0; OpMark 1; OpRemove] ex_empty = None.
Proof. vm_compute. reflexivity. Qed.
Print Assumptions C04_remove_all_refuted.

Example C04_hypotheses_met : exists s, reach ex_empty s /\ st_size s = 38%nat /\
  length (others [37; 0; 5; 36; 5] s) = 34%nat.
Proof.
  destruct (allowedb_run ex_ops ex_empty) as [s|] eqn:E; [|vm_compute in E; discriminate].
  exists s. split; [eapply allowedb_reach; [apply reach_start|exact E]|]. vm_compute in E. injection E as <-.
  split; vm_compute; reflexivity.
Qed.

(* ---------- C05: marking ---------- *)

Theorem C05_mark_idempotent_and_local (dims nev nes nei : nat) (s : store) (id : Z) :
  reach (empty_store dims nev nes nei) s -> 0 <= id < Z.of_nat (st_cap s) ->
  exists s1, markForRemoval id s = Some s1 /\ markForRemoval id s1 = Some s1 /\ st_size s1 = st_size s /\
    ((forall p, at_ s (Z.to_nat id) p -> ~ alive p) -> s1 = s) /\
    (forall p, at_ s (Z.to_nat id) p -> alive p ->
      st_number s1 = st_number s - 1 /\ (exists p', at_ s1 (Z.to_nat id) p' /\ ~ alive p') /\
      forall k q, k <> Z.to_nat id -> (at_ s1 k q <-> at_ s k q)).
Proof.
  intros Hr Hid. pose proof (reach_inv _ _ (proj1 (empty_inv dims nev nes nei)) Hr) as I.
  destruct (mark_spec id s I ltac:(lia) ltac:(lia)) as (s1 & E1 & I1 & _ & C1 & S1 & _ & _ & _ & D1 & A1).
  destruct (mark_spec id s1 I1 ltac:(lia) ltac:(lia)) as (s2 & E2 & _ & _ & _ & _ & _ & _ & _ & D2 & _).
  assert (Hdead : forall p, at_ s1 (Z.to_nat id) p -> ~ alive p).
  { intros p Hp. unfold st_cap in *. destruct (nth_error_ex (st_mem s) (Z.to_nat id) ltac:(lia)) as [q Eq].
    destruct (Nat.lt_ge_cases (Z.to_nat id) (st_size s)) as [Hs|Hs].
    2:{ destruct Hp. lia. }
    destruct (aliveb q) eqn:Ea.
    - apply aliveb_spec in Ea. destruct (A1 q (conj Hs Eq) Ea) as (_ & [_ M] & _). destruct Hp as [_ Hp].
      rewrite M in Hp. injection Hp as <-. unfold alive, marked. cbn. lia.
    - rewrite D1 in Hp.
      + destruct Hp as [_ Hp]. rewrite Eq in Hp. injection Hp as <-. intros Ha. apply aliveb_spec in Ha. congruence.
      + intros q' [_ Hq'] Ha. rewrite Eq in Hq'. injection Hq' as <-. apply aliveb_spec in Ha. congruence. }
  exists s1. split; [exact E1|]. split; [rewrite E2; f_equal; now apply D2|]. split; [exact S1|]. split; [exact D1|].
  intros p Hp Ha. destruct (A1 p Hp Ha) as (N & M & _ & O). split; [exact N|].
  split; [exists (marked p); split; [exact M|now apply Hdead]|].
  intros k q Hk. unfold at_. rewrite S1, O by exact Hk. tauto.
Qed.
Print Assumptions C05_mark_idempotent_and_local.

(* The effect of any sequence of marks depends only on the set of ids: order and repetitions do not matter. *)
Theorem C05_order_irrelevant (dims nev nes nei : nat) (s : store) (ids ids' : list Z) :
  reach (empty_store dims nev nes nei) s -> (forall id, In id ids -> 0 <= id < Z.of_nat (st_size s)) ->
  (forall id, In id ids <-> In id ids') ->
  exists s1 s2, run (mark_all ids) s = Some s1 /\ run (mark_all ids') s = Some s2 /\
    st_size s1 = st_size s2 /\ st_number s1 = st_number s2 /\ (forall k p, at_ s1 k p <-> at_ s2 k p) /\
    st_number s1 = Z.of_nat (length (others ids s)).
Proof.
  intros Hr Hids Heq. pose proof (reach_inv _ _ (proj1 (empty_inv dims nev nes nei)) Hr) as I.
  destruct (marks_spec ids s I Hids) as (s1 & E1 & I1 & S1 & M1).
  destruct (marks_spec ids' s I) as (s2 & E2 & I2 & S2 & M2). { intros id Hi. apply Hids. now apply Heq. }
  assert (Hex : forall k, existsb (Z.eqb (Z.of_nat k)) ids = existsb (Z.eqb (Z.of_nat k)) ids').
  { intros k. apply eq_true_iff_eq. rewrite !existsb_exists. split; intros (x & Hx & E); exists x; split; auto; now apply Heq. }
  assert (Hat : forall k p, at_ s1 k p <-> at_ s2 k p).
  { intros k p. unfold at_. rewrite S1, S2. split; intros [Hk E]; split; auto.
    - rewrite M1 in E by auto. rewrite M2 by auto. now rewrite <- Hex.
    - rewrite M2 in E by auto. rewrite M1 by auto. now rewrite Hex. }
  exists s1, s2. split; [exact E1|]. split; [exact E2|]. split; [congruence|].
  pose proof (others_marked ids s s1 I S1 M1) as P1.
  split; [|split; [exact Hat|rewrite particles_length by exact I1; now rewrite P1]].
  rewrite !particles_length by assumption. f_equal. rewrite P1.
  rewrite <- (others_marked ids s s2 I S2); [reflexivity|]. intros k Hk. rewrite M2 by auto. now rewrite Hex.
Qed.
Print Assumptions C05_order_irrelevant.

(* An id at or beyond the capacity is not "without effect": Type(id) is read before the check. *)
Theorem C05_invalid_id_refuted : exists s, run [OpAddMany 2 true] ex_empty = Some s /\ markForRemoval 40 s = None /\
  markForRemoval (-1) s = None.
Proof. eexists. split; [vm_compute; reflexivity|]. split; reflexivity. Qed.
Print Assumptions C05_invalid_id_refuted.

Example C05_hypotheses_met : exists s p, reach ex_empty s /\ at_ s 37 p /\ alive p /\ 37 < Z.of_nat (st_cap s).
Proof.
  destruct (allowedb_run ex_ops ex_empty) as [s|] eqn:E; [|vm_compute in E; discriminate].
  assert (Hr : reach ex_empty s) by (eapply allowedb_reach; [apply reach_start|exact E]). vm_compute in E.
  injection E as <-. eexists. eexists. split; [exact Hr|]. split; [split; [cbn; lia|vm_compute; reflexivity]|].
  split; [unfold alive; cbn; lia|vm_compute; reflexivity].
Qed.

(* ---------- C06: sorting ---------- *)

(* sortParticles(Vec&): "for now" always along x. *)
Theorem C06_sort_along_x_partial (dims nev nes nei : nat) (s : store) :
  reach_ids (empty_store dims nev nes nei) s -> can_remove s -> (0 < st_dims s)%nat ->
  (forall l p, at_ s l p -> alive p -> coord p 0 <> None) ->
  exists s', sortParticles_along s = Some s' /\
    Permutation (particles s) (firstn (st_size s') (st_mem s')) /\ sorted_along 0 (st_size s') (st_mem s') /\
    lookup_exact s' /\ st_number s' = st_number s.
Proof.
  intros Hr Hc Hd Hx. destruct (empty_inv dims nev nes nei) as [I0 H0]. destruct (reach_ids_inv _ _ I0 H0 Hr) as [I Hid].
  destruct (sort_along_spec s I Hc) as (s' & E & (I' & Hid' & Pm & _ & _ & N & _ & F & _) & Hs).
  exists s'. rewrite F. split; [exact E|]. split; [exact Pm|]. split; [now apply Hs|]. split; [|exact N].
  apply exact_of_ids, (Hid' Hid).
Qed.
Print Assumptions C06_sort_along_x_partial.

(* sortParticles(): terminates without leaving the arrays, permutes, keeps the lookup exact. *)
Theorem C06_sort_permutes_partial (dims nev nes nei : nat) (s : store) :
  reach_ids (empty_store dims nev nes nei) s -> can_remove s ->
  exists s', sortParticles s = Some s' /\ Permutation (particles s) (firstn (st_size s') (st_mem s')) /\
    lookup_exact s' /\ st_number s' = st_number s.
Proof.
  intros Hr Hc. destruct (empty_inv dims nev nes nei) as [I0 H0]. destruct (reach_ids_inv _ _ I0 H0 Hr) as [I Hid].
  destruct (sort_spec s I Hc) as (s' & E & (I' & Hid' & Pm & _ & _ & N & _ & F & _)).
  exists s'. rewrite F. split; [exact E|]. split; [exact Pm|]. split; [|exact N]. apply exact_of_ids, (Hid' Hid).
Qed.
Print Assumptions C06_sort_permutes_partial.

(* sortParticles() does not leave the particles in order of x, nor of any other axis: with 56 particles at (i, -i) it
   sorts the first 55 in bins of 11 by y. *)
Definition ex_line : list op := map (fun i => ex_add (Z.of_nat i) (- Z.of_nat i)) (seq 0 56).
Definition num_leb (a b : num) : bool := match a, b with Some p, Some q => Qle_bool p q | _, _ => false end.
Fixpoint sortedb (dim : nat) (m : list part) : bool :=
  match m with
  | p :: ((q :: _) as m') => num_leb (coord p dim) (coord q dim) && sortedb dim m'
  | _ => true
  end.
Theorem C06_sort_order_refuted : exists s s', run ex_line ex_empty = Some s /\ sortedb 0 (firstn 56 (st_mem s)) = true /\
  sortParticles s = Some s' /\ ~ sorted_along 0 (st_size s') (st_mem s') /\ ~ sorted_along 1 (st_size s') (st_mem s').
Proof.
  destruct (run ex_line ex_empty) as [s|] eqn:E; [|vm_compute in E; discriminate].
  destruct (sortParticles s) as [s'|] eqn:E'.
  2:{ exfalso. vm_compute in E. injection E as <-. vm_compute in E'. discriminate. }
  exists s, s'. split; [reflexivity|]. split; [vm_compute in E; injection E as <-; vm_compute; reflexivity|]. split; [exact E'|].
  vm_compute in E. injection E as <-. vm_compute in E'. injection E' as <-. split.
  - intros H. destruct (H 0%nat 1%nat _ _ ltac:(vm_compute; lia) eq_refl eq_refl) as (a & b & Ha & Hb & Hab).
    vm_compute in Ha, Hb. injection Ha as <-. injection Hb as <-. vm_compute in Hab. congruence.
  - intros H. destruct (H 10%nat 11%nat _ _ ltac:(vm_compute; lia) eq_refl eq_refl) as (a & b & Ha & Hb & Hab).
    vm_compute in Ha, Hb. injection Ha as <-. injection Hb as <-.
    vm_compute in Hab. congruence.
Qed.
Print Assumptions C06_sort_order_refuted.

Example C06_hypotheses_met : exists s s', reach_ids ex_empty s /\ can_remove s /\ st_dims s = 2%nat /\
  sortedb 0 (firstn 38 (st_mem s)) = false /\ sortParticles_along s = Some s' /\ sortedb 0 (firstn 38 (st_mem s')) = true.
Proof.
  destruct (allowedb_run ex_ops ex_empty) as [s|] eqn:E; [|vm_compute in E; discriminate].
  destruct (sortParticles_along s) as [s'|] eqn:E'.
  2:{ exfalso. vm_compute in E. injection E as <-. vm_compute in E'. discriminate. }
  exists s, s'. split.
  - eapply allowedb_reach_ids; [apply reachi_start| |exact E]. unfold ex_ops, ex_add. rewrite Forall_forall. intros o Ho.
    apply in_app_or in Ho as [Ho|Ho].
    + apply in_map_iff in Ho as (i & <- & _). exact I.
    + cbn in Ho. destruct Ho as [<-|[<-|[<-|[]]]]; exact I.
  - vm_compute in E. injection E as <-. vm_compute in E'. injection E' as <-.
    split; [left; reflexivity|]. repeat split; vm_compute; reflexivity.
Qed.

(* ---------- C09: ids are unique across processors ---------- *)

(* Processors filled by default adds, corrected by the creator, then used with any calls that only add default
   particles: two particles of the whole system with the same id are the same particle. *)
Theorem C09_ids_unique_across_processors_partial (dims nev nes nei : nat) (built procs : list store) :
  length procs = length built ->
  (forall r s, nth_error built r = Some s -> exists ks, run (add_ops ks) (empty_store dims nev nes nei) = Some s) ->
  (forall r s0 s, nth_error built r = Some s0 -> nth_error procs r = Some s ->
    reach_default (correct_global_ids r (map st_size built) s0) s) ->
  forall r r' s s' l l' p p', nth_error procs r = Some s -> nth_error procs r' = Some s' ->
    at_ s l p -> at_ s' l' p' -> alive p -> alive p' -> p_gid p = p_gid p' -> r = r' /\ l = l'.
Proof.
  intros Hlen Hb Hp.
  assert (Hz : forall r s, nth_error procs r = Some s -> exists n, nth_error (map st_size built) r = Some n /\
    idinv s /\ forall l p, at_ s l p -> alive p -> zone r (map st_size built) n (p_gid p)).
  { intros r s Hs. assert (Hr : (r < length built)%nat) by (rewrite <- Hlen; apply nth_error_Some; congruence).
    destruct (nth_error_ex built r Hr) as [s0 E0]. destruct (Hb r s0 E0) as [ks Ek]. specialize (Hp r s0 s E0 Hs).
    destruct (empty_inv dims nev nes nei) as [I0 H0].
    destruct (adds_spec ks _ _ I0 H0 eq_refl eq_refl eq_refl ltac:(intros p [])  Ek) as (I1 & Hid1 & R1 & P1).
    assert (En : nth_error (map st_size built) r = Some (st_size s0)) by now apply map_nth_error.
    exists (st_size s0). split; [exact En|].
    destruct (correct_spec r (map st_size built) s0 (st_size s0) I1 Hid1 P1 En eq_refl) as (I2 & Hid2 & N2 & D2 & P2).
    { intros l p [Hl El]. apply P1. apply filter_In. split; [apply nth_error_In with (n := l); rewrite nth_error_firstn_lt; auto|].
      apply aliveb_spec. destruct (aliveb p) eqn:Ea; [now apply aliveb_spec|]. exfalso.
      assert (In l (st_rm s0)); [|rewrite R1 in H; destruct H]. apply (inv_rm _ I1). exists p. split; [split; auto|].
      intros Ha. apply aliveb_spec in Ha. congruence. }
    destruct (zone_reach r (map st_size built) (st_size s0) _ s I2 Hid2) as (I3 & Hid3 & P3); auto.
    - exists 0. split; [lia|]. rewrite N2. lia.
    - rewrite map_length. lia.
    - split; [exact Hid3|]. intros l p [Hl El] Ha. apply P3. apply filter_In.
      split; [apply nth_error_In with (n := l); rewrite nth_error_firstn_lt; auto|]. now apply aliveb_spec. }
  intros r r' s s' l l' p p' Hs Hs' Hl Hl' Ha Ha' Eg.
  destruct (Hz r s Hs) as (n & Hn & Hid & Hzs). destruct (Hz r' s' Hs') as (n' & Hn' & Hid' & Hzs').
  destruct (Nat.lt_trichotomy r r') as [Hlt|[->|Hlt]].
  - exfalso. apply (zone_disjoint r r' _ n n' (p_gid p) Hlt Hn Hn'); [now apply (Hzs l)|rewrite Eg; now apply (Hzs' l')].
  - split; [reflexivity|]. rewrite Hs in Hs'. injection Hs' as <-. destruct Hl, Hl'.
    now apply (ids_unique _ _ _ (idi_ok _ Hid)) with (p := p) (p' := p').
  - exfalso. apply (zone_disjoint r' r _ n' n (p_gid p) Hlt Hn' Hn); [rewrite Eg; now apply (Hzs' l')|now apply (Hzs l)].
Qed.
Print Assumptions C09_ids_unique_across_processors_partial.

(* False if particles are added together with their data (the call the creators use): ids 0, 2 on processor 0 and
   0, 2 shifted by 2 on processor 1. *)
Theorem C09_added_with_data_refuted : exists s0 s1, run [ex_add 1 1; ex_add 2 2] ex_empty = Some s0 /\
  run [ex_add 3 3; ex_add 4 4] ex_empty = Some s1 /\
  exists p q, at_ (correct_global_ids 0 [2%nat; 2%nat] s0) 1 p /\ at_ (correct_global_ids 1 [2%nat; 2%nat] s1) 0 q /\
    alive p /\ alive q /\ p_gid p = p_gid q.
Proof.
  eexists. eexists. split; [vm_compute; reflexivity|]. split; [vm_compute; reflexivity|]. eexists. eexists.
  split; [split; [cbn; lia|vm_compute; reflexivity]|]. split; [split; [cbn; lia|vm_compute; reflexivity]|].
  split; [unfold alive; cbn; lia|]. split; [unfold alive; cbn; lia|reflexivity].
Qed.
Print Assumptions C09_added_with_data_refuted.

(* False if particles are removed before the correction: sizes shrink, ids do not. *)
Theorem C09_removal_before_refuted : exists s0 s1, run [OpAddMany 3 true; OpMark 0; OpRemove] ex_empty = Some s0 /\
  run [OpAddMany 1 true] ex_empty = Some s1 /\
  exists p q, at_ (correct_global_ids 0 [2%nat; 1%nat] s0) 0 p /\ at_ (correct_global_ids 1 [2%nat; 1%nat] s1) 0 q /\
    alive p /\ alive q /\ p_gid p = p_gid q.
Proof.
  eexists. eexists. split; [vm_compute; reflexivity|]. split; [vm_compute; reflexivity|]. eexists. eexists.
  split; [split; [cbn; lia|vm_compute; reflexivity]|]. split; [split; [cbn; lia|vm_compute; reflexivity]|].
  split; [unfold alive; cbn; lia|]. split; [unfold alive; cbn; lia|reflexivity].
Qed.
Print Assumptions C09_removal_before_refuted.

Example C09_hypotheses_met : exists s0 s1 t0 t1, run (add_ops [2; 1]) ex_empty = Some s0 /\ run (add_ops [4]) ex_empty = Some s1 /\
  reach_default (correct_global_ids 0 (map st_size [s0; s1]) s0) t0 /\
  reach_default (correct_global_ids 1 (map st_size [s0; s1]) s1) t1 /\
  map p_gid (firstn 5 (st_mem t0)) = [0; 1; 2; 8; 10] /\ map p_gid (firstn 5 (st_mem t1)) = [3; 4; 5; 6; 9].
Proof.
  do 4 eexists. split; [vm_compute; reflexivity|]. split; [vm_compute; reflexivity|].
  split; [eapply reachd_step with (o := OpAddMany 2 true); [apply reachd_start|reflexivity|vm_compute; discriminate|vm_compute; reflexivity]|].
  split; [eapply reachd_step with (o := OpAddMany 1 true); [apply reachd_start|reflexivity|vm_compute; discriminate|vm_compute; reflexivity]|].
  split; vm_compute; reflexivity.
Qed.

(* ---------- C11: bad particles ---------- *)

(* With removal: if it reports bad particles, exactly the alive particles without NaN in position or velocity remain;
   if it reports none, there was none and nothing changed. *)
Theorem C11_bad_particles_removed_partial (dims nev nes nei : nat) (s : store) :
  reach (empty_store dims nev nes nei) s -> allowed s (OpRemoveBad true) ->
  exists r s', removeBadParticles true s = Some (r, s') /\
    (r = true <-> exists k p, at_ s k p /\ has_nan p) /\
    Permutation (particles s') (filter (fun p => negb (has_nanb p)) (particles s)) /\
    (r = false -> forall k p, at_ s' k p <-> at_ s k p).
Proof.
  intros Hr Ha. pose proof (reach_inv _ _ (proj1 (empty_inv dims nev nes nei)) Hr) as I.
  destruct (remove_bad_step true s I Ha) as (r & s' & E & Er & I' & _ & Hf & Ht). exists r, s'. split; [exact E|].
  assert (Hiff' : r = true <-> exists k p, at_ s k p /\ has_nan p).
  { rewrite Er, existsb_exists. split.
    - intros (p & Hp & Hb). apply In_firstn_nth in Hp as (k & Hk & Ek). exists k, p. split; [split; auto|].
      rewrite <- has_nanb_spec, <- bad_has_nanb. exact Hb.
    - intros (k & p & [Hk Ek] & Hb). exists p. split; [apply nth_error_In with (n := k); rewrite nth_error_firstn_lt; auto|].
      rewrite bad_has_nanb, has_nanb_spec. exact Hb. }
  split; [exact Hiff'|].
  assert (Hfb : filter (fun p => negb (has_nanb p)) (particles s) = filter (fun p => negb (bad p)) (particles s)).
  { apply filter_ext. intros p. now rewrite bad_has_nanb. }
  rewrite Hfb. clear Hfb Hiff'.
  assert (Hiff : r = true <-> exists k p, at_ s k p /\ bad p = true).
  { rewrite Er, existsb_exists. split.
    - intros (p & Hp & Hb). apply In_firstn_nth in Hp as (k & Hk & Ek). exists k, p. split; [split; auto|auto].
    - intros (k & p & [Hk Ek] & Hb). exists p. split; [|auto]. apply nth_error_In with (n := k). rewrite nth_error_firstn_lt; auto. }
  destruct r.
  - split; [apply Ht; auto|discriminate].
  - destruct (Hf (or_intror eq_refl)) as [Hsz Hat].
    assert (Hat' : forall k p, at_ s' k p <-> at_ s k p).
    { assert (Hnb : forall k q, at_ s k q -> bad q = false).
      { intros k q Hq. destruct (bad q) eqn:Eb; [|reflexivity]. assert (false = true) by (apply Hiff; eauto). discriminate. }
      intros k p. rewrite Hat. split.
      - intros (q & Hq & ->). unfold if_bad. rewrite (Hnb k q Hq). exact Hq.
      - intros Hp. exists p. split; [exact Hp|]. unfold if_bad. now rewrite (Hnb k p Hp). }
    split; [|intros _; exact Hat'].
    assert (Ef : firstn (st_size s') (st_mem s') = firstn (st_size s) (st_mem s)).
    { rewrite Hsz. apply firstn_agree. intros k Hk. pose proof (inv_size _ I) as Hc. unfold st_cap in Hc.
      destruct (nth_error_ex (st_mem s) k ltac:(lia)) as [p Ep]. rewrite Ep. apply (Hat' k p). split; auto. }
    unfold particles. rewrite Ef. rewrite (filter_all (fun p => negb (bad p))); [apply Permutation_refl|].
    intros p Hp. apply filter_In in Hp as [Hp _]. apply In_firstn_nth in Hp as (k & Hk & Ek).
    destruct (bad p) eqn:Eb; [|reflexivity]. assert (false = true); [|discriminate]. apply Hiff. exists k, p. split; [split; auto|auto].
Qed.
Print Assumptions C11_bad_particles_removed_partial.

(* Without removal: the bad alive particles are only marked, the others are untouched. *)
Theorem C11_bad_particles_marked (dims nev nes nei : nat) (s : store) :
  reach (empty_store dims nev nes nei) s ->
  exists r s', removeBadParticles false s = Some (r, s') /\ st_size s' = st_size s /\
    forall k p, at_ s k p -> (~ has_nan p \/ ~ alive p -> at_ s' k p) /\ (has_nan p -> exists p', at_ s' k p' /\ ~ alive p').
Proof.
  intros Hr. pose proof (reach_inv _ _ (proj1 (empty_inv dims nev nes nei)) Hr) as I.
  destruct (remove_bad_step false s I (Logic.I)) as (r & s' & E & Er & I' & _ & Hf & Ht). exists r, s'. split; [exact E|].
  destruct (Hf (or_introl eq_refl)) as [Hsz Hat]. split; [exact Hsz|]. intros k p Hp. split.
  - intros H. apply Hat. exists p. split; [exact Hp|]. unfold if_bad. destruct H as [H|H]; [apply not_has_nan in H; now rewrite H|].
    destruct (aliveb p) eqn:Ea; [apply aliveb_spec in Ea; contradiction|]. now rewrite andb_false_r.
  - intros Hb. rewrite <- has_nanb_spec, <- bad_has_nanb in Hb. destruct (aliveb p) eqn:Ea.
    + exists (marked p). split; [apply Hat; exists p; split; [exact Hp|unfold if_bad; now rewrite Hb, Ea]|]. unfold alive, marked. cbn. lia.
    + exists p. split; [apply Hat; exists p; split; [exact Hp|unfold if_bad; now rewrite Hb, Ea]|]. intros H. apply aliveb_spec in H. congruence.
Qed.
Print Assumptions C11_bad_particles_marked.

(* A NaN force is not noticed, and a particle that is already marked but has a NaN velocity still counts as found. *)
Theorem C11_nan_force_refuted : exists s s', run [ex_add 1 1; ex_add 2 2; OpSetF 0 [None; None]] ex_empty = Some s /\
  removeBadParticles true s = Some (false, s') /\ st_size s' = 2%nat.
Proof. do 2 eexists. split; [vm_compute; reflexivity|]. split; [vm_compute; reflexivity|]. reflexivity. Qed.
Print Assumptions C11_nan_force_refuted.
Theorem C11_already_marked_refuted : exists s s', run [ex_add 1 1; ex_add 2 2; OpSetV 0 [None; None]; OpMark 0] ex_empty = Some s /\
  (forall k p, at_ s k p -> alive p -> ~ has_nan p) /\ removeBadParticles true s = Some (true, s').
Proof.
  do 2 eexists. split; [vm_compute; reflexivity|]. split; [|vm_compute; reflexivity].
  intros k p [Hk E] Ha. cbn [st_size] in Hk. destruct k as [|[|k]]; [| |lia]; cbn in E; injection E as <-.
  - unfold alive in Ha. cbn in Ha. lia.
  - apply not_has_nan. reflexivity.
Qed.
Print Assumptions C11_already_marked_refuted.
(* Removing all particles as bad ones runs into the out-of-bounds read of C04. *)
Theorem C11_all_bad_refuted : exists s, run [ex_add 1 1; OpSetV 0 [None; None]] ex_empty = Some s /\ removeBadParticles true s = None.
Proof. eexists. split; vm_compute; reflexivity. Qed.
Print Assumptions C11_all_bad_refuted.

Example C11_hypotheses_met : exists s, reach ex_empty s /\ allowed s (OpRemoveBad true) /\ exists p, at_ s 0 p /\ has_nan p.
Proof.
  destruct (allowedb_run [ex_add 1 1; ex_add 2 2; OpSetX 0 [ex_num 1; None]] ex_empty) as [s|] eqn:E; [|vm_compute in E; discriminate].
  exists s. split; [eapply allowedb_reach; [apply reach_start|exact E]|]. vm_compute in E. injection E as <-. split.
  - right. exists 1%nat. eexists. split; [split; [cbn; lia|reflexivity]|]. split; [unfold alive; cbn; lia|apply not_has_nan; reflexivity].
  - eexists. split; [split; [cbn; lia|reflexivity]|left; cbn; auto].
Qed.
