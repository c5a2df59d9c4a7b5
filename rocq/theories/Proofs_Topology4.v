(* Proofs about exchange_particles on all processors: C38. *)
From Coq Require Import String.
From Verif Require Import Lib Model_Geometry Model_Store Model_Buffer Model_Topology Spec_Store Spec_Buffer Spec_Topology
  Proofs_Store1 Proofs_Store2 Proofs_Store3 Proofs_Store4 Proofs_Store5 Proofs_Store6 Proofs_Buffer
  Proofs_Topology1 Proofs_Topology2 Proofs_Topology3.
From Coq Require Import Permutation ZifyBool ZifyNat.
Local Open Scope list_scope.

(* The rank on which the particle p of processor n is to be after the exchange. *)
Definition target (box : box) (t : kdtree) (n : nat) (p : part) : nat :=
  match process_bounds n t with
  | None => n
  | Some pb => match destination n pb t (neighbors box n t) p with
               | Some j => nth j (map fst (neighbors box n t)) n
               | None => n
               end
  end.

Lemma NoDup_map_filter {A} (f : A -> nat) (g : A -> bool) l : NoDup (map f l) -> NoDup (map f (filter g l)).
Proof.
  induction l as [|a l IH]; intros H; cbn in *; [constructor|]. inversion H; subst. destruct (g a); cbn; auto.
  constructor; auto. intros Hin. apply H2. apply in_map_iff in Hin as (b & E & Hb). apply filter_In in Hb as [Hb _].
  apply in_map_iff. eauto.
Qed.

Lemma neighbors_NoDup box n t : NoDup (map fst (leaves t)) -> NoDup (map fst (neighbors box n t)).
Proof.
  intros H. unfold neighbors. destruct (process_bounds n t); [|constructor]. unfold all_processor_nodes. now repeat apply NoDup_map_filter.
Qed.

Lemma index_of_nth nbs : NoDup (map fst nbs) -> forall i r, index_of r nbs = Some i <-> nth_error (map fst nbs) i = Some r.
Proof.
  induction nbs as [|[r' b] nbs IH]; intros Hn i r; cbn in *.
  - split; [discriminate|destruct i; discriminate].
  - inversion Hn; subst. destruct (Nat.eqb_spec r' r) as [->|Hne].
    + split; [intros E; injection E as <-; reflexivity|]. intros E. destruct i as [|i]; [reflexivity|]. cbn in E.
      exfalso. apply H1. eapply nth_error_In; eauto.
    + destruct i as [|i]; cbn.
      * split; [destruct (index_of r nbs); discriminate|congruence].
      * rewrite <- (IH H2). destruct (index_of r nbs) as [j|]; cbn; split; intros E; try discriminate; congruence.
Qed.
Lemma index_of_none nbs r : index_of r nbs = None <-> ~ In r (map fst nbs).
Proof.
  induction nbs as [|[r' b] nbs IH]; cbn; [tauto|]. destruct (Nat.eqb_spec r' r) as [->|Hne]; [split; [discriminate|tauto]|].
  destruct (index_of r nbs); cbn; split; try discriminate; intros H.
  - exfalso. apply H. right. destruct (in_dec Nat.eq_dec r (map fst nbs)) as [Hin|Hin]; [exact Hin|]. apply IH in Hin. discriminate.
  - intros [H'|H']; [tauto|]. now apply IH in H'.
  - reflexivity.
Qed.

(* What target means. *)
Lemma target_spec box t n pb p : NoDup (map fst (leaves t)) -> process_bounds n t = Some pb ->
  let nbs := neighbors box n t in
  (stays n pb t nbs p = true <-> target box t n p = n) /\
  (forall i r, nth_error (map fst nbs) i = Some r -> (goes n pb t nbs i p = true <-> target box t n p = r)) /\
  (target box t n p = n \/ In (target box t n p) (map fst nbs)) /\
  (target box t n p = if aliveb p && negb (containsN pb (p_x p)) && existsb (Nat.eqb (descend t (p_x p))) (map fst nbs)
                      then descend t (p_x p) else n).
Proof.
  intros Hn Hp nbs. unfold target. rewrite Hp. fold nbs. pose proof (neighbors_NoDup box n t Hn) as Hnn. fold nbs in Hnn.
  assert (Hself : ~ In n (map fst nbs)).
  { intros Hin. apply in_map_iff in Hin as ([r b] & E & Hin). cbn in E. subst. apply neighbors_in in Hin as (pb' & _ & _ & H & _). congruence. }
  unfold goes, stays. destruct (destination n pb t nbs p) as [j|] eqn:Ed.
  - assert (Ed' := Ed). unfold destination in Ed'. destruct ((-1 <? p_type p)%Z && negb (containsN pb (p_x p)))%bool eqn:Ec; [|discriminate].
    apply index_of_nth in Ed'; [|exact Hnn]. rewrite (nth_error_nth _ _ n Ed').
    assert (Hin : In (domain_ownership n pb t (p_x p)) (map fst nbs)) by (eapply nth_error_In; eauto).
    split; [split; [discriminate|intros E; rewrite E in Hin; tauto]|]. split; [|split; [now right|]].
    + intros i r Hi. split.
      * intros E. apply Nat.eqb_eq in E. subst. rewrite Ed' in Hi. congruence.
      * intros E. apply Nat.eqb_eq. apply (NoDup_nth_error (map fst nbs)); [exact Hnn| |congruence]. apply nth_error_Some. congruence.
    + unfold domain_ownership in *. apply andb_prop in Ec as [Ec1 Ec2]. apply negb_true_iff in Ec2. rewrite Ec2 in *.
      assert (Ea : aliveb p = true) by (unfold aliveb; lia). rewrite Ea. cbn [andb negb].
      assert (Ee : existsb (Nat.eqb (descend t (p_x p))) (map fst nbs) = true).
      { apply existsb_exists. exists (descend t (p_x p)). split; [exact Hin|apply Nat.eqb_refl]. }
      now rewrite Ee.
  - split; [tauto|]. split; [|split; [now left|]].
    + intros i r Hi. split; [discriminate|]. intros <-. exfalso. apply Hself. eapply nth_error_In; eauto.
    + unfold destination in Ed. destruct ((-1 <? p_type p)%Z && negb (containsN pb (p_x p)))%bool eqn:Ec.
      * apply andb_prop in Ec as [Ec1 Ec2]. apply negb_true_iff in Ec2. unfold domain_ownership in Ed. rewrite Ec2 in Ed.
        apply index_of_none in Ed. destruct (existsb (Nat.eqb (descend t (p_x p))) (map fst nbs)) eqn:Ee; [|now rewrite andb_false_r].
        apply existsb_exists in Ee as (x & Hx & Ex). apply Nat.eqb_eq in Ex. subst. tauto.
      * assert (Ea : (aliveb p && negb (containsN pb (p_x p)))%bool = false). { rewrite <- Ec. f_equal. unfold aliveb. lia. }
        now rewrite Ea.
Qed.

(* ---- lists *)
Lemma sequence_spec {A} (l : list (option A)) (r : list A) : Forall2 (fun o a => o = Some a) l r -> sequence l = Some r.
Proof. induction 1 as [|o a l r -> H IH]; cbn; [reflexivity|]. now rewrite IH. Qed.
Lemma sequence_map {A B} (f : A -> option B) (R : A -> B -> Prop) (l : list A) :
  (forall a, In a l -> exists b, f a = Some b /\ R a b) -> exists bs, sequence (map f l) = Some bs /\ Forall2 R l bs.
Proof.
  induction l as [|a l IH]; intros H; [exists []; split; [reflexivity|constructor]|].
  destruct (H a (or_introl eq_refl)) as (b & E & Hb). destruct IH as (bs & E2 & H2); [intros; apply H; now right|].
  exists (b :: bs). cbn. rewrite E, E2. split; [reflexivity|constructor; auto].
Qed.
Lemma Forall2_nth {A B} (R : A -> B -> Prop) l l' : Forall2 R l l' -> forall i a, nth_error l i = Some a ->
  exists b, nth_error l' i = Some b /\ R a b.
Proof.
  induction 1 as [|a b l l' H1 H2 IH]; intros [|i] c E; try discriminate; cbn in *; [injection E as <-; eauto|]. now apply IH.
Qed.
Lemma combine_seq_nth {A} (l : list A) : forall s i, nth_error (combine (seq s (length l)) l) i = option_map (fun a => ((s + i)%nat, a)) (nth_error l i).
Proof.
  induction l as [|a l IH]; intros s [|i]; cbn; auto; [now rewrite Nat.add_0_r|]. rewrite IH. destruct (nth_error l i); cbn; [|reflexivity].
  do 2 f_equal. lia.
Qed.

Lemma message_to_spec (nbs : list (nat * bounds)) (ms : list message) k i m : NoDup (map fst nbs) -> nth_error (map fst nbs) i = Some k ->
  nth_error ms i = Some m -> message_to k (combine (map fst nbs) ms) = Some m.
Proof.
  unfold message_to. revert ms i. induction (map fst nbs) as [|r rs IH]; intros ms i Hn Hi Hm; [destruct i; discriminate|].
  inversion Hn; subst. destruct ms as [|m0 ms]; [destruct i; discriminate|]. cbn [combine find fst]. destruct i as [|i]; cbn in Hi, Hm.
  - injection Hi as ->. injection Hm as ->. rewrite Nat.eqb_refl. reflexivity.
  - destruct (Nat.eqb_spec r k) as [->|_]; [exfalso; apply H1; eapply nth_error_In; eauto|]. eapply IH; eauto.
Qed.

(* flat_map over the ranks that matter *)
Lemma flat_map_filter {A B} (f : A -> list B) (g : A -> bool) l : (forall a, In a l -> g a = false -> f a = []) ->
  flat_map f (filter g l) = flat_map f l.
Proof.
  induction l as [|a l IH]; intros H; [reflexivity|]. cbn. destruct (g a) eqn:E; cbn; rewrite IH by (intros; apply H; auto; now right); [reflexivity|].
  rewrite (H a (or_introl eq_refl) E). reflexivity.
Qed.
Lemma flat_map_map {A B C} (f : B -> list C) (g : A -> B) l : flat_map f (map g l) = flat_map (fun a => f (g a)) l.
Proof. induction l; cbn; congruence. Qed.
Lemma flat_map_ext_in {A B} (f g : A -> list B) l : (forall a, In a l -> f a = g a) -> flat_map f l = flat_map g l.
Proof. induction l; intros H; cbn; [reflexivity|]. rewrite H by now left. rewrite IHl; [reflexivity|]. intros; apply H; now right. Qed.

Definition parts (stores : list store) (n : nat) : list part := match nth_error stores n with Some s => particles s | None => [] end.

Lemma parts_flat stores : forall a, flat_map particles stores = flat_map (fun n => match nth_error stores (n - a) with Some s => particles s | None => [] end) (seq a (length stores)).
Proof.
  induction stores as [|s l IH]; intros a; [reflexivity|]. cbn [flat_map length seq]. rewrite Nat.sub_diag. cbn [nth_error]. f_equal.
  rewrite (IH (S a)). apply flat_map_ext_in. intros n Hn. apply in_seq in Hn. replace (n - a)%nat with (S (n - S a)) by lia. reflexivity.
Qed.

Lemma filter_split_perm {A} (f : A -> nat) (l : list A) : forall n, (forall a, In a l -> (f a < n)%nat) ->
  Permutation (flat_map (fun k => filter (fun a => (f a =? k)%nat) l) (seq 0 n)) l.
Proof.
  intros n. revert l. induction n as [|n IH]; intros l H.
  - destruct l as [|a l]; [constructor|]. specialize (H a (or_introl eq_refl)). lia.
  - rewrite seq_S, flat_map_app. cbn [flat_map]. rewrite app_nil_r. cbn [Nat.add].
    set (l1 := filter (fun a => (f a <? n)%nat) l). 
    assert (E : flat_map (fun k => filter (fun a => (f a =? k)%nat) l) (seq 0 n) = flat_map (fun k => filter (fun a => (f a =? k)%nat) l1) (seq 0 n)).
    { apply flat_map_ext_in. intros k Hk. apply in_seq in Hk. unfold l1. symmetry. apply filter_filter_imp. intros a Ha. lia. }
    rewrite E. rewrite (IH l1). 2:{ intros a Ha. apply filter_In in Ha as [_ Ha]. lia. }
    clear E IH. unfold l1. clear l1. induction l as [|a l IHl]; [constructor|]. cbn [filter]. assert (Ha := H a (or_introl eq_refl)).
    destruct (Nat.ltb_spec (f a) n); destruct (Nat.eqb_spec (f a) n); try lia.
    + cbn [app]. apply perm_skip. apply IHl. intros; apply H; now right.
    + apply Permutation_sym. apply Permutation_cons_app. apply Permutation_sym. apply IHl. intros; apply H; now right.
Qed.

Lemma flat_map_app_perm {A B} (f g : A -> list B) l : Permutation (flat_map (fun a => f a ++ g a) l) (flat_map f l ++ flat_map g l).
Proof.
  induction l as [|a l IH]; [constructor|]. cbn. rewrite <- !app_assoc. apply Permutation_app_head. rewrite IH.
  apply Permutation_app_swap_app.
Qed.

(* Exchanging the order of two sums. *)
Lemma flat_map_swap {A B C} (f : A -> B -> list C) la lb :
  Permutation (flat_map (fun a => flat_map (f a) lb) la) (flat_map (fun b => flat_map (fun a => f a b) la) lb).
Proof.
  induction la as [|a la IH]; cbn.
  - induction lb; cbn; auto.
  - rewrite IH. apply Permutation_sym. apply (flat_map_app_perm (f a) (fun b => flat_map (fun a0 => f a0 b) la) lb).
Qed.

Lemma flat_map_perm {A B} (f g : A -> list B) l : (forall a, In a l -> Permutation (f a) (g a)) -> Permutation (flat_map f l) (flat_map g l).
Proof. induction l; intros H; cbn; [constructor|]. apply Permutation_app; [apply H; now left|]. apply IHl. intros; apply H; now right. Qed.

(* ---- the exchange *)
Section EXCHANGE.
Variables (box : box) (P : nat) (t : kdtree) (dw : nat) (bufs : nat -> nat -> list word) (stores : list store).
Hypothesis HP : (2 <= P)%nat.
Hypothesis HB : nonempty (bounds_of box).
Hypothesis Ht : t = topology_tree P (bounds_of box).
Hypothesis HL : length stores = P.
Hypothesis HI : forall k s, nth_error stores k = Some s -> inv s /\ data_width s = dw /\ Forall (shaped s) (particles s).
Hypothesis HLay : forall k j s s', nth_error stores k = Some s -> nth_error stores j = Some s' -> same_layout s s'.
Hypothesis HR : forall k s, nth_error stores k = Some s ->
  (exists p, In p (particles s) /\ target box t k p = k) \/ (st_rm s = [] /\ forall p, In p (particles s) -> target box t k p = k).

Lemma ranks_seq : map fst (leaves t) = seq 0 P.
Proof. rewrite Ht. now apply tree_good. Qed.
Lemma ranks_nodup : NoDup (map fst (leaves t)).
Proof. rewrite ranks_seq. apply seq_NoDup. Qed.
Lemma tree_ok : good_tree (bounds_of box) t.
Proof. rewrite Ht. now apply tree_good. Qed.

Lemma neighbor_lt k r : In r (map fst (neighbors box k t)) -> (r < P)%nat.
Proof using HP HB Ht.
  clear HR HLay HI HL bufs dw.
  intros H. apply in_map_iff in H as ([r' b] & E & H). cbn in E. subst r'. apply neighbors_in in H as (_ & _ & H & _ & _).
  assert (Hin : In r (map fst (leaves t))) by (apply in_map_iff; exists (r, b); auto). rewrite ranks_seq in Hin. apply in_seq in Hin. lia.
Qed.

Lemma neighbor_sym k n : In n (map fst (neighbors box k t)) -> In k (map fst (neighbors box n t)).
Proof using HP HB Ht.
  clear HR HLay HI HL bufs dw.
  intros H. pose proof (neighbor_lt k n H) as Hn. apply in_map_iff in H as ([r nb] & E & H). cbn in E. subst r.
  apply neighbors_in in H as (pb & Hpb & Hin & Hne & Ha). apply in_map_iff. exists (k, pb). split; [reflexivity|].
  apply neighbors_in. exists nb. split; [apply process_bounds_leaf; [apply ranks_nodup|exact Hin]|].
  apply process_bounds_inv in Hpb. split; [exact Hpb|]. split; [congruence|].
  destruct tree_ok as (G & _). destruct (G _ _ Hin) as (_ & _ & L1 & _). destruct (G _ _ Hpb) as (_ & _ & L2 & _).
  rewrite <- Ha. unfold bounds_of in L1, L2. rewrite map_length in L1, L2. apply adjacent_sym; auto.
  apply Forall_forall. intros a Hin'. destruct HB as [_ HB']. apply Qlt_le_weak. apply (HB' (lo a) (hi a)). unfold bounds_of.
  apply in_map_iff. exists a. auto.
Qed.

Definition sent (n k : nat) : list part := filter (fun p => (target box t n p =? k)%nat) (parts stores n).

Lemma filter_ext_in' {A} (f g : A -> bool) l : (forall a, In a l -> f a = g a) -> filter f l = filter g l.
Proof. apply filter_ext_in. Qed.

Lemma send_stage : exists outs, 
  sequence (map (fun ks => exchange_send box t (fst ks) dw (bufs (fst ks)) (snd ks)) (combine (seq 0 (length stores)) stores)) = Some outs /\
  length outs = P /\
  forall n s, nth_error stores n = Some s -> exists ms s', nth_error outs n = Some (combine (map fst (neighbors box n t)) ms, s') /\
    Forall2 (fun m r => carries dw m (sent n r)) ms (map fst (neighbors box n t)) /\
    inv s' /\ same_layout s s' /\ Permutation (particles s') (sent n n).
Proof.
  destruct (sequence_map (fun ks => exchange_send box t (fst ks) dw (bufs (fst ks)) (snd ks))
    (fun ks out => exists ms s', out = (combine (map fst (neighbors box (fst ks) t)) ms, s') /\
      Forall2 (fun m r => carries dw m (sent (fst ks) r)) ms (map fst (neighbors box (fst ks) t)) /\
      inv s' /\ same_layout (snd ks) s' /\ Permutation (particles s') (sent (fst ks) (fst ks)))
    (combine (seq 0 (length stores)) stores)) as (outs & E & F).
  - intros [n s] Hin. cbn [fst snd]. apply in_combine_seq in Hin as [_ Hn]. rewrite Nat.sub_0_r in Hn.
    assert (Hlt : (n < P)%nat) by (rewrite <- HL; apply nth_error_Some; congruence).
    destruct (HI n s Hn) as (I & D & S). destruct (leaf_exists t P n ranks_seq Hlt) as (pb & Hin & Hpb).
    assert (TS := fun p => target_spec box t n pb p ranks_nodup Hpb). cbn zeta in TS.
    assert (Hp : parts stores n = particles s) by (unfold parts; now rewrite Hn).
    destruct (exchange_send_spec box t n (bufs n) s pb Hpb I S) as (ms & s' & Es & C & I' & L' & Pm).
    { destruct (HR n s Hn) as [(p & Hp1 & Hp2)|[Hr Hst]].
      - left. intros E. apply (TS p) in Hp2. assert (Hf : In p (filter (stays n pb t (neighbors box n t)) (particles s))) by (apply filter_In; auto).
        rewrite E in Hf. exact Hf.
      - right. split; [exact Hr|]. intros p Hp'. apply (TS p). auto. }
    rewrite D in *. exists (combine (map fst (neighbors box n t)) ms, s'). split; [exact Es|]. exists ms, s'. split; [reflexivity|].
    split; [|split; [exact I'|split; [exact L'|]]].
    + unfold sent. rewrite Hp. clear - C TS.
      assert (G : forall l off, (forall i r, nth_error l i = Some r -> nth_error (map fst (neighbors box n t)) (off + i) = Some r) -> forall ms',
        Forall2 (carries dw) ms' (map (fun i => filter (goes n pb t (neighbors box n t) i) (particles s)) (seq off (length l))) ->
        Forall2 (fun m r => carries dw m (filter (fun p => (target box t n p =? r)%nat) (particles s))) ms' l).
      { induction l as [|r l IH]; intros off Hl ms' C'; cbn in C'; inversion C' as [|m ? ms'' ? C1 C2]; subst; constructor.
        - rewrite <- (filter_ext_in' (goes n pb t (neighbors box n t) off)); [exact C1|]. intros p _.
          pose proof (Hl O r eq_refl) as H0. rewrite Nat.add_0_r in H0. destruct (TS p) as (_ & T2 & _). specialize (T2 off r H0).
          destruct (Nat.eqb_spec (target box t n p) r) as [Et|Et]; [now apply T2|]. destruct (goes _ _ _ _ _ _); [tauto|reflexivity].
        - apply (IH (S off)); [|exact C2]. intros i r' Hi. replace (S off + i)%nat with (off + S i)%nat by lia. now apply Hl. }
      apply (G _ 0%nat); [auto|]. rewrite map_length. exact C.
    + unfold sent. rewrite Hp. rewrite Pm. rewrite (filter_ext_in' (stays n pb t (neighbors box n t)) (fun p => (target box t n p =? n)%nat)); [apply Permutation_refl|].
      intros p _. destruct (TS p) as (T1 & _). destruct (Nat.eqb_spec (target box t n p) n) as [Et|Et]; [now apply T1|].
      destruct (stays _ _ _ _ _); [tauto|reflexivity].
  - exists outs. split; [exact E|]. pose proof (Forall2_len _ _ _ F) as Hlen. rewrite combine_length, seq_length, Nat.min_id, HL in Hlen.
    split; [auto|]. intros n s Hn. destruct (Forall2_nth _ _ _ F n (n, s)) as (out & Eo & ms & s' & -> & R1 & R2).
    { rewrite combine_seq_nth, Hn. reflexivity. }
    exists ms, s'. cbn [fst snd] in *. auto.
Qed.

Lemma target_lt n p : (n < P)%nat -> (target box t n p < P)%nat.
Proof using HP HB Ht.
  clear HR HLay HI HL bufs dw.
  intros Hn. destruct (leaf_exists t P n ranks_seq Hn) as (pb & Hin & Hpb).
  destruct (target_spec box t n pb p ranks_nodup Hpb) as (_ & _ & [H|H] & _); [lia|]. eapply neighbor_lt; eauto.
Qed.
Lemma sent_nil n k : n <> k -> ~ In n (map fst (neighbors box k t)) -> sent n k = [].
Proof.
  intros Hne H. unfold sent, parts. destruct (nth_error stores n) as [s|] eqn:E; [|reflexivity].
  assert (Hn : (n < P)%nat) by (rewrite <- HL; apply nth_error_Some; congruence).
  destruct (leaf_exists t P n ranks_seq Hn) as (pb & Hin & Hpb).
  destruct (filter _ (particles s)) as [|p l] eqn:Ef; [reflexivity|]. exfalso.
  assert (Hp : In p (p :: l)) by now left. rewrite <- Ef in Hp. apply filter_In in Hp as [_ Hp]. apply Nat.eqb_eq in Hp.
  destruct (target_spec box t n pb p ranks_nodup Hpb) as (_ & _ & [H'|H'] & _); [congruence|]. apply H. apply neighbor_sym. now rewrite <- Hp.
Qed.

Lemma exchange_all_spec : exists stores', exchange_all box t dw bufs stores = Some stores' /\ length stores' = P /\
  forall k s, nth_error stores k = Some s -> exists s', nth_error stores' k = Some s' /\ inv s' /\ same_layout s s' /\
    Permutation (particles s') (flat_map (fun n => sent n k) (seq 0 P)).
Proof.
  unfold exchange_all. destruct send_stage as (outs & E & Lo & S). rewrite E.
  destruct (sequence_map (fun ko => match incoming box t (fst ko) outs with
                               | Some ms => exchange_recv dw ms (snd (snd ko)) | None => None end)
    (fun ko s' => forall s, nth_error stores (fst ko) = Some s -> inv s' /\ same_layout s s' /\
       Permutation (particles s') (flat_map (fun n => sent n (fst ko)) (seq 0 P)))
    (combine (seq 0 (length outs)) outs)) as (stores' & E' & F).
  - intros [k out] Hin. cbn [fst snd]. apply in_combine_seq in Hin as [_ Hk]. rewrite Nat.sub_0_r in Hk.
    assert (Hlt : (k < P)%nat) by (rewrite <- Lo; apply nth_error_Some; congruence).
    destruct (nth_error stores k) as [s|] eqn:Es. 2:{ apply nth_error_None in Es. lia. }
    destruct (S k s Es) as (ms & s1 & Eo & C & I1 & L1 & Pm). rewrite Hk in Eo. injection Eo as ->. cbn [fst snd].
    destruct (sequence_map (fun n => match nth_error outs n with Some o => message_to k (fst o) | None => None end)
      (fun n m => carries dw m (sent n k)) (map fst (neighbors box k t))) as (ims & Ei & Fi).
    { intros n Hn. pose proof (neighbor_lt k n Hn) as Hnlt. destruct (nth_error stores n) as [sn|] eqn:Esn.
      2:{ apply nth_error_None in Esn. lia. }
      destruct (S n sn Esn) as (msn & sn1 & Eon & Cn & _). rewrite Eon. cbn [fst].
      pose proof (neighbor_sym k n Hn) as Hkn. apply In_nth_error in Hkn as [i Hi].
      assert (Hm : exists m, nth_error msn i = Some m /\ carries dw m (sent n k)).
      { clear - Cn Hi. revert i Hi. induction Cn as [|m r msn rs C1 C2 IH]; intros [|i] Hi; try discriminate; cbn in *.
        - injection Hi as <-. eauto.
        - now apply IH. }
      destruct Hm as (m & Em & Cm). exists m. split; [|exact Cm]. eapply message_to_spec; eauto. apply neighbors_NoDup. apply ranks_nodup. }
    unfold incoming. rewrite Ei.
    destruct (HI k s Es) as (I & D & Sh).
    assert (Hpss : forall n p, In p (sent n k) -> shaped s1 p /\ alive p).
    { intros n p Hp. unfold sent, parts in Hp. apply filter_In in Hp as [Hp _]. destruct (nth_error stores n) as [sn|] eqn:Esn; [|destruct Hp].
      destruct (HI n sn Esn) as (_ & _ & Shn). rewrite Forall_forall in Shn. split.
      - apply (shaped_layout sn s1); [|auto]. apply (same_layout_trans sn s s1); [eapply HLay; eauto|exact L1].
      - unfold particles in Hp. apply filter_In in Hp as [_ Hp]. now apply aliveb_spec. }
    destruct (recv_all_spec dw ims (map (fun n => sent n k) (map fst (neighbors box k t))) s1) as (s' & Er & I' & L' & P' & _).
    { rewrite <- D. now apply width_layout. }
    { exact I1. }
    { clear - Fi. induction Fi; cbn; constructor; auto. }
    { apply Forall_forall. intros l Hl. apply in_map_iff in Hl as (n & <- & _). apply Forall_forall. intros p Hp. now apply (Hpss n). }
    { apply Forall_forall. intros l Hl. apply in_map_iff in Hl as (n & <- & _). apply Forall_forall. intros p Hp. now apply (Hpss n). }
    exists s'. split; [exact Er|]. intros s0 Es0. assert (s0 = s) by congruence. subst s0.
    split; [exact I'|]. split; [eapply same_layout_trans; eauto|]. rewrite P', Pm.
    (* the ranks that matter *)
    rewrite <- flat_map_concat_map.
    assert (HN : flat_map (fun n => sent n k) (map fst (neighbors box k t)) = flat_map (fun n => if (n =? k)%nat then [] else sent n k) (seq 0 P)).
    { rewrite <- ranks_seq. unfold neighbors. destruct (leaf_exists t P k ranks_seq Hlt) as (pb & Hin & Hpb). rewrite Hpb.
      unfold all_processor_nodes. rewrite !flat_map_map.
      rewrite (flat_map_ext_in (fun a => sent (fst a) k) (fun a => if (fst a =? k)%nat then [] else sent (fst a) k)).
      2:{ intros a Ha. apply filter_In in Ha as [Ha _]. apply filter_In in Ha as [_ Ha]. destruct (Nat.eqb_spec (fst a) k); [discriminate|reflexivity]. }
      rewrite (flat_map_filter _ (fun rb => adjacent box pb (snd rb))).
      - apply flat_map_filter. intros a Ha Hf. destruct (Nat.eqb_spec (fst a) k); [reflexivity|discriminate].
      - intros [r b] Ha Hf. cbn [fst snd] in *. apply filter_In in Ha as [Ha Hr]. cbn in Hr. destruct (Nat.eqb_spec r k) as [->|Hne]; [reflexivity|].
        apply sent_nil; [auto|]. intros Hin'. apply in_map_iff in Hin' as ([r' b'] & Er' & Hin'). cbn in Er'. subst r'.
        apply neighbors_in in Hin' as (pb' & E1 & E2 & _ & E3). assert (pb' = pb) by congruence. subst pb'.
        assert (b' = b). { pose proof (process_bounds_leaf t r b ranks_nodup Ha) as H1. pose proof (process_bounds_leaf t r b' ranks_nodup E2) as H2. congruence. }
        subst b'. congruence. }
    rewrite HN.
    assert (HS : Permutation (flat_map (fun n => sent n k) (seq 0 P)) (flat_map (fun n => (if (n =? k)%nat then sent n k else []) ++ (if (n =? k)%nat then [] else sent n k)) (seq 0 P))).
    { apply flat_map_perm. intros n _. destruct (n =? k)%nat; [rewrite app_nil_r|]; apply Permutation_refl. }
    rewrite HS, flat_map_app_perm. apply Permutation_app_tail.
    assert (HK : flat_map (fun n => if (n =? k)%nat then sent n k else []) (seq 0 P) = sent k k).
    { assert (G : forall n a, (a <= k)%nat -> (k < a + n)%nat -> flat_map (fun m => if (m =? k)%nat then sent m k else []) (seq a n) = sent k k).
      { assert (G0 : forall n a, (k < a)%nat -> flat_map (fun m => if (m =? k)%nat then sent m k else []) (seq a n) = []).
        { induction n as [|n IH]; intros a Ha; [reflexivity|]. cbn. destruct (Nat.eqb_spec a k); [lia|]. apply IH. lia. }
        induction n as [|n IH]; intros a Ha Hb; [lia|]. cbn. destruct (Nat.eqb_spec a k) as [->|]; [rewrite G0 by lia; apply app_nil_r|].
        apply IH; lia. }
      apply (G P 0%nat); lia. }
    rewrite HK. apply Permutation_refl.
  - exists stores'. split; [exact E'|]. pose proof (Forall2_len _ _ _ F) as Hlen. rewrite combine_length, seq_length, Nat.min_id in Hlen.
    split; [lia|]. intros k s Hk. assert (Hlt : (k < P)%nat) by (rewrite <- HL; apply nth_error_Some; congruence).
    destruct (nth_error outs k) as [o|] eqn:Eo. 2:{ apply nth_error_None in Eo. lia. }
    destruct (Forall2_nth _ _ _ F k (k, o)) as (s' & Es' & R). { rewrite combine_seq_nth, Eo. reflexivity. }
    exists s'. split; [exact Es'|]. now apply (R s).
Qed.

(* Nothing is lost or duplicated. *)
Lemma exchange_all_perm stores' : exchange_all box t dw bufs stores = Some stores' ->
  Permutation (flat_map particles stores') (flat_map particles stores).
Proof.
  intros E. destruct exchange_all_spec as (st' & E' & L & S). rewrite E in E'. injection E' as <-.
  rewrite (parts_flat stores' 0), (parts_flat stores 0), L, HL.
  rewrite (flat_map_perm _ (fun k => flat_map (fun n => sent n k) (seq 0 P))).
  2:{ intros k Hk. apply in_seq in Hk. rewrite Nat.sub_0_r. destruct (nth_error stores k) as [s|] eqn:Es.
      - destruct (S k s Es) as (s' & E1 & _ & _ & P1). rewrite E1. exact P1.
      - apply nth_error_None in Es. lia. }
  rewrite (flat_map_swap (fun k n => sent n k)). apply flat_map_perm. intros n Hn. rewrite Nat.sub_0_r. fold (parts stores n).
  unfold sent. apply filter_split_perm. intros p _. apply target_lt. apply in_seq in Hn. lia.
Qed.
End EXCHANGE.
