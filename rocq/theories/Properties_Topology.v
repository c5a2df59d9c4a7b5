(* C36-C39, C52-C54: the decomposition into processors and their communication. *)
From Coq Require Import String.
From Verif Require Import Lib Model_Geometry Model_Store Model_Buffer Model_Topology Model_Messages Model_Ghosts Spec_Geometry Spec_Store
  Spec_Buffer Spec_Topology Proofs_Store1 Proofs_Store2 Proofs_Store3 Proofs_Store4 Proofs_Store5 Proofs_Store6 Proofs_Buffer Proofs_Ghost
  Proofs_Topology1 Proofs_Topology2 Proofs_Topology3 Proofs_Topology4 Proofs_Messages1 Proofs_Messages2 Proofs_Messages3 Proofs_Messages4
  Proofs_Messages5 Proofs_Gather Properties_Store.
From Coq Require Import Permutation ZifyBool ZifyNat.
Local Open Scope list_scope.

(* ---------- C36 ---------- *)

(* Every number of processors, every box, every point. Each processor has one region, which is not empty and lies in the
   box; every point of the box is in the region of exactly one processor; whichever processor asks, the owner reported
   for a point of the box is the processor whose region contains it; for any other position (outside the box, NaN) the
   answer is at least the rank of a processor. *)
Theorem C36_partition (P : nat) (b : bounds) : (2 <= P)%nat -> nonempty b ->
  let t := topology_tree P b in
  (forall k, (k < P)%nat <-> exists r, process_bounds k t = Some r) /\
  (forall k r, process_bounds k t = Some r -> nonempty r /\ part_of r b) /\
  (forall x, inside b x -> exists k r, process_bounds k t = Some r /\ inside r x /\
     forall k' r', process_bounds k' t = Some r' -> inside r' x -> k' = k) /\
  (forall asking pb x k r, process_bounds asking t = Some pb -> inside b x -> process_bounds k t = Some r ->
     (domain_ownership asking pb t (map Some x) = k <-> inside r x)) /\
  (forall asking pb x, process_bounds asking t = Some pb -> (domain_ownership asking pb t x < P)%nat).
Proof.
  intros HP Hb t. destruct (tree_good P b HP Hb) as [Hr (G1 & G2 & G3)]. fold t in Hr, G1, G2, G3.
  assert (Hnd : NoDup (map fst (leaves t))) by (rewrite Hr; apply seq_NoDup).
  assert (Hin : forall k r, process_bounds k t = Some r -> In (k, r) (leaves t) /\ (k < P)%nat).
  { intros k r E. apply process_bounds_inv in E. split; [exact E|]. assert (H : In k (map fst (leaves t))) by (apply in_map_iff; exists (k, r); auto).
    rewrite Hr in H. apply in_seq in H. lia. }
  assert (Own : forall asking pb x k r, process_bounds asking t = Some pb -> inside b x -> process_bounds k t = Some r ->
     (domain_ownership asking pb t (map Some x) = k <-> inside r x)).
  { intros a pb x k r Ha Hx Hk. destruct (Hin _ _ Ha) as [Ia _]. destruct (Hin _ _ Hk) as [Ik _].
    destruct (G1 _ _ Ia) as (_ & _ & La & Da). destruct (G1 _ _ Ik) as (_ & _ & Lk & Dk).
    pose proof (inside_len _ _ Hx) as Lx. unfold domain_ownership.
    destruct (G2 x Hx) as (lb & Il & Hl).
    destruct (containsN pb (map Some x)) eqn:E.
    - apply (inside_contains pb x) in E; [|congruence]. split.
      + intros ->. assert (r = pb) by congruence. now subst.
      + intros Hrx. rewrite <- (Da x E). exact (Dk x Hrx).
    - split.
      + intros <-. pose proof (process_bounds_leaf t _ _ Hnd Il) as E2. assert (r = lb) by congruence. now subst.
      + intros Hrx. exact (Dk x Hrx). }
  split; [|split; [|split; [|split; [exact Own|]]]].
  - intros k. split; [|intros (r & E); now apply Hin in E]. intros Hk. destruct (leaf_exists t P k Hr Hk) as (lb & _ & E). eauto.
  - intros k r E. destruct (Hin _ _ E) as [I _]. destruct (G1 _ _ I) as (A & B & _). auto.
  - intros x Hx. destruct (G2 x Hx) as (lb & Il & Hl). exists (descend t (map Some x)), lb. split; [now apply process_bounds_leaf|]. split; [exact Hl|].
    intros k' r' E' Hr'. destruct (Hin _ _ E') as [I _]. destruct (G1 _ _ I) as (_ & _ & _ & D). symmetry. now apply D.
  - intros a pb x Ha. unfold domain_ownership. destruct (containsN pb x); [now apply Hin in Ha|]. pose proof (G3 x) as H. rewrite Hr in H. apply in_seq in H. lia.
Qed.
Print Assumptions C36_partition.

(* With one processor its region is the whole box, it owns every point, and it has no neighbours. *)
Theorem C36_one_processor (bx : box) : nonempty (bounds_of bx) ->
  let t := topology_tree 1 (bounds_of bx) in
  exists r, process_bounds 0 t = Some r /\ (forall x, inside r x <-> inside (bounds_of bx) x) /\
    (forall x, domain_ownership 0 r t x = 0%nat) /\ neighbor_ranks bx 0 t = [].
Proof.
  intros Hb t. set (b := bounds_of bx) in *.
  assert (Hw : (widest b < length b)%nat) by (apply widest_lt; apply Hb).
  destruct (nonempty_at b (widest b) Hb Hw) as (m & M & E & Hm & E1 & E2).
  set (v := min_at b (widest b) + inject_Z (Z.of_nat 0) / inject_Z (Z.of_nat 1) * wd_at b (widest b)).
  assert (Et : t = Node b (widest b) v (Leaf 0 (set_max (widest b) v b)) (Leaf 0 (set_min (widest b) v b))) by reflexivity.
  assert (Hv : v == m). { unfold v. rewrite E1, E2. change (inject_Z (Z.of_nat 0)) with 0. field. }
  exists (set_min (widest b) v b). rewrite Et. split; [reflexivity|]. split; [|split].
  - intros x. split; intros H.
    + assert (L : length x = length b) by (rewrite (inside_len _ _ H); apply set_min_len).
      destruct (nth_error x (widest b)) as [xd|] eqn:Ex. 2:{ apply nth_error_None in Ex. lia. }
      apply (inside_min (widest b) v b m M x xd E) in H; [tauto|lra|exact Ex].
    + pose proof (inside_len _ _ H) as L. destruct (nth_error x (widest b)) as [xd|] eqn:Ex. 2:{ apply nth_error_None in Ex. lia. }
      apply (inside_min (widest b) v b m M x xd E); [lra|exact Ex|]. split; [exact H|].
      assert (m <= xd); [|lra]. clear - H E Ex. revert x E Ex H. generalize (widest b). induction b as [|[m0 M0] b IH]; intros [|d] x E Ex H; try discriminate; cbn in *.
      * injection E as -> ->. inversion H as [|? y ? x' [H1 H2] H3]; subst. cbn in *. injection Ex as <-. exact H1.
      * inversion H as [|? y ? x' [H1 H2] H3]; subst. cbn in Ex. eapply IH; eauto.
  - intros x. unfold domain_ownership. destruct (containsN _ x); [reflexivity|]. cbn [descend]. now destruct (match nth (widest b) x None with Some q => Qltb q v | None => false end).
  - unfold neighbor_ranks, neighbors. reflexivity.
Qed.
Print Assumptions C36_one_processor.

Definition ex_box3 : box := [mkAxis 0 6 WRAP; mkAxis 0 2 OPEN].
Example C36_case : nonempty (bounds_of ex_box3) /\
  domain_ownership 0 [(0, 2); (0, 2)] (topology_tree 3 (bounds_of ex_box3)) (map Some [9#2; 1]) = 2%nat /\
  exists r, process_bounds 2 (topology_tree 3 (bounds_of ex_box3)) = Some r /\ inside r [9#2; 1].
Proof.
  split; [split; [cbn; lia|]|split; [reflexivity|]].
  - intros m M [H|[H|[]]]; injection H as <- <-; reflexivity.
  - eexists. split; [vm_compute; reflexivity|]. repeat constructor; cbn; try discriminate; reflexivity.
Qed.

(* ---------- C37 ---------- *)

(* The relation is symmetric, no rank occurs twice, and no processor is its own neighbour. *)
Theorem C37_neighbours_agree (P : nat) (bx : box) : (2 <= P)%nat -> nonempty (bounds_of bx) ->
  let t := topology_tree P (bounds_of bx) in
  (forall a b, In b (neighbor_ranks bx a t) <-> In a (neighbor_ranks bx b t)) /\
  (forall a, NoDup (neighbor_ranks bx a t) /\ ~ In a (neighbor_ranks bx a t)) /\
  (forall a b, In b (neighbor_ranks bx a t) -> (a < P)%nat /\ (b < P)%nat).
Proof.
  intros HP HB t. assert (S : forall a b, In b (neighbor_ranks bx a t) -> In a (neighbor_ranks bx b t)).
  { intros a b H. exact (neighbor_sym bx P t HP HB eq_refl a b H). }
  split; [split; apply S|]. split.
  - intros a. split; [exact (nb_nodup bx P t HP HB eq_refl a)|]. intros H. unfold neighbor_ranks in H. apply in_map_iff in H as ([r nb] & E & H). cbn in E. subst r.
    apply neighbors_in in H as (_ & _ & _ & H & _). congruence.
  - intros a b H. split; [|exact (neighbor_lt bx P t HP HB eq_refl a b H)]. apply S in H. exact (neighbor_lt bx P t HP HB eq_refl b a H).
Qed.
Print Assumptions C37_neighbours_agree.

(* Processors whose regions come closer than 1/10 in every coordinate (also across a periodic border) are neighbours. *)
Theorem C37_close_regions_are_neighbours (P : nat) (bx : box) (a b : nat) (ra rb : bounds) (x y : list Q) (ks : list Z) :
  (2 <= P)%nat -> nonempty (bounds_of bx) ->
  let t := topology_tree P (bounds_of bx) in
  process_bounds a t = Some ra -> process_bounds b t = Some rb -> a <> b -> inside_closed ra x -> inside_closed rb y ->
  List.length ks = List.length bx ->
  (forall d axis k xd yd, nth_error bx d = Some axis -> nth_error ks d = Some k -> nth_error x d = Some xd -> nth_error y d = Some yd ->
     Qabs (match bc axis with WRAP => yd - xd + inject_Z k * (hi axis - lo axis) | _ => yd - xd end) <= 1#10) ->
  In b (neighbor_ranks bx a t).
Proof.
  intros HP HB t Ha Hb Hne Hx Hy Hk H. apply in_map_iff. exists (b, rb). split; [reflexivity|]. apply neighbors_in. exists ra.
  split; [exact Ha|]. apply process_bounds_inv in Ha, Hb. split; [exact Hb|]. split; [congruence|].
  destruct (tree_ok bx P t HP HB eq_refl) as (G & _). destruct (G _ _ Ha) as (_ & Pa & _). destruct (G _ _ Hb) as (_ & Pb & _).
  exact (adjacent_complete bx ra rb x y ks Pa Pb Hx Hy Hk H).
Qed.
Print Assumptions C37_close_regions_are_neighbours.

Example C37_case : let t := topology_tree 3 (bounds_of ex_box3) in
  neighbor_ranks ex_box3 0 t = [1; 2]%nat /\ neighbor_ranks ex_box3 1 t = [0; 2]%nat /\ neighbor_ranks ex_box3 2 t = [0; 1]%nat /\
  neighbor_ranks [mkAxis 0 8 OPEN] 0 (topology_tree 4 [(0, 8)]) = [1]%nat.
Proof. vm_compute. auto. Qed.

(* Computing the topology again (as resetting the bounds does) keeps the old neighbours: ranks occur twice, so that the
   sends of one processor no longer match the receives of the other. *)
Theorem C37_recomputed_refuted : exists bx t, t = topology_tree 2 (bounds_of bx) /\ nonempty (bounds_of bx) /\
  ~ NoDup (neighbor_ranks_again bx 0 t t).
Proof.
  exists [mkAxis 0 4 OPEN], (topology_tree 2 (bounds_of [mkAxis 0 4 OPEN])). split; [reflexivity|]. split.
  - split; [cbn; lia|]. intros m M [H|[]]; injection H as <- <-; reflexivity.
  - vm_compute. intros H. inversion H as [|? ? H1 H2]; subst. apply H1. now left.
Qed.
Print Assumptions C37_recomputed_refuted.

(* ---------- C38 ---------- *)

Lemma well_kept_inv s : well_kept s <-> inv s.
Proof.
  assert (E : length (particles s) = count (st_size s) (st_mem s)) by reflexivity.
  split.
  - intros (H1 & H2 & H3 & H4). constructor; auto.
  - intros [H1 H2 H3 H4]. split; [exact H1|]. split; [now rewrite H2, E|]. auto.
Qed.
(* ... it holds after any history of calls on one processor. *)
Example reachable_well_kept d nev nes nei s : reach (empty_store d nev nes nei) s -> well_kept s.
Proof. intros H. apply well_kept_inv. exact (reach_inv _ _ (proj1 (empty_inv d nev nes nei)) H). Qed.

Lemma target_home bx t k p : NoDup (map fst (leaves t)) -> (exists pb, process_bounds k t = Some pb) -> alive p -> target bx t k p = new_home bx t k p.
Proof.
  intros Hn (pb & Hp) Ha. destruct (target_spec bx t k pb p Hn Hp) as (_ & _ & _ & ->). unfold new_home, neighbor_ranks. rewrite Hp.
  assert (Hb : aliveb p = true) by (unfold aliveb, alive in *; lia). rewrite Hb. unfold domain_ownership. destruct (containsN pb (p_x p)) eqn:E; cbn [negb andb].
  - destruct (existsb (Nat.eqb k) (map fst (neighbors bx k t))); reflexivity.
  - reflexivity.
Qed.

(* Any number of processors, any distribution of particles (inside the box, outside, NaN). No particle is lost or
   duplicated, every particle ends on the processor that new_home names, and the numbers of each store agree with its
   contents afterwards; this is the outcome under every schedule and for any amount of buffering by MPI, without deadlock.
   What is missing for the full property: a processor must keep at least one of its particles (or give none away and have
   no removals pending), see the first refutation; a particle whose owner is not a neighbour stays (second refutation). *)
Theorem C38_exchange_partial (bx : box) (P : nat) (dw : nat) (bufs : nat -> nat -> list word) (stores : list store) :
  (2 <= P)%nat -> nonempty (bounds_of bx) -> List.length stores = P ->
  let t := topology_tree P (bounds_of bx) in
  (forall k s, nth_error stores k = Some s -> well_kept s /\ data_width s = dw /\ Forall (shaped s) (particles s)) ->
  (forall k j s s', nth_error stores k = Some s -> nth_error stores j = Some s' -> same_layout s s') ->
  (forall k s, nth_error stores k = Some s ->
     (exists p, In p (particles s) /\ new_home bx t k p = k) \/
     (st_rm s = [] /\ forall p, In p (particles s) -> new_home bx t k p = k)) ->
  exists stores', exchange_all bx t dw bufs stores = Some stores' /\ List.length stores' = P /\
    (forall eager, always_ends_in eager [exchange_round bx t dw bufs] stores stores') /\
    Permutation (flat_map particles stores') (flat_map particles stores) /\
    forall k s', nth_error stores' k = Some s' -> well_kept s' /\
      Permutation (particles s')
        (flat_map (fun ns => filter (fun p => (new_home bx t (fst ns) p =? k)%nat) (particles (snd ns))) (combine (seq 0 P) stores)).
Proof.
  intros HP HB HL t HI HLay HR.
  assert (Hnd : NoDup (map fst (leaves t))) by exact (ranks_nodup bx P t HP HB eq_refl).
  assert (Hpb : forall k s, nth_error stores k = Some s -> exists pb, process_bounds k t = Some pb).
  { intros k s Hk. assert (Hlt : (k < P)%nat) by (rewrite <- HL; apply nth_error_Some; congruence).
    destruct (leaf_exists t P k (ranks_seq bx P t HP HB eq_refl) Hlt) as (pb & _ & E). eauto. }
  assert (Hal : forall s p, In p (particles s) -> alive p). { intros s p Hp. apply filter_In in Hp as [_ Hp]. now apply aliveb_spec. }
  assert (HI' : forall k s, nth_error stores k = Some s -> inv s /\ data_width s = dw /\ Forall (shaped s) (particles s)).
  { intros k s Hk. destruct (HI k s Hk) as (A & B). split; [now apply well_kept_inv|exact B]. }
  assert (HR' : forall k s, nth_error stores k = Some s ->
     (exists p, In p (particles s) /\ target bx t k p = k) \/ (st_rm s = [] /\ forall p, In p (particles s) -> target bx t k p = k)).
  { intros k s Hk. destruct (HR k s Hk) as [(p & H1 & H2)|[H1 H2]].
    - left. exists p. split; [exact H1|]. rewrite target_home; eauto.
    - right. split; [exact H1|]. intros p Hp. rewrite target_home; eauto. }
  destruct (exchange_all_spec bx P t dw bufs stores HP HB eq_refl HL HI' HLay HR') as (stores' & E & L & S).
  exists stores'. split; [exact E|]. split; [exact L|]. split; [|split].
  - intros eager. assert (OK : rounds_ok [exchange_round bx t dw bufs] stores).
    { split; [now apply (exchange_round_ok bx P t HP HB eq_refl)|]. intros ss' _. exact I. }
    destruct (rounds_every_schedule eager [exchange_round bx t dw bufs] stores stores' OK) as (N & HN).
    { cbn [rounds_all]. rewrite exchange_round_all, E. reflexivity. }
    exists N. exact HN.
  - exact (exchange_all_perm bx P t dw bufs stores HP HB eq_refl HL HI' HLay HR' stores' E).
  - intros k s' Hk. destruct (nth_error stores k) as [s|] eqn:Es.
    2:{ apply nth_error_None in Es. assert (k < length stores')%nat by (apply nth_error_Some; congruence). lia. }
    destruct (S k s Es) as (s2 & E2 & I2 & _ & P2). assert (s2 = s') by congruence. subst s2. split; [now apply well_kept_inv|].
    rewrite P2. assert (G : forall l off, (forall i s, nth_error l i = Some s -> nth_error stores (off + i) = Some s) ->
       flat_map (fun n => sent bx t stores n k) (seq off (length l)) =
       flat_map (fun ns => filter (fun p => (new_home bx t (fst ns) p =? k)%nat) (particles (snd ns))) (combine (seq off (length l)) l)).
    { induction l as [|s0 l IH]; intros off Hl; [reflexivity|]. cbn [length seq flat_map combine fst snd]. f_equal.
      - unfold sent, parts. specialize (Hl 0%nat s0 eq_refl). rewrite Nat.add_0_r in Hl. rewrite Hl. apply filter_ext_in. intros p Hp.
        rewrite target_home; eauto.
      - apply IH. intros i s1 Hi. specialize (Hl (Datatypes.S i) s1 Hi). now replace (Datatypes.S off + i)%nat with (off + Datatypes.S i)%nat by lia. }
    rewrite <- HL, (G stores 0%nat); [reflexivity|]. intros i s0 Hi. exact Hi.
Qed.
Print Assumptions C38_exchange_partial.


(* A particle whose position is in the region of its own processor or of a neighbour has that processor as its new home. *)
Theorem C38_new_home_partial (bx : box) (P : nat) (k j : nat) (r : bounds) (x : list Q) (p : part) :
  (2 <= P)%nat -> nonempty (bounds_of bx) ->
  let t := topology_tree P (bounds_of bx) in
  (k < P)%nat -> process_bounds j t = Some r -> inside r x -> p_x p = map Some x -> j = k \/ In j (neighbor_ranks bx k t) ->
  new_home bx t k p = j.
Proof.
  intros HP HB t Hk Hj Hr Hx Hor.
  destruct (leaf_exists t P k (ranks_seq bx P t HP HB eq_refl) Hk) as (pb & _ & Ek).
  destruct (C36_partition P (bounds_of bx) HP HB) as (_ & Hpo & _ & Own & _). fold t in Hpo, Own.
  assert (Hbx : inside (bounds_of bx) x).
  { destruct (Hpo j r Hj) as [_ Hp]. clear - Hp Hr. revert x Hr. induction Hp as [|a b ra rb [H1 H2] H IH]; intros x Hr.
    - inversion Hr; subst. constructor.
    - inversion Hr as [|? xd ? x' [H3 H4] H5]; subst. constructor; [split; lra|now apply IH]. }
  pose proof (proj2 (Own k pb x j r Ek Hbx Hj) Hr) as E. unfold new_home. rewrite Ek, Hx, E.
  destruct (existsb (Nat.eqb j) (neighbor_ranks bx k t)) eqn:Ex; [reflexivity|]. destruct Hor as [->|Hin]; [reflexivity|].
  exfalso. assert (X : existsb (Nat.eqb j) (neighbor_ranks bx k t) = true) by (apply existsb_exists; exists j; split; [exact Hin|apply Nat.eqb_refl]). congruence.
Qed.
Print Assumptions C38_new_home_partial.

(* Three processors; on the first, one of the two particles has moved to the region of the second, on the third one has
   left through the periodic border. *)
Definition ex_store (l : list op) : store := match allowedb_run l ex_empty with Some s => s | None => ex_empty end.
Lemma ex_well_kept l : well_kept (ex_store l).
Proof.
  apply (reachable_well_kept 2 0 0 0). unfold ex_store. destruct (allowedb_run l ex_empty) as [s|] eqn:E.
  - exact (allowedb_reach l _ _ _ (reach_start _) E).
  - apply reach_start.
Qed.
Definition ex_stores3 : list store := Eval vm_compute in [ex_store [ex_add 1 1; ex_add 3 1]; ex_store [ex_add 3 0]; ex_store [ex_add 5 1; ex_add 1 0; OpMark 0; ex_add 4 1]].
Example C38_hypotheses_met : let t := topology_tree 3 (bounds_of ex_box3) in
  nonempty (bounds_of ex_box3) /\
  (forall k s, nth_error ex_stores3 k = Some s -> well_kept s /\ data_width s = 10%nat /\ Forall (shaped s) (particles s)) /\
  (forall k j s s', nth_error ex_stores3 k = Some s -> nth_error ex_stores3 j = Some s' -> same_layout s s') /\
  (forall k s, nth_error ex_stores3 k = Some s -> exists p, In p (particles s) /\ new_home ex_box3 t k p = k) /\
  option_map (map (fun s => List.map p_x (particles s))) (exchange_all ex_box3 t 10 (fun _ _ => []) ex_stores3) =
  Some [[[ex_num 1; ex_num 1]; [ex_num 1; ex_num 0]]; [[ex_num 3; ex_num 0]; [ex_num 3; ex_num 1]]; [[ex_num 4; ex_num 1]]].
Proof.
  intros t. split; [apply C36_case|]. split; [|split; [|split]].
  - intros k s Hk. split.
    + apply nth_error_In in Hk. destruct Hk as [<-|[<-|[<-|[]]]]; [apply (ex_well_kept [ex_add 1 1; ex_add 3 1])|apply (ex_well_kept [ex_add 3 0])|apply (ex_well_kept [ex_add 5 1; ex_add 1 0; OpMark 0; ex_add 4 1])].
    + assert (X : forall s, In s ex_stores3 -> data_width s = 10%nat /\ Forall (shaped s) (particles s)); [|apply X; eapply nth_error_In; eauto].
      clear. intros s [<-|[<-|[<-|[]]]]; (split; [reflexivity|]); vm_compute; repeat constructor; intros v Hv; destruct Hv.
  - assert (X : forall s, In s ex_stores3 -> same_layout (empty_store 2 0 0 0) s) by (intros s [<-|[<-|[<-|[]]]]; vm_compute; auto).
    intros k j s s' Hk Hj. apply nth_error_In in Hk, Hj. apply X in Hk, Hj. unfold same_layout in *. intuition congruence.
  - intros [|[|[|k]]] s Hk; cbn [nth_error ex_stores3] in Hk; try (now destruct k); injection Hk as <-.
    + eexists. split; [vm_compute; left; reflexivity|]. vm_compute. reflexivity.
    + eexists. split; [vm_compute; left; reflexivity|]. vm_compute. reflexivity.
    + eexists. split; [vm_compute; right; left; reflexivity|]. vm_compute. reflexivity.
  - vm_compute. reflexivity.
Qed.

(* All particles of the first of two processors moved to the other one: removing them from the first one's store reads
   outside its arrays, so that nothing is guaranteed. *)
Theorem C38_all_leave_refuted : exists bx stores, let t := topology_tree 2 (bounds_of bx) in
  nonempty (bounds_of bx) /\ List.length stores = 2%nat /\
  Forall (fun s => well_kept s /\ data_width s = 10%nat /\ Forall (shaped s) (particles s) /\ same_layout s (empty_store 2 0 0 0)) stores /\
  map (fun s => List.map p_x (particles s)) stores = [[[ex_num 3; ex_num 1]]; [[ex_num 3; ex_num 0]]] /\
  exchange_all bx t 10 (fun _ _ => []) stores = None.
Proof.
  exists [mkAxis 0 4 OPEN; mkAxis 0 2 OPEN], [ex_store [ex_add 3 1]; ex_store [ex_add 3 0]]. split; [|split; [reflexivity|split; [|split; [reflexivity|reflexivity]]]].
  - split; [cbn; lia|]. intros m M [H|[H|[]]]; injection H as <- <-; reflexivity.
  - assert (X : forall a b, well_kept (ex_store [ex_add a b]) /\ data_width (ex_store [ex_add a b]) = 10%nat /\
       Forall (shaped (ex_store [ex_add a b])) (particles (ex_store [ex_add a b])) /\ same_layout (ex_store [ex_add a b]) (empty_store 2 0 0 0)); [|exact (Forall_cons _ (X _ _) (Forall_cons _ (X _ _) (Forall_nil _)))].
    intros a b. split; [|split; [reflexivity|split]].
    + apply ex_well_kept.
    + vm_compute. repeat constructor; intros v Hv; destruct Hv.
    + vm_compute. auto.
Qed.
Print Assumptions C38_all_leave_refuted.

(* A particle that is found in the region of a processor that is not a neighbour stays where it is. *)
Definition ex_line_store (xs : list Z) : store :=
  match run (map (fun x => OpAdd [ex_num x] [ex_num 0] (ex_num 1) (ex_num 1) 0) xs) (empty_store 1 0 0 0) with Some s => s | None => empty_store 1 0 0 0 end.
Theorem C38_far_owner_refuted : exists bx stores p stores' s0', let t := topology_tree 4 (bounds_of bx) in
  nonempty (bounds_of bx) /\ exchange_all bx t 7 (fun _ _ => []) stores = Some stores' /\
  nth_error stores' 0 = Some s0' /\ In p (particles s0') /\
  exists r x, process_bounds 2 t = Some r /\ p_x p = map Some x /\ inside r x.
Proof.
  exists [mkAxis 0 8 OPEN], [ex_line_store [1; 5]%Z; ex_line_store [3]%Z; ex_line_store [4]%Z; ex_line_store [7]%Z].
  eexists. eexists. eexists. split; [|split; [vm_compute; reflexivity|split; [vm_compute; reflexivity|split]]].
  - split; [cbn; lia|]. intros m M [H|[]]; injection H as <- <-; reflexivity.
  - vm_compute. right. left. reflexivity.
  - eexists. exists [inject_Z 5]. split; [vm_compute; reflexivity|]. split; [reflexivity|]. repeat constructor; vm_compute; try discriminate; reflexivity.
Qed.
Print Assumptions C38_far_owner_refuted.
