(* C64: clusters of particles. Proved for stores without holes and neighbour lists that are symmetric (equal radii). Refuted: unequal radii,
   removed particles, the largest size over several calls. *)
From Coq Require Import QArith List Bool ZArith Lia Lqa Relations.
From Verif Require Import Lib Model_Geometry Spec_Geometry Proofs_Geometry Model_Cells Spec_Cells Properties_Cells.
From Verif Require Import Model_Cluster Spec_Cluster Proofs_Cluster.
Import ListNotations.
Local Open Scope Z_scope.

Lemma cnt_filter c k : cnt c k = length (filter (fun i => nth i c (-1) =? k) (seq 0 (length c))).
Proof.
  assert (G : forall c a, cnt c k = length (filter (fun i => nth (i - a) c (-1) =? k) (seq a (length c)))).
  { clear c. induction c as [|x c IH]; intros a; [reflexivity|]. unfold cnt in *. cbn [count_occ length seq filter]. rewrite Nat.sub_diag. change (nth 0 (x :: c) (-1)) with x.
    assert (F : filter (fun i => nth (i - a) (x :: c) (-1) =? k) (seq (S a) (length c)) = filter (fun i => nth (i - S a) c (-1) =? k) (seq (S a) (length c))).
    { apply filter_ext_in. intros i Hi. apply in_seq in Hi. replace (i - a)%nat with (S (i - S a)) by lia. reflexivity. }
    rewrite F. destruct (Z.eq_dec x k) as [E|E], (Z.eqb_spec x k) as [E'|E']; try contradiction; cbn [length]; rewrite (IH (S a)); reflexivity. }
  rewrite (G c 0%nat). f_equal. apply filter_ext. intros i. now rewrite Nat.sub_0_r.
Qed.
Lemma fold_max l : forall m, (forall x, In x l -> x <= fold_left Z.max l m) /\ m <= fold_left Z.max l m /\ (fold_left Z.max l m = m \/ In (fold_left Z.max l m) l).
Proof.
  induction l as [|a l IH]; intros m; cbn [fold_left]; [split; [intros x []|]; split; [lia|now left]|]. destruct (IH (Z.max m a)) as (A & B & C). split; [|split].
  - intros x [<- |Hx]; [lia|now apply A].
  - lia.
  - destruct C as [C|C]; [|right; now right]. rewrite C. destruct (Z.max_spec m a) as [[_ E]|[_ E]]; rewrite E; [right; now left|now left].
Qed.

Theorem C64_clusters_partial types near number s : (0 < number)%nat ->
  (forall i, (i < number)%nat -> exists t, nth_error types i = Some t /\ t <> -1) ->
  (forall i m, (i < number)%nat -> In m (near i) -> (m < number)%nat /\ In i (near m)) ->
  exists s', findClusters types near number s = Some s' /\ let c i := nth i (cl_clusters s') (-1) in
  length (cl_clusters s') = number /\ cl_same s' = cl_same s /\
  (forall i, (i < number)%nat -> 0 <= c i < cl_n s') /\
  (forall i j, (i < number)%nat -> (j < number)%nat -> (c i = c j <-> connected (cl_same s) types near i j)) /\
  Z.of_nat (length (cl_sizes s')) = cl_n s' /\
  (forall k, (k < length (cl_sizes s'))%nat -> nth k (cl_sizes s') 0 = Z.of_nat (length (filter (fun i => c i =? Z.of_nat k) (seq 0 number))) /\ 0 < nth k (cl_sizes s') 0) /\
  (cl_max s <= 0 -> In (cl_max s') (cl_sizes s') /\ forall x, In x (cl_sizes s') -> x <= cl_max s') /\
  exists parts, snapshot s' = Some parts /\ length parts = length (cl_sizes s') /\
    forall k, (k < length parts)%nat -> nth k parts [] = filter (fun i => c i =? Z.of_nat k) (seq 0 number).
Proof.
  intros Hn Hty Hnear. unfold findClusters. destruct number as [|n']; [lia|]. set (n := S n') in *.
  set (s0 := mkCl (repeat (-1) n) [] 0 (cl_max s) (cl_same s)). assert (Hrep : forall i, g (repeat (-1) n) i = -1).
  { intros i. unfold g. destruct (Nat.lt_ge_cases i n); [|apply nth_overflow; rewrite repeat_length; lia]. clear. revert i. induction n as [|n IH]; intros [|i]; cbn; try reflexivity. apply IH. }
  assert (Hnear1 : forall i m, (i < n)%nat -> In m (near i) -> (m < n)%nat) by (intros i m Hi Hm; now apply (Hnear i m)).
  assert (Hsym : forall i m, (i < n)%nat -> In m (near i) -> In i (near m)) by (intros i m Hi Hm; now apply (Hnear i m)).
  destruct (heads_spec (cl_same s) types near n Hty Hnear1 Hsym n 0 s0 true) as (s' & E & I & Al & l & Es & Em & Sm).
  - reflexivity.
  - unfold inv. cbn [s0 cl_clusters cl_n cl_sizes]. split; [apply repeat_length|]. split; [lia|]. split; [intros i _; rewrite Hrep; lia|].
    split; [intros i j Hi; now rewrite Hrep in Hi|]. split; [intros i j Hi; now rewrite Hrep in Hi|]. split; [reflexivity|]. intros k Hk. lia.
  - intros i Hi. lia.
  - intros _. split; [reflexivity|apply Hrep].
  - exists s'. split; [exact E|]. destruct I as (Lc & K0 & Rng & Clo & Snd & Lsz & Szs). cbv zeta. unfold g in *. cbn [s0 cl_sizes cl_max app] in Es, Em.
    assert (R : forall i, (i < n)%nat -> 0 <= nth i (cl_clusters s') (-1) < cl_n s') by (intros i Hi; specialize (Rng i Hi); specialize (Al i Hi); lia).
    split; [exact Lc|]. split; [exact Sm|]. split; [exact R|]. split.
    { intros i j Hi Hj. split; [intros Q; apply Snd; [now apply Al|now symmetry]|]. intros Q. symmetry. apply Clo; [now apply Al|exact Q]. }
    split; [exact Lsz|]. split; [|split].
    + intros k Hk. destruct (Szs (Z.of_nat k) ltac:(lia)) as (A & i & Hi & Gi). rewrite Nat2Z.id in A. rewrite A, cnt_filter, Lc. split; [reflexivity|].
      assert (Hin : In i (filter (fun i => nth i (cl_clusters s') (-1) =? Z.of_nat k) (seq 0 n))) by (apply filter_In; split; [apply in_seq; lia|]; rewrite Gi; apply Z.eqb_refl).
      destruct (filter _ (seq 0 n)); [destruct Hin|cbn [length]; lia].
    + intros H0. rewrite Em, Es. unfold max_of. destruct (fold_max l (cl_max s)) as (A & B & C). split; [|exact A]. destruct C as [C|C]; [|exact C]. exfalso.
      assert (Hl : (0 < length (cl_sizes s'))%nat) by (specialize (R 0%nat ltac:(lia)); lia). destruct (Szs 0 ltac:(lia)) as (S1 & i & Hi & Gi). change (Z.to_nat 0) with 0%nat in S1.
      assert (Hin : In (nth 0 (cl_sizes s') 0) (cl_sizes s')) by (apply nth_In; exact Hl). rewrite Es in Hin at 2. apply A in Hin.
      assert (0 < nth 0 (cl_sizes s') 0); [|lia]. rewrite S1, cnt_filter, Lc.
      assert (Hin2 : In i (filter (fun i => nth i (cl_clusters s') (-1) =? 0) (seq 0 n))) by (apply filter_In; split; [apply in_seq; lia|]; rewrite Gi; reflexivity).
      destruct (filter _ (seq 0 n)); [destruct Hin2|cbn [length]; lia].
    + unfold snapshot. destruct (constituents_spec (cl_clusters s') 0 (repeat [] (Z.to_nat (cl_n s')))) as (parts & P1 & P2 & P3).
      * intros c Hc. apply (In_nth _ _ (-1)) in Hc as (i & Hi & <-). rewrite repeat_length. specialize (R i ltac:(lia)). lia.
      * exists parts. split; [exact P1|]. rewrite repeat_length in P2. split; [lia|]. intros k Hk. rewrite P3.
        replace (nth k (repeat [] (Z.to_nat (cl_n s'))) []) with (@nil nat) by (symmetry; clear; generalize (Z.to_nat (cl_n s')); intros m; revert k; induction m; intros [|k]; cbn; auto).
        cbn [app]. rewrite Lc. apply filter_ext. intros i. now rewrite Nat.sub_0_r.
Qed.
Print Assumptions C64_clusters_partial.
Example C64_clusters_case : let near i := nth i [[2]; [3]; [0; 4]; [1]; [2]; []]%nat [] in let types := [0; 0; 0; 0; 1; 0] in
  (forall i m, (i < 6)%nat -> In m (near i) -> (m < 6)%nat /\ In i (near m)) /\
  exists s', findClusters types near 6 clustering0 = Some s' /\ cl_clusters s' = [0; 1; 0; 1; 2; 3] /\ cl_sizes s' = [2; 2; 1; 1] /\ cl_max s' = 2.
Proof.
  cbv zeta. split.
  - intros i m Hi. do 6 (destruct i as [|i]; [cbn; intros H; repeat (destruct H as [<- |H]); try destruct H; cbn; split; try lia; tauto|]). lia.
  - eexists. split; [vm_compute; reflexivity|]. repeat split.
Qed.

(* With the range query of the cells and equal radii: two particles are in the same cluster if and only if a chain of particles, each closer
   than 2r + skin to the one before (and of the same type, if asked for), leads from one to the other. *)
Definition near_of (b : box) (e : env) (ps : list particle) (d : Q) (i : nat) : list nat :=
  match nth_error ps i with Some p => getAllWithin e b ps (Some i) (px p) d | None => [] end.
Theorem C64_touching_partial (b : box) (e : env) (ps : list particle) (r sk : Q) (s : clustering) :
  search_built b e -> box_large_enough (min_small_cutoff e) b -> stencil_range (min_small_cutoff e) b -> Forall (fun a => (lo a <= hi a)%Q) b ->
  let d := (2 * r + sk)%Q in (0 < d)%Q -> Forall (long_axis d) (grid e) -> ps <> [] ->
  (forall p, In p ps -> inside b (px p) /\ 0 <= ptype p /\ interacts e (ptype p) = true /\ prd p = r) ->
  exists s', findClusters (map ptype ps) (near_of b e ps d) (length ps) s = Some s' /\ length (cl_clusters s') = length ps /\
  forall i j, (i < length ps)%nat -> (j < length ps)%nat ->
    (nth i (cl_clusters s') (-1) = nth j (cl_clusters s') (-1) <->
     clos_refl_trans nat (fun k m => exists pk pm, nth_error ps k = Some pk /\ nth_error ps m = Some pm /\ k <> m /\
        (getDistanceSqr b (px pk) (px pm) < d * d)%Q /\ (cl_same s = true -> ptype pk = ptype pm)) i j).
Proof.
  intros Hb Hl Hst Hlo d Hd Hlong Hne Hps.
  assert (Hw : forall p, In p ps -> wrapped b (px p)).
  { intros p Hp. destruct (Hps p Hp) as (H & _). unfold wrapped, inside in *. revert H. generalize (px p). intros x H. clear - H. induction H; constructor; auto. intros _. lra. }
  assert (Q : forall k pk, nth_error ps k = Some pk -> forall m, In m (near_of b e ps d k) <-> exists pm, nth_error ps m = Some pm /\ k <> m /\ (getDistanceSqr b (px pk) (px pm) < d * d)%Q).
  { intros k pk Ek m. unfold near_of. rewrite Ek. pose proof (nth_error_In _ _ Ek) as Hin. destruct (Hps pk Hin) as (Hi & _).
    destruct (C20_range_query_partial b e ps (Some k) (px pk) d Hb Hl Hst Hd Hi Hw Hlong) as [_ H]. rewrite H. split.
    - intros (p & E & _ & _ & X & Y). exists p. split; [exact E|]. split; [congruence|exact Y].
    - intros (p & E & X & Y). pose proof (nth_error_In _ _ E) as Hp. destruct (Hps p Hp) as (_ & T & I & _). exists p. repeat split; try assumption. congruence. }
  destruct (C64_clusters_partial (map ptype ps) (near_of b e ps d) (length ps) s) as (s' & E & L & _ & _ & C & _).
  - destruct ps; [congruence|cbn; lia].
  - intros i Hi. destruct (nth_error ps i) as [p|] eqn:Ei; [|apply nth_error_None in Ei; lia]. exists (ptype p). rewrite nth_error_map, Ei. split; [reflexivity|].
    destruct (Hps p (nth_error_In _ _ Ei)) as (_ & T & _). lia.
  - intros i m Hi Hm. destruct (nth_error ps i) as [p|] eqn:Ei; [|apply nth_error_None in Ei; lia]. destruct (proj1 (Q i p Ei m) Hm) as (pm & Em & X & Y).
    split; [apply nth_error_Some; congruence|]. apply (Q m pm Em). exists p. split; [exact Ei|]. split; [congruence|].
    eapply Qle_lt_trans; [|exact Y]. apply Qle_lteq. right. now apply getDistanceSqr_sym.
  - exists s'. split; [exact E|]. split; [exact L|]. intros i j Hi Hj. rewrite (C i j Hi Hj). clear C. split.
    + intros H. assert (Hi0 := Hi). induction H as [|k m H IH Hin Et]; [apply rt_refl|].
      assert (Hk : (k < length ps)%nat).
      { unfold near_of in Hin. destruct (nth_error ps k) eqn:Ek; [apply nth_error_Some; congruence|destruct Hin]. }
      apply rt_trans with k; [apply IH; exact Hk|]. destruct (nth_error ps k) as [pk|] eqn:Ek; [|apply nth_error_None in Ek; lia].
      destruct (proj1 (Q k pk Ek m) Hin) as (pm & Em & X & Y). apply rt_step. exists pk, pm. split; [exact Ek|]. split; [exact Em|]. split; [exact X|]. split; [exact Y|].
      intros S. specialize (Et S). rewrite !nth_error_map, Ek, Em in Et. cbn in Et. congruence.
    + intros H. apply clos_rt_rtn1 in H. induction H as [|k m (pk & pm & Ek & Em & X & Y & Z) H IH]; [constructor|].
      assert (Hk : (k < length ps)%nat) by (apply nth_error_Some; congruence). apply conn_step with k; [now apply IH|apply (Q k pk Ek); eauto|].
      intros S. rewrite !nth_error_map, Ek, Em. cbn. now rewrite (Z S).
Qed.
Print Assumptions C64_touching_partial.

Definition touch_ps : list particle := [P [1#4; 5]%Q (2#5); P [79#4; 5]%Q (2#5); P [10; 15]%Q (2#5); P [10; 31#2]%Q (2#5); P [1; 16#3]%Q (2#5)].
Example C64_touching_case :
  search_built ex_box ex_env /\ box_large_enough (min_small_cutoff ex_env) ex_box /\ stencil_range (min_small_cutoff ex_env) ex_box /\ Forall (fun a => (lo a <= hi a)%Q) ex_box /\
  Forall (long_axis (2 * (2#5) + (1#5))) (grid ex_env) /\
  (forall p, In p touch_ps -> inside ex_box (px p) /\ 0 <= ptype p /\ interacts ex_env (ptype p) = true /\ prd p = (2#5)%Q) /\
  exists s', findClusters (map ptype touch_ps) (near_of ex_box ex_env touch_ps (2 * (2#5) + (1#5))) 5 clustering0 = Some s' /\ cl_clusters s' = [0; 0; 1; 1; 0].
Proof.
  destruct C20_C21_hypotheses_met as (A & B & C & _). split; [exact A|]. split; [exact B|]. split; [exact C|]. split; [repeat constructor; vm_compute; discriminate|].
  split; [repeat constructor; vm_compute; intros HW; try discriminate; exfalso; apply HW; reflexivity|]. split.
  - intros p Hp. repeat (destruct Hp as [<- |Hp]; [split; [repeat constructor; vm_compute; try discriminate; reflexivity|]; split; [vm_compute; discriminate|]; split; reflexivity|]). destruct Hp.
  - eexists. split; [vm_compute; reflexivity|reflexivity].
Qed.

(* Unequal radii: the search of a particle reaches twice its own radius, so whether a large and a small particle that touch are in the same
   cluster depends on the order of the slots. On a line: radii 3/2 and 1/2, distance 2. *)
Definition reach (ps : list (Q * Q)) (i : nat) : list nat :=
  match nth_error ps i with
  | None => []
  | Some (x, r) => filter (fun j => negb (j =? i)%nat && match nth_error ps j with Some (y, _) => Qltb ((x - y) * (x - y)) (2 * r * (2 * r)) | None => false end) (seq 0 (length ps))
  end.
Theorem C64_order_refuted : exists s1 s2,
  findClusters [0; 0] (reach [(0, 3#2); (2, 1#2)]%Q) 2 clustering0 = Some s1 /\ findClusters [0; 0] (reach [(2, 1#2); (0, 3#2)]%Q) 2 clustering0 = Some s2 /\
  cl_n s1 = 1 /\ cl_n s2 = 2.
Proof. eexists. eexists. split; [vm_compute; reflexivity|]. split; [vm_compute; reflexivity|]. split; reflexivity. Qed.
Print Assumptions C64_order_refuted.
(* Removed particles: the number of particles is used as the number of slots. A neighbour in a later slot is written outside of the vector;
   without neighbours that particle is in no cluster; the unused slot makes the snapshot write outside; an unused slot 0 is a cluster. *)
Theorem C64_holes_refuted :
  findClusters [0; -1; 0] (fun i => nth i [[2]; []; [0]]%nat []) 2 clustering0 = None /\
  (exists s, findClusters [0; -1; 0] (fun _ => []) 2 clustering0 = Some s /\ cl_clusters s = [0; -1] /\ snapshot s = None) /\
  (exists s, findClusters [-1; 0] (fun _ => []) 1 clustering0 = Some s /\ cl_clusters s = [0] /\ cl_sizes s = [1]).
Proof. split; [reflexivity|]. split; eexists; (split; [vm_compute; reflexivity|]); split; reflexivity. Qed.
Print Assumptions C64_holes_refuted.
(* The largest size is never reset, and nothing is reset when there are no particles. *)
Theorem C64_again_refuted : exists s1 s2,
  findClusters [0; 0] (fun i => nth i [[1]; [0]]%nat []) 2 clustering0 = Some s1 /\ findClusters [0; 0] (fun _ => []) 2 s1 = Some s2 /\ cl_sizes s2 = [1; 1] /\ cl_max s2 = 2 /\
  forall types near, findClusters types near 0 s2 = Some s2.
Proof. eexists. eexists. split; [vm_compute; reflexivity|]. split; [vm_compute; reflexivity|]. split; [reflexivity|]. split; reflexivity. Qed.
Print Assumptions C64_again_refuted.
