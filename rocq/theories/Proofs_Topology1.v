(* Proofs about the decomposition: C36. *)
From Coq Require Import String.
From Verif Require Import Lib Model_Geometry Model_Store Model_Buffer Model_Topology Spec_Topology.
From Coq Require Import ZifyBool ZifyNat.
Local Open Scope list_scope.

Lemma widest_from_lt b : forall d dim w n, (dim < n)%nat -> (d + length b <= n)%nat -> (widest_from d b dim w < n)%nat.
Proof.
  induction b as [|[m M] b IH]; intros d dim w n H1 H2; cbn [widest_from]; [exact H1|]. cbn [length] in H2.
  destruct (Qltb w (M - m)); apply IH; lia.
Qed.
Lemma widest_lt b : (1 <= length b)%nat -> (widest b < length b)%nat.
Proof. intros H. apply widest_from_lt; lia. Qed.

Lemma nonempty_at b d : nonempty b -> (d < length b)%nat -> exists m M, nth_error b d = Some (m, M) /\ m < M /\ min_at b d = m /\ wd_at b d = M - m.
Proof.
  intros [_ H] Hd. destruct (nth_error b d) as [[m M]|] eqn:E; [|apply nth_error_None in E; lia].
  exists m, M. split; [reflexivity|]. split; [apply H; eapply nth_error_In; eauto|]. unfold min_at, wd_at. rewrite E. auto.
Qed.

Lemma set_max_len d v b : length (set_max d v b) = length b.
Proof. revert d. induction b as [|[m M] b IH]; intros [|d]; cbn; auto. Qed.
Lemma set_min_len d v b : length (set_min d v b) = length b.
Proof. revert d. induction b as [|[m M] b IH]; intros [|d]; cbn; auto. Qed.

Lemma set_max_nonempty d v b m M : nonempty b -> nth_error b d = Some (m, M) -> m < v -> nonempty (set_max d v b).
Proof.
  intros [H1 H2] E Hv. split; [now rewrite set_max_len|]. clear H1. revert d E. induction b as [|[m0 M0] b IH]; intros d E m' M' Hin; [destruct d; discriminate|].
  destruct d as [|d]; cbn in *.
  - injection E as -> ->. destruct Hin as [Hin|Hin]; [injection Hin as <- <-; exact Hv|]. apply H2. now right.
  - destruct Hin as [Hin|Hin]; [injection Hin as <- <-; apply H2; now left|]. apply (IH (fun m M h => H2 m M (or_intror h)) d E). exact Hin.
Qed.
Lemma set_min_nonempty d v b m M : nonempty b -> nth_error b d = Some (m, M) -> v < M -> nonempty (set_min d v b).
Proof.
  intros [H1 H2] E Hv. split; [now rewrite set_min_len|]. clear H1. revert d E. induction b as [|[m0 M0] b IH]; intros d E m' M' Hin; [destruct d; discriminate|].
  destruct d as [|d]; cbn in *.
  - injection E as -> ->. destruct Hin as [Hin|Hin]; [injection Hin as <- <-; exact Hv|]. apply H2. now right.
  - destruct Hin as [Hin|Hin]; [injection Hin as <- <-; apply H2; now left|]. apply (IH (fun m M h => H2 m M (or_intror h)) d E). exact Hin.
Qed.

Lemma part_of_refl b : part_of b b.
Proof. induction b; constructor; auto. split; lra. Qed.
Lemma part_of_trans a b c : part_of a b -> part_of b c -> part_of a c.
Proof.
  intros H. revert c. induction H as [|x y a b [H1 H2] H IH]; intros c Hc; inversion Hc as [|? z ? c' [H3 H4] H5]; subst; constructor; auto.
  - split; lra.
  - now apply IH.
Qed.
Lemma set_max_part d v b m M : nth_error b d = Some (m, M) -> v <= M -> part_of (set_max d v b) b.
Proof.
  revert d. induction b as [|[m0 M0] b IH]; intros [|d] E Hv; try discriminate; cbn in *.
  - injection E as -> ->. constructor; [cbn; split; lra|apply part_of_refl].
  - constructor; [cbn; split; lra|]. now apply IH.
Qed.
Lemma set_min_part d v b m M : nth_error b d = Some (m, M) -> m <= v -> part_of (set_min d v b) b.
Proof.
  revert d. induction b as [|[m0 M0] b IH]; intros [|d] E Hv; try discriminate; cbn in *.
  - injection E as -> ->. constructor; [cbn; split; lra|apply part_of_refl].
  - constructor; [cbn; split; lra|]. now apply IH.
Qed.
Lemma inside_part a b x : part_of a b -> inside a x -> inside b x.
Proof.
  intros H. revert x. induction H as [|p q a b [H1 H2] H IH]; intros x Hx; inversion Hx as [|? xd ? x' [H3 H4] H5]; subst; constructor; auto.
  - split; lra.
  - now apply IH.
Qed.

Lemma inside_max d v b m M x xd : nth_error b d = Some (m, M) -> v <= M -> nth_error x d = Some xd ->
  (inside (set_max d v b) x <-> inside b x /\ xd < v).
Proof.
  intros E Hv Ex. split.
  - intros H. split; [eapply inside_part; [eapply set_max_part; eauto|exact H]|].
    revert d x E Ex H. induction b as [|[m0 M0] b IH]; intros [|d] x E Ex H; try discriminate; cbn in *.
    + inversion H as [|? y ? x' [H1 H2] H3]; subst. cbn in *. injection Ex as <-. exact H2.
    + inversion H as [|? y ? x' [H1 H2] H3]; subst. apply (IH d x' E Ex H3).
  - intros [H Hl]. revert d x E Ex H. induction b as [|[m0 M0] b IH]; intros [|d] x E Ex H; try discriminate; cbn in *.
    + inversion H as [|? y ? x' [H1 H2] H3]; subst. cbn in *. injection Ex as <-. constructor; auto.
    + inversion H as [|? y ? x' [H1 H2] H3]; subst. constructor; [split; auto|]. now apply IH.
Qed.
Lemma inside_min d v b m M x xd : nth_error b d = Some (m, M) -> m <= v -> nth_error x d = Some xd ->
  (inside (set_min d v b) x <-> inside b x /\ v <= xd).
Proof.
  intros E Hv Ex. split.
  - intros H. split; [eapply inside_part; [eapply set_min_part; eauto|exact H]|].
    revert d x E Ex H. induction b as [|[m0 M0] b IH]; intros [|d] x E Ex H; try discriminate; cbn in *.
    + inversion H as [|? y ? x' [H1 H2] H3]; subst. cbn in *. injection Ex as <-. exact H1.
    + inversion H as [|? y ? x' [H1 H2] H3]; subst. apply (IH d x' E Ex H3).
  - intros [H Hl]. revert d x E Ex H. induction b as [|[m0 M0] b IH]; intros [|d] x E Ex H; try discriminate; cbn in *.
    + inversion H as [|? y ? x' [H1 H2] H3]; subst. cbn in *. injection Ex as <-. constructor; auto.
    + inversion H as [|? y ? x' [H1 H2] H3]; subst. constructor; [split; auto|]. now apply IH.
Qed.

Lemma inside_contains b x : length x = length b -> (inside b x <-> containsN b (map Some x) = true).
Proof.
  revert x. induction b as [|[m M] b IH]; intros [|xd x] H; try discriminate; cbn [map containsN].
  - split; [reflexivity|constructor].
  - specialize (IH x ltac:(cbn in H; lia)). destruct (Qltb_spec xd m) as [H1|H1]; cbn [orb].
    { split; [|discriminate]. intros Hi. inversion Hi as [|? ? ? ? [H2 H3]]; subst. cbn in *. lra. }
    destruct (Qleb_spec M xd) as [H2|H2].
    { split; [|discriminate]. intros Hi. inversion Hi as [|? ? ? ? [H3 H4]]; subst. cbn in *. lra. }
    rewrite <- IH. split; intros Hi.
    + now inversion Hi.
    + constructor; [cbn; split; lra|exact Hi].
Qed.

Lemma nth_map_Some (x : list Q) d xd : nth_error x d = Some xd -> @nth num d (map Some x) None = Some xd.
Proof. revert d. induction x as [|y x IH]; intros [|d] H; try discriminate; cbn in *; [congruence|auto]. Qed.

Lemma inside_len b x : inside b x -> length x = length b.
Proof. intros H. symmetry. eapply Forall2_len. exact H. Qed.

(* The split point lies strictly inside. *)
Lemma split_strict nl n w : (1 <= nl)%nat -> (nl < n)%nat -> 0 < w ->
  0 < inject_Z (Z.of_nat nl) / inject_Z (Z.of_nat n) * w /\ inject_Z (Z.of_nat nl) / inject_Z (Z.of_nat n) * w < w.
Proof.
  intros H1 H2 Hw.
  assert (Ha : 0 < inject_Z (Z.of_nat nl)) by (change 0 with (inject_Z 0); rewrite <- Zlt_Qlt; lia).
  assert (Hb : inject_Z (Z.of_nat nl) < inject_Z (Z.of_nat n)) by (rewrite <- Zlt_Qlt; lia).
  set (a := inject_Z (Z.of_nat nl)) in *. set (c := inject_Z (Z.of_nat n)) in *.
  assert (Hc : 0 < c) by lra. assert (Hp : 0 < a / c) by (apply Qlt_shift_div_l; lra).
  assert (Hl : a / c < 1) by (apply Qlt_shift_div_r; lra). split; nra.
Qed.

Definition good_tree (b : bounds) (t : kdtree) : Prop :=
  (forall r lb, In (r, lb) (leaves t) -> nonempty lb /\ part_of lb b /\ length lb = length b /\
     forall x, inside lb x -> descend t (map Some x) = r) /\
  (forall x, inside b x -> exists lb, In (descend t (map Some x), lb) (leaves t) /\ inside lb x) /\
  (forall x, In (descend t x) (map fst (leaves t))).

Lemma leaf_good r b : nonempty b -> good_tree b (Leaf r b).
Proof.
  intros Hb. split; [|split].
  - intros r' lb [H|[]]. injection H as <- <-. repeat split; auto; try apply Hb. apply part_of_refl.
  - intros x Hx. exists b. split; [now left|exact Hx].
  - intros x. now left.
Qed.

Lemma node_good b d m M v l r : nonempty b -> nth_error b d = Some (m, M) -> m < v -> v < M ->
  good_tree (set_max d v b) l -> good_tree (set_min d v b) r -> good_tree b (Node b d v l r).
Proof.
  intros Hb E H1 H2 (L1 & L2 & L3) (R1 & R2 & R3). split; [|split].
  - intros k lb Hin. cbn [leaves] in Hin. apply in_app_or in Hin as [Hin|Hin].
    + destruct (L1 k lb Hin) as (A & B & C & D). split; [exact A|]. split.
      { eapply part_of_trans; [exact B|]. eapply set_max_part; [exact E|lra]. }
      split; [now rewrite C, set_max_len|]. intros x Hx. cbn [descend].
      assert (Hx' : inside (set_max d v b) x) by (eapply inside_part; eauto).
      assert (Hl : length x = length b) by (rewrite (inside_len _ _ Hx'); apply set_max_len).
      destruct (nth_error x d) as [xd|] eqn:Ex.
      2:{ apply nth_error_None in Ex. assert (d < length b)%nat by (apply nth_error_Some; congruence). lia. }
      rewrite (nth_map_Some x d xd Ex). apply (inside_max d v b m M x xd E ltac:(lra) Ex) in Hx' as [_ Hv].
      destruct (Qltb_spec xd v); [now apply D|lra].
    + destruct (R1 k lb Hin) as (A & B & C & D). split; [exact A|]. split.
      { eapply part_of_trans; [exact B|]. eapply set_min_part; [exact E|lra]. }
      split; [now rewrite C, set_min_len|]. intros x Hx. cbn [descend].
      assert (Hx' : inside (set_min d v b) x) by (eapply inside_part; eauto).
      assert (Hl : length x = length b) by (rewrite (inside_len _ _ Hx'); apply set_min_len).
      destruct (nth_error x d) as [xd|] eqn:Ex.
      2:{ apply nth_error_None in Ex. assert (d < length b)%nat by (apply nth_error_Some; congruence). lia. }
      rewrite (nth_map_Some x d xd Ex). apply (inside_min d v b m M x xd E ltac:(lra) Ex) in Hx' as [_ Hv].
      destruct (Qltb_spec xd v); [lra|now apply D].
  - intros x Hx. assert (Hl : length x = length b) by (eapply inside_len; exact Hx).
    destruct (nth_error x d) as [xd|] eqn:Ex.
    2:{ apply nth_error_None in Ex. assert (d < length b)%nat by (apply nth_error_Some; congruence). lia. }
    cbn [descend leaves]. rewrite (nth_map_Some x d xd Ex). destruct (Qltb_spec xd v) as [Hv|Hv].
    + destruct (L2 x) as (lb & Hin & Hi). { apply (inside_max d v b m M x xd E ltac:(lra) Ex). auto. }
      exists lb. split; [apply in_or_app; now left|exact Hi].
    + destruct (R2 x) as (lb & Hin & Hi). { apply (inside_min d v b m M x xd E ltac:(lra) Ex). split; auto. lra. }
      exists lb. split; [apply in_or_app; now right|exact Hi].
  - intros x. cbn [descend leaves]. rewrite map_app. apply in_or_app.
    destruct (match nth d x None with Some q => Qltb q v | None => false end); [left; apply L3|right; apply R3].
Qed.

Lemma decomp_good fuel : forall startP endP b, (startP + 2 <= endP)%nat -> (endP - startP <= fuel)%nat -> nonempty b ->
  map fst (leaves (compute_decomp fuel startP endP b)) = seq startP (endP - startP) /\
  good_tree b (compute_decomp fuel startP endP b).
Proof.
  induction fuel as [|fuel IH]; intros startP endP b Hp Hf Hb; [lia|]. cbn [compute_decomp].
  set (n := (endP - startP)%nat) in *. set (nl := (n / 2)%nat). set (nr := (n - nl)%nat).
  assert (Hn : (2 <= n)%nat) by lia.
  assert (Hnl : (1 <= nl)%nat /\ (2 * nl <= n)%nat).
  { pose proof (Nat.div_mod n 2 ltac:(lia)). pose proof (Nat.mod_upper_bound n 2 ltac:(lia)). fold nl in H. lia. }
  set (d := widest b). assert (Hd : (d < length b)%nat) by (apply widest_lt; apply Hb).
  destruct (nonempty_at b d Hb Hd) as (m & M & E & HmM & Em & Ew). rewrite Em, Ew.
  destruct (split_strict nl n (M - m) ltac:(lia) ltac:(lia) ltac:(lra)) as [S1 S2].
  set (v := m + inject_Z (Z.of_nat nl) / inject_Z (Z.of_nat n) * (M - m)).
  assert (V1 : m < v) by (unfold v; lra). assert (V2 : v < M) by (unfold v; lra).
  pose proof (set_max_nonempty d v b m M Hb E V1) as NL. pose proof (set_min_nonempty d v b m M Hb E V2) as NR.
  assert (IL : map fst (leaves (if (1 <? nl)%nat then compute_decomp fuel startP (endP - nr) (set_max d v b) else Leaf startP (set_max d v b))) = seq startP nl /\
    good_tree (set_max d v b) (if (1 <? nl)%nat then compute_decomp fuel startP (endP - nr) (set_max d v b) else Leaf startP (set_max d v b))).
  { destruct (Nat.ltb_spec 1 nl) as [H|H].
    - destruct (IH startP (endP - nr)%nat (set_max d v b) ltac:(lia) ltac:(lia) NL) as [A B].
      replace (endP - nr - startP)%nat with nl in A by lia. auto.
    - replace nl with 1%nat by lia. split; [reflexivity|]. now apply leaf_good. }
  assert (IR : map fst (leaves (if (1 <? nr)%nat then compute_decomp fuel (endP - nr) endP (set_min d v b) else Leaf (endP - 1) (set_min d v b))) = seq (startP + nl) nr /\
    good_tree (set_min d v b) (if (1 <? nr)%nat then compute_decomp fuel (endP - nr) endP (set_min d v b) else Leaf (endP - 1) (set_min d v b))).
  { destruct (Nat.ltb_spec 1 nr) as [H|H].
    - destruct (IH (endP - nr)%nat endP (set_min d v b) ltac:(lia) ltac:(lia) NR) as [A B].
      replace (endP - (endP - nr))%nat with nr in A by lia. replace (endP - nr)%nat with (startP + nl)%nat in * by lia. auto.
    - assert (Hnr : nr = 1%nat) by lia. rewrite Hnr. replace (endP - 1)%nat with (startP + nl)%nat by lia. split; [reflexivity|]. now apply leaf_good. }
  destruct IL as [IL1 IL2], IR as [IR1 IR2]. split.
  - cbn [leaves]. rewrite map_app, IL1, IR1, <- seq_app. f_equal. lia.
  - now apply (node_good b d m M v).
Qed.

Lemma tree_good numProc b : (2 <= numProc)%nat -> nonempty b ->
  map fst (leaves (topology_tree numProc b)) = seq 0 numProc /\ good_tree b (topology_tree numProc b).
Proof.
  intros H Hb. destruct (decomp_good numProc 0 numProc b ltac:(lia) ltac:(lia) Hb) as [A B]. rewrite Nat.sub_0_r in A. auto.
Qed.

(* find by rank *)
Lemma find_rank (l : list (nat * bounds)) k : NoDup (map fst l) -> forall lb, In (k, lb) l ->
  find (fun rb => (fst rb =? k)%nat) l = Some (k, lb).
Proof.
  induction l as [|[r b] l IH]; intros Hn lb Hin; [destruct Hin|]. cbn in Hn. inversion Hn; subst. cbn [find fst].
  destruct (Nat.eqb_spec r k) as [->|Hr].
  - destruct Hin as [Hin|Hin]; [now injection Hin as ->|]. exfalso. apply H1. change k with (fst (k, lb)). now apply in_map.
  - destruct Hin as [Hin|Hin]; [congruence|]. auto.
Qed.

Lemma process_bounds_leaf t k lb : NoDup (map fst (leaves t)) -> In (k, lb) (leaves t) -> process_bounds k t = Some lb.
Proof.
  intros Hn Hin. unfold process_bounds. assert (Hr : NoDup (map fst (rev (leaves t)))) by (rewrite map_rev; apply NoDup_rev; exact Hn).
  rewrite (find_rank (rev (leaves t)) k Hr lb); [reflexivity|]. now apply -> in_rev.
Qed.
Lemma process_bounds_inv t k lb : process_bounds k t = Some lb -> In (k, lb) (leaves t).
Proof.
  unfold process_bounds. destruct (find _ _) as [[r b]|] eqn:E; [|discriminate]. cbn. intros H. injection H as ->.
  apply find_some in E as [H1 H2]. cbn in H2. apply Nat.eqb_eq in H2. subst. now apply in_rev.
Qed.
Lemma leaf_exists t n k : map fst (leaves t) = seq 0 n -> (k < n)%nat -> exists lb, In (k, lb) (leaves t) /\ process_bounds k t = Some lb.
Proof.
  intros E Hk. assert (Hin : In k (map fst (leaves t))) by (rewrite E; apply in_seq; lia).
  apply in_map_iff in Hin as ([r lb] & Hr & Hin). cbn in Hr. subst. exists lb. split; [exact Hin|].
  apply process_bounds_leaf; [rewrite E; apply seq_NoDup|exact Hin].
Qed.
