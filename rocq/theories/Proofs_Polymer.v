From Verif Require Import Lib Model_Geometry Proofs_Geometry Model_Fill Spec_Fill Proofs_Fill Model_Polymer Spec_Polymer.
From Coq Require Import Qround Sorting.Sorted Sorting.Permutation.
Local Open Scope Q_scope.

Lemma N2Q_S n : N2Q (S n) == N2Q n + 1.
Proof. unfold N2Q. rewrite Nat2Z.inj_succ. unfold Z.succ. rewrite inject_Z_plus. reflexivity. Qed.
Lemma N2Q_nonneg n : 0 <= N2Q n.
Proof. unfold N2Q. change 0 with (inject_Z 0). rewrite <- Zle_Qle. lia. Qed.
Lemma N2Q_plus m n : N2Q (m + n) == N2Q m + N2Q n.
Proof. unfold N2Q. rewrite Nat2Z.inj_add, inject_Z_plus. reflexivity. Qed.
Lemma N2Q_to_nat z : (0 <= z)%Z -> N2Q (Z.to_nat z) == inject_Z z.
Proof. intros H. unfold N2Q. rewrite Z2Nat.id by exact H. reflexivity. Qed.
Lemma N2Q_le m n : (m <= n)%nat -> N2Q m <= N2Q n.
Proof. intros H. unfold N2Q. rewrite <- Zle_Qle. lia. Qed.

(* sorting *)
Lemma insert_perm a l : Permutation (insert a l) (a :: l).
Proof. induction l as [|b l IH]; cbn [insert]; [constructor; constructor|]. destruct (Qle_bool a b); [reflexivity|]. rewrite IH. apply perm_swap. Qed.
Lemma isort_perm l : Permutation (isort l) l.
Proof. induction l as [|a l IH]; [constructor|]. cbn [isort]. rewrite insert_perm, IH. reflexivity. Qed.
Lemma insert_sorted a l : Sorted Qle l -> Sorted Qle (insert a l).
Proof.
  induction 1 as [|b l S IH H]; cbn [insert]; [repeat constructor|]. destruct (Qle_bool a b) eqn:E.
  - apply Qle_bool_iff in E. constructor; [constructor; assumption|constructor; exact E].
  - assert (B : b <= a). { destruct (Qlt_le_dec a b) as [L|L]; [exfalso|exact L]. assert (Qle_bool a b = true) by (apply Qle_bool_iff; lra). congruence. }
    constructor; [exact IH|]. destruct l as [|c l]; cbn [insert]; [constructor; exact B|]. destruct (Qle_bool a c); constructor; [exact B|]. inversion H; assumption.
Qed.
Lemma isort_sorted l : Sorted Qle (isort l).
Proof. induction l as [|a l IH]; [constructor|]. apply insert_sorted. exact IH. Qed.
Lemma isort_length l : length (isort l) = length l.
Proof. apply Permutation_length, isort_perm. Qed.
Lemma marks_length rnd phi len np : length (marks rnd phi len np) = S (S np).
Proof. unfold marks. rewrite isort_length. cbn [length]. rewrite app_length, map_length, seq_length. cbn. lia. Qed.

(* links *)
Lemma links_floor u gap rC more : 0 <= u -> links u gap rC more = Qfloor ((1 # 2) * gap / rC + inject_Z more).
Proof. intros H. unfold links. cbv zeta. set (e := (1 # 2) * gap / rC + inject_Z more). pose proof (Qfloor_le e). destruct (Qltb_spec u (inject_Z (Qfloor e) - e)); [lra|reflexivity]. Qed.
Lemma links_bounds u gap rC more : 0 <= u -> 0 <= gap -> 0 < rC -> (more <= links u gap rC more)%Z /\ inject_Z (links u gap rC more) * (2 * rC) <= gap + inject_Z more * (2 * rC).
Proof.
  intros Hu Hg Hr. rewrite links_floor by exact Hu. assert (G : 0 <= (1 # 2) * gap / rC) by (apply Qle_shift_div_l; lra). set (h := (1 # 2) * gap / rC) in *. assert (E : h * (2 * rC) == gap) by (unfold h; field; lra). clearbody h.
  pose proof (Qfloor_le (h + inject_Z more)) as F. pose proof (Qlt_floor (h + inject_Z more)) as F2. split.
  - apply Z.lt_succ_r. rewrite Zlt_Qlt. unfold Z.succ in *. rewrite inject_Z_plus in *. lra.
  - set (f := inject_Z (Qfloor (h + inject_Z more))) in *. set (m := inject_Z more) in *. clearbody f m. rewrite <- E. assert (f * (2 * rC) <= (h + m) * (2 * rC)) by (apply Qmult_le_compat_r; lra). lra.
Qed.

(* number of primaries *)
Definition count (l : list bool) : nat := length (filter (fun t => t) l).
Lemma count_app a b : count (a ++ b) = (count a + count b)%nat.
Proof. unfold count. rewrite filter_app, app_length. reflexivity. Qed.
Lemma count_repeat n : count (repeat false n) = 0%nat.
Proof. induction n; [reflexivity|]. exact IHn. Qed.
Lemma ordering_count rnd rP rC l : forall k first, count (ordering rnd k first rP rC l) = (length l - 2)%nat.
Proof.
  induction l as [|a l IH]; intros k first; [reflexivity|]. cbn [ordering]. destruct l as [|b [|c l']]; [reflexivity|apply count_repeat|].
  cbv zeta. rewrite count_app, count_repeat. change (count (true :: ?x)) with (S (count x)). rewrite IH. cbn [length]. lia.
Qed.

Lemma nth_repeat_false n j : nth_error (repeat false n) j <> Some true.
Proof. intros H. apply nth_error_In, repeat_spec in H. discriminate. Qed.
Lemma ordering_gap rnd rP rC : 0 < rC -> (forall k, 0 <= rnd k) -> (0 <= extra rP rC)%Z -> forall l k, Sorted Qle l ->
  (forall j, nth_error (ordering rnd k false rP rC l) j = Some true -> (Z.to_nat (extra rP rC) <= j)%nat) /\
  (forall first i j, (i < j)%nat -> nth_error (ordering rnd k first rP rC l) i = Some true -> nth_error (ordering rnd k first rP rC l) j = Some true -> (i + Z.to_nat (extra rP rC) + 1 <= j)%nat).
Proof.
  intros Hr Hu He. induction l as [|a l IH]; intros k S; [split; intros; destruct j; discriminate|].
  destruct l as [|b [|c l']].
  - split; intros; cbn in *; destruct j; discriminate.
  - split; intros; cbn [ordering] in *; exfalso; eapply nth_repeat_false; eassumption.
  - inversion S as [|? ? S' H']; subst. assert (G : 0 <= b - a) by (inversion H'; lra). destruct (links_bounds (rnd k) (b - a) rC (extra rP rC) (Hu k) G Hr) as [B _].
    destruct (IH (Datatypes.S k) S') as [I1 I2]. cbn [ordering] in *. cbv zeta. set (rest := match l' with [] => _ | _ => _ end) in *. set (n0 := links (rnd k) (b - a) rC (extra rP rC)) in *. split.
    + intros j H. destruct (Nat.lt_ge_cases j (Z.to_nat n0)) as [L|L]; [|lia]. rewrite nth_error_app1 in H by (rewrite repeat_length; exact L). exfalso. eapply nth_repeat_false; exact H.
    + intros first i j Hij Hi Hj. set (n1 := Z.to_nat (if first then Z.max 0 (n0 - 1) else n0)) in *. assert (Hi1 : (n1 <= i)%nat). { destruct (Nat.lt_ge_cases i n1) as [L|L]; [|lia]. rewrite nth_error_app1 in Hi by (rewrite repeat_length; exact L). exfalso. eapply nth_repeat_false; exact Hi. }
      rewrite nth_error_app2 in Hi by (rewrite repeat_length; exact Hi1). rewrite nth_error_app2 in Hj by (rewrite repeat_length; lia). rewrite repeat_length in *.
      destruct (j - n1)%nat as [|j'] eqn:Ej; [lia|]. cbn [nth_error] in Hj. destruct (i - n1)%nat as [|i'] eqn:Ei.
      * specialize (I1 j' Hj). lia.
      * cbn [nth_error] in Hi. assert (Q1 : (i' < j')%nat) by lia. specialize (I2 false i' j' Q1 Hi Hj). lia.
Qed.
Lemma last_cons_cons (a b : Q) l : last (a :: b :: l) 0 = last (b :: l) 0. Proof. reflexivity. Qed.
Lemma ordering_length rnd rP rC : 0 < rC -> (forall k, 0 <= rnd k) -> (0 <= extra rP rC)%Z -> forall l k first, Sorted Qle l -> l <> [] ->
  N2Q (length (ordering rnd k first rP rC l)) * (2 * rC) <= last l 0 - hd 0 l + N2Q (length l - 2) * (inject_Z (extra rP rC + 1) * (2 * rC)).
Proof.
  intros Hr Hu He. induction l as [|a l IH]; intros k first S NE; [congruence|]. destruct l as [|b [|c l']].
  - cbn [ordering last hd length Nat.sub]. change (N2Q 0) with 0. lra.
  - cbn [ordering last hd length Nat.sub]. inversion S as [|? ? S' H']; subst. assert (G : 0 <= b - a) by (inversion H'; lra). destruct (links_bounds (rnd k) (b - a) rC 0 (Hu k) G Hr) as [B C]. rewrite repeat_length, N2Q_to_nat by exact B. change (inject_Z 0) with 0 in C. change (N2Q 0) with 0. lra.
  - inversion S as [|? ? S' H']; subst. assert (G : 0 <= b - a) by (inversion H'; lra). destruct (links_bounds (rnd k) (b - a) rC (extra rP rC) (Hu k) G Hr) as [B C].
    specialize (IH (Datatypes.S k) false S' ltac:(discriminate)). rewrite last_cons_cons. cbn [hd] in *. replace (length (a :: b :: c :: l') - 2)%nat with (Datatypes.S (length (b :: c :: l') - 2)) by (cbn; lia).
    set (X := N2Q (length (b :: c :: l') - 2)) in *. cbn [ordering]. cbv zeta. change (match l' with [] => _ | _ => _ end) with (ordering rnd (Datatypes.S k) false rP rC (b :: c :: l')) in *. 
    rewrite app_length, repeat_length. change (length (true :: ?x)) with (Datatypes.S (length x)). rewrite N2Q_plus, !N2Q_S. fold X. set (Y := N2Q (length (ordering rnd (Datatypes.S k) false rP rC (b :: c :: l')))) in *. set (n0 := links (rnd k) (b - a) rC (extra rP rC)) in *.
    assert (N : N2Q (Z.to_nat (if first then Z.max 0 (n0 - 1) else n0)) <= inject_Z n0) by (rewrite N2Q_to_nat by (destruct first; lia); rewrite <- Zle_Qle; destruct first; lia).
    set (W := N2Q (Z.to_nat _)) in *. set (L := last (b :: c :: l') 0) in *. rewrite !inject_Z_plus in *. change (inject_Z 1) with 1 in *. set (n := inject_Z n0) in *. set (e := inject_Z (extra rP rC)) in *. clearbody W X Y L n e.
    assert (W * (2 * rC) <= n * (2 * rC)) by (apply Qmult_le_compat_r; lra). lra.
Qed.

Lemma sorted_nth l : Sorted Qle l -> forall i j a b, (i <= j)%nat -> nth_error l i = Some a -> nth_error l j = Some b -> a <= b.
Proof.
  intros S. apply Sorted_StronglySorted in S; [|intros x y z; apply Qle_trans]. induction S as [|c l S IH F]; intros i j a b Hij Hi Hj; [destruct i; discriminate|].
  destruct i as [|i], j as [|j]; cbn in Hi, Hj; try lia.
  - assert (a = b) by congruence. subst. lra.
  - assert (c = a) by congruence. subst. rewrite Forall_forall in F. apply F. eapply nth_error_In. exact Hj.
  - apply (IH i j a b); auto. lia.
Qed.
Lemma marks_in rnd phi len np x : Draws rnd -> 0 <= phi <= 1 -> 0 <= len -> In x (marks rnd phi len np) -> 0 <= x <= len * (1 - phi).
Proof.
  intros D Hp Hl H. unfold marks in H. apply (Permutation_in _ (isort_perm _)) in H. assert (K : 0 <= len * (1 - phi)) by (apply Qmult_le_0_compat; lra).
  destruct H as [<- |H]; [lra|]. apply in_app_or in H. destruct H as [H|[<- | []]]; [|lra]. apply in_map_iff in H. destruct H as (i & <- & _). destruct (D i) as [A B]. set (u := rnd i) in *. clearbody u.
  assert (E : u * len * (1 - phi) == u * (len * (1 - phi))) by ring. rewrite E. set (m := len * (1 - phi)) in *. clearbody m. split; nra.
Qed.
Lemma marks_span rnd phi len np : Draws rnd -> 0 <= phi <= 1 -> 0 <= len -> last (marks rnd phi len np) 0 - hd 0 (marks rnd phi len np) <= len * (1 - phi).
Proof.
  intros D Hp Hl. pose proof (marks_length rnd phi len np) as L. assert (NE : marks rnd phi len np <> []) by (intros E; rewrite E in L; discriminate).
  assert (A : In (last (marks rnd phi len np) 0) (marks rnd phi len np)). { destruct (exists_last NE) as (l & a & E). rewrite E. rewrite last_last. apply in_or_app. right. left. reflexivity. }
  assert (B : In (hd 0 (marks rnd phi len np)) (marks rnd phi len np)) by (destruct (marks rnd phi len np); [congruence|left; reflexivity]).
  apply (marks_in rnd phi len np) in A; auto. apply (marks_in rnd phi len np) in B; auto. lra.
Qed.

(* beads *)
Lemma wrap1_spec mM x : Modulo (snd mM - fst mM) (wrap1 mM x) x.
Proof. unfold wrap1, Modulo. cbv zeta. destruct (Qltb x (fst mM)); [exists 1%Z; change (inject_Z 1) with 1; ring|]. destruct (Qle_bool (snd mM) x); [exists (-1)%Z; change (inject_Z (-1)) with (-1); ring|exists 0%Z; change (inject_Z 0) with 0; ring]. Qed.
Lemma wrap1_in mM x : fst mM < snd mM -> fst mM - (snd mM - fst mM) <= x < snd mM + (snd mM - fst mM) -> fst mM <= wrap1 mM x < snd mM.
Proof.
  intros H B. unfold wrap1. cbv zeta. destruct (Qltb_spec x (fst mM)) as [L|L]; [lra|]. apply Qnot_lt_le in L. destruct (Qle_bool (snd mM) x) eqn:E; [apply Qle_bool_iff in E; lra|].
  assert (x < snd mM). { apply Qnot_le_lt. intros C. apply Qle_bool_iff in C. congruence. } lra.
Qed.
Lemma Modulo_trans w x y z : Modulo w x y -> Modulo w y z -> Modulo w x z.
Proof. intros [k A] [m B]. exists (k + m)%Z. rewrite A, B, inject_Z_plus. ring. Qed.
Lemma Modulo_plus w x y c : Modulo w x y -> Modulo w (x + c) (y + c).
Proof. intros [k A]. exists k. rewrite A. ring. Qed.
Lemma Modulo_eq w x y z : Modulo w x y -> y == z -> Modulo w x z.
Proof. intros [k A] E. exists k. rewrite A, E. reflexivity. Qed.
Lemma step_nth dx v x : forall d xd vd, nth_error x d = Some xd -> nth_error v d = Some vd -> nth_error (step_along dx v x) d = Some (xd + vd * dx).
Proof.
  unfold step_along. revert v. induction x as [|a x IH]; intros [|b v] d xd vd Hx Hv; try (destruct d; discriminate). destruct d as [|d]; cbn in *; [congruence|]. apply IH; assumption.
Qed.
Lemma wrap_nth b x : forall d mM xd, length b = length x -> nth_error b d = Some mM -> nth_error x d = Some xd -> nth_error (wrap_all b x) d = Some (wrap1 mM xd).
Proof. revert x. induction b as [|m b IH]; intros [|a x] d mM xd L Hb Hx; cbn in L; try lia; [destruct d; discriminate|]. destruct d as [|d]; cbn in *; [congruence|]. apply IH; auto. Qed.
Lemma wrap_length b : forall x, length (wrap_all b x) = length x.
Proof. induction b as [|m b IH]; intros [|a x]; try reflexivity. cbn. rewrite IH. reflexivity. Qed.
Lemma step_length dx v x : length v = length x -> length (step_along dx v x) = length x.
Proof. intros L. unfold step_along. rewrite map_length, combine_length. lia. Qed.

Lemma beads_ids objs b dx rP rC imP imC idP idC v l : forall prev gid x, let p := make_beads objs b dx rP rC imP imC idP idC v prev gid x l in
  length (p_beads p) = length l /\ p_group p = map b_id (p_beads p) /\ p_chain p = (if snd objs then p_group p else []) /\ (fst objs && snd objs = false -> p_bonds p = []) /\
  forall i q, nth_error (p_beads p) i = Some q -> b_id q = (gid + Z.of_nat i)%Z /\ exists t, nth_error l i = Some t /\ b_sg q = (if t then rP else rC) /\ b_im q = (if t then imP else imC) /\ b_type q = (if t then idP else idC).
Proof.
  induction l as [|t l IH]; intros prev gid x; cbn [make_beads]; cbv zeta.
  - cbn. repeat split; auto; try (destruct (snd objs); reflexivity); destruct i; discriminate.
  - set (x' := wrap_all b _). destruct (IH (Some gid) (gid + 1)%Z x') as (A & B & C & D & E). set (p := make_beads objs b dx rP rC imP imC idP idC v (Some gid) (gid + 1) x' l) in *. cbn [p_beads p_group p_chain p_bonds length map].
    split; [rewrite A; reflexivity|]. split; [rewrite B; destruct t; reflexivity|]. split; [rewrite C; destruct (snd objs); reflexivity|]. split; [intros F; rewrite F, (D F); destruct prev; reflexivity|].
    intros [|i] q H; cbn [nth_error] in H.
    + assert (q = (if t then mkBead gid x' rP imP idP else mkBead gid x' rC imC idC)) by congruence. subst q. split; [destruct t; cbn; lia|]. exists t. split; [reflexivity|]. destruct t; repeat split.
    + destruct (E i q H) as (E1 & t' & E2). split; [lia|]. exists t'. exact E2.
Qed.
Lemma beads_positions objs b dx rP rC imP imC idP idC v l : forall prev gid x, length b = length x -> length v = length x -> forall i q, nth_error (p_beads (make_beads objs b dx rP rC imP imC idP idC v prev gid x l)) i = Some q ->
  length (b_x q) = length x /\ forall d mM xd vd, nth_error b d = Some mM -> nth_error x d = Some xd -> nth_error v d = Some vd ->
    exists yd, nth_error (b_x q) d = Some yd /\ Modulo (snd mM - fst mM) yd (xd + vd * dx * (N2Q i + match prev with None => 0 | Some _ => 1 end)) /\
      (fst mM < snd mM -> fst mM <= xd < snd mM -> - (snd mM - fst mM) <= vd * dx <= snd mM - fst mM -> fst mM <= yd < snd mM).
Proof.
  induction l as [|t l IH]; intros prev gid x Lb Lv i q H; cbn [make_beads] in H; cbv zeta in H; [destruct i; discriminate|]. cbn [p_beads] in H. set (dx' := match prev with None => 0 | Some _ => dx end) in *.
  set (x' := wrap_all b (step_along dx' v x)) in *. assert (Lx : length x' = length x) by (unfold x'; rewrite wrap_length, step_length; auto).
  assert (P : forall d mM xd vd, nth_error b d = Some mM -> nth_error x d = Some xd -> nth_error v d = Some vd -> nth_error x' d = Some (wrap1 mM (xd + vd * dx'))).
  { intros d mM xd vd Hb Hx Hv. unfold x'. apply wrap_nth; [rewrite step_length; auto|exact Hb|apply step_nth; assumption]. }
  assert (W : forall mM xd vd, fst mM < snd mM -> fst mM <= xd < snd mM -> - (snd mM - fst mM) <= vd * dx <= snd mM - fst mM -> fst mM <= wrap1 mM (xd + vd * dx') < snd mM).
  { intros mM xd vd A B C. apply wrap1_in; [exact A|]. unfold dx'. destruct prev; [lra|]. rewrite Qmult_0_r. lra. }
  destruct i as [|i]; cbn [nth_error] in H.
  - assert (Q1 : b_x q = x') by (assert (q = (if t then mkBead gid x' rP imP idP else mkBead gid x' rC imC idC)) by congruence; subst q; destruct t; reflexivity). rewrite Q1. split; [exact Lx|]. intros d mM xd vd Hb Hx Hv. eexists. split; [apply (P d mM xd vd Hb Hx Hv)|]. split; [|apply W].
    eapply Modulo_eq; [apply wrap1_spec|]. unfold dx'. change (N2Q 0) with 0. destruct prev; ring.
  - assert (L1 : length b = length x') by lia. assert (L2 : length v = length x') by lia. destruct (IH (Some gid) (gid + 1)%Z x' L1 L2 i q H) as (A & B). split; [lia|]. intros d mM xd vd Hb Hx Hv.
    destruct (B d mM _ vd Hb (P d mM xd vd Hb Hx Hv) Hv) as (yd & Y1 & Y2 & Y3). exists yd. split; [exact Y1|]. split; [|intros A1 A2 A3; apply Y3; auto].
    eapply Modulo_eq; [eapply Modulo_trans; [exact Y2|apply Modulo_plus, wrap1_spec]|]. rewrite N2Q_S. unfold dx'. destruct prev; ring.
Qed.

(* lines *)
Lemma line_nth s rP l : forall first y i m a0, nth_error l 0 = Some a0 -> nth_error l (S i) = Some m -> exists h, nth_error (line_heights first s rP y l) i = Some h /\
  h == y + (m - a0) + (if first then s * rP else 2 * s * rP) + N2Q i * (2 * s * rP).
Proof.
  induction l as [|a l IH]; intros first y i m a0 H0 Hm; [discriminate|]. cbn [nth_error] in H0, Hm. assert (a0 = a) by congruence. subst a0. destruct l as [|b l]; [destruct i; discriminate|]. cbn [line_heights]. cbv zeta.
  destruct i as [|i]; cbn [nth_error] in *.
  - assert (m = b) by congruence. subst m. eexists. split; [reflexivity|]. change (N2Q 0) with 0. destruct first; ring.
  - set (y' := y + (b - a + (if first then s * rP else 2 * s * rP))). destruct (IH false y' i m b eq_refl Hm) as (h & Hh & E). exists h. split; [exact Hh|]. rewrite E, N2Q_S. unfold y'. destruct first; ring.
Qed.
Lemma line_length s rP l : forall first y, length (line_heights first s rP y l) = (length l - 1)%nat.
Proof. induction l as [|a l IH]; intros first y; [reflexivity|]. destruct l as [|b l]; [reflexivity|]. change (line_heights first s rP y (a :: b :: l)) with (let y' := y + (b - a + (if first then s * rP else 2 * s * rP)) in y' :: line_heights false s rP y' (b :: l)). cbv zeta. change (length (?u :: ?v)) with (S (length v)). rewrite IH. change (length (b :: l)) with (S (length l)). lia. Qed.
Lemma line_marks_length rnd phi len n : length (line_marks rnd phi len n) = S n.
Proof. unfold line_marks. rewrite isort_length. cbn [length]. rewrite map_length, seq_length. reflexivity. Qed.
Lemma line_marks_in rnd phi len n x : Draws rnd -> 0 <= phi <= 1 -> 0 <= len -> In x (line_marks rnd phi len n) -> 0 <= x <= len * (1 - phi).
Proof.
  intros D Hp Hl H. apply (marks_in rnd phi len n x D Hp Hl). unfold line_marks, marks in *. apply (Permutation_in _ (isort_perm _)) in H. apply (Permutation_in _ (Permutation_sym (isort_perm _))). destruct H as [H|H]; [left; exact H|]. right. apply in_or_app. left. exact H.
Qed.
Lemma ordered_nth distance n : forall first y i, (i < n)%nat -> exists h, nth_error (ordered_heights first distance y n) i = Some h /\ h == y + (if first then (1 # 2) * distance else distance) + N2Q i * distance.
Proof.
  induction n as [|n IH]; intros first y i Hi; [lia|]. cbn [ordered_heights]. cbv zeta. destruct i as [|i]; cbn [nth_error].
  - eexists. split; [reflexivity|]. change (N2Q 0) with 0. destruct first; ring.
  - set (y' := y + _). destruct (IH false y' i ltac:(lia)) as (h & Hh & E). exists h. split; [exact Hh|]. rewrite E, N2Q_S. unfold y'. destruct first; ring.
Qed.
Lemma ordered_length distance n : forall first y, length (ordered_heights first distance y n) = n.
Proof. induction n as [|n IH]; intros; [reflexivity|]. cbn. rewrite IH. reflexivity. Qed.
Lemma line_number_bound phi len s rP : 0 < s * rP -> 0 <= phi * len -> N2Q (line_number phi len s rP) * (2 * s * rP) <= phi * len < (N2Q (line_number phi len s rP) + 1) * (2 * s * rP).
Proof.
  intros H P. unfold line_number. set (q := phi * len) in *. assert (HH : 0 < 2 * s * rP) by lra. set (w := 2 * s * rP) in *. clearbody q w. assert (Q0 : 0 <= q / w) by (apply Qle_shift_div_l; lra).
  assert (Z0 : (0 <= Qfloor (q / w))%Z) by (change 0%Z with (Qfloor 0); apply Qfloor_resp_le; exact Q0). rewrite N2Q_to_nat by exact Z0. pose proof (Qfloor_le (q / w)) as A. pose proof (Qlt_floor (q / w)) as B. rewrite inject_Z_plus in B. change (inject_Z 1) with 1 in B.
  assert (E : q / w * w == q) by (field; lra). set (f := inject_Z (Qfloor (q / w))) in *. set (z := q / w) in *. clearbody f z. rewrite <- E. split; [apply Qmult_le_compat_r; lra|apply Qmult_lt_r; lra].
Qed.
Lemma extra_spec rP rC : 0 < rC -> rC <= rP -> (0 <= extra rP rC)%Z /\ inject_Z (extra rP rC + 1) * rC <= rP < inject_Z (extra rP rC + 1) * rC + rC.
Proof.
  intros H L. unfold extra. set (q := (rP - rC) / rC). assert (E : q * rC == rP - rC) by (unfold q; field; lra). assert (Q0 : 0 <= q) by (unfold q; apply Qle_shift_div_l; lra). clearbody q.
  split; [change 0%Z with (Qfloor 0); apply Qfloor_resp_le; exact Q0|]. pose proof (Qfloor_le q) as A. pose proof (Qlt_floor q) as B. rewrite inject_Z_plus in *. change (inject_Z 1) with 1 in *. set (f := inject_Z (Qfloor q)) in *. clearbody f.
  assert (f * rC <= q * rC) by (apply Qmult_le_compat_r; lra). assert (q * rC < (f + 1) * rC) by (apply Qmult_lt_r; lra). lra.
Qed.
Lemma link_distance_spec rP rC : 0 < rC -> rC <= rP -> exists dx, link_distance rP rC = Some dx /\ dx * inject_Z (extra rP rC + 1) == 2 * rP /\ 2 * rC <= dx < 4 * rC.
Proof.
  intros H L. destruct (extra_spec rP rC H L) as (A & B & C). unfold link_distance. destruct (Z.eqb_spec (extra rP rC + 1) 0); [lia|]. eexists. split; [reflexivity|].
  assert (P : 1 <= inject_Z (extra rP rC + 1)) by (change 1 with (inject_Z 1); rewrite <- Zle_Qle; lia). set (e := inject_Z (extra rP rC + 1)) in *. clearbody e.
  assert (E : 2 * rC * (rP / (e * rC)) * e == 2 * rP) by (field; split; lra). split; [exact E|]. set (d := 2 * rC * (rP / (e * rC))) in *. clearbody d. split.
  - apply (Qmult_le_r _ _ e); [lra|]. rewrite E. lra.
  - apply (Qmult_lt_r _ _ e); [lra|]. rewrite E. nra.
Qed.
Lemma primaries_bound phi len rP : 0 < rP -> 0 <= phi * len -> phi * len <= N2Q (primaries phi len rP) * (2 * rP) < phi * len + 2 * rP.
Proof.
  intros H P. unfold primaries. assert (E : (1 # 2) * phi * len / rP * (2 * rP) == phi * len) by (field; lra). assert (Q0 : 0 <= (1 # 2) * phi * len / rP) by (apply Qle_shift_div_l; lra). set (q := (1 # 2) * phi * len / rP) in *. clearbody q.
  pose proof (Qle_ceiling q) as A. pose proof (Qceiling_lt q) as B. assert (Z0 : (0 <= Qceiling q)%Z) by (change 0%Z with (Qceiling 0); apply Qceiling_resp_le; exact Q0). rewrite N2Q_to_nat by exact Z0.
  assert (B1 : inject_Z (Qceiling q - 1) == inject_Z (Qceiling q) - 1) by (unfold Z.sub; rewrite inject_Z_plus; reflexivity). rewrite B1 in B. set (c := inject_Z (Qceiling q)) in *. clearbody c. rewrite <- E. assert (q * (2 * rP) <= c * (2 * rP)) by (apply Qmult_le_compat_r; lra). assert (c * (2 * rP) < (q + 1) * (2 * rP)) by (apply Qmult_lt_r; lra). lra.
Qed.
