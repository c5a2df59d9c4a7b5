(* C120: the histograms of the relative motion of two groups. C121: recorded parameters. *)
From Coq Require Import String.
From Coq Require Import Lqa Sorted.
From Verif Require Import Lib Model_Geometry Model_Stats Spec_Stats.
Open Scope Q_scope.

Lemma trunc_floor q : 0 <= q -> Qtrunc q = Qfloor q.
Proof. intros H. unfold Qtrunc. destruct (Qltb_spec q 0); [exfalso; lra|reflexivity]. Qed.
Lemma floor_iff q k : Qfloor q = k <-> inject_Z k <= q /\ q < inject_Z k + 1.
Proof.
  pose proof (Qfloor_le q) as A. pose proof (Qlt_floor q) as B. rewrite inject_Z_plus in B. split.
  - intros <-. split; [exact A|]. exact B.
  - intros [C D]. assert (E : inject_Z k < inject_Z (Qfloor q + 1)) by (rewrite inject_Z_plus; lra).
    assert (F : inject_Z (Qfloor q) < inject_Z (k + 1)) by (rewrite inject_Z_plus; change (inject_Z 1) with 1 in *; lra).
    rewrite <- Zlt_Qlt in E, F. lia.
Qed.
(* x = lo + q w with w > 0 *)
Lemma scaled_iff lo w q x k : 0 < w -> x == lo + q * w ->
  (inject_Z k <= q /\ q < inject_Z k + 1 <-> lo + inject_Z k * w <= x /\ x < lo + (inject_Z k + 1) * w).
Proof. intros W E. split; intros [A B]; split; rewrite ?E in *; nra. Qed.
Lemma trunc_bin lo w q x k : 0 < w -> x == lo + q * w -> lo <= x -> (Qtrunc q = k <-> lo + inject_Z k * w <= x /\ x < lo + (inject_Z k + 1) * w).
Proof.
  intros W E L. assert (0 <= q) by (rewrite E in L; nra). rewrite trunc_floor by assumption. rewrite floor_iff. apply scaled_iff; assumption.
Qed.
Lemma trunc_bin_low lo w q x k : 0 < w -> x == lo + q * w -> x <= lo - w -> (0 <= k)%Z -> Qtrunc q <> k /\ ~ (lo + inject_Z k * w <= x).
Proof.
  intros W E L K. rewrite Zle_Qle in K. assert (Q1 : q <= -1) by (destruct (Qlt_le_dec (-1) q); [|assumption]; exfalso; rewrite E in L; assert (0 < (q + 1) * w) by (apply Qmult_lt_0_compat; lra); lra). split.
  - intros T. unfold Qtrunc in T. destruct (Qltb_spec q 0); [|lra]. assert (Z1 : (1 <= Qfloor (- q))%Z).
    { change 1%Z with (Qfloor 1). apply Qfloor_resp_le. lra. }
    rewrite <- T in K. rewrite <- Zle_Qle in K. lia.
  - intros C. change (inject_Z 0) with 0 in K. assert (0 <= inject_Z k * w) by (apply Qmult_le_0_compat; lra). lra.
Qed.

(* a value bin *)
Lemma value_bin_iff by_ vmax v k : (0 < by_)%Z -> 0 < vmax -> (0 <= k)%Z -> (- vmax <= v \/ v <= - vmax - 2 * vmax / inject_Z by_) ->
  (value_bin by_ vmax v = k <-> in_equal_bin (- vmax) vmax by_ k v).
Proof.
  intros B V K H. unfold value_bin, in_equal_bin. assert (NB : 0 < inject_Z by_) by (rewrite Zlt_Qlt in B; exact B).
  set (b := inject_Z by_) in *. clearbody b. set (q := (1#2) * b * (v + vmax) / vmax).
  assert (EW : (vmax - - vmax) / b == 2 * vmax / b) by (field; lra).
  assert (W : 0 < (vmax - - vmax) / b). { apply Qlt_shift_div_l; [exact NB|]. lra. }
  assert (E : v == - vmax + q * ((vmax - - vmax) / b)) by (unfold q; field; lra).
  destruct H as [H|H].
  - apply trunc_bin; assumption.
  - rewrite <- EW in H. destruct (trunc_bin_low (- vmax) _ q v k W E ltac:(lra) K) as [X Y]. split; [intros T; contradiction|intros [T _]; contradiction].
Qed.
Lemma dist_bin_iff bx rmax r k : (0 < bx)%Z -> 0 < rmax -> 0 <= r -> (Qtrunc (r / rmax * inject_Z bx) = k <-> in_equal_bin 0 rmax bx k r).
Proof.
  intros B R H. unfold in_equal_bin. assert (NB : 0 < inject_Z bx) by (rewrite Zlt_Qlt in B; exact B).
  set (b := inject_Z bx) in *. clearbody b. apply trunc_bin; [|field; lra|exact H].
  apply Qlt_shift_div_l; [exact NB|]. lra.
Qed.
Lemma equal_bin_below lo hi n k v : (0 <= k < n)%Z -> lo < hi -> in_equal_bin lo hi n k v -> v < hi.
Proof.
  intros K L [_ U]. assert (NB : 0 < inject_Z n) by (change 0 with (inject_Z 0); rewrite <- Zlt_Qlt; lia).
  assert (LE : inject_Z k + 1 <= inject_Z n) by (change 1 with (inject_Z 1); rewrite <- inject_Z_plus, <- Zle_Qle; lia).
  set (w := (hi - lo) / inject_Z n) in *. assert (E : hi == lo + inject_Z n * w) by (unfold w; field; lra).
  assert (W : 0 < w) by (apply Qlt_shift_div_l; lra). rewrite E. nra.
Qed.

Lemma stat_step_eq bx by_ rmax vmax fmax tv tf r f v : stat_step (mkStats bx by_ rmax vmax fmax tv tf) (r, f, v) =
  if Qltb r rmax then
    mkStats bx by_ rmax vmax fmax
      (if ((0 <=? value_bin by_ vmax v) && (value_bin by_ vmax v <? by_))%Z then inc (Qtrunc (r / rmax * inject_Z bx)) (value_bin by_ vmax v) tv else tv)
      (if ((0 <=? value_bin by_ fmax f) && (value_bin by_ fmax f <? by_))%Z then inc (Qtrunc (r / rmax * inject_Z bx)) (value_bin by_ fmax f) tf else tf)
  else mkStats bx by_ rmax vmax fmax tv tf.
Proof. reflexivity. Qed.
Lemma counted bx by_ rmax vmax fmax x y : (0 < bx)%Z -> (0 < by_)%Z -> 0 < rmax -> 0 < vmax -> 0 < fmax -> (0 <= x < bx)%Z -> (0 <= y < by_)%Z ->
  forall l tv tf, (forall r f v, In (r, f, v) l -> 0 <= r /\ no_truncated fmax by_ f /\ no_truncated vmax by_ v) -> exists a b,
  let s := fold_left stat_step l (mkStats bx by_ rmax vmax fmax tv tf) in
  x_v s x y = (tv x y + a)%Z /\ x_f s x y = (tf x y + b)%Z /\
  number_with (fun '(r, f, v) => in_equal_bin 0 rmax bx x r /\ in_equal_bin (- vmax) vmax by_ y v) l a /\
  number_with (fun '(r, f, v) => in_equal_bin 0 rmax bx x r /\ in_equal_bin (- fmax) fmax by_ y f) l b.
Proof.
  intros BX BY R V F KX KY. induction l as [|[[r f] v] l IH]; intros tv tf H.
  - exists 0%Z, 0%Z. cbn. repeat split; try lia; constructor.
  - destruct (H r f v (or_introl eq_refl)) as (R0 & NF & NV).
    assert (H' : forall r f v, In (r, f, v) l -> 0 <= r /\ no_truncated fmax by_ f /\ no_truncated vmax by_ v) by (intros; apply H; now right).
    cbn [fold_left]. rewrite stat_step_eq.
    pose proof (dist_bin_iff bx rmax r x BX R R0) as DB.
    pose proof (value_bin_iff by_ vmax v y BY V (proj1 KY) NV) as VB. pose proof (value_bin_iff by_ fmax f y BY F (proj1 KY) NF) as FB.
    destruct (Qltb_spec r rmax) as [LT|GE].
    2:{ destruct (IH tv tf H') as (a & b & E1 & E2 & N1 & N2). exists a, b. cbv zeta in *. split; [exact E1|]. split; [exact E2|].
        assert (NI : ~ in_equal_bin 0 rmax bx x r) by (intros C; pose proof (equal_bin_below 0 rmax bx x r KX R C); lra).
        split; apply number_no; try assumption; intros [C _]; contradiction. }
    set (br := Qtrunc (r / rmax * inject_Z bx)) in *. set (bv := value_bin by_ vmax v) in *. set (bf := value_bin by_ fmax f) in *.
    match goal with |- context [fold_left stat_step l (mkStats _ _ _ _ _ ?t1 ?t2)] => destruct (IH t1 t2 H') as (a & b & E1 & E2 & N1 & N2) end.
    cbv zeta in *.
    exists (if ((br =? x) && (bv =? y))%Z then a + 1 else a)%Z, (if ((br =? x) && (bf =? y))%Z then b + 1 else b)%Z.
    rewrite E1, E2. clear E1 E2 IH. split; [|split; [|split]].
    + destruct (Z.eqb_spec br x) as [X|X]; destruct (Z.eqb_spec bv y) as [Y|Y]; cbn [andb]; destruct (Z.leb_spec 0 bv), (Z.ltb_spec bv by_); cbn [andb]; unfold inc;
      destruct (Z.eqb_spec x br), (Z.eqb_spec y bv); cbn [andb]; lia.
    + destruct (Z.eqb_spec br x) as [X|X]; destruct (Z.eqb_spec bf y) as [Y|Y]; cbn [andb]; destruct (Z.leb_spec 0 bf), (Z.ltb_spec bf by_); cbn [andb]; unfold inc;
      destruct (Z.eqb_spec x br), (Z.eqb_spec y bf); cbn [andb]; lia.
    + destruct (Z.eqb_spec br x) as [X|X]; destruct (Z.eqb_spec bv y) as [Y|Y]; cbn [andb]; constructor; try assumption; tauto.
    + destruct (Z.eqb_spec br x) as [X|X]; destruct (Z.eqb_spec bf y) as [Y|Y]; cbn [andb]; constructor; try assumption; tauto.
Qed.

Theorem C120_counts_partial : forall bx by_ rmax vmax fmax tv tf l x y,
  (0 < bx)%Z -> (0 < by_)%Z -> 0 < rmax -> 0 < vmax -> 0 < fmax -> (0 <= x < bx)%Z -> (0 <= y < by_)%Z ->
  (forall r f v, In (r, f, v) l -> 0 <= r /\ no_truncated fmax by_ f /\ no_truncated vmax by_ v) ->
  let s := stat_run (mkStats bx by_ rmax vmax fmax tv tf) l in
  number_with (fun '(r, f, v) => in_equal_bin 0 rmax bx x r /\ in_equal_bin (- vmax) vmax by_ y v) l (x_v s x y) /\
  number_with (fun '(r, f, v) => in_equal_bin 0 rmax bx x r /\ in_equal_bin (- fmax) fmax by_ y f) l (x_f s x y).
Proof.
  intros bx by_ rmax vmax fmax tv tf l x y BX BY R V F KX KY H s.
  destruct (counted bx by_ rmax vmax fmax x y BX BY R V F KX KY l (fun _ _ => 0%Z) (fun _ _ => 0%Z) H) as (a & b & E1 & E2 & N1 & N2).
  unfold s, stat_run, set_bins. cbn [x_bx x_by x_rmax x_vmax x_fmax]. rewrite E1, E2. rewrite !Z.add_0_l. auto.
Qed.
Print Assumptions C120_counts_partial.

(* Every distance below the largest, and every value between the limits, is in exactly one bin. *)
Theorem C120_one_bin : forall lo hi n v, (0 < n)%Z -> lo <= v -> v < hi -> exists! k, (0 <= k < n)%Z /\ in_equal_bin lo hi n k v.
Proof.
  intros lo hi n v N L U. assert (NB : 0 < inject_Z n) by (rewrite Zlt_Qlt in N; exact N).
  set (w := (hi - lo) / inject_Z n). assert (W : 0 < w) by (apply Qlt_shift_div_l; lra). set (q := (v - lo) / w).
  assert (E : v == lo + q * w) by (unfold q; field; lra). assert (EH : hi == lo + inject_Z n * w) by (unfold w; field; lra).
  exists (Qtrunc q). assert (I : in_equal_bin lo hi n (Qtrunc q) v) by (unfold in_equal_bin; fold w; apply (trunc_bin lo w q v); auto).
  split; [split; [|exact I]|].
  - destruct I as [A B]. fold w in A, B. set (k := Qtrunc q) in *. split.
    + assert (0 < inject_Z k + 1) by nra. change 0 with (inject_Z 0) in H; change 1 with (inject_Z 1) in H; rewrite <- inject_Z_plus, <- Zlt_Qlt in H. lia.
    + assert (inject_Z k < inject_Z n) by nra. rewrite <- Zlt_Qlt in H. exact H.
  - intros k [_ C]. unfold in_equal_bin in C. fold w in C. apply (trunc_bin lo w q v k); auto.
Qed.
Print Assumptions C120_one_bin.

(* A value just below the least one is counted in the first bin. *)
Theorem C120_below_refuted :
  let s := stat_run (mkStats 1 2 1 1 1 (fun _ _ => 0%Z) (fun _ _ => 0%Z)) [(1#2, - (3#2), - (3#2))] in
  x_v s 0 0 = 1%Z /\ x_f s 0 0 = 1%Z /\ ~ in_equal_bin (-(1)) 1 2 0 (- (3#2)).
Proof. cbv zeta. split; [vm_compute; reflexivity|]. split; [vm_compute; reflexivity|]. intros [A _]. vm_compute in A. apply A. reflexivity. Qed.
Print Assumptions C120_below_refuted.

(* The labels: the velocity file has the middle of the bin of the distance and the lower edge of the bin of the velocity;
   the force file has the lower edge of the bin of the distance, and a label between the edges of the bin of the force. *)
Theorem C120_labels_partial : forall s x y, (0 < x_bx s)%Z -> (1 < x_by s)%Z -> 0 < x_rmax s -> 0 < x_vmax s -> 0 < x_fmax s -> (0 <= y < x_by s)%Z ->
  exists r v n r' f n', vel_line s x y = (r, v, n) /\ force_line s x y = (r', f, n') /\ n = x_v s x y /\ n' = x_f s x y /\
  let dr := x_rmax s / inject_Z (x_bx s) in let dv := 2 * x_vmax s / inject_Z (x_by s) in let df := 2 * x_fmax s / inject_Z (x_by s) in
  r == (inject_Z x * dr + (inject_Z x + 1) * dr) / 2 /\ v == - x_vmax s + inject_Z y * dv /\
  r' == inject_Z x * dr /\ - x_fmax s + inject_Z y * df <= f /\ f <= - x_fmax s + (inject_Z y + 1) * df.
Proof.
  intros s x y BX BY R V F K. do 6 eexists. split; [reflexivity|]. split; [reflexivity|]. split; [reflexivity|]. split; [reflexivity|]. cbv zeta.
  assert (NX : 0 < inject_Z (x_bx s)) by (change 0 with (inject_Z 0); rewrite <- Zlt_Qlt; lia).
  assert (NY : 0 < inject_Z (x_by s - 1)) by (change 0 with (inject_Z 0); rewrite <- Zlt_Qlt; lia).
  assert (EY : inject_Z (x_by s) == inject_Z (x_by s - 1) + 1) by (rewrite <- (inject_Z_plus _ 1); f_equiv; lia).
  split; [field; lra|]. split; [reflexivity|]. split; [ring|].
  set (m := inject_Z (x_by s - 1)) in *. assert (K0 : 0 <= inject_Z y) by (change 0 with (inject_Z 0); rewrite <- Zle_Qle; lia).
  assert (K1 : inject_Z y <= m) by (unfold m; rewrite <- Zle_Qle; lia). clearbody m. set (k := inject_Z y) in *. clearbody k. rewrite EY.
  set (u := 2 * x_fmax s / (m * (m + 1))). assert (U : 0 < u) by (apply Qlt_shift_div_l; nra).
  assert (E1 : 2 * x_fmax s / m == u * (m + 1)) by (unfold u; field; nra). assert (E2 : 2 * x_fmax s / (m + 1) == u * m) by (unfold u; field; nra).
  rewrite E1, E2. split; nra.
Qed.
Print Assumptions C120_labels_partial.

(* The labels of the forces are not those of the bins: with two bins between -1 and 1 the second, from 0, is labelled 1 (and 0 for velocities). *)
Theorem C120_force_label_refuted :
  let s := mkStats 1 2 1 1 1 (fun _ _ => 0%Z) (fun _ _ => 0%Z) in
  snd (fst (force_line s 0 1)) == 1 /\ snd (fst (vel_line s 0 1)) == 0 /\ in_equal_bin (-(1)) 1 2 1 0 /\ ~ in_equal_bin (-(1)) 1 2 1 1.
Proof. cbv zeta. repeat split; try (vm_compute; congruence). intros [_ A]. vm_compute in A. discriminate. Qed.
Print Assumptions C120_force_label_refuted.

(* Two bins of distance and two of value; three samples, the last too far apart. *)
Example C120_case : let s := stat_run (mkStats 2 2 4 1 1 (fun _ _ => 7%Z) (fun _ _ => 7%Z)) [(1, 1#2, - (1#2)); (3#2, 1#3, - (1#3)); (5, 0, 0)] in
  (x_v s 0 0, x_v s 0 1, x_f s 0 0, x_f s 0 1, x_v s 1 1)%Z = (2, 0, 0, 2, 0)%Z.
Proof. vm_compute. reflexivity. Qed.

(* ---------- C121 ---------- *)
Lemma compare_eq a b : String.compare a b = Eq -> a = b.
Proof. apply String.compare_eq_iff. Qed.
Lemma compare_trans : forall a b c, String.compare a b = Lt -> String.compare b c = Lt -> String.compare a c = Lt.
Proof.
  induction a as [|x a IH]; intros [|y b] [|z c]; cbn; try discriminate; auto. unfold Ascii.compare.
  destruct (N.compare_spec (Ascii.N_of_ascii x) (Ascii.N_of_ascii y)) as [E|L|G]; try discriminate;
  destruct (N.compare_spec (Ascii.N_of_ascii y) (Ascii.N_of_ascii z)) as [E2|L2|G2]; try discriminate;
  destruct (N.compare_spec (Ascii.N_of_ascii x) (Ascii.N_of_ascii z)) as [E3|L3|G3]; try lia; auto. apply IH.
Qed.
Definition name_lt (a b : string * Q) : Prop := String.compare (fst a) (fst b) = Lt.
Lemma ltb_lt a b : String.ltb a b = true <-> String.compare a b = Lt.
Proof. unfold String.ltb. destruct (String.compare a b); split; congruence. Qed.

Lemma add_in n v m e : In e (add_record n v m) -> e = (n, v) \/ In e m.
Proof.
  induction m as [|[k u] m IH]; cbn [add_record].
  - intros [<-|[]]. now left.
  - destruct (String.eqb n k); [auto|]. destruct (String.ltb n k).
    + intros [<-|H]; auto.
    + intros [<-|H]; [right; now left|]. destruct (IH H) as [->|H']; [now left|right; now right].
Qed.
Lemma add_sorted n v m : StronglySorted name_lt m -> StronglySorted name_lt (add_record n v m).
Proof.
  induction m as [|[k u] m IH]; intros H; cbn [add_record].
  - repeat constructor.
  - destruct (String.eqb_spec n k) as [E|NE]; [assumption|]. apply StronglySorted_inv in H as [H F]. destruct (String.ltb n k) eqn:L.
    + apply ltb_lt in L. constructor; [constructor; assumption|]. constructor; [exact L|]. rewrite Forall_forall in F |- *. intros e He.
      unfold name_lt in *. cbn [fst] in *. eapply compare_trans; [exact L|exact (F e He)].
    + constructor; [apply IH; exact H|]. rewrite Forall_forall in F |- *. intros e He. apply add_in in He as [->|He]; [|apply F; exact He].
      unfold name_lt. cbn [fst]. unfold String.ltb in L. rewrite String.compare_antisym.
      destruct (String.compare n k) eqn:C; [apply compare_eq in C; congruence|discriminate|reflexivity].
Qed.
Lemma records_snoc l a : records (l ++ [a]) = add_record (fst a) (snd a) (records l).
Proof. unfold records. rewrite fold_left_app. reflexivity. Qed.
Lemma records_sorted l : StronglySorted name_lt (records l).
Proof. induction l as [|a l IH] using rev_ind; [constructor|]. rewrite records_snoc. apply add_sorted. exact IH. Qed.

Lemma find_none name w m : (forall e, In e m -> fst e <> name) -> find_record name w m = (false, w).
Proof.
  induction m as [|[k u] m IH]; intros H; [reflexivity|]. cbn. destruct (String.eqb_spec name k) as [E|N].
  - exfalso. apply (H (k, u)); [now left|]. cbn. congruence.
  - apply IH. intros e He. apply H. now right.
Qed.
Lemma find_false name w m x : find_record name w m = (false, x) -> x = w.
Proof. induction m as [|[k' u'] m IH]; cbn; [congruence|]. destruct (String.eqb name k'); [discriminate|auto]. Qed.
Lemma compare_irrefl a : String.compare a a <> Lt.
Proof. induction a as [|x a IH]; cbn; [discriminate|]. unfold Ascii.compare. rewrite N.compare_refl. exact IH. Qed.
Lemma find_add n v w m name : StronglySorted name_lt m -> find_record name w (add_record n v m) =
  if fst (find_record name w m) then find_record name w m else if string_dec name n then (true, v) else (false, w).
Proof.
  induction m as [|[k u] m IH]; intros ST; cbn [add_record find_record fst].
  - destruct (String.eqb_spec name n), (string_dec name n); congruence.
  - apply StronglySorted_inv in ST as [ST F]. specialize (IH ST). rewrite Forall_forall in F.
    destruct (String.eqb_spec n k) as [->|NE]; cbn [find_record].
    + destruct (String.eqb_spec name k) as [E|N2]; [reflexivity|]. destruct (find_record name w m) as [[|] x] eqn:FD; [reflexivity|]. cbn [fst].
      destruct (string_dec name k); [contradiction|]. f_equal. eapply find_false; exact FD.
    + destruct (String.ltb n k) eqn:L; cbn [find_record].
      * apply ltb_lt in L. destruct (String.eqb_spec name n) as [->|N3].
        { destruct (String.eqb_spec n k); [contradiction|]. destruct (string_dec n n); [|congruence].
          rewrite find_none; [reflexivity|]. intros e0 He E. specialize (F e0 He). unfold name_lt in F. cbn [fst] in F. rewrite E in F.
          apply (compare_irrefl n). eapply compare_trans; eassumption. }
        destruct (String.eqb_spec name k); [reflexivity|]. destruct (find_record name w m) as [[|] x] eqn:FD; [reflexivity|]. cbn [fst].
        destruct (string_dec name n); [contradiction|]. f_equal. eapply find_false; exact FD.
      * destruct (String.eqb_spec name k); [reflexivity|]. exact IH.
Qed.

(* find gives the value recorded first for the name, and leaves value alone if there is none. *)
Theorem C121_find_partial : forall l name w,
  (forall l1 v l2, l = l1 ++ (name, v) :: l2 -> ~ In name (map fst l1) -> find_record name w (records l) = (true, v)) /\
  (~ In name (map fst l) -> find_record name w (records l) = (false, w)).
Proof.
  assert (NO : forall l name w, ~ In name (map fst l) -> find_record name w (records l) = (false, w)).
  { induction l as [|[k u] l IH] using rev_ind; intros name w H; [reflexivity|]. rewrite map_app, in_app_iff in H. cbn in H.
    rewrite records_snoc, find_add by apply records_sorted. rewrite IH by tauto. cbn [fst snd]. destruct (string_dec name k); [subst; tauto|reflexivity]. }
  assert (YES : forall l2 l1 name v w, ~ In name (map fst l1) -> find_record name w (records (l1 ++ (name, v) :: l2)) = (true, v)).
  { induction l2 as [|[k u] l2 IH] using rev_ind; intros l1 name v w H.
    - rewrite records_snoc, find_add by apply records_sorted. rewrite NO by assumption. cbn [fst snd]. destruct (string_dec name name); [reflexivity|congruence].
    - rewrite app_comm_cons, app_assoc, records_snoc, find_add by apply records_sorted. rewrite IH by assumption. reflexivity. }
  intros l name w. split; [intros l1 v l2 -> H; apply YES; exact H|apply NO].
Qed.
Print Assumptions C121_find_partial.

(* The lines of the file: each recorded name once, in dictionary order, with the value recorded first. *)
Theorem C121_file_partial : forall l,
  StronglySorted (fun a b => String.compare a b = Lt) (map fst (records l)) /\ NoDup (map fst (records l)) /\
  (forall name, In name (map fst (records l)) <-> In name (map fst l)) /\
  (forall name v, In (name, v) (records l) -> exists l1 l2, l = l1 ++ (name, v) :: l2 /\ ~ In name (map fst l1)).
Proof.
  intros l. assert (ST : StronglySorted (fun a b => String.compare a b = Lt) (map fst (records l))).
  { pose proof (records_sorted l) as S0. induction S0 as [|a m S1 IH F]; cbn; constructor; [exact IH|]. rewrite Forall_forall in *. intros x Hx.
    apply in_map_iff in Hx as (e & <- & He). apply (F e He). }
  assert (ND : NoDup (map fst (records l))).
  { induction ST as [|a m S1 IH F]; constructor; [|exact IH]. intros C. rewrite Forall_forall in F. exact (compare_irrefl a (F a C)). }
  assert (FIN : forall name v m, NoDup (map fst m) -> In (name, v) m -> find_record name 0 m = (true, v)).
  { clear. induction m as [|[k u] m IH]; intros ND H; [destruct H|]. cbn [map fst] in ND. apply NoDup_cons_iff in ND as [NI ND]. cbn [find_record].
    destruct H as [E|H]; [injection E as -> ->; rewrite String.eqb_refl; reflexivity|].
    destruct (String.eqb_spec name k) as [E|N]; [|apply IH; assumption]. exfalso. apply NI. apply in_map_iff. exists (name, v). auto. }
  assert (SPLIT : forall name, In name (map fst l) -> exists l1 v l2, l = l1 ++ (name, v) :: l2 /\ ~ In name (map fst l1)).
  { clear. intros name. induction l as [|[k u] l IH]; cbn; [intros []|]. intros H. destruct (string_dec k name) as [->|N].
    - exists [], u, l. auto.
    - destruct H as [H|H]; [contradiction|]. destruct (IH H) as (l1 & v & l2 & -> & NI). exists ((k, u) :: l1), v, l2. split; [reflexivity|]. cbn. tauto. }
  split; [exact ST|]. split; [exact ND|]. split.
  - intros name. split; intros H.
    + apply in_map_iff in H as ([k v] & <- & H). cbn [fst]. destruct (in_dec string_dec k (map fst l)) as [Y|N]; [exact Y|]. exfalso.
      pose proof (FIN k v _ ND H) as F. destruct (C121_find_partial l k 0) as [_ C]. rewrite (C N) in F. discriminate.
    + destruct (SPLIT name H) as (l1 & v & l2 & E & NI). destruct (C121_find_partial l name 0) as [C _]. specialize (C l1 v l2 E NI).
      clear -C. induction (records l) as [|[k u] m IH]; cbn in *; [discriminate|]. destruct (String.eqb_spec name k); [left; congruence|right; auto].
  - intros name v H. pose proof (FIN name v _ ND H) as F. destruct (C121_find_partial l name 0) as [C D].
    destruct (in_dec string_dec name (map fst l)) as [Y|N]; [|rewrite (D N) in F; discriminate].
    destruct (SPLIT name Y) as (l1 & u & l2 & E & NI). rewrite (C l1 u l2 E NI) in F. injection F as ->. exists l1, l2. auto.
Qed.
Print Assumptions C121_file_partial.

(* A parameter recorded again keeps its first value. *)
Theorem C121_again_refuted : find_record "dt" 0 (records [("dt"%string, 1#10); ("dt"%string, 1#5)]) = (true, 1#10).
Proof. reflexivity. Qed.
Print Assumptions C121_again_refuted.

Example C121_case : records [("phi"%string, 1#2); ("N"%string, 10); ("phi"%string, 3#4); ("T"%string, 0)] = [("N"%string, 10); ("T"%string, 0); ("phi"%string, 1#2)] /\
  find_record "R" 7 (records [("phi"%string, 1#2)]) = (false, 7).
Proof. split; reflexivity. Qed.
