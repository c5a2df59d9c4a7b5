(* The sweep over the lists as a sum over the pairs the search found. *)
From Coq Require Import Reals Qreals Lra.
From Verif Require Import Lib Model_Geometry Model_Handlers Spec_Handlers Model_Cells Spec_Cells Proofs_Cells3 Model_Sweep Spec_Sweep Proofs_Sweep2 Properties_Handlers.
From Verif Require Model_Forces Proofs_Sweep1.
Local Open Scope R_scope.
Import Model_Forces (fstate, F, pot, do_pair).

Definition lone (x : inter) (fe : Model_Forces.env) (w : bool) (i j : nat) : option fstate :=
  do_pair (i_kind x) (Q2R (i_cut x)) fe w i j cleared.
Definition lone_F (x : inter) fe w i j a d : R := match lone x fe w i j with Some s => F s a d | None => 0 end.
Definition lone_U (x : inter) fe w i j : R := match lone x fe w i j with Some s => pot s | None => 0 end.

Lemma act_fold x fe w (L : list (Z * Z)) : (forall p, In p L -> lone x fe w (Z.to_nat (fst p)) (Z.to_nat (snd p)) <> None) ->
  forall s, exists s', fold_left (fun st p => act_pair x fe w (fst p) (snd p) st) L (Some s) = Some s' /\
    (forall a d, F s' a d = F s a d + sum_over (fun p => lone_F x fe w (Z.to_nat (fst p)) (Z.to_nat (snd p)) a d) L) /\
    pot s' = pot s + sum_over (fun p => lone_U x fe w (Z.to_nat (fst p)) (Z.to_nat (snd p))) L.
Proof.
  induction L as [|p L IH]; intros HN s; cbn [fold_left].
  - exists s. split; [reflexivity|]. split; [intros|]; rewrite sum_nil; ring.
  - assert (P := Proofs_Sweep1.pair_plus (i_kind x) (Q2R (i_cut x)) fe w (Z.to_nat (fst p)) (Z.to_nat (snd p)) s).
    assert (N := HN p (or_introl eq_refl)). unfold lone in N. change cleared with Proofs_Sweep1.zero_st in N.
    cbn [act_pair]. unfold Proofs_Sweep1.plus in P.
    destruct (do_pair (i_kind x) (Q2R (i_cut x)) fe w (Z.to_nat (fst p)) (Z.to_nat (snd p)) Proofs_Sweep1.zero_st) as [s0|] eqn:E0; [|congruence].
    destruct (do_pair (i_kind x) (Q2R (i_cut x)) fe w (Z.to_nat (fst p)) (Z.to_nat (snd p)) s) as [s1|] eqn:E1; [|destruct P].
    destruct P as [PF PU]. destruct (IH (fun q H => HN q (or_intror H)) s1) as (s' & E & EF & EU).
    exists s'. split; [exact E|]. split.
    + intros a d. rewrite EF, PF, sum_cons. unfold lone_F at 2. unfold lone. change cleared with Proofs_Sweep1.zero_st. rewrite E0. ring.
    + rewrite EU, PU, sum_cons. unfold lone_U at 2. unfold lone. change cleared with Proofs_Sweep1.zero_st. rewrite E0. ring.
Qed.

Lemma interact_one_sum x fe L p0 p1 s : pairs_visit 0 L = Some p0 -> pairs_visit 1 L = Some p1 ->
  (forall p, In p p0 -> lone x fe false (Z.to_nat (fst p)) (Z.to_nat (snd p)) <> None) ->
  (forall p, In p p1 -> lone x fe true (Z.to_nat (fst p)) (Z.to_nat (snd p)) <> None) ->
  exists s', interact_one x fe L s = Some s' /\
    (forall a d, F s' a d = F s a d + sum_over (fun p => lone_F x fe false (Z.to_nat (fst p)) (Z.to_nat (snd p)) a d) p0
                                    + sum_over (fun p => lone_F x fe true (Z.to_nat (fst p)) (Z.to_nat (snd p)) a d) p1) /\
    pot s' = sum_over (fun p => lone_U x fe false (Z.to_nat (fst p)) (Z.to_nat (snd p))) p0
           + sum_over (fun p => lone_U x fe true (Z.to_nat (fst p)) (Z.to_nat (snd p))) p1.
Proof.
  intros E0 E1 H0 H1. unfold interact_one, interact. rewrite E0, E1.
  destruct (act_fold x fe false p0 H0 (Model_Forces.mkF (F s) (Model_Forces.Tq s) 0 0)) as (s1 & -> & F1 & U1).
  destruct (act_fold x fe true p1 H1 s1) as (s2 & -> & F2 & U2). exists s2. split; [reflexivity|]. split.
  - intros a d. rewrite F2, F1. cbn [F]. ring.
  - rewrite U2, U1. cbn [pot]. ring.
Qed.

(* The pairs of interaction it in list l. *)
Definition pairs_of fm ps it l (vs : list visit) : list (Z * Z) :=
  flat_map (fun v => let '(i, j, w) := v in
    match between fm ps i j with
    | Some k => if (k =? it)%nat && (Z.to_nat w =? l)%nat then [(Z.of_nat i, Z.of_nat j)] else []
    | None => [] end) vs.

Lemma added_flat l cs : (forall c, In c cs -> c <> Clear) ->
  forall acc, fold_left (fun acc c => match c with
                          | AddPair a b l' => if (l' =? l)%nat then acc ++ [(a, b)] else acc
                          | Close => acc
                          | Clear => [] end) cs acc
  = acc ++ flat_map (fun c => match c with AddPair a b l' => if (l' =? l)%nat then [(a, b)] else [] | _ => [] end) cs.
Proof.
  induction cs as [|c cs IH]; intros H acc; cbn [fold_left flat_map]; [now rewrite app_nil_r|].
  rewrite IH by (intros; apply H; now right). destruct c as [a b l'| |]; [|reflexivity|exfalso; now apply (H Clear (or_introl eq_refl))].
  destruct (l' =? l)%nat; [now rewrite <- app_assoc|reflexivity].
Qed.

Lemma pair_calls_no_clear fm ps it vs c : In c (pair_calls fm ps it vs) -> exists i j w, In (i, j, w) vs /\ c = AddPair (Z.of_nat i) (Z.of_nat j) (Z.to_nat w).
Proof.
  unfold pair_calls. rewrite in_flat_map. intros ([[i j] w] & Hv & H).
  destruct (nth_error ps i); [|destruct H]. destruct (nth_error ps j); [|destruct H]. destruct (getInteraction _ _ fm); [|destruct H].
  destruct (_ =? it)%nat; [|destruct H]. destruct H as [<-|[]]. eauto 6.
Qed.

Lemma construct_visits fm e ps it hist old vs l : valid_lists hist -> calls pairs_call hist new_pairs = Some old ->
  traversePairs e ps = Some vs -> (forall i j w, In (i, j, w) vs -> w = 0%Z \/ w = 1%Z) -> (l < 3)%nat ->
  exists L, construct_lists fm e ps it old = Some L /\ pairs_visit l L = Some (pairs_of fm ps it l vs).
Proof.
  intros HV HO HT HW Hl. unfold construct_lists. rewrite HT.
  set (cs := Clear :: pair_calls fm ps it vs ++ [Close]).
  assert (V : valid_lists (hist ++ cs)).
  { intros a b k H. apply in_app_iff in H. destruct H as [H|H]; [eapply HV; exact H|]. destruct H as [H|H]; [discriminate|].
    apply in_app_iff in H. destruct H as [H|[H|[]]]; [|discriminate].
    destruct (pair_calls_no_clear _ _ _ _ _ H) as (i & j & w & Hv & E). injection E as -> -> ->. destruct (HW _ _ _ Hv) as [-> | ->]; cbn; lia. }
  destruct (C23_pairs (hist ++ cs) l V Hl) as (L & EL & EV & _). exists L. split.
  - assert (Happ : forall h s0, calls pairs_call (h ++ cs) s0 = match calls pairs_call h s0 with Some s1 => calls pairs_call cs s1 | None => None end).
    { clear. induction h as [|c h IH]; intros s0; [reflexivity|]. cbn [app]. cbn [calls]. destruct (pairs_call c s0); [apply IH|reflexivity]. }
    rewrite Happ, HO in EL. exact EL.
  - rewrite EV. f_equal. unfold added. rewrite fold_left_app. unfold cs. cbn [fold_left]. rewrite fold_left_app. cbn [fold_left].
    rewrite (added_flat l (pair_calls fm ps it vs)).
    2:{ intros c H. destruct (pair_calls_no_clear _ _ _ _ _ H) as (? & ? & ? & _ & ->). discriminate. }
    cbn [app]. unfold pair_calls, pairs_of. rewrite <- flat_map_flat_map. apply flat_map_ext. intros [[i j] w]. unfold between.
    destruct (nth_error ps i); [|reflexivity]. destruct (nth_error ps j); [|reflexivity]. destruct (getInteraction _ _ fm) as [k|]; [|reflexivity].
    destruct (k =? it)%nat; [|reflexivity]. cbn [flat_map andb]. destruct (Z.to_nat w =? l)%nat; reflexivity.
Qed.

Definition wrapb (w : Z) : bool := negb (w =? 0)%Z.
(* what one visit does under interaction it *)
Definition visit_F its fm ps fe a d (v : visit) : R :=
  let '(i, j, w) := v in match between fm ps i j with Some k => lone_F (its k) fe (wrapb w) i j a d | None => 0 end.
Definition visit_U its fm ps fe (v : visit) : R :=
  let '(i, j, w) := v in match between fm ps i j with Some k => lone_U (its k) fe (wrapb w) i j | None => 0 end.

Section ONE.
Variables (its : nat -> inter) (fm : force_master) (ps : list particle) (fe : Model_Forces.env) (vs : list visit).
Hypothesis HW : forall i j w, In (i, j, w) vs -> w = 0%Z \/ w = 1%Z.
Hypothesis HD : forall i j w k, In (i, j, w) vs -> between fm ps i j = Some k -> lone (its k) fe (wrapb w) i j <> None.

Lemma in_pairs_of it l p : In p (pairs_of fm ps it l vs) -> exists i j w, In (i, j, w) vs /\ p = (Z.of_nat i, Z.of_nat j) /\ between fm ps i j = Some it /\ Z.to_nat w = l.
Proof.
  unfold pairs_of. rewrite in_flat_map. intros ([[i j] w] & Hv & H). destruct (between fm ps i j) as [k|] eqn:E; [|destruct H].
  destruct (Nat.eqb_spec k it) as [->|]; [|destruct H]. destruct (Nat.eqb_spec (Z.to_nat w) l); [|destruct H]. destruct H as [<-|[]]. eauto 8.
Qed.

Lemma split_sum it (G : bool -> nat -> nat -> R) :
  sum_over (fun p => G false (Z.to_nat (fst p)) (Z.to_nat (snd p))) (pairs_of fm ps it 0 vs) +
  sum_over (fun p => G true (Z.to_nat (fst p)) (Z.to_nat (snd p))) (pairs_of fm ps it 1 vs) =
  sum_over (fun v => let '(i, j, w) := v in match between fm ps i j with Some k => if (k =? it)%nat then G (wrapb w) i j else 0 | None => 0 end) vs.
Proof.
  unfold pairs_of. rewrite !sum_flat_map, <- sum_plus. apply sum_ext. intros [[i j] w] Hv.
  destruct (between fm ps i j) as [k|]; [|rewrite !sum_nil; ring]. destruct (k =? it)%nat; cbn [andb]; [|rewrite !sum_nil; ring].
  destruct (HW _ _ _ Hv) as [-> | ->]; [change (Z.to_nat 0) with 0%nat; change (wrapb 0) with false|change (Z.to_nat 1) with 1%nat; change (wrapb 1) with true]; cbn [Nat.eqb]; rewrite ?sum_cons, ?sum_nil; cbn [fst snd]; rewrite !Nat2Z.id; ring.
Qed.

Lemma interact_visits it L s : pairs_visit 0 L = Some (pairs_of fm ps it 0 vs) -> pairs_visit 1 L = Some (pairs_of fm ps it 1 vs) ->
  exists s', interact_one (its it) fe L s = Some s' /\
    (forall a d, F s' a d = F s a d + sum_over (fun v => if (let '(i, j, _) := v in match between fm ps i j with Some k => (k =? it)%nat | None => false end) then visit_F its fm ps fe a d v else 0) vs) /\
    pot s' = sum_over (fun v => if (let '(i, j, _) := v in match between fm ps i j with Some k => (k =? it)%nat | None => false end) then visit_U its fm ps fe v else 0) vs.
Proof.
  intros E0 E1. destruct (interact_one_sum (its it) fe L _ _ s E0 E1) as (s' & E & EF & EU).
  - intros p Hp. destruct (in_pairs_of _ _ _ Hp) as (i & j & w & Hv & -> & B & W). cbn [fst snd]. rewrite !Nat2Z.id.
    assert (N := HD _ _ _ _ Hv B). destruct (HW _ _ _ Hv) as [-> | ->]; [exact N|discriminate W].
  - intros p Hp. destruct (in_pairs_of _ _ _ Hp) as (i & j & w & Hv & -> & B & W). cbn [fst snd]. rewrite !Nat2Z.id.
    assert (N := HD _ _ _ _ Hv B). destruct (HW _ _ _ Hv) as [-> | ->]; [discriminate W|exact N].
  - exists s'. split; [exact E|]. split.
    + intros a d. rewrite EF, Rplus_assoc. f_equal. rewrite (split_sum it (fun w i j => lone_F (its it) fe w i j a d)). apply sum_ext. intros [[i j] w] _.
      unfold visit_F. destruct (between fm ps i j) as [k|]; [|reflexivity]. destruct (Nat.eqb_spec k it) as [->|]; reflexivity.
    + rewrite EU. rewrite (split_sum it (fun w i j => lone_U (its it) fe w i j)). apply sum_ext. intros [[i j] w] _.
      unfold visit_U. destruct (between fm ps i j) as [k|]; [|reflexivity]. destruct (Nat.eqb_spec k it) as [->|]; reflexivity.
Qed.

Lemma sweep_visits lists l : (forall it, In it l -> pairs_visit 0 (lists it) = Some (pairs_of fm ps it 0 vs) /\ pairs_visit 1 (lists it) = Some (pairs_of fm ps it 1 vs)) ->
  forall s, exists s' us, sweep its fe lists l s = Some (s', us) /\
    (forall a d, F s' a d = F s a d + sum_over (fun it => sum_over (fun v => if (let '(i, j, _) := v in match between fm ps i j with Some k => (k =? it)%nat | None => false end) then visit_F its fm ps fe a d v else 0) vs) l) /\
    forall acc, fold_left Rplus us acc = acc + sum_over (fun it => sum_over (fun v => if (let '(i, j, _) := v in match between fm ps i j with Some k => (k =? it)%nat | None => false end) then visit_U its fm ps fe v else 0) vs) l.
Proof.
  induction l as [|it l IH]; intros HL s; cbn [sweep].
  - exists s, []. split; [reflexivity|]. split; [intros; rewrite sum_nil; ring|]. intros. rewrite sum_nil. cbn. ring.
  - destruct (HL it (or_introl eq_refl)) as (E0 & E1). destruct (interact_visits it _ s E0 E1) as (s1 & -> & F1 & U1).
    destruct (IH (fun i H => HL i (or_intror H)) s1) as (s2 & us & -> & F2 & U2). exists s2, (pot s1 :: us). split; [reflexivity|]. split.
    + intros a d. rewrite F2, F1, sum_cons. ring.
    + intros acc. cbn [fold_left]. rewrite U2, U1, sum_cons. ring.
Qed.

Lemma all_interactions l (g : visit -> R) : NoDup l -> (forall i j k, between fm ps i j = Some k -> In k l) ->
  (forall i j w, between fm ps i j = None -> g (i, j, w) = 0) ->
  sum_over (fun it => sum_over (fun v => if (let '(i, j, _) := v in match between fm ps i j with Some k => (k =? it)%nat | None => false end) then g v else 0) vs) l = sum_over g vs.
Proof.
  intros N HI HZ. rewrite sum_exchange. apply sum_ext. intros [[i j] w] _.
  destruct (between fm ps i j) as [k|] eqn:B.
  - rewrite <- (sum_pick Nat.eq_dec (fun _ => g (i, j, w)) l k N (HI _ _ _ B)) at 1. apply sum_ext. intros it _.
    destruct (Nat.eq_dec it k) as [->|NE]; [now rewrite Nat.eqb_refl|]. destruct (Nat.eqb_spec k it); [congruence|reflexivity].
  - rewrite sum_zero by reflexivity. symmetry. now apply HZ.
Qed.
End ONE.
