(* Renumbering, translation and Galilean transformation of the ideal motion. *)
From Coq Require Import Reals List Arith Bool Lia Lra Permutation.
From Verif Require Import Model_Forces Spec_Forces Model_Integrators Spec_Integrators Proofs_Integrators Proofs_Integrators2 Model_Trajectory Spec_Trajectory Proofs_Trajectory Proofs_Sweep2 Spec_Symmetry.
Import ListNotations.
Local Open Scope R_scope.

Lemma dot_ext n x y x' y' : (forall d, (d < n)%nat -> x d = x' d) -> (forall d, (d < n)%nat -> y d = y' d) -> dot n x y = dot n x' y'.
Proof. induction n as [|m IH]; intros HX HY; cbn [dot]; [reflexivity|]. rewrite (IH (fun d H => HX d (Nat.lt_lt_succ_r _ _ H)) (fun d H => HY d (Nat.lt_lt_succ_r _ _ H))). now rewrite HX, HY by lia. Qed.

(* The force on a particle depends on the displacement, the relative velocity, the masses and the radii only. *)
Lemma force_local l e e' d i j i' j' : i <> j -> i' <> j' -> e_dims e' = e_dims e -> e_bc e' = e_bc e -> e_width e' = e_width e ->
  (forall c, (c < e_dims e)%nat -> e_x e' i' c - e_x e' j' c = e_x e i c - e_x e j c) -> (forall c, (c < e_dims e)%nat -> e_v e' i' c - e_v e' j' c = e_v e i c - e_v e j c) ->
  e_im e' i' = e_im e i -> e_im e' j' = e_im e j -> e_sg e' i' = e_sg e i -> e_sg e' j' = e_sg e j -> e_om e' i' = e_om e i -> e_om e' j' = e_om e j -> (d < e_dims e)%nat ->
  force_from l e' d i' j' = force_from l e d i j.
Proof.
  intros N N' ED EB EW HX HV I1 I2 S1 S2 O1 O2 Hd. unfold force_from, do_pair. cbv zeta. cbn match.
  set (X := correction (e_bc e) (e_width e) (vsub (e_x e i) (e_x e j))). set (X' := correction (e_bc e') (e_width e') (vsub (e_x e' i') (e_x e' j'))).
  assert (EX : forall c, (c < e_dims e)%nat -> X' c = X c). { intros c Hc. unfold X, X', correction, vsub. rewrite EB, EW, (HX c Hc). reflexivity. }
  assert (EV : forall c, (c < e_dims e)%nat -> vsub (e_v e' i') (e_v e' j') c = vsub (e_v e i) (e_v e j) c) by (intros c Hc; unfold vsub; apply HV; exact Hc).
  assert (EV2 : forall c, (c < e_dims e)%nat -> vsub (e_v e' j') (e_v e' i') c = vsub (e_v e j) (e_v e i) c) by (intros c Hc; unfold vsub; specialize (HV c Hc); lra).
  assert (ER : dot (e_dims e') X' X' = dot (e_dims e) X X) by (rewrite ED; apply dot_ext; exact EX). rewrite ER, S1, S2.
  destruct (Rlt_dec _ _) as [_|_]; [|reflexivity]. clearbody X X'.
  assert (ES : forall s c, (c < e_dims e)%nat -> vscale s X' c = vscale s X c) by (intros s c Hc; unfold vscale; now rewrite EX).
  destruct (l_kind l); cbn [kernel]; unfold hard_sphere, hard_sphere_ds, lennard_jones, coulomb, buckingham, hertz, hooke; cbv zeta; rewrite ?I1, ?I2, ?O1, ?O2;
    (destruct (Req_EM_T _ 0); [reflexivity|]).
  all: try (cbn [F book]; unfold push, add_scaled; rewrite ED, !Nat.eqb_refl, (proj2 (Nat.eqb_neq i j) N), (proj2 (Nat.eqb_neq i' j') N'); cbn [andb]; rewrite (proj2 (Nat.ltb_lt _ _) Hd), (ES _ _ Hd); reflexivity).
  - rewrite ED, (dot_ext (e_dims e) _ _ _ _ EV2 (ES _)). cbn [F book]; unfold push, add_scaled; rewrite ED, !Nat.eqb_refl, (proj2 (Nat.eqb_neq i j) N), (proj2 (Nat.eqb_neq i' j') N'); cbn [andb]; rewrite (proj2 (Nat.ltb_lt _ _) Hd), (ES _ _ Hd); reflexivity.
  - destruct (Rlt_dec _ 0); [reflexivity|]. destruct (Rlt_dec _ 0); [reflexivity|].
    rewrite ED, (dot_ext (e_dims e) _ _ _ _ EV (ES _)). cbn [F book]; unfold push, add_scaled; rewrite ED, !Nat.eqb_refl, (proj2 (Nat.eqb_neq i j) N), (proj2 (Nat.eqb_neq i' j') N'); cbn [andb]; rewrite (proj2 (Nat.ltb_lt _ _) Hd), (ES _ _ Hd); reflexivity.
  - rewrite ED, (dot_ext (e_dims e) _ _ _ _ EV (ES _)). destruct (Nat.eqb_spec (e_dims e) 2) as [E2|_].
    + assert (Z0 : (0 < e_dims e)%nat) by lia. assert (Z1 : (1 < e_dims e)%nat) by lia.
      match goal with |- context [dot 2 (vsub (vsub (e_v e' i') (e_v e' j')) (vscale ?vn (vscale ?r X'))) ?nt'] =>
        assert (ET : dot 2 (vsub (vsub (e_v e' i') (e_v e' j')) (vscale vn (vscale r X'))) nt' = dot 2 (vsub (vsub (e_v e i) (e_v e j)) (vscale vn (vscale r X))) (fun d0 : nat => match d0 with 0%nat => - vscale r X 1%nat | S _ => vscale r X 0%nat end)) end.
      { apply dot_ext.
        - intros c Hc. unfold vsub at 1 3. rewrite (EV c) by lia. unfold vscale. rewrite EX by lia. reflexivity.
        - intros [|c] _; rewrite ES by assumption; reflexivity. }
      rewrite ET. cbn [F book]. unfold add_scaled. rewrite E2 in *. rewrite !Nat.eqb_refl, (proj2 (Nat.eqb_neq i j) N), (proj2 (Nat.eqb_neq i' j') N'); cbn [andb]; rewrite (proj2 (Nat.ltb_lt _ _) Hd), (ES _ _ Hd).
      destruct d as [|d]; rewrite ?(ES _ _ Z0), ?(ES _ _ Z1); reflexivity.
    + cbn [F book]; unfold add_scaled; rewrite ?ED, !Nat.eqb_refl; cbn [andb]; rewrite (proj2 (Nat.ltb_lt _ _) Hd), (ES _ _ Hd); reflexivity.
Qed.

Lemma sum_seq n f : sum_to n f = sum_over f (seq 0 n).
Proof. induction n as [|n IH]; [reflexivity|]. rewrite seq_S, sum_app, sum_cons, sum_nil. cbn [sum_to Nat.add]. rewrite IH. ring. Qed.
Lemma sum_perm {A} (f : A -> R) l l' : Permutation l l' -> sum_over f l = sum_over f l'.
Proof. induction 1; rewrite ?sum_cons; [reflexivity|congruence|ring|congruence]. Qed.
Lemma sum_renumbered n p f : renumbering n p -> sum_to n (fun j => f (p j)) = sum_to n f.
Proof.
  intros [H1 H2]. rewrite !sum_seq. rewrite <- (sum_map p f). apply sum_perm. apply NoDup_Permutation_bis.
  - assert (G : forall l, NoDup l -> (forall i, In i l -> (i < n)%nat) -> NoDup (map p l)).
    { induction 1 as [|a l Ha ND IH]; intros B; cbn [map]; [constructor|]. constructor; [|apply IH; intros; apply B; now right].
      intros Hin. apply in_map_iff in Hin. destruct Hin as (b & E & Hb). apply H2 in E; [subst; contradiction|apply B; now right|apply B; now left]. }
    apply G; [apply seq_NoDup|]. intros i Hi. apply in_seq in Hi. lia.
  - rewrite map_length, !seq_length. lia.
  - intros x Hx. apply in_map_iff in Hx. destruct Hx as (i & <- & Hi). apply in_seq in Hi. apply in_seq. specialize (H1 i). lia.
Qed.
Lemma sum_to_eq n f g : (forall i, (i < n)%nat -> f i = g i) -> sum_to n f = sum_to n g.
Proof. induction n as [|m IH]; intros H; cbn [sum_to]; [reflexivity|]. rewrite IH by (intros; apply H; lia). now rewrite H by lia. Qed.

Section STEP.
Variables (p : nat -> nat) (w w' : world) (ls ls' : list law).
Hypothesis HP : renumbering (w_n w) p.
Hypothesis HW : same_things p w ls w' ls'.
Hypothesis HD : (0 < w_dims w)%nat.

Lemma force_on_same x v x' v' a u : (forall i d, (i < w_n w)%nat -> (d < w_dims w)%nat -> comp (w_dims w) x' i d = comp (w_dims w) x (p i) d + a d) ->
  (forall i d, (i < w_n w)%nat -> (d < w_dims w)%nat -> comp (w_dims w) v' i d = comp (w_dims w) v (p i) d + u d) ->
  forall i d, (i < w_n w)%nat -> (d < w_dims w)%nat -> force_on (w_n w) ls' (env_of w' x' v') d i = force_on (w_n w) ls (env_of w x v) d (p i).
Proof.
  intros HX HV i d Hi Hd. destruct HW as (E1 & E2 & E3 & E4 & EI & FL). unfold force_on. clear HW. induction FL as [|l l' ls0 ls0' (K & C & FR) FL IH]; [reflexivity|]. rewrite !sum_cons, IH. f_equal.
  rewrite <- (sum_renumbered (w_n w) p (fun j => if negb (j =? p i)%nat && l_for l (p i) j then force_from l (env_of w x v) d (p i) j else 0) HP). apply sum_to_eq. intros j Hj.
  rewrite (FR i j Hi Hj). assert (EQ : (j =? i)%nat = (p j =? p i)%nat).
  { destruct (Nat.eqb_spec j i) as [->|N]; [now rewrite Nat.eqb_refl|]. symmetry. apply Nat.eqb_neq. intros E. apply N. apply (proj2 HP); auto. }
  rewrite EQ. destruct (Nat.eqb_spec (p j) (p i)) as [|N]; [reflexivity|]. cbn [negb andb]. destruct (l_for l (p i) (p j)); [|reflexivity].
  transitivity (force_from l (env_of w' x' v') d i j); [unfold force_from; now rewrite K, C|].
  apply force_local; cbn [env_of e_dims e_x e_v e_im e_sg e_om e_bc e_width]; auto; try (apply EI; assumption); try (intros ->; apply N; reflexivity).
  - intros c Hc. unfold vec_of. rewrite E1. assert (X1 := HX i c Hi Hc). assert (X2 := HX j c Hj Hc). unfold comp in X1, X2. rewrite X1, X2. ring.
  - intros c Hc. unfold vec_of. rewrite E1. assert (X1 := HV i c Hi Hc). assert (X2 := HV j c Hj Hc). unfold comp in X1, X2. rewrite X1, X2. ring.
Qed.

Definition carried (a : vec) (t t' : tick) : Prop := k_dt t' = k_dt t /\ forall x x' b, length x = (w_n w * w_dims w)%nat -> length x' = (w_n w * w_dims w)%nat -> (forall d, b d = a d) ->
  (forall i d, (i < w_n w)%nat -> (d < w_dims w)%nat -> comp (w_dims w) x' i d = comp (w_dims w) x (p i) d + b d) ->
  length (k_wrap t x) = (w_n w * w_dims w)%nat /\ length (k_wrap t' x') = (w_n w * w_dims w)%nat /\
  forall i d, (i < w_n w)%nat -> (d < w_dims w)%nat -> comp (w_dims w) (k_wrap t' x') i d = comp (w_dims w) (k_wrap t x) (p i) d + b d.

Lemma step_same t t' a u st st' : carried (fun d => a d + k_dt t * u d) t t' -> same_state p a u (w_n w) (w_dims w) st st' ->
  same_state p (fun d => a d + k_dt t * u d) u (w_n w) (w_dims w) (ideal_step w ls (k_dt t) (k_wrap t) st) (ideal_step w' ls' (k_dt t') (k_wrap t') st').
Proof.
  intros [ET HC] (S1 & S2 & H). assert (HW' := HW). destruct HW' as (E1 & E2 & E3 & E4 & EI & FL). unfold ideal_step. rewrite E1, E2, ET. cbv zeta. set (dt := k_dt t) in *.
  set (n := w_n w) in *. set (dims := w_dims w) in *.
  set (v1 := flat n dims (fun i d => comp dims (sv st) i d + 1 / 2 * dt * nth i (w_im w) 0 * comp dims (sf st) i d)).
  set (v1' := flat n dims (fun i d => comp dims (sv st') i d + 1 / 2 * dt * nth i (w_im w') 0 * comp dims (sf st') i d)).
  assert (HV : forall i d, (i < n)%nat -> (d < dims)%nat -> comp dims v1' i d = comp dims v1 (p i) d + u d).
  { intros i d Hi Hd. unfold v1, v1'. rewrite !flat_comp by (try apply (proj1 HP); auto). destruct (H i d Hi Hd) as (_ & -> & ->). destruct (EI i Hi) as [-> _]. ring. }
  destruct (HC (flat n dims (fun i d => comp dims (sx st) i d + dt * comp dims v1 i d)) (flat n dims (fun i d => comp dims (sx st') i d + dt * comp dims v1' i d)) (fun d => a d + dt * u d)) as (L1 & L2 & HX).
  { apply flat_length. } { apply flat_length. } { reflexivity. }
  { intros i d Hi Hd. rewrite !flat_comp by (try apply (proj1 HP); auto). rewrite (HV i d Hi Hd). destruct (H i d Hi Hd) as (-> & _). ring. }
  set (x1 := k_wrap t _) in *. set (x1' := k_wrap t' _) in *.
  assert (HF := force_on_same x1 v1 x1' v1' _ u HX HV). fold n dims in HF.
  split; [repeat split; cbn [sx sv sf]; rewrite ?flat_length; auto|]. split; [repeat split; cbn [sx sv sf]; rewrite ?flat_length; auto|]. cbn [sx sv sf].
  intros i d Hi Hd. split; [apply HX; assumption|]. assert (Hp := proj1 HP i Hi). fold n in Hp. rewrite !flat_comp by auto. split; [|apply HF; assumption].
  rewrite (HV i d Hi Hd), (HF i d Hi Hd). destruct (EI i Hi) as [-> _]. ring.
Qed.
End STEP.
