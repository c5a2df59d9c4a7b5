(* C29 (bonded forces conserve momentum and pull), C58 (Hooke's law for bonds). *)
From Coq Require Import Reals List Bool Arith Lia Lra.
From Verif Require Import Model_Forces Spec_Forces Proofs_Forces Proofs_Forces2.
Import ListNotations.
Local Open Scope R_scope.

Lemma total_add n d dims id x s f : (id < n)%nat -> total n d (add_scaled dims id x s f) = total n d f + (if (d <? dims)%nat then s * x d else 0).
Proof.
  intros H. unfold total. set (q := if (d <? dims)%nat then s * x d else 0).
  rewrite (sum_to_ext n _ (fun i => f i d + (if (i =? id)%nat then q else 0))).
  2:{ intros i Hi. unfold add_scaled, q. destruct (i =? id)%nat, (d <? dims)%nat; cbn [andb]; ring. }
  rewrite sum_to_plus, sum_to_one. destruct (Nat.ltb_spec id n); [reflexivity|lia].
Qed.
Lemma harmonic_total K e b f n d : (b_l b < n)%nat -> (b_r b < n)%nat -> total n d (harmonic_one K e b f) = total n d f.
Proof. intros Hl Hr. unfold harmonic_one. rewrite !total_add by assumption. destruct (d <? e_dims e)%nat; ring. Qed.
Lemma bonds_total K e n d bs : (forall b, In b bs -> (b_l b < n)%nat /\ (b_r b < n)%nat) -> forall f, total n d (fold_left (fun f b => harmonic_one K e b f) bs f) = total n d f.
Proof.
  induction bs as [|b bs IH]; intros H f; [reflexivity|]. cbn [fold_left]. rewrite IH by (intros; apply H; now right).
  destruct (H b (or_introl eq_refl)). now apply harmonic_total.
Qed.
Lemma fold_opt_total {A} (step : A -> fstate -> option fstate) n d l : (forall a st st', In a l -> step a st = Some st' -> total n d (F st') = total n d (F st)) ->
  forall st st', fold_opt step l st = Some st' -> total n d (F st') = total n d (F st).
Proof.
  induction l as [|a l IH]; intros H st st' E; cbn in E; [now injection E as <-|]. destruct (step a st) as [s1|] eqn:Es; [|discriminate].
  rewrite (IH (fun a0 s s' Hin => H a0 s s' (or_intror Hin)) s1 st' E). apply (H a st s1 (or_introl eq_refl) Es).
Qed.

(* Harmonic bonds, generic, 2d and 3d, any list of bonds between the particles 0..n-1, dead particles or not: the total force is
   unchanged. *)
Theorem C29_bonds : forall K e n bs st d, (forall b, In b bs -> (b_l b < n)%nat /\ (b_r b < n)%nat) ->
  total n d (F (harmonic_bonds K e bs st)) = total n d (F st).
Proof. intros K e n bs st d H. cbn [harmonic_bonds F]. now apply bonds_total. Qed.
Print Assumptions C29_bonds.
Theorem C29_bonds_2d : forall K e dead n bs st st' d, (forall b, In b bs -> (b_l b < n)%nat /\ (b_r b < n)%nat) ->
  harmonic_bonds_2d K e dead bs st = Some st' -> total n d (F st') = total n d (F st).
Proof.
  intros K e dead n bs st st' d H E. unfold harmonic_bonds_2d in E. destruct (e_dims e =? 2)%nat.
  - rewrite (fold_opt_total (harmonic_2d_one K e dead) n d bs) with (st := harmonic_bonds K e bs st); [now apply C29_bonds| |exact E].
    intros b s s' Hb Hs. destruct (H b Hb) as [Hl Hr]. unfold harmonic_2d_one in Hs. destruct (dead _ || dead _); [now injection Hs as <-|].
    destruct (Req_EM_T _ 0); [discriminate|]. injection Hs as <-. cbn [book F]. rewrite !total_add by assumption. destruct (d <? 2)%nat; ring.
  - injection E as <-. now apply C29_bonds.
Qed.
Print Assumptions C29_bonds_2d.
Lemma three_unchanged K e dead b s s' : harmonic_3d_one K e dead b s = Some s' -> forall i d, F s' i d = F s i d.
Proof.
  intros H i d. unfold harmonic_3d_one in H. destruct (dead _ || dead _); [now injection H as <-|]. destruct (Req_EM_T _ 0); [discriminate|]. injection H as <-.
  cbn [F]. unfold add_scaled. destruct (i =? b_l b)%nat, (d <? 3)%nat; cbn [andb]; ring.
Qed.
Lemma threes_unchanged K e dead bs : forall s s', fold_opt (harmonic_3d_one K e dead) bs s = Some s' -> forall i d, F s' i d = F s i d.
Proof.
  induction bs as [|b bs IH]; intros s s' H i d; cbn in H; [now injection H as <-|]. destruct (harmonic_3d_one K e dead b s) as [s1|] eqn:E; [|discriminate].
  rewrite (IH s1 s' H i d). now apply (three_unchanged K e dead b).
Qed.
Theorem C29_bonds_3d : forall K e dead n bs st st' d, (forall b, In b bs -> (b_l b < n)%nat /\ (b_r b < n)%nat) ->
  harmonic_bonds_3d K e dead bs st = Some st' -> total n d (F st') = total n d (F st).
Proof.
  intros K e dead n bs st st' d H E. unfold harmonic_bonds_3d in E. destruct (e_dims e =? 3)%nat; [|injection E as <-; now apply C29_bonds].
  rewrite <- (C29_bonds K e n bs st d H). apply sum_to_ext. intros i _. now apply (threes_unchanged K e dead bs).
Qed.
Print Assumptions C29_bonds_3d.

(* The chain: total unchanged, however many atoms. *)
Theorem C29_chain : forall K e n ids lens f f' d, (forall i, In i ids -> (i < n)%nat) -> chain_loop K e ids lens f = Some f' -> total n d f' = total n d f.
Proof.
  intros K e n ids. induction ids as [|i [|j ids] IH]; intros lens f f' d H E; cbn [chain_loop] in E; [now injection E as <-..|].
  destruct lens as [|l lens]; [discriminate|]. rewrite (IH lens (harmonic_one K e (mkBond i j l) f) f' d); [|intros; apply H; now right|exact E].
  apply harmonic_total; cbn; apply H; cbn; auto.
Qed.
Print Assumptions C29_chain.
Theorem C29_chain_defined : forall K e ids lens f, length ids = S (length lens) -> exists f', chain_loop K e ids lens f = Some f'.
Proof.
  intros K e ids. induction ids as [|i [|j ids] IH]; intros lens f H; cbn [chain_loop]; [eauto..|]. destruct lens as [|l lens]; [discriminate|]. apply IH. cbn in *. lia.
Qed.
Print Assumptions C29_chain_defined.

Lemma angle_step_total K A e prev i j k l1 last f u f' u' p n d : (i < n)%nat -> (j < n)%nat -> (k < n)%nat ->
  angle_step K A e prev i j k l1 last (f, u) = Some (f', u', p) -> total n d f' = total n d f.
Proof.
  intros Hi Hj Hk H. unfold angle_step in H. destruct (match prev with Some _ => _ | None => _ end) as [[dx1 r1]|]; [|discriminate].
  destruct (Req_EM_T _ 0) in H; [discriminate|]. destruct (Req_EM_T _ 0) in H; [now injection H as <- _ _|]. destruct (Req_EM_T _ 0) in H; [now injection H as <- _ _|].
  destruct last as [l2|]; injection H as <- _ _; rewrite !total_add by assumption; destruct (d <? 2)%nat; ring.
Qed.
Lemma angle_loop_total K A e n d ids : (forall i, In i ids -> (i < n)%nat) -> forall prev lens f u f' u',
  angle_loop K A e prev ids lens (f, u) = Some (f', u') -> total n d f' = total n d f.
Proof.
  induction ids as [|i [|j [|k ids]] IH]; intros H prev lens f u f' u' E; cbn [angle_loop] in E; [now injection E as <- _..|].
  destruct lens as [|l1 [|l2 lens]]; try discriminate. destruct (angle_step K A e prev i j k l1 _ (f, u)) as [[[f1 u1] p]|] eqn:Es; [|discriminate].
  rewrite (IH (fun x Hx => H x (or_intror Hx)) (Some p) (l2 :: lens) f1 u1 f' u' E). eapply angle_step_total; [| | |exact Es]; apply H; cbn; auto.
Qed.
(* The angle chains. *)
Theorem C29_angle_chain_2d : forall K A e n ids lens st st' d, (forall i, In i ids -> (i < n)%nat) -> angle_chain_2d K A e ids lens st = Some st' ->
  total n d (F st') = total n d (F st).
Proof.
  intros K A e n ids lens st st' d H E. unfold angle_chain_2d in E. destruct (length ids <? 3)%nat; [now injection E as <-|].
  destruct (angle_loop K A e None ids lens (F st, 0)) as [[f u]|] eqn:EL; [|discriminate]. injection E as <-. cbn [F fst]. now apply (angle_loop_total K A e n d ids H None lens _ 0 f u).
Qed.
Print Assumptions C29_angle_chain_2d.
Theorem C29_angle_chain_3d : forall A e n ids st st' d, (forall i, In i ids -> (i < n)%nat) -> angle_chain_3d A e ids st = Some st' ->
  total n d (F st') = total n d (F st).
Proof.
  intros A e n ids st st' d H E. unfold angle_chain_3d in E. destruct (angle3_loop A e ids (F st)) as [f|] eqn:EL; [|discriminate]. injection E as <-. cbn [F].
  revert EL. generalize (F st). clear st. revert f H. induction ids as [|i [|j [|k ids]] IH]; intros f H g EL; cbn [angle3_loop] in EL; [now injection EL as <-..|].
  destruct (angle3_step A e i j k g) as [g1|] eqn:Es; [|discriminate]. rewrite (IH f (fun x Hx => H x (or_intror Hx)) g1 EL).
  unfold angle3_step in Es. destruct (Req_EM_T _ 0) in Es; [discriminate|]. destruct (Req_EM_T _ 0) in Es; [discriminate|]. injection Es as <-.
  rewrite !total_add by (apply H; cbn; auto). destruct (d <? 3)%nat; ring.
Qed.
Print Assumptions C29_angle_chain_3d.

(* A stretched bond pulls its two ends together: the left particle gets a negative multiple of the vector from the right
   particle to the left one, the right particle the opposite. *)
Lemma harmonic_pull K e b f : let X := shift_of e true (b_l b) (b_r b) in let r := norm (e_dims e) X in 0 < r ->
  opposite (e_dims e) (b_l b) (b_r b) (vscale (- (K * (r - b_len b) / r)) X) f (harmonic_one K e b f).
Proof.
  intros X r Hr i d. unfold harmonic_one. change (displacement e (b_l b) (b_r b)) with X. fold (norm (e_dims e) X). fold r. unfold add_scaled, normalize.
  destruct (Rlt_dec 0 (dot (e_dims e) X X)) as [L|L]. 2:{ exfalso. apply L. rewrite <- norm_sq. fold r. now apply Rmult_lt_0_compat. }
  fold (norm (e_dims e) X). fold r. unfold vscale. destruct (i =? b_l b)%nat, (i =? b_r b)%nat, (d <? e_dims e)%nat; cbn [andb]; field; lra.
Qed.
Theorem C29_pulls : forall K e dead b st, dead (b_l b) = false -> dead (b_r b) = false ->
  let X := shift_of e true (b_l b) (b_r b) in let r := norm (e_dims e) X in 0 < K -> 0 < r -> b_len b < r ->
  (exists c, 0 < c /\ opposite (e_dims e) (b_l b) (b_r b) (vscale (- c) X) (F st) (F (harmonic_bonds K e [b] st))) /\
  (exists st' c, harmonic_bonds_2d K e dead [b] st = Some st' /\ 0 < c /\ opposite (e_dims e) (b_l b) (b_r b) (vscale (- c) X) (F st) (F st')) /\
  (exists st' c, harmonic_bonds_3d K e dead [b] st = Some st' /\ 0 < c /\ opposite (e_dims e) (b_l b) (b_r b) (vscale (- c) X) (F st) (F st')).
Proof.
  intros K e dead b st D1 D2 X r HK Hr Hl. assert (Hc : 0 < K * (r - b_len b) / r) by (apply Rdiv_lt_0_compat; [apply Rmult_lt_0_compat; lra|exact Hr]).
  assert (P := harmonic_pull K e b (F st) Hr). fold X in P. fold r in P. assert (ND : dot (e_dims e) X X <> 0) by now apply norm_pos_dot.
  split; [|split].
  - exists (K * (r - b_len b) / r). split; [exact Hc|]. exact P.
  - unfold harmonic_bonds_2d. destruct (Nat.eqb_spec (e_dims e) 2) as [E2|]; [|do 2 eexists; split; [reflexivity|]; split; [exact Hc|exact P]].
    cbn [fold_opt]. unfold harmonic_2d_one. rewrite D1, D2. cbn [orb]. change (displacement e (b_l b) (b_r b)) with X. unfold r in *. rewrite E2 in *. destruct (Req_EM_T _ 0); [contradiction|].
    fold (norm 2 X) in *. set (q := norm 2 X) in *. eexists. exists (2 * (K * (q - b_len b) / q)). split; [reflexivity|]. split; [lra|]. intros i d. cbn [book F]. unfold add_scaled.
    cbn [harmonic_bonds F fold_left]. rewrite (P i d). unfold vscale. destruct (i =? b_l b)%nat, (i =? b_r b)%nat, (d <? 2)%nat; cbn [andb]; field; lra.
  - unfold harmonic_bonds_3d. destruct (Nat.eqb_spec (e_dims e) 3) as [E3|]; [|do 2 eexists; split; [reflexivity|]; split; [exact Hc|exact P]].
    destruct (fold_opt (harmonic_3d_one K e dead) [b] (harmonic_bonds K e [b] st)) as [s|] eqn:E.
    + exists s, (K * (r - b_len b) / r). split; [reflexivity|]. split; [exact Hc|]. intros i d. rewrite (threes_unchanged _ _ _ _ _ _ E). apply P.
    + exfalso. cbn [fold_opt] in E. unfold harmonic_3d_one in E. rewrite D1, D2 in E. cbn [orb] in E. change (displacement e (b_l b) (b_r b)) with X in E. rewrite E3 in ND. destruct (Req_EM_T _ 0); [contradiction|discriminate].
Qed.
Print Assumptions C29_pulls.
Example C29_case : 0 < norm 1 (shift_of (line 1 1 3) true 0 1) /\ b_len (mkBond 0 1 2) < norm 1 (shift_of (line 1 1 3) true 0 1).
Proof. replace (norm 1 (shift_of (line 1 1 3) true 0 1)) with 3; [cbn; lra|]. unfold norm, shift_of, correction, line, vsub. cbn. replace ((3 - 0) * (3 - 0) + 0) with (3 * 3) by ring. symmetry. apply sqrt_square. lra. Qed.

(* C29 fails for angle chains: a straight chain of three atoms exerts no force however much its bonds are stretched (the loop is
   left before the springs), in 2d ... *)
Definition row (a b : R) : env :=   (* three atoms on the first axis, at 0, a and a + b *)
  mkEnv 2 (fun i d => match d with O => match i with O => 0 | S O => a | _ => a + b end | _ => 0 end) (fun _ _ => 0) (fun _ => 1) (fun _ => 1) (fun _ => 0) (fun _ => false) (fun _ => 0) true true.
Theorem C29_straight_chain_refuted : forall K A a b l1 l2 st, 0 < a -> 0 < b ->
  exists st', angle_chain_2d K A (row a b) [0; 1; 2]%nat [l1; l2] st = Some st' /\ forall i d, F st' i d = F st i d.
Proof.
  intros K A a b l1 l2 st Ha Hb. unfold angle_chain_2d. cbn [length Nat.ltb Nat.leb]. cbn [angle_loop]. unfold angle_step.
  assert (E1 : dot 2 (displacement (row a b) 0 1) (displacement (row a b) 0 1) = a * a) by (unfold displacement, correction, vsub, row; cbn; ring).
  assert (E2 : dot 2 (displacement (row a b) 2 1) (displacement (row a b) 2 1) = b * b) by (unfold displacement, correction, vsub, row; cbn; ring).
  rewrite E1, E2. destruct (Req_EM_T (a * a) 0); [nra|]. destruct (Req_EM_T (b * b) 0); [nra|].
  destruct (Req_EM_T _ 0) as [_|N]; [eexists; split; [reflexivity|reflexivity]|]. exfalso. apply N. unfold triple2, dot, vscale, displacement, correction, vsub, row. cbn. ring.
Qed.
Print Assumptions C29_straight_chain_refuted.
(* ... a chain of two atoms never exerts any force, and in 3d there are no springs at all: the last atom of a chain of three
   is never acted upon, ... *)
Theorem C29_two_atoms_refuted : forall K A e i j lens st, exists st', angle_chain_2d K A e [i; j] lens st = Some st' /\ forall a d, F st' a d = F st a d.
Proof. intros. eexists. split; [reflexivity|]. reflexivity. Qed.
Print Assumptions C29_two_atoms_refuted.
Theorem C29_third_atom_refuted : forall A e i j k st st' d, k <> i -> k <> j -> angle_chain_3d A e [i; j; k] st = Some st' -> F st' k d = F st k d.
Proof.
  intros A e i j k st st' d Hi Hj E. unfold angle_chain_3d in E. cbn [angle3_loop] in E. destruct (angle3_step A e i j k (F st)) as [g|] eqn:Es; [|discriminate]. injection E as <-. cbn [F].
  unfold angle3_step in Es. destruct (Req_EM_T _ 0) in Es; [discriminate|]. destruct (Req_EM_T _ 0) in Es; [discriminate|]. injection Es as <-.
  unfold add_scaled. destruct (Nat.eqb_spec k i); [contradiction|]. destruct (Nat.eqb_spec k j); [contradiction|]. reflexivity.
Qed.
Print Assumptions C29_third_atom_refuted.

(* ------------------------------------------------------------------ C58 *)
(* A bond of spring constant K exerts the force K*(r - length) (generic and 3d; Newton's third law included), and in 3d reports
   the energy K/2*(r - length)^2. *)
Theorem C58_bond : forall K e b st, let X := shift_of e true (b_l b) (b_r b) in let r := norm (e_dims e) X in 0 < r ->
  opposite (e_dims e) (b_l b) (b_r b) (vscale (- (K * (r - b_len b)) / r) X) (F st) (F (harmonic_bonds K e [b] st)).
Proof.
  intros K e b st X r Hr. replace (- (K * (r - b_len b)) / r) with (- (K * (r - b_len b) / r)) by (field; lra). exact (harmonic_pull K e b (F st) Hr).
Qed.
Print Assumptions C58_bond.
Theorem C58_bond_3d : forall K e dead b st, dead (b_l b) = false -> dead (b_r b) = false -> e_dims e = 3%nat -> e_pot e = true ->
  let X := shift_of e true (b_l b) (b_r b) in let r := norm 3 X in 0 < r ->
  exists st', harmonic_bonds_3d K e dead [b] st = Some st' /\ pot st' = K / 2 * ((r - b_len b) * (r - b_len b)) /\
    opposite 3 (b_l b) (b_r b) (vscale (- (K * (r - b_len b)) / r) X) (F st) (F st').
Proof.
  intros K e dead b st D1 D2 E3 HP X r Hr. assert (P := C58_bond K e b st). cbv zeta in P. rewrite E3 in P. specialize (P Hr).
  unfold harmonic_bonds_3d. rewrite E3. cbn [Nat.eqb]. destruct (fold_opt (harmonic_3d_one K e dead) [b] (harmonic_bonds K e [b] st)) as [s|] eqn:E.
  - exists s. split; [reflexivity|]. split; [|intros i d; rewrite (threes_unchanged _ _ _ _ _ _ E); apply P].
    cbn [fold_opt] in E. unfold harmonic_3d_one in E. rewrite D1, D2 in E. cbn [orb] in E. destruct (Req_EM_T _ 0); [discriminate|]. injection E as <-. cbn [pot F]. rewrite HP. cbn [harmonic_bonds pot].
    match goal with |- context [sqrt ?z] => change (sqrt z) with r end. field.
  - exfalso. cbn [fold_opt] in E. unfold harmonic_3d_one in E. rewrite D1, D2 in E. cbn [orb] in E. destruct (Req_EM_T _ 0) as [Z|]; [|discriminate]. revert Z. now apply norm_pos_dot.
Qed.
Print Assumptions C58_bond_3d.
(* C58 fails for the 2d bond: its interact calls the generic one first and then adds the force again, twice the force in all. *)
Theorem C58_bond_2d_refuted : forall K e dead b st, dead (b_l b) = false -> dead (b_r b) = false -> e_dims e = 2%nat ->
  let X := shift_of e true (b_l b) (b_r b) in let r := norm 2 X in 0 < r ->
  exists st', harmonic_bonds_2d K e dead [b] st = Some st' /\
    opposite 2 (b_l b) (b_r b) (vscale (- (2 * (K * (r - b_len b))) / r) X) (F st) (F st').
Proof.
  intros K e dead b st D1 D2 E2 X r Hr. assert (P := C58_bond K e b st). cbv zeta in P. rewrite E2 in P. specialize (P Hr). fold X in P. fold r in P.
  unfold harmonic_bonds_2d. rewrite E2. cbn [Nat.eqb fold_opt]. unfold harmonic_2d_one. rewrite D1, D2. cbn [orb]. change (displacement e (b_l b) (b_r b)) with X.
  destruct (Req_EM_T _ 0) as [Z|_]; [exfalso; revert Z; now apply norm_pos_dot|]. eexists. split; [reflexivity|]. cbn [book F]. fold (norm 2 X). fold r. intros i d. unfold add_scaled. rewrite (P i d). unfold vscale.
  destruct (i =? b_l b)%nat, (i =? b_r b)%nat, (d <? 2)%nat; cbn [andb]; field; lra.
Qed.
Print Assumptions C58_bond_2d_refuted.
