(* Forces of one pair: independent of what was there before, and of the order of the two particles. *)
From Coq Require Import ZArith Reals List Bool Arith Lia Lra.
From Verif Require Import Model_Forces Spec_Forces Proofs_Forces.
Import ListNotations.
Local Open Scope R_scope.

Definition zero_st : fstate := mkF (fun _ _ => 0) (fun _ => 0) 0 0.

(* s is st with the forces and the energy of s0 added *)
Definition plus (st : fstate) (s s0 : option fstate) : Prop :=
  match s, s0 with
  | Some s, Some s0 => (forall a d, F s a d = F st a d + F s0 a d) /\ pot s = pot st + pot s0
  | None, None => True
  | _, _ => False
  end.
Definition same (s s0 : option fstate) : Prop :=
  match s, s0 with
  | Some s, Some s0 => (forall a d, F s a d = F s0 a d) /\ pot s = pot s0
  | None, None => True
  | _, _ => False
  end.

Ltac casesof := repeat match goal with |- context [if ?b then _ else _] => destruct b end.

Lemma kernel_plus k c e i j R1 R2 rsqr X st :
  plus st (kernel k c e i j R1 R2 rsqr X st) (kernel k c e i j R1 R2 rsqr X zero_st).
Proof.
  destruct k; cbn [kernel]; unfold hard_sphere, hard_sphere_ds, lennard_jones, coulomb, buckingham, hertz, hooke;
  (destruct (Req_EM_T rsqr 0); [exact I|]); cbv zeta.
  all: try solve [split; [intros a d; cbn [F book]; unfold push, add_scaled, zero_st; cbn [F]; casesof; ring|cbn [pot book]; unfold zero_st; casesof; cbn [pot]; ring]].
  - destruct (Rlt_dec _ 0).
    + split; [intros; unfold zero_st; cbn; ring|unfold zero_st; cbn; ring].
    + destruct (Rlt_dec (_ * _) 0); [exact I|].
      split; [intros a d; cbn [F book]; unfold push, add_scaled, zero_st; cbn [F]; casesof; ring|cbn [pot book]; unfold zero_st; casesof; cbn [pot]; ring].
  - destruct (e_dims e =? 2)%nat; (split; [intros a d; cbn [F book]; unfold add_scaled, zero_st; cbn [F]; casesof; ring|cbn [pot book]; unfold zero_st; casesof; cbn [pot]; ring]).
Qed.

Lemma pair_plus k c e w i j st : plus st (do_pair k c e w i j st) (do_pair k c e w i j zero_st).
Proof.
  unfold do_pair. cbv zeta. destruct (Rlt_dec _ _); [apply kernel_plus|]. split; [intros; cbn; ring|cbn; ring].
Qed.

Lemma correction_odd bc wid x y d : (bc d = true -> 0 <= wid d) -> y d = - x d -> correction bc wid y d = - correction bc wid x d.
Proof.
  intros W E. unfold correction. cbv zeta. rewrite E, Rabs_Ropp. destruct (bc d); [|reflexivity]. specialize (W eq_refl).
  destruct (Rlt_dec _ _) as [L|]; [|reflexivity].
  destruct (Rlt_dec 0 (- x d)), (Rlt_dec 0 (x d)); try lra.
  assert (Z : x d = 0) by lra. exfalso. revert L. rewrite Z, Rabs_R0. lra.
Qed.

Lemma dot_neg_neg n x y x' y' : (forall d, x' d = - x d) -> (forall d, y' d = - y d) -> dot n x' y' = dot n x y.
Proof. intros Hx Hy. induction n as [|n IH]; cbn; [reflexivity|]. rewrite IH, Hx, Hy. ring. Qed.

Lemma m_eff_sym a b : m_eff a b = m_eff b a.
Proof.
  unfold m_eff. destruct (Req_EM_T a 0), (Req_EM_T b 0); try reflexivity. unfold Rdiv.
  rewrite (Rplus_comm (1 * / b)), (Rmult_comm (1 * / a)). reflexivity.
Qed.

Lemma push_swap e i j n n' Fn Fn' f f' a d : (forall d, n' d = - n d) -> Fn' = Fn -> (forall a d, f' a d = f a d) ->
  push e j i n' Fn' f' a d = push e i j n Fn f a d.
Proof. intros H -> E. unfold push, add_scaled. rewrite E, H. casesof; ring. Qed.

Ltac fin H := (split; [intros a d; cbn [F book]; apply push_swap; [intros; unfold vscale; rewrite H; ring|try reflexivity|reflexivity]
                |cbn [pot book]; casesof; try reflexivity; try (f_equal; ring)]).

Lemma kernel_swap k c e i j R1 R2 rsqr X X' : (forall d, X' d = - X d) ->
  same (kernel k c e j i R2 R1 rsqr X' zero_st) (kernel k c e i j R1 R2 rsqr X zero_st).
Proof.
  intros H.
  assert (Hn : forall s d, vscale s X' d = - vscale s X d) by (intros; unfold vscale; rewrite H; ring).
  assert (HV : forall p q d, vsub (e_v e q) (e_v e p) d = - vsub (e_v e p) (e_v e q) d) by (intros; unfold vsub; ring).
  assert (Hvn : forall s p q, dot (e_dims e) (vsub (e_v e q) (e_v e p)) (vscale s X') = dot (e_dims e) (vsub (e_v e p) (e_v e q)) (vscale s X))
    by (intros; apply dot_neg_neg; auto).
  destruct k; cbn [kernel]; unfold hard_sphere, hard_sphere_ds, lennard_jones, coulomb, buckingham, hertz, hooke;
  (destruct (Req_EM_T rsqr 0); [exact I|]); cbv zeta.
  - rewrite (Rplus_comm R2 R1). fin H.
  - rewrite (Rplus_comm R2 R1), (Hvn (1 / sqrt rsqr) j i). fin H.
  - rewrite (Rplus_comm R2 R1). fin H.
  - fin H.
  - rewrite (Rplus_comm R2 R1). fin H.
  - rewrite (Rplus_comm R2 R1), (Rmult_comm R2 R1), (m_eff_sym (e_im e j)), (Hvn _ i j).
    destruct (Rlt_dec _ 0); [split; reflexivity|]. destruct (Rlt_dec (_ * _) 0); [exact I|]. fin H.
  - rewrite (Rplus_comm R2 R1), (m_eff_sym (e_im e j)), (Hvn _ i j).
    set (vn := dot (e_dims e) (vsub (e_v e i) (e_v e j)) (vscale (1 / sqrt rsqr) X)).
    set (M := m_eff (e_im e i) (e_im e j)).
    set (Fn := Rmax 0 (K_n * (R1 + R2 - sqrt rsqr) - M * gamma_n * vn)).
    destruct (e_dims e =? 2)%nat.
    + assert (T : dot 2 (vsub (vsub (e_v e j) (e_v e i)) (vscale vn (vscale (1 / sqrt rsqr) X')))
                    (fun d => match d with O => - vscale (1 / sqrt rsqr) X' 1%nat | S _ => vscale (1 / sqrt rsqr) X' 0%nat end) =
                  dot 2 (vsub (vsub (e_v e i) (e_v e j)) (vscale vn (vscale (1 / sqrt rsqr) X)))
                    (fun d => match d with O => - vscale (1 / sqrt rsqr) X 1%nat | S _ => vscale (1 / sqrt rsqr) X 0%nat end)).
      { apply dot_neg_neg; [intros d|intros [|d]]; unfold vsub, vscale; rewrite !H; ring. }
      rewrite T, (Rplus_comm (e_om e j * R2)).
      split; [|cbn [pot book]; casesof; reflexivity]. intros a d. cbn [F book].
      set (Ft := if Rlt_dec _ _ then _ else _). unfold add_scaled. rewrite !Hn.
      destruct d as [|d]; casesof; unfold zero_st; cbn [F]; ring.
    + split; [|cbn [pot book]; casesof; reflexivity]. intros a d. cbn [F book]. unfold add_scaled. rewrite Hn. casesof; unfold zero_st; cbn [F]; ring.
Qed.

Lemma pair_swap k c e w i j : (forall d, e_bc e d = true -> 0 <= e_width e d) ->
  same (do_pair k c e w j i zero_st) (do_pair k c e w i j zero_st).
Proof.
  intros W. unfold do_pair. cbv zeta. rewrite (Rplus_comm (e_sg e j)).
  set (X := if w then correction (e_bc e) (e_width e) (vsub (e_x e i) (e_x e j)) else vsub (e_x e i) (e_x e j)).
  set (X' := if w then correction (e_bc e) (e_width e) (vsub (e_x e j) (e_x e i)) else vsub (e_x e j) (e_x e i)).
  assert (H : forall d, X' d = - X d).
  { intros d. unfold X, X'. destruct w; [apply correction_odd; [apply W|]|]; unfold vsub; ring. }
  rewrite (dot_neg_neg (e_dims e) X X X' X' H H). destruct (Rlt_dec _ _); [|split; reflexivity]. now apply kernel_swap.
Qed.

(* If the wrapping changes nothing, it does not matter whether it is asked for. *)
Lemma dot_pt n x y x' y' : (forall d, x' d = x d) -> (forall d, y' d = y d) -> dot n x' y' = dot n x y.
Proof. intros Hx Hy. induction n as [|n IH]; cbn; [reflexivity|]. rewrite IH, Hx, Hy. ring. Qed.
Lemma push_pt e i j n n' Fn f a d : (forall d, n' d = n d) -> push e i j n' Fn f a d = push e i j n Fn f a d.
Proof. intros H. unfold push, add_scaled. rewrite H. reflexivity. Qed.

Lemma kernel_pt k c e i j R1 R2 rsqr X X' : (forall d, X' d = X d) ->
  same (kernel k c e i j R1 R2 rsqr X' zero_st) (kernel k c e i j R1 R2 rsqr X zero_st).
Proof.
  intros H.
  assert (Hn : forall s d, vscale s X' d = vscale s X d) by (intros; unfold vscale; rewrite H; ring).
  assert (Hvn : forall s v, dot (e_dims e) v (vscale s X') = dot (e_dims e) v (vscale s X)) by (intros; apply dot_pt; auto).
  destruct k; cbn [kernel]; unfold hard_sphere, hard_sphere_ds, lennard_jones, coulomb, buckingham, hertz, hooke;
  (destruct (Req_EM_T rsqr 0); [exact I|]); cbv zeta; rewrite ?Hvn.
  all: try solve [split; [intros a d; cbn [F book]; apply push_pt; auto|cbn [pot book]; casesof; reflexivity]].
  - destruct (Rlt_dec _ 0); [split; reflexivity|]. destruct (Rlt_dec (_ * _) 0); [exact I|].
    split; [intros a d; cbn [F book]; apply push_pt; auto|cbn [pot book]; casesof; reflexivity].
  - set (vn := dot (e_dims e) (vsub (e_v e i) (e_v e j)) (vscale (1 / sqrt rsqr) X)).
    destruct (e_dims e =? 2)%nat.
    + assert (T : dot 2 (vsub (vsub (e_v e i) (e_v e j)) (vscale vn (vscale (1 / sqrt rsqr) X')))
                    (fun d => match d with O => - vscale (1 / sqrt rsqr) X' 1%nat | S _ => vscale (1 / sqrt rsqr) X' 0%nat end) =
                  dot 2 (vsub (vsub (e_v e i) (e_v e j)) (vscale vn (vscale (1 / sqrt rsqr) X)))
                    (fun d => match d with O => - vscale (1 / sqrt rsqr) X 1%nat | S _ => vscale (1 / sqrt rsqr) X 0%nat end)).
      { apply dot_pt; [intros d|intros [|d]]; unfold vsub, vscale; rewrite !H; ring. }
      rewrite T. split; [|cbn [pot book]; casesof; reflexivity]. intros a d. cbn [F book]. unfold add_scaled. rewrite !Hn. destruct d; reflexivity.
    + split; [|cbn [pot book]; casesof; reflexivity]. intros a d. cbn [F book]. unfold add_scaled. rewrite Hn. reflexivity.
Qed.

Lemma pair_direct k c e i j : (forall d, shift_of e true i j d = shift_of e false i j d) ->
  same (do_pair k c e false i j zero_st) (do_pair k c e true i j zero_st).
Proof.
  intros H. unfold shift_of in H. unfold do_pair. cbv zeta.
  set (X := correction (e_bc e) (e_width e) (vsub (e_x e i) (e_x e j))) in *. set (X' := vsub (e_x e i) (e_x e j)) in *.
  rewrite (dot_pt (e_dims e) X X X' X') by (intros; symmetry; apply H).
  destruct (Rlt_dec _ _); [|split; reflexivity]. apply kernel_pt. intros; symmetry; apply H.
Qed.

Lemma pair_far k c e w i j : ~ dot (e_dims e) (shift_of e w i j) (shift_of e w i j) < ((e_sg e i + e_sg e j) * c) * ((e_sg e i + e_sg e j) * c) ->
  do_pair k c e w i j zero_st = Some zero_st.
Proof. intros H. unfold do_pair, shift_of in *. cbv zeta. destruct (Rlt_dec _ _); [contradiction|reflexivity]. Qed.

(* Only the two particles get forces. *)
Lemma pair_others k c e w i j s a d : do_pair k c e w i j zero_st = Some s -> a <> i -> a <> j -> F s a d = 0.
Proof.
  intros E Hi Hj. destruct (pair_opposite _ _ _ _ _ _ _ _ E) as (g & O). rewrite (O a d).
  destruct (Nat.eqb_spec a i); [contradiction|]. destruct (Nat.eqb_spec a j); [contradiction|]. cbn. ring.
Qed.
