From Coq Require Import Reals List Bool Arith Lia Lra.
From Verif Require Import Model_Forces Spec_Forces.
Import ListNotations.
Local Open Scope R_scope.

Lemma dot_nonneg n x : 0 <= dot n x x.
Proof. induction n; cbn; [lra|]. assert (H := Rle_0_sqr (x n)). unfold Rsqr in H. lra. Qed.
Lemma dot_scale_l n s x y : dot n (vscale s x) y = s * dot n x y.
Proof. induction n; cbn; [ring|]. rewrite IHn. unfold vscale. ring. Qed.
Lemma dot_scale_r n s x y : dot n x (vscale s y) = s * dot n x y.
Proof. induction n; cbn; [ring|]. rewrite IHn. unfold vscale. ring. Qed.
Lemma dot_ext n x x' y y' : (forall d, (d < n)%nat -> x d = x' d /\ y d = y' d) -> dot n x y = dot n x' y'.
Proof. induction n; cbn; intros H; [reflexivity|]. rewrite IHn by (intros; apply H; lia). destruct (H n ltac:(lia)) as [-> ->]. reflexivity. Qed.

Lemma sum_to_ext n g h : (forall i, (i < n)%nat -> g i = h i) -> sum_to n g = sum_to n h.
Proof. induction n; cbn; intros H; [reflexivity|]. rewrite IHn by (intros; apply H; lia). rewrite H by lia. reflexivity. Qed.
Lemma sum_to_plus n g h : sum_to n (fun i => g i + h i) = sum_to n g + sum_to n h.
Proof. induction n; cbn; [ring|]. rewrite IHn. ring. Qed.
Lemma sum_to_scale n s g : sum_to n (fun i => s * g i) = s * sum_to n g.
Proof. induction n; cbn; [ring|]. rewrite IHn. ring. Qed.
Lemma sum_to_one n k v : sum_to n (fun i => if (i =? k)%nat then v else 0) = if (k <? n)%nat then v else 0.
Proof.
  induction n; cbn [sum_to]; [reflexivity|]. rewrite IHn. destruct (Nat.ltb_spec k n), (Nat.ltb_spec k (S n)), (Nat.eqb_spec n k); try lia; lra.
Qed.
Lemma opposite_total dims i0 i1 g f f' n d : opposite dims i0 i1 g f f' -> (i0 < n)%nat -> (i1 < n)%nat -> total n d f' = total n d f.
Proof.
  intros H H0 H1. unfold total. set (q := if (d <? dims)%nat then g d else 0).
  rewrite (sum_to_ext n _ (fun i => f i d + ((if (i =? i0)%nat then q else 0) + (-1) * (if (i =? i1)%nat then q else 0)))).
  2:{ intros i Hi. rewrite H. unfold q. destruct (i =? i0)%nat, (i =? i1)%nat; ring. }
  rewrite !sum_to_plus, sum_to_scale, !sum_to_one. destruct (Nat.ltb_spec i0 n); [|lia]. destruct (Nat.ltb_spec i1 n); [|lia]. ring.
Qed.
Lemma opposite_refl dims i0 i1 f : opposite dims i0 i1 (fun _ => 0) f f.
Proof. intros i d. destruct (i =? i0)%nat, (i =? i1)%nat, (d <? dims)%nat; ring. Qed.
Lemma push_opposite e i0 i1 n Fn f : opposite (e_dims e) i0 i1 (vscale Fn n) f (push e i0 i1 n Fn f).
Proof.
  intros i d. unfold push, add_scaled, vscale. destruct (i =? i0)%nat, (i =? i1)%nat, (d <? e_dims e)%nat; cbn [andb]; ring.
Qed.

(* The force that each kernel adds is central, for all but Hooke. *)
Lemma kernel_central k c e i0 i1 R1 R2 rsqr X st st' : (forall kn gn gt mu, k <> Hooke kn gn gt mu) ->
  kernel k c e i0 i1 R1 R2 rsqr X st = Some st' -> exists Fn, opposite (e_dims e) i0 i1 (vscale Fn (vscale (1 / sqrt rsqr) X)) (F st) (F st').
Proof.
  intros NH H. destruct k; cbn [kernel] in H;
    [unfold hard_sphere in H|unfold hard_sphere_ds in H|unfold lennard_jones in H|unfold coulomb in H|unfold buckingham in H|unfold hertz in H|exfalso; now apply (NH K_n gamma_n gamma_t mu)];
    (destruct (Req_EM_T rsqr 0); [discriminate|]).
  1-5: injection H as <-; cbn [book F]; eexists; apply push_opposite.
  destruct (Rlt_dec _ 0) in H.
  - injection H as <-. exists 0. intros i d. unfold vscale. destruct (i =? i0)%nat, (i =? i1)%nat, (d <? e_dims e)%nat; ring.
  - destruct (Rlt_dec _ 0) in H; [discriminate|]. injection H as <-. cbn [book F]. eexists. apply push_opposite.
Qed.
Lemma add_two dims i0 i1 x s f f1 : (forall i d, f1 i d = f i d) ->
  opposite dims i0 i1 (vscale s x) f (add_scaled dims i1 x (- s) (add_scaled dims i0 x s f1)).
Proof.
  intros H i d. unfold add_scaled, vscale. rewrite H. destruct (i =? i0)%nat, (i =? i1)%nat, (d <? dims)%nat; cbn [andb]; ring.
Qed.
Lemma kernel_hooke kn gn gt mu c e i0 i1 R1 R2 rsqr X st st' :
  kernel (Hooke kn gn gt mu) c e i0 i1 R1 R2 rsqr X st = Some st' -> exists g, opposite (e_dims e) i0 i1 g (F st) (F st').
Proof.
  cbn [kernel]. unfold hooke. destruct (Req_EM_T rsqr 0); [discriminate|]. destruct (Nat.eqb_spec (e_dims e) 2) as [E2|N2]; intros H; injection H as <-; cbn [book F].
  - rewrite E2. eexists. apply add_two. intros i d. unfold add_scaled. destruct (i =? i0)%nat, (d <? 2)%nat; cbn [andb]; ring.
  - exists (fun _ => 0). intros i d. unfold add_scaled. destruct (i =? i0)%nat, (i =? i1)%nat, (d <? e_dims e)%nat; cbn [andb]; ring.
Qed.
Lemma kernel_opposite k c e i0 i1 R1 R2 rsqr X st st' :
  kernel k c e i0 i1 R1 R2 rsqr X st = Some st' -> exists g, opposite (e_dims e) i0 i1 g (F st) (F st').
Proof.
  intros H. assert (D : (exists kn gn gt mu, k = Hooke kn gn gt mu) \/ forall kn gn gt mu, k <> Hooke kn gn gt mu).
  { destruct k; try (right; intros; discriminate). left. eauto 6. }
  destruct D as [(kn & gn & gt & mu & ->)|D]; [now apply kernel_hooke in H|]. destruct (kernel_central _ _ _ _ _ _ _ _ _ _ _ D H) as (Fn & HF). eauto.
Qed.
Lemma pair_opposite k c e w i j st st' : do_pair k c e w i j st = Some st' -> exists g, opposite (e_dims e) i j g (F st) (F st').
Proof.
  unfold do_pair. destruct (Rlt_dec _ _); [apply kernel_opposite|]. intros H. injection H as <-. exists (fun _ => 0). apply opposite_refl.
Qed.
Lemma list_total k c e w n d ps : forall st st', (forall i j, In (i, j) ps -> (i < n)%nat /\ (j < n)%nat) ->
  do_list k c e w ps st = Some st' -> total n d (F st') = total n d (F st).
Proof.
  induction ps as [|[i j] ps IH]; intros st st' HP H; cbn [do_list] in H; [injection H as <-; reflexivity|].
  destruct (do_pair k c e w i j st) as [st1|] eqn:E; [|discriminate]. destruct (pair_opposite _ _ _ _ _ _ _ _ E) as (g & Hg).
  destruct (HP i j (or_introl eq_refl)) as [Hi Hj]. rewrite (IH st1 st'); [|intros; apply HP; now right|exact H]. now apply (opposite_total _ _ _ _ _ _ n d Hg).
Qed.
