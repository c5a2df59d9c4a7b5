From Verif Require Import Lib Model_Handlers Spec_Handlers Proofs_Handlers Proofs_Store6.
Local Open Scope list_scope.

Lemma set_grid_spec n i j it g : length g = n -> (forall row, In row g -> length row = n) -> (i < n)%nat -> (j < n)%nat ->
  exists g', set_grid i j it g = Some g' /\ length g' = n /\ (forall row, In row g' -> length row = n) /\
    forall a b, grid_at g' a b = if ((a =? i) && (b =? j))%nat then it else grid_at g a b.
Proof.
  intros Lg Lr Hi Hj. unfold set_grid. destruct (nth_error g i) as [row|] eqn:Er. 2:{ apply nth_error_None in Er. lia. }
  assert (Lrow : length row = n) by (apply Lr; eapply nth_error_In; eauto).
  destruct (put_spec j (fun _ => it) row) as (row' & E1 & L1 & S1); [lia|]. rewrite E1.
  destruct (put_spec i (fun _ => row') g) as (g' & E2 & L2 & S2); [lia|]. exists g'. split; [exact E2|]. split; [lia|]. split.
  - intros r Hr. apply In_nth_error in Hr as [k Hk]. rewrite S2 in Hk. destruct (Nat.eqb_spec k i) as [Ek|Hne].
    + rewrite Ek, Er in Hk. injection Hk as <-. lia.
    + apply Lr. eapply nth_error_In; eauto.
  - intros a b. unfold grid_at. rewrite S2. destruct (Nat.eqb_spec a i) as [->|Hne]; cbn [andb]; [|reflexivity].
    rewrite Er. cbn [option_map]. rewrite S1. destruct (Nat.eqb_spec b j) as [->|Hne]; [|reflexivity]. destruct (nth_error row j) eqn:Ej; [reflexivity|]. apply nth_error_None in Ej. lia.
Qed.

Section FM.
Variable cutoff : nat -> Q.

Definition well (n : nat) (fm : force_master) : Prop := fm_n fm = n /\ length (fm_grid fm) = n /\ (forall row, In row (fm_grid fm) -> length row = n) /\
  length (fm_max fm) = n /\ length (fm_does fm) = n.
Lemma new_well n : well n (new_fm n).
Proof.
  unfold new_fm, setNTypes. repeat split; cbn; rewrite ?repeat_length; auto. intros row Hr. apply repeat_spec in Hr. subst. apply repeat_length.
Qed.
Lemma raise_spec t c m : (t < length m)%nat -> exists m', raise_max t c m = Some m' /\ length m' = length m /\
  forall j, nth_error m' j = if (j =? t)%nat then option_map (fun v => if Qltb v c then c else v) (nth_error m j) else nth_error m j.
Proof. intros H. unfold raise_max. now apply put_spec. Qed.

Definition raised (s : setting) (t : nat) (v : Q) : Q :=
  match s_it s with Some i => if ((t =? s_a s) || (t =? s_b s))%nat then (if Qltb v (cutoff i) then cutoff i else v) else v | None => v end.

Lemma set_spec n fm s : well n fm -> (s_a s < n)%nat -> (s_b s < n)%nat ->
  exists fm', setInteraction cutoff (s_a s) (s_b s) (s_it s) (s_refl s) fm = Some fm' /\ well n fm' /\
    (forall a b, grid_at (fm_grid fm') a b = if ((a =? s_a s) && (b =? s_b s) || s_refl s && ((a =? s_b s) && (b =? s_a s)))%nat then s_it s else grid_at (fm_grid fm) a b) /\
    fm_list fm' = match s_it s with Some i => if existsb (Nat.eqb i) (fm_list fm) then fm_list fm else fm_list fm ++ [i] | None => fm_list fm end /\
    (forall t v, nth_error (fm_max fm) t = Some v -> nth_error (fm_max fm') t = Some (raised s t v)) /\
    fm_any fm' = fm_any fm.
Proof.
  intros (W1 & W2 & W3 & W4 & W5) Ha Hb. unfold setInteraction.
  destruct (set_grid_spec n (s_a s) (s_b s) (s_it s) (fm_grid fm) W2 W3 Ha Hb) as (g1 & E1 & L1 & R1 & S1). rewrite E1.
  assert (X : exists g2, (if s_refl s then set_grid (s_b s) (s_a s) (s_it s) g1 else Some g1) = Some g2 /\ length g2 = n /\ (forall row, In row g2 -> length row = n) /\
     forall a b, grid_at g2 a b = if ((a =? s_a s) && (b =? s_b s) || s_refl s && ((a =? s_b s) && (b =? s_a s)))%nat then s_it s else grid_at (fm_grid fm) a b).
  { destruct (s_refl s).
    - destruct (set_grid_spec n (s_b s) (s_a s) (s_it s) g1 L1 R1 Hb Ha) as (g2 & E2 & L2 & R2 & S2). exists g2. split; [exact E2|]. split; [exact L2|]. split; [exact R2|].
      intros a b. rewrite S2, S1. cbn [andb]. destruct ((a =? s_b s) && (b =? s_a s))%nat; [now rewrite orb_true_r|]. now rewrite orb_false_r.
    - exists g1. split; [reflexivity|]. split; [exact L1|]. split; [exact R1|]. intros a b. rewrite S1. cbn [andb]. now rewrite orb_false_r. }
  destruct X as (g2 & E2 & L2 & R2 & S2). rewrite E2. unfold raised. destruct (s_it s) as [i|].
  - destruct (raise_spec (s_a s) (cutoff i) (fm_max fm)) as (m1 & E3 & L3 & S3); [lia|]. rewrite E3.
    destruct (raise_spec (s_b s) (cutoff i) m1) as (m2 & E4 & L4 & S4); [lia|]. rewrite E4.
    eexists. split; [reflexivity|]. unfold well. cbn [fm_n fm_grid fm_list fm_max fm_does fm_any]. split; [repeat split; auto; lia|]. split; [exact S2|]. split; [reflexivity|]. split; [|reflexivity].
    intros t v Hv. rewrite S4, S3, Hv. cbn [option_map]. destruct (Nat.eqb_spec t (s_a s)) as [E1'|N1]; destruct (Nat.eqb_spec t (s_b s)) as [E|N2]; cbn [option_map orb]; try reflexivity.
    destruct (Qltb v (cutoff i)) eqn:El; [|now rewrite El]. replace (Qltb (cutoff i) (cutoff i)) with false; [reflexivity|]. symmetry. unfold Qltb. apply negb_false_iff. apply Qle_bool_iff. lra.
  - eexists. split; [reflexivity|]. unfold well. cbn [fm_n fm_grid fm_list fm_max fm_does fm_any]. split; [repeat split; auto; lia|]. split; [exact S2|]. split; [reflexivity|]. split; [|reflexivity]. auto.
Qed.

Lemma settings_app a : forall b fm, apply_settings cutoff (a ++ b) fm = match apply_settings cutoff a fm with Some f1 => apply_settings cutoff b f1 | None => None end.
Proof. induction a as [|s a IH]; intros b fm; [reflexivity|]. cbn. destruct (setInteraction cutoff (s_a s) (s_b s) (s_it s) (s_refl s) fm); auto. Qed.

Definition concernsb (s : setting) (a b : nat) : bool := ((a =? s_a s) && (b =? s_b s) || s_refl s && ((a =? s_b s) && (b =? s_a s)))%nat.
Lemma concernsb_spec s a b : concernsb s a b = true <-> concerns s a b.
Proof.
  unfold concernsb, concerns. rewrite orb_true_iff, !andb_true_iff, !Nat.eqb_eq. intuition.
Qed.
Lemma in_force_snoc_hit ss s a b : concerns s a b -> in_force (ss ++ [s]) a b (s_it s).
Proof. intros H. apply IF_last; [exact H|intros ? []]. Qed.
Lemma in_force_snoc_miss ss s a b it : ~ concerns s a b -> in_force ss a b it -> in_force (ss ++ [s]) a b it.
Proof.
  intros H HI. revert H. destruct HI as [ss0 a0 b0 H0|ss0 s0 ss1 a0 b0 H0 H1]; intros H.
  - apply IF_none. intros s' Hs. apply in_app_or in Hs as [Hs|[<-|[]]]; auto.
  - rewrite <- app_assoc. cbn. apply IF_last; [exact H0|]. intros s' Hs. apply in_app_or in Hs as [Hs|[<-|[]]]; auto.
Qed.

Lemma settings_spec n ss : valid_types n ss -> exists fm, apply_settings cutoff ss (new_fm n) = Some fm /\ well n fm /\
  (forall a b, in_force ss a b (grid_at (fm_grid fm) a b)) /\
  (NoDup (fm_list fm) /\ forall i, In i (fm_list fm) <-> exists s, In s ss /\ s_it s = Some i) /\
  (forall t, (t < n)%nat -> exists v, nth_error (fm_max fm) t = Some v /\ 1 <= v /\
     (forall s i, In s ss -> s_it s = Some i -> s_a s = t \/ s_b s = t -> cutoff i <= v) /\
     (v = 1 \/ exists s i, In s ss /\ s_it s = Some i /\ (s_a s = t \/ s_b s = t) /\ v = cutoff i)) /\
  fm_any fm = false.
Proof.
  induction ss as [|s ss IH] using rev_ind; intros HV.
  - exists (new_fm n). split; [reflexivity|]. split; [apply new_well|]. split; [|split; [|split; [|reflexivity]]].
    + intros a b. replace (grid_at (fm_grid (new_fm n)) a b) with (@None nat); [apply IF_none; intros ? []|]. unfold grid_at, new_fm, setNTypes. cbn [fm_grid].
      destruct (nth_error (repeat (repeat None n) n) a) as [row|] eqn:E; [|reflexivity]. apply nth_error_In, repeat_spec in E. subst row.
      destruct (nth_error (repeat None n) b) eqn:E; [|reflexivity]. apply nth_error_In, repeat_spec in E. auto.
    + split; [constructor|]. intros i. split; [intros []|intros (s & [] & _)].
    + intros t Ht. exists 1. split; [|split; [lra|split; [intros ? ? []|now left]]]. cbn. clear - Ht. revert t Ht. induction n as [|n IHn]; intros t Ht; [lia|]. destruct t; [reflexivity|]. cbn. apply IHn. lia.
  - destruct IH as (fm & E & W & G & (ND & LI) & M & A). { intros s0 Hs. apply HV. apply in_or_app. now left. }
    destruct (HV s) as [Ha Hb]; [apply in_or_app; right; now left|].
    destruct (set_spec n fm s W Ha Hb) as (fm' & E' & W' & G' & L' & M' & A').
    rewrite settings_app, E. cbn [apply_settings]. rewrite E'. exists fm'. split; [reflexivity|]. split; [exact W'|]. split; [|split; [|split; [|congruence]]].
    + intros a b. rewrite G'. fold (concernsb s a b). destruct (concernsb s a b) eqn:C.
      * apply in_force_snoc_hit. now apply concernsb_spec.
      * apply in_force_snoc_miss; [|apply G]. rewrite <- concernsb_spec. congruence.
    + assert (K : forall i, (exists s0, In s0 (ss ++ [s]) /\ s_it s0 = Some i) <-> (exists s0, In s0 ss /\ s_it s0 = Some i) \/ s_it s = Some i).
      { intros i. split.
        - intros (s0 & Hs & Hi). apply in_app_or in Hs as [Hs|[<-|[]]]; eauto.
        - intros [(s0 & Hs & Hi)|Hi]; [exists s0|exists s]; (split; [apply in_or_app|exact Hi]); [now left|right; now left]. }
      rewrite L'. destruct (s_it s) as [i|] eqn:Ei.
      * destruct (existsb (Nat.eqb i) (fm_list fm)) eqn:Ex.
        -- split; [exact ND|]. intros k. rewrite K, <- LI. split; [auto|]. intros [H|H]; [exact H|]. injection H as <-. apply existsb_exists in Ex as (x & Hx & Ex). apply Nat.eqb_eq in Ex. now subst.
        -- split.
           ++ apply nodup_app; [exact ND|repeat constructor; auto|]. intros x Hx [<-|[]].
              assert (existsb (Nat.eqb i) (fm_list fm) = true) by (apply existsb_exists; exists i; split; [exact Hx|apply Nat.eqb_refl]). congruence.
           ++ intros k. rewrite K, <- LI, in_app_iff. cbn. split; [intros [H|[<-|[]]]; auto|]. intros [H|H]; [auto|]. injection H as <-. auto.
      * split; [exact ND|]. intros k. rewrite K, <- LI. split; [auto|]. intros [H|H]; [exact H|discriminate].
    + intros t Ht. destruct (M t Ht) as (v & V1 & V2 & V3 & V4). exists (raised s t v). split; [now apply M'|]. unfold raised.
      destruct (s_it s) as [i|] eqn:Ei.
      * destruct ((t =? s_a s) || (t =? s_b s))%nat eqn:Et.
        -- assert (Hor : s_a s = t \/ s_b s = t) by (apply orb_true_iff in Et as [X|X]; apply Nat.eqb_eq in X; auto).
           destruct (Qltb_spec v (cutoff i)) as [El|El].
           ++ split; [lra|]. split.
              ** intros s0 i0 Hs Hi Ho. apply in_app_or in Hs as [Hs|[<-|[]]]; [specialize (V3 s0 i0 Hs Hi Ho); lra|]. assert (i0 = i) by congruence. subst. lra.
              ** right. exists s, i. split; [apply in_or_app; right; now left|auto].
           ++ apply Qnot_lt_le in El. split; [exact V2|]. split.
              ** intros s0 i0 Hs Hi Ho. apply in_app_or in Hs as [Hs|[<-|[]]]; [now apply (V3 s0)|]. assert (i0 = i) by congruence. now subst.
              ** destruct V4 as [V4|(s0 & i0 & X1 & X2)]; [now left|]. right. exists s0, i0. split; [apply in_or_app; now left|exact X2].
        -- apply orb_false_iff in Et as [T1 T2]. apply Nat.eqb_neq in T1, T2. split; [exact V2|]. split.
           ++ intros s0 i0 Hs Hi Ho. apply in_app_or in Hs as [Hs|[<-|[]]]; [now apply (V3 s0)|]. exfalso. destruct Ho; congruence.
           ++ destruct V4 as [V4|(s0 & i0 & X1 & X2)]; [now left|]. right. exists s0, i0. split; [apply in_or_app; now left|exact X2].
      * split; [exact V2|]. split.
        -- intros s0 i0 Hs Hi Ho. apply in_app_or in Hs as [Hs|[<-|[]]]; [now apply (V3 s0)|]. congruence.
        -- destruct V4 as [V4|(s0 & i0 & X1 & X2)]; [now left|]. right. exists s0, i0. split; [apply in_or_app; now left|exact X2].
Qed.

(* initialize *)
Lemma mark_spec n g ps : (forall i j, In (i, j) ps -> (i < n)%nat /\ (j < n)%nat) -> forall d any, length d = n ->
  let r := fold_left (mark_pair g) ps (d, any) in
  length (fst r) = n /\ (forall t, (t < n)%nat -> nth_error (fst r) t = Some true <-> nth_error d t = Some true \/ exists i j, In (i, j) ps /\ nonnull (grid_at g i j) = true /\ (i = t \/ j = t)) /\ (snd r = true <-> any = true \/ exists i j, In (i, j) ps /\ nonnull (grid_at g i j) = true).
Proof.
  induction ps as [|[i j] ps IH]; intros HP d any Ld r; unfold r; cbn [fold_left].
  - cbn [fst snd]. split; [exact Ld|]. split.
    + intros t Ht. split; [auto|]. intros [H|(i & j & [] & _)]. exact H.
    + split; [auto|]. intros [H|(i & j & [] & _)]. exact H.
  - assert (HP' : forall i j, In (i, j) ps -> (i < n)%nat /\ (j < n)%nat) by (intros a b H; apply HP; now right).
    destruct (HP i j (or_introl eq_refl)) as [Hi Hj]. unfold mark_pair at 2 4 6. destruct (nonnull (grid_at g i j)) eqn:En.
    + destruct (put_spec i (fun _ : bool => true) d) as (d1 & E1 & L1 & S1); [lia|]. cbn [fst]. rewrite E1.
      destruct (put_spec j (fun _ : bool => true) d1) as (d2 & E2 & L2 & S2); [lia|]. rewrite E2.
      destruct (IH HP' d2 true ltac:(lia)) as (A & B & C). split; [exact A|]. split.
      * intros t Ht. rewrite (B t Ht), S2, S1. split.
        -- intros [H|(a & b & X1 & X2 & X3)]; [|right; exists a, b; split; [now right|auto]].
           destruct (Nat.eqb_spec t j) as [->|Nj]; [right; exists i, j; split; [now left|auto]|]. destruct (Nat.eqb_spec t i) as [->|Ni]; [right; exists i, j; split; [now left|auto]|]. now left.
        -- intros [H|(a & b & [X|X1] & X2 & X3)]; [| |right; exists a, b; auto].
           ++ left. rewrite H. destruct (t =? j)%nat; destruct (t =? i)%nat; reflexivity.
           ++ injection X as -> ->. left. assert (Hd : nth_error d t <> None) by (apply nth_error_Some; lia). destruct (nth_error d t); [|congruence].
              destruct (Nat.eqb_spec t b); destruct (Nat.eqb_spec t a); try reflexivity. destruct X3; congruence.
      * rewrite C. split; [|auto]. intros _. right. exists i, j. split; [now left|exact En].
    + destruct (IH HP' d any Ld) as (A & B & C). split; [exact A|]. split.
      * intros t Ht. rewrite (B t Ht). split.
        -- intros [H|(a & b & X1 & X2)]; [now left|]. right. exists a, b. split; [now right|exact X2].
        -- intros [H|(a & b & [X|X1] & X2 & X3)]; [now left| |right; exists a, b; auto]. injection X as -> ->. congruence.
      * rewrite C. split.
        -- intros [H|(a & b & X1 & X2)]; [now left|]. right. exists a, b. split; [now right|exact X2].
        -- intros [H|(a & b & [X|X1] & X2)]; [now left| |right; exists a, b; auto]. injection X as -> ->. congruence.
Qed.
Lemma initialize_spec n fm : well n fm -> let fm' := initialize fm in well n fm' /\ fm_grid fm' = fm_grid fm /\ fm_list fm' = fm_list fm /\ fm_max fm' = fm_max fm /\ (forall t, (t < n)%nat -> exists b, nth_error (fm_does fm') t = Some b /\ (b = true <-> exists u, (u < n)%nat /\ (grid_at (fm_grid fm) t u <> None \/ grid_at (fm_grid fm) u t <> None))) /\ (fm_any fm' = true <-> fm_any fm = true \/ exists i j, (i < n)%nat /\ (j < n)%nat /\ grid_at (fm_grid fm) i j <> None).
Proof.
  intros (W1 & W2 & W3 & W4 & W5) fm'. unfold fm', initialize.
  destruct (mark_spec n (fm_grid fm) (list_prod (seq 0 (fm_n fm)) (seq 0 (fm_n fm)))) with (d := map (fun _ : bool => false) (fm_does fm)) (any := fm_any fm) as (A & B & C).
  { intros i j H. apply in_prod_iff in H as [H1 H2]. apply in_seq in H1, H2. lia. }
  { now rewrite map_length. }
  destruct (fold_left (mark_pair (fm_grid fm)) _ _) as [does any]. cbn [fst snd] in *. unfold well. cbn [fm_n fm_grid fm_list fm_max fm_does fm_any].
  split; [repeat split; auto|]. split; [reflexivity|]. split; [reflexivity|]. split; [reflexivity|].
  assert (NN : forall x, nonnull x = true <-> x <> None) by (intros [x|]; cbn; split; congruence).
  assert (PR : forall i j, In (i, j) (list_prod (seq 0 (fm_n fm)) (seq 0 (fm_n fm))) <-> (i < n)%nat /\ (j < n)%nat).
  { intros i j. rewrite in_prod_iff, !in_seq. lia. }
  split.
  - intros t Ht. destruct (nth_error does t) as [b|] eqn:Eb. 2:{ apply nth_error_None in Eb. lia. } exists b. split; [reflexivity|].
    assert (X : b = true <-> nth_error does t = Some true) by (rewrite Eb; split; congruence). rewrite X, (B t Ht). split.
    + intros [H|(i & j & H1 & H2 & H3)].
      * rewrite nth_error_map in H. destruct (nth_error (fm_does fm) t); discriminate.
      * apply PR in H1 as [Hi Hj]. apply NN in H2. destruct H3 as [->| ->]; [exists j|exists i]; auto.
    + intros (u & Hu & [H|H]); right; [exists t, u|exists u, t]; (split; [apply PR; auto|]); (split; [now apply NN|auto]).
  - rewrite C. split; (intros [H|(i & j & H)]; [now left|right; exists i, j]).
    + destruct H as [H1 H2]. apply PR in H1. apply NN in H2. tauto.
    + destruct H as (H1 & H2 & H3). split; [now apply PR|now apply NN].
Qed.
End FM.
